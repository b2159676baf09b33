(** src/planning/planner.cc: nodes of the search and their children. *)
From Coq Require Import String List Bool NArith ZArith Arith.
From Verif.Model Require Import Base Object Proposition State CombinationGenerator
  ParameterGenerator Syntax Formula Effects Derived NormalForm Consistency Text Pddl.
Import ListNotations.
Local Open Scope string_scope.
Local Open Scope list_scope.

(** planner.cc 22-52, NodeImpl.  ancestors_ is an unordered_set of nodes that are
    hashed and compared by their States only (115-125, 249-252), so only the
    States are kept, in a list without repetitions. *)
Record node : Type := mkNode {
  nd_state : state;
  nd_ancestors : list state;
  nd_action : string;
  nd_depth : nat
}.

(** planner.cc 142-146 and planner.h 85-114: it_action_ is the suffix of the
    actions that starts at it, it_param_ the suffix of the argument tuples of
    that action; the end is the empty suffix. [it_child] is child_, None for a
    default-constructed Node. *)
Record node_it : Type := mkNodeIt {
  it_actions : list op;
  it_params : list (list object);
  it_child : option node
}.

Section WithHash.
  Context `{SH : StdHash} (L : limits) (p : pddl).

  (** unordered_set::insert and count *)
  Definition has_state (s : state) (l : list state) : bool := existsb (st_eqb s) l.
  Definition add_state (s : state) (l : list state) : list state := if has_state s l then l else s :: l.

  (** planner.cc 38-42, 54-55 *)
  Definition root_node (s : state) : node := mkNode s [] "" 0.

  (** planner.h 92-93, Planner(pddl, state) *)
  Definition make_planner (w : state * store) : outcome (node * store) :=
    let* ' (s, st) := consistent_state (pd_om p) (pd_axioms p) (l_cascade L) (l_rounds L) w in
    Ok (root_node s, st).

  (** planner.cc 57-71, Node(parent, sibling, state, action) *)
  Definition child_node (parent : node) (sibling : option node) (s : state) (action : string) : node :=
    match sibling with
    | None => mkNode s (add_state (nd_state parent) (nd_ancestors parent)) action (S (nd_depth parent))
    | Some c => mkNode s (nd_ancestors c) action (nd_depth c)
    end.

  (** planner.cc 89-103 and 164-179: the new child_, and whether the loop stops
      at it. *)
  Definition try_tuple (n : node) (o : op) (args : list object) (child : option node) (st : store)
      : outcome (bool * (option node * store)) :=
    let* v := op_valid (pd_om p) (nd_state n) o args in
    if v : bool then
      let* ' (_, (s', st')) := apply_state (l_cascade L) (pd_om p) (pd_axioms p) (OAct (op_name o)) o args
                                 (nd_state n, st) in
      let* ' (_, s'') := pd_derive L p s' in
      let c := child_node n child s'' (action_to_string o args) in
      Ok (negb (has_state (nd_state c) (nd_ancestors c)), (Some c, st'))
    else Ok (false, (child, st)).

  (** planner.cc 143-183, iterator::operator++; [fuel] bounds the iterations. *)
  Fixpoint next_child (fuel : nat) (n : node) (it : node_it) (st : store) : outcome (node_it * store) :=
    match it_actions it with
    | [] => Ok (it, st)
    | o :: os =>
        match fuel with
        | O => OutOfFuel
        | S f =>
            let check o args it :=
              let* ' (stop, (c, st')) := try_tuple n o args (it_child it) st in
              let it' := mkNodeIt (it_actions it) (it_params it) c in
              if stop : bool then Ok (it', st') else next_child f n it' st' in
            match it_params it with
            | [] =>
                match os with
                | [] => Ok (mkNodeIt [] [] (it_child it), st)
                | o' :: _ =>
                    let* ts := var_tuples (pd_om p) (op_params o') in
                    match ts with
                    | [] => next_child f n (mkNodeIt os [] (it_child it)) st
                    | args :: _ => check o' args (mkNodeIt os ts (it_child it))
                    end
                end
            | _ :: ts =>
                match ts with
                | [] => next_child f n (mkNodeIt (o :: os) [] (it_child it)) st
                | args :: _ => check o args (mkNodeIt (o :: os) ts (it_child it))
                end
            end
        end
    end.

  (** planner.cc 79-107, begin, with the constructor 142-146, which dereferences
      actions().begin(). *)
  Definition begin_children (fuel : nat) (n : node) (st : store) : outcome (node_it * store) :=
    match pd_actions p with
    | [] => UB
    | o :: _ =>
        let* ts := var_tuples (pd_om p) (op_params o) in
        let it := mkNodeIt (pd_actions p) ts None in
        match ts with
        | [] => next_child fuel n it st
        | args :: _ =>
            let* ' (stop, (c, st')) := try_tuple n o args None st in
            let it' := mkNodeIt (pd_actions p) ts c in
            if stop : bool then Ok (it', st') else next_child fuel n it' st'
        end
    end.

  (** for (const Node& child : n): 109-113, end; 242-244, operator==;
      planner.h 102, operator*.  The nodes are copied, as all searches do.
      [k] bounds the iterations. *)
  Fixpoint collect (fuel k : nat) (n : node) (it : node_it) (st : store) : outcome (list node * store) :=
    match it_actions it with
    | [] => Ok ([], st)
    | _ =>
        match k with
        | O => OutOfFuel
        | S k' =>
            let* c := match it_child it with Some c => Ok c | None => UB end in
            let* ' (it', st') := next_child fuel n it st in
            let* ' (l, st'') := collect fuel k' n it' st' in
            Ok (c :: l, st'')
        end
    end.
  Definition node_children (fuel : nat) (n : node) (st : store) : outcome (list node * store) :=
    let* ' (it, st') := begin_children fuel n st in collect fuel fuel n it st'.

  (** planner.cc 115-117, operator bool *)
  Definition node_goal (n : node) : outcome bool := goal_holds p (nd_state n).
End WithHash.
