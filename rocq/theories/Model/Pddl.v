(** src/pddl.cc: the Pddl class. *)
From Coq Require Import String List Bool NArith ZArith Arith.
From Verif.Model Require Import Base Object Proposition State CombinationGenerator
  ParameterGenerator Syntax Formula Effects Derived NormalForm Consistency Construct Text.
Import ListNotations.
Local Open Scope string_scope.
Local Open Scope list_scope.

(** Bounds on the loops and recursions that need not end: depth of cascades of
    axioms, iterations for one derived predicate and for all, rounds of
    ConsistentState. *)
Record limits : Set := mkLimits {
  l_cascade : nat;
  l_inner : nat;
  l_outer : nat;
  l_rounds : nat
}.

(** The members of Pddl (pddl.h 253-271).  [pd_constants] and
    [pd_problem_objects] are the lists kept by VAL, [pd_objects] is objects_ and
    [pd_om] is object_map_.  predicates_ and state_index_ are in StateIndex.v. *)
Record pddl : Type := mkPddl {
  pd_constants : list object;
  pd_problem_objects : list object;
  pd_objects : list object;
  pd_om : object_map;
  pd_ops : list op;
  pd_axioms : list axiom;
  pd_derived : list derived;
  pd_init : state;
  pd_goal : goal
}.

(** object.cc 40-52: where names of objects are looked up. *)
Definition pd_symbols (p : pddl) : list object := pd_constants p ++ pd_problem_objects p.

(** pddl.cc 157-165, GetActions *)
Definition pd_actions (p : pddl) : list op := filter (fun o => negb (op_is_axiom o)) (pd_ops p).

Section WithHash.
  Context `{SH : StdHash}.

  (** pddl.cc 215-229, GetInitialState: [props] are the add effects of the
      :init section. *)
  Definition initial_state (props : list prop) : state :=
    fold_left (fun s p => snd (st_insert p s)) props st_empty.

  (** The constructors after parsing: pddl.cc 250-282 with and 284-301 without a
      problem and its goal.  The rest of the record is not used in the second
      case. *)
  Definition make_from (L : limits) (constants objects : list object) (ops : list op)
      (ds : list derived) (init : list prop) (g : option goal) (apply_axioms : bool) : outcome (pddl * store) :=
    let om := create_object_map (constants ++ objects) in
    let* axioms := build om ops ds g in
    let s := initial_state init in
    let* ' (s', st) := (if apply_axioms
                        then consistent_state om axioms (l_cascade L) (l_rounds L) (s, no_store)
                        else Ok (s, no_store)) in
    Ok (mkPddl constants objects (constants ++ objects) om ops axioms ds s'
          (match g with Some g => g | None => GOther end), st).
  (** pddl.cc 250-282, Pddl(domain, problem, apply_axioms), after parsing *)
  Definition make_pddl (L : limits) (constants objects : list object) (ops : list op)
      (ds : list derived) (init : list prop) (g : goal) (apply_axioms : bool) : outcome (pddl * store) :=
    make_from L constants objects ops ds init (Some g) apply_axioms.

  Context (L : limits) (p : pddl).

  (** action.cc 381-412, Action::Parse *)
  Definition pd_parse (call : string) : outcome (op * list object) :=
    parse_action (pd_symbols p) (pd_ops p) call.

  (** action.h 53-55, 349-354 on the Action made by Action::Parse, which lives
      only during the call: its vectors are new and are dropped afterwards. *)
  Definition temp_apply (o : op) (args : list object) (w : state * store) : outcome (nat * (state * store)) :=
    let* ' (n, (s', st')) := apply_state (l_cascade L) (pd_om p) (pd_axioms p) (OAct (op_name o)) o args
                               (fst w, forget_actions (snd w)) in
    Ok (n, (s', restore_actions (snd w) st')).

  (** derived_predicate.cc 44-57 *)
  Definition pd_derive (s : state) : outcome (bool * state) :=
    derived_all (pd_om p) (l_inner L) (l_outer L) (pd_derived p) s.

  (** pddl.cc 231-237, Apply(state, action, arguments, predicates) *)
  Definition apply_copy (o : op) (args : list object) (w : state * store) : outcome (state * store) :=
    let* ' (_, (s', st')) := temp_apply o args w in
    let* ' (_, s'') := pd_derive s' in
    Ok (s'', st').

  (** pddl.cc 239-244, Apply(action, arguments, predicates, state): the result
      and the new state. *)
  Definition apply_in_place (o : op) (args : list object) (w : state * store) : outcome (bool * (state * store)) :=
    let* ' (n, (s', st')) := temp_apply o args w in
    let* ' (c, s'') := pd_derive s' in
    Ok (negb (Nat.eqb n 0) || c, (s'', st')).

  (** pddl.cc 322-331, NextState *)
  Definition next_state (call : string) (w : state * store) : outcome (state * store) :=
    let* ' (o, args) := pd_parse call in apply_copy o args w.

  (** pddl.cc 341-353, ApplyActions *)
  Definition apply_actions (calls : list string) (w : state * store) : outcome (state * store) :=
    foldM (fun w call =>
             let* ' (o, args) := pd_parse call in
             let* ' (_, w') := apply_in_place o args w in Ok w') calls w.

  (** pddl.cc 401-410, IsValidAction *)
  Definition is_valid_action (s : state) (call : string) : outcome bool :=
    let* ' (o, args) := pd_parse call in op_valid (pd_om p) s o args.

  (** pddl.cc 429-439, IsValidTuple(state, action_call, next_state) *)
  Definition is_valid_tuple (w : state * store) (call : string) (s' : state) : outcome (bool * store) :=
    let* ' (o, args) := pd_parse call in
    let* v := op_valid (pd_om p) (fst w) o args in
    if v : bool then
      let* ' (s1, st1) := apply_copy o args w in Ok (st_eqb s1 s', st1)
    else Ok (false, snd w).

  (** pddl.cc 113-120, 440-447, IsValidTuple on sets of strings *)
  Definition is_valid_tuple_str (strs : list string) (call : string) (strs' : list string) (st : store)
      : outcome (bool * store) :=
    let* s := parse_state (pd_symbols p) strs in
    let* s' := parse_state (pd_symbols p) strs' in
    is_valid_tuple (s, st) call s'.

  (** formula.h, goal_(state) *)
  Definition goal_holds (s : state) : outcome bool := eval_state (pd_om p) s (pd_goal p) [] [].

  (** pddl.cc 449-454, IsGoalSatisfied *)
  Definition is_goal_satisfied (strs : list string) : outcome bool :=
    let* s := parse_state (pd_symbols p) strs in goal_holds s.

  (** pddl.cc 456-469, IsValidPlan *)
  Fixpoint valid_plan_from (calls : list string) (w : state * store) : outcome (bool * store) :=
    match calls with
    | [] => let* b := goal_holds (fst w) in Ok (b, snd w)
    | call :: calls' =>
        let* ' (o, args) := pd_parse call in
        let* v := op_valid (pd_om p) (fst w) o args in
        if v : bool then
          let* ' (_, w') := apply_in_place o args w in valid_plan_from calls' w'
        else Ok (false, snd w)
    end.
  Definition is_valid_plan (calls : list string) (st : store) : outcome (bool * store) :=
    valid_plan_from calls (pd_init p, st).

  (** pddl.cc 474-478: the tuples that satisfy the precondition, in order. *)
  Fixpoint filterM {A} (f : A -> outcome bool) (l : list A) : outcome (list A) :=
    match l with
    | [] => Ok []
    | a :: l' => let* b := f a in let* r := filterM f l' in Ok (if b : bool then a :: r else r)
    end.

  (** pddl.cc 471-480, ListValidArguments(state, action) *)
  Definition list_valid_arguments (s : state) (o : op) : outcome (list (list object)) :=
    let* ts := var_tuples (pd_om p) (op_params o) in
    filterM (fun args => op_valid (pd_om p) s o args) ts.

  (** pddl.cc 481-489, 566-580, ListValidArguments on strings *)
  Definition list_valid_arguments_str (strs : list string) (name : string) : outcome (list (list string)) :=
    let* s := parse_state (pd_symbols p) strs in
    let* o := get_op (pd_ops p) (parse_head name) in
    let* l := list_valid_arguments s o in
    Ok (map (map oname) l).

  (** pddl.cc 499-509, ListValidActions(state) *)
  Definition list_valid_actions (s : state) : outcome (list string) :=
    foldM (fun acc o => let* l := list_valid_arguments s o in
                        Ok (acc ++ map (action_to_string o) l)) (pd_actions p) [].
  (** pddl.cc 511-514 *)
  Definition list_valid_actions_str (strs : list string) : outcome (list string) :=
    let* s := parse_state (pd_symbols p) strs in list_valid_actions s.
End WithHash.
