(** src/pddl.cc 516-543: adding and removing objects of a Pddl that has a
    problem (without one both functions follow a null pointer). *)
From Coq Require Import String List Bool NArith ZArith Arith.
From Verif.Model Require Import Base Object Proposition State ParameterGenerator Syntax Formula
  Effects Derived Consistency Text Pddl.
Import ListNotations.
Local Open Scope string_scope.
Local Open Scope list_scope.

(** The Pddl together with the names of the symbols that RemoveObject has
    deleted.  An Object points to its symbol (object.h 122-127), and Objects
    made by the constructor stay in object_map_, in the parameter generators, in
    the initial state and in VAL's list of constants.  Constructing and
    enumerating only ever yields symbols the constructor has seen, so that (the
    names being distinct) a name identifies the symbol. *)
Record edited : Type := mkEdited { ed_pddl : pddl; ed_dead : list string }.
Definition unedited (p : pddl) : edited := mkEdited p [].

(** pddl.cc 518-522: the first declared type with the given name. *)
Definition find_type (types : list pddl_type) (name : string) : option pddl_type :=
  find (fun t => String.eqb (type_name t) name) types.

(** pddl.cc 516-525, AddObject.  [types] is the_domain->types, a null pointer
    ([None]) if the domain declares none.  object_map_ is not changed, nor are
    the parameter generators built from it. *)
Definition add_object (types : option (list pddl_type)) (name type : string) (w : edited) : outcome edited :=
  match types with
  | None => UB
  | Some types =>
      let o := mkObj name (get_type_symbol types (find_type types type)) KConst in
      let p := ed_pddl w in
      Ok (mkEdited (mkPddl (pd_constants p) (pd_problem_objects p ++ [o]) (pd_objects p ++ [o]) (pd_om p)
                      (pd_ops p) (pd_axioms p) (pd_derived p) (pd_init p) (pd_goal p)) (ed_dead w))
  end.

(** pddl.cc 528-531, 534-538: erases the first one with the name. *)
Fixpoint erase_first (name : string) (l : list object) : list object :=
  match l with
  | [] => []
  | o :: l' => if String.eqb (oname o) name then l' else o :: erase_first name l'
  end.

(** pddl.cc 527-543, RemoveObject *)
Definition remove_object (name : string) (w : edited) : edited :=
  let p := ed_pddl w in
  if existsb (fun o => String.eqb (oname o) name) (pd_objects p) then
    mkEdited (mkPddl (pd_constants p) (erase_first name (pd_problem_objects p))
                (erase_first name (pd_objects p)) (pd_om p)
                (pd_ops p) (pd_axioms p) (pd_derived p) (pd_init p) (pd_goal p))
      (name :: ed_dead w)
  else w.

Definition dead (w : edited) (o : object) : bool := existsb (String.eqb (oname o)) (ed_dead w).

(** object.cc 38-56, GetSymbol: the names of the constants are compared until
    one matches; reading that of a deleted symbol is undefined.  Symbols are
    taken out of the list of problem objects before they are deleted. *)
Fixpoint find_constant (w : edited) (l : list object) (name : string) : outcome (option object) :=
  match l with
  | [] => Ok None
  | o :: l' =>
      if dead w o then UB
      else if String.eqb (oname o) name then Ok (Some o) else find_constant w l' name
  end.
Definition ed_object (w : edited) (name : string) : outcome object :=
  let* c := find_constant w (pd_constants (ed_pddl w)) name in
  match c with
  | Some o => Ok o
  | None => get_object (pd_problem_objects (ed_pddl w)) name
  end.

(** object.cc 129-138, ParseArguments *)
Definition ed_arguments (w : edited) (s : string) : outcome (list object) :=
  mapM (ed_object w) (tokenize s).

(** action.cc 381-412, Parse, as parse_action in Text.v. *)
Definition ed_parse (w : edited) (call : string) : outcome (op * list object) :=
  let* o := get_op (pd_ops (ed_pddl w)) (parse_head call) in
  let* args := ed_arguments w call in
  if Nat.eqb (length (op_params o)) (length args) then
    let* _ := check_types (op_params o) args in Ok (o, args)
  else Throw EInvalidArgument.

Section WithHash.
  Context `{SH : StdHash}.

  (** pddl.cc 401-410, IsValidAction *)
  Definition ed_valid_action (w : edited) (s : state) (call : string) : outcome bool :=
    let* ' (o, args) := ed_parse w call in op_valid (pd_om (ed_pddl w)) s o args.

  (** pddl.cc 499-509, ListValidActions(state): printing a call (action.cc
      369-379) reads the names of its arguments.  Simplification: reads of
      deleted names while preconditions are evaluated are not counted. *)
  Definition ed_list_valid_actions (w : edited) (s : state) : outcome (list string) :=
    foldM (fun acc o =>
             let* l := list_valid_arguments (ed_pddl w) s o in
             if existsb (existsb (dead w)) l then UB
             else Ok (acc ++ map (action_to_string o) l)) (pd_actions (ed_pddl w)) [].
End WithHash.

(** python/symbolic.cc 275-276 and pddl.cc 545-551: initial_state() as strings. *)
Definition ed_initial_state (w : edited) : outcome (list string) :=
  if existsb (fun q => existsb (dead w) (pargs q)) (st_elements (pd_init (ed_pddl w))) then UB
  else Ok (stringify (pd_init (ed_pddl w))).
