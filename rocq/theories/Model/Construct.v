(** What happens while a Pddl is constructed, before the initial state is made
    consistent: src/pddl.cc 157-213, 257-277 and 289-300; the constructors of
    Action (src/action.cc 330-343 with 48-313), Axiom (src/axiom.cc 111-118 with
    34-103), DerivedPredicate (src/derived_predicate.cc 19-26) and Formula
    (src/formula.cc 347-355).  What they store is computed where it is used; here
    are the exceptions, failed assertions and undefined behaviour. *)
From Coq Require Import String List Bool NArith ZArith Arith.
From Verif.Model Require Import Base Object Proposition State CombinationGenerator
  ParameterGenerator Syntax Formula Effects Derived NormalForm Consistency.
Import ListNotations.
Local Open Scope string_scope.
Local Open Scope list_scope.

(** A loop whose body may fail. *)
Definition each {A} (f : A -> outcome unit) : list A -> outcome unit :=
  fix each l := match l with [] => Ok tt | a :: l' => let* _ := f a in each l' end.

Section WithHash.
  Context `{SH : StdHash} (om : object_map).

  (** formula.cc 347-355: the formula is created for both kinds of states. *)
  Definition check_formula (g : goal) (params : list object) : outcome unit :=
    let* _ := compile false om g params in
    let* _ := compile true om g params in Ok tt.

  Section Effects.
    (** The axioms in Pddl::axiom_map() at the time. *)
    Context (axioms : list axiom).

    (** action.cc 78-139 and 167-228: creating the closures of an added or deleted
        literal, with those of the axioms it triggers (axiom.cc 236-279). *)
    Definition check_lit (params : list object) (pos : bool) (p : prop) : outcome unit :=
      if String.eqb (pname p) "=" then Ok tt
      else match om_find om (pname p) with
           | Some _ => Ok tt
           | None =>
               each (fun ia : nat * axiom =>
                       let* _ := create_app params (pargs p) (op_params (ax_op (snd ia))) (ax_args (snd ia)) in
                       Ok tt) (with_context axioms pos (pname p))
           end.

    (** action.cc 280-303 with 48-58 (CreateForall; the generator is made after
        the inner effects) and 262-267 (CreateCond). *)
    Fixpoint check_effs (params : list object) (e : effs) : outcome unit :=
      match e with
      | Effs foralls adds dels conds =>
          let* _ := each (fun vb : list object * effs =>
                            let* _ := check_effs (params ++ fst vb) (snd vb) in
                            let* _ := param_gen om (fst vb) in Ok tt) foralls in
          let* _ := each (check_lit params true) adds in
          let* _ := each (check_lit params false) dels in
          each (fun ce : goal * effs =>
                  let* _ := check_formula (fst ce) params in check_effs params (snd ce)) conds
      end.

    (** action.cc 330-339.  The effects are created for both kinds of states, the
        second time with the same outcome. *)
    Definition check_action (o : op) : outcome unit :=
      let* _ := param_gen om (op_params o) in
      let* _ := check_formula (op_pre o) (op_params o) in
      check_effs (op_params o) (op_effs o).

    (** axiom.cc 47-69: exceptions are caught; the normal form is dereferenced
        even if there is none. *)
    Definition shown (r : outcome (option dnf)) : outcome unit :=
      match r with
      | Ok (Some _) | Throw _ => Ok tt
      | Ok None => UB
      | UB => UB | AssertFail => AssertFail | OutOfFuel => OutOfFuel
      end.
    Definition check_text (o : op) : outcome unit :=
      let* _ := shown (create_goal om None (op_pre o) (op_params o) (op_params o)) in
      shown (create_effs om None (op_effs o) (op_params o) (op_params o)).

    (** axiom.cc 111-118 *)
    Definition make_axiom (o : op) : outcome axiom :=
      let* _ := check_action o in
      let* _ := prepare_arguments om o in
      let* a := extract_context o in
      let* _ := check_text o in
      Ok a.
  End Effects.

  (** derived_predicate.cc 19-26 *)
  Definition check_derived (d : derived) : outcome unit :=
    let* _ := param_gen om (dp_params d) in check_formula (dp_body d) (dp_params d).

  (** pddl.cc 258-277, 289-300: the axioms are created twice, the first time with
      an empty axiom map; the goal (264) only if there is a problem.  Predicates,
      state index and initial state (259, 261-263) cannot fail. *)
  Definition build (ops : list op) (ds : list derived) (g : option goal) : outcome (list axiom) :=
    let rules := filter op_is_axiom ops in
    let* first := mapM (make_axiom []) rules in
    let* _ := each check_derived ds in
    let* _ := match g with Some g => check_formula g [] | None => Ok tt end in
    let* axioms := mapM (make_axiom first) rules in
    let* _ := each (check_action axioms) (filter (fun o => negb (op_is_axiom o)) ops) in
    Ok axioms.
End WithHash.
