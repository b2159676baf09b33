(** src/derived_predicate.cc. *)
From Coq Require Import String List Bool NArith ZArith.
From Verif.Model Require Import Base Object Proposition State CombinationGenerator
  ParameterGenerator Syntax Formula.
Import ListNotations.

(** derived_predicate.cc 19-26: name, parameters and body of a derivation rule. *)
Record derived : Set := mkDer { dp_name : string; dp_params : list object; dp_body : goal }.

Section WithHash.
  Context `{SH : StdHash} (om : object_map).

  (** 34-38: body of the for loop; [is_iter_changed |= ...]. *)
  Definition derived_step (d : derived) (acc : bool * state) (args : list object)
      : outcome (bool * state) :=
    let* v := eval_state om (snd acc) (dp_body d) (dp_params d) args in
    let '(c, s') := if v : bool then st_insert (mkProp (dp_name d) args) (snd acc)
                    else st_erase (mkProp (dp_name d) args) (snd acc) in
    Ok (fst acc || c, s').

  (** 33-38: one iteration of the while loop. *)
  Definition derived_pass (d : derived) (s : state) : outcome (bool * state) :=
    let* ts := var_tuples om (dp_params d) in
    foldM (derived_step d) ts (false, s).

  (** 28-42, DerivedPredicate::Apply(State* ); [fuel] bounds the iterations. *)
  Fixpoint derived_apply (fuel : nat) (d : derived) (s : state) : outcome (bool * state) :=
    match fuel with
    | O => OutOfFuel
    | S n =>
        let* ' (c, s1) := derived_pass d s in
        if c : bool then let* ' (_, s2) := derived_apply n d s1 in Ok (true, s2)
        else Ok (false, s1)
    end.

  (** 49-52: body of the while loop over all rules. *)
  Definition derived_round (fuel : nat) (ds : list derived) (s : state) : outcome (bool * state) :=
    foldM (fun acc d => let* ' (c, s') := derived_apply fuel d (snd acc) in Ok (fst acc || c, s'))
      ds (false, s).

  (** 44-57, DerivedPredicate::Apply(predicates, State* ); [inner] bounds the
      iterations for one rule, [outer] those over all rules. *)
  Fixpoint derived_all (inner outer : nat) (ds : list derived) (s : state) : outcome (bool * state) :=
    match outer with
    | O => OutOfFuel
    | S n =>
        let* ' (c, s1) := derived_round inner ds s in
        if c : bool then let* ' (_, s2) := derived_all inner n ds s1 in Ok (true, s2)
        else Ok (false, s1)
    end.

  (** 59-64, DerivedPredicate::Apply(state, predicates); pddl.cc 355-357. *)
  Definition derived_state (inner outer : nat) (ds : list derived) (s : state) : outcome state :=
    let* ' (_, s') := derived_all inner outer ds s in Ok s'.
End WithHash.
