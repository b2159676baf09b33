(** src/normal_form.cc 480-562: the normal forms of the conditions of an action
    and of the goal. *)
From Coq Require Import String List Bool NArith ZArith Arith.
From Verif.Model Require Import Base Object Proposition State CombinationGenerator
  ParameterGenerator Syntax Formula Effects NormalForm Consistency Text Pddl.
Import ListNotations.
Local Open Scope string_scope.
Local Open Scope list_scope.

Section WithHash.
  Context `{SH : StdHash}.
  Context (L : limits) (p : pddl).

  (** normal_form.cc 494-503, 519-524, 537-542, 554-559: every conjunction is
      replaced by pddl.ConsistentState(conj), in order. *)
  Definition consistent_all (d : dnf) (st : store) : outcome (dnf * store) :=
    foldM (fun acc c =>
             let* ' (c', st') := consistent_partial (pd_om p) (pd_axioms p) (l_cascade L) (c, snd acc) in
             Ok (fst acc ++ [c'], st')) d ([], st).

  (** The if (apply_axioms) of 518-526, 536-544 and 553-561, after the test
      of has_value. *)
  Definition finish (apply_axioms : bool) (r : option dnf) (st : store) : outcome (option dnf * store) :=
    match r with
    | None => Ok (None, st)
    | Some d =>
        if apply_axioms then let* ' (d', st') := consistent_all d st in Ok (Some d', st') else Ok (Some d, st)
    end.

  (** action.h 81, normal_form.cc 485-487, 513-515: Create on the preconditions. *)
  Definition create_pre (o : op) (args : list object) : outcome (option dnf) :=
    create_goal (pd_om p) None (op_pre o) (op_params o) args.
  (** normal_form.cc 489-490, 532-533: Create on the postconditions. *)
  Definition create_post (o : op) (args : list object) : outcome (option dnf) :=
    create_effs (pd_om p) None (op_effs o) (op_params o) args.

  (** normal_form.cc 480-508, NormalizeConditions *)
  Definition normalize_conditions (call : string) (apply_axioms : bool) (st : store)
      : outcome (option (dnf * dnf) * store) :=
    let* ' (o, args) := pd_parse p call in
    let* pre := create_pre o args in
    match pre with
    | None => Ok (None, st)
    | Some pre =>
        let* post := create_post o args in
        match post with
        | None => Ok (None, st)
        | Some post =>
            if apply_axioms then
              let* ' (pre', st1) := consistent_all pre st in
              let* ' (post', st2) := consistent_all post st1 in
              Ok (Some (pre', post'), st2)
            else Ok (Some (pre, post), st)
        end
    end.

  (** normal_form.cc 510-527, NormalizePreconditions *)
  Definition normalize_preconditions (call : string) (apply_axioms : bool) (st : store)
      : outcome (option dnf * store) :=
    let* ' (o, args) := pd_parse p call in
    let* pre := create_pre o args in finish apply_axioms pre st.

  (** normal_form.cc 529-545, NormalizePostconditions *)
  Definition normalize_postconditions (call : string) (apply_axioms : bool) (st : store)
      : outcome (option dnf * store) :=
    let* ' (o, args) := pd_parse p call in
    let* post := create_post o args in finish apply_axioms post st.

  (** normal_form.cc 547-562, NormalizeGoal *)
  Definition normalize_goal (apply_axioms : bool) (st : store) : outcome (option dnf * store) :=
    let* g := create_goal (pd_om p) None (pd_goal p) [] [] in finish apply_axioms g st.
End WithHash.
