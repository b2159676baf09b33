(** C55 and C56: adding and removing objects. *)
From Coq Require Import Ascii String List Bool NArith ZArith Arith.
From Verif.Model Require Import Base Object Proposition State ParameterGenerator Syntax Formula
  Effects Derived Consistency Text Pddl Objects.
From Verif.Spec Require Import SetSpec TypingSpec FormulaSpec EffectSpec DerivedSpec TextSpec AxiomSpec PddlSpec
  ObjectsSpec.
From Verif.Proofs Require Import StateHistory EffectExamples AxiomExamples DerivedExamples PddlExamples
  ObjectsFacts ObjectsExamples.
From Verif.Properties Require Import StateProps ParameterProps FormulaProps.
Import ListNotations.
Local Open Scope string_scope.
Local Open Scope list_scope.

(** C55. An object added under a new name is found by that name, with the type
    asked for if the domain declares it; other names and calls mean what they
    did. *)
Theorem C55_found_partial : forall types p name ty w, constructed p ->
  ~ In name (map oname (pd_symbols p)) -> add_object (Some types) name ty (unedited p) = Ok w ->
  (exists o, ed_object w name = Ok o /\ oname o = name /\ In o (pd_objects (ed_pddl w)) /\
     (forall t, In t types -> t <> [] -> type_name t = ty -> NoDup (map type_name types) ->
        otype o = t /\ has_type o ty)) /\
  (forall x, x <> name -> ed_object w x = get_object (pd_symbols p) x) /\
  (forall call r, pd_parse p call = Ok r -> ed_parse w call = Ok r).
Proof. exact @add_lemma. Qed.
Print Assumptions C55_found_partial.

(** Missing: it should also be enumerated.  It is accepted in a call that no
    listing mentions ... *)
Theorem C55_enumerated_refuted : exists (SH : StdHash) L p ar rank drank types w s o name ty call l,
  good_domain L p ar rank drank /\ constructed p /\ add_object (Some types) name ty (unedited p) = Ok w /\ built s /\
  ed_parse w call = Ok (o, l) /\ In name (map oname l) /\ ed_valid_action w s call = Ok true /\
  ~ In name (map oname (pd_symbols p)) /\
  ed_list_valid_actions w s = Ok [] /\ list_valid_arguments (ed_pddl w) s o = Ok [].
Proof. exact enumerated_refuted. Qed.
Print Assumptions C55_enumerated_refuted.

(** ... and whatever edits are made, only the objects the Pddl was constructed
    with are enumerated. *)
Theorem C55_never_enumerated : forall (SH : StdHash) L p ar rank drank, good_domain L p ar rank drank ->
  Forall (fun o => (tuple_count (pd_symbols p) (op_params o) < 2 ^ 31)%Z) (pd_ops p) ->
  forall types es w, do_edits types es (unedited p) = Ok w ->
  forall s o, built s -> In o (pd_ops p) ->
  list_valid_arguments (ed_pddl w) s o = list_valid_arguments p s o /\
  exists l, list_valid_arguments p s o = Ok l /\ forall args a, In args l -> In a args -> In a (pd_symbols p).
Proof. exact @enumeration_lemma. Qed.
Print Assumptions C55_never_enumerated.

(** Without a (:types ...) section AddObject is undefined. *)
Theorem C55_untyped_refuted : exists p, constructed p /\ add_object None "cup" "object" (unedited p) = UB.
Proof. exists ex_pddl. split; [exact ex_pddl_constructed|reflexivity]. Qed.
Print Assumptions C55_untyped_refuted.

Example C55_example : constructed ex_pddl /\ ~ In "cup" (map oname (pd_symbols ex_pddl)) /\
  ed_object with_cup "cup" = Ok (mkObj "cup" ["thing"; "object"] KConst) /\
  map oname (pd_objects (ed_pddl with_cup)) = ["table"; "hook"; "box"; "here"; "cup"] /\
  ed_valid_action (SH := collide) with_cup cup_state "move(cup, box, hook)" = Ok true.
Proof.
  split; [exact ex_pddl_constructed|]. split; [cbn; intuition discriminate|].
  split; [reflexivity|]. split; vm_compute; reflexivity.
Qed.

(** C56. After any sequence of additions under new names and removals of
    objects that are not constants of the domain, exactly the names added and
    not removed since are found and listed. *)
Theorem C56_history_partial : forall types p es, constructed p ->
  careful (map oname (pd_constants p)) es (fun x => In x (map oname (pd_symbols p))) ->
  exists w, do_edits types es (unedited p) = Ok w /\
    forall x, let present := present_all es (fun x => In x (map oname (pd_symbols p))) x in
      (found w x <-> present) /\ (not_found w x <-> ~ present) /\ (listed w x <-> present).
Proof. exact history_lemma. Qed.
Print Assumptions C56_history_partial.

(** If only objects that were added are removed, everything stays defined and
    as it was. *)
Theorem C56_safe_partial : forall (SH : StdHash) L p ar rank drank, good_domain L p ar rank drank ->
  Forall (fun o => (tuple_count (pd_symbols p) (op_params o) < 2 ^ 31)%Z) (pd_ops p) ->
  forall types es w, constructed p -> edits_new p es -> do_edits types es (unedited p) = Ok w ->
  (forall s, built s -> ed_list_valid_actions w s = list_valid_actions p s) /\
  ed_initial_state w = Ok (stringify (pd_init p)) /\
  (forall x, In x (map oname (pd_symbols p)) -> ed_object w x = get_object (pd_symbols p) x) /\
  (forall x, found w x \/ not_found w x).
Proof. exact @safe_lemma. Qed.
Print Assumptions C56_safe_partial.

(** Removing what was just added gives back the same Pddl. *)
Theorem C56_round_trip : forall types p name ty w, constructed p -> ~ In name (map oname (pd_symbols p)) ->
  add_object (Some types) name ty (unedited p) = Ok w -> ed_pddl (remove_object name w) = p.
Proof. exact round_trip. Qed.
Print Assumptions C56_round_trip.

(** Missing: an object of the problem file is still enumerated after its
    removal, and its deleted symbol is read. *)
Theorem C56_enumerated_refuted : exists (SH : StdHash) L p ar rank drank name,
  good_domain L p ar rank drank /\ constructed p /\ ~ In name (map oname (pd_constants p)) /\
  let w := remove_object name (unedited p) in
  not_found w name /\ ed_list_valid_actions w (pd_init p) = UB /\ ed_initial_state w = UB /\
  exists s o l, built s /\ list_valid_arguments (ed_pddl w) s o = Ok l /\ In name (map oname (concat l)).
Proof. exact removed_refuted. Qed.
Print Assumptions C56_enumerated_refuted.

(** After the removal of a constant of the domain, looking up any name but
    those of earlier constants is undefined. *)
Theorem C56_constant_refuted : forall p c1 c c2, constructed p -> pd_constants p = c1 ++ c :: c2 ->
  forall x, ~ In x (map oname c1) -> ed_object (remove_object (oname c) (unedited p)) x = UB.
Proof. exact constant_lemma. Qed.
Print Assumptions C56_constant_refuted.

Example C56_example :
  let es := [Add "cup" "thing"; Remove "box"; Add "mug" "robot"; Remove "cup"; Remove "plate"; Add "box" "thing"] in
  let new := [Add "cup" "thing"; Add "mug" "robot"; Remove "cup"] in
  careful (map oname (pd_constants ex_pddl)) es (fun x => In x (map oname (pd_symbols ex_pddl))) /\
  edits_new ex_pddl new /\
  (let* w := do_edits ex_types es (unedited ex_pddl) in Ok (map oname (pd_objects (ed_pddl w)))) =
    Ok ["table"; "hook"; "here"; "mug"; "box"] /\
  (let* w := do_edits ex_types es (unedited ex_pddl) in ed_object w "box") = Ok (mkObj "box" ["thing"; "object"] KConst) /\
  (let* w := do_edits ex_types es (unedited ex_pddl) in ed_object w "cup") = Throw ERuntime /\
  (let* w := do_edits ex_types new (unedited ex_pddl) in ed_list_valid_actions (SH := collide) w (pd_init ex_pddl)) =
    Ok ["move(hook, box, table)"] /\
  ed_object (remove_object "table" (unedited ex_pddl)) "hook" = UB.
Proof.
  cbn zeta. split; [cbn; intuition discriminate|]. split.
  { intros e [<-|[<-|[<-|[]]]]; cbn; intuition discriminate. }
  repeat split; vm_compute; reflexivity.
Qed.
