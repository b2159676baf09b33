(** C29-C32: axioms, valid and consistent states. *)
From Coq Require Import String List Bool NArith ZArith.
From Verif.Model Require Import Base Object Proposition HashSet State CombinationGenerator
  ParameterGenerator Syntax Formula Effects Consistency.
From Verif.Spec Require Import SetSpec TypingSpec FormulaSpec EffectSpec NormalFormSpec AxiomSpec.
From Verif.Proofs Require Import StateFacts StateHistory FormulaFacts EffectLink EffectTheorems
  EffectExamples AxiomLoops AxiomMeaning AxiomReject AxiomExtend AxiomTotal AxiomSound AxiomExamples.
From Verif.Properties Require Import StateProps ParameterProps FormulaProps EffectProps.
Import ListNotations.
Local Open Scope string_scope.
Local Open Scope list_scope.

(** C29. What ConsistentState returns passes IsValidState. *)
Theorem C29_valid : forall (SH : StdHash) om axioms fuel rounds s st s' st',
  built s -> consistent_state om axioms fuel rounds (s, st) = Ok (s', st') ->
  built s' /\ forall st2, is_valid_state om axioms fuel s' st2 = Ok true.
Proof. exact @C29_lemma. Qed.
Print Assumptions C29_valid.

(** The result satisfies the axioms read as implications. *)
Theorem C29_meaning : forall (SH : StdHash) objects,
  Forall (fun o => wf_type (otype o)) objects -> Forall (fun o => okind o = KConst) objects ->
  forall axioms fuel rounds s st s' st',
  Forall (wf_axiom objects) axioms -> built s ->
  consistent_state (create_object_map objects) axioms fuel rounds (s, st) = Ok (s', st') ->
  built s' /\ Forall (respects objects (atoms s')) axioms.
Proof. exact @C29_meaning_lemma. Qed.
Print Assumptions C29_meaning.

(** It need not return: no number of rounds suffices when two axioms contradict
    each other, even without cascades. *)
Theorem C29_diverges_refuted : exists (SH : StdHash) objects axioms s,
  Forall (fun o => wf_type (otype o)) objects /\ Forall (fun o => okind o = KConst) objects /\
  Forall (wf_axiom objects) axioms /\ (forall a, In a axioms -> quiet axioms (op_effs (ax_op a))) /\ built s /\
  forall fuel rounds st, consistent_state (create_object_map objects) axioms fuel rounds (s, st) = OutOfFuel.
Proof. exact diverges_refuted. Qed.
Print Assumptions C29_diverges_refuted.

Definition law_state : state := run (SH := collide)
  [Ins (mkProp "near" [ex_const "box"; ex_const "hook"]); Ins (sp "broken" "box"); Ins (sp "broken" "table")].
Definition result_keys (r : outcome (state * store)) : outcome (list atom) :=
  let* ' (s, _) := r in Ok (map prop_key (st_elements s)).

(** Two axioms, the first triggering the second. *)
Example C29_example :
  Forall (wf_axiom ex_objects) ex_rules /\ built (SH := collide) law_state /\
  result_keys (consistent_state (SH := collide) (create_object_map ex_objects) ex_rules 2 2 (law_state, no_store))
  = Ok [("near", ["box"; "hook"]); ("broken", ["table"]); ("reach", ["box"])].
Proof. split; [exact ex_rules_wf|]. split; [eexists; reflexivity|vm_compute; reflexivity]. Qed.

(** C30. A state is left alone exactly if it is valid. *)
Theorem C30_fixed : forall (SH : StdHash) om axioms fuel rounds s st s' st',
  built s -> consistent_state om axioms fuel rounds (s, st) = Ok (s', st') ->
  (s' = s <-> is_valid_state om axioms fuel s st = Ok true).
Proof. exact @C30_fixed_lemma. Qed.
Print Assumptions C30_fixed.

Theorem C30_returns : forall (SH : StdHash) om axioms fuel rounds s st,
  built s -> is_valid_state om axioms fuel s st = Ok true ->
  consistent_state om axioms fuel (S rounds) (s, st) = Ok (s, st).
Proof. exact @C30_returns_lemma. Qed.
Print Assumptions C30_returns.

Theorem C30_idempotent : forall (SH : StdHash) om axioms fuel rounds n s st s' st' st2,
  built s -> consistent_state om axioms fuel rounds (s, st) = Ok (s', st') ->
  consistent_state om axioms fuel (S n) (s', st2) = Ok (s', st2).
Proof. exact @C30_idempotent_lemma. Qed.
Print Assumptions C30_idempotent.

(** Valid states are those that satisfy the axioms read as implications. *)
Theorem C30_meaning : forall (SH : StdHash) objects,
  Forall (fun o => wf_type (otype o)) objects -> Forall (fun o => okind o = KConst) objects ->
  forall axioms fuel s st b,
  Forall (wf_axiom objects) axioms -> built s ->
  is_valid_state (create_object_map objects) axioms fuel s st = Ok b ->
  (b = true <-> Forall (respects objects (atoms s)) axioms).
Proof. exact @C30_meaning_lemma. Qed.
Print Assumptions C30_meaning.

(** Without cyclic cascades IsValidState always answers, after any calls of the
    same domain, and the answer is that of the implications. *)
Theorem C30_decides : forall (SH : StdHash) objects,
  Forall (fun o => wf_type (otype o)) objects ->
  forall axioms ar, Forall (good_axiom objects ar) axioms ->
  Forall (fun o => okind o = KConst) objects ->
  Forall (wf_axiom objects) axioms ->
  forall rank, ranked axioms rank ->
  forall fuel, (forall i, i < length axioms -> rank i < fuel) ->
  forall s st, built s -> reachable_store objects ar axioms st ->
  exists b, is_valid_state (create_object_map objects) axioms fuel s st = Ok b /\
    (b = true <-> Forall (respects objects (atoms s)) axioms).
Proof. exact @C30_decides_lemma. Qed.
Print Assumptions C30_decides.

(** Axioms without parameters are not checked at all. *)
Theorem C30_nullary_refuted : exists (SH : StdHash) objects axioms s,
  Forall (fun o => wf_type (otype o)) objects /\ Forall (fun o => okind o = KConst) objects /\
  (forall a, In a axioms -> extract_context (ax_op a) = Ok a) /\ built s /\
  (forall fuel st, is_valid_state (create_object_map objects) axioms fuel s st = Ok true) /\
  ~ Forall (respects objects (atoms s)) axioms.
Proof. exact nullary_refuted. Qed.
Print Assumptions C30_nullary_refuted.

Example C30_example :
  Forall (good_axiom ex_objects ex_rules_arity) ex_rules /\ Forall (wf_axiom ex_objects) ex_rules /\
  ranked ex_rules ex_rules_rank /\
  is_valid_state (SH := collide) (create_object_map ex_objects) ex_rules 2 law_state no_store = Ok false /\
  is_valid_state (SH := collide) (create_object_map ex_objects) ex_rules 2
    (run (SH := collide) [Ins (sp "reach" "box"); Ins (sp "broken" "table")]) no_store = Ok true.
Proof.
  split; [exact ex_rules_good|]. split; [exact ex_rules_wf|]. split; [exact ex_rules_ranked|].
  split; vm_compute; reflexivity.
Qed.

(** C31. A rejected partial state has no valid completion. Missing from the full
    claim: axioms whose cascades reach arguments outside the types of their
    parameters ([typed_axiom]), for which it is false (below), and cyclic cascades. *)
Theorem C31_rejection_partial : forall (SH : StdHash) objects,
  Forall (fun o => wf_type (otype o)) objects -> Forall (fun o => okind o = KConst) objects ->
  forall ar rank axioms,
  Forall (wf_axiom objects) axioms -> Forall (good_axiom objects ar) axioms -> ranked axioms rank ->
  forall sig fuel rounds ps st,
  Forall (typed_axiom objects sig) axioms -> pbuilt ps -> reachable_store objects ar axioms st ->
  is_valid_partial (create_object_map objects) axioms fuel rounds (ps, st) = Ok false ->
  forall s fuel' st', built s -> completes s ps ->
  is_valid_state (create_object_map objects) axioms fuel' s st' <> Ok true.
Proof. exact @C31_lemma. Qed.
Print Assumptions C31_rejection_partial.

(** A cascade fires an axiom for objects that are not of its parameters' types,
    and the partial state is rejected in spite of a valid completion. *)
Theorem C31_untyped_refuted : exists (SH : StdHash) objects ar rank axioms ps s,
  Forall (fun o => wf_type (otype o)) objects /\ Forall (fun o => okind o = KConst) objects /\
  Forall (wf_axiom objects) axioms /\ Forall (good_axiom objects ar) axioms /\ ranked axioms rank /\
  pbuilt ps /\ built s /\ completes s ps /\
  is_valid_partial (create_object_map objects) axioms 3 1 (ps, no_store) = Ok false /\
  is_valid_state (create_object_map objects) axioms 3 s no_store = Ok true.
Proof. exact untyped_refuted. Qed.
Print Assumptions C31_untyped_refuted.

(** The converse fails: a partial state is accepted although no completion is
    valid, because a cascade silently overrides a known proposition. *)
Theorem C31_accepts_refuted : exists (SH : StdHash) objects ar rank sig axioms ps,
  Forall (fun o => wf_type (otype o)) objects /\ Forall (fun o => okind o = KConst) objects /\
  Forall (wf_axiom objects) axioms /\ Forall (good_axiom objects ar) axioms /\ ranked axioms rank /\
  Forall (typed_axiom objects sig) axioms /\ pbuilt ps /\
  is_valid_partial (create_object_map objects) axioms 3 3 (ps, no_store) = Ok true /\
  forall s fuel st, built s -> completes s ps -> is_valid_state (create_object_map objects) axioms fuel s st <> Ok true.
Proof. exact accepts_refuted. Qed.
Print Assumptions C31_accepts_refuted.

Example C31_example :
  Forall (typed_axiom ex_objects ex_rules_sig) ex_rules /\
  is_valid_partial (SH := collide) (create_object_map ex_objects) ex_rules 2 2
    (prun (SH := collide) [Ins (sp "reach" "box"); Ins (sp "broken" "box")], no_store) = Ok false /\
  is_valid_partial (SH := collide) (create_object_map ex_objects) ex_rules 2 2
    (prun (SH := collide) [Ins (sp "reach" "box"); Ins (sp "broken" "table")], no_store) = Ok true.
Proof. split; [exact ex_rules_typed|]. split; vm_compute; reflexivity. Qed.

(** C32. What ConsistentState returns is consistent and stable. *)
Theorem C32_stable : forall (SH : StdHash) om axioms fuel ps st ps' st',
  pbuilt ps -> consistent_partial om axioms fuel (ps, st) = Ok (ps', st') ->
  pbuilt ps' /\
  (forall st2, consistent_partial om axioms fuel (ps', st2) = Ok (ps', st2)) /\
  (forall st2 n, is_valid_partial om axioms fuel (S n) (ps', st2) = Ok true).
Proof. exact @C32_stable_lemma. Qed.
Print Assumptions C32_stable.

(** Known propositions stay known; a value changes only by a literal of an axiom
    that another axiom triggers. *)
Theorem C32_known : forall (SH : StdHash) om axioms fuel ps st ps' st',
  pbuilt ps -> consistent_partial om axioms fuel (ps, st) = Ok (ps', st') ->
  (forall a, knows ps a -> knows ps' a) /\
  (forall pos a, flipped ps ps' pos a -> cascade_literal axioms pos (fst a)).
Proof. exact @C32_known_lemma. Qed.
Print Assumptions C32_known.

Theorem C32_extends : forall (SH : StdHash) om axioms fuel ps st ps' st',
  pbuilt ps -> (forall a, In a axioms -> quiet axioms (op_effs (ax_op a))) ->
  consistent_partial om axioms fuel (ps, st) = Ok (ps', st') -> extends ps ps'.
Proof. exact @C32_extends_lemma. Qed.
Print Assumptions C32_extends.

(** With cascades: if there is a valid completion then no value changes, and what
    is added is true in every valid completion. *)
Theorem C32_sound : forall (SH : StdHash) objects ar rank sig axioms fuel ps st ps' st' s fuel' st2,
  Forall (fun o => wf_type (otype o)) objects -> Forall (fun o => okind o = KConst) objects ->
  Forall (wf_axiom objects) axioms -> Forall (good_axiom objects ar) axioms -> ranked axioms rank ->
  Forall (typed_axiom objects sig) axioms -> pbuilt ps -> reachable_store objects ar axioms st ->
  built s -> completes s ps -> is_valid_state (create_object_map objects) axioms fuel' s st2 = Ok true ->
  consistent_partial (create_object_map objects) axioms fuel (ps, st) = Ok (ps', st') ->
  completes s ps' /\ extends ps ps'.
Proof. exact @C32_sound_lemma. Qed.
Print Assumptions C32_sound.

Theorem C32_override_refuted : exists (SH : StdHash) objects axioms ps ps' st' a,
  Forall (wf_axiom objects) axioms /\ pbuilt ps /\
  consistent_partial (create_object_map objects) axioms 3 (ps, no_store) = Ok (ps', st') /\
  flipped ps ps' false a.
Proof. exact flip_refuted. Qed.
Print Assumptions C32_override_refuted.

Definition presult_keys (r : outcome (partial_state * store)) : outcome (list atom * list atom) :=
  let* ' (s, _) := r in Ok (map prop_key (st_elements (ps_pos s)), map prop_key (st_elements (ps_neg s))).

Example C32_example :
  presult_keys (consistent_partial (SH := collide) (create_object_map ex_objects) ex_rules 2
    (prun (SH := collide) [Ins (mkProp "near" [ex_const "box"; ex_const "hook"])], no_store))
  = Ok ([("near", ["box"; "hook"]); ("reach", ["box"])], [("broken", ["box"])]) /\
  completes (SH := collide) (run (SH := collide) [Ins (mkProp "near" [ex_const "box"; ex_const "hook"]); Ins (sp "reach" "box")])
    (prun (SH := collide) [Ins (mkProp "near" [ex_const "box"; ex_const "hook"])]) /\
  is_valid_state (SH := collide) (create_object_map ex_objects) ex_rules 2
    (run (SH := collide) [Ins (mkProp "near" [ex_const "box"; ex_const "hook"]); Ins (sp "reach" "box")]) no_store = Ok true.
Proof.
  split; [vm_compute; reflexivity|]. split; [|vm_compute; reflexivity].
  apply completes_check; [apply prun_ok|apply run_wf|vm_compute; reflexivity|vm_compute; reflexivity].
Qed.
