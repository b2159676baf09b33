(** C66: the loops over partial states end. *)
From Coq Require Import String List Bool NArith ZArith Arith Lia.
From Verif.Model Require Import Base Object Proposition HashSet State CombinationGenerator
  ParameterGenerator Syntax Formula Effects Consistency.
From Verif.Spec Require Import SetSpec TypingSpec FormulaSpec EffectSpec NormalFormSpec AxiomSpec.
From Verif.Proofs Require Import StateFacts StateHistory FormulaFacts EffectLink EffectTheorems
  EffectExamples AxiomLoops AxiomMeaning AxiomReject AxiomExtend AxiomExamples AxiomTerminates AxiomLimit.
From Verif.Properties Require Import StateProps ParameterProps FormulaProps EffectProps.
Import ListNotations.
Local Open Scope string_scope.
Local Open Scope list_scope.

(** The while loop of IsValidState(PartialState) ends after a number of iterations
    that only depends on the objects and the axioms. *)
Theorem C66_valid_terminates : forall (SH : StdHash) objects,
  Forall (fun o => wf_type (otype o)) objects -> Forall (fun o => okind o = KConst) objects ->
  forall ar rank axioms,
  Forall (wf_axiom objects) axioms -> Forall (good_axiom objects ar) axioms -> ranked axioms rank ->
  forall fuel, (forall i, i < length axioms -> rank i < fuel) ->
  exists n, forall ps st, pbuilt ps -> reachable_store objects ar axioms st ->
  exists b, forall rounds, n <= rounds ->
    is_valid_partial (create_object_map objects) axioms fuel rounds (ps, st) = Ok b.
Proof. exact @C31_terminates_lemma. Qed.
Print Assumptions C66_valid_terminates.

(** One iteration more than there are unknown atoms that effects speak about. *)
Theorem C66_valid_rounds : forall (SH : StdHash) objects,
  Forall (fun o => wf_type (otype o)) objects -> Forall (fun o => okind o = KConst) objects ->
  forall ar rank axioms,
  Forall (wf_axiom objects) axioms -> Forall (good_axiom objects ar) axioms -> ranked axioms rank ->
  forall fuel, (forall i, i < length axioms -> rank i < fuel) ->
  forall ps st U, Forall (fun a => declared_effs objects (op_effs (ax_op a))) axioms ->
  pbuilt ps -> reachable_store objects ar axioms st -> lists_unknown objects ar axioms ps U ->
  exists b, forall rounds, length U < rounds ->
    is_valid_partial (create_object_map objects) axioms fuel rounds (ps, st) = Ok b.
Proof. exact @C31_rounds_lemma. Qed.
Print Assumptions C66_valid_rounds.

(** ConsistentState(PartialState) returns or throws. *)
Theorem C66_consistent_outcome : forall (SH : StdHash) objects,
  Forall (fun o => wf_type (otype o)) objects -> Forall (fun o => okind o = KConst) objects ->
  forall ar rank axioms,
  Forall (wf_axiom objects) axioms -> Forall (good_axiom objects ar) axioms -> ranked axioms rank ->
  forall fuel, (forall i, i < length axioms -> rank i < fuel) ->
  forall ps st, pbuilt ps -> reachable_store objects ar axioms st ->
  match consistent_partial (create_object_map objects) axioms fuel (ps, st) with Ok _ | Throw _ => True | _ => False end.
Proof. exact @C32_outcome_lemma. Qed.
Print Assumptions C66_consistent_outcome.

(** It returns if there is a valid completion and at most 50 atoms that effects
    speak about are unknown. *)
Theorem C66_consistent_answers : forall (SH : StdHash) objects,
  Forall (fun o => wf_type (otype o)) objects -> Forall (fun o => okind o = KConst) objects ->
  forall ar rank axioms,
  Forall (wf_axiom objects) axioms -> Forall (good_axiom objects ar) axioms -> ranked axioms rank ->
  forall fuel, (forall i, i < length axioms -> rank i < fuel) ->
  forall sig ps st U s fuel' st2, Forall (typed_axiom objects sig) axioms ->
  pbuilt ps -> reachable_store objects ar axioms st -> lists_unknown objects ar axioms ps U -> length U <= 50 ->
  built s -> completes s ps -> is_valid_state (create_object_map objects) axioms fuel' s st2 = Ok true ->
  exists ps' st', consistent_partial (create_object_map objects) axioms fuel (ps, st) = Ok (ps', st').
Proof. exact @C32_answers_lemma. Qed.
Print Assumptions C66_consistent_answers.

(** With 51 unknown atoms it may give up although there is a valid completion. *)
Theorem C66_limit_refuted : exists (SH : StdHash) objects ar rank axioms sig ps U s,
  Forall (fun o => wf_type (otype o)) objects /\ Forall (fun o => okind o = KConst) objects /\
  Forall (wf_axiom objects) axioms /\ Forall (good_axiom objects ar) axioms /\ ranked axioms rank /\
  Forall (typed_axiom objects sig) axioms /\ pbuilt ps /\ lists_unknown objects ar axioms ps U /\ length U = 51 /\
  built s /\ completes s ps /\ is_valid_state (create_object_map objects) axioms 1 s no_store = Ok true /\
  consistent_partial (create_object_map objects) axioms 1 (ps, no_store) = Throw ERuntime.
Proof. exact limit_refuted. Qed.
Print Assumptions C66_limit_refuted.

(** Five unknown atoms, found in five iterations; a sixth finds nothing. *)
Example C66_example :
  wf_axiom (chain_objects 5) (chain_rule 5) /\ good_axiom (chain_objects 5) (fun _ => 1) (chain_rule 5) /\
  ranked [chain_rule 5] (fun _ => 0) /\ typed_axiom (chain_objects 5) chain_sig (chain_rule 5) /\
  declared_effs (chain_objects 5) (op_effs (ax_op (chain_rule 5))) /\
  lists_unknown (SH := by_char) (chain_objects 5) (fun _ => 1) [chain_rule 5] (chain_partial 5) (chain_unknown 5) /\
  length (chain_unknown 5) = 5 /\
  is_valid_partial (SH := by_char) (create_object_map (chain_objects 5)) [chain_rule 5] 1 5
    (chain_partial 5, no_store) = OutOfFuel /\
  is_valid_partial (SH := by_char) (create_object_map (chain_objects 5)) [chain_rule 5] 1 6
    (chain_partial 5, no_store) = Ok true /\
  is_valid_state (SH := by_char) (create_object_map (chain_objects 5)) [chain_rule 5] 1 (chain_full 5) no_store = Ok true.
Proof.
  split; [apply chain_wf|]. split; [apply chain_good|]. split; [apply chain_ranked|].
  split; [apply chain_typed|]. split; [cbn; repeat split; repeat (apply Forall_cons || apply Forall_nil); intros; apply (lo_In _ 5); lia|].
  split; [apply chain_unknown_lists; vm_compute; reflexivity|].
  split; [reflexivity|]. split; [vm_compute; reflexivity|]. split; vm_compute; reflexivity.
Qed.
