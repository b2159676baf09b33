(** ConsistentState of a partial state with a valid completion. *)
From Coq Require Import String List Bool NArith ZArith.
From Verif.Model Require Import Base HashSet Object Proposition State CombinationGenerator
  ParameterGenerator Syntax Formula Effects NormalForm Consistency.
From Verif.Spec Require Import SetSpec TypingSpec FormulaSpec EffectSpec NormalFormSpec AxiomSpec.
From Verif.Proofs Require Import StateFacts StateHistory FormulaFacts EffectLink EffectTheorems
  AxiomReject AxiomExtend.
Import ListNotations.
Local Open Scope string_scope.
Local Open Scope list_scope.

Section WithHash.
  Context `{SH : StdHash}.

  Lemma C32_sound_lemma objects ar rank sig axioms fuel ps st ps' st' s fuel' st2 :
    Forall (fun o => wf_type (otype o)) objects -> Forall (fun o => okind o = KConst) objects ->
    Forall (wf_axiom objects) axioms -> Forall (good_axiom objects ar) axioms -> ranked axioms rank ->
    Forall (typed_axiom objects sig) axioms -> pbuilt ps -> reachable_store objects ar axioms st ->
    built s -> completes s ps -> is_valid_state (create_object_map objects) axioms fuel' s st2 = Ok true ->
    consistent_partial (create_object_map objects) axioms fuel (ps, st) = Ok (ps', st') ->
    completes s ps' /\ extends ps ps'.
  Proof.
    intros W Kc Hwf Hgood Hrank Ht Bp Rs Bs C V E.
    assert (C' : completes s ps') by (eapply C32_completions_lemma; eauto).
    split; [exact C'|].
    destruct (C32_known_lemma _ _ _ _ _ _ _ Bp E) as [K _].
    destruct C as [Cp Cn], C' as [Cp' Cn'].
    split; intros p I.
    - destruct (K (prop_key p)) as [A|A]; [left; exists p; auto| |]; destruct A as (q & Eq & A).
      + rewrite <- (contains_key _ q p Eq). exact A.
      + exfalso. apply Cn' in A. rewrite (contains_key _ q p Eq), (Cp _ I) in A. discriminate.
    - destruct (K (prop_key p)) as [A|A]; [right; exists p; auto| |]; destruct A as (q & Eq & A).
      + exfalso. apply Cp' in A. rewrite (contains_key _ q p Eq), (Cn _ I) in A. discriminate.
      + rewrite <- (contains_key _ q p Eq). exact A.
  Qed.
End WithHash.
