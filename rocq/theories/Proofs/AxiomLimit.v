(** The limit of iterations in ConsistentState(PartialState) (C32). *)
From Coq Require Import Ascii String List Bool NArith ZArith Arith Lia.
From Verif.Model Require Import Base Object Proposition HashSet State CombinationGenerator
  ParameterGenerator Syntax Formula Effects NormalForm Consistency.
From Verif.Spec Require Import SetSpec CartesianSpec TypingSpec FormulaSpec EffectSpec NormalFormSpec AxiomSpec.
From Verif.Proofs Require Import StateFacts StateHistory FormulaFacts EffectLink EffectTheorems EffectExamples
  AxiomZero AxiomLoops AxiomMeaning AxiomExtend AxiomExamples.
From Verif.Properties Require Import StateProps ParameterProps FormulaProps.
Import ListNotations.
Local Open Scope string_scope.
Local Open Scope list_scope.

(** q ?x => forall i. p(i+1) => p(i), the conditional effects in this order: every
    iteration finds one more p. *)
Definition by_char : StdHash := fun s => match s with EmptyString => 0%N | String c _ => N_of_ascii c end.
Definition lname (i : nat) : string := String (ascii_of_nat (65 + i)) EmptyString.
Definition lo (i : nat) : object := ex_const (lname i).
Definition chain (i : nat) : goal * effs := (GSimple "p" [lo (S i)], Effs [] [mkProp "p" [lo i]] [] []).
Definition hand : object := mkObj "hand" ["tool"; "object"] KConst.
Definition hv : object := var "arg" ["tool"; "object"] 0.
Definition chain_objects (n : nat) : list object := hand :: map lo (seq 0 (S n)).
Definition chain_rule (n : nat) : axiom :=
  mkAxiom (mkOp "c" true [hv] (GSimple "q" [hv]) (Effs [] [] [] (map chain (seq 0 n)))) true "q" [hv].
Definition chain_sig (s : string) : list string := if String.eqb s "q" then ["tool"] else ["thing"].
Definition chain_partial (n : nat) : partial_state :=
  prun (SH := by_char) [Ins (mkProp "q" [hand]); Del (mkProp "p" [hand]); Ins (mkProp "p" [lo n])].
Definition chain_full (n : nat) : state :=
  run (SH := by_char) (Ins (mkProp "q" [hand]) :: map (fun i => Ins (mkProp "p" [lo i])) (seq 0 (S n))).
Definition chain_unknown (n : nat) : list atom := map (fun i => ("p", [lname i])) (seq 0 n).

Lemma p_arity objects s x : s <> "=" -> arity_ok objects s [x].
Proof. intros N. split; [congruence|reflexivity]. Qed.
Lemma lo_arg i : arg_ok ["arg"] (lo i).
Proof. unfold arg_ok. cbn. intros [E|[]]. discriminate. Qed.
Lemma chain_effs_wf objects n : wf_effs objects ["arg"] (Effs [] [] [] (map chain (seq 0 n))).
Proof.
  apply wf_effs_eq. split; [intros vars b []|]. split; [constructor|]. split; [constructor|].
  intros g b I. apply in_map_iff in I as (i & [= <- <-] & _). split.
  - split; [constructor; [apply lo_arg|constructor]|apply p_arity; discriminate].
  - apply wf_effs_eq. split; [intros vars b []|]. split; [|split; [constructor|intros g b []]].
    constructor; [|constructor]. split; [constructor; [apply lo_arg|constructor]|apply p_arity; discriminate].
Qed.

Lemma chain_wf n : wf_axiom (chain_objects n) (chain_rule n).
Proof.
  constructor; cbn [op_params op_pre op_effs ax_op chain_rule map].
  - reflexivity.
  - discriminate.
  - unfold tuple_count. cbn [map fold_right].
    assert (E : forall l, objects_of (map lo l) (type_name (otype hv)) = []).
    { induction l as [|i l IH]; [reflexivity|]. cbn [map]. unfold objects_of in *. cbn [filter]. rewrite IH. reflexivity. }
    unfold chain_objects. change (objects_of (hand :: map lo (seq 0 (S n))) (type_name (otype hv)))
      with (hand :: objects_of (map lo (seq 0 (S n))) (type_name (otype hv))). rewrite E. reflexivity.
  - split; [repeat constructor; cbn; auto|apply p_arity; discriminate].
  - apply chain_effs_wf.
Qed.

Lemma chain_good n : good_axiom (chain_objects n) (fun _ => 1) (chain_rule n).
Proof.
  constructor; [constructor|split|reflexivity].
  - repeat constructor. cbn. tauto.
  - apply chain_effs_wf.
  - unfold chain_rule. cbn [ax_op op_effs op_params fresh_effs]. split; auto.
    induction (seq 0 n) as [|i l IH]; cbn; auto.
  - apply eff_arity_eq. split; [intros vars b []|]. split; [constructor|]. split; [constructor|].
    intros g b I. apply in_map_iff in I as (i & [= <- <-] & _). cbn. repeat split; repeat constructor.
  - repeat constructor. cbn. tauto.
  - intros p [<-|[]]. exists [], hv, []. cbn. intuition discriminate.
Qed.

Lemma lo_In i n : i <= n -> In (lo i) (chain_objects n).
Proof. intros L. right. apply in_map. apply in_seq. lia. Qed.

Lemma chain_typed n : typed_axiom (chain_objects n) chain_sig (chain_rule n).
Proof.
  split.
  - unfold chain_rule. cbn [ax_op op_effs op_params typed_effs]. split; auto. split; [constructor|]. split; [constructor|].
    assert (H : forall i, In i (seq 0 n) -> i <= n) by (intros i I; apply in_seq in I; lia). revert H.
    induction (seq 0 n) as [|i l IH]; intros H; [exact Logic.I|]. cbn [map chain].
    split; [|apply IH; intros j J; apply H; right; auto].
    cbn [typed_effs]. split; [exact Logic.I|]. split; [|split; [constructor|exact Logic.I]].
    constructor; [|constructor]. constructor; [|constructor].
    split; [apply lo_In, H; left; auto|right; cbn; auto].
  - constructor; [|constructor]. intros w o [<-|[]] _ _ T. exact T.
Qed.

Lemma chain_ranked n : ranked [chain_rule n] (fun _ => 0).
Proof.
  intros [|i] a N j b Nb I; cbn [nth_error] in N; [|destruct i; discriminate]. injection N as <-. exfalso.
  destruct j as [|j]; cbn [nth_error] in Nb; [|destruct j; discriminate]. injection Nb as <-.
  unfold chain_rule in I. cbn [ax_pos ax_name op_effs ax_op eff_sigs flat_map map app] in I.
  apply in_flat_map in I as (c & Ic & I). apply in_map_iff in Ic as (i & <- & _). cbn in I. intuition discriminate.
Qed.

Lemma chain_unknown_lists n : st_contains (SH := by_char) (ps_pos (chain_partial n)) (mkProp "p" [lo n]) = true ->
  st_contains (SH := by_char) (ps_neg (chain_partial n)) (mkProp "p" [hand]) = true ->
  lists_unknown (SH := by_char) (chain_objects n) (fun _ => 1) [chain_rule n] (chain_partial n) (chain_unknown n).
Proof.
  intros C C' [m l] ((x & pos & Ix & Is) & Ll & Li). cbn [fst snd] in *. destruct Ix as [<-|[]].
  unfold chain_rule in Is. cbn [op_effs ax_op eff_sigs flat_map map app] in Is.
  apply in_flat_map in Is as (c & Ic & Is). apply in_map_iff in Ic as (i & <- & _). cbn in Is.
  destruct Is as [[= <- <-]|[]]. destruct l as [|s [|]]; [discriminate Ll| |discriminate Ll].
  assert (J : In s (map oname (chain_objects n))) by (apply Li; left; auto).
  destruct J as [<-|J]; [left; right; exists (mkProp "p" [hand]); split; [reflexivity|exact C']|]. rewrite map_map in J. apply in_map_iff in J as (j & <- & J). apply in_seq in J.
  destruct (Nat.eq_dec j n) as [->|Nj].
  - left. left. exists (mkProp "p" [lo n]). split; [reflexivity|exact C].
  - right. apply in_map_iff. exists j. split; auto. apply in_seq. lia.
Qed.

Lemma limit_refuted : exists (SH : StdHash) objects ar rank axioms sig ps U s,
  Forall (fun o => wf_type (otype o)) objects /\ Forall (fun o => okind o = KConst) objects /\
  Forall (wf_axiom objects) axioms /\ Forall (good_axiom objects ar) axioms /\ ranked axioms rank /\
  Forall (typed_axiom objects sig) axioms /\ pbuilt ps /\ lists_unknown objects ar axioms ps U /\ length U = 51 /\
  built s /\ completes s ps /\ is_valid_state (create_object_map objects) axioms 1 s no_store = Ok true /\
  consistent_partial (create_object_map objects) axioms 1 (ps, no_store) = Throw ERuntime.
Proof.
  exists by_char, (chain_objects 51), (fun _ => 1), (fun _ => 0), [chain_rule 51], chain_sig, (chain_partial 51),
    (chain_unknown 51), (chain_full 51).
  split. { constructor; [split; [nodup_tac|reflexivity]|]. apply Forall_forall. intros o I.
    apply in_map_iff in I as (i & <- & _). split; [nodup_tac|reflexivity]. }
  split. { constructor; [reflexivity|]. apply Forall_forall. intros o I. apply in_map_iff in I as (i & <- & _). reflexivity. }
  split; [constructor; [apply chain_wf|constructor]|].
  split; [constructor; [apply chain_good|constructor]|]. split; [apply chain_ranked|].
  split; [constructor; [apply chain_typed|constructor]|].
  split. { split; [|split]; [exists [Ins (mkProp "q" [hand]); Del (mkProp "p" [hand]); Ins (mkProp "p" [lo 51])]|
    exists [Del (mkProp "q" [hand]); Ins (mkProp "p" [hand]); Del (mkProp "p" [lo 51])]|]; vm_compute; reflexivity. }
  split; [apply chain_unknown_lists; vm_compute; reflexivity|]. split; [reflexivity|].
  assert (Bf : built (SH := by_char) (chain_full 51)) by (exists (Ins (mkProp "q" [hand]) :: map (fun i => Ins (mkProp "p" [lo i])) (seq 0 (S 51))); reflexivity).
  split; [exact Bf|].
  split. { apply completes_check; [split| |vm_compute; reflexivity|vm_compute; reflexivity].
    - apply built_wf. exists [Ins (mkProp "q" [hand]); Del (mkProp "p" [hand]); Ins (mkProp "p" [lo 51])]. vm_compute; reflexivity.
    - apply built_wf. exists [Del (mkProp "q" [hand]); Ins (mkProp "p" [hand]); Del (mkProp "p" [lo 51])]. vm_compute; reflexivity.
    - apply built_wf. exact Bf. }
  split; vm_compute; reflexivity.
Qed.
