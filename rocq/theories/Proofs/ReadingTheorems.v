(** Normalized conditions over ordinary predicates (C64) and samples. *)
From Coq Require Import String List Bool NArith ZArith Arith Lia.
From Verif.Model Require Import Base HashSet Object Proposition State CombinationGenerator
  ParameterGenerator Syntax Formula NormalForm Consistency Text Pddl Normalize.
From Verif.Proofs Require Import StateFacts StateHistory FormulaFacts EffectLink EffectTheorems EffectExamples
  DerivedFacts DerivedExamples NormalFormFacts NormalFormGoal NormalFormTheorems PddlTheorems
  NormalizeFacts ReadingFacts.
From Verif.Properties Require Import StateProps ParameterProps FormulaProps.
From Verif.Spec Require Import SetSpec TypingSpec FormulaSpec EffectSpec AxiomSpec PddlSpec NormalFormSpec ReadingSpec.
From Verif.Proofs Require Import NormalFormExamples.
Import ListNotations.
Local Open Scope string_scope.
Local Open Scope list_scope.

Section WithHash.
  Context `{SH : StdHash}.
  Variable L : limits.
  Variable p : pddl.
  Variable ar : string -> nat.
  Variable rank : nat -> nat.
  Variable drank : string -> nat.
  Hypothesis G : good_domain L p ar rank drank.
  Hypothesis KC : Forall (fun o => okind o = KConst) (pd_symbols p).
  Let objs := pd_symbols p.
  Let om_eq := gd_om _ _ _ _ _ G.

  Lemma C64_exact_lemma call o args st : calls p call o args ->
    let env := bind_vars (op_params o) args no_env in
    (declared objs (op_pre o) -> (forall n, In n (goal_preds (op_pre o)) -> ordinary objs n) ->
     normalize_preconditions L p call false st = OutOfFuel \/
     exists r, normalize_preconditions L p call false st = Ok (r, st) /\
       (forall S : atom -> bool, result_sat (truth objs (NormalFormSpec.set_of S)) r <->
          meaning (reads objs env (op_pre o)) (NormalFormSpec.set_of S)) /\
       (r = None <-> never (reads objs env (op_pre o))) /\ (r = Some [] <-> constant (reads objs env (op_pre o)))) /\
    (declared_effs objs (op_effs o) -> ordinary_effs objs (op_effs o) ->
     (forall g, In g (eff_conds (op_effs o)) -> forall n, In n (goal_preds g) -> ordinary objs n) ->
     normalize_postconditions L p call false st = OutOfFuel \/
     (rejects objs env (op_effs o) /\ normalize_postconditions L p call false st = Throw ERuntime) \/
     (~ rejects objs env (op_effs o) /\ exists r, normalize_postconditions L p call false st = Ok (r, st) /\
       (forall S : atom -> bool, result_sat (truth objs (NormalFormSpec.set_of S)) r <->
          meaning (reads_effs objs env (op_effs o)) (NormalFormSpec.set_of S)) /\
       (r = None <-> never (reads_effs objs env (op_effs o))) /\
       (r = Some [] <-> constant (reads_effs objs env (op_effs o))))).
  Proof.
    intros C. destruct (calls_op L p ar rank drank G _ _ _ C) as (Ep & Ln & Ia & Go & Wf). cbv zeta. split.
    - intros D O. unfold normalize_preconditions. rewrite Ep. cbn [bind]. unfold create_pre. rewrite om_eq.
      destruct (C52_exact_lemma objs (gd_types _ _ _ _ _ G) (gd_names _ _ _ _ _ G) KC (op_pre o) (op_params o) args no_env
        Ln Ia Wf D O) as [E|(r & E & K)]; unfold objs in E; rewrite E; cbn [bind]; [left; auto|right].
      exists r. split; [destruct r; auto|]. exact K.
    - intros D O Og. unfold normalize_postconditions. rewrite Ep. cbn [bind]. unfold create_post. rewrite om_eq.
      destruct (C59_throws_lemma objs (gd_types _ _ _ _ _ G) (gd_names _ _ _ _ _ G) KC (op_effs o) (op_params o) args no_env
        Ln Ia ltac:(apply Go) D O Og) as [E|[(R & E)|(R & r & E & K)]]; unfold objs in E; rewrite E; cbn [bind];
        [left; auto|right; left; auto|right; right]. split; auto.
      exists r. split; [destruct r; auto|]. exact K.
  Qed.

  Lemma C64_goal_exact_lemma st : declared objs (pd_goal p) -> (forall n, In n (goal_preds (pd_goal p)) -> ordinary objs n) ->
    normalize_goal L p false st = OutOfFuel \/
    exists r, normalize_goal L p false st = Ok (r, st) /\
      (forall S : atom -> bool, result_sat (truth objs (NormalFormSpec.set_of S)) r <->
         meaning (reads objs no_env (pd_goal p)) (NormalFormSpec.set_of S)) /\
      (r = None <-> never (reads objs no_env (pd_goal p))) /\ (r = Some [] <-> constant (reads objs no_env (pd_goal p))).
  Proof.
    intros D O. unfold normalize_goal. rewrite om_eq.
    destruct (C52_exact_lemma objs (gd_types _ _ _ _ _ G) (gd_names _ _ _ _ _ G) KC (pd_goal p) [] [] no_env
      eq_refl (Forall_nil _) (gd_goal _ _ _ _ _ G) D O) as [E|(r & E & K)]; unfold objs in E; rewrite E; cbn [bind]; [left; auto|right].
    exists r. split; [destruct r; auto|]. exact K.
  Qed.
End WithHash.

(** ** Samples *)
Definition ex_broken : goal := GSimple "broken" [o_box].
(** True or near: read as near. *)
Definition ex_true_or : goal := GDisj [GConj []; ex_near].
(** The first disjunct always holds, but is not constant. *)
Definition ex_always_or : goal := GDisj [GDisj [ex_near; GNeg ex_near]; ex_broken].
(** Sent in any case; nothing if near: read as sent and not near. *)
Definition ex_odd_effs : effs :=
  Effs [] [] [] [(GConj [], Effs [] [pr "sent" [o_box]] [] []); (ex_near, Effs [] [] [] [])].
(** The box is sent and not sent in any case. *)
Definition ex_clash : effs := Effs [] [] [] [(GConj [], Effs [] [pr "sent" [o_box]] [pr "sent" [o_box]] [])].

Lemma near_ordinary n : In n ["near"; "broken"; "sent"] -> ordinary ex_objects n.
Proof. intros [<-|[<-|[<-|[]]]]; (split; [discriminate|not_type]). Qed.
Lemma near_read S : meaning (reads ex_objects no_env ex_near) S <-> S ("near", ["box"; "table"]).
Proof. cbn [reads ex_near meaning]. rewrite ordinary_holds by (try discriminate; not_type). cbn. tauto. Qed.
Lemma broken_read S : meaning (reads ex_objects no_env ex_broken) S <-> S ("broken", ["box"]).
Proof. cbn [reads ex_broken meaning]. rewrite ordinary_holds by (try discriminate; not_type). cbn. tauto. Qed.
Lemma ex_broken_wf : wf_goal ex_objects [] ex_broken /\ declared ex_objects ex_broken.
Proof. split; [wf_tac|]. cbn. repeat constructor; tauto. Qed.

Lemma ex_true_or_wf : wf_goal ex_objects [] ex_true_or /\ declared ex_objects ex_true_or /\
  (forall n, In n (goal_preds ex_true_or) -> ordinary ex_objects n).
Proof.
  split; [cbn; repeat split; apply ex_near_wf|]. split; [cbn; repeat split; apply ex_near_wf|].
  intros n H. apply near_ordinary. cbn in *. tauto.
Qed.
Lemma ex_true_or_read S : meaning (reads ex_objects no_env ex_true_or) (NormalFormSpec.set_of S) <->
  S ("near", ["box"; "table"]) = true.
Proof.
  assert (C : constant (reads ex_objects no_env (GConj []))) by (intros r []).
  unfold ex_true_or. cbn [reads any_of meaning]. split.
  - intros [H|(r & I & K & M)].
    + exfalso. destruct (H (reads ex_objects no_env ex_near)) as [K|K]; [right; left; reflexivity|exact K|].
      apply (K (fun _ => true)). apply near_read. reflexivity.
    + destruct I as [<-|[<-|[]]]; [destruct (K C)|]. apply near_read in M. exact M.
  - intros H. right. exists (reads ex_objects no_env ex_near). split; [right; left; reflexivity|].
    split; [intros Q; exact Q|]. apply near_read. exact H.
Qed.

Lemma ex_always_or_wf : wf_goal ex_objects [] ex_always_or /\ declared ex_objects ex_always_or /\
  (forall n, In n (goal_preds ex_always_or) -> ordinary ex_objects n).
Proof.
  destruct ex_near_wf, ex_broken_wf.
  split; [cbn; repeat split; auto; apply ex_near_wf || apply ex_broken_wf|].
  split; [cbn; repeat split; auto; apply ex_near_wf || apply ex_broken_wf|].
  intros n Q. apply near_ordinary. cbn in *. tauto.
Qed.
Lemma ex_always_or_regular : regular ex_objects no_env ex_always_or.
Proof.
  assert (Nn : ~ never (reads ex_objects no_env ex_near)).
  { intros K. apply (K (fun _ => true)), near_read. reflexivity. }
  assert (Sn : satisfiable ex_objects no_env ex_near).
  { exists (fun _ => true). apply (reads_holds ex_objects ex_near no_env Logic.I), near_read. reflexivity. }
  assert (R : regular ex_objects no_env (GDisj [ex_near; GNeg ex_near])).
  { cbn [regular]. split.
    - split; [split; [exact Logic.I|intros Q; exact Q]|]. split; [|exact Logic.I].
      split; [split; [exact Logic.I|intros Q; exact Q]|]. intros [Q|Q]; [exact Q|auto].
    - exists ex_near. split; [left; reflexivity|exact Sn]. }
  assert (C : ~ constant (reads ex_objects no_env (GDisj [ex_near; GNeg ex_near]))).
  { intros Q. destruct (Q (reads ex_objects no_env ex_near)) as [K|K]; [left; reflexivity|exact K|auto]. }
  unfold ex_always_or. cbn [regular]. split.
  - split; [split; [exact R|exact C]|]. split; [|exact Logic.I]. split; [exact Logic.I|intros Q; exact Q].
  - exists (GDisj [ex_near; GNeg ex_near]). split; [left; reflexivity|].
    destruct Sn as [S H]. exists S. apply holds_disj. exists ex_near. split; [left; reflexivity|exact H].
Qed.

Lemma ex_odd_effs_wf : wf_effs ex_objects [] ex_odd_effs /\ declared_effs ex_objects ex_odd_effs /\
  ordinary_effs ex_objects ex_odd_effs /\
  (forall g, In g (eff_conds ex_odd_effs) -> forall n, In n (goal_preds g) -> ordinary ex_objects n) /\
  askable ex_objects no_env ex_odd_effs.
Proof.
  split; [wf_tac|]. split; [cbn; repeat split; repeat constructor; cbn; try discriminate; tauto|].
  split; [intros s H; apply near_ordinary; cbn in *; destruct H as [<-|[]]; cbn; tauto|].
  split; [intros g H n K; apply near_ordinary; cbn in H; destruct H as [<-|[<-|[]]]; cbn in *; tauto|].
  cbn [askable ex_odd_effs]. split; [exact Logic.I|]. split; [|split; [|exact Logic.I]]; right; (split; [split; exact Logic.I|]).
  - intros [_ N]. apply (N (fun _ => true)). intros r [[]|[->|[]]]. cbn [literals_of meaning]. split; [|intros q []].
    intros q [<-|[]]. cbn [pr pname pargs]. rewrite ordinary_holds by (try discriminate; not_type). reflexivity.
  - intros [C _]. exact C.
Qed.

(** Every tool is sent and not sent; the same on a constant condition. *)
Definition ex_x : object := mkObj "?x" ["tool"; "thing"; "object"] (KVar 0).
Definition ex_both : effs := Effs [] [pr "sent" [ex_x]] [pr "sent" [ex_x]] [].
Definition ex_late : effs := Effs [([ex_x], ex_both); ([ex_x], Effs [] [] [] [(GConj [], ex_both)])] [] [] [].
Definition ex_early : effs := Effs [([ex_x], Effs [] [] [] [(GConj [], ex_both)]); ([ex_x], ex_both)] [] [] [].

Lemma both_never env : never (reads_effs ex_objects env ex_both).
Proof.
  intros S H. destruct (H _ (or_intror (or_introl eq_refl))) as [P N].
  apply (N _ (or_introl eq_refl)), (P _ (or_introl eq_refl)).
Qed.
Lemma both_rejects env : ~ rejects ex_objects env ex_both.
Proof. apply askable_taken. split; exact Logic.I. Qed.
Lemma early_late : rejects ex_objects no_env ex_early /\ ~ rejects ex_objects no_env ex_late.
Proof.
  split.
  - left. vm_compute tuples. cbn [map stops List.app]. left. right. split; [intros t n []|]. left. split.
    + intros H. apply (H (fun _ => true)). intros r [].
    + right. split; [intros r []|apply both_never].
  - intros [H|[H _]].
    + vm_compute tuples in H. cbn [map stops List.app] in H. destruct H as [H|[H _]]; [exact (both_rejects _ H)|].
      apply H, both_never.
    + vm_compute tuples in H. cbn [map List.app] in H. exact (H _ _ (or_introl eq_refl) (both_never _)).
Qed.
