(** The loops of ConsistentState and IsValidState. *)
From Coq Require Import String List Bool NArith ZArith Lia.
From Verif.Model Require Import Base HashSet Object Proposition State CombinationGenerator
  ParameterGenerator Syntax Formula Effects NormalForm Consistency.
From Verif.Spec Require Import SetSpec TypingSpec FormulaSpec EffectSpec AxiomSpec.
From Verif.Proofs Require Import StateFacts StateHistory FormulaFacts EffectFacts EffectLink EffectTheorems AxiomZero.
Import ListNotations.
Local Open Scope string_scope.
Local Open Scope list_scope.

Lemma foldM_ext {A B} (f g : B -> A -> outcome B) l : (forall b a, In a l -> f b a = g b a) ->
  forall b, foldM f l b = foldM g l b.
Proof.
  induction l as [|a l IH]; intros H b; cbn; auto. rewrite H by (left; auto).
  destruct (g b a); cbn; auto. apply IH. intros; apply H; right; auto.
Qed.

Section WithHash.
  Context `{SH : StdHash}.

  (** Loops collecting a flag. *)
  Section Flag.
    Context {T : Type} (t : T).
    Lemma foldMi_false_iff {A} (F : nat -> world (T := T) -> A -> outcome (bool * world (T := T)))
        (P : A -> Prop) l :
      (forall i a st w', In a l -> F i (t, st) a = Ok (false, w') <-> w' = (t, st) /\ P a) ->
      forall i c w w' st, w = (t, st) \/ c = true ->
      foldMi (fun i acc a => let* ' (s, w') := F i (snd acc) a in Ok (fst acc || s, w')) i l (c, w) =
        Ok (false, w') <-> c = false /\ w' = (t, st) /\ forall a, In a l -> P a.
    Proof.
      induction l as [|a l IH]; intros H i c w w' st Hx; cbn [foldMi fst snd].
      - split.
        + intros Q; inversion Q; subst. destruct Hx; [|congruence]. split; auto. split; auto. intros a [].
        + intros (-> & -> & _). destruct Hx; [subst; auto|congruence].
      - assert (Hl : forall i b st w', In b l -> F i (t, st) b = Ok (false, w') <-> w' = (t, st) /\ P b)
          by (intros; apply H; right; auto).
        assert (K : forall X, X <> @Ok (bool * world (T := T)) (false, (t, st)) ->
                      (forall b, In b (a :: l) -> P b) -> c = false -> F i w a = X -> False).
        { intros X NX Kp -> E. destruct Hx as [->|]; [|congruence]. apply NX. rewrite <- E.
          apply H; [left; auto|]. split; auto. apply Kp; left; auto. }
        destruct (F i w a) as [[s w1]| | | |] eqn:E; cbn [bind];
          try (split; [discriminate|intros (? & ? & Kp); exfalso; eapply K; eauto; discriminate]).
        destruct (c || s) eqn:Z.
        + rewrite (IH Hl (S i) true w1 w' st (or_intror eq_refl)).
          split; [intros (Q & _); congruence|]. intros (-> & -> & Kp). exfalso. cbn in Z. subst s.
          eapply K; eauto. discriminate.
        + apply orb_false_iff in Z. destruct Z as [-> ->]. destruct Hx as [->|]; [|congruence].
          apply H in E; [|left; auto]. destruct E as [-> Pa].
          rewrite (IH Hl (S i) false (t, st) w' st (or_introl eq_refl)).
          split; intros (_ & -> & Kp); (split; [auto|split; [auto|]]).
          * intros b [<-|Ib]; auto.
          * intros b Ib. apply Kp. right; auto.
    Qed.
  End Flag.

  Section Full.
    Context (om : object_map) (axioms : list axiom) (fuel : nat).

    (** Nothing changes, whatever the shared vectors contain. *)
    Definition quiet_at (s : state) (o : op) (args : list object) : Prop :=
      exists v, op_valid om s o args = Ok v /\
        (v = true -> zero st_ins st_del (cond_state om) om s (op_params o) args (op_effs o)).
    Definition stuck (s : state) : Prop :=
      forall a, In a axioms -> exists l, prepare_arguments om (ax_op a) = Ok l /\
        forall args, In args l -> quiet_at s (ax_op a) args.

    Lemma st_ins_zero s : st_wf s -> forall p t', st_ins p s = (0, t') -> t' = s.
    Proof.
      intros W p t'. rewrite st_ins_eq. intros Q. inversion Q. subst.
      apply (insert_spec p s W). apply b2n_0; auto.
    Qed.
    Lemma st_del_zero s : st_wf s -> forall p t', st_del p s = (0, t') -> t' = s.
    Proof.
      intros W p t'. rewrite st_del_eq. intros Q. inversion Q. subst.
      apply (erase_spec p s W). apply b2n_0; auto.
    Qed.

    Lemma apply_state_zero ow o args s st w' : st_wf s ->
      apply_state fuel om axioms ow o args (s, st) = Ok (0, w') <->
      w' = (s, st) /\ zero st_ins st_del (cond_state om) om s (op_params o) args (op_effs o).
    Proof.
      intros W. apply run_effs_zero_iff; [apply st_ins_zero|apply st_del_zero]; auto.
    Qed.

    Lemma consistent_args_iff i o s l : st_wf s -> forall st w',
      consistent_args om axioms fuel i o s l (s, st) = Ok (Some w') <->
      w' = (s, st) /\ forall args, In args l -> quiet_at s o args.
    Proof.
      intros W. induction l as [|args l IH]; intros st w'; cbn [consistent_args].
      - split; [intros Q; inversion Q; split; auto; intros ? []|intros [-> _]; auto].
      - destruct (op_valid om s o args) as [v| | | |] eqn:Ev; cbn [bind];
          try (split; [discriminate|intros [_ K]; destruct (K args (or_introl eq_refl)) as (? & Q & _); congruence]).
        destruct v.
        + destruct (apply_state fuel om axioms (OAx i) o args (s, st)) as [[[|n] w1]| | | |] eqn:E;
            try (split; [discriminate|]; intros [_ K]; destruct (K args (or_introl eq_refl)) as (? & Q & Z);
                 rewrite Ev in Q; inversion Q; subst;
                 pose proof (proj2 (apply_state_zero (OAx i) o args s st (s, st) W) (conj eq_refl (Z eq_refl)));
                 congruence).
          apply apply_state_zero in E; auto. destruct E as [-> Z]. rewrite IH. split.
          * intros [-> K]. split; auto. intros b [<-|I]; auto. exists true. auto.
          * intros [-> K]. split; auto. intros b I. apply K. right; auto.
        + rewrite IH. split.
          * intros [-> K]. split; auto. intros b [<-|I]; auto. exists false. split; auto. discriminate.
          * intros [-> K]. split; auto. intros b I. apply K. right; auto.
    Qed.

    Lemma valid_iff s st : st_wf s -> is_valid_state om axioms fuel s st = Ok true <-> stuck s.
    Proof.
      intros W. unfold is_valid_state, stuck. generalize 0. generalize axioms at 2 3.
      intros axs. revert st. induction axs as [|a axs IH]; intros st i; cbn [valid_from].
      - split; [intros _ a []|auto].
      - unfold is_consistent.
        destruct (prepare_arguments om (ax_op a)) as [l| | | |] eqn:El; cbn [bind];
          try (split; [discriminate|intros K; destruct (K a (or_introl eq_refl)) as (? & Q & _); congruence]).
        destruct (consistent_args om axioms fuel i (ax_op a) s l (s, st)) as [[w'|]| | | |] eqn:E; cbn [bind option_map].
        1:{ apply consistent_args_iff in E; auto. destruct E as [-> K]. cbn [snd]. rewrite IH. split.
            - intros H b [<-|I]; eauto.
            - intros H b I. apply H. right; auto. }
        all: split; [discriminate|]; intros K; destruct (K a (or_introl eq_refl)) as (l' & Q & Z);
             rewrite El in Q; inversion Q; subst;
             pose proof (proj2 (consistent_args_iff i (ax_op a) s l' W st (s, st)) (conj eq_refl Z)); congruence.
    Qed.

    Lemma axiom_apply_false s : st_wf s -> forall i a st w',
      axiom_apply om axioms fuel i a (s, st) = Ok (false, w') <->
      w' = (s, st) /\ exists l, prepare_arguments om (ax_op a) = Ok l /\
        forall args, In args l -> quiet_at s (ax_op a) args.
    Proof.
      intros W i a st w'. unfold axiom_apply.
      destruct (prepare_arguments om (ax_op a)) as [l| | | |] eqn:El; cbn [bind];
        try (split; [discriminate|intros (_ & ? & Q & _); congruence]).
      rewrite (foldM_ext _ (fun acc args => let* ' (c, w') :=
          (let* valid := op_valid om (fst (snd acc)) (ax_op a) args in
           if valid : bool then
             let* ' (n, w) := apply_state fuel om axioms (OAx i) (ax_op a) args (snd acc) in
             Ok (negb (Nat.eqb n 0), w)
           else Ok (false, snd acc)) in Ok (fst acc || c, w'))).
      2:{ intros [c w] args _. unfold axiom_step. cbn [fst snd].
          destruct (op_valid _ _ _ _) as [[|]| | | |]; cbn [bind]; auto.
          - destruct (apply_state _ _ _ _ _ _ _) as [[n w1]| | | |]; cbn [bind]; auto.
          - rewrite orb_false_r. auto. }
      rewrite (foldM_foldMi _ l 0).
      rewrite (foldMi_false_iff s (fun _ w args =>
          (let* valid := op_valid om (fst w) (ax_op a) args in
           if valid : bool then
             let* ' (n, w) := apply_state fuel om axioms (OAx i) (ax_op a) args w in
             Ok (negb (Nat.eqb n 0), w)
           else Ok (false, w))) (quiet_at s (ax_op a)) l) with (st := st); auto.
      - split; [intros (_ & -> & K); eauto|]. intros (-> & l' & Q & K). inversion Q; subst. auto.
      - intros _ args st1 w1 _. cbn [fst]. unfold quiet_at.
        destruct (op_valid om s (ax_op a) args) as [[|]| | | |] eqn:Ev; cbn [bind];
          try (split; [discriminate|intros (_ & ? & Q & _); congruence]).
        + split.
          * intros E. apply bind_Ok in E as ([n w2] & E & Q). injection Q as Qn Qw. subst w1.
            destruct n; [|discriminate]. apply apply_state_zero in E; auto.
            destruct E as [-> Z]. eauto.
          * intros (-> & v & Q & Z). inversion Q; subst.
            rewrite (proj2 (apply_state_zero (OAx i) (ax_op a) args s st1 (s, st1) W) (conj eq_refl (Z eq_refl))).
            reflexivity.
        + split; [intros Q; inversion Q; subst; split; auto; exists false; split; auto; discriminate|].
          intros (-> & _). auto.
    Qed.

    Lemma pass_false s : st_wf s -> forall st w',
      consistent_pass om axioms fuel (s, st) = Ok (false, w') <-> w' = (s, st) /\ stuck s.
    Proof.
      intros W st w'. unfold consistent_pass, stuck.
      rewrite (foldMi_false_iff s (fun i w a => axiom_apply om axioms fuel i a w)
        (fun a => exists l, prepare_arguments om (ax_op a) = Ok l /\ forall args, In args l -> quiet_at s (ax_op a) args)
        axioms) with (st := st); auto.
      - tauto.
      - intros i a st1 w1 _. apply axiom_apply_false; auto.
    Qed.

    (** ** States stay states *)
    Lemma apply_state_built ow o args s st n s' st' : built s ->
      apply_state fuel om axioms ow o args (s, st) = Ok (n, (s', st')) -> built s'.
    Proof.
      intros B E. unfold apply_state, apply_op in E.
      assert (L : forall pos p (t : state) n t', (if pos : bool then st_ins else st_del) p t = (n, t') -> built t -> built t').
      { intros pos p t m t' Q. replace t' with (snd ((if pos then st_ins else st_del) p t)) by (rewrite Q; auto).
        destruct pos; [rewrite st_ins_eq|rewrite st_del_eq]; cbn [snd]; intros Bt;
          [exact (built_run_from t [Ins p] Bt)|exact (built_run_from t [Del p] Bt)]. }
      refine (run_effs_keeps st_ins st_del _ om axioms _ (fun a b => built a -> built b) _ _ (fun _ => True) _
                (op_effs o) _ _ ow [] (op_params o) (Val args) (s, st) n (s', st') I E B); auto.
      - intros pos p t m t' _ _ Q Bt. eapply L; eauto.
      - intros i a r w m w' _ _ Q.
        refine (apply_axiom_keeps st_ins st_del _ om axioms (fun a b => built a -> built b) _ _ (fun _ => True) _ _
                  fuel i r w m w' I Q); auto.
        intros j b pos p t k t' _ _ _ Q' Bt. eapply L; eauto.
    Qed.

    Lemma axiom_apply_built i a w c w' : built (fst w) ->
      axiom_apply om axioms fuel i a w = Ok (c, w') -> built (fst w').
    Proof.
      intros B E. unfold axiom_apply in E. apply bind_Ok in E as (l & _ & E).
      revert c w' E B. generalize false. revert w. induction l as [|args l IH]; intros w c0 c w' E B; cbn [foldM] in E.
      - inversion E; subst; auto.
      - apply bind_Ok in E as ([c1 w1] & E1 & E). refine (IH w1 c1 c w' E _).
        unfold axiom_step in E1. cbn [fst snd] in E1. apply bind_Ok in E1 as ([|] & _ & E1).
        + apply bind_Ok in E1 as ([n [s2 st2]] & E1 & Q). inversion Q; subst. cbn [fst].
          destruct w. eapply apply_state_built; eauto.
        + inversion E1; subst; auto.
    Qed.

    Lemma pass_built w c w' : built (fst w) ->
      consistent_pass om axioms fuel w = Ok (c, w') -> built (fst w').
    Proof.
      unfold consistent_pass. generalize 0, false. revert w c w'.
      generalize axioms at 2. intros axs. induction axs as [|a axs IH]; intros w c w' i c0 B E; cbn [foldMi] in E.
      - inversion E; subst; auto.
      - apply bind_Ok in E as ([c1 w1] & E1 & E). apply bind_Ok in E1 as ([c2 w2] & E1 & Q). inversion Q; subst.
        refine (IH w1 c w' _ _ _ E). eapply axiom_apply_built; eauto.
    Qed.

    Lemma rounds_stuck rounds : forall w s' st', built (fst w) ->
      consistent_state om axioms fuel rounds w = Ok (s', st') -> built s' /\ stuck s'.
    Proof.
      induction rounds as [|n IH]; intros w s' st' B; cbn [consistent_state]; [discriminate|].
      intros E. apply bind_Ok in E as ([c w1] & E1 & E). destruct c.
      - refine (IH w1 s' st' _ E). eapply pass_built; eauto.
      - inversion E; subst. destruct w as [s st]. cbn [fst] in B.
        apply pass_false in E1; [|apply built_wf; auto]. destruct E1 as [Q K]. inversion Q; subst. auto.
    Qed.

    (** C29 *)
    Lemma C29_lemma rounds s st s' st' : built s ->
      consistent_state om axioms fuel rounds (s, st) = Ok (s', st') ->
      built s' /\ forall st2, is_valid_state om axioms fuel s' st2 = Ok true.
    Proof.
      intros B E. apply rounds_stuck in E; auto. destruct E as [B' K]. split; auto.
      intros st2. apply valid_iff; auto. apply built_wf; auto.
    Qed.

    (** C30 *)
    Lemma C30_fixed_lemma rounds s st s' st' : built s ->
      consistent_state om axioms fuel rounds (s, st) = Ok (s', st') ->
      (s' = s <-> is_valid_state om axioms fuel s st = Ok true).
    Proof.
      intros B E. split.
      - intros ->. apply (C29_lemma rounds s st s st') in E; auto. apply E.
      - rewrite valid_iff by (apply built_wf; auto). intros K. destruct rounds as [|n]; [discriminate|].
        cbn [consistent_state] in E.
        rewrite (proj2 (pass_false s (built_wf s B) st (s, st)) (conj eq_refl K)) in E. cbn in E. congruence.
    Qed.

    Lemma C30_returns_lemma rounds s st : built s -> is_valid_state om axioms fuel s st = Ok true ->
      consistent_state om axioms fuel (S rounds) (s, st) = Ok (s, st).
    Proof.
      intros B. rewrite valid_iff by (apply built_wf; auto). intros K. cbn [consistent_state].
      rewrite (proj2 (pass_false s (built_wf s B) st (s, st)) (conj eq_refl K)). reflexivity.
    Qed.

    Lemma C30_idempotent_lemma rounds n s st s' st' st2 : built s ->
      consistent_state om axioms fuel rounds (s, st) = Ok (s', st') ->
      consistent_state om axioms fuel (S n) (s', st2) = Ok (s', st2).
    Proof.
      intros B E. apply C29_lemma in E; auto. destruct E as [B' K]. apply C30_returns_lemma; auto.
    Qed.
  End Full.
End WithHash.
