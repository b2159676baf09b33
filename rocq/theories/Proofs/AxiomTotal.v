(** IsValidState on full states always answers. *)
From Coq Require Import String List Bool NArith ZArith Lia.
From Verif.Model Require Import Base HashSet Object Proposition State CombinationGenerator
  ParameterGenerator Syntax Formula Effects NormalForm Consistency.
From Verif.Spec Require Import SetSpec TypingSpec FormulaSpec EffectSpec NormalFormSpec AxiomSpec.
From Verif.Proofs Require Import OrderFacts HashSetFacts StateFacts StateHistory ParameterFacts FormulaFacts EffectFacts
  EffectLink EffectTheorems NormalFormFacts NormalFormGoal AxiomZero AxiomLoops AxiomMeaning AxiomPartial.
Import ListNotations.
Local Open Scope string_scope.
Local Open Scope list_scope.

Section WithHash.
  Context `{SH : StdHash}.
  Context (objects : list object) (W : Forall (fun o => wf_type (otype o)) objects).
  Notation om := (create_object_map objects).
  Context (axioms : list axiom) (ar : string -> nat) (Hgood : Forall (good_axiom objects ar) axioms).

  Notation safe := (fine (fun _ : state => True) (fun _ => True) True).

  Definition rec_safe (rec : nat -> list object -> state -> outcome (nat * state)) : Prop :=
    forall i a vals t, nth_error axioms i = Some a -> length (op_params (ax_op a)) = length vals -> safe (rec i vals t).

  Lemma lit_safe rec params vals pos p t : rec_safe rec -> arity_ok objects (pname p) (pargs p) ->
    safe (sub_lit st_ins st_del objects axioms rec params vals pos p t).
  Proof.
    intros Hrec [A1 A2]. unfold sub_lit, sub_args.
    set (l := map (denote (bind_vars params vals (fun _ => null_object))) (pargs p)).
    assert (Ll : length l = length (pargs p)) by apply map_length. rewrite <- Ll in A1, A2. clearbody l.
    destruct (String.eqb_spec (pname p) "=") as [Eq|Ne].
    { specialize (A1 Eq). destruct l as [|a [|b [|]]]; try discriminate. destruct (Bool.eqb _ pos); cbn; auto. }
    destruct (is_typeb objects (pname p)) eqn:Et.
    { apply is_typeb_spec in Et. specialize (A2 Ne Et). destruct l as [|a [|]]; try discriminate.
      destruct (Bool.eqb _ pos); cbn; auto. }
    destruct ((if pos then st_ins else st_del) (mkProp (pname p) l) t) as [n t'].
    destruct (Nat.eqb n 0); [cbn; auto|].
    pose proof (sub_fire_fine axioms (fun _ : state => True) (fun _ => True) True rec pos (pname p) l) as F.
    specialize (F ltac:(intros i a v t0 N _ _ E _; eapply Hrec; eauto; unfold context_values in E;
      destruct (consts_match _ _ l); [injection E as <-; rewrite map_length; auto|discriminate])
      axioms [] t' eq_refl I). cbn [length] in F.
    destruct (sub_fire rec 0 axioms pos (pname p) l t'); cbn [bind]; auto. cbn. auto.
  Qed.

  Lemma effs_safe rec : rec_safe rec -> forall e params vals t, length params = length vals ->
    wf_effs objects (map oname params) e ->
    safe (sub_effs st_ins st_del (cond_state om) objects axioms rec params vals e t).
  Proof.
    intros Hrec e params vals t L Wf.
    apply (sub_effs_fine st_ins st_del (cond_state om) objects axioms (fun _ => True) (fun _ => True) True)
      with (P := fun params vals e => length params = length vals /\ wf_effs objects (map oname params) e); auto.
    clear -Hrec W. intros params vals fs adds dels cs [L Wf]. apply wf_effs_eq in Wf. destruct Wf as (Wf & Wa & Wd & Wc).
    rewrite Forall_forall in Wa, Wd. split; [|split; [|split]].
    - intros vars b objs I Wo. destruct (Wf vars b I) as (_ & _ & Wb). split; [|rewrite map_app; auto].
      rewrite !app_length, (well_typed_length _ _ _ Wo). lia.
    - intros p t I _. apply lit_safe; auto. apply Wa; auto.
    - intros p t I _. apply lit_safe; auto. apply Wd; auto.
    - intros g b t I _. destruct (Wc g b I) as [Wg Wb]. unfold cond_state.
      destruct (eval_state_semantics objects t g params vals no_env W L Wg) as ([|] & -> & _); auto.
  Qed.

  Lemma axiom_safe fuel : rec_safe (sub_axiom st_ins st_del (cond_state om) objects axioms fuel).
  Proof.
    induction fuel as [|fuel IH]; intros i a vals t Ni L; cbn [sub_axiom]; [cbn; auto|].
    rewrite Ni. apply effs_safe; auto.
    rewrite Forall_forall in Hgood. destruct (Hgood a (nth_error_In _ _ Ni)) as [[_ G _ _] _ _]. auto.
  Qed.

  Context (Kc : Forall (fun o => okind o = KConst) objects) (Hwf : Forall (wf_axiom objects) axioms).
  Context (rank : nat -> nat) (Hrank : ranked axioms rank).
  Context (fuel : nat) (Hf : forall i, i < length axioms -> rank i < fuel).

  Lemma apply_total i a args s st : nth_error axioms i = Some a -> length (op_params (ax_op a)) = length args ->
    store_ok st ->
    match apply_state fuel om axioms (OAx i) (ax_op a) args (s, st) with
    | Ok (_, (_, st')) => store_ok st' | Throw _ => True | _ => False
    end.
  Proof.
    intros Ni L So. pose proof (nth_error_In _ _ Ni) as Ia.
    assert (G : good_op objects ar (ax_op a)) by (rewrite Forall_forall in Hgood; destruct (Hgood a Ia); auto).
    pose proof (apply_op_link st_ins st_del (cond_state om) objects axioms ar rank fuel (OAx i) (ax_op a) args s st
                  W Hgood Hrank G L So (ex_intro _ a (conj Ni eq_refl))) as K.
    pose proof (effs_safe _ (axiom_safe fuel) (op_effs (ax_op a)) (op_params (ax_op a)) args s L (go_wf _ _ _ G)) as F.
    pose proof (sub_op_fuel st_ins st_del (cond_state om) objects axioms) as N.
    unfold apply_state. set (x := apply_op _ _ _ _ _ _ _ _ _ _) in *. clearbody x.
    assert (N' : sub_effs st_ins st_del (cond_state om) objects axioms
         (sub_axiom st_ins st_del (cond_state om) objects axioms fuel) (op_params (ax_op a)) args
         (op_effs (ax_op a)) s <> OutOfFuel).
    { eapply N; eauto. intros t g ps vs L' Wg. unfold cond_state.
      destruct (eval_state_semantics objects t g ps vs no_env W L' Wg) as (v & -> & _). discriminate. }
    destruct (sub_effs _ _ _ _ _ _ _ _ _ s) as [[m u]| | | |]; cbn in F;
      destruct x as [[n [t' st']]| | | |]; cbn in K; try tauto; congruence.
  Qed.

  Lemma args_total i a s l : nth_error axioms i = Some a -> st_wf s ->
    (forall args, In args l -> well_typed objects (op_params (ax_op a)) args) ->
    forall st, store_ok st ->
    exists r, consistent_args om axioms fuel i (ax_op a) s l (s, st) = Ok r /\
      forall w, r = Some w -> w = (s, st).
  Proof.
    intros Ni Ws. induction l as [|args l IH]; intros Hl st So; cbn [consistent_args].
    - exists (Some (s, st)). split; auto. congruence.
    - assert (Hl' : forall x, In x l -> well_typed objects (op_params (ax_op a)) x) by (intros; apply Hl; right; auto).
      pose proof (well_typed_length _ _ _ (Hl args (or_introl eq_refl))) as L.
      assert (Wp : wf_goal objects (map oname (op_params (ax_op a))) (op_pre (ax_op a))).
      { rewrite Forall_forall in Hwf. destruct (Hwf a (nth_error_In _ _ Ni)). auto. }
      unfold op_valid.
      destruct (eval_state_semantics objects s (op_pre (ax_op a)) (op_params (ax_op a)) args no_env W L Wp) as (v & -> & _).
      cbn [bind]. destruct v; [|apply IH; auto].
      pose proof (apply_total i a args s st Ni L So) as T.
      destruct (apply_state fuel om axioms (OAx i) (ax_op a) args (s, st)) as [[[|n] w1]| | | |] eqn:E; try tauto.
      + apply apply_state_zero in E; auto. destruct E as [-> _]. apply IH; auto.
      + exists None. split; auto. discriminate.
      + exists None. split; auto. discriminate.
  Qed.

  Lemma C30_decides_lemma s st : built s -> reachable_store objects ar axioms st ->
    exists b, is_valid_state om axioms fuel s st = Ok b /\
      (b = true <-> Forall (respects objects (atoms s)) axioms).
  Proof.
    intros B Rs. assert (So : store_ok st) by (eapply reachable_ok; eauto).
    pose proof (built_wf s B) as Ws.
    assert (X : exists b, is_valid_state om axioms fuel s st = Ok b).
    { assert (G : forall axs pre, axioms = pre ++ axs ->
                exists b, valid_from om axioms fuel (length pre) axs s st = Ok b).
      { induction axs as [|a axs IH]; intros pre E; cbn [valid_from]; eauto.
        assert (N : nth_error axioms (length pre) = Some a).
        { rewrite E, nth_error_app2, Nat.sub_diag by lia. reflexivity. }
        assert (E' : axioms = (pre ++ [a]) ++ axs) by (rewrite <- app_assoc; exact E).
        specialize (IH (pre ++ [a]) E'). rewrite app_length in IH. cbn in IH. rewrite Nat.add_1_r in IH.
        unfold is_consistent. destruct (prepare_ok objects W Kc a) as (l & -> & Hl & _).
        { rewrite Forall_forall in Hwf. apply Hwf. eapply nth_error_In; eauto. }
        cbn [bind]. destruct (args_total (length pre) a s l N Ws Hl st So) as (r & -> & Hr). cbn [bind].
        destruct r as [w|]; cbn [option_map]; eauto. rewrite (Hr w eq_refl). cbn [snd]. exact IH. }
      apply (G axioms []). reflexivity. }
    destruct X as (b & E). exists b. split; auto. eapply C30_meaning_lemma; eauto.
  Qed.
End WithHash.
