(** Partial states rejected by the axioms have no valid completion; validity is decided. *)
From Coq Require Import String List Bool NArith ZArith Lia.
From Verif.Model Require Import Base HashSet Object Proposition State CombinationGenerator
  ParameterGenerator Syntax Formula Effects NormalForm Consistency.
From Verif.Spec Require Import SetSpec TypingSpec FormulaSpec EffectSpec NormalFormSpec AxiomSpec.
From Verif.Proofs Require Import OrderFacts HashSetFacts StateFacts StateHistory ParameterFacts FormulaFacts EffectFacts
  EffectLink EffectTheorems NormalFormFacts NormalFormGoal AxiomZero AxiomLoops AxiomMeaning AxiomPartial.
Import ListNotations.
Local Open Scope string_scope.
Local Open Scope list_scope.

Section WithHash.
  Context `{SH : StdHash}.
  Context (objects : list object) (W : Forall (fun o => wf_type (otype o)) objects).
  Context (Kc : Forall (fun o => okind o = KConst) objects).
  Notation om := (create_object_map objects).
  Context (ar : string -> nat) (rank : nat -> nat) (axioms : list axiom).
  Context (Hwf : Forall (wf_axiom objects) axioms).
  Context (Hgood : Forall (good_axiom objects ar) axioms) (Hrank : ranked axioms rank).

  (** ** Rejection *)
  Section Reject.
    Context (sig : string -> list string) (Htyped : Forall (typed_axiom objects sig) axioms).
    Context (s : state) (Ws : st_wf s) (Hs : Forall (respects objects (atoms s)) axioms).

    Definition below (t : partial_state) : Prop := ps_wf t /\ completes s t.
    Notation fine := (fine below (fun n => n <= 1) False).
    Notation env params vals := (bind_vars params vals no_env).

    Lemma below_insert p t : below t -> atoms s (prop_key p) ->
      fst (ps_insert p t) <= 1 /\ below (snd (ps_insert p t)).
    Proof.
      intros [[Wp Wn] [Cp Cn]] A. rewrite ps_insert_eq. cbn [fst snd].
      destruct (insert_spec p (ps_pos t) Wp) as (Wi & _ & Mi & _).
      destruct (erase_spec p (ps_neg t) Wn) as (We & Ee & Me & _).
      apply atoms_contains in A. split.
      - rewrite Ee. destruct (st_contains (ps_neg t) p) eqn:En; [specialize (Cn p En); congruence|].
        destruct (fst (st_insert p (ps_pos t))); cbn; lia.
      - split; [split; auto|]. split; cbn [ps_pos ps_neg]; intros q Hq.
        + apply contains_mem in Hq; auto. apply Mi in Hq. destruct Hq as [K|M].
          * rewrite (contains_key s q p K). auto.
          * apply Cp. apply contains_mem; auto.
        + apply contains_mem in Hq; auto. apply Me in Hq. apply Cn. apply contains_mem; tauto.
    Qed.

    Lemma below_erase p t : below t -> ~ atoms s (prop_key p) ->
      fst (ps_erase p t) <= 1 /\ below (snd (ps_erase p t)).
    Proof.
      intros [[Wp Wn] [Cp Cn]] A. rewrite ps_erase_eq. cbn [fst snd].
      destruct (erase_spec p (ps_pos t) Wp) as (We & Ee & Me & _).
      destruct (insert_spec p (ps_neg t) Wn) as (Wi & _ & Mi & _).
      assert (A' : st_contains s p = false) by (destruct (st_contains s p) eqn:E; auto; destruct A; apply atoms_contains; auto).
      split.
      - rewrite Ee. destruct (st_contains (ps_pos t) p) eqn:En; [specialize (Cp p En); congruence|].
        destruct (fst (st_insert p (ps_neg t))); cbn; lia.
      - split; [split; auto|]. split; cbn [ps_pos ps_neg]; intros q Hq.
        + apply contains_mem in Hq; auto. apply Me in Hq. apply Cp. apply contains_mem; tauto.
        + apply contains_mem in Hq; auto. apply Mi in Hq. destruct Hq as [K|M].
          * rewrite (contains_key s q p K). auto.
          * apply Cn. apply contains_mem; auto.
    Qed.

    Definition rec_fine (rec : nat -> list object -> partial_state -> outcome (nat * partial_state)) : Prop :=
      forall i a vals t, nth_error axioms i = Some a -> well_typed objects (op_params (ax_op a)) vals ->
        holds objects (atoms s) (env (op_params (ax_op a)) vals) (op_pre (ax_op a)) -> below t -> fine (rec i vals t).

    Lemma lit_fine rec params vals pos p t : rec_fine rec ->
      well_typed objects params vals -> Forall (arg_ok (map oname params)) (pargs p) ->
      arity_ok objects (pname p) (pargs p) -> Forall2 (arg_typed objects params) (pargs p) (sig (pname p)) ->
      (if pos : bool then holds objects (atoms s) (env params vals) (GSimple (pname p) (pargs p))
       else ~ holds objects (atoms s) (env params vals) (GSimple (pname p) (pargs p))) ->
      below t -> fine (sub_lit ps_insert ps_erase objects axioms rec params vals pos p t).
    Proof.
      intros Hrec Wt Fa [A1 A2] Ft Hh Bt. unfold sub_lit, sub_args.
      change (fun _ : string => null_object) with no_env.
      pose proof (args_typed objects params vals (pargs p) (sig (pname p)) Wt Fa Ft) as Tl.
      cbn [holds] in Hh. set (l := map (denote (env params vals)) (pargs p)) in *.
      assert (Ll : length l = length (pargs p)) by apply map_length. rewrite <- Ll in A1, A2.
      destruct (String.eqb_spec (pname p) "=") as [Eq|Ne].
      { specialize (A1 Eq). clearbody l. destruct l as [|a [|b [|]]]; try discriminate.
        assert (Q : String.eqb (oname a) (oname b) = pos).
        { destruct (String.eqb_spec (oname a) (oname b)) as [E|E], pos; auto; exfalso.
          - apply Hh. left. split; auto. exists a, b. auto.
          - destruct Hh as [(_ & x & y & Q & E')|[(Q & _)|(Q & _)]]; [inversion Q; congruence|congruence|congruence]. }
        rewrite Q, eqb_reflx. cbn. auto. }
      destruct (is_typeb objects (pname p)) eqn:Et.
      { assert (T : is_type objects (pname p)) by (apply is_typeb_spec; auto). specialize (A2 Ne T).
        clearbody l. destruct l as [|a [|]]; try discriminate.
        assert (Q : existsb (String.eqb (pname p)) (default_type :: otype a) = pos).
        { assert (X : existsb (String.eqb (pname p)) (default_type :: otype a) = true <-> has_type a (pname p)).
          { rewrite existsb_exists. unfold has_type. split.
            - intros (x & I & E). apply String.eqb_eq in E. subst x. destruct I as [<-|I]; auto.
            - intros [->|I]; [exists default_type; split; [left; auto|apply String.eqb_refl]|].
              exists (pname p). split; [right; auto|apply String.eqb_refl]. }
          destruct (existsb _ _), pos; auto; exfalso.
          - apply Hh. right. left. split; auto. split; auto. exists a. split; auto. apply X; auto.
          - destruct Hh as [(Q & _)|[(_ & _ & x & Q & E')|(_ & Q & _)]]; [congruence| |tauto].
            inversion Q; subst. apply X in E'. discriminate. }
        rewrite Q, eqb_reflx. cbn. auto. }
      assert (Nt : ~ is_type objects (pname p)) by (intros T; apply is_typeb_spec in T; congruence).
      assert (Hat : let h := atoms s (prop_key (mkProp (pname p) l)) in if pos then h else ~ h).
      { unfold prop_key. cbn [pname pargs]. destruct pos.
        - destruct Hh as [(Q & _)|[(_ & Q & _)|(_ & _ & Q)]]; [congruence|tauto|auto].
        - intros Q. apply Hh. right. right. auto. }
      assert (Hst : fst ((if pos then ps_insert else ps_erase) (mkProp (pname p) l) t) <= 1 /\
                    below (snd ((if pos then ps_insert else ps_erase) (mkProp (pname p) l) t))).
      { destruct pos; [apply below_insert|apply below_erase]; auto. }
      destruct ((if pos then ps_insert else ps_erase) (mkProp (pname p) l) t) as [n t'].
      cbn [fst snd] in Hst. destruct Hst as [Hn Bt'].
      destruct (Nat.eqb n 0); [cbn; auto|].
      pose proof (sub_fire_fine axioms below (fun n => n <= 1) False rec pos (pname p) l) as F.
      assert (Hfire : forall i a vals0 t0, nth_error axioms i = Some a -> ax_pos a = pos -> ax_name a = pname p ->
        context_values a l = Some vals0 -> below t0 -> fine (rec i vals0 t0)).
      { intros i a vals0 t0 Ni Ep En Ev B0.
        pose proof (nth_error_In _ _ Ni) as Ia.
        rewrite Forall_forall in Hwf, Hgood, Htyped.
        destruct (Hwf a Ia) as [Ec _ _ Wp _]. destruct (Hgood a Ia) as [_ Lc Ga]. destruct (Htyped a Ia) as [_ Gc].
        assert (Lg : length (ax_args a) = length l).
        { unfold general_context in Gc. unfold typed_objs in Tl. rewrite <- En in Tl.
          rewrite (Forall2_length' Gc), (Forall2_length' Tl). auto. }
        pose proof (context_cases a Ec) as Epre.
        assert (Fx : Forall (arg_ok (map oname (op_params (ax_op a)))) (ax_args a)).
        { rewrite Epre in Wp. destruct (ax_pos a); destruct Wp; auto. }
        apply Hrec with (a := a); auto.
        - eapply context_typed; eauto. rewrite En. exact Tl.
        - pose proof (context_names a l vals0 Lc Fx Lg Ev) as Nm. rewrite Epre, Ep, En.
          assert (Q : holds objects (atoms s) (env (op_params (ax_op a)) vals0) (GSimple (pname p) (ax_args a)) <->
                      atoms s (prop_key (mkProp (pname p) l))).
          { cbn [holds]. unfold atom_holds, prop_key. rewrite Nm. cbn [pname pargs]. split.
            - intros [(Q & _)|[(_ & Q & _)|(_ & _ & Q)]]; [congruence|tauto|auto].
            - intros Q. right. right. auto. }
          destruct pos; cbn [holds] in *; tauto. }
      specialize (F Hfire axioms [] t' eq_refl Bt'). cbn [length] in F.
      destruct (sub_fire rec 0 axioms pos (pname p) l t'); cbn [bind]; auto. cbn. auto.
    Qed.

    Definition eff_pre (params vals : list object) (e : effs) : Prop :=
      well_typed objects params vals /\ wf_effs objects (map oname params) e /\
      typed_effs objects sig params e /\ post objects (atoms s) (env params vals) e.

    Lemma effs_fine rec : rec_fine rec -> forall e params vals t, eff_pre params vals e -> below t ->
      fine (sub_effs ps_insert ps_erase (cond_partial om) objects axioms rec params vals e t).
    Proof.
      intros Hrec. apply (sub_effs_fine ps_insert ps_erase (cond_partial om) objects axioms below (fun n => n <= 1) False).
      { lia. } { intros; lia. }
      intros params vals fs adds dels cs (Wt & Wf & Ty & Po).
      pose proof (well_typed_length _ _ _ Wt) as L.
      apply wf_effs_eq in Wf. destruct Wf as (Wf & Wa & Wd & Wc).
      apply typed_effs_eq in Ty. destruct Ty as (Tf & Ta & Td & Tc).
      apply post_eq in Po. destruct Po as (Pf & Pa & Pd & Pc).
      rewrite Forall_forall in Wa, Wd, Ta, Td. split; [|split; [|split]].
      - intros vars b objs I Wo. destruct (Wf vars b I) as (Nv & Cv & Wb). split; [|split; [|split]].
        + apply Forall2_app; auto.
        + rewrite map_app. auto.
        + apply Tf; auto.
        + rewrite bind_vars_app by auto. apply (Pf vars b); auto.
      - intros p t I Bt. destruct (Wa p I). apply lit_fine; auto; exact (Pa p I).
      - intros p t I Bt. destruct (Wd p I). apply lit_fine; auto; exact (Pd p I).
      - intros g b t I Bt. destruct (Wc g b I) as [Wg Wb]. unfold cond_partial.
        destruct (eval_optional_total objects t g W params vals L Wg) as (r & Er). rewrite Er. cbn [bind].
        destruct r as [[|]|]; auto.
        split; [auto|]. split; [auto|]. split; [eauto|]. apply (Pc g b I).
        destruct (eval_state_semantics objects s g params vals no_env W L Wg) as (v & E & Hv).
        apply Hv. destruct Bt as [_ Ct]. rewrite (C20_lemma om t s g params vals true Ct Er) in E. congruence.
    Qed.

    Lemma axiom_fine fuel : rec_fine (sub_axiom ps_insert ps_erase (cond_partial om) objects axioms fuel).
    Proof.
      induction fuel as [|fuel IH]; intros i a vals t Ni Wt Hh Bt; cbn [sub_axiom]; [cbn; auto|].
      rewrite Ni. apply effs_fine; auto. pose proof (nth_error_In _ _ Ni) as Ia.
      rewrite Forall_forall in Hwf, Htyped, Hs.
      destruct (Hwf a Ia), (Htyped a Ia). split; auto. split; auto. split; auto. exact (Hs a Ia vals Wt Hh).
    Qed.

    Lemma apply_partial_fine fuel i a args t st : nth_error axioms i = Some a ->
      well_typed objects (op_params (ax_op a)) args ->
      holds objects (atoms s) (env (op_params (ax_op a)) args) (op_pre (ax_op a)) -> below t -> store_ok st ->
      match apply_partial fuel om axioms (OAx i) (ax_op a) args (t, st) with
      | Ok (n, (t', st')) => n <= 1 /\ below t' /\ store_ok st'
      | OutOfFuel => True
      | _ => False
      end.
    Proof.
      intros Ni Wt Hh Bt So. pose proof (nth_error_In _ _ Ni) as Ia.
      assert (G : good_op objects ar (ax_op a)) by (rewrite Forall_forall in Hgood; destruct (Hgood a Ia); auto).
      pose proof (apply_op_link ps_insert ps_erase (cond_partial om) objects axioms ar rank fuel (OAx i) (ax_op a) args t st
                    W Hgood Hrank G (well_typed_length _ _ _ Wt) So (ex_intro _ a (conj Ni eq_refl))) as K.
      pose proof (effs_fine _ (axiom_fine fuel) (op_effs (ax_op a)) (op_params (ax_op a)) args t) as F.
      unfold apply_partial. set (x := apply_op _ _ _ _ _ _ _ _ _ _) in *. clearbody x.
      assert (F' : eff_pre (op_params (ax_op a)) args (op_effs (ax_op a))).
      { rewrite Forall_forall in Hwf, Htyped, Hs. destruct (Hwf a Ia), (Htyped a Ia).
        split; auto. split; auto. split; auto. exact (Hs a Ia args Wt Hh). }
      specialize (F F' Bt). destruct (sub_effs _ _ _ _ _ _ _ _ _ t) as [[m u]| | | |]; cbn in F;
        destruct x as [[n [t' st']]| | | |]; cbn in K; try tauto.
      destruct K as (-> & -> & So'). tauto.
    Qed.

    Lemma args_not_rejected fuel i a l : nth_error axioms i = Some a ->
      (forall args, In args l -> well_typed objects (op_params (ax_op a)) args) ->
      forall c t st, below t -> store_ok st ->
      match consistent_args_partial om axioms fuel i (ax_op a) l (c, (t, st)) with
      | Ok None => False
      | Ok (Some (c', (t', st'))) => below t' /\ store_ok st'
      | _ => True
      end.
    Proof.
      intros Ni. induction l as [|args l IH]; intros Hl c t st Bt So; cbn [consistent_args_partial]; [auto|].
      assert (Hl' : forall x, In x l -> well_typed objects (op_params (ax_op a)) x) by (intros; apply Hl; right; auto).
      pose proof (Hl args (or_introl eq_refl)) as Wt. cbn [fst snd].
      unfold op_valid_partial.
      destruct (eval_optional om t (op_pre (ax_op a)) (op_params (ax_op a)) args) as [[[|]|]| | | |] eqn:Er; cbn [bind]; auto;
        try (apply IH; auto; fail).
      pose proof (apply_partial_fine fuel i a args t st Ni Wt) as F.
      assert (Hh : holds objects (atoms s) (env (op_params (ax_op a)) args) (op_pre (ax_op a))).
      { rewrite Forall_forall in Hwf. destruct (Hwf a (nth_error_In _ _ Ni)) as [_ _ _ Wp _].
        destruct (eval_state_semantics objects s (op_pre (ax_op a)) (op_params (ax_op a)) args no_env W
                    (well_typed_length _ _ _ Wt) Wp) as (v & E & Hv).
        apply Hv. destruct Bt as [_ Ct]. rewrite (C20_lemma om t s _ _ _ true Ct Er) in E. congruence. }
      specialize (F Hh Bt So).
      destruct (apply_partial fuel om axioms (OAx i) (ax_op a) args (t, st)) as [[n [t' st']]| | | |]; auto; try tauto.
      destruct F as (Hn & Bt' & So'). destruct (Nat.ltb_spec 1 n); [lia|]. apply IH; auto.
    Qed.

    Lemma pass_not_rejected fuel : forall axs pre, axioms = pre ++ axs -> forall c t st, below t -> store_ok st ->
      match consistent_axioms_partial om axioms fuel (length pre) axs (c, (t, st)) with
      | Ok None => False
      | Ok (Some (c', (t', st'))) => below t' /\ store_ok st'
      | _ => True
      end.
    Proof.
      induction axs as [|a axs IH]; intros pre E c t st Bt So; cbn [consistent_axioms_partial]; auto.
      assert (N : nth_error axioms (length pre) = Some a).
      { rewrite E, nth_error_app2, Nat.sub_diag by lia. reflexivity. }
      assert (E' : axioms = (pre ++ [a]) ++ axs) by (rewrite <- app_assoc; exact E).
      specialize (IH (pre ++ [a]) E'). rewrite app_length in IH. cbn in IH. rewrite Nat.add_1_r in IH.
      destruct (prepare_ok objects W Kc a) as (l & -> & Hl & _).
      { rewrite Forall_forall in Hwf. apply Hwf. eapply nth_error_In; eauto. }
      cbn [bind]. pose proof (args_not_rejected fuel _ a l N Hl c t st Bt So) as F.
      destruct (consistent_args_partial om axioms fuel (length pre) (ax_op a) l (c, (t, st)))
        as [[[c' [t' st']]|]| | | |]; cbn [bind]; auto. destruct F. apply IH; auto.
    Qed.

    Lemma not_rejected fuel rounds : forall t st, below t -> store_ok st ->
      is_valid_partial om axioms fuel rounds (t, st) <> Ok false.
    Proof.
      induction rounds as [|n IH]; intros t st Bt So; cbn [is_valid_partial]; [discriminate|].
      pose proof (pass_not_rejected fuel axioms [] eq_refl false t st Bt So) as F. cbn [length] in F.
      destruct (consistent_axioms_partial om axioms fuel 0 axioms (false, (t, st))) as [[[c [t' st']]|]| | | |];
        cbn [bind]; try discriminate; [|tauto]. destruct F. destruct c; [apply IH; auto|discriminate].
    Qed.

    (** ** ConsistentState keeps every valid completion *)
    Lemma steps_below fuel i a l : nth_error axioms i = Some a ->
      (forall args, In args l -> well_typed objects (op_params (ax_op a)) args) ->
      forall acc, fst acc <= 1 -> below (fst (snd acc)) -> store_ok (snd (snd acc)) ->
      match foldM (axiom_step_partial om axioms fuel i (ax_op a)) l acc with
      | Ok acc' => fst acc' <= 1 /\ below (fst (snd acc')) /\ store_ok (snd (snd acc'))
      | OutOfFuel => True
      | _ => False
      end.
    Proof.
      intros Ni. induction l as [|args l IH]; intros Hl [c [t st]] Hc Bt So; cbn [foldM fst snd] in *; [auto|].
      assert (Hl' : forall x, In x l -> well_typed objects (op_params (ax_op a)) x) by (intros; apply Hl; right; auto).
      pose proof (Hl args (or_introl eq_refl)) as Wt.
      assert (Wp : wf_goal objects (map oname (op_params (ax_op a))) (op_pre (ax_op a))).
      { rewrite Forall_forall in Hwf. destruct (Hwf a (nth_error_In _ _ Ni)); auto. }
      unfold axiom_step_partial at 1. unfold op_valid_partial. cbn [fst snd].
      destruct (eval_optional_total objects t (op_pre (ax_op a)) W _ args (well_typed_length _ _ _ Wt) Wp) as (r & Er).
      rewrite Er. cbn [bind]. destruct r as [[|]|]; cbn [bind]; try (apply IH; auto; fail).
      pose proof (apply_partial_fine fuel i a args t st Ni Wt) as F.
      assert (Hh : holds objects (atoms s) (env (op_params (ax_op a)) args) (op_pre (ax_op a))).
      { destruct (eval_state_semantics objects s (op_pre (ax_op a)) (op_params (ax_op a)) args no_env W
                    (well_typed_length _ _ _ Wt) Wp) as (v & E & Hv).
        apply Hv. destruct Bt as [_ Ct]. rewrite (C20_lemma om t s _ _ _ true Ct Er) in E. congruence. }
      specialize (F Hh Bt So).
      destruct (apply_partial fuel om axioms (OAx i) (ax_op a) args (t, st)) as [[n [t' st']]| | | |]; auto; try tauto.
      cbn [bind]. destruct F as (Hn & Bt' & So'). apply IH; cbn [fst snd]; auto. lia.
    Qed.

    Lemma pass_below fuel : forall axs pre, axioms = pre ++ axs -> forall acc,
      below (fst (snd acc)) -> store_ok (snd (snd acc)) ->
      match foldMi (fun i acc a =>
        let* ' (n, w') := axiom_apply_partial om axioms fuel i a (snd acc) in
        if Nat.eqb n 2 then Throw ERuntime else Ok (fst acc || Nat.ltb 0 n, w')) (length pre) axs acc with
      | Ok acc' => below (fst (snd acc')) /\ store_ok (snd (snd acc'))
      | OutOfFuel => True
      | _ => False
      end.
    Proof.
      induction axs as [|a axs IH]; intros pre E acc Bt So; cbn [foldMi]; auto.
      assert (N : nth_error axioms (length pre) = Some a).
      { rewrite E, nth_error_app2, Nat.sub_diag by lia. reflexivity. }
      assert (E' : axioms = (pre ++ [a]) ++ axs) by (rewrite <- app_assoc; exact E).
      specialize (IH (pre ++ [a]) E'). rewrite app_length in IH. cbn [length] in IH. rewrite Nat.add_1_r in IH.
      unfold axiom_apply_partial at 1.
      destruct (prepare_ok objects W Kc a) as (l & -> & Hl & _).
      { rewrite Forall_forall in Hwf. apply Hwf. eapply nth_error_In; eauto. }
      cbn [bind]. pose proof (steps_below fuel _ a l N Hl (0, snd acc) (Nat.le_0_l _) Bt So) as F.
      destruct (foldM _ l (0, snd acc)) as [[n w']| | | |]; cbn [bind]; auto.
      cbn [fst snd] in F. destruct F as (Hn & Bt' & So').
      destruct (Nat.eqb_spec n 2); [lia|]. cbn [bind]. apply IH; auto.
    Qed.

    Lemma rounds_below fuel left : forall t st, below t -> store_ok st ->
      match consistent_rounds om axioms fuel left (t, st) with
      | Ok (t', st') => below t' /\ store_ok st'
      | OutOfFuel => True
      | Throw e => e = ERuntime
      | _ => False
      end.
    Proof.
      induction left as [|n IH]; intros t st Bt So; cbn [consistent_rounds]; unfold consistent_pass_partial.
      - pose proof (pass_below fuel axioms [] eq_refl (false, (t, st)) Bt So) as F. cbn [length] in F.
        destruct (foldMi _ 0 axioms (false, (t, st))) as [[c [t' st']]| | | |]; cbn [bind]; tauto.
      - pose proof (pass_below fuel axioms [] eq_refl (false, (t, st)) Bt So) as F. cbn [length] in F.
        destruct (foldMi _ 0 axioms (false, (t, st))) as [[c [t' st']]| | | |]; cbn [bind]; try tauto.
        cbn [fst snd] in F. destruct F. destruct c; [apply IH; auto|auto].
    Qed.
  End Reject.

  Lemma C31_lemma sig fuel rounds ps st : Forall (typed_axiom objects sig) axioms -> pbuilt ps ->
    reachable_store objects ar axioms st ->
    is_valid_partial om axioms fuel rounds (ps, st) = Ok false ->
    forall s fuel' st', built s -> completes s ps -> is_valid_state om axioms fuel' s st' <> Ok true.
  Proof.
    intros Ht (Bp & Bn & _) Rs E s fuel' st' Bs C V.
    apply (valid_iff om axioms fuel' s st' (built_wf s Bs)) in V.
    apply (stuck_respects objects W Kc axioms s Hwf (built_wf s Bs)) in V.
    apply (not_rejected sig Ht s V fuel rounds ps st) in E; auto.
    - split; auto. split; apply built_wf; auto.
    - eapply reachable_ok; eauto.
  Qed.

  Lemma C32_completions_lemma sig fuel ps st ps' st' s fuel' st2 : Forall (typed_axiom objects sig) axioms ->
    pbuilt ps -> reachable_store objects ar axioms st ->
    built s -> completes s ps -> is_valid_state om axioms fuel' s st2 = Ok true ->
    consistent_partial om axioms fuel (ps, st) = Ok (ps', st') -> completes s ps'.
  Proof.
    intros Ht (Bp & Bn & _) Rs Bs C V E.
    apply (valid_iff om axioms fuel' s st2 (built_wf s Bs)) in V.
    apply (stuck_respects objects W Kc axioms s Hwf (built_wf s Bs)) in V.
    pose proof (rounds_below sig Ht s V fuel 51 ps st) as F.
    unfold consistent_partial in E. rewrite E in F. apply F.
    - split; auto. split; apply built_wf; auto.
    - eapply reachable_ok; eauto.
  Qed.
End WithHash.
