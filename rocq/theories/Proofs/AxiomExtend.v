(** ConsistentState on partial states: stable results that keep what was known. *)
From Coq Require Import String List Bool NArith ZArith Lia.
From Verif.Model Require Import Base HashSet Object Proposition State CombinationGenerator
  ParameterGenerator Syntax Formula Effects NormalForm Consistency.
From Verif.Spec Require Import SetSpec TypingSpec FormulaSpec EffectSpec NormalFormSpec AxiomSpec.
From Verif.Proofs Require Import OrderFacts HashSetFacts StateFacts StateHistory ParameterFacts FormulaFacts EffectFacts
  EffectLink EffectTheorems AxiomZero AxiomLoops.
Import ListNotations.
Local Open Scope string_scope.
Local Open Scope list_scope.

Section WithHash.
  Context `{SH : StdHash}.

  (** ** Statuses are at most 2 *)
  Section Bound.
    Context {T : Type} (ins del : prop -> T -> nat * T)
            (cond : T -> goal -> list object -> list object -> outcome bool)
            (om : object_map) (axioms : list axiom)
            (rec : nat -> argref -> world (T := T) -> outcome (nat * world (T := T))).
    Context (B : nat) (Hlit : forall (pos : bool) p t, fst ((if pos then ins else del) p t) <= B).

    Lemma foldMi_bound {A} (F : nat -> world (T := T) -> A -> outcome (nat * world (T := T))) l :
      (forall i a w n w', In a l -> F i w a = Ok (n, w') -> n <= B) ->
      forall i n w n' w', n <= B ->
      foldMi (fun i acc a => let* ' (s, w') := F i (snd acc) a in Ok (Nat.max (fst acc) s, w')) i l (n, w) =
        Ok (n', w') -> n' <= B.
    Proof.
      induction l as [|a l IH]; intros H i n w n' w' L; cbn [foldMi fst snd].
      - intros Q; inversion Q; subst; auto.
      - intros E. apply bind_Ok in E as ([m w1] & E1 & E). apply bind_Ok in E1 as ([k w2] & E1 & Q).
        injection Q as <- <-. refine (IH _ _ _ _ _ _ _ E).
        + intros; eapply H; eauto. right; auto.
        + assert (k <= B) by (eapply H; eauto; left; auto). lia.
    Qed.

    Lemma run_lit_bound ow path params pos p r w n w' :
      run_lit ins del om axioms rec ow path params pos p r w = Ok (n, w') -> n <= B.
    Proof.
      intros E. unfold run_lit in E. apply bind_Ok in E as (l & _ & E).
      destruct (String.eqb (pname p) "=").
      { apply bind_Ok in E as (b & _ & E). destruct (Bool.eqb b pos); inversion E; subst. lia. }
      destruct (om_find om (pname p)).
      { apply bind_Ok in E as (b & _ & E). destruct (Bool.eqb b pos); inversion E; subst. lia. }
      pose proof (Hlit pos (mkProp (pname p) l) (fst w)) as Hb.
      destruct ((if pos then ins else del) (mkProp (pname p) l) (fst w)) as [m t'] eqn:Ei. cbn [fst] in Hb.
      destruct (Nat.eqb m 0); [inversion E; subst; lia|]. apply bind_Ok in E as (? & _ & E). inversion E; subst; auto.
    Qed.

    Lemma run_effs_bound e : forall ow path params r w n w',
      run_effs ins del cond om axioms rec ow path params e r w = Ok (n, w') -> n <= B.
    Proof.
      induction e as [fs adds dels cs IHf IHc] using effs_ind'. intros ow path params r w n w'.
      rewrite run_effs_eq. cbn zeta.
      intros E4. apply bind_Ok in E4 as ([n1 w1] & E1 & E4).
      apply bind_Ok in E4 as ([n2 w2] & E2 & E4). apply bind_Ok in E4 as ([n3 w3] & E3 & E4).
      apply (foldMi_bound (fun i w vb =>
                let* ts := var_tuples om (fst vb) in
                 foldM (fun acc t =>
                     let* ' (s, w') := run_effs ins del cond om axioms rec ow (path ++ [0; i]) (params ++ fst vb) (snd vb)
                                 (Val (deref (snd (snd acc)) r ++ t)) (snd acc) in
                     Ok (Nat.max (fst acc) s, w'))
                   ts (0, w)) fs) in E1; [| |lia].
      2:{ intros i [vars b] w4 n4 w5 Ib Q. cbn [fst snd] in Q. apply bind_Ok in Q as (ts & _ & Q).
          rewrite (foldM_foldMi _ ts 0) in Q.
          apply (foldMi_bound (fun _ w t =>
              run_effs ins del cond om axioms rec ow (path ++ [0; i]) (params ++ vars) b
                                 (Val (deref (snd w) r ++ t)) w) ts) in Q; [auto| |lia].
          intros _ t w6 n6 w7 _ Q6. eapply IHf; eauto. }
      apply (foldMi_bound (fun i w p =>
              run_lit ins del om axioms rec ow (path ++ [1; i]) params true p r w) adds) in E2; [| |auto].
      2:{ intros i p w4 n4 w5 _ Q. eapply run_lit_bound; eauto. }
      apply (foldMi_bound (fun i w p =>
              run_lit ins del om axioms rec ow (path ++ [2; i]) params false p r w) dels) in E3; [| |auto].
      2:{ intros i p w4 n4 w5 _ Q. eapply run_lit_bound; eauto. }
      apply (foldMi_bound (fun i w ce =>
                let* b := cond (fst w) (fst ce) params (deref (snd w) r) in
                 if b : bool then run_effs ins del cond om axioms rec ow (path ++ [3; i]) params (snd ce) r w
                 else Ok (0, w)) cs) in E4; [auto| |auto].
      intros i [g b] w4 n4 w5 Ib Q. cbn [fst snd] in Q. apply bind_Ok in Q as ([|] & _ & Q).
      - eapply IHc; eauto.
      - inversion Q; subst. lia.
    Qed.
  End Bound.

  Section Partial.
    Context (om : object_map) (axioms : list axiom) (fuel : nat).

    Lemma partial_bound ow o args w n w' :
      apply_partial fuel om axioms ow o args w = Ok (n, w') -> n <= 2.
    Proof.
      unfold apply_partial, apply_op. apply run_effs_bound. intros [|] p t.
      - rewrite ps_insert_eq. cbn [fst]. destruct (fst (st_erase p (ps_neg t))), (fst (st_insert p (ps_pos t))); cbn; lia.
      - rewrite ps_erase_eq. cbn [fst]. destruct (fst (st_erase p (ps_pos t))), (fst (st_insert p (ps_neg t))); cbn; lia.
    Qed.

    (** ** Steps that change nothing *)
    Definition pquiet_at (t : partial_state) (o : op) (args : list object) : Prop :=
      exists v, op_valid_partial om t o args = Ok v /\
        (v = Some true -> zero ps_insert ps_erase (cond_partial om) om t (op_params o) args (op_effs o)).
    Definition pstuck (t : partial_state) : Prop :=
      forall a, In a axioms -> exists l, prepare_arguments om (ax_op a) = Ok l /\
        forall args, In args l -> pquiet_at t (ax_op a) args.

    Lemma ps_ins_zero t : ps_wf t -> forall p t', ps_insert p t = (0, t') -> t' = t.
    Proof.
      intros [Wp Wn] p t'. rewrite ps_insert_eq. intros Q. injection Q as Qn Qt. subst t'.
      destruct (fst (st_erase p (ps_neg t))) eqn:E1, (fst (st_insert p (ps_pos t))) eqn:E2; try discriminate.
      destruct (erase_spec p (ps_neg t) Wn) as (_ & _ & _ & ->); auto.
      destruct (insert_spec p (ps_pos t) Wp) as (_ & _ & _ & ->); auto. destruct t; auto.
    Qed.
    Lemma ps_del_zero t : ps_wf t -> forall p t', ps_erase p t = (0, t') -> t' = t.
    Proof.
      intros [Wp Wn] p t'. rewrite ps_erase_eq. intros Q. injection Q as Qn Qt. subst t'.
      destruct (fst (st_erase p (ps_pos t))) eqn:E1, (fst (st_insert p (ps_neg t))) eqn:E2; try discriminate.
      destruct (erase_spec p (ps_pos t) Wp) as (_ & _ & _ & ->); auto.
      destruct (insert_spec p (ps_neg t) Wn) as (_ & _ & _ & ->); auto. destruct t; auto.
    Qed.

    Lemma apply_partial_zero ow o args t st w' : ps_wf t ->
      apply_partial fuel om axioms ow o args (t, st) = Ok (0, w') <->
      w' = (t, st) /\ zero ps_insert ps_erase (cond_partial om) om t (op_params o) args (op_effs o).
    Proof.
      intros W. apply run_effs_zero_iff; [apply ps_ins_zero|apply ps_del_zero]; auto.
    Qed.

    Lemma axiom_apply_partial_zero t : ps_wf t -> forall i a st w',
      axiom_apply_partial om axioms fuel i a (t, st) = Ok (0, w') <->
      w' = (t, st) /\ exists l, prepare_arguments om (ax_op a) = Ok l /\
        forall args, In args l -> pquiet_at t (ax_op a) args.
    Proof.
      intros W i a st w'. unfold axiom_apply_partial.
      destruct (prepare_arguments om (ax_op a)) as [l| | | |] eqn:El; cbn [bind];
        try (split; [discriminate|intros (_ & ? & Q & _); congruence]).
      rewrite (foldM_ext _ (fun acc args => let* ' (c, w') :=
          (let* valid := op_valid_partial om (fst (snd acc)) (ax_op a) args in
           match valid with
           | Some true => apply_partial fuel om axioms (OAx i) (ax_op a) args (snd acc)
           | _ => Ok (0, snd acc)
           end) in Ok (Nat.max (fst acc) c, w'))).
      2:{ intros [c w] args _. unfold axiom_step_partial. cbn [fst snd].
          destruct (op_valid_partial _ _ _ _) as [[[|]|]| | | |]; cbn [bind]; auto; rewrite Nat.max_0_r; auto. }
      rewrite (foldM_foldMi _ l 0).
      rewrite (foldMi_zero_iff t (fun _ w args =>
          (let* valid := op_valid_partial om (fst w) (ax_op a) args in
           match valid with
           | Some true => apply_partial fuel om axioms (OAx i) (ax_op a) args w
           | _ => Ok (0, w)
           end)) (pquiet_at t (ax_op a)) l) with (st := st); auto.
      - split; [intros (_ & -> & K); eauto|]. intros (-> & l' & Q & K). inversion Q; subst. auto.
      - intros _ args st1 w1 _. cbn [fst]. unfold pquiet_at.
        destruct (op_valid_partial om t (ax_op a) args) as [[[|]|]| | | |] eqn:Ev; cbn [bind];
          try (split; [discriminate|intros (_ & ? & Q & _); congruence]).
        + rewrite apply_partial_zero by auto. split.
          * intros [-> Z]. eauto.
          * intros (-> & v & Q & Z). inversion Q; subst. auto.
        + split; [intros Q; inversion Q; subst; split; auto; exists (Some false); split; auto; discriminate|].
          intros (-> & _). auto.
        + split; [intros Q; inversion Q; subst; split; auto; exists None; split; auto; discriminate|].
          intros (-> & _). auto.
    Qed.

    Lemma pass_partial_false t : ps_wf t -> forall st w',
      consistent_pass_partial om axioms fuel (t, st) = Ok (false, w') <-> w' = (t, st) /\ pstuck t.
    Proof.
      intros W st w'. unfold consistent_pass_partial, pstuck.
      assert (X : forall axs i acc, foldMi (fun i acc a =>
          let* ' (n, w') := axiom_apply_partial om axioms fuel i a (snd acc) in
          if Nat.eqb n 2 then Throw ERuntime else Ok (fst acc || Nat.ltb 0 n, w')) i axs acc =
        foldMi (fun i acc a => let* ' (c, w') :=
          (let* ' (n, w') := axiom_apply_partial om axioms fuel i a (snd acc) in
           if Nat.eqb n 2 then Throw ERuntime else Ok (Nat.ltb 0 n, w')) in Ok (fst acc || c, w')) i axs acc).
      { induction axs as [|a axs IH]; intros i acc; cbn [foldMi]; auto.
        destruct (axiom_apply_partial om axioms fuel i a (snd acc)) as [[n w]| | | |]; cbn [bind]; auto.
        destruct (Nat.eqb n 2); cbn [bind]; auto. }
      rewrite X.
      rewrite (foldMi_false_iff t (fun i w a =>
          (let* ' (n, w') := axiom_apply_partial om axioms fuel i a w in
           if Nat.eqb n 2 then Throw ERuntime else Ok (Nat.ltb 0 n, w')))
        (fun a => exists l, prepare_arguments om (ax_op a) = Ok l /\ forall args, In args l -> pquiet_at t (ax_op a) args)
        axioms) with (st := st); auto.
      - tauto.
      - intros i a st1 w1 _. rewrite <- axiom_apply_partial_zero with (i := i) (st := st1) (w' := w1) by auto. split.
        + intros E. apply bind_Ok in E as ([n w2] & E & Q). destruct (Nat.eqb n 2); [discriminate|].
          injection Q as Qn <-. destruct n; [auto|discriminate].
        + intros ->. reflexivity.
    Qed.

    Lemma pstuck_args t i o l : ps_wf t -> (forall args, In args l -> pquiet_at t o args) ->
      forall c st, consistent_args_partial om axioms fuel i o l (c, (t, st)) = Ok (Some (c, (t, st))).
    Proof.
      intros W. induction l as [|args l IH]; intros H c st; cbn [consistent_args_partial]; auto.
      destruct (H args (or_introl eq_refl)) as (v & Ev & Z). cbn [fst snd]. rewrite Ev. cbn [bind].
      assert (Hl : forall x, In x l -> pquiet_at t o x) by (intros; apply H; right; auto).
      destruct v as [[|]|]; try (apply IH; auto; fail).
      rewrite (proj2 (apply_partial_zero (OAx i) o args t st (t, st) W) (conj eq_refl (Z eq_refl))).
      cbn [Nat.ltb Nat.leb]. rewrite orb_false_r. apply IH; auto.
    Qed.

    Lemma pstuck_valid t n st : ps_wf t -> pstuck t -> is_valid_partial om axioms fuel (S n) (t, st) = Ok true.
    Proof.
      intros W H. cbn [is_valid_partial].
      assert (X : forall axs i, incl axs axioms ->
        consistent_axioms_partial om axioms fuel i axs (false, (t, st)) = Ok (Some (false, (t, st)))).
      { induction axs as [|a axs IH]; intros i Hi; cbn [consistent_axioms_partial]; auto.
        destruct (H a (Hi a (or_introl eq_refl))) as (l & -> & Hl). cbn [bind].
        rewrite (pstuck_args t i (ax_op a) l W Hl). cbn [bind]. apply IH. intros x I; apply Hi; right; auto. }
      rewrite X by apply incl_refl. reflexivity.
    Qed.

    (** ** What stays known *)
    Definition pok (t : partial_state) : Prop := built (ps_pos t) /\ built (ps_neg t) /\ ps_disjoint t.
    Definition keeps (t t' : partial_state) : Prop :=
      pok t -> pok t' /\ (forall a, knows t a -> knows t' a) /\
        (forall pos a, flipped t t' pos a -> cascade_literal axioms pos (fst a)).

    Lemma keeps_refl t : keeps t t.
    Proof.
      intros K. split; auto. split; auto. destruct K as (Bp & Bn & D). intros pos a F.
      assert (X : atoms (ps_pos t) a /\ atoms (ps_neg t) a) by (destruct pos; cbn in F; tauto).
      destruct X as [X1 X2]. apply atoms_mem in X1, X2; auto using built_wf. destruct (D a X1 X2).
    Qed.
    Lemma keeps_trans a b c : keeps a b -> keeps b c -> keeps a c.
    Proof.
      intros H1 H2 K. destruct (H1 K) as (Kb & N1 & F1). destruct (H2 Kb) as (Kc & N2 & F2).
      split; auto. split; auto. intros pos x F. destruct pos; cbn in F; destruct F as [Fa Fc].
      - destruct (N1 x (or_intror Fa)) as [B|B]; [apply (F1 true x)|apply (F2 true x)]; cbn; auto.
      - destruct (N1 x (or_introl Fa)) as [B|B]; [apply (F2 false x)|apply (F1 false x)]; cbn; auto.
    Qed.

    Lemma pok_lit (pos : bool) p t n t' : (if pos then ps_insert else ps_erase) p t = (n, t') -> pok t ->
      pok t' /\ (forall a, knows t a -> knows t' a) /\
      (forall q a, flipped t t' q a -> q = pos /\ a = prop_key p /\ n = 2).
    Proof.
      intros E (Bp & Bn & D). pose proof (built_wf _ Bp) as Wp. pose proof (built_wf _ Bn) as Wn.
      destruct pos.
      - assert (D' := proj2 (exec_pop_ok (Ins p) t (conj (conj Wp Wn) D))). cbn [exec_pop] in D'.
        rewrite E in D'. cbn [snd] in D'.
        rewrite ps_insert_eq in E. injection E as En Et. subst t'.
        destruct (insert_spec p (ps_pos t) Wp) as (Wi & Ei & Mi & _).
        destruct (erase_spec p (ps_neg t) Wn) as (We & Ee & Me & _).
        split; [split; [exact (built_run_from _ [Ins p] Bp)|split; [exact (built_run_from _ [Del p] Bn)|auto]]|].
        unfold knows, flipped. cbn [ps_pos ps_neg]. split.
        + intros a. rewrite !atoms_mem by auto. rewrite Mi, Me.
          destruct (atom_dec a (prop_key p)); tauto.
        + intros q a. destruct q; rewrite !atoms_mem by auto; rewrite ?Mi, ?Me.
          * intros [Ma [->|Mp]]; [|destruct (D a Mp Ma)]. split; auto. split; auto. subst n. rewrite Ei, Ee.
            rewrite (proj2 (contains_mem (ps_neg t) p Wn) Ma).
            rewrite (proj2 (contains_mem_false (ps_pos t) p Wp)); auto. intros X. destruct (D _ X Ma).
          * intros [Ma [_ Mn]]. destruct (D a Ma Mn).
      - assert (D' := proj2 (exec_pop_ok (Del p) t (conj (conj Wp Wn) D))). cbn [exec_pop] in D'.
        rewrite E in D'. cbn [snd] in D'.
        rewrite ps_erase_eq in E. injection E as En Et. subst t'.
        destruct (insert_spec p (ps_neg t) Wn) as (Wi & Ei & Mi & _).
        destruct (erase_spec p (ps_pos t) Wp) as (We & Ee & Me & _).
        split; [split; [exact (built_run_from _ [Del p] Bp)|split; [exact (built_run_from _ [Ins p] Bn)|auto]]|].
        unfold knows, flipped. cbn [ps_pos ps_neg]. split.
        + intros a. rewrite !atoms_mem by auto. rewrite Mi, Me.
          destruct (atom_dec a (prop_key p)); tauto.
        + intros q a. destruct q; rewrite !atoms_mem by auto; rewrite ?Mi, ?Me.
          * intros [Ma [_ Mn]]. destruct (D a Mn Ma).
          * intros [Ma [->|Mp]]; [|destruct (D a Ma Mp)]. split; auto. split; auto. subst n. rewrite Ei, Ee.
            rewrite (proj2 (contains_mem (ps_pos t) p Wp) Ma).
            rewrite (proj2 (contains_mem_false (ps_neg t) p Wn)) by exact (D _ Ma). reflexivity.
    Qed.

    Lemma apply_partial_keeps i a args t st n t' st' : nth_error axioms i = Some a -> n <= 1 ->
      apply_partial fuel om axioms (OAx i) (ax_op a) args (t, st) = Ok (n, (t', st')) -> keeps t t'.
    Proof.
      intros Na Ln E. unfold apply_partial, apply_op in E.
      refine (run_effs_keeps ps_insert ps_erase _ om axioms _ keeps keeps_refl keeps_trans (fun n => n <= 1) _
                (op_effs (ax_op a)) _ _ (OAx i) [] (op_params (ax_op a)) (Val args) (t, st) n (t', st') Ln E).
      - intros n1 n2. lia.
      - intros pos p u m u' _ Lm Q K. destruct (pok_lit pos p u m u' Q K) as (K' & N & F). split; auto. split; auto.
        intros q x Fx. apply F in Fx. lia.
      - intros j b r w m w' Nb Ib Q.
        set (QQ := fun j => exists b, nth_error axioms j = Some b /\ exists c, In c axioms /\
                     In (ax_pos b, ax_name b) (eff_sigs (op_effs (ax_op c)))).
        refine (apply_axiom_keeps ps_insert ps_erase _ om axioms keeps keeps_refl keeps_trans QQ _ _
                  fuel j r w m w' _ Q).
        + intros i1 a1 j1 b1 _ N1 N2 I2. exists b1. split; auto. exists a1. split; auto. eapply nth_error_In; eauto.
        + intros i1 a1 pos p u k u' (b1 & N1 & c & Ic & I1) N2 Ip Q' K.
          assert (b1 = a1) by congruence. subst b1.
          destruct (pok_lit pos p u k u' Q' K) as (K' & N & F). split; auto. split; auto.
          intros q x Fx. apply F in Fx. destruct Fx as (-> & -> & _).
          exists c, a1. split; auto. split; [eapply nth_error_In; eauto|]. split; auto.
        + exists b. split; auto. exists a. split; auto. eapply nth_error_In; eauto.
    Qed.

    Lemma axiom_apply_keeps i a w n w' : nth_error axioms i = Some a ->
      axiom_apply_partial om axioms fuel i a w = Ok (n, w') -> n <> 2 -> keeps (fst w) (fst w').
    Proof.
      intros Na E N2. unfold axiom_apply_partial in E. apply bind_Ok in E as (l & _ & E).
      assert (G : forall l n0 w n w', foldM (axiom_step_partial om axioms fuel i (ax_op a)) l (n0, w) = Ok (n, w') ->
                n0 <= 2 -> n <= 2 /\ n0 <= n /\ (n <= 1 -> keeps (fst w) (fst w'))).
      { clear -Na. induction l as [|args l IH]; intros n0 w n w' E L0; cbn [foldM] in E.
        - inversion E; subst. split; auto. split; auto. intros; apply keeps_refl.
        - apply bind_Ok in E as ([n1 w1] & E1 & E). unfold axiom_step_partial in E1. cbn [fst snd] in E1.
          apply bind_Ok in E1 as (v & _ & E1).
          assert (X : n0 <= n1 /\ n1 <= 2 /\ (n1 <= 1 -> keeps (fst w) (fst w1))).
          { assert (Y : forall x, Ok (n0, w) = Ok x -> n0 <= fst x /\ fst x <= 2 /\ (fst x <= 1 -> keeps (fst w) (fst (snd x)))).
            { intros x Q. inversion Q; subst. cbn. split; auto. split; auto. intros; apply keeps_refl. }
            destruct v as [[|]|]; try (apply (Y (n1, w1)); exact E1).
            apply bind_Ok in E1 as ([m [t2 st2]] & E1 & Q). injection Q as <- <-.
            pose proof (partial_bound _ _ _ _ _ _ E1). split; [lia|]. split; [lia|]. intros L1. cbn [fst].
            destruct w as [t st]. exact (apply_partial_keeps i a args t st m t2 st2 Na ltac:(lia) E1). }
          destruct X as (L1 & L2 & K1). destruct (IH n1 w1 n w' E L2) as (L3 & L4 & K2).
          split; auto. split; [lia|]. intros Ln. eapply keeps_trans; [apply K1; lia|apply K2; auto]. }
      destruct (G l 0 w n w' E) as (L & _ & K); [lia|]. apply K. lia.
    Qed.

    Lemma pass_keeps w c w' : consistent_pass_partial om axioms fuel w = Ok (c, w') -> keeps (fst w) (fst w').
    Proof.
      unfold consistent_pass_partial.
      assert (G : forall axs pre c0 w c w', axioms = pre ++ axs ->
        foldMi (fun i acc a =>
          let* ' (n, w') := axiom_apply_partial om axioms fuel i a (snd acc) in
          if Nat.eqb n 2 then Throw ERuntime else Ok (fst acc || Nat.ltb 0 n, w')) (length pre) axs (c0, w) = Ok (c, w') ->
        keeps (fst w) (fst w')).
      { clear. induction axs as [|a axs IH]; intros pre c0 w c w' Ea E; cbn [foldMi fst snd] in E.
        - inversion E; subst. apply keeps_refl.
        - assert (Na : nth_error axioms (length pre) = Some a).
          { rewrite Ea, nth_error_app2, Nat.sub_diag by lia. reflexivity. }
          apply bind_Ok in E as ([c1 w1] & E1 & E). apply bind_Ok in E1 as ([n w2] & E1 & Q).
          destruct (Nat.eqb_spec n 2); [discriminate|]. injection Q as _ <-.
          apply keeps_trans with (fst w2); [eapply axiom_apply_keeps; eauto|].
          assert (Ea' : axioms = (pre ++ [a]) ++ axs) by (rewrite <- app_assoc; exact Ea).
          refine (IH (pre ++ [a]) c1 w2 c w' Ea' _). rewrite app_length. cbn. rewrite Nat.add_1_r. exact E. }
      apply (G axioms []). reflexivity.
    Qed.

    Lemma rounds_partial left : forall w w', pok (fst w) -> consistent_rounds om axioms fuel left w = Ok w' ->
      keeps (fst w) (fst w') /\ pok (fst w') /\ pstuck (fst w').
    Proof.
      induction left as [|n IH]; intros w w' K; cbn [consistent_rounds]; intros E;
        apply bind_Ok in E as ([c w1] & E1 & E); [discriminate|].
      pose proof (pass_keeps _ _ _ E1) as K1. destruct (K1 K) as (P1 & _).
      destruct c.
      - destruct (IH w1 w' P1 E) as (K2 & P2 & S2). split; auto. eapply keeps_trans; eauto.
      - inversion E; subst. destruct w as [t st]. cbn [fst] in *.
        assert (Wt : ps_wf t) by (destruct K as (Bp & Bn & _); split; apply built_wf; auto).
        apply (pass_partial_false t Wt st w') in E1. destruct E1 as [-> S]. cbn [fst] in *. auto.
    Qed.

    Lemma pok_pbuilt t : pok t <-> pbuilt t.
    Proof.
      unfold pok, pbuilt. split; intros (Bp & Bn & D); (split; [auto|split; [auto|]]);
        (apply ps_consistent_spec; [split; apply built_wf; auto|auto]).
    Qed.

    (** C32 *)
    Lemma C32_stable_lemma ps st ps' st' : pbuilt ps ->
      consistent_partial om axioms fuel (ps, st) = Ok (ps', st') ->
      pbuilt ps' /\
      (forall st2, consistent_partial om axioms fuel (ps', st2) = Ok (ps', st2)) /\
      (forall st2 n, is_valid_partial om axioms fuel (S n) (ps', st2) = Ok true).
    Proof.
      intros B E. apply pok_pbuilt in B. unfold consistent_partial in E.
      destruct (rounds_partial 51 (ps, st) (ps', st') B E) as (_ & P & S). cbn [fst] in *.
      assert (W : ps_wf ps') by (destruct P as (Bp & Bn & _); split; apply built_wf; auto).
      split; [apply pok_pbuilt; auto|]. split.
      - intros st2. unfold consistent_partial. cbn [consistent_rounds].
        rewrite (proj2 (pass_partial_false ps' W st2 (ps', st2)) (conj eq_refl S)). reflexivity.
      - intros st2 n. apply pstuck_valid; auto.
    Qed.

    Lemma C32_known_lemma ps st ps' st' : pbuilt ps ->
      consistent_partial om axioms fuel (ps, st) = Ok (ps', st') ->
      (forall a, knows ps a -> knows ps' a) /\
      (forall pos a, flipped ps ps' pos a -> cascade_literal axioms pos (fst a)).
    Proof.
      intros B E. apply pok_pbuilt in B. unfold consistent_partial in E.
      destruct (rounds_partial 51 (ps, st) (ps', st') B E) as (K & _). cbn [fst] in *. destruct (K B) as (_ & K'). exact K'.
    Qed.

    Lemma C32_extends_lemma ps st ps' st' : pbuilt ps ->
      (forall a, In a axioms -> quiet axioms (op_effs (ax_op a))) ->
      consistent_partial om axioms fuel (ps, st) = Ok (ps', st') -> extends ps ps'.
    Proof.
      intros B H E. apply C32_known_lemma in E; auto. destruct E as [N F].
      assert (F' : forall pos a, ~ flipped ps ps' pos a).
      { intros pos a Fl. destruct (F pos a Fl) as (x & y & Ix & Iy & I & _). exact (H x Ix y Iy I). }
      split; intros p C; apply atoms_contains; apply atoms_contains in C.
      - destruct (N (prop_key p) (or_introl C)) as [X|X]; auto. destruct (F' false (prop_key p)). cbn. auto.
      - destruct (N (prop_key p) (or_intror C)) as [X|X]; auto. destruct (F' true (prop_key p)). cbn. auto.
    Qed.
  End Partial.
End WithHash.
