(** Lemmas behind C22-C28. *)
From Coq Require Import String List Bool ZArith Arith Lia.
From Verif.Model Require Import Base Object Proposition HashSet State CombinationGenerator
  ParameterGenerator Syntax Formula Effects.
From Verif.Spec Require Import SetSpec CartesianSpec TypingSpec FormulaSpec EffectSpec.
From Verif.Proofs Require Import OrderFacts HashSetFacts StateFacts StateHistory
  CombinationFacts ParameterFacts FormulaFacts EffectFacts EffectLink.
Import ListNotations.
Local Open Scope string_scope.
Local Open Scope list_scope.

Definition op_sign (o : set_op) : bool := match o with Ins _ => true | Del _ => false end.

Lemma quiet_forall axioms fs adds dels cs vars b : In (vars, b) fs ->
  quiet axioms (Effs fs adds dels cs) -> quiet axioms b.
Proof. intros I Q a Ia Is. apply (Q a Ia). eapply sigs_forall; eauto. Qed.
Lemma quiet_cond axioms fs adds dels cs g b : In (g, b) cs ->
  quiet axioms (Effs fs adds dels cs) -> quiet axioms b.
Proof. intros I Q a Ia Is. apply (Q a Ia). eapply sigs_cond; eauto. Qed.

Section WithHash.
  Context `{SH : StdHash}.

  (** ** C24 *)
  Section Zero.
    Context {T : Type} (ins del : prop -> T -> nat * T)
            (cond : T -> goal -> list object -> list object -> outcome bool)
            (om : object_map) (axioms : list axiom)
            (rec : nat -> argref -> world (T := T) -> outcome (nat * world (T := T))).
    Context (Inv : T -> Prop).
    Context (Hi : forall p t t', Inv t -> ins p t = (0, t') -> t' = t)
            (Hd : forall p t t', Inv t -> del p t = (0, t') -> t' = t).

    Lemma foldMi_zero {A} (F : nat -> world (T := T) -> A -> outcome (nat * world (T := T))) l t0 :
      (forall i a w w', In a l -> fst w = t0 -> F i w a = Ok (0, w') -> fst w' = t0) ->
      forall i x w', fst (snd x) = t0 \/ fst x <> 0 ->
      foldMi (fun i acc a => let* ' (s, w') := F i (snd acc) a in Ok (Nat.max (fst acc) s, w')) i l x =
        Ok (0, w') -> fst x = 0 /\ fst w' = t0.
    Proof.
      induction l as [|a l IH]; intros H i [n w] w' Hx; cbn [foldMi fst snd] in *.
      - intros Q; inversion Q; subst. cbn. destruct Hx; [auto|congruence].
      - destruct (F i w a) as [[s w1]| | | |] eqn:E; cbn [bind]; try discriminate.
        intros Q. apply IH in Q; cbn [fst snd] in *.
        + destruct Q as [Q1 Q2]. split; auto. lia.
        + intros. eapply H; eauto. right; auto.
        + destruct (Nat.eq_dec s 0) as [->|Ns]; [|right; lia].
          destruct Hx as [Hx|Hx]; [|right; lia]. left. eapply H; eauto. left; auto.
    Qed.

    Lemma foldM_zero {A} (F : world (T := T) -> A -> outcome (nat * world (T := T))) l t0 :
      (forall a w w', In a l -> fst w = t0 -> F w a = Ok (0, w') -> fst w' = t0) ->
      forall x w', fst (snd x) = t0 \/ fst x <> 0 ->
      foldM (fun acc a => let* ' (s, w') := F (snd acc) a in Ok (Nat.max (fst acc) s, w')) l x =
        Ok (0, w') -> fst x = 0 /\ fst w' = t0.
    Proof.
      induction l as [|a l IH]; intros H [n w] w' Hx; cbn [foldM fst snd] in *.
      - intros Q; inversion Q; subst. cbn. destruct Hx; [auto|congruence].
      - destruct (F w a) as [[s w1]| | | |] eqn:E; cbn [bind]; try discriminate.
        intros Q. apply IH in Q; cbn [fst snd] in *.
        + destruct Q as [Q1 Q2]. split; auto. lia.
        + intros. eapply H; eauto. right; auto.
        + destruct (Nat.eq_dec s 0) as [->|Ns]; [|right; lia].
          destruct Hx as [Hx|Hx]; [|right; lia]. left. eapply H; eauto. left; auto.
    Qed.

    Lemma run_lit_zero ow path params pos p r w w' : Inv (fst w) ->
      run_lit ins del om axioms rec ow path params pos p r w = Ok (0, w') -> fst w' = fst w.
    Proof.
      intros I. unfold run_lit. destruct (app_fun _ _ _) as [l| | | |]; cbn [bind]; try discriminate.
      destruct (String.eqb (pname p) "=").
      { destruct (eval_eq l); cbn [bind]; try discriminate.
        destruct (Bool.eqb _ pos); [|discriminate]. intros Q; inversion Q; auto. }
      destruct (om_find om (pname p)).
      { destruct (eval_type _ l); cbn [bind]; try discriminate.
        destruct (Bool.eqb _ pos); [|discriminate]. intros Q; inversion Q; auto. }
      destruct ((if pos then ins else del) (mkProp (pname p) l) (fst w)) as [s t] eqn:E.
      destruct (Nat.eqb_spec s 0) as [->|N].
      - intros Q; inversion Q; subst. cbn. destruct pos; [eapply Hi|eapply Hd]; eauto.
      - destruct (foldM _ _ _); cbn [bind]; try discriminate. intros Q; inversion Q; congruence.
    Qed.

    Lemma run_effs_zero e : forall ow path params r w w', Inv (fst w) ->
      run_effs ins del cond om axioms rec ow path params e r w = Ok (0, w') -> fst w' = fst w.
    Proof.
      induction e as [fs adds dels cs IHf IHc] using effs_ind'. intros ow path params r w w' I.
      rewrite run_effs_eq. cbn zeta.
      intros E4. apply bind_Ok in E4 as ([n1 w1] & E1 & E4).
      apply bind_Ok in E4 as ([n2 w2] & E2 & E4). apply bind_Ok in E4 as ([n3 w3] & E3 & E4). set (t0 := fst w) in *.
      assert (H1 : fst w1 = t0 \/ n1 <> 0).
      { destruct (Nat.eq_dec n1 0) as [->|]; auto. left.
        refine (proj2 (foldMi_zero (fun i w vb =>
                let* ts := var_tuples om (fst vb) in
                 foldM (fun acc t =>
                     let* ' (s, w') := run_effs ins del cond om axioms rec ow (path ++ [0; i]) (params ++ fst vb) (snd vb)
                                 (Val (deref (snd (snd acc)) r ++ t)) (snd acc) in
                     Ok (Nat.max (fst acc) s, w'))
                   ts (0, w)) fs t0 _ 0 (0, w) w1 (or_introl eq_refl) E1)).
        intros i [vars b] w2' w3' Ib Ew. cbn [fst snd].
        destruct (var_tuples om vars) as [ts| | | |]; cbn [bind]; try discriminate. intros Q.
        refine (proj2 (foldM_zero (fun w t => run_effs ins del cond om axioms rec ow (path ++ [0; i]) (params ++ vars) b
                                 (Val (deref (snd w) r ++ t)) w) ts t0 _ (0, w2') w3' (or_introl Ew) Q)).
        intros t w4 w5 _ Ew4 Q'. rewrite <- Ew4. eapply (IHf vars b Ib); eauto. rewrite Ew4; auto. }
      assert (H2 : fst w2 = t0 \/ n2 <> 0).
      { destruct (Nat.eq_dec n2 0) as [->|]; auto. left.
        refine (proj2 (foldMi_zero (fun i w p =>
              run_lit ins del om axioms rec ow (path ++ [1; i]) params true p r w) adds t0 _ 0 (n1, w1) w2 H1 E2)).
        intros i p w4 w5 _ Ew Q. rewrite <- Ew. eapply run_lit_zero; eauto. rewrite Ew; auto. }
      assert (H3 : fst w3 = t0 \/ n3 <> 0).
      { destruct (Nat.eq_dec n3 0) as [->|]; auto. left.
        refine (proj2 (foldMi_zero (fun i w p =>
              run_lit ins del om axioms rec ow (path ++ [2; i]) params false p r w) dels t0 _ 0 (n2, w2) w3 H2 E3)).
        intros i p w4 w5 _ Ew Q. rewrite <- Ew. eapply run_lit_zero; eauto. rewrite Ew; auto. }
      refine (proj2 (foldMi_zero (fun i w ce =>
                let* b := cond (fst w) (fst ce) params (deref (snd w) r) in
                 if b : bool then run_effs ins del cond om axioms rec ow (path ++ [3; i]) params (snd ce) r w
                 else Ok (0, w)) cs t0 _ 0 (n3, w3) w' H3 E4)).
      intros i [g b] w4 w5 Ib Ew. cbn [fst snd].
      destruct (cond _ _ _ _) as [[|]| | | |]; cbn [bind]; try discriminate.
      - intros Q. rewrite <- Ew. eapply (IHc g b Ib); eauto. rewrite Ew; auto.
      - intros Q; inversion Q; subst; auto.
    Qed.
  End Zero.

  Lemma st_ins_eq p s : st_ins p s = (Nat.b2n (fst (st_insert p s)), snd (st_insert p s)).
  Proof. unfold st_ins. destruct (st_insert p s); auto. Qed.
  Lemma st_del_eq p s : st_del p s = (Nat.b2n (fst (st_erase p s)), snd (st_erase p s)).
  Proof. unfold st_del. destruct (st_erase p s); auto. Qed.

  Lemma b2n_0 b : Nat.b2n b = 0 -> b = false.
  Proof. destruct b; cbn; congruence. Qed.

  Lemma C24_state_lemma fuel om axioms ow o args s st s' st' :
    built s -> apply_state fuel om axioms ow o args (s, st) = Ok (0, (s', st')) -> s' = s.
  Proof.
    intros [ops ->] Q. unfold apply_state, apply_op in Q.
    apply (run_effs_zero _ _ _ _ _ _ st_wf) in Q; auto.
    - intros p t t' W. rewrite st_ins_eq. intros Q'; inversion Q'. subst.
      apply (insert_spec p t W). apply b2n_0; auto.
    - intros p t t' W. rewrite st_del_eq. intros Q'; inversion Q'. subst.
      apply (erase_spec p t W). apply b2n_0; auto.
    - apply run_wf.
  Qed.

  Lemma C24_partial_lemma fuel om axioms ow o args s st s' st' :
    pbuilt s -> apply_partial fuel om axioms ow o args (s, st) = Ok (0, (s', st')) -> s' = s.
  Proof.
    intros ([o1 B1] & [o2 B2] & _) Q. unfold apply_partial, apply_op in Q.
    assert (W : ps_wf s) by (split; [rewrite B1|rewrite B2]; apply run_wf).
    apply (run_effs_zero _ _ _ _ _ _ ps_wf) in Q; auto.
    - intros p [tp tn] t' [Wp Wn]. rewrite ps_insert_eq. cbn in *. intros Q'; inversion Q'. subst.
      apply Nat.eq_add_0 in H0. destruct H0 as [Z1 Z2]. apply b2n_0 in Z1, Z2. f_equal.
      + apply (insert_spec p tp Wp); auto.
      + apply (erase_spec p tn Wn); auto.
    - intros p [tp tn] t' [Wp Wn]. rewrite ps_erase_eq. cbn in *. intros Q'; inversion Q'. subst.
      apply Nat.eq_add_0 in H0. destruct H0 as [Z1 Z2]. apply b2n_0 in Z1, Z2. f_equal.
      + apply (erase_spec p tp Wp); auto.
      + apply (insert_spec p tn Wn); auto.
  Qed.

  (** ** Effects without axioms do not touch the shared vectors *)
  Section Quiet.
    Context {T : Type} (ins del : prop -> T -> nat * T)
            (cond : T -> goal -> list object -> list object -> outcome bool)
            (objects : list object) (axioms : list axiom).
    Context (W : Forall (fun o => wf_type (otype o)) objects).
    Context (rec : nat -> argref -> world (T := T) -> outcome (nat * world (T := T)))
            (recp : nat -> list object -> T -> outcome (nat * T)).
    Notation om := (create_object_map objects).
    Definition Rq (st : store) (w : world (T := T)) (t : T) : Prop := w = (t, st).

    Lemma quiet_context pos name : (forall a, In a axioms -> (ax_pos a, ax_name a) <> (pos, name)) ->
      forall axs i, incl axs axioms -> with_context_from i axs pos name = [] /\
        forall l t, sub_fire recp i axs pos name l t = Ok t.
    Proof.
      intros H. induction axs as [|a axs IH]; intros i Hi; [split; auto|]. cbn [with_context_from sub_fire].
      assert (E : Bool.eqb (ax_pos a) pos && String.eqb (ax_name a) name = false).
      { destruct (Bool.eqb (ax_pos a) pos && String.eqb (ax_name a) name) eqn:E; auto.
        apply andb_true_iff in E. destruct E as [E1 E2]. apply Bool.eqb_prop in E1. apply String.eqb_eq in E2.
        exfalso. apply (H a); [apply Hi; left; auto|congruence]. }
      rewrite E. cbn [bind]. apply IH. intros x Hx. apply Hi; right; auto.
    Qed.

    Lemma run_lit_quiet ow path params vals pos p r st t :
      length params = length vals -> Forall (arg_ok (map oname params)) (pargs p) ->
      (forall a, In a axioms -> (ax_pos a, ax_name a) <> (pos, pname p)) -> deref st r = vals ->
      orel (RnG (Rq st)) (run_lit ins del om axioms rec ow path params pos p r (t, st))
                       (sub_lit ins del objects axioms recp params vals pos p t).
    Proof.
      intros Lp Fp Q Dr. unfold run_lit, sub_lit. cbn [snd fst]. rewrite Dr.
      rewrite (app_fun_denote params (pargs p) vals (fun _ => null_object)) by auto. cbn [bind].
      fold (sub_args params vals (pargs p)). set (l := sub_args params vals (pargs p)).
      rewrite is_typeb_find by auto.
      assert (R0 : RnG (Rq st) (0, (t, st)) (0, t)) by (split; reflexivity).
      destruct (String.eqb (pname p) "=").
      - destruct l as [|a [|b [|]]]; try exact I. cbn. rewrite obj_eqb_spec.
        destruct (Bool.eqb _ pos); cbn; auto.
      - destruct (om_find om (pname p)).
        + destruct l as [|a [|]]; try exact I. cbn [eval_type bind].
          replace (existsb (String.eqb (pname p)) (default_type :: otype a)) with (is_subtype (otype a) (pname p)).
          { destruct (Bool.eqb _ pos); cbn; auto. }
          apply eq_true_iff_eq. rewrite is_subtype_spec, existsb_exists. split.
          * intros [->|I]; [exists default_type|exists (pname p)]; rewrite String.eqb_refl; cbn; auto.
          * intros (x & [<-|I] & E); apply String.eqb_eq in E; rewrite E; auto.
        + destruct ((if pos then ins else del) (mkProp (pname p) l) t) as [s t'].
          destruct (Nat.eqb s 0); [split; reflexivity|].
          destruct (quiet_context pos (pname p) Q axioms 0 ltac:(intros x Hx; exact Hx)) as [E1 E2].
          unfold with_context. rewrite E1, E2. cbn. split; reflexivity.
    Qed.

    Lemma run_effs_quiet e : forall ow path params vals r st t,
      quiet axioms e -> length params = length vals ->
      wf_effs objects (map oname params) e -> deref st r = vals ->
      orel (RnG (Rq st)) (run_effs ins del cond om axioms rec ow path params e r (t, st))
                       (sub_effs ins del cond objects axioms recp params vals e t).
    Proof.
      induction e as [fs adds dels cs IHf IHc] using effs_ind'.
      intros ow path params vals r st t Qt Lp Wf Dr.
      rewrite run_effs_eq. cbn zeta. cbn [sub_effs].
      apply wf_effs_eq in Wf. destruct Wf as (Wf & Wa & Wd & Wc).
      rewrite Forall_forall in Wa, Wd.
      apply orel_bind with (R := RnG (Rq st)).
      { apply (foldMi_sim (Rq st) (fun i w vb =>
              let* ts := var_tuples om (fst vb) in
               foldM (fun acc t =>
                   let* ' (s, w') := run_effs ins del cond om axioms rec ow (path ++ [0; i]) (params ++ fst vb) (snd vb)
                               (Val (deref (snd (snd acc)) r ++ t)) (snd acc) in
                   Ok (Nat.max (fst acc) s, w'))
                 ts (0, w))).
        2:{ split; reflexivity. }
        intros i [vars b] w1 t1 I R1. cbn [fst snd].
        destruct (Wf vars b I) as (Nv & Cv & Wb).
        rewrite tuples_exact by auto. cbn [bind].
        apply (foldM_sim (Rq st) (fun w t => run_effs ins del cond om axioms rec ow (path ++ [0; i]) (params ++ vars) b
                               (Val (deref (snd w) r ++ t)) w)).
        2:{ split; auto. }
        intros objs w2 t2 Io Rx; unfold Rq in Rx; subst w2. apply tuples_In in Io. pose proof (well_typed_length _ _ _ Io) as Lo.
        cbn [snd]. rewrite Dr. apply (IHf vars b I); auto.
        - eapply quiet_forall; eauto.
        - rewrite !app_length. lia.
        - rewrite map_app. auto. }
      intros x1 [n1 t1] R1. apply orel_bind with (R := RnG (Rq st)).
      { apply (foldMi_sim (Rq st) (fun i w p =>
            run_lit ins del om axioms rec ow (path ++ [1; i]) params true p r w)); auto.
        intros i p w2 t2 I Rx; unfold Rq in Rx; subst w2. apply run_lit_quiet; auto.
        - apply Wa; auto.
        - intros a Ia E. apply (Qt a Ia). rewrite E. apply sigs_add; auto. }
      intros x2 [n2 t2] R2. apply orel_bind with (R := RnG (Rq st)).
      { apply (foldMi_sim (Rq st) (fun i w p =>
            run_lit ins del om axioms rec ow (path ++ [2; i]) params false p r w)); auto.
        intros i p w3 t3 I Rx; unfold Rq in Rx; subst w3. apply run_lit_quiet; auto.
        - apply Wd; auto.
        - intros a Ia E. apply (Qt a Ia). rewrite E. apply sigs_del; auto. }
      intros x3 [n3 t3] R3.
      apply (foldMi_sim (Rq st) (fun i w ce =>
              let* b := cond (fst w) (fst ce) params (deref (snd w) r) in
               if b : bool then run_effs ins del cond om axioms rec ow (path ++ [3; i]) params (snd ce) r w
               else Ok (0, w))); auto.
      intros i [g b] w4 t4 I Rx; unfold Rq in Rx; subst w4. cbn [fst snd].
      rewrite Dr. destruct (Wc g b I) as [_ Wb].
      apply orel_same. intros [|] _.
      - apply (IHc g b I); auto. eapply quiet_cond; eauto.
      - split; reflexivity.
    Qed.
  End Quiet.

  Lemma apply_op_quiet {T} ins del cond objects axioms fuel ow o args (t : T) st recp :
    Forall (fun o => wf_type (otype o)) objects -> quiet axioms (op_effs o) ->
    length (op_params o) = length args -> wf_effs objects (map oname (op_params o)) (op_effs o) ->
    apply_op ins del cond (create_object_map objects) axioms fuel ow o args (t, st) =
    let* ' (n, t') := sub_effs ins del cond objects axioms recp (op_params o) args (op_effs o) t in
    Ok (n, (t', st)).
  Proof.
    intros W Q L Wf. unfold apply_op.
    pose proof (run_effs_quiet ins del cond objects axioms W
                  (apply_axiom ins del cond (create_object_map objects) axioms fuel) recp
                  (op_effs o) ow [] (op_params o) args (Val args) st t Q L Wf eq_refl) as H.
    destruct (run_effs _ _ _ _ _ _ _ _ _ _ _ _) as [[n w]| | | |],
             (sub_effs _ _ _ _ _ _ _ _ _ _) as [[m t']| | | |]; cbn in *; try tauto.
    - destruct H as [E R]. cbn in E, R. unfold Rq in R. subst; reflexivity.
    - rewrite H; reflexivity.
  Qed.

  (** ** Traces *)
  Section Trace.
    Context {T : Type} (ins del : prop -> T -> nat * T).
    Definition execT (o : set_op) (t : T) : nat * T := match o with Ins p => ins p t | Del p => del p t end.
    Definition runT (t : T) (ops : list set_op) : T := fold_left (fun t o => snd (execT o t)) ops t.

    Lemma runT_app t a b : runT t (a ++ b) = runT (runT t a) b.
    Proof. apply fold_left_app. Qed.

    (** The calls are exactly the literals [LL]. *)
    Definition trace_of (tr : list set_op) (LL : bool -> atom -> Prop) : Prop :=
      (forall o, In o tr -> LL (op_sign o) (prop_key (op_prop o))) /\
      (forall pos a, LL pos a -> exists o, In o tr /\ op_sign o = pos /\ prop_key (op_prop o) = a).

    (** Partial correctness: only literals of the effect are executed. *)
    Context (cond : T -> goal -> list object -> list object -> outcome bool)
            (objects : list object) (axioms : list axiom)
            (recp : nat -> list object -> T -> outcome (nat * T)).

    Lemma in_turn_trace {A} (f : A -> T -> outcome (nat * T)) (LL : bool -> atom -> Prop) l :
      (forall a t n t', In a l -> f a t = Ok (n, t') -> exists tr, t' = runT t tr /\
         forall o, In o tr -> LL (op_sign o) (prop_key (op_prop o))) ->
      forall n t m t', in_turn f l n t = Ok (m, t') -> exists tr, t' = runT t tr /\
         forall o, In o tr -> LL (op_sign o) (prop_key (op_prop o)).
    Proof.
      induction l as [|a l IH]; intros H n t m t'; cbn [in_turn].
      - intros Q; inversion Q; subst. exists []. split; [reflexivity|intros o []].
      - destruct (f a t) as [[k t1]| | | |] eqn:E; cbn [bind]; try discriminate. intros Q.
        destruct (H a t k t1) as (tr1 & -> & H1); [left; auto|auto|].
        apply IH in Q; [|intros; eapply H; eauto; right; auto]. destruct Q as (tr2 & -> & H2).
        exists (tr1 ++ tr2). rewrite runT_app. split; auto. intros o Io. apply in_app_iff in Io. destruct Io; auto.
    Qed.

    Lemma is_typeb_spec name : is_typeb objects name = true <-> is_type objects name.
    Proof.
      unfold is_typeb, is_type. destruct (objects_of objects name) as [|o l] eqn:E.
      - split; [discriminate|]. intros (o & I). apply objects_of_In in I. rewrite E in I. destruct I.
      - split; auto. intros _. exists o. apply objects_of_In. rewrite E. left; auto.
    Qed.

    Lemma sub_lit_trace params vals pos p t n t' :
      (forall a, In a axioms -> (ax_pos a, ax_name a) <> (pos, pname p)) ->
      sub_lit ins del objects axioms recp params vals pos p t = Ok (n, t') ->
      exists tr, t' = runT t tr /\ forall o, In o tr -> op_sign o = pos /\ ordinary objects (pname p) /\
        prop_key (op_prop o) = (pname p, map oname (sub_args params vals (pargs p))).
    Proof.
      intros Q. unfold sub_lit. set (l := sub_args params vals (pargs p)).
      destruct (String.eqb_spec (pname p) "=") as [Ee|Ne].
      { destruct l as [|a [|b [|]]]; try discriminate. destruct (Bool.eqb _ pos); [|discriminate].
        intros E; inversion E; subst. exists []. split; [reflexivity|intros o []]. }
      destruct (is_typeb objects (pname p)) eqn:Et.
      { destruct l as [|a [|]]; try discriminate. destruct (Bool.eqb _ pos); [|discriminate].
        intros E; inversion E; subst. exists []. split; [reflexivity|intros o []]. }
      assert (No : ordinary objects (pname p)).
      { split; auto. intros I. apply is_typeb_spec in I. congruence. }
      destruct ((if pos then ins else del) (mkProp (pname p) l) t) as [s t1] eqn:E1.
      assert (R : t1 = runT t [if pos then Ins (mkProp (pname p) l) else Del (mkProp (pname p) l)]).
      { unfold runT, execT. cbn. destruct pos; rewrite E1; reflexivity. }
      assert (H : Ok (s, t1) = Ok (n, t') -> exists tr, t' = runT t tr /\
         forall o, In o tr -> op_sign o = pos /\ ordinary objects (pname p) /\
         prop_key (op_prop o) = (pname p, map oname l)).
      { intros E; inversion E; subst. eexists. split; [reflexivity|]. intros o [<-|[]].
        destruct pos; cbn; auto. }
      destruct (Nat.eqb_spec s 0) as [->|]; auto.
      rewrite (proj2 (quiet_context axioms recp pos (pname p) Q axioms 0 ltac:(intros x Hx; exact Hx))). auto.
    Qed.

    Lemma sub_effs_trace e : forall params vals t n t', quiet axioms e -> length params = length vals ->
      sub_effs ins del cond objects axioms recp params vals e t = Ok (n, t') ->
      exists tr, t' = runT t tr /\
        forall o, In o tr -> eff_lit objects (fun _ _ => True) (bind_vars params vals no_env) e
                               (op_sign o) (prop_key (op_prop o)).
    Proof.
      induction e as [fs adds dels cs IHf IHc] using effs_ind'.
      intros params vals t n t' Q L. cbn [sub_effs].
      intros E4. apply bind_Ok in E4 as ([n1 t1] & E1 & E4).
      apply bind_Ok in E4 as ([n2 t2] & E2 & E4). apply bind_Ok in E4 as ([n3 t3] & E3 & E4). set (LL := eff_lit objects (fun _ _ => True) (bind_vars params vals no_env) (Effs fs adds dels cs)).
      eapply (in_turn_trace _ LL) in E1, E2, E3, E4.
      - destruct E1 as (r1 & -> & H1), E2 as (r2 & -> & H2), E3 as (r3 & -> & H3), E4 as (r4 & -> & H4).
        exists (r1 ++ r2 ++ r3 ++ r4). rewrite !runT_app. split; auto.
        intros o Io. rewrite !in_app_iff in Io. destruct Io as [I|[I|[I|I]]]; auto.
      - intros [g b] t4 n4 t5 I. cbn [fst snd].
        destruct (cond t4 g params vals) as [[|]| | | |]; cbn [bind]; try discriminate.
        + intros E. apply (IHc g b I) in E; [|eapply quiet_cond; eauto|auto].
          destruct E as (tr & -> & H). exists tr. split; auto. intros o Io. unfold LL.
          apply eff_lit_eq. right. right. exists g, b. auto.
        + intros E; inversion E; subst. exists []. split; [reflexivity|intros o []].
      - intros p t4 n4 t5 I E. apply sub_lit_trace in E.
        + destruct E as (tr & -> & H). exists tr. split; auto. intros o Io.
          destruct (H o Io) as (S & O & K). unfold LL. apply eff_lit_eq. right. left. exists p.
          rewrite S, K. auto.
        + intros a Ia Ea. apply (Q a Ia). rewrite Ea. apply sigs_del; auto.
      - intros p t4 n4 t5 I E. apply sub_lit_trace in E.
        + destruct E as (tr & -> & H). exists tr. split; auto. intros o Io.
          destruct (H o Io) as (S & O & K). unfold LL. apply eff_lit_eq. right. left. exists p.
          rewrite S, K. auto.
        + intros a Ia Ea. apply (Q a Ia). rewrite Ea. apply sigs_add; auto.
      - intros [vars b] t4 n4 t5 I. cbn [fst snd]. intros E. eapply (in_turn_trace _ LL) in E; [exact E|].
        intros objs t6 n6 t7 Io E'. apply tuples_In in Io. pose proof (well_typed_length _ _ _ Io) as Lo.
        apply (IHf vars b I) in E'; [|eapply quiet_forall; eauto|rewrite !app_length; lia].
        destruct E' as (tr & -> & H). exists tr. split; auto. intros o Ho. unfold LL.
        apply eff_lit_eq. left. exists vars, b. split; auto. exists objs. split; auto.
        rewrite <- bind_vars_app by auto. auto.
    Qed.
  End Trace.

  (** *** Traces on states *)
  Lemma runT_state s tr : runT st_ins st_del s tr = run_from s tr.
  Proof.
    unfold runT, run_from. revert s. induction tr as [|o tr IH]; intros s; cbn; auto.
    rewrite IH. f_equal. destruct o; cbn; [rewrite st_ins_eq|rewrite st_del_eq]; reflexivity.
  Qed.

  Lemma built_run_from s tr : built s -> built (run_from s tr).
  Proof.
    intros [ops ->]. exists (ops ++ tr). unfold run, run_from. rewrite fold_left_app. reflexivity.
  Qed.

  Lemma built_wf s : built s -> st_wf s.
  Proof. intros [ops ->]. apply run_wf. Qed.

  Lemma atoms_mem s a : st_wf s -> atoms s a <-> mem s a.
  Proof.
    intros W. unfold atoms. split.
    - intros (p & <- & C). apply contains_mem; auto.
    - intros M. destruct (mem_exists s a M) as (p & I & <-). exists p. split; auto. apply contains_mem; auto.
  Qed.

  Lemma atoms_exec s o a : st_wf s ->
    atoms (snd (exec_op o s)) a <->
    (if op_sign o then a = prop_key (op_prop o) \/ atoms s a else a <> prop_key (op_prop o) /\ atoms s a).
  Proof.
    intros W. rewrite (atoms_mem (snd (exec_op o s))) by (apply exec_op_wf; auto).
    destruct o; cbn; rewrite (atoms_mem s) by auto; [apply insert_mem|apply erase_mem]; auto.
  Qed.

  Lemma atoms_untouched tr : forall s a, st_wf s ->
    (forall o, In o tr -> prop_key (op_prop o) <> a) -> atoms (run_from s tr) a <-> atoms s a.
  Proof.
    induction tr as [|o tr IH]; intros s a W H; [reflexivity|].
    change (run_from s (o :: tr)) with (run_from (snd (exec_op o s)) tr).
    rewrite IH; [|apply exec_op_wf; auto|intros; apply H; right; auto].
    rewrite atoms_exec by auto. assert (prop_key (op_prop o) <> a) by (apply H; left; auto).
    destruct (op_sign o); intuition congruence.
  Qed.

  Lemma atoms_gain tr : forall s a, st_wf s -> atoms (run_from s tr) a ->
    atoms s a \/ exists o, In o tr /\ op_sign o = true /\ prop_key (op_prop o) = a.
  Proof.
    induction tr as [|o tr IH]; intros s a W H; [auto|].
    change (run_from s (o :: tr)) with (run_from (snd (exec_op o s)) tr) in H.
    apply IH in H; [|apply exec_op_wf; auto]. destruct H as [H|(o' & I & S & K)].
    - rewrite atoms_exec in H by auto. destruct (op_sign o) eqn:S.
      + destruct H as [->|H]; auto. right. exists o. cbn; auto.
      + tauto.
    - right. exists o'. cbn; auto.
  Qed.

  Lemma atoms_loss tr : forall s a, st_wf s -> atoms s a -> ~ atoms (run_from s tr) a ->
    exists o, In o tr /\ op_sign o = false /\ prop_key (op_prop o) = a.
  Proof.
    induction tr as [|o tr IH]; intros s a W A H; [tauto|].
    change (run_from s (o :: tr)) with (run_from (snd (exec_op o s)) tr) in H.
    destruct (op_sign o) eqn:S.
    - destruct (IH (snd (exec_op o s)) a) as (o' & I & S' & K); auto.
      + apply exec_op_wf; auto.
      + apply atoms_exec; auto. rewrite S. auto.
      + exists o'. cbn; auto.
    - destruct (atom_dec (prop_key (op_prop o)) a) as [E|E].
      + exists o. cbn; auto.
      + destruct (IH (snd (exec_op o s)) a) as (o' & I & S' & K); auto.
        * apply exec_op_wf; auto.
        * apply atoms_exec; auto. rewrite S. auto.
        * exists o'. cbn; auto.
  Qed.

  Lemma run_from_split s t1 o t2 :
    run_from s (t1 ++ o :: t2) = run_from (snd (exec_op o (run_from s t1))) t2.
  Proof. unfold run_from. rewrite fold_left_app. reflexivity. Qed.

  Lemma atoms_last tr : forall s a, st_wf s ->
    (exists o, In o tr /\ prop_key (op_prop o) = a) ->
    (forall o o', In o tr -> In o' tr -> prop_key (op_prop o) = a -> prop_key (op_prop o') = a -> op_sign o = op_sign o') ->
    forall o, In o tr -> prop_key (op_prop o) = a -> (atoms (run_from s tr) a <-> op_sign o = true).
  Proof.
    intros s a W _ U o Io Ko. split.
    - intros A. destruct (op_sign o) eqn:S; auto. exfalso.
      apply in_split in Io. destruct Io as (t1 & t2 & ->).
      rewrite run_from_split in A.
      apply atoms_gain in A; [|apply exec_op_wf, run_from_wf; auto].
      destruct A as [A|(o' & I' & S' & K')].
      + rewrite atoms_exec, S in A by (apply run_from_wf; auto). destruct A; congruence.
      + rewrite (U o o') in S; auto; [congruence| |]; apply in_app_iff; cbn; auto.
    - intros S. apply in_split in Io. destruct Io as (t1 & t2 & E).
      destruct (mem_dec (run_from s tr) a) as [M|M].
      { apply atoms_mem; auto. apply run_from_wf; auto. }
      exfalso. rewrite <- atoms_mem in M by (apply run_from_wf; auto).
      rewrite E, run_from_split in M.
      apply atoms_loss in M; [|apply exec_op_wf, run_from_wf; auto|].
      + destruct M as (o' & I' & S' & K'). rewrite (U o o') in S; auto; [congruence| |]; rewrite E; apply in_app_iff; cbn; auto.
      + apply atoms_exec; [apply run_from_wf; auto|]. rewrite S. auto.
  Qed.

  Lemma atoms_conflict_free tr LL : trace_of tr LL -> (forall a, ~ (LL true a /\ LL false a)) ->
    forall s a, st_wf s -> atoms (run_from s tr) a <-> LL true a \/ (atoms s a /\ ~ LL false a).
  Proof.
    intros [H1 H2] N s a W.
    destruct (in_dec atom_dec a (map (fun o => prop_key (op_prop o)) tr)) as [I|I].
    - apply in_map_iff in I. destruct I as (o & K & I).
      rewrite (atoms_last tr s a W) with (o := o); eauto.
      + pose proof (H1 o I) as L. rewrite K in L. destruct (op_sign o).
        * tauto.
        * split; [discriminate|]. intros [L'|[_ L']]; [exfalso; apply (N a); auto|tauto].
      + intros o1 o2 I1 I2 K1 K2. pose proof (H1 o1 I1) as L1. pose proof (H1 o2 I2) as L2.
        rewrite K1 in L1. rewrite K2 in L2. destruct (op_sign o1), (op_sign o2); auto; exfalso; apply (N a); auto.
    - rewrite atoms_untouched; auto.
      + split; [|intros [L|[A _]]; auto].
        * intros A. right. split; auto. intros L. destruct (H2 _ _ L) as (o & Io & _ & K).
          apply I. apply in_map_iff. eauto.
        * exfalso. destruct (H2 _ _ L) as (o & Io & _ & K). apply I. apply in_map_iff. eauto.
      + intros o Io K. apply I. apply in_map_iff. eauto.
  Qed.

  (** ** C23 *)
  Lemma C23_lemma objects axioms fuel ow o args s st n s' st' :
    Forall (fun o => wf_type (otype o)) objects -> built s ->
    length (op_params o) = length args -> wf_effs objects (map oname (op_params o)) (op_effs o) ->
    quiet axioms (op_effs o) ->
    apply_state fuel (create_object_map objects) axioms ow o args (s, st) = Ok (n, (s', st')) ->
    built s' /\
    (forall a, atoms s' a -> ~ atoms s a ->
       eff_lit objects (fun _ _ => True) (bind_vars (op_params o) args no_env) (op_effs o) true a) /\
    (forall a, atoms s a -> ~ atoms s' a ->
       eff_lit objects (fun _ _ => True) (bind_vars (op_params o) args no_env) (op_effs o) false a).
  Proof.
    intros W B L Wf Q. unfold apply_state.
    rewrite (apply_op_quiet st_ins st_del (cond_state (create_object_map objects)) objects axioms fuel ow o args s st
               (fun _ _ _ => UB)) by auto.
    destruct (sub_effs _ _ _ _ _ _ _ _ _ _) as [[m t]| | | |] eqn:E; cbn; try discriminate.
    intros R; inversion R; subst. apply sub_effs_trace in E; auto. destruct E as (tr & -> & H).
    rewrite runT_state. pose proof (built_wf s B) as Ws. split; [apply built_run_from; auto|]. split.
    - intros a A N. destruct (atoms_gain tr s a Ws A) as [A'|(x & I & S & K)]; [tauto|].
      rewrite <- S, <- K. auto.
    - intros a A N. destruct (atoms_loss tr s a Ws A N) as (x & I & S & K).
      rewrite <- S, <- K. auto.
  Qed.

  (** ** Conditions and literals as sets *)
  Lemma eff_reads_eq objects env fs adds dels cs a :
    eff_reads objects env (Effs fs adds dels cs) a <->
    (exists vars b, In (vars, b) fs /\ exists objs, well_typed objects vars objs /\
       eff_reads objects (bind_vars vars objs env) b a) \/
    (exists g b, In (g, b) cs /\ (relevant objects env g a \/ eff_reads objects env b a)).
  Proof.
    cbn [eff_reads].
    rewrite (any_pairs (fun vars b => exists objs, well_typed objects vars objs /\
       eff_reads objects (bind_vars vars objs env) b a) fs).
    rewrite (any_pairs (fun g b => relevant objects env g a \/ eff_reads objects env b a) cs). tauto.
  Qed.

  Lemma trace_of_iff tr (L1 L2 : bool -> atom -> Prop) : (forall pos a, L1 pos a <-> L2 pos a) ->
    trace_of tr L1 -> trace_of tr L2.
  Proof.
    intros E [H1 H2]. split; intros.
    - apply E. auto.
    - apply H2. apply E. auto.
  Qed.
  Lemma trace_of_app t1 t2 L1 L2 : trace_of t1 L1 -> trace_of t2 L2 ->
    trace_of (t1 ++ t2) (fun pos a => L1 pos a \/ L2 pos a).
  Proof.
    intros [A1 A2] [B1 B2]. split.
    - intros o I. apply in_app_iff in I. destruct I; auto.
    - intros pos a [H|H]; [apply A2 in H|apply B2 in H]; destruct H as (o & I & S); exists o;
        rewrite in_app_iff; auto.
  Qed.
  Lemma trace_of_nil (LL : bool -> atom -> Prop) : (forall pos a, ~ LL pos a) -> trace_of [] LL.
  Proof. intros N. split; [intros o []|]. intros pos a H. exfalso. eapply N; eauto. Qed.

  Section Stable.
    Context (objects : list object) (W : Forall (fun o => wf_type (otype o)) objects).
    Context (axioms : list axiom) (recp : nat -> list object -> state -> outcome (nat * state)).
    Context (s0 : state) (L : bool -> atom -> Prop).
    Notation om := (create_object_map objects).
    Notation H0 := (fun env g => holds objects (atoms s0) env g).
    Definition InvL (t : state) : Prop :=
      st_wf t /\ forall a, (forall pos, ~ L pos a) -> (atoms t a <-> atoms s0 a).
    Definition does (r : outcome (nat * state)) (t : state) (LL : bool -> atom -> Prop) : Prop :=
      exists n tr, r = Ok (n, run_from t tr) /\ trace_of tr LL.

    Lemma InvL_run t tr LL : InvL t -> trace_of tr LL -> (forall pos a, LL pos a -> L pos a) ->
      InvL (run_from t tr).
    Proof.
      intros [Wt It] [T1 _] H. split; [apply run_from_wf; auto|]. intros a N.
      rewrite atoms_untouched; auto. intros o Io K. apply (N (op_sign o)). apply H. rewrite <- K. auto.
    Qed.

    Lemma in_turn_does {A} (f : A -> state -> outcome (nat * state)) (LL : A -> bool -> atom -> Prop) l :
      (forall a t, In a l -> InvL t -> does (f a t) t (LL a)) ->
      (forall a pos x, In a l -> LL a pos x -> L pos x) ->
      forall n t, InvL t -> does (in_turn f l n t) t (fun pos x => exists a, In a l /\ LL a pos x).
    Proof.
      induction l as [|a l IH]; intros H HL n t It; cbn [in_turn].
      - exists n, []. split; auto. apply trace_of_nil. intros pos x (a & [] & _).
      - destruct (H a t (or_introl eq_refl) It) as (m & tr & -> & T). cbn [bind].
        assert (It' : InvL (run_from t tr)).
        { eapply InvL_run; eauto. intros. eapply HL; eauto. left; auto. }
        destruct (IH ltac:(intros; apply H; [right|]; auto) ltac:(intros; eapply HL; eauto; right; auto)
                    (Nat.max n m) _ It') as (k & tr2 & -> & T2).
        exists k, (tr ++ tr2). split.
        + unfold run_from. rewrite fold_left_app. reflexivity.
        + eapply trace_of_iff; [|apply (trace_of_app _ _ _ _ T T2)]. intros pos x. cbn. split.
          * intros [Hx|(b & Ib & Hx)]; [exists a|exists b]; auto.
          * intros (b & [<-|Ib] & Hx); eauto.
    Qed.

    Lemma sub_lit_does params vals pos p t :
      (forall a, In a axioms -> (ax_pos a, ax_name a) <> (pos, pname p)) -> ordinary objects (pname p) ->
      does (sub_lit st_ins st_del objects axioms recp params vals pos p t) t
        (fun pos' a => pos' = pos /\ a = (pname p, map oname (sub_args params vals (pargs p)))).
    Proof.
      intros Q [N1 N2]. unfold sub_lit. set (l := sub_args params vals (pargs p)).
      destruct (String.eqb_spec (pname p) "="); [congruence|].
      destruct (is_typeb objects (pname p)) eqn:Et; [exfalso; apply N2, is_typeb_spec; auto|].
      set (o := if pos then Ins (mkProp (pname p) l) else Del (mkProp (pname p) l)).
      assert (T : trace_of [o] (fun pos' a => pos' = pos /\ a = (pname p, map oname l))).
      { split.
        - intros x [<-|[]]. unfold o. destruct pos; auto.
        - intros pos' a [-> ->]. exists o. unfold o. destruct pos; cbn; auto. }
      destruct ((if pos then st_ins else st_del) (mkProp (pname p) l) t) as [s t1] eqn:E1.
      assert (R : t1 = run_from t [o]).
      { unfold o. destruct pos; cbn; [rewrite st_ins_eq in E1|rewrite st_del_eq in E1]; inversion E1; auto. }
      destruct (Nat.eqb_spec s 0).
      - exists 0, [o]. rewrite <- R. auto.
      - rewrite (proj2 (quiet_context axioms recp pos (pname p) Q axioms 0 ltac:(intros x Hx; exact Hx))).
        exists s, [o]. cbn. rewrite R. auto.
    Qed.

    Lemma cond_stable t g params vals : InvL t -> length params = length vals ->
      wf_goal objects (map oname params) g ->
      (forall a, relevant objects (bind_vars params vals no_env) g a -> forall pos, ~ L pos a) ->
      exists b, cond_state om t g params vals = Ok b /\
        (b = true <-> H0 (bind_vars params vals no_env) g).
    Proof.
      intros [Wt It] Lp Wf R. unfold cond_state, eval_state.
      apply (ev_semantics _ _ false objects W (fun a => forall pos, ~ L pos a) (atoms s0)); auto; try discriminate.
      intros p K. eexists; split; [reflexivity|]. rewrite <- atoms_contains. apply It; auto.
    Qed.

    Lemma sub_effs_does e : forall params vals t,
      quiet axioms e -> ordinary_effs objects e -> length params = length vals ->
      wf_effs objects (map oname params) e ->
      (forall a, eff_reads objects (bind_vars params vals no_env) e a -> forall pos, ~ L pos a) ->
      (forall pos a, eff_lit objects H0 (bind_vars params vals no_env) e pos a -> L pos a) ->
      InvL t ->
      does (sub_effs st_ins st_del (cond_state om) objects axioms recp params vals e t) t
        (eff_lit objects H0 (bind_vars params vals no_env) e).
    Proof.
      induction e as [fs adds dels cs IHf IHc] using effs_ind'.
      intros params vals t Q O Lp Wf Rd Lt It. cbn [sub_effs].
      set (env := bind_vars params vals no_env) in *.
      apply wf_effs_eq in Wf. destruct Wf as (Wf & Wa & Wd & Wc).
      assert (Lt' : forall pos a, _ -> L pos a) by (intros pos a Hl; apply Lt; apply eff_lit_eq; exact Hl).
      assert (D1 : does (in_turn (fun f t =>
            in_turn (fun objs t => sub_effs st_ins st_del (cond_state om) objects axioms recp
                                     (params ++ fst f) (vals ++ objs) (snd f) t)
              (tuples objects (fst f)) 0 t) fs 0 t) t
          (fun pos a => exists f, In f fs /\ exists objs, In objs (tuples objects (fst f)) /\
             eff_lit objects H0 (bind_vars (fst f) objs env) (snd f) pos a)).
      { apply (in_turn_does _ (fun f pos a => exists objs, In objs (tuples objects (fst f)) /\
             eff_lit objects H0 (bind_vars (fst f) objs env) (snd f) pos a)); auto.
        - intros [vars b] t1 I I1. cbn [fst snd]. destruct (Wf vars b I) as (Nv & Cv & Wb).
          apply (in_turn_does _ (fun objs => eff_lit objects H0 (bind_vars vars objs env) b)); auto.
          + intros objs t2 Io I2. apply tuples_In in Io. pose proof (well_typed_length _ _ _ Io) as Lo.
            unfold env. rewrite <- bind_vars_app by auto. apply (IHf vars b I); auto.
            * eapply quiet_forall; eauto.
            * intros x Hx. apply O. eapply sigs_forall; eauto.
            * rewrite !app_length; lia.
            * rewrite map_app; auto.
            * intros a Ra. rewrite bind_vars_app in Ra by auto. apply Rd. apply eff_reads_eq.
              left. exists vars, b. split; auto. exists objs. auto.
            * intros pos a Ha. rewrite bind_vars_app in Ha by auto. apply Lt'.
              left. exists vars, b. split; auto. exists objs. auto.
          + intros objs pos a Io Ha. apply tuples_In in Io. apply Lt'.
            left. exists vars, b. split; auto. exists objs. auto.
        - intros [vars b] pos a I (objs & Io & Ha). cbn [fst snd] in *. apply tuples_In in Io. apply Lt'.
          left. exists vars, b. split; auto. exists objs. auto. }
      destruct D1 as (n1 & r1 & E1 & T1). rewrite E1. cbn [bind]. clear E1.
      assert (I1 : InvL (run_from t r1)).
      { eapply InvL_run; eauto. intros pos a ([vars b] & I & objs & Io & Ha). cbn [fst snd] in *.
        apply tuples_In in Io. apply Lt'. left. exists vars, b. split; auto. exists objs. auto. }
      assert (D2 : forall n t, InvL t -> does (in_turn (sub_lit st_ins st_del objects axioms recp params vals true) adds n t) t
          (fun pos a => exists p, In p adds /\ (pos = true /\ a = (pname p, map oname (sub_args params vals (pargs p)))))).
      { intros n t' It'. apply (in_turn_does _ (fun p pos a => pos = true /\ a = (pname p, map oname (sub_args params vals (pargs p))))); auto.
        - intros p t2 I I2. apply sub_lit_does; auto.
          + intros a Ia Ea. apply (Q a Ia). rewrite Ea. apply sigs_add; auto.
          + apply (O (true, pname p)). apply sigs_add; auto.
        - intros p pos a I [-> ->]. apply Lt'. right. left. exists p. split; auto. split; auto.
          apply (O (true, pname p)). apply sigs_add; auto. }
      destruct (D2 n1 _ I1) as (n2 & r2 & E2 & T2). rewrite E2. cbn [bind]. clear E2.
      assert (I2 : InvL (run_from (run_from t r1) r2)).
      { eapply InvL_run; eauto. intros pos a (p & I & -> & ->). apply Lt'. right. left. exists p.
        split; auto. split; auto. apply (O (true, pname p)). apply sigs_add; auto. }
      assert (D3 : forall n t, InvL t -> does (in_turn (sub_lit st_ins st_del objects axioms recp params vals false) dels n t) t
          (fun pos a => exists p, In p dels /\ (pos = false /\ a = (pname p, map oname (sub_args params vals (pargs p)))))).
      { intros n t' It'. apply (in_turn_does _ (fun p pos a => pos = false /\ a = (pname p, map oname (sub_args params vals (pargs p))))); auto.
        - intros p t2 I I3. apply sub_lit_does; auto.
          + intros a Ia Ea. apply (Q a Ia). rewrite Ea. apply sigs_del; auto.
          + apply (O (false, pname p)). apply sigs_del; auto.
        - intros p pos a I [-> ->]. apply Lt'. right. left. exists p. split; auto. split; auto.
          apply (O (false, pname p)). apply sigs_del; auto. }
      destruct (D3 n2 _ I2) as (n3 & r3 & E3 & T3). rewrite E3. cbn [bind]. clear E3.
      assert (I3 : InvL (run_from (run_from (run_from t r1) r2) r3)).
      { eapply InvL_run; eauto. intros pos a (p & I & -> & ->). apply Lt'. right. left. exists p.
        split; auto. split; auto. apply (O (false, pname p)). apply sigs_del; auto. }
      assert (D4 : forall n t, InvL t -> does (in_turn (fun c t =>
            let* b := cond_state om t (fst c) params vals in
            if b : bool then sub_effs st_ins st_del (cond_state om) objects axioms recp params vals (snd c) t
            else Ok (0, t)) cs n t) t
          (fun pos a => exists c, In c cs /\ (H0 env (fst c) /\ eff_lit objects H0 env (snd c) pos a))).
      { intros n t' It'. apply (in_turn_does _ (fun c pos a => H0 env (fst c) /\ eff_lit objects H0 env (snd c) pos a)); auto.
        - intros [g b] t2 I I4. cbn [fst snd]. destruct (Wc g b I) as [Wg Wb].
          destruct (cond_stable t2 g params vals I4 Lp Wg) as (v & Ev & Hv).
          { intros a Ra. apply Rd. apply eff_reads_eq. right. exists g, b. auto. }
          rewrite Ev. cbn [bind]. fold env in Hv. destruct v.
          + destruct (IHc g b I params vals t2) as (n5 & r5 & E5 & T5); auto.
            * eapply quiet_cond; eauto.
            * intros x Hx. apply O. eapply sigs_cond; eauto.
            * intros a Ra. apply Rd. apply eff_reads_eq. right. exists g, b. auto.
            * intros pos a Ha. apply Lt'. right. right. exists g, b. split; auto. split; auto. apply Hv; auto.
            * exists n5, r5. split; auto. eapply trace_of_iff; [|exact T5]. intros pos a. fold env. tauto.
          + exists 0, []. split; auto. apply trace_of_nil. intros pos a [Hg _]. apply Hv in Hg. discriminate.
        - intros [g b] pos a I [Hg Ha]. cbn [fst snd] in *. apply Lt'. right. right. exists g, b. auto. }
      destruct (D4 n3 _ I3) as (n4 & r4 & E4 & T4).
      exists n4, (((r1 ++ r2) ++ r3) ++ r4). split.
      { rewrite E4. unfold run_from. rewrite !fold_left_app. reflexivity. }
      eapply trace_of_iff; [|apply (trace_of_app _ _ _ _ (trace_of_app _ _ _ _ (trace_of_app _ _ _ _ T1 T2) T3) T4)].
      intros pos a. rewrite eff_lit_eq. cbn beta. split.
      - intros [[[([vars b] & I & objs & Io & Ha)|(p & I & -> & ->)]|(p & I & -> & ->)]|([g b] & I & Hg & Ha)].
        + left. exists vars, b. split; auto. exists objs. split; auto. apply tuples_In; auto.
        + right. left. exists p. split; auto. split; auto. apply (O (true, pname p)). apply sigs_add; auto.
        + right. left. exists p. split; auto. split; auto. apply (O (false, pname p)). apply sigs_del; auto.
        + right. right. exists g, b. auto.
      - intros [(vars & b & I & objs & Io & Ha)|[(p & I & _ & ->)|(g & b & I & Hg & Ha)]].
        + left. left. left. exists (vars, b). split; auto. exists objs. split; auto. apply tuples_In; auto.
        + destruct pos; [left; left; right|left; right]; exists p; auto.
        + right. exists (g, b). auto.
    Qed.
  End Stable.

  (** C26, stable conditions *)
  Lemma stable_lemma objects axioms fuel ow o args s st :
    Forall (fun o => wf_type (otype o)) objects -> built s ->
    length (op_params o) = length args -> wf_effs objects (map oname (op_params o)) (op_effs o) ->
    quiet axioms (op_effs o) -> ordinary_effs objects (op_effs o) ->
    let env := bind_vars (op_params o) args no_env in
    let Lit := eff_lit objects (holds objects (atoms s)) env (op_effs o) in
    (forall a pos, eff_reads objects env (op_effs o) a -> ~ Lit pos a) ->
    (forall a, ~ (Lit true a /\ Lit false a)) ->
    exists n s', apply_state fuel (create_object_map objects) axioms ow o args (s, st) = Ok (n, (s', st)) /\
      built s' /\ forall a, atoms s' a <-> Lit true a \/ (atoms s a /\ ~ Lit false a).
  Proof.
    intros W B L Wf Q O env Lit R N. unfold apply_state.
    rewrite (apply_op_quiet st_ins st_del (cond_state (create_object_map objects)) objects axioms fuel ow o args s st
               (fun _ _ _ => UB)) by auto.
    pose proof (built_wf s B) as Ws.
    destruct (sub_effs_does objects W axioms (fun _ _ _ => UB) s Lit (op_effs o) (op_params o) args s)
      as (n & tr & E & T); auto.
    { split; auto. tauto. }
    rewrite E. cbn. exists n, (run_from s tr). split; auto. split; [apply built_run_from; auto|].
    intros a. apply (atoms_conflict_free tr Lit T N s a Ws).
  Qed.

  (** C22 *)
  Lemma plain_lemma objects axioms fuel ow o args s st adds dels :
    Forall (fun o => wf_type (otype o)) objects -> built s -> op_effs o = Effs [] adds dels [] ->
    length (op_params o) = length args -> wf_effs objects (map oname (op_params o)) (op_effs o) ->
    quiet axioms (op_effs o) -> ordinary_effs objects (op_effs o) ->
    let inst p := (pname p, map oname (map (denote (bind_vars (op_params o) args no_env)) (pargs p))) in
    let Add a := exists p, In p adds /\ a = inst p in
    let Dels a := exists p, In p dels /\ a = inst p in
    exists n s', apply_state fuel (create_object_map objects) axioms ow o args (s, st) = Ok (n, (s', st)) /\
      built s' /\ forall a, atoms s' a <-> (atoms s a \/ Add a) /\ ~ Dels a.
  Proof.
    intros W B Eo L Wf Q O inst Add Dels. unfold apply_state.
    rewrite (apply_op_quiet st_ins st_del (cond_state (create_object_map objects)) objects axioms fuel ow o args s st
               (fun _ _ _ => UB)) by auto.
    pose proof (built_wf s B) as Ws. rewrite Eo in *. cbn [sub_effs in_turn bind].
    set (LA := fun _ : bool => fun _ : atom => True).
    assert (Il : forall t, st_wf t -> InvL s LA t).
    { intros t Wt. split; auto. intros a Na. exfalso. apply (Na true). exact I. }
    destruct (in_turn_does s LA (sub_lit st_ins st_del objects axioms (fun _ _ _ => UB) (op_params o) args true)
                (fun p pos a => pos = true /\ a = inst p) adds) with (n := 0) (t := s) as (n1 & r1 & E1 & T1); auto.
    { intros p t I It. apply sub_lit_does.
      - intros a Ia Ea. apply (Q a Ia). rewrite Ea. apply sigs_add; auto.
      - apply (O (true, pname p)). apply sigs_add; auto. }
    { intros. exact I. }
    rewrite E1. cbn [bind].
    destruct (in_turn_does s LA (sub_lit st_ins st_del objects axioms (fun _ _ _ => UB) (op_params o) args false)
                (fun p pos a => pos = false /\ a = inst p) dels) with (n := n1) (t := run_from s r1) as (n2 & r2 & E2 & T2).
    { intros p t I It. apply sub_lit_does.
      - intros a Ia Ea. apply (Q a Ia). rewrite Ea. apply sigs_del; auto.
      - apply (O (false, pname p)). apply sigs_del; auto. }
    { intros. exact I. }
    { apply Il. apply run_from_wf; auto. }
    rewrite E2. cbn [bind]. exists n2, (run_from (run_from s r1) r2). split; auto.
    split; [apply built_run_from, built_run_from; auto|]. intros a.
    rewrite (atoms_conflict_free r2 _ T2) by (try apply run_from_wf; auto; intros x [(p & _ & Z & _) _]; discriminate).
    rewrite (atoms_conflict_free r1 _ T1) by (auto; intros x [_ (p & _ & Z & _)]; discriminate).
    unfold Add, Dels. split.
    - intros [(p & _ & Z & _)|[[(p & I & _ & ->)|[A _]] N]]; [discriminate| |].
      + split; eauto. intros (q & Iq & Eq). apply N. exists q. auto.
      + split; auto. intros (q & Iq & Eq). apply N. exists q. auto.
    - intros [[A|(p & I & ->)] N]; right; split.
      + right. split; auto. intros (p & _ & Z & _); discriminate.
      + intros (p & I & _ & Z). apply N. eauto.
      + left. exists p. auto.
      + intros (q & Iq & _ & Z). apply N. eauto.
  Qed.

  (** ** C27: two runs side by side *)
  Section Pair.
    Context {T1 T2 : Type} (ins1 del1 : prop -> T1 -> nat * T1) (ins2 del2 : prop -> T2 -> nat * T2)
            (cond1 : T1 -> goal -> list object -> list object -> outcome bool)
            (cond2 : T2 -> goal -> list object -> list object -> outcome bool)
            (objects : list object) (axioms : list axiom)
            (rec1 : nat -> list object -> T1 -> outcome (nat * T1))
            (rec2 : nat -> list object -> T2 -> outcome (nat * T2)).
    Context (Rel : T1 -> T2 -> Prop).
    Context (Hins : forall p a b, Rel a b -> Rel (snd (ins1 p a)) (snd (ins2 p b)))
            (Hdel : forall p a b, Rel a b -> Rel (snd (del1 p a)) (snd (del2 p b)))
            (Hcond : forall a b g params vals v, Rel a b -> cond1 a g params vals = Ok v ->
                       cond2 b g params vals = Ok v).

    Definition follows (x : outcome (nat * T1)) (y : outcome (nat * T2)) : Prop :=
      forall n a, x = Ok (n, a) -> exists m b, y = Ok (m, b) /\ Rel a b.

    Lemma in_turn_pair {A} (f : A -> T1 -> outcome (nat * T1)) (g : A -> T2 -> outcome (nat * T2)) l :
      (forall x a b, In x l -> Rel a b -> follows (f x a) (g x b)) ->
      forall n m a b, Rel a b -> follows (in_turn f l n a) (in_turn g l m b).
    Proof.
      induction l as [|x l IH]; intros H n m a b R k a'; cbn [in_turn].
      - intros Q; inversion Q; subst. eauto.
      - intros Q. apply bind_Ok in Q as ([n1 a1] & E & Q).
        destruct (H x a b (or_introl eq_refl) R n1 a1 E) as (m1 & b1 & -> & R1). cbn [bind].
        eapply IH; eauto. intros; apply H; auto. right; auto.
    Qed.

    Lemma sub_lit_pair params vals pos p a b :
      (forall x, In x axioms -> (ax_pos x, ax_name x) <> (pos, pname p)) -> Rel a b ->
      follows (sub_lit ins1 del1 objects axioms rec1 params vals pos p a)
              (sub_lit ins2 del2 objects axioms rec2 params vals pos p b).
    Proof.
      intros Q R n a'. unfold sub_lit. set (l := sub_args params vals (pargs p)).
      destruct (String.eqb (pname p) "=").
      { destruct l as [|x [|y [|]]]; try discriminate. destruct (Bool.eqb _ pos); [|discriminate].
        intros E; inversion E; subst; eauto. }
      destruct (is_typeb objects (pname p)).
      { destruct l as [|x [|]]; try discriminate. destruct (Bool.eqb _ pos); [|discriminate].
        intros E; inversion E; subst; eauto. }
      assert (R' : Rel (snd ((if pos then ins1 else del1) (mkProp (pname p) l) a))
                       (snd ((if pos then ins2 else del2) (mkProp (pname p) l) b))).
      { destruct pos; auto. }
      destruct ((if pos then ins1 else del1) (mkProp (pname p) l) a) as [s1 a1].
      destruct ((if pos then ins2 else del2) (mkProp (pname p) l) b) as [s2 b1]. cbn in R'.
      assert (E2 : exists m, (if Nat.eqb s2 0 then Ok (0, b1)
                else let* t'' := sub_fire rec2 0 axioms pos (pname p) l b1 in Ok (s2, t'')) = Ok (m, b1)).
      { rewrite (proj2 (quiet_context axioms rec2 pos (pname p) Q axioms 0 ltac:(intros x Hx; exact Hx))).
        destruct (Nat.eqb s2 0); cbn; eauto. }
      destruct E2 as (m & ->).
      rewrite (proj2 (quiet_context axioms rec1 pos (pname p) Q axioms 0 ltac:(intros x Hx; exact Hx))).
      destruct (Nat.eqb s1 0); cbn; intros E; inversion E; subst; eauto.
    Qed.

    Lemma sub_effs_pair e : forall params vals a b, quiet axioms e -> Rel a b ->
      follows (sub_effs ins1 del1 cond1 objects axioms rec1 params vals e a)
              (sub_effs ins2 del2 cond2 objects axioms rec2 params vals e b).
    Proof.
      induction e as [fs adds dels cs IHf IHc] using effs_ind'.
      intros params vals a b Q R n a'. cbn [sub_effs]. intros E4.
      apply bind_Ok in E4 as ([n1 a1] & E1 & E4). apply bind_Ok in E4 as ([n2 a2] & E2 & E4).
      apply bind_Ok in E4 as ([n3 a3] & E3 & E4).
      eapply (in_turn_pair _ (fun f t =>
            in_turn (fun objs t => sub_effs ins2 del2 cond2 objects axioms rec2
                                     (params ++ fst f) (vals ++ objs) (snd f) t)
              (tuples objects (fst f)) 0 t)) with (m := 0) (b := b) in E1; eauto.
      2:{ intros [vars e] x y I Rxy. cbn [fst snd]. apply in_turn_pair; auto.
          intros objs x' y' _ R'. apply (IHf vars e I); auto. eapply quiet_forall; eauto. }
      destruct E1 as (m1 & b1 & -> & R1). cbn [bind].
      eapply (in_turn_pair _ (sub_lit ins2 del2 objects axioms rec2 params vals true)) with (m := m1) (b := b1) in E2; eauto.
      2:{ intros p x y I Rxy. apply sub_lit_pair; auto.
          intros z Iz Ez. apply (Q z Iz). rewrite Ez. apply sigs_add; auto. }
      destruct E2 as (m2 & b2 & -> & R2). cbn [bind].
      eapply (in_turn_pair _ (sub_lit ins2 del2 objects axioms rec2 params vals false)) with (m := m2) (b := b2) in E3; eauto.
      2:{ intros p x y I Rxy. apply sub_lit_pair; auto.
          intros z Iz Ez. apply (Q z Iz). rewrite Ez. apply sigs_del; auto. }
      destruct E3 as (m3 & b3 & -> & R3). cbn [bind].
      eapply (in_turn_pair _ (fun c t => let* b := cond2 t (fst c) params vals in
                            if b : bool then sub_effs ins2 del2 cond2 objects axioms rec2 params vals (snd c) t
                            else Ok (0, t))) with (m := m3) (b := b3) in E4; eauto.
      intros [g e] x y I Rxy k z. cbn [fst snd]. intros Ez. apply bind_Ok in Ez as (v & Ev & Ez).
      rewrite (Hcond _ _ _ _ _ _ Rxy Ev). cbn [bind]. destruct v.
      - revert k z Ez. apply (IHc g e I); auto. eapply quiet_cond; eauto.
      - inversion Ez; subst; eauto.
    Qed.
  End Pair.

  Definition describes (ps : partial_state) (s : state) : Prop := built s /\ ps_wf ps /\ completes s ps.

  Lemma contains_insert s p q : st_wf s ->
    st_contains (snd (st_insert p s)) q = true <-> prop_key q = prop_key p \/ st_contains s q = true.
  Proof.
    intros W. rewrite !contains_mem by (auto; apply insert_wf; auto). apply insert_mem; auto.
  Qed.
  Lemma contains_erase s p q : st_wf s ->
    st_contains (snd (st_erase p s)) q = true <-> prop_key q <> prop_key p /\ st_contains s q = true.
  Proof.
    intros W. rewrite !contains_mem by (auto; apply erase_wf; auto). apply erase_mem; auto.
  Qed.

  Lemma describes_insert p ps s : describes ps s -> describes (snd (ps_insert p ps)) (snd (st_ins p s)).
  Proof.
    intros (B & [Wp Wn] & Cp & Cn). rewrite st_ins_eq. cbn [snd]. pose proof (built_wf s B) as Ws.
    split; [|split; [apply ps_insert_wf; split; auto|]].
    - exact (built_run_from s [Ins p] B).
    - rewrite ps_insert_eq. cbn [snd]. split; cbn [ps_pos ps_neg]; intros q C.
      + apply contains_insert in C; auto. apply contains_insert; auto. destruct C; auto.
      + apply contains_erase in C; auto. destruct C as [N C].
        destruct (st_contains (snd (st_insert p s)) q) eqn:E; auto.
        apply contains_insert in E; auto. destruct E as [E|E]; [tauto|]. rewrite (Cn q) in E; auto.
  Qed.
  Lemma describes_erase p ps s : describes ps s -> describes (snd (ps_erase p ps)) (snd (st_del p s)).
  Proof.
    intros (B & [Wp Wn] & Cp & Cn). rewrite st_del_eq. cbn [snd]. pose proof (built_wf s B) as Ws.
    split; [|split; [apply ps_erase_wf; split; auto|]].
    - exact (built_run_from s [Del p] B).
    - rewrite ps_erase_eq. cbn [snd]. split; cbn [ps_pos ps_neg]; intros q C.
      + apply contains_erase in C; auto. apply contains_erase; auto. destruct C; auto.
      + apply contains_insert in C; auto.
        destruct (st_contains (snd (st_erase p s)) q) eqn:E; auto.
        apply contains_erase in E; auto. destruct E as [N E], C as [C|C]; [tauto|]. rewrite (Cn q) in E; auto.
  Qed.

  Lemma cond_known_spec om ps g params vals v : cond_known om ps g params vals = Ok v ->
    eval_optional om ps g params vals = Ok (Some v).
  Proof.
    unfold cond_known. intros E. apply bind_Ok in E as ([b|] & E & Q); inversion Q; subst; auto.
  Qed.

  Lemma C27_lemma objects axioms fuel ow o args ps s st n ps' st' :
    Forall (fun o => wf_type (otype o)) objects -> built s -> pbuilt ps -> completes s ps ->
    length (op_params o) = length args -> wf_effs objects (map oname (op_params o)) (op_effs o) ->
    quiet axioms (op_effs o) ->
    apply_op ps_insert ps_erase (cond_known (create_object_map objects)) (create_object_map objects)
      axioms fuel ow o args (ps, st) = Ok (n, (ps', st')) ->
    (exists m, apply_partial fuel (create_object_map objects) axioms ow o args (ps, st) = Ok (m, (ps', st'))) /\
    exists m s', apply_state fuel (create_object_map objects) axioms ow o args (s, st) = Ok (m, (s', st')) /\
      completes s' ps'.
  Proof.
    intros W B ([o1 B1] & [o2 B2] & _) C L Wf Q. unfold apply_partial, apply_state.
    assert (Wps : ps_wf ps) by (split; [rewrite B1|rewrite B2]; apply run_wf).
    rewrite !(fun T ins del cond t => apply_op_quiet (T := T) ins del cond objects axioms fuel ow o args t st
               (fun _ _ _ => UB)) by auto.
    intros E. apply bind_Ok in E as ([n1 p1] & E & Z). inversion Z; subst n1 p1 st'. clear Z. split.
    - pose proof (sub_effs_pair ps_insert ps_erase ps_insert ps_erase
          (cond_known (create_object_map objects)) (cond_partial (create_object_map objects)) objects axioms
          (fun _ _ _ => UB) (fun _ _ _ => UB) eq) as P.
      destruct (P ltac:(intros; subst; auto) ltac:(intros; subst; auto)
        ltac:(intros a b g pa va v -> Ev; unfold cond_partial; rewrite (cond_known_spec _ _ _ _ _ _ Ev); reflexivity)
        (op_effs o) (op_params o) args ps ps Q eq_refl n ps' E) as (m & b & -> & ->).
      exists m. reflexivity.
    - pose proof (sub_effs_pair ps_insert ps_erase st_ins st_del
          (cond_known (create_object_map objects)) (cond_state (create_object_map objects)) objects axioms
          (fun _ _ _ => UB) (fun _ _ _ => UB) describes) as P.
      destruct (P describes_insert describes_erase
        ltac:(intros a b g pa va v (_ & _ & Cb) Ev; apply (C20_lemma _ a); auto; apply cond_known_spec; auto)
        (op_effs o) (op_params o) args ps s Q ltac:(split; [|split]; auto) n ps' E) as (m & b & -> & (_ & _ & Cb)).
      exists m, b. auto.
  Qed.

  (** Without conditions the proviso is void. *)
  Lemma no_conds_pair {T} ins del cond1 cond2 objects axioms recp e : eff_conds e = [] ->
    forall params vals (t : T), sub_effs ins del cond1 objects axioms recp params vals e t =
                                sub_effs ins del cond2 objects axioms recp params vals e t.
  Proof.
    induction e as [fs adds dels cs IHf IHc] using effs_ind'. intros N params vals t.
    cbn [eff_conds] in N. apply app_eq_nil in N. destruct N as [N1 N2].
    destruct cs as [|c cs]; [|cbn in N2; discriminate]. cbn [sub_effs in_turn].
    assert (E : forall n t, in_turn (fun f t =>
        in_turn (fun objs t => sub_effs ins del cond1 objects axioms recp (params ++ fst f) (vals ++ objs) (snd f) t)
          (tuples objects (fst f)) 0 t) fs n t = in_turn (fun f t =>
        in_turn (fun objs t => sub_effs ins del cond2 objects axioms recp (params ++ fst f) (vals ++ objs) (snd f) t)
          (tuples objects (fst f)) 0 t) fs n t).
    { assert (H : forall vars b, In (vars, b) fs -> eff_conds b = []).
      { clear - N1. induction fs as [|[v b] fs IH]; intros vars b' I; [destruct I|]. cbn in N1.
        apply app_eq_nil in N1. destruct N1 as [N1 N2]. destruct I as [Q|I]; [inversion Q; subst; auto|eauto]. }
      clear - IHf H. induction fs as [|[vars b] fs IH]; intros n t; cbn [in_turn]; auto. cbn [fst snd].
      assert (E : forall ts n t, in_turn (fun objs t => sub_effs ins del cond1 objects axioms recp (params ++ vars) (vals ++ objs) b t) ts n t =
                  in_turn (fun objs t => sub_effs ins del cond2 objects axioms recp (params ++ vars) (vals ++ objs) b t) ts n t).
      { induction ts as [|x ts IHt]; intros; cbn [in_turn]; auto.
        rewrite (IHf vars b (or_introl eq_refl)) by (eapply H; left; eauto).
        destruct (sub_effs _ _ cond2 _ _ _ _ _ _ _) as [[? ?]| | | |]; cbn; auto. }
      rewrite E. destruct (in_turn _ (tuples objects vars) 0 t) as [[? ?]| | | |]; cbn; auto.
      apply IH; intros; [eapply IHf|eapply H]; try right; eauto. }
    rewrite E. reflexivity.
  Qed.

  Lemma C27_unconditional_lemma objects axioms fuel ow o args ps s st n ps' st' :
    Forall (fun o => wf_type (otype o)) objects -> built s -> pbuilt ps -> completes s ps ->
    length (op_params o) = length args -> wf_effs objects (map oname (op_params o)) (op_effs o) ->
    quiet axioms (op_effs o) -> eff_conds (op_effs o) = [] ->
    apply_partial fuel (create_object_map objects) axioms ow o args (ps, st) = Ok (n, (ps', st')) ->
    exists m s', apply_state fuel (create_object_map objects) axioms ow o args (s, st) = Ok (m, (s', st')) /\
      completes s' ps'.
  Proof.
    intros W B PB C L Wf Q N E.
    refine (proj2 (C27_lemma objects axioms fuel ow o args ps s st n ps' st' W B PB C L Wf Q _)).
    revert E. unfold apply_partial.
    rewrite !(fun T ins del cond t => apply_op_quiet (T := T) ins del cond objects axioms fuel ow o args t st
               (fun _ _ _ => UB)) by auto.
    rewrite (no_conds_pair ps_insert ps_erase (cond_partial (create_object_map objects))
               (cond_known (create_object_map objects))) by auto. auto.
  Qed.

  (** ** C28 *)
  Lemma good_axiom_nth objects ar axioms i a : Forall (good_axiom objects ar) axioms ->
    nth_error axioms i = Some a -> good_axiom objects ar a.
  Proof. intros F N. rewrite Forall_forall in F. apply F. eapply nth_error_In; eauto. Qed.

  Lemma reachable_ok objects ar rank axioms st :
    Forall (fun o => wf_type (otype o)) objects ->
    Forall (good_axiom objects ar) axioms -> ranked axioms rank ->
    reachable_store objects ar axioms st -> store_ok st.
  Proof.
    intros W Ha Hr. induction 1 as [|st fuel nm o args s n s' st' _ IH G L E|st fuel nm o args s n s' st' _ IH G L E
      |st fuel i a args s n s' st' _ IH G L E|st fuel i a args s n s' st' _ IH G L E
      |st _ IH|st st' _ IH1 _ IH2|st k r b st' _ IH E].
    - apply no_store_ok.
    - unfold apply_state in E. pose proof (apply_op_link st_ins st_del (cond_state (create_object_map objects)) objects
        axioms ar rank fuel (OAct nm) o args s st W Ha Hr G L IH I) as H. rewrite E in H. cbn in H.
      destruct (sub_effs _ _ _ _ _ _ _ _ _ _); try tauto; apply H.
    - unfold apply_partial in E. pose proof (apply_op_link ps_insert ps_erase (cond_partial (create_object_map objects)) objects
        axioms ar rank fuel (OAct nm) o args s st W Ha Hr G L IH I) as H. rewrite E in H. cbn in H.
      destruct (sub_effs _ _ _ _ _ _ _ _ _ _); try tauto; apply H.
    - pose proof (good_axiom_nth _ _ _ _ _ Ha G) as [G' _ _].
      unfold apply_state in E. pose proof (apply_op_link st_ins st_del (cond_state (create_object_map objects)) objects
        axioms ar rank fuel (OAx i) (ax_op a) args s st W Ha Hr G' L IH ltac:(cbn; eauto)) as H. rewrite E in H. cbn in H.
      destruct (sub_effs _ _ _ _ _ _ _ _ _ _); try tauto; apply H.
    - pose proof (good_axiom_nth _ _ _ _ _ Ha G) as [G' _ _].
      unfold apply_partial in E. pose proof (apply_op_link ps_insert ps_erase (cond_partial (create_object_map objects)) objects
        axioms ar rank fuel (OAx i) (ax_op a) args s st W Ha Hr G' L IH ltac:(cbn; eauto)) as H. rewrite E in H. cbn in H.
      destruct (sub_effs _ _ _ _ _ _ _ _ _ _); try tauto; apply H.
    - intros k l. unfold forget_actions. destruct (k_owner k); [discriminate|]. apply IH.
    - intros k l. unfold restore_actions. destruct (k_owner k); [apply IH1|apply IH2].
    - eapply call_closure_ok; eauto.
  Qed.

  Lemma orel_drop {T} (x : outcome (nat * (T * store))) (y : outcome (nat * T)) :
    orel (fun x y => fst x = fst y /\ fst (snd x) = snd y /\ store_ok (snd (snd x))) x y -> drop_store x = y.
  Proof.
    destruct x as [[n [t st]]| | | |], y as [[m t']| | | |]; cbn; try tauto.
    - intros (-> & -> & _). reflexivity.
    - intros ->. reflexivity.
  Qed.

  Section NoFuel.
    Context {T : Type} (ins del : prop -> T -> nat * T)
            (cond : T -> goal -> list object -> list object -> outcome bool)
            (objects : list object) (axioms : list axiom).
    Context (Hc : forall t g params vals, length params = length vals -> wf_goal objects (map oname params) g ->
                    cond t g params vals <> OutOfFuel).

    Lemma in_turn_fuel {A} (f : A -> T -> outcome (nat * T)) l :
      (forall a t, In a l -> f a t <> OutOfFuel) -> forall n t, in_turn f l n t <> OutOfFuel.
    Proof.
      induction l as [|a l IH]; intros H n t; cbn [in_turn]; [discriminate|].
      destruct (f a t) as [[m t']| | | |] eqn:E; cbn [bind]; try discriminate.
      - apply IH. intros; apply H; right; auto.
      - exfalso. apply (H a t); auto. left; auto.
    Qed.

    Section Body.
      Context (rec : nat -> list object -> T -> outcome (nat * T)) (sigs : list (bool * string)).
      Context (Hrec : forall i a vals t, nth_error axioms i = Some a -> In (ax_pos a, ax_name a) sigs ->
                 length vals = length (op_params (ax_op a)) -> rec i vals t <> OutOfFuel).

      Lemma sub_fire_fuel pos name l : In (pos, name) sigs -> forall axs pre, axioms = pre ++ axs -> forall t,
        sub_fire rec (length pre) axs pos name l t <> OutOfFuel.
      Proof.
        intros Is. induction axs as [|a axs IH]; intros pre E t; cbn [sub_fire]; [discriminate|].
        assert (N : nth_error axioms (length pre) = Some a).
        { rewrite E, nth_error_app2, Nat.sub_diag by lia. reflexivity. }
        assert (E' : axioms = (pre ++ [a]) ++ axs) by (rewrite <- app_assoc; exact E).
        specialize (IH _ E'). rewrite app_length in IH. cbn in IH. rewrite Nat.add_1_r in IH.
        destruct (Bool.eqb (ax_pos a) pos && String.eqb (ax_name a) name) eqn:Em; [|apply IH].
        apply andb_true_iff in Em. destruct Em as [E1 E2]. apply Bool.eqb_prop in E1. apply String.eqb_eq in E2.
        subst pos name. unfold context_values. destruct (consts_match _ _ l); [|apply IH].
        destruct (rec (length pre) _ t) as [[m t']| | | |] eqn:Er; cbn [bind]; try discriminate; [apply IH|].
        exfalso. revert Er. apply (Hrec _ a); auto. apply map_length.
      Qed.

      Lemma sub_effs_fuel e : forall params vals t, incl (eff_sigs e) sigs -> length params = length vals ->
        wf_effs objects (map oname params) e ->
        sub_effs ins del cond objects axioms rec params vals e t <> OutOfFuel.
      Proof.
        assert (HL : forall params vals pos p t, In (pos, pname p) sigs ->
                   sub_lit ins del objects axioms rec params vals pos p t <> OutOfFuel).
        { intros params vals pos p t Is. unfold sub_lit.
          destruct (String.eqb (pname p) "=").
          { destruct (sub_args _ _ _) as [|x [|y [|]]]; try discriminate. destruct (Bool.eqb _ pos); discriminate. }
          destruct (is_typeb objects (pname p)).
          { destruct (sub_args _ _ _) as [|x [|]]; try discriminate. destruct (Bool.eqb _ pos); discriminate. }
          destruct ((if pos then ins else del) _ t) as [s t1]. destruct (Nat.eqb s 0); [discriminate|].
          destruct (sub_fire _ _ _ _ _ _ _) eqn:E; cbn [bind]; try discriminate.
          exfalso. apply (sub_fire_fuel pos (pname p) _ Is axioms [] eq_refl t1 E). }
        induction e as [fs adds dels cs IHf IHc] using effs_ind'.
        intros params vals t Is L Wf. apply wf_effs_eq in Wf. destruct Wf as (Wf & Wa & Wd & Wc).
        cbn [sub_effs].
        match goal with |- bind ?x _ <> _ => destruct x as [[n1 t1]| | | |] eqn:E1 end; cbn [bind]; try discriminate.
        2:{ exfalso. revert E1. apply in_turn_fuel. intros [vars b] t1 I. cbn [fst snd]. apply in_turn_fuel.
            intros objs t2 Io. apply tuples_In in Io. pose proof (well_typed_length _ _ _ Io) as Lo.
            destruct (Wf vars b I) as (_ & _ & Wb). apply (IHf vars b I).
            - intros s Hs. apply Is. eapply sigs_forall; eauto.
            - rewrite !app_length; lia.
            - rewrite map_app; auto. }
        match goal with |- bind ?x _ <> _ => destruct x as [[n2 t2]| | | |] eqn:E2 end; cbn [bind]; try discriminate.
        2:{ exfalso. revert E2. apply in_turn_fuel. intros p t2 I. apply HL. apply Is. apply sigs_add; auto. }
        match goal with |- bind ?x _ <> _ => destruct x as [[n3 t3]| | | |] eqn:E3 end; cbn [bind]; try discriminate.
        2:{ exfalso. revert E3. apply in_turn_fuel. intros p t3 I. apply HL. apply Is. apply sigs_del; auto. }
        apply in_turn_fuel. intros [g b] t4 I. cbn [fst snd]. destruct (Wc g b I) as [Wg Wb].
        destruct (cond t4 g params vals) as [[|]| | | |] eqn:Ec; cbn [bind]; try discriminate.
        - apply (IHc g b I); auto. intros s Hs. apply Is. eapply sigs_cond; eauto.
        - exfalso. eapply Hc; eauto.
      Qed.
    End Body.

    Lemma sub_axiom_fuel ar rank : Forall (good_axiom objects ar) axioms -> ranked axioms rank ->
      forall fuel i a vals t, nth_error axioms i = Some a -> rank i < fuel ->
      length vals = length (op_params (ax_op a)) ->
      sub_axiom ins del cond objects axioms fuel i vals t <> OutOfFuel.
    Proof.
      intros Ha Hr. induction fuel as [|fuel IH]; intros i a vals t N Lf Lv; [lia|]. cbn [sub_axiom]. rewrite N.
      destruct (good_axiom_nth _ _ _ _ _ Ha N) as [[G1 G2 G3 G4] _ _].
      apply (sub_effs_fuel _ (eff_sigs (op_effs (ax_op a)))); auto.
      - intros j b vals' t' Nb Ib Lb. eapply IH; eauto. pose proof (Hr i a N j b Nb Ib). lia.
      - intros s Hs; auto.
    Qed.

    Lemma sub_op_fuel ar rank fuel o vals t : Forall (good_axiom objects ar) axioms -> ranked axioms rank ->
      good_op objects ar o -> (forall i, i < length axioms -> rank i < fuel) -> length (op_params o) = length vals ->
      sub_effs ins del cond objects axioms (sub_axiom ins del cond objects axioms fuel)
         (op_params o) vals (op_effs o) t <> OutOfFuel.
    Proof.
      intros Ha Hr [G1 G2 G3 G4] Hf L. apply (sub_effs_fuel _ (eff_sigs (op_effs o))); auto.
      - intros i a vals' t' N _ Lv. eapply sub_axiom_fuel; eauto. apply Hf. apply nth_error_Some. congruence.
      - intros s Hs; auto.
    Qed.
  End NoFuel.

  Lemma cond_state_fuel objects : Forall (fun o => wf_type (otype o)) objects ->
    forall t g params vals, length params = length vals -> wf_goal objects (map oname params) g ->
    cond_state (create_object_map objects) t g params vals <> OutOfFuel.
  Proof.
    intros W t g params vals L Wf.
    destruct (eval_state_semantics objects t g params vals no_env W L Wf) as (b & E & _).
    unfold cond_state. rewrite E. discriminate.
  Qed.

  Lemma C28_lemma objects ar rank axioms fuel ow o args s st :
    Forall (fun o => wf_type (otype o)) objects ->
    Forall (good_axiom objects ar) axioms -> ranked axioms rank -> good_op objects ar o ->
    match ow with OAct _ => True | OAx i => exists a, nth_error axioms i = Some a /\ ax_op a = o end ->
    length (op_params o) = length args -> reachable_store objects ar axioms st ->
    (forall i, i < length axioms -> rank i < fuel) ->
    let om := create_object_map objects in
    let sub := sub_effs st_ins st_del (cond_state om) objects axioms
                 (sub_axiom st_ins st_del (cond_state om) objects axioms fuel)
                 (op_params o) args (op_effs o) s in
    drop_store (apply_state fuel om axioms ow o args (s, st)) = sub /\ sub <> OutOfFuel.
  Proof.
    intros W Ha Hr G Ho L R F om sub. split.
    - apply orel_drop. apply (apply_op_link _ _ _ _ _ ar rank); auto.
      apply (reachable_ok objects ar rank axioms); auto.
    - apply (sub_op_fuel st_ins st_del (cond_state om) objects axioms (cond_state_fuel objects W) ar rank); auto.
  Qed.

  Lemma C28_partial_lemma objects ar rank axioms fuel ow o args s st :
    Forall (fun o => wf_type (otype o)) objects ->
    Forall (good_axiom objects ar) axioms -> ranked axioms rank -> good_op objects ar o ->
    match ow with OAct _ => True | OAx i => exists a, nth_error axioms i = Some a /\ ax_op a = o end ->
    length (op_params o) = length args -> reachable_store objects ar axioms st ->
    let om := create_object_map objects in
    drop_store (apply_partial fuel om axioms ow o args (s, st)) =
    sub_effs ps_insert ps_erase (cond_partial om) objects axioms
      (sub_axiom ps_insert ps_erase (cond_partial om) objects axioms fuel)
      (op_params o) args (op_effs o) s.
  Proof.
    intros W Ha Hr G Ho L R om.
    apply orel_drop. apply (apply_op_link _ _ _ _ _ ar rank); auto.
    apply (reachable_ok objects ar rank axioms); auto.
  Qed.
End WithHash.
