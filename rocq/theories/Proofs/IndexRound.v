(** Bijection and round trips of the state index. *)
From Coq Require Import String Ascii List Bool ZArith Lia.
From Verif.Model Require Import Base Object Proposition State CombinationGenerator
  ParameterGenerator Text StateIndex.
From Verif.Spec Require Import CartesianSpec TypingSpec TextSpec EffectSpec SetSpec IndexSpec.
From Verif.Proofs Require Import CombinationFacts ParameterFacts HashSetFacts StateFacts StateHistory
  TextFacts IndexFacts IndexTheorems.
Import ListNotations.
Local Open Scope list_scope.
Local Open Scope Z_scope.

Lemma same_objects objects a b : NoDup (map oname objects) ->
  Forall (fun o => In o objects) a -> Forall (fun o => In o objects) b ->
  map oname a = map oname b -> a = b.
Proof.
  intros ND. revert b. induction a as [|x a IH]; intros [|y b] Fa Fb E; try discriminate; auto.
  inversion Fa; inversion Fb; subst. cbn in E. injection E as E1 E2. f_equal; auto.
  clear - ND E1 H1 H5. induction objects as [|o os IH]; [destruct H1|].
  cbn in ND. inversion ND as [|? ? N1 N2]; subst.
  destruct H1 as [->|H1], H5 as [->|H5]; auto; exfalso; apply N1.
  - rewrite E1. apply in_map. auto.
  - rewrite <- E1. apply in_map. auto.
Qed.

Lemma well_typed_objects objects params args : well_typed objects params args ->
  Forall (fun o => In o objects) args.
Proof. unfold well_typed. induction 1; constructor; tauto. Qed.

Lemma ground_key objects decls p q : indexable objects decls ->
  ground objects decls p -> ground objects decls q -> prop_key p = prop_key q -> p = q.
Proof.
  intros IX (ps & _ & Wp) (qs & _ & Wq) E. destruct p as [n a], q as [m b]. unfold prop_key in E.
  cbn in *. injection E as E1 E2. f_equal; auto.
  apply (same_objects objects); eauto using well_typed_objects. apply (ix_objects _ _ IX).
Qed.

Lemma ground_plain objects decls p : plain_names objects decls -> ground_names objects decls p -> plain p.
Proof.
  intros [D O] (q & (ps & I & W) & K). unfold prop_key in K. injection K as K1 K2.
  unfold plain. rewrite <- K1, <- K2. split.
  - rewrite Forall_forall in D. apply (D _ I).
  - apply Forall_map. eapply Forall_impl; [|apply (well_typed_objects _ _ _ W)].
    intros o Io. rewrite Forall_forall in O. auto.
Qed.

Lemma nth_In_error {A} (l : list A) i : 0 <= i < Z.of_nat (length l) ->
  exists x, nth_error l (Z.to_nat i) = Some x.
Proof. intros. apply nth_error_some_lt. lia. Qed.

Section Round.
  Context `{SH : StdHash}.

  Lemma built_of objects decls use si : indexable objects decls ->
    index_of objects decls use = Ok si -> built objects decls use si.
  Proof.
    intros IX E. destruct (index_of_ok objects decls use IX) as (si' & E' & B). congruence.
  Qed.

  Lemma C36_lemma objects decls use si qs : indexable objects decls -> plain_names objects decls ->
    index_of objects decls use = Ok si -> Forall plain_query qs ->
    si_size si = ground_count objects decls /\
    (forall i, 0 <= i < si_size si ->
       exists p, fst (get_proposition si i (caches_after si qs)) = Ok p /\ ground objects decls p /\
         fst (get_proposition_index si p (caches_after si qs)) = Ok i) /\
    (forall p, ground objects decls p ->
       exists i, 0 <= i < si_size si /\
         fst (get_proposition_index si p (caches_after si qs)) = Ok i /\
         fst (get_proposition si i (caches_after si qs)) = Ok p).
  Proof.
    intros IX PN E PL. pose proof (built_of _ _ _ _ IX E) as B.
    pose proof (caches_after_ok si qs PL) as OK. set (c := caches_after si qs) in *.
    rewrite (built_size _ _ _ _ IX B). split; [apply numbering_length|]. split.
    - intros i I. destruct (nth_In_error _ i I) as (p & N). exists p.
      assert (G : ground objects decls p) by (apply numbering_In; eapply nth_error_In; eauto).
      assert (PP : plain p) by (apply (ground_plain objects decls); auto; exists p; auto).
      rewrite (proj1 (get_proposition_pure si i c OK)), (proj1 (get_index_pure si p c PP OK)).
      pose proof (lookup_prop_ok _ _ _ _ IX B _ _ N) as L1.
      pose proof (lookup_index_at _ _ _ _ IX B _ p p N eq_refl) as L2.
      rewrite Z2Nat.id in L1, L2 by lia. auto.
    - intros p G. destruct (In_nth_error _ _ (proj2 (numbering_In objects decls p) G)) as (j & N).
      assert (PP : plain p) by (apply (ground_plain objects decls); auto; exists p; auto).
      exists (Z.of_nat j). assert (J : (j < length (numbering objects decls))%nat) by (apply nth_error_Some; congruence).
      split; [lia|]. rewrite (proj1 (get_proposition_pure si _ c OK)), (proj1 (get_index_pure si p c PP OK)).
      split; [apply (lookup_index_at _ _ _ _ IX B _ p p N eq_refl)|apply (lookup_prop_ok _ _ _ _ IX B _ _ N)].
  Qed.

  Lemma C36_reject_lemma objects decls use si qs : indexable objects decls ->
    index_of objects decls use = Ok si -> Forall plain_query qs ->
    (forall i, si_size si <= i < 2 ^ 64 -> fst (get_proposition si i (caches_after si qs)) = UB) /\
    (forall p, plain p -> ~ In (pname p) (map fst decls) ->
       fst (get_proposition_index si p (caches_after si qs)) = Throw EOutOfRange) /\
    (forall p, plain p -> right_arity decls p -> ~ ground_names objects decls p ->
       fst (get_proposition_index si p (caches_after si qs)) = Throw EOutOfRange \/
       fst (get_proposition_index si p (caches_after si qs)) = AssertFail).
  Proof.
    intros IX E PL. pose proof (built_of _ _ _ _ IX E) as B.
    pose proof (caches_after_ok si qs PL) as OK. set (c := caches_after si qs) in *. split; [|split].
    - intros i I. rewrite (proj1 (get_proposition_pure si i c OK)).
      apply (lookup_prop_beyond _ _ _ _ IX B); auto.
    - intros p PP N. rewrite (proj1 (get_index_pure si p c PP OK)).
      apply (lookup_index_name objects decls use); auto.
    - intros p PP A G. rewrite (proj1 (get_index_pure si p c PP OK)).
      destruct (lookup_index_ok _ _ _ _ IX B p A) as [(j & q & _ & N & K)|[_ R]]; auto.
      destruct G. exists q. split; auto. apply numbering_In. eapply nth_error_In; eauto.
  Qed.

  (** ** Iteration *)
  Lemma iterate_ok objects decls use si : indexable objects decls -> built objects decls use si ->
    Z.of_nat (length (numbering objects decls)) < 2 ^ 31 ->
    forall n i fuel c, cache_ok si c -> Z.of_nat (length (numbering objects decls)) = Z.of_nat i + Z.of_nat n ->
    (n <= fuel)%nat ->
    fst (iterate_from fuel si (Z.of_nat i) (Z.of_nat (length (numbering objects decls))) c) =
    Ok (skipn i (numbering objects decls)).
  Proof.
    intros IX B SM. set (N := numbering objects decls) in *. pose proof P64.
    induction n as [|n IH]; intros i fuel c OK L F.
    - replace (Z.of_nat (length N)) with (Z.of_nat i) by lia.
      rewrite skipn_all2 by lia. destruct fuel; cbn [iterate_from]; rewrite Z.eqb_refl; reflexivity.
    - destruct fuel as [|fuel]; [lia|]. cbn [iterate_from].
      destruct (Z.eqb_spec (Z.of_nat i) (Z.of_nat (length N))); [lia|].
      rewrite to_size_t_id by lia. rewrite to_int_id by lia.
      destruct (nth_error_some_lt N i) as (p & Np); [lia|].
      destruct (get_proposition_pure si (Z.of_nat i) c OK) as [E OK'].
      rewrite (lookup_prop_ok _ _ _ _ IX B _ _ Np) in E.
      destruct (get_proposition si (Z.of_nat i) c) as [r c1]. cbn in E, OK'. subst r.
      specialize (IH (S i) fuel c1 OK' ltac:(lia) ltac:(lia)).
      replace (Z.of_nat i + 1) with (Z.of_nat (S i)) by lia.
      destruct (iterate_from fuel si (Z.of_nat (S i)) _ c1) as [r c2]. cbn [fst] in IH. subst r.
      cbn [fst]. f_equal. clear - Np. revert i Np. induction N as [|x N IHN]; intros [|i] Np; try discriminate.
      + cbn in *. congruence.
      + cbn in Np |- *. apply IHN; auto.
  Qed.

  Lemma C36_iterate_lemma objects decls use si qs fuel : indexable objects decls ->
    index_of objects decls use = Ok si -> Forall plain_query qs ->
    ground_count objects decls < 2 ^ 31 -> ground_count objects decls <= Z.of_nat fuel ->
    fst (iterate fuel si (caches_after si qs)) = Ok (numbering objects decls) /\
    NoDup (map prop_key (numbering objects decls)) /\
    forall p, In p (numbering objects decls) <-> ground objects decls p.
  Proof.
    intros IX E PL SM F. pose proof (built_of _ _ _ _ IX E) as B. split; [|split].
    - unfold iterate. rewrite (built_size _ _ _ _ IX B). rewrite <- numbering_length in SM, F.
      rewrite to_int_id by lia.
      apply (iterate_ok _ _ _ _ IX B SM (length (numbering objects decls)) 0);
        [apply caches_after_ok; auto|lia|lia].
    - apply numbering_keys; [apply (ix_objects _ _ IX)|apply (ix_names _ _ IX)].
    - apply numbering_In.
  Qed.

  (** ** Vectors *)
  Lemma set_nth_length {A} i (a : A) l : length (set_nth i a l) = length l.
  Proof. revert i. induction l as [|x l IH]; intros [|i]; cbn; auto. Qed.

  Lemma nth_set_nth {A} i (a d : A) l j : (i < length l)%nat ->
    nth j (set_nth i a l) d = if Nat.eqb i j then a else nth j l d.
  Proof.
    revert i j. induction l as [|x l IH]; intros [|i] [|j] L; cbn in *; try lia; auto.
    apply IH. lia.
  Qed.

  Section One.
    Context (objects : list object) (decls : list (string * list object)) (use : bool) (si : state_index)
            (IX : indexable objects decls) (PN : plain_names objects decls) (B : built objects decls use si).
    Let N := numbering objects decls.

    Lemma set_bits_ok props : forall v c, Forall (ground_names objects decls) props -> cache_ok si c ->
      length v = length N ->
      exists v', fst (set_bits si props v c) = Ok v' /\ length v' = length N /\
        cache_ok si (snd (set_bits si props v c)) /\
        forall j q, nth_error N j = Some q ->
          nth j v' false = nth j v false || if in_dec atom_dec (prop_key q) (map prop_key props) then true else false.
    Proof.
      induction props as [|p props IH]; intros v c G OK L; cbn [set_bits].
      - exists v. repeat (split; [auto|]). intros j q _. destruct (in_dec _ _ _) as [[]|]. rewrite orb_false_r. auto.
      - inversion G as [|? ? Gp Gs]; subst. pose proof (ground_plain _ _ _ PN Gp) as PP.
        destruct (get_index_pure si p c PP OK) as [E OK'].
        destruct (lookup_index_ok _ _ _ _ IX B p (ground_arity _ _ _ Gp)) as [(k & q0 & Lk & Nk & Kk)|[NG _]]; [|tauto].
        rewrite Lk in E. destruct (get_proposition_index si p c) as [r c1]. cbn in E, OK'. subst r.
        assert (KL : (k < length N)%nat) by (apply nth_error_Some; unfold N; congruence).
        destruct (Z.ltb_spec (Z.of_nat k) (Z.of_nat (length v))); [|lia]. rewrite Nat2Z.id.
        destruct (IH (set_nth k true v) c1 Gs OK') as (v' & Ev & Lv & OKv & Nv); [rewrite set_nth_length; auto|].
        exists v'. repeat (split; [auto|]). intros j q Nj. rewrite (Nv j q Nj). rewrite nth_set_nth by lia.
        cbn [map]. destruct (Nat.eqb_spec k j) as [->|NE].
        + assert (q = q0) by (unfold N in Nj; congruence). subst q0. cbn [orb].
          destruct (in_dec _ _ _) as [|C]; [rewrite orb_true_r; auto|]. destruct C. left. auto.
        + f_equal. destruct (in_dec atom_dec (prop_key q) (map prop_key props)) as [I|I],
            (in_dec atom_dec (prop_key q) (prop_key p :: map prop_key props)) as [J|J]; auto.
          * destruct J. right. auto.
          * destruct J as [J|J]; [|tauto]. destruct NE. apply (nth_key_inj _ _ IX k j q0 q); auto. congruence.
    Qed.

    Lemma get_state_ok v : forall i s c, cache_ok si c -> st_wf s ->
      (i + length v = length N)%nat ->
      exists s', fst (get_state_from si (Z.of_nat i) v s c) = Ok s' /\ st_wf s' /\
        cache_ok si (snd (get_state_from si (Z.of_nat i) v s c)) /\
        forall a, mem s' a <-> mem s a \/
          exists j q, nth_error v j = Some true /\ nth_error N (i + j) = Some q /\ prop_key q = a.
    Proof.
      induction v as [|b v IH]; intros i s c OK W L; cbn [get_state_from length] in *.
      - exists s. do 3 (split; [auto|]). intros a. split; [auto|]. intros [M|(j & q & Nj & _)]; auto.
        destruct j; discriminate.
      - replace (Z.of_nat i + 1) with (Z.of_nat (S i)) by lia.
        assert (Shift : forall a, (exists j q, nth_error (b :: v) j = Some true /\ nth_error N (i + j) = Some q /\ prop_key q = a) <->
          (b = true /\ exists q, nth_error N i = Some q /\ prop_key q = a) \/
          (exists j q, nth_error v j = Some true /\ nth_error N (S i + j) = Some q /\ prop_key q = a)).
        { intros a. split.
          - intros ([|j] & q & Nj & Nq & K); cbn in Nj.
            + left. split; [congruence|]. exists q. rewrite Nat.add_0_r in Nq. auto.
            + right. exists j, q. rewrite Nat.add_succ_r in Nq. auto.
          - intros [(-> & q & Nq & K)|(j & q & Nj & Nq & K)].
            + exists 0%nat, q. rewrite Nat.add_0_r. auto.
            + exists (S j), q. rewrite Nat.add_succ_r. auto. }
        destruct b.
        + destruct (nth_error_some_lt N i) as (p & Np); [lia|].
          destruct (get_proposition_pure si (Z.of_nat i) c OK) as [E OK'].
          rewrite (lookup_prop_ok _ _ _ _ IX B _ _ Np) in E.
          destruct (get_proposition si (Z.of_nat i) c) as [r c1]. cbn in E, OK'. subst r.
          destruct (IH (S i) (snd (st_insert p s)) c1 OK' (insert_wf p s W)) as (s' & Es & Ws & OKs & M); [lia|].
          exists s'. do 3 (split; [auto|]). intros a. rewrite M, Shift, (insert_mem p s a W).
          split.
          * intros [[->|Ms]|R]; auto. right. left. split; auto. exists p. auto.
          * intros [Ms|[(_ & q & Nq & K)|R]]; auto. left. left. congruence.
        + destruct (IH (S i) s c OK W) as (s' & Es & Ws & OKs & M); [lia|].
          exists s'. do 3 (split; [auto|]). intros a. rewrite M, Shift.
          split; intros [Ms|R]; auto. destruct R as [[C _]|R]; [discriminate|auto].
    Qed.

    Lemma indexed_state_ok s c : st_wf s -> (forall p, st_contains s p = true -> ground_names objects decls p) ->
      cache_ok si c ->
      exists v, fst (get_indexed_state si s c) = Ok v /\ length v = length N /\
        cache_ok si (snd (get_indexed_state si s c)) /\
        forall j q, nth_error N j = Some q -> nth j v false = st_contains s q.
    Proof.
      intros W G OK. unfold get_indexed_state. rewrite (built_size _ _ _ _ IX B), Nat2Z.id. fold N.
      assert (GA : Forall (ground_names objects decls) (st_elements s)).
      { apply Forall_forall. intros p I. apply G. apply contains_mem; auto. apply in_map. auto. }
      destruct (set_bits_ok (st_elements s) (repeat false (length N)) c GA OK) as (v & E & L & OK' & Nv);
        [apply repeat_length|].
      exists v. repeat (split; [auto|]). intros j q Nq. rewrite (Nv j q Nq).
      assert (R : nth j (repeat false (length N)) false = false).
      { destruct (nth_in_or_default j (repeat false (length N)) false) as [I|I]; auto. eapply repeat_spec; eauto. }
      rewrite R. cbn [orb]. destruct (in_dec _ _ _) as [I|I]; symmetry.
      - apply contains_mem; auto.
      - apply contains_mem_false; auto.
    Qed.

    Lemma get_state_full v c : length v = length N -> cache_ok si c ->
      exists s, fst (get_state si v c) = Ok s /\ st_wf s /\ cache_ok si (snd (get_state si v c)) /\
        forall a, mem s a <-> exists j q, nth_error v j = Some true /\ nth_error N j = Some q /\ prop_key q = a.
    Proof.
      intros L OK. unfold get_state. rewrite (built_size _ _ _ _ IX B). fold N. rewrite L, Z.eqb_refl.
      destruct (get_state_ok v 0 st_empty c OK st_empty_wf) as (s & E & W & OK' & M); [auto|].
      exists s. do 3 (split; [auto|]). intros a. rewrite M. cbn [Nat.add].
      split; [|auto]. intros [C|]; auto. destruct (mem_empty _ C).
    Qed.
  End One.

  Lemma C37_state_lemma objects decls use si qs ops : indexable objects decls -> plain_names objects decls ->
    index_of objects decls use = Ok si -> Forall plain_query qs ->
    (forall p, st_contains (run ops) p = true -> ground_names objects decls p) ->
    exists v c s', get_indexed_state si (run ops) (caches_after si qs) = (Ok v, c) /\
      Z.of_nat (length v) = si_size si /\
      (forall i p, 0 <= i < si_size si -> fst (get_proposition si i c) = Ok p ->
         nth (Z.to_nat i) v false = st_contains (run ops) p) /\
      fst (get_state si v c) = Ok s' /\ st_eqb s' (run ops) = true.
  Proof.
    intros IX PN E PL G. pose proof (built_of _ _ _ _ IX E) as B.
    pose proof (caches_after_ok si qs PL) as OK. set (c0 := caches_after si qs) in *.
    pose proof (run_wf ops) as W. set (s := run ops) in *.
    destruct (indexed_state_ok _ _ _ _ IX PN B s c0 W G OK) as (v & Ev & Lv & OKv & Nv).
    destruct (get_indexed_state si s c0) as [r c] eqn:EQ. cbn in Ev, OKv. subst r.
    destruct (get_state_full _ _ _ _ IX B v c Lv OKv) as (s' & Es & Ws & _ & M).
    exists v, c, s'. split; auto. rewrite (built_size _ _ _ _ IX B). split; [rewrite Lv; auto|]. split; [|split; auto].
    - intros i p I Gp. rewrite (proj1 (get_proposition_pure si i c OKv)) in Gp.
      destruct (nth_In_error _ i I) as (q & Nq). pose proof (lookup_prop_ok _ _ _ _ IX B _ _ Nq) as Lq.
      rewrite Z2Nat.id in Lq by lia. assert (p = q) by congruence. subst q. apply Nv; auto.
    - apply st_eqb_spec; auto. intros a. rewrite M. split.
      + intros (j & q & Nj & Nq & <-). apply contains_mem; auto. rewrite <- (Nv j q Nq).
        apply nth_error_nth with (d := false) in Nj. auto.
      + intros Ma. destruct (mem_exists _ _ Ma) as (p & Ip & <-).
        destruct (G p) as (q & Gq & K); [apply contains_mem; auto|].
        destruct (In_nth_error _ _ (proj2 (numbering_In objects decls q) Gq)) as (j & Nj).
        exists j, q. repeat split; auto.
        assert (J : (j < length v)%nat) by (rewrite Lv; apply nth_error_Some; congruence).
        pose proof (Nv j q Nj) as Vj. rewrite (contains_key s q p K) in Vj.
        rewrite (proj2 (contains_mem s p W) Ma) in Vj.
        destruct (nth_error v j) as [b|] eqn:Nb; [|apply nth_error_None in Nb; lia].
        apply nth_error_nth with (d := false) in Nb. congruence.
  Qed.

  Lemma C37_vector_lemma objects decls use si qs v : indexable objects decls -> plain_names objects decls ->
    index_of objects decls use = Ok si -> Forall plain_query qs ->
    Z.of_nat (length v) = si_size si ->
    exists s c, get_state si v (caches_after si qs) = (Ok s, c) /\
      (forall p, st_contains s p = true <->
         exists i q, 0 <= i < si_size si /\ nth (Z.to_nat i) v false = true /\
           fst (get_proposition si i c) = Ok q /\ prop_key q = prop_key p) /\
      fst (get_indexed_state si s c) = Ok v.
  Proof.
    intros IX PN E PL LV. pose proof (built_of _ _ _ _ IX E) as B.
    pose proof (caches_after_ok si qs PL) as OK. set (c0 := caches_after si qs) in *.
    rewrite (built_size _ _ _ _ IX B) in *. apply Nat2Z.inj in LV.
    destruct (get_state_full _ _ _ _ IX B v c0 LV OK) as (s & Es & Ws & OKs & M).
    destruct (get_state si v c0) as [r c] eqn:EQ. cbn in Es, OKs. subst r.
    exists s, c. split; auto. split.
    - intros p. rewrite (contains_mem s p Ws), M. split.
      + intros (j & q & Nj & Nq & K). exists (Z.of_nat j), q. rewrite Nat2Z.id.
        assert (J : (j < length v)%nat) by (apply nth_error_Some; congruence).
        split; [lia|]. split; [apply nth_error_nth; auto|]. split; auto.
        rewrite (proj1 (get_proposition_pure si _ c OKs)). apply (lookup_prop_ok _ _ _ _ IX B _ _ Nq).
      + intros (i & q & I & Ni & Gq & K). exists (Z.to_nat i), q.
        rewrite (proj1 (get_proposition_pure si _ c OKs)) in Gq.
        destruct (nth_In_error _ i I) as (q' & Nq). pose proof (lookup_prop_ok _ _ _ _ IX B _ _ Nq) as Lq.
        rewrite Z2Nat.id in Lq by lia. assert (q' = q) by congruence. subst q'. repeat split; auto.
        rewrite <- Ni. apply nth_error_nth'. lia.
    - assert (G : forall p, st_contains s p = true -> ground_names objects decls p).
      { intros p C. apply contains_mem in C; auto. apply M in C. destruct C as (j & q & _ & Nq & K).
        exists q. split; auto. apply numbering_In. eapply nth_error_In; eauto. }
      destruct (indexed_state_ok _ _ _ _ IX PN B s c Ws G OKs) as (v' & Ev & Lv & _ & Nv).
      rewrite Ev. f_equal. apply nth_ext with (d := false) (d' := false); [congruence|].
      intros j J. rewrite Lv in J. destruct (nth_error_some_lt _ j J) as (q & Nq). rewrite (Nv j q Nq).
      apply eq_true_iff_eq. rewrite (contains_mem s q Ws), M. split.
      + intros (k & q' & Nk & Nq' & K). assert (k = j) by (apply (nth_key_inj _ _ IX k j q' q); auto).
        subst k. apply nth_error_nth; auto.
      + intros T. exists j, q. repeat split; auto. rewrite <- T. apply nth_error_nth'. lia.
  Qed.
End Round.
