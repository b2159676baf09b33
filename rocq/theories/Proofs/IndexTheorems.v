(** Theorems about the state index. *)
From Coq Require Import String Ascii List Bool ZArith Lia.
From Verif.Model Require Import Base Object Proposition State CombinationGenerator
  ParameterGenerator Text StateIndex.
From Verif.Spec Require Import CartesianSpec TypingSpec TextSpec EffectSpec SetSpec IndexSpec.
From Verif.Proofs Require Import CombinationFacts ParameterFacts HashSetFacts StateFacts StateHistory
  TextFacts IndexFacts.
Import ListNotations.
Local Open Scope list_scope.
Local Open Scope Z_scope.

(** ** Lookups without cache *)
Lemma pred_names `{SH : StdHash} objects decls preds : Forall2 (pred_ok objects) decls preds -> map pr_name preds = map fst decls.
Proof. induction 1 as [|d pr ds preds O F IH]; cbn; auto. rewrite (po_name _ _ _ O), IH. auto. Qed.

Lemma Forall2_nth {A C} (P : A -> C -> Prop) l l' k a : Forall2 P l l' -> nth_error l k = Some a ->
  exists c, nth_error l' k = Some c /\ P a c.
Proof.
  intros F. revert k. induction F as [|x y l l' H F IH]; intros [|k] N; try discriminate; cbn in *; eauto.
  injection N as ->. eauto.
Qed.

Section Lookup.
  Context `{SH : StdHash} (objects : list object) (decls : list (string * list object)).

  Definition built (use : bool) (si : state_index) : Prop :=
    exists preds, Forall2 (pred_ok objects) decls preds /\
      si = mkIndex false preds (cum_sum preds) (predicate_indices preds) use.

  Lemma index_of_ok use : indexable objects decls ->
    exists si, index_of objects decls use = Ok si /\ built use si.
  Proof.
    intros IX. destruct (get_predicates_ok objects decls (ix_types _ _ IX) (ix_params _ _ IX) (ix_counts _ _ IX))
      as (preds & E & F).
    exists (mkIndex false preds (cum_sum preds) (predicate_indices preds) use).
    split; [|exists preds; auto]. unfold index_of. rewrite E. cbn [bind].
    pose proof (ix_some _ _ IX). destruct F as [|d pr ds preds O F]; [congruence|].
    cbn [make_state_index]. rewrite (po_pddl _ _ _ O). reflexivity.
  Qed.

  Context (use : bool) (si : state_index) (IX : indexable objects decls) (B : built use si).

  Lemma built_size : si_size si = Z.of_nat (length (numbering objects decls)).
  Proof.
    destruct B as (preds & F & ->). unfold si_size, cum_sum. cbn [si_groups].
    rewrite (cum_last objects 0 decls preds F); [|lia|]; rewrite ?numbering_length; [lia|].
    apply (ix_total _ _ IX).
  Qed.

  Lemma count_small : Z.of_nat (length (numbering objects decls)) < 2 ^ 63.
  Proof. rewrite numbering_length. apply (ix_total _ _ IX). Qed.

  Lemma lookup_prop_ok j p : nth_error (numbering objects decls) j = Some p ->
    lookup_prop si (Z.of_nat j) = Ok p.
  Proof.
    intros N. pose proof count_small as CS. pose proof P64.
    assert (J : (j < length (numbering objects decls))%nat) by (apply nth_error_Some; congruence).
    pose proof (ix_total _ _ IX) as T. rewrite numbering_length in CS.
    destruct B as (preds & F & ->). unfold lookup_prop. cbn [si_groups si_preds].
    rewrite to_size_t_id by (rewrite <- numbering_length in *; lia).
    destruct (bisect objects 0 decls preds (Z.of_nat j) F) as (k & pr & d & st & N1 & N2 & O & N3 & I & LB & NT);
      [lia|lia|rewrite <- numbering_length; lia|].
    unfold cum_sum. rewrite LB. cbn [bind]. unfold index. rewrite N3. cbn [bind]. rewrite N1. cbn [bind].
    rewrite Z.sub_0_r, Nat2Z.id, N in NT.
    destruct (nth_error (tuples objects (snd d)) (Z.to_nat (Z.of_nat j - st))) as [c|] eqn:C; [|discriminate].
    pose proof (po_small _ _ _ O). assert (ST : 0 <= st).
    { pose proof (cum_ge objects 0 decls preds F ltac:(lia) ltac:(lia)) as GE.
      rewrite Forall_forall in GE. apply GE. eapply nth_error_In. exact N3. }
    rewrite to_size_t_id by lia. rewrite to_int_id by lia.
    replace (Z.of_nat j - st) with (Z.of_nat (Z.to_nat (Z.of_nat j - st))) by lia.
    rewrite (po_index _ _ _ O _ _ C). cbn [bind]. rewrite (po_name _ _ _ O). cbn in NT. congruence.
  Qed.

  Lemma lookup_prop_beyond i : si_size si <= i < 2 ^ 64 -> lookup_prop si i = UB.
  Proof.
    rewrite built_size. intros I. pose proof count_small as CS. pose proof P64.
    assert (G0 : 0 <= ground_count objects decls) by (rewrite <- numbering_length; lia).
    rewrite numbering_length in *. destruct B as (preds & F & ->).
    unfold lookup_prop. cbn [si_groups si_preds].
    assert (L : length (cum_sum preds) = S (length preds)) by apply cum_length.
    destruct (Z.eq_dec i (2 ^ 64 - 1)) as [->|NE].
    - replace (to_size_t (2 ^ 64 - 1 + 1)) with 0 by reflexivity.
      pose proof (cum_ge objects 0 decls preds F ltac:(lia) ltac:(lia)) as GE. fold (cum_sum preds) in GE.
      unfold lower_bound. assert (L0 : lower_pos (cum_sum preds) 0 = 0%nat).
      { destruct (cum_sum preds) as [|x l]; auto. inversion GE; subst. cbn [lower_pos].
        destruct (Z.ltb_spec x 0); [lia|auto]. }
      rewrite L0. destruct (forallb _ _); reflexivity.
    - rewrite to_size_t_id by lia. unfold cum_sum.
      rewrite (bisect_beyond objects 0 decls preds i F) by lia. cbn [bind]. unfold index.
      destruct (nth_error (cum_sum_from 0 preds) (length preds)); cbn [bind]; auto.
      rewrite (proj2 (nth_error_None preds (length preds))) by lia. reflexivity.
  Qed.

  Lemma lookup_index_ok p : right_arity decls p ->
    (exists j q, lookup_index si p = Ok (Z.of_nat j) /\
       nth_error (numbering objects decls) j = Some q /\ prop_key q = prop_key p) \/
    (~ ground_names objects decls p /\
     (lookup_index si p = Throw EOutOfRange \/ lookup_index si p = AssertFail)).
  Proof.
    intros (params & I & A). pose proof count_small as CS. pose proof P64.
    rewrite numbering_length in CS. destruct B as (preds & F & ->).
    pose proof (pred_names objects decls preds F) as PN.
    destruct (In_nth_error _ _ I) as (k & N2). destruct (Forall2_nth _ _ _ k _ F N2) as (pr & N1 & O).
    destruct (start_of objects 0 decls preds k pr _ F ltac:(lia) ltac:(lia) N1 N2)
      as (st & N3 & _ & S0 & S1 & NT). cbn [fst snd] in *.
    assert (U : um_find String.eqb (predicate_indices preds) (pname p) = Some k).
    { change (pname p) with (fst (pname p, params)). rewrite <- (po_name _ _ _ O).
      unfold predicate_indices. rewrite (indices_some preds) with (k := k); auto.
      rewrite PN. apply (ix_names _ _ IX). }
    unfold lookup_index. cbn [si_indices si_preds si_groups]. rewrite U.
    assert (X : index preds k = Ok pr) by (unfold index; rewrite N1; reflexivity).
    rewrite X. cbn [bind].
    destruct (po_find _ _ _ O (pargs p) A) as [(j & c & Fd & Nc & K)|(NI & Fd)]; cbn [snd] in *.
    - left. rewrite Fd. cbn [bind]. unfold index, cum_sum. rewrite N3. cbn [bind].
      assert (J : (j < length (tuples objects params))%nat) by (apply nth_error_Some; congruence).
      pose proof (po_small _ _ _ O) as SM. cbn [snd] in SM.
      exists (Z.to_nat st + j)%nat, (mkProp (pname p) c). split; [|split].
      + rewrite (to_size_t_id (Z.of_nat j)) by lia. rewrite to_size_t_id by lia. f_equal. lia.
      + rewrite Z.sub_0_r in NT. rewrite NT by auto. rewrite Nc. reflexivity.
      + unfold prop_key. cbn. congruence.
    - right. split.
      + intros (q & (ps & Iq & Wq) & K). unfold prop_key in K. injection K as K1 K2.
        assert (ps = params).
        { rewrite K1 in Iq. pose proof (ix_names _ _ IX) as ND. revert ND I Iq. clear.
          generalize decls. intros ds0. induction ds0 as [|d ds IH]; cbn; [tauto|]. intros ND. inversion ND as [|? ? N1 N2]; subst.
          intros [->|I] [E|J]; try congruence; auto; exfalso; apply N1.
          - change (fst (pname p, params)) with (fst (pname p, ps)). apply in_map. auto.
          - subst d. change (fst (pname p, ps)) with (fst (pname p, params)). apply in_map. auto. }
        subst ps. apply (NI (pargs q)); auto. apply tuples_well_typed; auto.
      + destruct Fd as [-> | ->]; cbn [bind]; auto.
  Qed.

  Lemma lookup_index_name p : ~ In (pname p) (map fst decls) -> lookup_index si p = Throw EOutOfRange.
  Proof.
    intros N. destruct B as (preds & F & ->). unfold lookup_index. cbn [si_indices].
    unfold predicate_indices. rewrite indices_none; auto. rewrite (pred_names objects decls preds F); auto.
  Qed.

  Lemma ground_arity p : ground_names objects decls p -> right_arity decls p.
  Proof.
    intros (q & (ps & I & W) & K). unfold prop_key in K. injection K as K1 K2.
    exists ps. rewrite <- K1. split; auto. apply (f_equal (@length _)) in K2. rewrite !map_length in K2.
    rewrite <- K2. unfold well_typed in W. clear -W. induction W; cbn; auto.
  Qed.

  Lemma nth_key_inj i j p q : nth_error (numbering objects decls) i = Some p ->
    nth_error (numbering objects decls) j = Some q -> prop_key p = prop_key q -> i = j.
  Proof.
    intros Ni Nj K. pose proof (numbering_keys objects decls (ix_objects _ _ IX) (ix_names _ _ IX)) as ND.
    rewrite NoDup_nth_error in ND. apply ND.
    - rewrite map_length. apply nth_error_Some. congruence.
    - rewrite !nth_error_map, Ni, Nj. cbn. congruence.
  Qed.

  Lemma lookup_index_at j p q : nth_error (numbering objects decls) j = Some q -> prop_key q = prop_key p ->
    lookup_index si p = Ok (Z.of_nat j).
  Proof.
    intros N K. assert (GN : ground_names objects decls p).
    { exists q. split; auto. apply numbering_In. eapply nth_error_In; eauto. }
    destruct (lookup_index_ok p (ground_arity p GN)) as [(j' & q' & E & N' & K')|(NG & _)]; [|tauto].
    rewrite E. f_equal. f_equal. apply (nth_key_inj j' j q' q); congruence.
  Qed.
End Lookup.

(** ** The caches *)
Section Caches.
  Context `{SH : StdHash}.

  Lemma find_index_key (o : list object) x y : oname x = oname y ->
    find_index obj_eqb o x = find_index obj_eqb o y.
  Proof.
    intros E. induction o as [|z o IH]; cbn; auto.
    assert (Q : obj_eqb z x = obj_eqb z y).
    { apply eq_true_iff_eq. rewrite (obj_eqb_ok z x), (obj_eqb_ok z y), E. tauto. }
    rewrite Q, IH. reflexivity.
  Qed.

  Lemma find_loop_key opts : forall groups a b i, map oname a = map oname b ->
    find_loop obj_eqb opts groups a i = find_loop obj_eqb opts groups b i.
  Proof.
    induction opts as [|o opts IH]; intros groups [|x a] [|y b] i E; try discriminate; auto.
    cbn [map] in E. injection E as E1 E2. cbn [find_loop]. destruct groups as [|g gs]; auto.
    rewrite (find_index_key o x y E1). destruct (find_index obj_eqb o y); auto.
  Qed.

  Lemma lookup_index_key si p q : prop_key p = prop_key q -> lookup_index si p = lookup_index si q.
  Proof.
    unfold prop_key. intros E. injection E as E1 E2. unfold lookup_index. rewrite E1.
    destruct (um_find _ _ _); auto. destruct (index _ _); auto. cbn [bind].
    unfold gen_find. rewrite (find_loop_key _ _ (pargs p) (pargs q) _ E2).
    assert (L : length (pargs p) = length (pargs q)).
    { apply (f_equal (@length _)) in E2. rewrite !map_length in E2. auto. }
    rewrite L. reflexivity.
  Qed.

  Definition cache_ok (si : state_index) (c : caches) : Prop :=
    (forall i p, um_find Z.eqb (ca_props c) i = Some p -> lookup_prop si i = Ok p) /\
    (forall p i, plain p -> um_find String.eqb (ca_idxs c) (prop_to_string p) = Some i ->
       lookup_index si p = Ok i).

  Lemma no_caches_ok si : cache_ok si no_caches.
  Proof. split; intros; discriminate. Qed.

  Lemma get_proposition_pure si i c : cache_ok si c ->
    fst (get_proposition si i c) = lookup_prop si i /\ cache_ok si (snd (get_proposition si i c)).
  Proof.
    intros OK. unfold get_proposition. destruct (si_use_cache si).
    - destruct (um_find Z.eqb (ca_props c) i) as [p|] eqn:U.
      + cbn. split; auto. symmetry. apply OK; auto.
      + destruct (lookup_prop si i) as [p| | | |] eqn:L; cbn; auto. split; auto.
        split; [|apply OK]. cbn [ca_props]. intros j q. cbn.
        destruct (Z.eqb_spec i j) as [->|]; [congruence|apply OK].
    - destruct (lookup_prop si i) as [p| | | |] eqn:L; cbn; auto.
  Qed.

  Lemma get_index_pure si p c : plain p -> cache_ok si c ->
    fst (get_proposition_index si p c) = lookup_index si p /\
    cache_ok si (snd (get_proposition_index si p c)).
  Proof.
    intros PL OK. unfold get_proposition_index. destruct (si_use_cache si).
    - destruct (um_find String.eqb (ca_idxs c) (prop_to_string p)) as [j|] eqn:U.
      + cbn. split; auto. symmetry. apply OK; auto.
      + destruct (lookup_index si p) as [j| | | |] eqn:L; cbn; auto. split; auto.
        split; [apply OK|]. cbn [ca_idxs]. intros q k PQ. cbn.
        destruct (String.eqb_spec (prop_to_string p) (prop_to_string q)) as [E|]; [|apply OK; auto].
        intros Q. injection Q as <-. rewrite <- L. apply lookup_index_key.
        destruct PL as [P1 P2], PQ as [Q1 Q2]. symmetry in E.
        destruct (print_inj _ _ _ _ Q1 P1 Q2 P2 E) as [E1 E2]. unfold prop_key. congruence.
    - destruct (lookup_index si p) as [j| | | |] eqn:L; cbn; auto.
  Qed.

  (** The same index without caching. *)
  Definition uncached (si : state_index) : state_index :=
    mkIndex (si_has_pddl si) (si_preds si) (si_groups si) (si_indices si) false.

  Lemma uncached_prop si i c : get_proposition (uncached si) i c = (lookup_prop si i, c).
  Proof.
    unfold get_proposition. cbn [uncached si_use_cache]. change (lookup_prop (uncached si) i) with (lookup_prop si i).
    destruct (lookup_prop si i); reflexivity.
  Qed.
  Lemma uncached_index si p c : get_proposition_index (uncached si) p c = (lookup_index si p, c).
  Proof.
    unfold get_proposition_index. cbn [uncached si_use_cache].
    change (lookup_index (uncached si) p) with (lookup_index si p).
    destruct (lookup_index si p); reflexivity.
  Qed.

  Lemma get_state_pure si v : forall i s c c', cache_ok si c ->
    fst (get_state_from si i v s c) = fst (get_state_from (uncached si) i v s c') /\
    cache_ok si (snd (get_state_from si i v s c)).
  Proof.
    induction v as [|b v IH]; intros i s c c' OK; cbn [get_state_from]; auto.
    destruct b; auto. destruct (get_proposition_pure si i c OK) as [E OK'].
    rewrite uncached_prop. destruct (get_proposition si i c) as [r c1]. cbn in E, OK'. subst r.
    destruct (lookup_prop si i); cbn; auto.
  Qed.

  Lemma set_bits_pure si props : forall v c c', Forall plain props -> cache_ok si c ->
    fst (set_bits si props v c) = fst (set_bits (uncached si) props v c') /\
    cache_ok si (snd (set_bits si props v c)).
  Proof.
    induction props as [|p props IH]; intros v c c' PL OK; cbn [set_bits]; auto.
    inversion PL; subst. destruct (get_index_pure si p c) as [E OK']; auto.
    rewrite uncached_index. destruct (get_proposition_index si p c) as [r c1]. cbn in E, OK'. subst r.
    destruct (lookup_index si p); cbn; auto. destruct (_ <? _); auto.
  Qed.

  Lemma iterate_pure si fuel : forall i stop c c', cache_ok si c ->
    fst (iterate_from fuel si i stop c) = fst (iterate_from fuel (uncached si) i stop c') /\
    cache_ok si (snd (iterate_from fuel si i stop c)).
  Proof.
    induction fuel as [|fuel IH]; intros i stop c c' OK; cbn [iterate_from];
      destruct (i =? stop); auto.
    destruct (get_proposition_pure si (to_size_t i) c OK) as [E OK'].
    rewrite uncached_prop. destruct (get_proposition si (to_size_t i) c) as [r c1]. cbn in E, OK'. subst r.
    destruct (lookup_prop si (to_size_t i)) as [p| | | |]; cbn; auto.
    destruct (IH (to_int (i + 1)) stop c1 c' OK') as [E OK2].
    destruct (iterate_from fuel si _ stop c1) as [r c2].
    destruct (iterate_from fuel (uncached si) _ stop c') as [r' c3]. cbn in E, OK2. subst r'.
    destruct r; cbn; auto.
  Qed.

  Lemma ask_pure si q c c' : plain_query q -> cache_ok si c ->
    fst (ask si q c) = fst (ask (uncached si) q c') /\ cache_ok si (snd (ask si q c)).
  Proof.
    intros PL OK. destruct q as [i|p|v|s|n]; cbn [ask plain_query] in *.
    - destruct (get_proposition_pure si i c OK) as [E OK']. rewrite uncached_prop.
      destruct (get_proposition si i c). cbn in *. subst. auto.
    - destruct (get_index_pure si p c PL OK) as [E OK']. rewrite uncached_index.
      destruct (get_proposition_index si p c). cbn in *. subst. auto.
    - unfold get_state. change (si_size (uncached si)) with (si_size si).
      destruct (_ =? _); cbn; auto.
      destruct (get_state_pure si v 0 st_empty c c' OK) as [E OK'].
      destruct (get_state_from si 0 v st_empty c), (get_state_from (uncached si) 0 v st_empty c').
      cbn in *. subst. auto.
    - unfold get_indexed_state. change (si_size (uncached si)) with (si_size si).
      destruct (set_bits_pure si (st_elements s) (repeat false (Z.to_nat (si_size si))) c c' PL OK) as [E OK'].
      destruct (set_bits si _ _ c), (set_bits (uncached si) _ _ c'). cbn in *. subst. auto.
    - unfold iterate. change (si_size (uncached si)) with (si_size si).
      destruct (iterate_pure si n 0 (to_int (si_size si)) c c' OK) as [E OK'].
      destruct (iterate_from n si _ _ c), (iterate_from n (uncached si) _ _ c'). cbn in *. subst. auto.
  Qed.

  Lemma ask_all_pure si qs : forall c c', Forall plain_query qs -> cache_ok si c ->
    fst (ask_all si qs c) = fst (ask_all (uncached si) qs c') /\ cache_ok si (snd (ask_all si qs c)).
  Proof.
    induction qs as [|q qs IH]; intros c c' PL OK; cbn [ask_all]; auto. inversion PL; subst.
    destruct (ask_pure si q c c') as [E OK']; auto.
    destruct (ask si q c) as [a c1], (ask (uncached si) q c') as [a' c1']. cbn in E, OK'. subst a'.
    destruct (IH c1 c1') as [E2 OK2]; auto.
    destruct (ask_all si qs c1), (ask_all (uncached si) qs c1'). cbn in *. subst. auto.
  Qed.

  Lemma caches_after_ok si qs : Forall plain_query qs -> cache_ok si (caches_after si qs).
  Proof. intros PL. apply (ask_all_pure si qs no_caches no_caches); auto using no_caches_ok. Qed.

  Lemma index_of_uncached objects decls si si' :
    index_of objects decls true = Ok si -> index_of objects decls false = Ok si' -> si' = uncached si.
  Proof.
    unfold index_of. destruct (get_predicates _ _) as [preds| | | |]; cbn [bind]; try discriminate.
    unfold make_state_index. destruct preds; [discriminate|]. intros E E'.
    injection E as <-. injection E' as <-. reflexivity.
  Qed.

  Lemma C38_lemma objects decls si si' qs :
    index_of objects decls true = Ok si -> index_of objects decls false = Ok si' ->
    Forall plain_query qs -> answers si qs = answers si' qs.
  Proof.
    intros E E' PL. rewrite (index_of_uncached _ _ _ _ E E').
    apply (ask_all_pure si qs no_caches no_caches); auto using no_caches_ok.
  Qed.
End Caches.
