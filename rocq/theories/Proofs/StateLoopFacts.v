(** Loops that change the State they run over. *)
From Coq Require Import String List NArith Bool Arith Lia Permutation Sorted.
From Verif.Model Require Import Base Order Object Proposition HashSet State StateLoop.
From Verif.Spec Require Import SetSpec.
From Verif.Proofs Require Import OrderFacts HashSetFacts StateFacts StateHistory.
Import ListNotations.

Section WithHash.
  Context `{SH : StdHash}.

  Definition points (s : state) (p : pos) (x : prop) : Prop :=
    exists b, nth_error (buckets s) (fst p) = Some b /\ nth_error b (snd p) = Some x.

  Lemma deref_ok s p x : points s p x <-> hs_deref s p = Ok x.
  Proof.
    unfold points, hs_deref, index. destruct p as [i j]. cbn [fst snd]. split.
    - intros (b & -> & E). cbn [bind]. rewrite E. auto.
    - destruct (nth_error (buckets s) i) as [b|]; cbn [bind]; [|discriminate].
      destruct (nth_error b j) as [y|] eqn:E; [|discriminate]. intros [= <-]. eauto.
  Qed.
  Lemma deref_cases s p : (exists x, points s p x /\ hs_deref s p = Ok x) \/ hs_deref s p = UB.
  Proof.
    destruct (hs_deref s p) as [x| | | |] eqn:E; auto; [left; exists x; split; auto; apply deref_ok; auto|..];
      exfalso; revert E; unfold hs_deref, index; destruct p as [i j];
      (destruct (nth_error (buckets s) i) as [b|]; cbn [bind]; [destruct (nth_error b j)|]; discriminate).
  Qed.
  Lemma points_In s p x : points s p x -> In x (st_elements s).
  Proof.
    intros (b & E1 & E2). unfold st_elements, hs_elements. apply in_concat. exists b.
    split; eapply nth_error_In; eauto.
  Qed.

  (** Erasing what an iterator points to. *)
  Lemma erase_at s i j b x : st_wf s -> nth_error (buckets s) i = Some b -> nth_error b j = Some x ->
    exists s', st_erase x s = (true, s') /\ st_wf s' /\ st_size s = S (st_size s') /\
      (if st_size s' <=? lower_limit (buckets s) then length (buckets s') = lower_limit (buckets s)
       else buckets s' = set_nth i (firstn j b ++ skipn (S j) b) (buckets s)).
  Proof.
    intros W Ei Ej. pose proof (erase_wf x s W) as W'.
    destruct W as [Wb Z C].
    assert (P : bucket_index prop_hash (buckets s) x = i).
    { eapply (bw_placed _ _ _ Wb); [exact Ei|eapply nth_error_In; eauto]. }
    assert (Sb : StronglySorted (fun x y => prop_ltb x y = true) b).
    { pose proof (bw_sorted _ _ _ Wb) as F. rewrite Forall_forall in F. apply F. eapply nth_error_In; eauto. }
    assert (U : uv_erase prop_eqb prop_ltb x b = (true, firstn j b ++ skipn (S j) b)).
    { unfold uv_erase. destruct (uv_find prop_key atom_dec _ _ prop_ltb_ok prop_eqb_ok x b Sb)
        as [(l & r & _ & _ & _ & _ & NI & _)|(l & y & r & Eb & LB & Ky & _)].
      - exfalso. apply NI. apply in_map. eapply nth_error_In; eauto.
      - rewrite LB. assert (Q : length l = j).
        { pose proof (sorted_nodup prop_key _ prop_ltb_ok b Sb) as ND. rewrite NoDup_nth_error in ND. apply ND.
          - rewrite Eb, map_length, app_length. cbn. lia.
          - rewrite !nth_error_map, Ej. replace (nth_error b (length l)) with (Some y); [cbn; congruence|].
            rewrite Eb, nth_error_app2, Nat.sub_diag by lia. auto. }
        rewrite Q. rewrite Ej. assert (K : prop_eqb x x = true) by (apply (prop_eqb_ok x x); auto). rewrite K. auto. }
    unfold st_erase, hs_erase in *. rewrite P in *. rewrite (nth_error_nth _ _ _ Ei) in *. rewrite U in *. cbn [fst snd] in *.
    eexists. split; [reflexivity|]. split; [exact W'|].
    assert (H1 : 1 <= hsize s).
    { rewrite Z. assert (I : In x (hs_elements s)) by (apply (points_In s (i, j)); exists b; auto).
      destruct (hs_elements s); [destruct I|cbn; lia]. }
    unfold st_size. cbn [hsize buckets]. split; [lia|].
    assert (LL : lower_limit (set_nth i (firstn j b ++ skipn (S j) b) (buckets s)) = lower_limit (buckets s)).
    { unfold lower_limit. rewrite set_nth_length. auto. }
    rewrite LL in *. destruct (hsize s - 1 <=? lower_limit (buckets s)) eqn:G; auto.
    destruct (rehash_spec prop_key atom_dec _ _ _ prop_ltb_ok prop_eqb_ok prop_hash_key (lower_limit (buckets s))
      (set_nth i (firstn j b ++ skipn (S j) b) (buckets s))) as (_ & L & _); auto; [|unfold lower_limit; lia].
    rewrite <- P. apply (bs_set prop_key); auto; try exact prop_hash_key.
    - pose proof (uv_erase_spec prop_key atom_dec _ _ prop_ltb_ok prop_eqb_ok x b Sb) as [[_ Q]|(y & w & _ & Q & Sw & _)];
        rewrite U in Q; [discriminate|]. assert (Ew : w = firstn j b ++ skipn (S j) b) by congruence. rewrite <- Ew. exact Sw.
    - intros y I. right. rewrite P, (nth_error_nth _ _ _ Ei). apply in_app_iff in I. destruct I as [I|I].
      + rewrite <- (firstn_skipn j b). apply in_app_iff. auto.
      + rewrite <- (firstn_skipn (S j) b). apply in_app_iff. auto.
  Qed.

  Lemma limit_le (bs : list (list prop)) : 1 <= length bs -> lower_limit bs <= length bs.
  Proof.
    intros H. unfold lower_limit. pose proof (Nat.div_le_upper_bound (length bs - 1) 2 (length bs)). lia.
  Qed.

  Lemma next_fst (s : state) i j N : i < N -> length (buckets s) < N -> fst (hs_next s (i, j)) < N.
  Proof.
    intros Hi H. unfold hs_next.
    assert (K : forall (rest : list (list prop)) ib ii, fst (find_next rest ib ii) <= ib + length rest).
    { induction rest as [|b rest IH]; intros ib ii; cbn; [lia|]. destruct (length b <=? ii); cbn; [|lia].
      specialize (IH (S ib) 0). lia. }
    specialize (K (skipn i (buckets s)) i (S j)). rewrite skipn_length in K. lia.
  Qed.

  Lemma pos_neq p q : fst p <> fst q -> pos_eqb p q = false.
  Proof. intros H. unfold pos_eqb. apply Nat.eqb_neq in H. rewrite H. auto. Qed.

  (** Once the number of buckets has changed, end() is never met. *)
  Lemma shrunk n : forall fuel s p N, st_wf s -> st_size s = n -> length (buckets s) < N -> fst p < N -> n < fuel ->
    erase_loop fuel (N, 0) s p = UB.
  Proof.
    induction n as [|n IH]; intros [|fuel] s p N W Z L Hp F; try lia; cbn [erase_loop];
      rewrite pos_neq by (cbn; lia); destruct (deref_cases s p) as [(x & P & ->)| ->]; cbn [bind]; auto.
    - exfalso. apply points_In in P. rewrite (st_size_elements s W) in Z. destruct (st_elements s); [destruct P|discriminate].
    - destruct p as [i j]. destruct P as (b & Ei & Ej). cbn [fst snd] in *.
      destruct (erase_at s i j b x W Ei Ej) as (s' & -> & W' & Z' & B). cbn [snd].
      assert (L' : length (buckets s') <= length (buckets s)).
      { destruct (st_size s' <=? lower_limit (buckets s)); rewrite B; [apply limit_le|rewrite set_nth_length; lia].
        pose proof (bw_pos _ _ _ (hw_bs _ _ _ W)). lia. }
      apply IH; auto; try lia. apply next_fst; lia.
  Qed.

  Lemma next_remaining (s : state) i j b : nth_error (buckets s) i = Some b ->
    remaining (buckets s) (hs_next s (i, j)) = skipn (S j) b ++ concat (skipn (S i) (buckets s)) /\
    (hs_next s (i, j) = hs_end s \/ exists x, points s (hs_next s (i, j)) x).
  Proof.
    intros Ei. assert (Lf : length (firstn i (buckets s)) = i).
    { apply firstn_length_le, Nat.lt_le_incl, nth_error_Some. congruence. }
    pose proof (find_next_remaining (skipn i (buckets s)) i (S j) (firstn i (buckets s)) Lf) as FN.
    cbv zeta in FN. rewrite firstn_skipn in FN.
    assert (Sk : skipn i (buckets s) = b :: skipn (S i) (buckets s)).
    { clear -Ei. revert i Ei. induction (buckets s) as [|c l IHl]; intros [|i] H; cbn in *; try congruence. apply IHl; auto. }
    unfold hs_next, hs_end. destruct FN as [R V]. rewrite R. split; [rewrite Sk; auto|].
    destruct V as [->|(c & x & E1 & E2)]; auto. right. exists x. exists c. auto.
  Qed.

  Lemma skipn_erased {A} j : forall (b : list A), skipn (S j) (firstn j b ++ skipn (S j) b) = skipn (S (S j)) b.
  Proof.
    induction j as [|j IH]; intros [|x b]; auto; try (destruct b; auto; fail). cbn [firstn skipn app]. apply IH.
  Qed.
  Lemma skipn_set {A} i (a : A) : forall l, skipn (S i) (set_nth i a l) = skipn (S i) l.
  Proof. induction i as [|i IH]; intros [|x l]; auto. cbn [set_nth skipn]. apply IH. Qed.

  (** Before: every erased element makes the loop skip at most one. *)
  Lemma unshrunk n : forall fuel s p, st_wf s -> st_size s = n -> 3 <= length (buckets s) ->
    (p = hs_end s \/ exists x, points s p x) ->
    2 * n <= length (buckets s) + length (remaining (buckets s) p) -> n < fuel ->
    erase_loop fuel (hs_end s) s p = UB.
  Proof.
    induction n as [n IH] using lt_wf_ind. intros [|fuel] s p W Z N3 V I F; [lia|].
    destruct V as [->|(x & P)].
    - exfalso. unfold remaining, hs_end in I. cbn [fst] in I. rewrite skipn_all in I. cbn [length] in I.
      destruct (hw_canon _ _ _ W) as ((k & Hk) & Ln & [D|D]); [lia|]. unfold st_size in *.
      assert (Q : length (buckets s) - 1 = 2 * ((length (buckets s) - 1) / 2)).
      { rewrite Nat.pow_succ_r' in Hk. replace (length (buckets s) - 1) with ((2 ^ k - 1) * 2) by lia.
        rewrite Nat.div_mul; lia. }
      lia.
    - destruct p as [i j]. pose proof P as (b & Ei & Ej). cbn [fst snd] in *. cbn [erase_loop].
      assert (Hi : i < length (buckets s)) by (apply nth_error_Some; congruence).
      rewrite pos_neq by (cbn; lia). rewrite (proj1 (deref_ok s (i, j) x) P). cbn [bind].
      destruct (erase_at s i j b x W Ei Ej) as (s' & -> & W' & Z' & B). cbn [snd].
      destruct (st_size s' <=? lower_limit (buckets s)) eqn:G.
      + assert (LL : lower_limit (buckets s) < length (buckets s)).
        { unfold lower_limit. pose proof (Nat.div_lt_upper_bound (length (buckets s) - 1) 2 (length (buckets s))). lia. }
        unfold hs_end. eapply shrunk; [exact W'|reflexivity|lia| |lia]. apply next_fst; lia.
      + assert (L' : length (buckets s') = length (buckets s)) by (rewrite B; apply set_nth_length).
        assert (Ei' : nth_error (buckets s') i = Some (firstn j b ++ skipn (S j) b)) by (rewrite B; apply nth_error_set_nth_eq; auto).
        destruct (next_remaining s' i j _ Ei') as [R V].
        replace (hs_end s) with (hs_end s') by (unfold hs_end; rewrite L'; auto).
        apply (IH (st_size s')); auto; try lia. rewrite L', R, skipn_erased, B, skipn_set, app_length, skipn_length.
        assert (Rp : remaining (buckets s) (i, j) = skipn j b ++ concat (skipn (S i) (buckets s))).
        { unfold remaining. cbn [fst snd].
          replace (skipn i (buckets s)) with (b :: skipn (S i) (buckets s)); auto.
          clear -Ei. revert i Ei. induction (buckets s) as [|c l IHl]; intros [|i] H; cbn in *; try congruence. rewrite <- IHl; auto. }
        rewrite Rp, app_length, skipn_length in I. lia.
  Qed.

  Lemma begin_remaining (s : state) : remaining (buckets s) (hs_begin s) = st_elements s /\
    (hs_begin s = hs_end s \/ exists x, points s (hs_begin s) x).
  Proof.
    pose proof (find_next_remaining (buckets s) 0 0 [] eq_refl) as FN. cbv zeta in FN. cbn [app] in FN.
    destruct FN as [R V]. unfold hs_begin, hs_end. rewrite R. split.
    - unfold st_elements, hs_elements. destruct (buckets s); auto.
    - destruct V as [->|(c & x & E1 & E2)]; auto. right. exists x, c. auto.
  Qed.

  Lemma three_buckets s : st_wf s -> 2 <= st_size s -> 3 <= length (buckets s).
  Proof.
    intros W H. destruct (hw_canon _ _ _ W) as ((k & Hk) & Ln & _). unfold st_size in H.
    rewrite Nat.pow_succ_r' in Hk. lia.
  Qed.

  Lemma C84_erase_lemma ops fuel : 2 <= st_size (run ops) -> st_size (run ops) < fuel ->
    erase_loop fuel (hs_end (run ops)) (run ops) (hs_begin (run ops)) = UB.
  Proof.
    intros H F. pose proof (run_wf ops) as W. destruct (begin_remaining (run ops)) as [R V].
    eapply unshrunk; eauto.
    - apply three_buckets; auto.
    - rewrite R, <- st_size_elements by auto. destruct (hw_canon _ _ _ W) as (_ & Ln & _). unfold st_size in *. lia.
  Qed.

  Lemma begin_element s : st_wf s -> st_size s <> 0 -> exists x, points s (hs_begin s) x.
  Proof.
    intros W H. destruct (begin_remaining s) as [R [V|V]]; auto. exfalso. apply H.
    rewrite (st_size_elements s W), <- R, V. unfold remaining, hs_end. cbn [fst]. rewrite skipn_all. auto.
  Qed.

  Lemma one_bucket s : st_wf s -> st_size s <= 1 -> length (buckets s) = 1.
  Proof.
    intros W H. destruct (hw_canon _ _ _ W) as ((k & Hk) & Ln & [D|D]); auto. unfold st_size in *. rewrite Nat.pow_succ_r' in Hk.
    destruct (Nat.eq_dec k 0) as [->|Nk]; [cbn in Hk; lia|].
    assert (Q : 2 ^ 1 <= 2 ^ k) by (apply Nat.pow_le_mono_r; lia). cbn [Nat.pow Nat.mul Nat.add] in Q.
    pose proof (Nat.div_le_lower_bound (length (buckets s) - 1) 2 1). lia.
  Qed.

  Lemma next_not_zero (s : state) p : 1 <= length (buckets s) -> hs_next s p <> (0, 0).
  Proof.
    intros L. destruct p as [i j]. unfold hs_next.
    assert (K : forall (rest : list (list prop)) ib ii, 0 < ib + ii -> rest <> [] -> find_next rest ib ii <> (0, 0)).
    { induction rest as [|b rest IH]; intros ib ii H N; [congruence|]. cbn [find_next]. destruct (length b <=? ii).
      - destruct rest as [|c rest]; [cbn; congruence|]. apply IH; [lia|congruence].
      - intros Q. injection Q as -> ->. lia. }
    destruct (skipn i (buckets s)) as [|b rest] eqn:E; [|apply K; [lia|congruence]]. cbn. intros Q. injection Q as ->.
    cbn in E. rewrite E in L. cbn in L. lia.
  Qed.

  Lemma C84_small_lemma ops fuel : st_size (run ops) <= 1 -> st_size (run ops) < fuel ->
    exists s, erase_loop fuel (hs_end (run ops)) (run ops) (hs_begin (run ops)) = Ok s /\ st_size s = 0.
  Proof.
    intros H F. pose proof (run_wf ops) as W. generalize dependent (run ops). intros s H F W.
    destruct fuel as [|fuel]; [lia|]. cbn [erase_loop].
    destruct (Nat.eq_dec (st_size s) 0) as [Z|Z].
    - destruct (begin_remaining s) as [_ [V|(x & P)]].
      + rewrite V. unfold pos_eqb. rewrite !Nat.eqb_refl. cbn [andb]. eauto.
      + apply points_In in P. rewrite (st_size_elements s W) in Z. destruct (st_elements s); [destruct P|discriminate].
    - assert (N1 : length (buckets s) = 1) by (apply one_bucket; auto).
      destruct (begin_element s W Z) as (x & P). rewrite (proj1 (deref_ok _ _ _) P). cbn [bind].
      destruct (hs_begin s) as [i j]. destruct P as (b & Ei & Ej). cbn [fst snd] in *.
      assert (Hi : i = 0) by (assert (i < length (buckets s)) by (apply nth_error_Some; congruence); lia). subst i.
      rewrite pos_neq by (unfold hs_end; cbn; lia).
      destruct (erase_at s _ _ b x W Ei Ej) as (s' & -> & W' & Z' & B). cbn [snd].
      assert (LL : lower_limit (buckets s) = 1) by (unfold lower_limit; rewrite N1; auto).
      assert (Z0 : st_size s' = 0) by lia. rewrite Z0, LL in B. cbn in B. exists s'. split; auto.
      assert (Q : buckets s' = [[]]).
      { rewrite (st_size_elements s' W') in Z0. unfold st_elements, hs_elements in Z0.
        destruct (buckets s') as [|c [|d l]]; cbn in *; try discriminate. destruct c; cbn in *; auto; discriminate. }
      unfold hs_next, hs_end. rewrite Q, N1. cbn. destruct fuel; cbn; auto.
  Qed.

  Lemma end_loop fuel : forall s p, st_wf s -> 1 <= st_size s -> (st_size s = 1 -> p <> (0, 0)) -> st_size s < fuel ->
    erase_loop_end fuel s p = UB \/ exists s', erase_loop_end fuel s p = Ok s' /\ 1 <= st_size s'.
  Proof.
    induction fuel as [|fuel IH]; intros s p W H Np F; [lia|]. cbn [erase_loop_end].
    destruct (pos_eqb p (hs_end s)); [eauto|]. destruct (deref_cases s p) as [(x & P & ->)| ->]; cbn [bind]; auto.
    destruct p as [i j]. destruct P as (b & Ei & Ej). cbn [fst snd] in *.
    destruct (erase_at s i j b x W Ei Ej) as (s' & -> & W' & Z' & _). cbn [snd].
    destruct (Nat.eq_dec (st_size s) 1) as [Z|Z].
    - exfalso. apply (Np Z). pose proof (one_bucket s W ltac:(lia)) as N1.
      rewrite (st_size_elements s W) in Z. unfold st_elements, hs_elements in Z.
      destruct (buckets s) as [|c [|d l]]; try discriminate. cbn in Z. rewrite app_nil_r in Z.
      destruct i as [|[|i]]; try discriminate. injection Ei as ->.
      assert (Hj : j < length b) by (apply nth_error_Some; congruence). f_equal. lia.
    - apply IH; auto; try lia. intros _. apply next_not_zero. pose proof (bw_pos _ _ _ (hw_bs _ _ _ W')). lia.
  Qed.

  Lemma C84_end_lemma ops fuel : 2 <= st_size (run ops) -> st_size (run ops) < fuel ->
    erase_loop_end fuel (run ops) (hs_begin (run ops)) = UB \/
    exists s, erase_loop_end fuel (run ops) (hs_begin (run ops)) = Ok s /\ 1 <= st_size s.
  Proof. intros H F. apply end_loop; auto; try lia. apply run_wf. Qed.

  Lemma drain n : forall fuel s, st_wf s -> st_size s = n -> n <= fuel ->
    exists s', drain_loop fuel s = Ok s' /\ st_wf s' /\ st_size s' = 0.
  Proof.
    induction n as [|n IH]; intros fuel s W Z F.
    - exists s. destruct fuel; cbn [drain_loop]; unfold st_is_empty; rewrite Z; auto.
    - destruct fuel as [|fuel]; [lia|]. cbn [drain_loop]. unfold st_is_empty. rewrite Z. cbn [Nat.eqb].
      destruct (begin_element s W) as (x & P); [lia|]. rewrite (proj1 (deref_ok _ _ _) P). cbn [bind].
      destruct P as (b & Ei & Ej). destruct (erase_at s _ _ b x W Ei Ej) as (s' & -> & W' & Z' & _). cbn [snd].
      apply IH; auto; lia.
  Qed.

  Lemma C84_drain_lemma ops fuel : st_size (run ops) <= fuel ->
    exists s, drain_loop fuel (run ops) = Ok s /\ st_size s = 0 /\ forall p, st_contains s p = false.
  Proof.
    intros F. destruct (drain _ fuel (run ops) (run_wf ops) eq_refl F) as (s & E & W & Z). exists s. split; auto. split; auto.
    intros p. apply (contains_mem_false s p W). unfold mem. rewrite (st_size_elements s W) in Z.
    destruct (st_elements s); [tauto|discriminate].
  Qed.

  Lemma C84_copy_lemma ops fuel : st_size (run ops) <= fuel ->
    exists s, erase_copy fuel (run ops) = Ok s /\ st_size s = 0 /\ forall p, st_contains s p = false.
  Proof.
    intros F. pose proof (run_wf ops) as W. unfold erase_copy.
    rewrite traverse_elements by (rewrite (st_size_elements _ W) in F; exact F). cbn [bind].
    assert (K : forall l s, st_wf s -> st_wf (fold_left (fun s x => snd (st_erase x s)) l s) /\
      forall a, mem (fold_left (fun s x => snd (st_erase x s)) l s) a -> mem s a /\ ~ In a (map prop_key l)).
    { induction l as [|x l IH]; intros s Ws; cbn [fold_left map]; [auto|].
      destruct (IH _ (erase_wf x s Ws)) as [W1 M1]. split; auto. intros a M. apply M1 in M. destruct M as [M N].
      apply (erase_mem x s a Ws) in M. cbn. intuition. }
    destruct (K (hs_elements (run ops)) (run ops) W) as [W' M]. eexists. split; [reflexivity|].
    assert (N : forall a, ~ mem (fold_left (fun s x => snd (st_erase x s)) (hs_elements (run ops)) (run ops)) a).
    { intros a H. apply M in H. destruct H as [H1 H2]. apply H2. exact H1. }
    split; [|intros p; apply contains_mem_false; auto]. rewrite (st_size_elements _ W').
    unfold mem in N. destruct (st_elements _) as [|x l]; auto. exfalso. apply (N (prop_key x)). left. auto.
  Qed.

  (** Calls that change nothing. *)
  Lemma C84_unchanged_lemma ops o : fst (exec_op o (run ops)) = false -> snd (exec_op o (run ops)) = run ops.
  Proof. destruct o as [p|p]; cbn [exec_op]; [apply (insert_spec p _ (run_wf ops))|apply (erase_spec p _ (run_wf ops))]. Qed.

  Lemma insert_self fuel s : st_wf s -> forall p l, hs_traverse fuel s p = Ok l ->
    insert_loop fuel (hs_end s) s p = Ok (false, s).
  Proof.
    intros W. induction fuel as [|fuel IH]; intros p l; cbn [hs_traverse insert_loop]; destruct (pos_eqb p (hs_end s)); auto; [discriminate|].
    destruct (deref_cases s p) as [(x & P & ->)| ->]; cbn [bind]; [|discriminate].
    destruct (insert_spec x s W) as (_ & Fx & _ & Nx).
    assert (C : st_contains s x = true) by (apply contains_mem; auto; unfold mem; apply in_map; eapply points_In; eauto).
    rewrite C in Fx. cbn in Fx. specialize (Nx Fx). destruct (st_insert x s) as [c s']. cbn [fst snd] in *. subst c s'.
    destruct (hs_traverse fuel s (hs_next s p)) as [l'| | | |] eqn:E; cbn [bind]; try discriminate.
    rewrite (IH _ _ E). auto.
  Qed.

  Lemma C84_self_lemma ops fuel : st_size (run ops) <= fuel ->
    insert_loop fuel (hs_end (run ops)) (run ops) (hs_begin (run ops)) = Ok (false, run ops).
  Proof.
    intros F. pose proof (run_wf ops) as W. eapply insert_self; auto. apply traverse_elements.
    rewrite (st_size_elements _ W) in F. exact F.
  Qed.

  (** Other iterators after one erase. *)
  Lemma positions s i j x s' i' j' : st_wf s -> hs_deref s (i, j) = Ok x -> st_erase x s = (true, s') ->
    lower_limit (buckets s) < st_size s' ->
    hs_deref s' (i', j') = if (i' =? i) && (j <=? j') then hs_deref s (i', S j') else hs_deref s (i', j').
  Proof.
    intros W D E G. apply deref_ok in D. destruct D as (b & Ei & Ej). cbn [fst snd] in *.
    destruct (erase_at s i j b x W Ei Ej) as (s1 & E1 & _ & _ & B). rewrite E in E1. injection E1 as <-.
    apply Nat.leb_gt in G. rewrite G in B. unfold hs_deref, index. rewrite B.
    assert (Hi : i < length (buckets s)) by (apply nth_error_Some; congruence).
    assert (Hj : j < length b) by (apply nth_error_Some; congruence).
    destruct (Nat.eqb_spec i' i) as [->|Ne]; cbn [andb].
    - rewrite nth_error_set_nth_eq, Ei by auto. cbn [bind].
      assert (Lf : length (firstn j b) = j) by (apply firstn_length_le; lia).
      destruct (Nat.leb_spec j j') as [H|H].
      + rewrite nth_error_app2 by lia. rewrite Lf.
        replace (nth_error (skipn (S j) b) (j' - j)) with (nth_error b (S j')); auto.
        rewrite <- (firstn_skipn (S j) b) at 1. rewrite nth_error_app2; rewrite firstn_length_le by lia; [|lia].
        f_equal.
      + rewrite nth_error_app1 by lia. replace (nth_error (firstn j b) j') with (nth_error b j'); auto.
        rewrite <- (firstn_skipn j b) at 1. rewrite nth_error_app1 by lia. auto.
    - rewrite nth_error_set_nth_neq by auto. auto.
  Qed.

  Lemma C84_positions_lemma ops i j x s' i' j' : hs_deref (run ops) (i, j) = Ok x -> st_erase x (run ops) = (true, s') ->
    lower_limit (buckets (run ops)) < st_size s' ->
    hs_deref s' (i', j') =
      if (i' =? i) && (j <=? j') then hs_deref (run ops) (i', S j') else hs_deref (run ops) (i', j').
  Proof. apply positions, run_wf. Qed.
End WithHash.
