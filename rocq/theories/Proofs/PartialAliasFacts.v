(** PartialState::insert and erase given a reference to one of its own literals. *)
From Coq Require Import String List NArith Bool Arith Lia Permutation Sorted.
From Verif.Model Require Import Base Order Object Proposition HashSet State StateLoop PartialAlias.
From Verif.Spec Require Import SetSpec.
From Verif.Proofs Require Import OrderFacts HashSetFacts StateFacts StateHistory StateLoopFacts.
Import ListNotations.

Section WithHash.
  Context `{SH : StdHash}.

  Lemma deref_mem s p x : hs_deref s p = Ok x -> mem s (prop_key x).
  Proof. intros D. apply deref_ok, points_In in D. unfold mem. apply in_map. exact D. Qed.

  (** What the reference shows after the erase. *)
  Lemma ref_after_erase s i j x : st_wf s -> hs_deref s (i, j) = Ok x ->
    exists s', st_erase x s = (true, s') /\ st_wf s' /\ st_size s = S (st_size s') /\
      ref_after s s' (i, j) = if st_size s' <=? lower_limit (buckets s) then UB else hs_deref s (i, S j).
  Proof.
    intros W D. pose proof D as D0. apply deref_ok in D. destruct D as (b & Ei & Ej). cbn [fst snd] in *.
    destruct (erase_at s i j b x W Ei Ej) as (s' & E & W' & Z & B). exists s'. repeat (split; [assumption|]).
    unfold ref_after. destruct (st_size s' <=? lower_limit (buckets s)) eqn:G.
    - rewrite B. destruct (Nat.eqb_spec (lower_limit (buckets s)) (length (buckets s))) as [L|]; auto.
      assert (N1 : length (buckets s) = 1).
      { pose proof (bw_pos _ _ _ (hw_bs _ _ _ W)). unfold lower_limit in L.
        pose proof (Nat.div_le_upper_bound (length (buckets s) - 1) 2 (length (buckets s) - 1)). lia. }
      pose proof (hw_canon _ _ _ W) as C. unfold canon in C. unfold st_size in Z.
      destruct (deref_cases s' (i, j)) as [(y & P & _)| ->]; auto.
      exfalso. apply points_In in P. pose proof (st_size_elements s' W') as Q. unfold st_size in Q.
      destruct (st_elements s'); [destruct P|cbn in Q; lia].
    - rewrite B, set_nth_length, Nat.eqb_refl.
      rewrite (positions s i j x s' i j W D0 E) by (apply Nat.leb_gt; exact G).
      rewrite Nat.eqb_refl, Nat.leb_refl. auto.
  Qed.

  Lemma next_key s i j x y : st_wf s -> hs_deref s (i, j) = Ok x -> hs_deref s (i, S j) = Ok y ->
    prop_key y <> prop_key x.
  Proof.
    intros W D1 D2 K. apply deref_ok in D1, D2. destruct D1 as (b & E1 & F1), D2 as (b' & E2 & F2). cbn [fst snd] in *.
    rewrite E1 in E2. injection E2 as <-.
    pose proof (bw_sorted _ _ _ (hw_bs _ _ _ W)) as F. rewrite Forall_forall in F.
    pose proof (sorted_nodup prop_key _ prop_ltb_ok b (F b (nth_error_In _ _ E1))) as ND. rewrite NoDup_nth_error in ND.
    assert (j = S j); [|lia]. apply ND.
    - rewrite map_length. apply nth_error_Some. congruence.
    - rewrite !nth_error_map, F1, F2. cbn. congruence.
  Qed.

  (** The two sets: [from] loses x, [to] gets the next one. *)
  Lemma move from to i j x : st_wf from -> st_wf to -> (forall a, mem from a -> ~ mem to a) ->
    hs_deref from (i, j) = Ok x ->
    exists from', st_erase x from = (true, from') /\ st_wf from' /\
      ref_after from from' (i, j) =
        (if st_size from - 1 <=? lower_limit (buckets from) then UB else hs_deref from (i, S j)) /\
      forall y, hs_deref from (i, S j) = Ok y ->
        exists to', st_insert y to = (true, to') /\ st_wf to' /\
          mem from' (prop_key y) /\ mem to' (prop_key y) /\
          ~ mem from' (prop_key x) /\ ~ mem to' (prop_key x).
  Proof.
    intros W Wt Dj D. destruct (ref_after_erase from i j x W D) as (from' & E & W' & Z & R).
    exists from'. split; [exact E|]. split; [exact W'|]. split.
    { rewrite R. replace (st_size from - 1) with (st_size from') by lia. auto. }
    intros y Dy. pose proof (next_key from i j x y W D Dy) as K.
    pose proof (deref_mem _ _ _ D) as Mx. pose proof (deref_mem _ _ _ Dy) as My.
    destruct (insert_spec y to Wt) as (W2 & F & M & _).
    destruct (st_insert y to) as [b to'] eqn:I. cbn [fst snd] in *. exists to'.
    assert (b = true).
    { rewrite F. apply Bool.negb_true_iff, (contains_mem_false to y Wt). apply Dj. exact My. }
    subst b. split; [rewrite <- H; reflexivity|]. split; [exact W2|].
    pose proof (fun a => erase_mem x from a W) as Me. rewrite E in Me. cbn [snd] in Me.
    repeat split.
    - apply Me. auto.
    - apply M. auto.
    - intros Q. apply Me in Q. destruct Q. auto.
    - intros Q. apply M in Q. destruct Q as [Q|Q]; [congruence|exact (Dj _ Mx Q)].
  Qed.

  Lemma inconsistent p n a : st_wf p -> st_wf n -> mem p a -> mem n a -> ps_is_consistent (mkPS p n) = false.
  Proof.
    intros Wp Wn Mp Mn. apply Bool.not_true_is_false. intros C.
    apply ps_consistent_spec in C; [|split; auto]. exact (C a Mp Mn).
  Qed.

  Lemma C85_insert_lemma ops i j x : let s := prun ops in hs_deref (ps_neg s) (i, j) = Ok x ->
    ps_insert_neg (i, j) s = UB \/
    exists y s', ps_insert_neg (i, j) s = Ok (2, s') /\
      hs_deref (ps_neg s) (i, S j) = Ok y /\ ps_is_consistent s' = false /\
      st_contains (ps_pos s') x = false /\ st_contains (ps_neg s') x = false /\
      st_contains (ps_pos s') y = true /\ st_contains (ps_neg s') y = true.
  Proof.
    intros s D. destruct (prun_ok ops) as [[Wp Wn] Dj]. fold s in Wp, Wn, Dj.
    destruct (move (ps_neg s) (ps_pos s) i j x Wn Wp (fun a M N => Dj a N M) D) as (n' & E & W' & R & H).
    unfold ps_insert_neg. rewrite D. cbn [bind]. rewrite E, R.
    destruct (_ <=? _); [left; reflexivity|].
    destruct (deref_cases (ps_neg s) (i, S j)) as [(y & _ & Dy)| ->]; [|left; reflexivity].
    destruct (H y Dy) as (p' & I & W2 & M1 & M2 & M3 & M4). right. exists y, (mkPS p' n').
    rewrite Dy. cbn [bind]. rewrite I. split; [reflexivity|]. split; [reflexivity|].
    split; [eapply inconsistent; eauto|]. cbn [ps_pos ps_neg].
    repeat split; try (apply contains_mem_false; assumption); apply contains_mem; assumption.
  Qed.

  Lemma C85_erase_lemma ops i j x : let s := prun ops in hs_deref (ps_pos s) (i, j) = Ok x ->
    ps_erase_pos (i, j) s = UB \/
    exists y s', ps_erase_pos (i, j) s = Ok (2, s') /\
      hs_deref (ps_pos s) (i, S j) = Ok y /\ ps_is_consistent s' = false /\
      st_contains (ps_pos s') x = false /\ st_contains (ps_neg s') x = false /\
      st_contains (ps_pos s') y = true /\ st_contains (ps_neg s') y = true.
  Proof.
    intros s D. destruct (prun_ok ops) as [[Wp Wn] Dj]. fold s in Wp, Wn, Dj.
    destruct (move (ps_pos s) (ps_neg s) i j x Wp Wn Dj D) as (p' & E & W' & R & H).
    unfold ps_erase_pos. rewrite D. cbn [bind]. rewrite E, R.
    destruct (_ <=? _); [left; reflexivity|].
    destruct (deref_cases (ps_pos s) (i, S j)) as [(y & _ & Dy)| ->]; [|left; reflexivity].
    destruct (H y Dy) as (n' & I & W2 & M1 & M2 & M3 & M4). right. exists y, (mkPS p' n').
    rewrite Dy. cbn [bind]. rewrite I. split; [reflexivity|]. split; [reflexivity|].
    split; [eapply inconsistent; eauto|]. cbn [ps_pos ps_neg].
    repeat split; try (apply contains_mem_false; assumption); apply contains_mem; assumption.
  Qed.

  (** When it is undefined. *)
  Lemma C85_ub_lemma ops i j x : let s := prun ops in
    (hs_deref (ps_neg s) (i, j) = Ok x ->
     (ps_insert_neg (i, j) s = UB <->
      st_size (ps_neg s) <= S (lower_limit (buckets (ps_neg s))) \/ hs_deref (ps_neg s) (i, S j) = UB)) /\
    (hs_deref (ps_pos s) (i, j) = Ok x ->
     (ps_erase_pos (i, j) s = UB <->
      st_size (ps_pos s) <= S (lower_limit (buckets (ps_pos s))) \/ hs_deref (ps_pos s) (i, S j) = UB)).
  Proof.
    intros s. destruct (prun_ok ops) as [[Wp Wn] Dj]. fold s in Wp, Wn, Dj. split; intros D.
    - destruct (move (ps_neg s) (ps_pos s) i j x Wn Wp (fun a M N => Dj a N M) D) as (n' & E & W' & R & H).
      unfold ps_insert_neg. rewrite D. cbn [bind]. rewrite E, R.
      destruct (Nat.leb_spec (st_size (ps_neg s) - 1) (lower_limit (buckets (ps_neg s)))) as [L|L]; cbn [bind].
      + split; auto. intros _. left. lia.
      + destruct (deref_cases (ps_neg s) (i, S j)) as [(y & _ & Dy)| ->]; cbn [bind]; [|split; auto].
        destruct (H y Dy) as (p' & I & _). rewrite Dy. cbn [bind]. rewrite I. split; [discriminate|].
        intros [Q|Q]; [lia|discriminate].
    - destruct (move (ps_pos s) (ps_neg s) i j x Wp Wn Dj D) as (p' & E & W' & R & H).
      unfold ps_erase_pos. rewrite D. cbn [bind]. rewrite E, R.
      destruct (Nat.leb_spec (st_size (ps_pos s) - 1) (lower_limit (buckets (ps_pos s)))) as [L|L]; cbn [bind].
      + split; auto. intros _. left. lia.
      + destruct (deref_cases (ps_pos s) (i, S j)) as [(y & _ & Dy)| ->]; cbn [bind]; [|split; auto].
        destruct (H y Dy) as (n' & I & _). rewrite Dy. cbn [bind]. rewrite I. split; [discriminate|].
        intros [Q|Q]; [lia|discriminate].
  Qed.

  (** References into the other set. *)
  Lemma stay from to p x : st_wf from -> st_wf to -> (forall a, mem to a -> ~ mem from a) ->
    hs_deref to p = Ok x -> st_erase x from = (false, from) /\ st_insert x to = (false, to).
  Proof.
    intros W Wt Dj D. apply deref_mem in D.
    destruct (erase_spec x from W) as (_ & F & _ & U). destruct (insert_spec x to Wt) as (_ & F' & _ & U').
    assert (C : st_contains from x = false) by (apply contains_mem_false; auto).
    assert (C' : st_contains to x = true) by (apply contains_mem; auto).
    rewrite C in F. rewrite C' in F'. specialize (U F). specialize (U' F').
    destruct (st_erase x from), (st_insert x to). cbn in *. subst. auto.
  Qed.

  Lemma C85_other_lemma ops p x : let s := prun ops in
    (hs_deref (ps_pos s) p = Ok x -> ps_insert_pos p s = Ok (0, s)) /\
    (hs_deref (ps_neg s) p = Ok x -> ps_erase_neg p s = Ok (0, s)).
  Proof.
    intros s. destruct (prun_ok ops) as [[Wp Wn] Dj]. fold s in Wp, Wn, Dj. split; intros D.
    - destruct (stay (ps_neg s) (ps_pos s) p x Wn Wp Dj D) as [E I].
      unfold ps_insert_pos. rewrite D. cbn [bind]. rewrite E, I. destruct s. reflexivity.
    - destruct (stay (ps_pos s) (ps_neg s) p x Wp Wn (fun a M N => Dj a N M) D) as [E I].
      unfold ps_erase_neg. rewrite D. cbn [bind]. rewrite E, I. destruct s. reflexivity.
  Qed.
End WithHash.
