(** Invariant of HashSet and refinement to finite sets of keys. *)
From Coq Require Import List NArith Bool Arith Lia Permutation Sorted.
From Verif.Model Require Import Base Order HashSet.
From Verif.Proofs Require Import OrderFacts.
Import ListNotations.

(** ** List updates *)

Lemma set_nth_length {A} i (a : A) l : length (set_nth i a l) = length l.
Proof. revert i; induction l; intros [|i]; cbn; auto. Qed.

Lemma nth_error_set_nth_eq {A} i (a : A) l :
  i < length l -> nth_error (set_nth i a l) i = Some a.
Proof. revert i; induction l; intros [|i] H; cbn in *; try lia; auto. apply IHl. lia. Qed.

Lemma nth_error_set_nth_neq {A} i j (a : A) l :
  i <> j -> nth_error (set_nth i a l) j = nth_error l j.
Proof. revert i j; induction l; intros [|i] [|j] H; cbn; auto; try lia. Qed.

Lemma set_nth_same {A} i (d : A) l : i < length l -> set_nth i (nth i l d) l = l.
Proof. revert i; induction l; intros [|i] H; cbn in *; auto; try lia. rewrite IHl by lia. reflexivity. Qed.

Lemma concat_set_nth {A} i (b : list A) bs :
  i < length bs ->
  exists rest, Permutation (concat bs) (nth i bs [] ++ rest) /\
               Permutation (concat (set_nth i b bs)) (b ++ rest).
Proof.
  revert i; induction bs as [|c bs IH]; intros [|i] H; cbn in *; try lia.
  - exists (concat bs). split; reflexivity.
  - destruct (IH i) as (rest & P1 & P2); [lia|].
    exists (c ++ rest). split.
    + rewrite P1, !app_assoc. apply Permutation_app_tail, Permutation_app_comm.
    + rewrite P2, !app_assoc. apply Permutation_app_tail, Permutation_app_comm.
Qed.

Section Facts.
  Context {T K : Type}.
  Variable key : T -> K.
  Variable K_dec : forall a b : K, {a = b} + {a <> b}.
  Variable hash : T -> N.
  Variable eqb ltb : T -> T -> bool.
  Hypothesis O : ord_ok key ltb.
  Hypothesis E : eq_ok key eqb.
  Hypothesis Hh : forall x y, key x = key y -> hash x = hash y.

  Notation lt x y := (ltb x y = true).
  Notation sorted := (StronglySorted (fun x y => lt x y)).
  Notation keys := (map key).

  Lemma eqb_neg x y : eqb x y = false <-> key x <> key y.
  Proof.
    specialize (E x y). destruct (eqb x y); split; intros H; try congruence.
    - exfalso; apply H, E; reflexivity.
    - intros C. apply E in C. discriminate.
  Qed.

  (** *** UniqueVector *)

  Lemma lower_bound_split x v :
    sorted v ->
    exists l r, v = l ++ r /\ lower_bound ltb x v = length l /\
      Forall (fun y => lt y x) l /\
      match r with [] => True | y :: _ => ltb y x = false end.
  Proof.
    induction v as [|y v IH]; intros S; cbn.
    - exists [], []. repeat split; auto.
    - destruct (ltb y x) eqn:L.
      + apply StronglySorted_inv in S as [S _].
        destruct (IH S) as (l & r & -> & LB & F & R).
        exists (y :: l), r. cbn. rewrite LB. repeat split; auto.
      + exists [], (y :: v). repeat split; auto.
  Qed.

  Lemma sorted_app_inv l r :
    sorted (l ++ r) ->
    sorted l /\ sorted r /\ forall x y, In x l -> In y r -> lt x y.
  Proof.
    induction l as [|a l IH]; cbn; intros S.
    - split; [constructor|split; [auto|intros x y []]].
    - apply StronglySorted_inv in S as [S F]. destruct (IH S) as (S1 & S2 & S3).
      rewrite Forall_app in F. destruct F as [F1 F2].
      repeat split; auto.
      + constructor; auto.
      + intros x y [->|I] I'; auto. rewrite Forall_forall in F2. auto.
  Qed.

  Lemma sorted_app l r :
    sorted l -> sorted r -> (forall x y, In x l -> In y r -> lt x y) -> sorted (l ++ r).
  Proof.
    induction l as [|a l IH]; cbn; intros S1 S2 H; auto.
    apply StronglySorted_inv in S1 as [S1 F]. constructor.
    - apply IH; auto.
    - rewrite Forall_app. split; auto. apply Forall_forall. intros y I. auto.
  Qed.

  Lemma lt_key_neq x y : lt x y -> key x <> key y.
  Proof. intros L C. rewrite (ord_irrefl _ _ O _ _ C) in L. discriminate. Qed.

  Lemma sorted_nodup v : sorted v -> NoDup (keys v).
  Proof.
    induction v as [|y v IH]; intros S; cbn; constructor.
    - apply StronglySorted_inv in S as [_ F]. rewrite in_map_iff.
      intros (z & Kz & Iz). rewrite Forall_forall in F.
      apply (lt_key_neq y z); auto.
    - apply IH. apply StronglySorted_inv in S. tauto.
  Qed.

  (** Case analysis on the search: the element is absent and [x] goes between
      [l] and [r], or an equal element sits between them. *)
  Lemma uv_find x v :
    sorted v ->
    (exists l r, v = l ++ r /\ lower_bound ltb x v = length l /\
       Forall (fun y => lt y x) l /\ Forall (fun y => lt x y) r /\
       ~ In (key x) (keys v) /\
       match nth_error v (length l) with Some y => eqb y x = false | None => True end) \/
    (exists l y r, v = l ++ y :: r /\ lower_bound ltb x v = length l /\
       key y = key x /\ ~ In (key x) (keys (l ++ r))).
  Proof.
    intros S. destruct (lower_bound_split x v S) as (l & r & -> & LB & F & R).
    destruct (sorted_app_inv _ _ S) as (S1 & S2 & S3).
    destruct r as [|y r].
    - left. exists l, []. repeat split; auto.
      + rewrite app_nil_r, in_map_iff. intros (z & Kz & Iz).
        rewrite Forall_forall in F. apply (lt_key_neq z x); auto.
      + rewrite app_nil_r. rewrite (proj2 (nth_error_None l (length l))); auto.
    - assert (HN : nth_error (l ++ y :: r) (length l) = Some y).
      { rewrite nth_error_app2, Nat.sub_diag; auto. }
      destruct (K_dec (key y) (key x)) as [Ey|Ny].
      + right. exists l, y, r. repeat split; auto.
        pose proof (sorted_nodup _ S) as ND. rewrite map_app in ND. cbn in ND.
        apply NoDup_remove_2 in ND. rewrite <- map_app in ND. rewrite <- Ey. exact ND.
      + left. exists l, (y :: r).
        assert (Lxy : lt x y).
        { destruct (ord_total _ _ O y x Ny); congruence. }
        assert (F2 : Forall (fun z => lt x z) (y :: r)).
        { apply StronglySorted_inv in S2 as [_ F2]. constructor; auto.
          eapply Forall_impl; [|exact F2]. cbn. intros z Lz. eapply (ord_trans _ _ O); eauto. }
        repeat split; auto.
        * rewrite in_map_iff. intros (z & Kz & Iz). apply in_app_iff in Iz as [Iz|Iz].
          -- rewrite Forall_forall in F. apply (lt_key_neq z x); auto.
          -- rewrite Forall_forall in F2. apply (lt_key_neq x z); auto.
        * rewrite HN. apply eqb_neg; auto.
  Qed.

  Lemma uv_contains_spec x v :
    sorted v -> uv_contains eqb ltb x v = true <-> In (key x) (keys v).
  Proof.
    intros S. unfold uv_contains.
    destruct (uv_find x v S) as [(l & r & Ev & LB & _ & _ & NI & HN)|(l & y & r & Ev & LB & Ky & NI)];
      rewrite LB.
    - split; [|tauto]. destruct (nth_error v (length l)); congruence.
    - rewrite Ev, nth_error_app2, Nat.sub_diag by auto. cbn.
      split; intros _.
      + rewrite map_app, in_app_iff. right; left; auto.
      + apply E; auto.
  Qed.

  Lemma uv_insert_spec x v :
    sorted v ->
    (In (key x) (keys v) /\ uv_insert eqb ltb x v = (false, v)) \/
    (~ In (key x) (keys v) /\ exists w, uv_insert eqb ltb x v = (true, w) /\
        sorted w /\ Permutation w (x :: v)).
  Proof.
    intros S. unfold uv_insert.
    destruct (uv_find x v S) as [(l & r & Ev & LB & F1 & F2 & NI & HN)|(l & y & r & Ev & LB & Ky & NI)];
      rewrite LB.
    - right. split; auto. exists (l ++ x :: r).
      assert (firstn (length l) v = l /\ skipn (length l) v = r) as [-> ->].
      { rewrite Ev. rewrite firstn_app, skipn_app, Nat.sub_diag, firstn_all, skipn_all. cbn.
        rewrite app_nil_r. auto. }
      split; [destruct (nth_error v (length l)) as [z|]; [rewrite HN|]; reflexivity|]. split.
      + rewrite Ev in S. destruct (sorted_app_inv _ _ S) as (S1 & S2 & S3).
        apply sorted_app; auto.
        * constructor; auto.
        * intros a b Ia [<-|Ib]; auto. rewrite Forall_forall in F1; auto.
      + rewrite Ev. symmetry. apply Permutation_middle.
    - left. split.
      + rewrite Ev, map_app, in_app_iff. right; left; auto.
      + rewrite Ev, nth_error_app2, Nat.sub_diag by auto. cbn.
        rewrite (proj2 (E y x) Ky). reflexivity.
  Qed.

  Lemma uv_erase_spec x v :
    sorted v ->
    (~ In (key x) (keys v) /\ uv_erase eqb ltb x v = (false, v)) \/
    (exists y w, key y = key x /\ uv_erase eqb ltb x v = (true, w) /\
        sorted w /\ Permutation v (y :: w) /\ ~ In (key x) (keys w)).
  Proof.
    intros S. unfold uv_erase.
    destruct (uv_find x v S) as [(l & r & Ev & LB & F1 & F2 & NI & HN)|(l & y & r & Ev & LB & Ky & NI)];
      rewrite LB.
    - left. split; auto. destruct (nth_error v (length l)) as [z|]; [rewrite HN|]; reflexivity.
    - right. exists y, (l ++ r).
      assert (firstn (length l) v = l /\ skipn (Datatypes.S (length l)) v = r) as [-> ->].
      { rewrite Ev. rewrite firstn_app, Nat.sub_diag, firstn_all, app_nil_r. split; auto.
        clear. induction l; cbn in *; auto. }
      repeat split; auto.
      + rewrite Ev, nth_error_app2, Nat.sub_diag by auto. cbn.
        rewrite (proj2 (E y x) Ky). reflexivity.
      + rewrite Ev in S. destruct (sorted_app_inv _ _ S) as (S1 & S2 & S3).
        apply StronglySorted_inv in S2 as [S2 _].
        apply sorted_app; auto. intros a b Ia Ib. apply S3; cbn; auto.
      + rewrite Ev. symmetry. apply Permutation_middle.
  Qed.

  (** *** Buckets *)

  Notation bidx := (bucket_index hash).

  Definition placed (bs : list (list T)) : Prop :=
    forall i b x, nth_error bs i = Some b -> In x b -> bidx bs x = i.

  Record bs_wf (bs : list (list T)) : Prop := {
    bw_pos : 0 < length bs;
    bw_sorted : Forall (fun b => sorted b) bs;
    bw_placed : placed bs
  }.

  Lemma bidx_len bs bs' x : length bs = length bs' -> bidx bs x = bidx bs' x.
  Proof. unfold bucket_index. intros ->; reflexivity. Qed.

  Lemma bidx_lt bs x : 0 < length bs -> bidx bs x < length bs.
  Proof.
    intros H. unfold bucket_index.
    assert (N.modulo (hash x) (N.of_nat (length bs)) < N.of_nat (length bs))%N.
    { apply N.mod_lt. lia. }
    lia.
  Qed.

  Lemma bidx_key bs x y : key x = key y -> bidx bs x = bidx bs y.
  Proof. intros H. unfold bucket_index. rewrite (Hh _ _ H). reflexivity. Qed.

  Lemma bw_nth_sorted bs i : bs_wf bs -> sorted (nth i bs []).
  Proof.
    intros W. destruct (nth_in_or_default i bs []) as [I| ->].
    - pose proof (bw_sorted _ W) as F. rewrite Forall_forall in F. auto.
    - constructor.
  Qed.

  Lemma bs_mem bs x : bs_wf bs ->
    In (key x) (keys (concat bs)) <-> In (key x) (keys (nth (bidx bs x) bs [])).
  Proof.
    intros W. rewrite !in_map_iff. split.
    - intros (y & Ky & Iy). apply in_concat in Iy as (b & Ib & Iy).
      apply In_nth_error in Ib as (i & Ei).
      pose proof (bw_placed _ W i b y Ei Iy) as P.
      rewrite (bidx_key bs _ _ Ky) in P. exists y. split; auto.
      rewrite P. rewrite (nth_error_nth _ _ _ Ei). exact Iy.
    - intros (y & Ky & Iy). exists y. split; auto. apply in_concat.
      exists (nth (bidx bs x) bs []). split; auto. apply nth_In, bidx_lt, bw_pos; auto.
  Qed.

  Lemma NoDup_app_intro {A} (l r : list A) :
    NoDup l -> NoDup r -> (forall x, In x l -> ~ In x r) -> NoDup (l ++ r).
  Proof.
    induction l as [|a l IH]; cbn; intros N1 N2 D; auto.
    inversion N1; subst. constructor.
    - rewrite in_app_iff. intros [C|C]; [auto|]. apply (D a); auto.
    - apply IH; auto.
  Qed.

  Lemma bs_nodup_gen (idx : T -> nat) off bs :
    (forall x y, key x = key y -> idx x = idx y) ->
    Forall (fun b => sorted b) bs ->
    (forall i b x, nth_error bs i = Some b -> In x b -> idx x = off + i) ->
    NoDup (keys (concat bs)).
  Proof.
    intros R. revert off; induction bs as [|b bs IH]; intros off F P; cbn; [constructor|].
    rewrite map_app. inversion F; subst. apply NoDup_app_intro.
    - apply sorted_nodup; auto.
    - apply (IH (S off)); auto. intros i c x Ei Ix. rewrite (P (S i) c x); auto; lia.
    - intros k Ik Ik'. rewrite in_map_iff in Ik, Ik'.
      destruct Ik as (x & Kx & Ix), Ik' as (y & Ky & Iy).
      apply in_concat in Iy as (c & Ic & Iy). apply In_nth_error in Ic as (i & Ei).
      pose proof (P 0 b x eq_refl Ix). pose proof (P (S i) c y Ei Iy).
      pose proof (R x y). assert (idx x = idx y) by (apply R; congruence). lia.
  Qed.

  Lemma bs_nodup bs : bs_wf bs -> NoDup (keys (concat bs)).
  Proof.
    intros W. apply (bs_nodup_gen (bidx bs) 0).
    - intros; apply bidx_key; auto.
    - apply bw_sorted; auto.
    - intros; cbn; eapply bw_placed; eauto.
  Qed.

  (** Replacing the bucket of [x] keeps the invariant. *)
  Lemma bs_set bs x b :
    bs_wf bs -> sorted b ->
    (forall y, In y b -> key y = key x \/ In y (nth (bidx bs x) bs [])) ->
    bs_wf (set_nth (bidx bs x) b bs).
  Proof.
    intros W S H. pose proof (bidx_lt bs x (bw_pos _ W)) as L. constructor.
    - rewrite set_nth_length. apply bw_pos; auto.
    - apply Forall_forall. intros c Ic. apply In_nth_error in Ic as (i & Ei).
      destruct (Nat.eq_dec (bidx bs x) i) as [<-|N].
      + rewrite nth_error_set_nth_eq in Ei by auto. congruence.
      + rewrite nth_error_set_nth_neq in Ei by auto.
        pose proof (bw_sorted _ W) as F. rewrite Forall_forall in F.
        apply F. eapply nth_error_In; eauto.
    - intros i c y Ei Iy. rewrite (bidx_len _ bs) by apply set_nth_length.
      destruct (Nat.eq_dec (bidx bs x) i) as [<-|N].
      + rewrite nth_error_set_nth_eq in Ei by auto. injection Ei as <-.
        destruct (H y Iy) as [Ky|I]; [apply bidx_key; auto|].
        eapply bw_placed; eauto. erewrite <- nth_error_nth'; eauto.
      + rewrite nth_error_set_nth_neq in Ei by auto. eapply bw_placed; eauto.
  Qed.

  Lemma bucket_add_spec bs x :
    bs_wf bs -> ~ In (key x) (keys (concat bs)) ->
    bs_wf (bucket_add hash eqb ltb bs x) /\
    length (bucket_add hash eqb ltb bs x) = length bs /\
    Permutation (concat (bucket_add hash eqb ltb bs x)) (x :: concat bs).
  Proof.
    intros W NI. unfold bucket_add. rewrite (bs_mem _ _ W) in NI.
    pose proof (bidx_lt bs x (bw_pos _ W)) as L.
    destruct (uv_insert_spec x (nth (bidx bs x) bs []) (bw_nth_sorted _ _ W))
      as [[C _]|(_ & w & -> & S & P)]; [contradiction|]. cbn [snd].
    split; [|split].
    - apply bs_set; auto. intros y Iy.
      apply (Permutation_in _ P) in Iy as [->|Iy]; auto.
    - apply set_nth_length.
    - destruct (concat_set_nth (bidx bs x) w bs L) as (rest & P1 & P2).
      rewrite P1, P2, P. reflexivity.
  Qed.

  Lemma fold_add_spec l : forall bs,
    bs_wf bs -> NoDup (keys (l ++ concat bs)) ->
    bs_wf (fold_left (bucket_add hash eqb ltb) l bs) /\
    length (fold_left (bucket_add hash eqb ltb) l bs) = length bs /\
    Permutation (concat (fold_left (bucket_add hash eqb ltb) l bs)) (l ++ concat bs).
  Proof.
    induction l as [|x l IH]; intros bs W ND; cbn [fold_left].
    - cbn. auto.
    - cbn in ND. inversion ND as [|? ? NI ND']; subst.
      destruct (bucket_add_spec bs x W) as (W' & L' & P').
      { intros C. apply NI. rewrite map_app, in_app_iff. auto. }
      destruct (IH _ W') as (W'' & L'' & P'').
      { eapply Permutation_NoDup; [|exact ND].
        rewrite <- (map_cons key x (l ++ concat bs)). apply Permutation_map.
        rewrite P'. apply Permutation_middle. }
      split; [auto|split; [congruence|]].
      rewrite P'', P'. cbn. symmetry. apply Permutation_middle.
  Qed.

  Lemma bs_empty_wf n : 0 < n -> bs_wf (repeat [] n).
  Proof.
    intros H. constructor.
    - rewrite repeat_length; auto.
    - apply Forall_forall. intros b Ib. apply repeat_spec in Ib. subst; constructor.
    - intros i b x Ei Ix. apply nth_error_In, repeat_spec in Ei. subst. destruct Ix.
  Qed.

  Lemma concat_repeat_nil n : concat (repeat (@nil T) n) = [].
  Proof. induction n; cbn; auto. Qed.

  Lemma rehash_spec n bs :
    bs_wf bs -> 0 < n ->
    bs_wf (rehash hash eqb ltb n bs) /\
    length (rehash hash eqb ltb n bs) = n /\
    Permutation (concat (rehash hash eqb ltb n bs)) (concat bs).
  Proof.
    intros W H. unfold rehash. destruct (n =? length bs) eqn:C.
    - apply Nat.eqb_eq in C. auto.
    - destruct (fold_add_spec (concat bs) (repeat [] n) (bs_empty_wf n H)) as (W' & L' & P').
      { rewrite concat_repeat_nil, app_nil_r. apply bs_nodup; auto. }
      rewrite repeat_length in L'. rewrite concat_repeat_nil, app_nil_r in P'. auto.
  Qed.

  (** *** HashSet invariant *)

  (** The bucket count is 2^k-1 and determined by the size. *)
  Definition canon (b n : nat) : Prop :=
    (exists k, b + 1 = 2 ^ S k) /\ n <= b /\ (b = 1 \/ (b - 1) / 2 < n).

  Lemma canon_unique b b' n : canon b n -> canon b' n -> b = b'.
  Proof.
    enough (forall b b' n, canon b n -> canon b' n -> b <= b') as H.
    { intros H1 H2. pose proof (H _ _ _ H1 H2). pose proof (H _ _ _ H2 H1). lia. }
    clear. intros b b' n [[k Hk] [L1 D1]] [[k' Hk'] [L2 D2]].
    destruct (le_lt_dec k k') as [H|H].
    - assert (2 ^ S k <= 2 ^ S k') by (apply Nat.pow_le_mono_r; lia). lia.
    - assert (2 ^ S (S k') <= 2 ^ S k) by (apply Nat.pow_le_mono_r; lia).
      rewrite Nat.pow_succ_r' in H0.
      destruct D1 as [->|D1]; [destruct k'; cbn in *; lia|].
      assert (b' <= (b - 1) / 2) by (apply Nat.div_le_lower_bound; lia). lia.
  Qed.

  Lemma canon_grow b n : canon b n -> b < S n -> canon (2 * b + 1) (S n).
  Proof.
    intros [[k Hk] [L D]] H. split; [|split].
    - exists (S k). rewrite (Nat.pow_succ_r' _ (S k)). lia.
    - lia.
    - right. replace (2 * b + 1 - 1) with (b * 2) by lia. rewrite Nat.div_mul by lia. lia.
  Qed.

  Lemma canon_stay b n : canon b n -> ~ b < S n -> canon b (S n).
  Proof. intros [K1 [L D]] H. split; [auto|split; lia]. Qed.

  Lemma canon_shrink b n :
    canon b (S n) -> n <= Nat.max 1 ((b - 1) / 2) -> canon (Nat.max 1 ((b - 1) / 2)) n.
  Proof.
    intros [[k Hk] [L D]] H.
    destruct k as [|[|k]].
    - assert (b = 1) as -> by (cbn in Hk; lia). cbn in *. split; [exists 0; reflexivity|lia].
    - assert (b = 3) as -> by (cbn in Hk; lia). cbn in *. split; [exists 0; reflexivity|lia].
    - rewrite !Nat.pow_succ_r' in Hk.
      assert (P : 0 < 2 ^ k) by (apply Nat.neq_0_lt_0, Nat.pow_nonzero; lia).
      assert (D2 : (b - 1) / 2 = 2 * 2 ^ k - 1 + 2 * 2 ^ k).
      { replace (b - 1) with ((4 * 2 ^ k - 1) * 2) by lia. rewrite Nat.div_mul; lia. }
      rewrite D2 in *. rewrite Nat.max_r in * by lia.
      split; [|split].
      + exists (S k). rewrite !Nat.pow_succ_r'. lia.
      + lia.
      + right. destruct D as [->|D]; [lia|].
        apply Nat.div_lt_upper_bound; lia.
  Qed.

  Lemma canon_stay_erase b n :
    canon b (S n) -> ~ n <= Nat.max 1 ((b - 1) / 2) -> canon b n.
  Proof. intros [K1 [L D]] H. split; [auto|split; lia]. Qed.

  Record hs_wf (s : hashset T) : Prop := {
    hw_bs : bs_wf (buckets s);
    hw_size : hsize s = length (hs_elements s);
    hw_canon : canon (length (buckets s)) (hsize s)
  }.

  Lemma hs_empty_wf : hs_wf hs_empty.
  Proof.
    constructor.
    - apply (bs_empty_wf 1). lia.
    - reflexivity.
    - split; [exists 0; reflexivity|]. cbn. lia.
  Qed.

  Lemma hs_nodup s : hs_wf s -> NoDup (keys (hs_elements s)).
  Proof. intros W. apply bs_nodup, hw_bs; auto. Qed.

  Lemma hs_contains_spec s x :
    hs_wf s -> hs_contains hash eqb ltb s x = true <-> In (key x) (keys (hs_elements s)).
  Proof.
    intros W. unfold hs_contains, hs_elements. rewrite (bs_mem _ _ (hw_bs _ W)).
    apply uv_contains_spec, bw_nth_sorted, hw_bs; auto.
  Qed.

  Lemma hs_insert_spec x s :
    hs_wf s ->
    (hs_contains hash eqb ltb s x = true /\ hs_insert hash eqb ltb x s = (false, s)) \/
    (hs_contains hash eqb ltb s x = false /\ exists s', hs_insert hash eqb ltb x s = (true, s') /\
       hs_wf s' /\ Permutation (hs_elements s') (x :: hs_elements s)).
  Proof.
    intros W. destruct W as [W Z C].
    pose proof (bidx_lt (buckets s) x (bw_pos _ W)) as L.
    pose proof (bw_nth_sorted _ (bidx (buckets s) x) W) as S.
    unfold hs_insert, hs_contains.
    pose proof (uv_contains_spec x _ S) as CS.
    destruct (uv_insert_spec x _ S) as [[I ->]|(NI & w & -> & Sw & P)].
    - left. split; [tauto|]. rewrite set_nth_same by auto. destruct s; reflexivity.
    - right. split; [destruct (uv_contains _ _ _ _); tauto|].
      destruct (concat_set_nth (bidx (buckets s) x) w (buckets s) L) as (rest & P1 & P2).
      set (bs' := set_nth (bidx (buckets s) x) w (buckets s)) in *.
      assert (W' : bs_wf bs').
      { apply bs_set; auto. intros y Iy. apply (Permutation_in _ P) in Iy as [->|Iy]; auto. }
      assert (L' : length bs' = length (buckets s)) by apply set_nth_length.
      assert (P' : Permutation (concat bs') (x :: concat (buckets s))).
      { rewrite P1, P2, P. reflexivity. }
      eexists. split; [reflexivity|].
      destruct (length bs' <? Datatypes.S (hsize s)) eqn:G.
      + apply Nat.ltb_lt in G.
        destruct (rehash_spec (upper_bound bs') bs' W') as (W2 & L2 & P3); [unfold upper_bound; lia|].
        split; [constructor; cbn [buckets hsize]|]; unfold hs_elements in *; cbn [buckets] in *.
        * auto.
        * rewrite P3, P'. cbn. lia.
        * rewrite L2. unfold upper_bound. rewrite L' in *. apply canon_grow; auto.
        * rewrite P3. auto.
      + apply Nat.ltb_nlt in G.
        split; [constructor; cbn [buckets hsize]|]; unfold hs_elements in *; cbn [buckets] in *.
        * auto.
        * rewrite P'. cbn. lia.
        * rewrite L' in *. apply canon_stay; auto.
        * auto.
  Qed.

  Lemma hs_erase_spec x s :
    hs_wf s ->
    (hs_contains hash eqb ltb s x = false /\ hs_erase hash eqb ltb x s = (false, s)) \/
    (hs_contains hash eqb ltb s x = true /\ exists y s', hs_erase hash eqb ltb x s = (true, s') /\
       hs_wf s' /\ key y = key x /\ Permutation (hs_elements s) (y :: hs_elements s')).
  Proof.
    intros W. destruct W as [W Z C].
    pose proof (bidx_lt (buckets s) x (bw_pos _ W)) as L.
    pose proof (bw_nth_sorted _ (bidx (buckets s) x) W) as S.
    unfold hs_erase, hs_contains.
    pose proof (uv_contains_spec x _ S) as CS.
    destruct (uv_erase_spec x _ S) as [[I ->]|(y & w & Ky & -> & Sw & P & NI)].
    - left. split; [destruct (uv_contains _ _ _ _); tauto|].
      rewrite set_nth_same by auto. destruct s; reflexivity.
    - right. split.
      { apply CS. rewrite P. left; auto. }
      destruct (concat_set_nth (bidx (buckets s) x) w (buckets s) L) as (rest & P1 & P2).
      set (bs' := set_nth (bidx (buckets s) x) w (buckets s)) in *.
      assert (W' : bs_wf bs').
      { apply bs_set; auto. intros z Iz. right. rewrite P. right; auto. }
      assert (L' : length bs' = length (buckets s)) by apply set_nth_length.
      assert (P' : Permutation (concat (buckets s)) (y :: concat bs')).
      { rewrite P1, P2, P. reflexivity. }
      unfold hs_elements in Z. rewrite P' in Z. cbn in Z.
      exists y. eexists. split; [reflexivity|].
      rewrite Z in *. cbn [Nat.sub]. rewrite Nat.sub_0_r.
      destruct (length (concat bs') <=? lower_limit bs') eqn:G.
      + apply Nat.leb_le in G.
        destruct (rehash_spec (lower_limit bs') bs' W') as (W2 & L2 & P3); [unfold lower_limit; lia|].
        split; [constructor; cbn [buckets hsize]|]; unfold hs_elements in *; cbn [buckets] in *.
        * auto.
        * rewrite P3. auto.
        * rewrite L2. unfold lower_limit in *. rewrite L' in *. apply canon_shrink; auto.
        * rewrite P3. auto.
      + apply Nat.leb_nle in G.
        split; [constructor; cbn [buckets hsize]|]; unfold hs_elements in *; cbn [buckets] in *.
        * auto.
        * auto.
        * unfold lower_limit in *. rewrite L' in *. apply canon_stay_erase; auto.
        * auto.
  Qed.

  (** *** Canonical layout *)

  Lemma sorted_keys_unique v w :
    sorted v -> sorted w -> (forall k, In k (keys v) <-> In k (keys w)) -> keys v = keys w.
  Proof.
    revert w; induction v as [|x v IH]; intros [|y w] S1 S2 H; cbn.
    - reflexivity.
    - exfalso. apply (H (key y)). left; auto.
    - exfalso. apply (H (key x)). left; auto.
    - apply StronglySorted_inv in S1 as [S1 F1], S2 as [S2 F2].
      rewrite Forall_forall in F1, F2.
      assert (Kxy : key x = key y).
      { destruct (K_dec (key x) (key y)) as [|N]; auto. exfalso.
        assert (I1 : In (key x) (keys w)).
        { destruct (proj1 (H (key x))) as [C|C]; [left; auto|congruence|auto]. }
        assert (I2 : In (key y) (keys v)).
        { destruct (proj2 (H (key y))) as [C|C]; [left; auto|congruence|auto]. }
        apply in_map_iff in I1 as (a & Ka & Ia), I2 as (b & Kb & Ib).
        pose proof (F2 _ Ia) as L1. pose proof (F1 _ Ib) as L2.
        rewrite (ord_resp_r _ _ O y _ _ Ka) in L1. rewrite (ord_resp_r _ _ O x _ _ Kb) in L2.
        rewrite (ord_asym _ _ O _ _ L1) in L2. discriminate. }
      f_equal; auto. apply IH; auto. intros k. specialize (H k). cbn in H. rewrite Kxy in H.
      assert (N1 : k = key y -> ~ In k (keys v)).
      { intros -> C. apply in_map_iff in C as (a & Ka & Ia). apply (lt_key_neq x a); auto. congruence. }
      assert (N2 : k = key y -> ~ In k (keys w)).
      { intros -> C. apply in_map_iff in C as (a & Ka & Ia). apply (lt_key_neq y a); auto. }
      split; intros I.
      + destruct (proj1 H) as [C|C]; auto. exfalso. apply (N1 (eq_sym C)); auto.
      + destruct (proj2 H) as [C|C]; auto. exfalso. apply (N2 (eq_sym C)); auto.
  Qed.

  Lemma nth_ext_map {A B} (f : A -> B) (d : A) l l' :
    length l = length l' -> (forall i, i < length l -> f (nth i l d) = f (nth i l' d)) ->
    map f l = map f l'.
  Proof.
    revert l'; induction l as [|a l IH]; intros [|b l'] L H; cbn in *; try lia; auto.
    f_equal.
    - apply (H 0). lia.
    - apply IH; [lia|]. intros i Hi. apply (H (S i)). lia.
  Qed.

  Lemma bs_bucket_mem bs i x : bs_wf bs -> i < length bs ->
    In (key x) (keys (nth i bs [])) <-> bidx bs x = i /\ In (key x) (keys (concat bs)).
  Proof.
    intros W L. split.
    - intros I. assert (bidx bs x = i).
      { apply in_map_iff in I as (y & Ky & Iy).
        rewrite <- (bidx_key bs _ _ Ky). eapply bw_placed; eauto. apply nth_error_nth'; auto. }
      subst i. split; auto. apply bs_mem; auto.
    - intros [<- I]. apply bs_mem; auto.
  Qed.

  Theorem hs_canonical a b :
    hs_wf a -> hs_wf b ->
    (forall x, hs_contains hash eqb ltb a x = hs_contains hash eqb ltb b x) ->
    map keys (buckets a) = map keys (buckets b).
  Proof.
    intros Wa Wb H.
    assert (HI : forall x, In (key x) (keys (hs_elements a)) <-> In (key x) (keys (hs_elements b))).
    { intros x. rewrite <- !hs_contains_spec, H by auto. reflexivity. }
    assert (HK : forall k, In k (keys (hs_elements a)) <-> In k (keys (hs_elements b))).
    { intros k. split; intros I; pose proof I as I';
        apply in_map_iff in I' as (x & <- & _); apply HI; auto. }
    assert (P : Permutation (keys (hs_elements a)) (keys (hs_elements b))).
    { apply NoDup_Permutation; auto using hs_nodup. }
    assert (Sz : hsize a = hsize b).
    { rewrite (hw_size _ Wa), (hw_size _ Wb).
      apply Permutation_length in P. rewrite !map_length in P. auto. }
    assert (Lb : length (buckets a) = length (buckets b)).
    { eapply canon_unique; [apply hw_canon; auto|]. rewrite Sz. apply hw_canon; auto. }
    apply (nth_ext_map _ []); auto. intros i Hi.
    apply sorted_keys_unique.
    - apply bw_nth_sorted, hw_bs; auto.
    - apply bw_nth_sorted, hw_bs; auto.
    - intros k. split; intros I; pose proof I as I'; apply in_map_iff in I' as (x & <- & _).
      + apply (bs_bucket_mem _ _ _ (hw_bs _ Wa)) in I as [B I]; auto.
        apply (bs_bucket_mem _ _ _ (hw_bs _ Wb)); [lia|].
        rewrite <- (bidx_len (buckets a)) by auto. split; auto. apply HK; auto.
      + apply (bs_bucket_mem _ _ _ (hw_bs _ Wb)) in I as [B I]; [|lia].
        apply (bs_bucket_mem _ _ _ (hw_bs _ Wa)); [lia|].
        rewrite (bidx_len (buckets a) (buckets b)) by auto. split; auto. apply HK; auto.
  Qed.

  Lemma hs_eqb_keys a b :
    hs_eqb eqb a b = true <-> map keys (buckets a) = map keys (buckets b).
  Proof. unfold hs_eqb. apply (list_eqb_ok keys). apply list_eqb_ok; auto. Qed.

  Lemma hs_contains_of_keys a b x :
    hs_wf a -> hs_wf b -> map keys (buckets a) = map keys (buckets b) ->
    hs_contains hash eqb ltb a x = hs_contains hash eqb ltb b x.
  Proof.
    intros Wa Wb H. apply eq_true_iff_eq. rewrite !hs_contains_spec by auto.
    unfold hs_elements. rewrite !concat_map, H. reflexivity.
  Qed.

  Theorem hs_eqb_spec a b :
    hs_wf a -> hs_wf b ->
    hs_eqb eqb a b = true <->
    (forall x, hs_contains hash eqb ltb a x = hs_contains hash eqb ltb b x).
  Proof.
    intros Wa Wb. rewrite hs_eqb_keys. split.
    - intros H x. apply hs_contains_of_keys; auto.
    - apply hs_canonical; auto.
  Qed.

  Lemma K_list_dec : forall a b : list K, {a = b} + {a <> b}.
  Proof. apply list_eq_dec, K_dec. Qed.

  Lemma hs_ltb_ok : ord_ok (fun s => map keys (buckets s)) (hs_ltb ltb).
  Proof.
    apply (ord_map (@buckets T) (map keys) (lex_ltb (lex_ltb ltb))).
    apply lex_ltb_ok; [apply K_list_dec|]. apply lex_ltb_ok; auto.
  Qed.

  (** *** Iteration *)

  (** From position (ib,ii) the remaining elements are the tail of bucket ib
      and the later buckets. *)
  Definition remaining (bs : list (list T)) (p : nat * nat) : list T :=
    match skipn (fst p) bs with
    | [] => []
    | b :: r => skipn (snd p) b ++ concat r
    end.

  Lemma find_next_remaining (rest : list (list T)) : forall ib ii (pre : list (list T)),
    length pre = ib ->
    let p := find_next rest ib ii in
    remaining (pre ++ rest) p =
      match rest with [] => [] | b :: r => skipn ii b ++ concat r end /\
    (p = (length (pre ++ rest), 0) \/
     exists b x, nth_error (pre ++ rest) (fst p) = Some b /\ nth_error b (snd p) = Some x).
  Proof.
    induction rest as [|b rest IH]; intros ib ii pre L; cbn.
    - unfold remaining; cbn. rewrite app_nil_r.
      rewrite skipn_all2 by lia. split; auto.
    - destruct (length b <=? ii) eqn:C.
      + apply Nat.leb_le in C.
        specialize (IH (S ib) 0 (pre ++ [b])). rewrite app_length in IH. cbn in IH.
        rewrite <- app_assoc in IH. cbn in IH.
        destruct IH as [IH1 IH2]; [lia|]. split; auto.
        rewrite IH1, (skipn_all2 b) by lia. cbn. destruct rest; reflexivity.
      + apply Nat.leb_nle in C. cbn. unfold remaining; cbn.
        rewrite skipn_app, skipn_all2, <- L, Nat.sub_diag by lia. cbn. split; auto.
        right. exists b. rewrite nth_error_app2, Nat.sub_diag by lia. cbn.
        destruct (nth_error b ii) as [x|] eqn:N; eauto.
        apply nth_error_None in N. lia.
  Qed.

  Lemma traverse_from (s : hashset T) : forall fuel p,
    (p = hs_end s \/
     exists b x, nth_error (buckets s) (fst p) = Some b /\ nth_error b (snd p) = Some x) ->
    length (remaining (buckets s) p) <= fuel ->
    hs_traverse fuel s p = Ok (remaining (buckets s) p).
  Proof.
    assert (Hend : remaining (buckets s) (hs_end s) = []).
    { unfold remaining, hs_end; cbn. rewrite skipn_all. reflexivity. }
    assert (Hpe : forall p, pos_eqb p (hs_end s) = true -> p = hs_end s).
    { intros [a b]. unfold pos_eqb, hs_end; cbn. rewrite andb_true_iff, !Nat.eqb_eq.
      intros [-> ->]; reflexivity. }
    assert (Hpe' : pos_eqb (hs_end s) (hs_end s) = true).
    { unfold pos_eqb. rewrite !Nat.eqb_refl. reflexivity. }
    induction fuel as [|fuel IH]; intros p V L.
    - destruct V as [->|(b & x & E1 & E2)].
      + cbn [hs_traverse]. rewrite Hpe', Hend. reflexivity.
      + exfalso. unfold remaining in L. destruct p as [ib ii]; cbn [fst snd] in *.
        assert (skipn ib (buckets s) = b :: skipn (S ib) (buckets s)) as Sk.
        { clear - E1. revert ib E1. induction (buckets s) as [|c l IHl]; intros [|ib] H; cbn in *; try congruence.
          rewrite (IHl ib H). reflexivity. }
        rewrite Sk in L. rewrite app_length, skipn_length in L.
        assert (ii < length b) by (apply nth_error_Some; congruence). lia.
    - cbn [hs_traverse]. destruct (pos_eqb p (hs_end s)) eqn:C.
      + apply Hpe in C as ->. rewrite Hend. reflexivity.
      + destruct V as [->|(b & x & E1 & E2)]; [congruence|].
        destruct p as [ib ii]; cbn [fst snd] in *.
        assert (skipn ib (buckets s) = b :: skipn (S ib) (buckets s)) as Sk.
        { clear - E1. revert ib E1. induction (buckets s) as [|c l IHl]; intros [|ib] H; cbn in *; try congruence.
          rewrite (IHl ib H). reflexivity. }
        unfold hs_deref, index. rewrite E1. cbn [bind]. rewrite E2. cbn [bind].
        assert (Sk2 : skipn ii b = x :: skipn (S ii) b).
        { clear - E2. revert ii E2. induction b as [|c l IHl]; intros [|ii] H; cbn in *; try congruence.
          rewrite (IHl ii H). reflexivity. }
        assert (R : remaining (buckets s) (ib, ii) = x :: (skipn (S ii) b ++ concat (skipn (S ib) (buckets s)))).
        { unfold remaining; cbn [fst snd]. rewrite Sk, Sk2. reflexivity. }
        assert (Lib : length (firstn ib (buckets s)) = ib).
        { apply firstn_length_le. apply Nat.lt_le_incl, nth_error_Some. congruence. }
        pose proof (find_next_remaining (skipn ib (buckets s)) ib (S ii) (firstn ib (buckets s)) Lib) as FN.
        cbv zeta in FN. rewrite firstn_skipn in FN. destruct FN as [FN1 FN2].
        unfold hs_next. rewrite IH.
        * cbn [bind]. rewrite R, FN1, Sk. reflexivity.
        * unfold hs_end. exact FN2.
        * rewrite FN1, Sk. rewrite R in L. cbn [length] in L. lia.
  Qed.

  (** A full range-for loop visits exactly [hs_elements], in that order. *)
  Theorem traverse_elements (s : hashset T) fuel :
    length (hs_elements s) <= fuel ->
    hs_traverse fuel s (hs_begin s) = Ok (hs_elements s).
  Proof.
    intros L.
    pose proof (find_next_remaining (buckets s) 0 0 [] eq_refl) as FN.
    cbv zeta in FN. cbn [app] in FN. destruct FN as [FN1 FN2].
    assert (R : remaining (buckets s) (hs_begin s) = hs_elements s).
    { unfold hs_begin. rewrite FN1. unfold hs_elements. destruct (buckets s); reflexivity. }
    rewrite <- R. apply traverse_from.
    - exact FN2.
    - rewrite R. exact L.
  Qed.
End Facts.
