(** Sorted vectors: the binary search agrees with its contract, the asserts
    hold, and both variants of State agree. *)
From Coq Require Import String List NArith Bool Arith Lia Sorting.Sorted Permutation.
From Verif.Model Require Import Base Order HashSet Object Proposition State UniqueVector.
From Verif.Spec Require Import SetSpec VectorSpec.
From Verif.Proofs Require Import OrderFacts HashSetFacts StateFacts StateHistory.
Import ListNotations.

Section Facts.
  Context {T K : Type}.
  Variable key : T -> K.
  Variable K_dec : forall a b : K, {a = b} + {a <> b}.
  Variable hash : T -> N.
  Variable eqb ltb : T -> T -> bool.
  Hypothesis O : ord_ok key ltb.
  Hypothesis E : eq_ok key eqb.
  Hypothesis Hh : forall x y, key x = key y -> hash x = hash y.

  Notation lt x y := (ltb x y = true).
  Notation sorted := (StronglySorted (fun x y => ltb x y = true)).
  Notation keys := (map key).

  Lemma sorted_nth v : sorted v -> ascending ltb v.
  Proof.
    induction 1 as [|a v S IH F]; intros i j x y L Ei Ej.
    - destruct i; discriminate.
    - destruct j as [|j]; [lia|]. cbn in Ej. destruct i as [|i]; cbn in Ei.
      + injection Ei as <-. rewrite Forall_forall in F. apply F. eapply nth_error_In; eauto.
      + apply (IH i j); auto; lia.
  Qed.

  Lemma nth_strong (R : T -> T -> Prop) v :
    (forall i j x y, i < j -> nth_error v i = Some x -> nth_error v j = Some y -> R x y) ->
    StronglySorted R v.
  Proof.
    induction v as [|a v IH]; intros H; constructor.
    - apply IH. intros i j x y L Ei Ej. apply (H (S i) (S j)); auto; lia.
    - apply Forall_forall. intros y Iy. apply In_nth_error in Iy as (j & Ej).
      apply (H 0 (S j)); auto; lia.
  Qed.

  Lemma is_sorted_true v : sorted v -> is_sorted ltb v = true.
  Proof.
    induction 1 as [|a v S IH F]; auto. destruct v as [|b v]; auto.
    cbn [is_sorted]. cbn [is_sorted] in IH. rewrite IH. inversion F; subst.
    rewrite (ord_asym _ _ O a b); auto.
  Qed.

  Lemma lower_bound_le x v : lower_bound ltb x v <= length v.
  Proof. induction v; cbn; auto. destruct (ltb a x); lia. Qed.

  Lemma lower_bound_nth x v i y : sorted v -> nth_error v i = Some y ->
    ltb y x = true <-> i < lower_bound ltb x v.
  Proof.
    intros S. revert i; induction S as [|a v S IH F]; intros i Ei.
    - destruct i; discriminate.
    - cbn. destruct (ltb a x) eqn:L.
      + destruct i as [|i]; cbn in Ei.
        * injection Ei as <-. split; intros; [lia|auto].
        * rewrite (IH i Ei). lia.
      + split; [|lia]. intros C. exfalso. destruct i as [|i]; cbn in Ei.
        * congruence.
        * rewrite Forall_forall in F. pose proof (F y (nth_error_In _ _ Ei)) as C'.
          rewrite (ord_trans _ _ O a y x) in L; auto. discriminate.
  Qed.

  Lemma search_ok x v : sorted v -> forall fuel first len,
    first + len <= length v ->
    first <= lower_bound ltb x v <= first + len ->
    len < 2 ^ fuel ->
    search ltb fuel x v first len = Ok (lower_bound ltb x v).
  Proof.
    intros S. induction fuel as [|f IH]; intros first len B I P.
    - cbn in P. assert (len = 0) as -> by lia. cbn. f_equal. lia.
    - destruct len as [|len0]; [cbn; f_equal; lia|].
      cbn [search]. set (len := Datatypes.S len0) in *.
      pose proof (Nat.div2_odd len) as D. set (half := Nat.div2 len) in *.
      assert (half < len) by (destruct (Nat.odd len); cbn [Nat.b2n] in D; lia).
      assert (Hb : Nat.b2n (Nat.odd len) <= 1) by (destruct (Nat.odd len); cbn; lia).
      assert (L : first + half < length v) by lia.
      unfold index. destruct (nth_error v (first + half)) as [y|] eqn:N;
        [|apply nth_error_None in N; lia].
      cbn [bind]. pose proof (lower_bound_nth x v _ _ S N) as LB.
      rewrite Nat.pow_succ_r' in P.
      destruct (ltb y x).
      + assert (first + half < lower_bound ltb x v) by (apply LB; auto).
        apply IH; lia.
      + assert (~ first + half < lower_bound ltb x v).
        { intros C. apply LB in C. discriminate. }
        apply IH; lia.
  Qed.

  Lemma search_all x v : sorted v ->
    uvc_lower_bound ltb x v = Ok (lower_bound ltb x v) /\
    search ltb (Datatypes.S (Nat.log2 (length v))) x v 0 (length v) = Ok (lower_bound ltb x v).
  Proof.
    intros S. pose proof (lower_bound_le x v) as L.
    split; apply search_ok; auto; try lia.
    - apply Nat.pow_gt_lin_r; lia.
    - destruct (length v) as [|n]; [cbn; lia|]. apply Nat.log2_spec. lia.
  Qed.

  Lemma found_spec x v i : i <= length v ->
    found eqb x v i = Ok (match nth_error v i with Some y => eqb y x | None => false end).
  Proof.
    intros L. unfold found. destruct (Nat.eqb_spec i (length v)) as [->|N].
    - rewrite (proj2 (nth_error_None v (length v))); auto.
    - unfold index. destruct (nth_error v i) eqn:C; auto. apply nth_error_None in C. lia.
  Qed.

  Lemma uvc_contains_eq x v : sorted v ->
    uvc_contains eqb ltb x v = Ok (uv_contains eqb ltb x v).
  Proof.
    intros S. unfold uvc_contains, assert_sorted. rewrite (is_sorted_true v S). cbn [bind].
    rewrite (proj1 (search_all x v S)). cbn [bind].
    rewrite found_spec by apply lower_bound_le. reflexivity.
  Qed.

  Lemma uvc_insert_eq x v : sorted v ->
    uvc_insert eqb ltb x v = Ok (uv_insert eqb ltb x v).
  Proof.
    intros S. unfold uvc_insert, assert_sorted. rewrite (is_sorted_true v S). cbn [bind].
    rewrite (proj1 (search_all x v S)). cbn [bind].
    rewrite found_spec by apply lower_bound_le. cbn [bind]. unfold uv_insert.
    destruct (nth_error v _) as [y|]; auto. destruct (eqb y x); auto.
  Qed.

  Lemma uvc_erase_eq x v : sorted v ->
    uvc_erase eqb ltb x v = Ok (uv_erase eqb ltb x v).
  Proof.
    intros S. unfold uvc_erase, assert_sorted. rewrite (is_sorted_true v S). cbn [bind].
    rewrite (proj1 (search_all x v S)). cbn [bind].
    rewrite found_spec by apply lower_bound_le. cbn [bind]. unfold uv_erase.
    destruct (nth_error v _) as [y|]; auto. destruct (eqb y x); auto.
  Qed.

  (** *** HashSet *)

  Notation bs_wf := (bs_wf hash ltb).

  Lemma hsc_bucket_eq bs x : bs_wf bs ->
    hsc_bucket hash bs x = Ok (bucket_index hash bs x, nth (bucket_index hash bs x) bs []).
  Proof.
    intros W. pose proof (bw_pos _ _ _ W) as P. unfold hsc_bucket.
    destruct bs as [|b bs]; [cbn in P; lia|]. set (bb := b :: bs) in *.
    unfold index. rewrite (nth_error_nth' bb []) by (apply bidx_lt; auto). reflexivity.
  Qed.

  Lemma hsc_contains_eq s x : bs_wf (buckets s) ->
    hsc_contains hash eqb ltb s x = Ok (hs_contains hash eqb ltb s x).
  Proof.
    intros W. unfold hsc_contains. rewrite hsc_bucket_eq by auto. cbn [bind].
    apply uvc_contains_eq. eapply bw_nth_sorted; eauto.
  Qed.

  Lemma rehash_fold l : forall bs,
    bs_wf bs -> NoDup (keys (l ++ concat bs)) ->
    foldM
      (fun bs' x =>
         let* ' (i, b) := hsc_bucket hash bs' x in
         let* ' (_, b') := uvc_insert eqb ltb x b in
         Ok (set_nth i b' bs')) l bs
    = Ok (fold_left (bucket_add hash eqb ltb) l bs).
  Proof.
    induction l as [|x l IH]; intros bs W ND; cbn [fold_left foldM]; auto.
    rewrite hsc_bucket_eq by auto. cbn [bind].
    rewrite uvc_insert_eq by (eapply bw_nth_sorted; eauto). cbn [bind].
    cbn in ND. inversion ND as [|? ? NI ND']; subst.
    destruct (bucket_add_spec key K_dec hash eqb ltb O E Hh bs x W) as (W' & L' & P').
    { intros C. apply NI. rewrite map_app, in_app_iff. auto. }
    unfold bucket_add in *.
    destruct (uv_insert eqb ltb x (nth (bucket_index hash bs x) bs [])) as [b w].
    cbn [snd] in *. apply IH; auto.
    eapply Permutation_NoDup; [|exact ND].
    rewrite <- (map_cons key x (l ++ concat bs)). apply Permutation_map.
    rewrite P'. apply Permutation_middle.
  Qed.

  Lemma hsc_rehash_eq n bs : bs_wf bs -> 0 < n ->
    hsc_rehash hash eqb ltb n bs = Ok (rehash hash eqb ltb n bs).
  Proof.
    intros W P. unfold hsc_rehash, rehash. destruct (n =? length bs); auto.
    apply rehash_fold.
    - apply bs_empty_wf; auto.
    - rewrite concat_repeat_nil, app_nil_r. eapply bs_nodup; eauto.
  Qed.

  Lemma hsc_insert_eq s x : bs_wf (buckets s) ->
    hsc_insert hash eqb ltb x s = Ok (hs_insert hash eqb ltb x s).
  Proof.
    intros W. unfold hsc_insert, hs_insert. rewrite hsc_bucket_eq by auto. cbn [bind].
    set (i := bucket_index hash (buckets s) x).
    assert (S : sorted (nth i (buckets s) [])) by (eapply bw_nth_sorted; eauto).
    rewrite uvc_insert_eq by auto. cbn [bind].
    destruct (uv_insert_spec key K_dec eqb ltb O E x _ S) as [[_ ->]|(_ & w & -> & Sw & P)]; auto.
    assert (W' : bs_wf (set_nth i w (buckets s))).
    { apply (bs_set key hash ltb Hh); auto. intros y Iy.
      apply (Permutation_in _ P) in Iy as [->|Iy]; auto. }
    destruct (length _ <? _); auto.
    rewrite hsc_rehash_eq; auto. unfold upper_bound. lia.
  Qed.

  Lemma hsc_erase_eq s x : bs_wf (buckets s) ->
    hsc_erase hash eqb ltb x s = Ok (hs_erase hash eqb ltb x s).
  Proof.
    intros W. unfold hsc_erase, hs_erase. rewrite hsc_bucket_eq by auto. cbn [bind].
    set (i := bucket_index hash (buckets s) x).
    assert (S : sorted (nth i (buckets s) [])) by (eapply bw_nth_sorted; eauto).
    rewrite uvc_erase_eq by auto. cbn [bind].
    destruct (uv_erase_spec key K_dec eqb ltb O E x _ S) as [[_ ->]|(y & w & Ky & -> & Sw & P & N)]; auto.
    assert (W' : bs_wf (set_nth i w (buckets s))).
    { apply (bs_set key hash ltb Hh); auto. intros z Iz. right.
      fold i. apply (Permutation_in _ (Permutation_sym P)). right; auto. }
    destruct (_ <=? _); auto.
    rewrite hsc_rehash_eq; auto. unfold lower_limit. lia.
  Qed.

  (** *** Construction from a list *)

  Lemma unique_from_spec v : forall a,
    StronglySorted (fun x y => ltb y x = false) (a :: v) ->
    sorted (a :: unique_from eqb a v) /\
    (forall k, In k (keys (a :: unique_from eqb a v)) <-> In k (keys (a :: v))) /\
    (forall y, In y (unique_from eqb a v) -> In y v).
  Proof.
    induction v as [|b v IH]; intros a S; cbn [unique_from].
    - split; [repeat constructor|split; [reflexivity|intros y []]].
    - pose proof S as S0. apply StronglySorted_inv in S as [S F].
      pose proof S as Sb. apply StronglySorted_inv in S as [S Fb].
      inversion F as [|? ? Fab Fav]; subst.
      destruct (eqb a b) eqn:Eab.
      + apply E in Eab. destruct (IH a) as (I1 & I2 & I3); [constructor; auto|].
        split; [auto|split].
        * intros k. rewrite I2. cbn. rewrite Eab. tauto.
        * intros y Iy. right. auto.
      + destruct (IH b Sb) as (I1 & I2 & I3).
        assert (Lab : lt a b).
        { destruct (ord_total _ _ O a b) as [C|C]; auto; [|congruence].
          intros C. apply E in C. congruence. }
        split; [|split].
        * constructor; auto. constructor; auto.
          apply StronglySorted_inv in I1 as [_ I1]. eapply Forall_impl; [|exact I1].
          cbn. intros z Lz. eapply (ord_trans _ _ O); eauto.
        * intros k. specialize (I2 k). cbn in *. tauto.
        * intros y [<-|Iy]; [left; auto|right; auto].
  Qed.

  Lemma uvc_of_list_spec sort l : sorts ltb sort ->
    exists v, uvc_of_list eqb ltb sort l = Ok v /\ sorted v /\
      (forall k, In k (keys v) <-> In k (keys l)) /\ (forall y, In y v -> In y l).
  Proof.
    intros So. destruct (So l) as (P & A). apply nth_strong in A.
    assert (H : sorted (unique eqb (sort l)) /\
      (forall k, In k (keys (unique eqb (sort l))) <-> In k (keys (sort l))) /\
      (forall y, In y (unique eqb (sort l)) -> In y (sort l))).
    { destruct (sort l) as [|a v]; cbn [unique].
      - split; [constructor|split; [reflexivity|auto]].
      - destruct (unique_from_spec v a A) as (U1 & U2 & U3). split; [auto|split; auto].
        intros y [<-|Iy]; [left; auto|right; auto]. }
    destruct H as (U1 & U2 & U3).
    exists (unique eqb (sort l)). unfold uvc_of_list, assert_sorted.
    rewrite (is_sorted_true _ U1). split; [reflexivity|split; [auto|split]].
    - intros k. rewrite U2. apply (Permutation_map key) in P.
      split; intros I; [eapply Permutation_in; [symmetry; exact P|]|eapply Permutation_in; eauto]; auto.
    - intros y Iy. eapply Permutation_in; [symmetry; exact P|auto].
  Qed.

  (** *** A sorting function, for the examples *)

  Fixpoint place (x : T) (v : list T) : list T :=
    match v with
    | [] => [x]
    | y :: v' => if ltb y x then y :: place x v' else x :: v
    end.
  Definition sort_by_placing (l : list T) : list T := fold_right place [] l.

  Lemma place_perm x v : Permutation (x :: v) (place x v).
  Proof.
    induction v as [|y v IH]; cbn; auto. destruct (ltb y x); auto.
    rewrite perm_swap. constructor. exact IH.
  Qed.

  Lemma weak_trans a b c : ltb b a = false -> ltb c b = false -> ltb c a = false.
  Proof.
    intros H1 H2. destruct (ltb c a) eqn:C; auto. exfalso.
    destruct (K_dec (key b) (key c)) as [Eq|N].
    - rewrite (ord_resp_l _ _ O b c a Eq) in H1. congruence.
    - destruct (ord_total _ _ O b c N) as [L|L]; [|congruence].
      rewrite (ord_trans _ _ O b c a) in H1; auto. discriminate.
  Qed.

  Lemma place_sorted x v : StronglySorted (fun x y => ltb y x = false) v ->
    StronglySorted (fun x y => ltb y x = false) (place x v).
  Proof.
    induction 1 as [|y v S IH F]; cbn; [repeat constructor|].
    destruct (ltb y x) eqn:L.
    - constructor; auto. apply Forall_forall. intros z Iz.
      apply (Permutation_in _ (Permutation_sym (place_perm x v))) in Iz as [<-|Iz].
      + apply (ord_asym _ _ O); auto.
      + rewrite Forall_forall in F. auto.
    - constructor; [constructor; auto|]. constructor; auto.
      eapply Forall_impl; [|exact F]. cbn. intros z Lz. eapply weak_trans; eauto.
  Qed.

  Lemma sort_by_placing_sorts : sorts ltb sort_by_placing.
  Proof.
    intros l.
    assert (P : Permutation l (sort_by_placing l)).
    { induction l as [|x l IH]; cbn; auto. rewrite <- place_perm. auto. }
    assert (S : StronglySorted (fun x y => ltb y x = false) (sort_by_placing l)).
    { clear P. induction l as [|x l IH]; cbn; [constructor|]. apply place_sorted, IH. }
    split; auto. revert S. generalize (sort_by_placing l). clear. intros v S.
    induction S as [|a v S IH F]; intros i j x y L Ei Ej.
    - destruct i; discriminate.
    - destruct j as [|j]; [lia|]. cbn in Ej. destruct i as [|i]; cbn in Ei.
      + injection Ei as <-. rewrite Forall_forall in F. apply F. eapply nth_error_In; eauto.
      + apply (IH i j); auto; lia.
  Qed.
End Facts.

Section WithHash.
  Context `{SH : StdHash}.

  (** A vector State and a hash State with the same contents. *)
  Definition alike (v : vstate) (s : state) : Prop :=
    StronglySorted (fun x y => prop_ltb x y = true) v /\ st_wf s /\
    forall a, In a (map prop_key v) <-> mem s a.

  Lemma st_bs_wf s : st_wf s -> bs_wf prop_hash prop_ltb (buckets s).
  Proof. intros W. apply W. Qed.

  Lemma alike_contains v s p : alike v s -> vs_contains v p = Ok (st_contains s p).
  Proof.
    intros (Sv & W & M). unfold vs_contains.
    rewrite (uvc_contains_eq prop_key _ _ prop_ltb_ok p v Sv). f_equal.
    apply eq_true_iff_eq.
    rewrite (uv_contains_spec prop_key atom_dec _ _ prop_ltb_ok prop_eqb_ok p v Sv), M.
    symmetry. apply contains_mem; auto.
  Qed.

  Lemma alike_size v s : alike v s -> vs_size v = st_size s.
  Proof.
    intros (Sv & W & M). rewrite (st_size_elements s W). unfold vs_size.
    rewrite <- (map_length prop_key v), <- (map_length prop_key (st_elements s)).
    apply Permutation_length, NoDup_Permutation.
    - eapply sorted_nodup; [apply prop_ltb_ok|auto].
    - apply st_nodup; auto.
    - exact M.
  Qed.

  Lemma alike_exec o v s : alike v s ->
    exists v', vexec_op o v = Ok (fst (exec_op o s), v') /\ alike v' (snd (exec_op o s)).
  Proof.
    intros (Sv & W & M).
    assert (W' : st_wf (snd (exec_op o s))) by (apply exec_op_wf; auto).
    destruct o as [p|p]; cbn [vexec_op exec_op] in *; unfold vs_insert, vs_erase.
    - rewrite (uvc_insert_eq prop_key _ _ prop_ltb_ok p v Sv).
      destruct (uv_insert_spec prop_key atom_dec _ _ prop_ltb_ok prop_eqb_ok p v Sv)
        as [[I ->]|(N & w & -> & Sw & P)].
      + exists v. pose proof I as I'. apply M in I'.
        assert (fst (st_insert p s) = false) as ->.
        { destruct (fst (st_insert p s)) eqn:C; auto. exfalso.
          apply (exec_op_changed (Ins p) s W) in C. cbn in C. apply C.
          apply eq_true_iff_eq. rewrite !contains_mem by auto. rewrite insert_mem by auto. tauto. }
        split; [reflexivity|]. split; [auto|split; [auto|]].
        intros a. rewrite insert_mem by auto. rewrite M. split; auto. intros [->|]; auto.
      + exists w.
        assert (fst (st_insert p s) = true) as ->.
        { apply (exec_op_changed (Ins p) s W). cbn. intros C. apply N, M.
          apply contains_mem; auto. rewrite C. apply contains_mem; auto.
          apply insert_mem; auto. }
        split; [reflexivity|]. split; [auto|split; [auto|]].
        intros a. rewrite insert_mem by auto. rewrite <- M.
        apply (Permutation_map prop_key) in P. split; intros I.
        * apply (Permutation_in _ P) in I as [<-|I]; auto.
        * apply (Permutation_in _ (Permutation_sym P)). destruct I as [->|I]; [left|right]; auto.
    - rewrite (uvc_erase_eq prop_key _ _ prop_ltb_ok p v Sv).
      destruct (uv_erase_spec prop_key atom_dec _ _ prop_ltb_ok prop_eqb_ok p v Sv)
        as [[N ->]|(y & w & Ky & -> & Sw & P & N)].
      + exists v. 
        assert (fst (st_erase p s) = false) as ->.
        { destruct (fst (st_erase p s)) eqn:C; auto. exfalso.
          apply (exec_op_changed (Del p) s W) in C. cbn in C. apply C.
          apply eq_true_iff_eq. rewrite !contains_mem by auto. rewrite erase_mem by auto.
          rewrite <- M. tauto. }
        split; [reflexivity|]. split; [auto|split; [auto|]].
        intros a. rewrite erase_mem by auto. rewrite <- M. split; [|tauto].
        intros I. split; auto. intros ->. auto.
      + exists w.
        assert (Iy : In (prop_key p) (map prop_key v)).
        { rewrite <- Ky. apply in_map. apply (Permutation_in _ (Permutation_sym P)). left; auto. }
        assert (fst (st_erase p s) = true) as ->.
        { apply (exec_op_changed (Del p) s W). cbn. intros C.
          apply M in Iy. apply (contains_mem s p W) in Iy. rewrite C in Iy.
          apply contains_mem in Iy; auto. apply erase_mem in Iy; tauto. }
        split; [reflexivity|]. split; [auto|split; [auto|]].
        intros a. rewrite erase_mem by auto. rewrite <- M.
        apply (Permutation_map prop_key) in P. split; intros I.
        * split; [congruence|]. apply (Permutation_in _ (Permutation_sym P)). right; auto.
        * destruct I as [Na I]. apply (Permutation_in _ P) in I as [C|I]; auto. congruence.
  Qed.

  Lemma alike_run ops : forall v s, alike v s ->
    exists v', vrun_from v ops = Ok v' /\ alike v' (run_from s ops).
  Proof.
    induction ops as [|o ops IH]; intros v s A.
    - exists v. auto.
    - destruct (alike_exec o v s A) as (v1 & E1 & A1).
      destruct (IH _ _ A1) as (v2 & E2 & A2). exists v2. split; auto.
      unfold vrun_from. cbn [foldM]. rewrite E1. exact E2.
  Qed.

  Lemma alike_eqb v s v' s' : alike v s -> alike v' s' -> vs_eqb v v' = st_eqb s s'.
  Proof.
    intros (Sv & W & M) (Sv' & W' & M'). apply eq_true_iff_eq.
    rewrite (st_eqb_spec s s' W W'). unfold vs_eqb.
    rewrite (list_eqb_ok prop_key prop_eqb prop_eqb_ok v v'). split.
    - intros Ek a. rewrite <- M, <- M', Ek. reflexivity.
    - intros H. apply (sorted_keys_unique prop_key atom_dec _ prop_ltb_ok); auto.
      intros a. rewrite M, M'. apply H.
  Qed.

  Lemma of_list_run l : st_of_list l = run (map Ins l).
  Proof.
    unfold st_of_list, hs_of_list, run, run_from, st_empty.
    generalize (hs_empty (T := prop)). induction l as [|p l IH]; intros s; cbn; auto.
  Qed.

  Lemma ins_mem l : forall s, st_wf s ->
    forall a, mem (run_from s (map Ins l)) a <-> In a (map prop_key l) \/ mem s a.
  Proof.
    induction l as [|p l IH]; intros s W a.
    - cbn. tauto.
    - change (run_from s (map Ins (p :: l))) with (run_from (snd (st_insert p s)) (map Ins l)).
      rewrite IH by (apply insert_wf; auto). rewrite insert_mem by auto. cbn.
      split; intros [H|H]; auto; destruct H; auto.
  Qed.

  Lemma alike_list sort l : sorts prop_ltb sort ->
    exists v, vs_of_list sort l = Ok v /\ alike v (st_of_list l).
  Proof.
    intros So.
    destruct (uvc_of_list_spec prop_key prop_eqb prop_ltb prop_ltb_ok prop_eqb_ok sort l So)
      as (v & Ev & Sv & Kv & _).
    exists v. split; [exact Ev|]. rewrite of_list_run. split; [auto|split; [apply run_wf|]].
    intros a. rewrite Kv. unfold run. rewrite ins_mem by apply st_empty_wf.
    split; [auto|]. intros [H|H]; auto. destruct (mem_empty a H).
  Qed.

  (** *** Statements *)

  Lemma vector_state sort init ops : sorts prop_ltb sort ->
    exists v0 v, vs_of_list sort init = Ok v0 /\ vrun_from v0 ops = Ok v /\
      ascending prop_ltb v /\
      (forall p, vs_contains v p = Ok (st_contains (run_from (st_of_list init) ops) p)) /\
      vs_size v = st_size (run_from (st_of_list init) ops) /\
      vs_is_empty v = st_is_empty (run_from (st_of_list init) ops) /\
      (forall o, exists v', vexec_op o v =
         Ok (fst (exec_op o (run_from (st_of_list init) ops)), v')).
  Proof.
    intros So. destruct (alike_list sort init So) as (v0 & E0 & A0).
    destruct (alike_run ops _ _ A0) as (v & Ev & A). exists v0, v.
    split; [auto|split; [auto|split; [|split; [|split; [|split]]]]].
    - eapply sorted_nth. apply A.
    - intros p. apply alike_contains; auto.
    - apply alike_size; auto.
    - unfold st_is_empty. rewrite <- (alike_size _ _ A). destruct v; reflexivity.
    - intros o. destruct (alike_exec o _ _ A) as (v' & E' & _). eauto.
  Qed.

  Lemma vector_equal sort sort' init init' ops ops' v0 v v0' v' :
    sorts prop_ltb sort -> sorts prop_ltb sort' ->
    vs_of_list sort init = Ok v0 -> vrun_from v0 ops = Ok v ->
    vs_of_list sort' init' = Ok v0' -> vrun_from v0' ops' = Ok v' ->
    vs_eqb v v' =
    st_eqb (run_from (st_of_list init) ops) (run_from (st_of_list init') ops').
  Proof.
    intros So So' E0 Ev E0' Ev'.
    destruct (alike_list sort init So) as (w0 & F0 & A0).
    destruct (alike_run ops _ _ A0) as (w & Fw & A).
    destruct (alike_list sort' init' So') as (w0' & F0' & A0').
    destruct (alike_run ops' _ _ A0') as (w' & Fw' & A').
    rewrite F0 in E0. injection E0 as <-. rewrite Fw in Ev. injection Ev as <-.
    rewrite F0' in E0'. injection E0' as <-. rewrite Fw' in Ev'. injection Ev' as <-.
    apply alike_eqb; auto.
  Qed.

  Lemma cexec_eq o s : st_wf s -> cexec_op o s = Ok (exec_op o s).
  Proof.
    intros W. destruct o as [p|p]; cbn [cexec_op exec_op].
    - apply (hsc_insert_eq prop_key atom_dec); auto using prop_ltb_ok, prop_eqb_ok, prop_hash_key, st_bs_wf.
    - apply (hsc_erase_eq prop_key atom_dec); auto using prop_ltb_ok, prop_eqb_ok, prop_hash_key, st_bs_wf.
  Qed.

  Lemma crun_eq ops :
    crun ops = Ok (run ops) /\
    (forall p, hsc_contains prop_hash prop_eqb prop_ltb (run ops) p = Ok (st_contains (run ops) p)) /\
    (forall o, cexec_op o (run ops) = Ok (exec_op o (run ops))).
  Proof.
    split; [|split].
    - unfold crun, run. pose proof st_empty_wf as W. revert W. generalize st_empty.
      induction ops as [|o ops IH]; intros s W; auto. cbn [foldM].
      rewrite cexec_eq by auto. pose proof (exec_op_wf o s W) as W'.
      unfold run_from. cbn [fold_left]. destruct (exec_op o s) as [b s']. cbn [bind snd] in *.
      apply IH; auto.
    - intros p. apply (hsc_contains_eq prop_key); auto using prop_ltb_ok, st_bs_wf, run_wf.
    - intros o. apply cexec_eq, run_wf.
  Qed.

  Lemma vector_search (v : list prop) x : ascending prop_ltb v ->
    exists i, uvc_lower_bound prop_ltb x v = Ok i /\
      search prop_ltb (Datatypes.S (Nat.log2 (length v))) x v 0 (length v) = Ok i /\
      i <= length v /\
      forall j y, nth_error v j = Some y -> (prop_ltb y x = true <-> j < i).
  Proof.
    intros A. apply nth_strong in A.
    destruct (search_all prop_key _ prop_ltb_ok x v A) as (E1 & E2).
    exists (lower_bound prop_ltb x v). split; [auto|split; [auto|split]].
    - apply lower_bound_le.
    - intros j y. apply (lower_bound_nth prop_key _ prop_ltb_ok); auto.
  Qed.
End WithHash.
