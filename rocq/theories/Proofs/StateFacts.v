(** State and PartialState as finite sets of atoms. *)
From Coq Require Import String List NArith Bool Arith Lia Permutation Sorted.
From Verif.Model Require Import Base Order HashSet Object Proposition State.
From Verif.Proofs Require Import OrderFacts HashSetFacts.
Import ListNotations.

Definition atom_dec : forall a b : atom, {a = b} + {a <> b}.
Proof. intros [n1 l1] [n2 l2]. decide equality; [apply (list_eq_dec string_dec)|apply string_dec]. Defined.

Section WithHash.
  Context `{SH : StdHash}.

  Lemma obj_ltb_ok : ord_ok oname obj_ltb.
  Proof. apply (ord_map oname (fun s : string => s) String.ltb), string_ltb_ok. Qed.

  Lemma obj_hash_key a b : oname a = oname b -> obj_hash a = obj_hash b.
  Proof. unfold obj_hash. intros ->; reflexivity. Qed.

  Lemma obj_eqb_ok : eq_ok oname obj_eqb.
  Proof.
    intros a b. unfold obj_eqb. rewrite andb_true_iff, N.eqb_eq, String.eqb_eq.
    split; [tauto|]. intros K; split; auto using obj_hash_key.
  Qed.

  Lemma prop_ltb_ok : ord_ok prop_key prop_ltb.
  Proof.
    apply (pair_ltb_ok pname pargs (fun s : string => s) (map oname)).
    - apply string_dec.
    - apply string_ltb_ok.
    - apply lex_ltb_ok; [apply string_dec|apply obj_ltb_ok].
  Qed.

  Lemma prop_hash_with_key h p q :
    map oname (pargs p) = map oname (pargs q) -> prop_hash_with h p = prop_hash_with h q.
  Proof.
    unfold prop_hash_with. generalize (pargs p) (pargs q) h. clear.
    induction l as [|a l IH]; intros [|b l'] h E; cbn in *; try discriminate; auto.
    injection E as E1 E2. rewrite (obj_hash_key _ _ E1). auto.
  Qed.

  Lemma prop_hash_key p q : prop_key p = prop_key q -> prop_hash p = prop_hash q.
  Proof.
    unfold prop_key. intros E; injection E as E1 E2. unfold prop_hash. rewrite E1.
    apply prop_hash_with_key; auto.
  Qed.

  Lemma prop_eqb_ok : eq_ok prop_key prop_eqb.
  Proof.
    intros p q. unfold prop_eqb. rewrite !andb_true_iff, N.eqb_eq, String.eqb_eq.
    rewrite (list_eqb_ok oname obj_eqb obj_eqb_ok (pargs p) (pargs q)).
    unfold prop_key. split.
    - intros [[_ E1] E2]. congruence.
    - intros E. pose proof (prop_hash_key p q E) as Hh. injection E; auto.
  Qed.

  Definition st_wf (s : state) : Prop := hs_wf prop_hash prop_ltb s.

  (** Membership of an atom (name and argument names). *)
  Definition mem (s : state) (a : atom) : Prop := In a (map prop_key (st_elements s)).

  Lemma mem_dec s a : {mem s a} + {~ mem s a}.
  Proof. apply (in_dec atom_dec). Defined.

  Lemma st_empty_wf : st_wf st_empty.
  Proof. apply hs_empty_wf. Qed.

  Lemma mem_empty a : ~ mem st_empty a.
  Proof. intros []. Qed.

  Lemma contains_mem s p : st_wf s -> st_contains s p = true <-> mem s (prop_key p).
  Proof. apply (hs_contains_spec prop_key atom_dec _ _ _ prop_ltb_ok prop_eqb_ok prop_hash_key). Qed.

  Lemma contains_mem_false s p : st_wf s -> st_contains s p = false <-> ~ mem s (prop_key p).
  Proof.
    intros W. rewrite <- (contains_mem s p W). destruct (st_contains s p); split; congruence.
  Qed.

  Lemma contains_key s p q : prop_key p = prop_key q -> st_contains s p = st_contains s q.
  Proof.
    intros E. unfold st_contains, hs_contains.
    rewrite (bidx_key prop_key prop_hash prop_hash_key (buckets s) _ _ E).
    generalize (nth (bucket_index prop_hash (buckets s) q) (buckets s) []). intros v.
    unfold uv_contains.
    assert (L : lower_bound prop_ltb p v = lower_bound prop_ltb q v).
    { induction v as [|y v IH]; cbn; auto.
      rewrite (ord_resp_r _ _ prop_ltb_ok y _ _ E), IH. reflexivity. }
    rewrite L. destruct (nth_error v _) as [y|]; auto.
    apply eq_true_iff_eq. rewrite !(prop_eqb_ok _ _), E. reflexivity.
  Qed.

  Lemma mem_exists s a : mem s a -> exists p, In p (st_elements s) /\ prop_key p = a.
  Proof. intros M. apply in_map_iff in M as (p & E & I). eauto. Qed.

  Lemma insert_spec p s : st_wf s ->
    st_wf (snd (st_insert p s)) /\
    fst (st_insert p s) = negb (st_contains s p) /\
    (forall a, mem (snd (st_insert p s)) a <-> a = prop_key p \/ mem s a) /\
    (fst (st_insert p s) = false -> snd (st_insert p s) = s).
  Proof.
    intros W.
    destruct (hs_insert_spec prop_key atom_dec _ _ _ prop_ltb_ok prop_eqb_ok prop_hash_key p s W)
      as [[C I]|[C (s' & I & W' & P)]];
      unfold st_insert; rewrite I; unfold st_contains; rewrite C; cbn.
    - repeat split; auto; try apply W.
      intros [->|M]; auto. apply contains_mem; auto.
    - repeat split; auto; try apply W'; try congruence; unfold mem, st_elements in *.
      + intros M. apply (Permutation_in _ (Permutation_map prop_key P)) in M. cbn in M.
        destruct M; auto.
      + intros M. apply (Permutation_in _ (Permutation_sym (Permutation_map prop_key P))). cbn.
        destruct M; auto.
  Qed.

  Lemma erase_spec p s : st_wf s ->
    st_wf (snd (st_erase p s)) /\
    fst (st_erase p s) = st_contains s p /\
    (forall a, mem (snd (st_erase p s)) a <-> a <> prop_key p /\ mem s a) /\
    (fst (st_erase p s) = false -> snd (st_erase p s) = s).
  Proof.
    intros W.
    destruct (hs_erase_spec prop_key atom_dec _ _ _ prop_ltb_ok prop_eqb_ok prop_hash_key p s W)
      as [[C I]|[C (y & s' & I & W' & Ky & P)]];
      unfold st_erase; rewrite I; unfold st_contains; rewrite C; cbn.
    - repeat split; auto; try apply W.
      + intros ->. apply (contains_mem_false s p W) in H; auto.
      + tauto.
    - pose proof (hs_nodup prop_key _ _ prop_ltb_ok prop_hash_key s W) as ND.
      apply (Permutation_NoDup (Permutation_map prop_key P)) in ND. cbn in ND.
      inversion ND as [|? ? NI ND']; subst.
      repeat split; auto; try apply W'; try congruence; unfold mem, st_elements in *.
      + intros ->. apply NI. rewrite Ky. auto.
      + apply (Permutation_in _ (Permutation_sym (Permutation_map prop_key P))). cbn. auto.
      + intros [N M]. apply (Permutation_in _ (Permutation_map prop_key P)) in M. cbn in M.
        destruct M as [M|M]; [|exact M]. congruence.
  Qed.

  Lemma insert_wf p s : st_wf s -> st_wf (snd (st_insert p s)).
  Proof. intros W; apply (insert_spec p s W). Qed.
  Lemma erase_wf p s : st_wf s -> st_wf (snd (st_erase p s)).
  Proof. intros W; apply (erase_spec p s W). Qed.
  Lemma insert_mem p s a : st_wf s -> mem (snd (st_insert p s)) a <-> a = prop_key p \/ mem s a.
  Proof. intros W; apply (insert_spec p s W). Qed.
  Lemma erase_mem p s a : st_wf s -> mem (snd (st_erase p s)) a <-> a <> prop_key p /\ mem s a.
  Proof. intros W; apply (erase_spec p s W). Qed.

  Lemma st_eqb_spec a b : st_wf a -> st_wf b ->
    st_eqb a b = true <-> (forall x, mem a x <-> mem b x).
  Proof.
    intros Wa Wb. unfold st_eqb.
    rewrite (hs_eqb_spec prop_key atom_dec _ _ _ prop_ltb_ok prop_eqb_ok prop_hash_key a b Wa Wb).
    fold st_contains. split.
    - intros E x. split; intros M.
      + destruct (mem_exists _ _ M) as (p & I & <-). apply (contains_mem b p Wb).
        unfold st_contains. rewrite <- E. apply (contains_mem a p Wa); auto.
      + destruct (mem_exists _ _ M) as (p & I & <-). apply (contains_mem a p Wa).
        unfold st_contains. rewrite E. apply (contains_mem b p Wb); auto.
    - intros E p. apply eq_true_iff_eq. fold (st_contains a p) (st_contains b p).
      rewrite (contains_mem a p Wa), (contains_mem b p Wb). apply E.
  Qed.

  Lemma st_eqb_keys a b : st_eqb a b = true <-> map (map prop_key) (buckets a) = map (map prop_key) (buckets b).
  Proof. apply (hs_eqb_keys prop_key _ prop_eqb_ok). Qed.

  Lemma st_eqb_refl a : st_eqb a a = true.
  Proof. apply st_eqb_keys; reflexivity. Qed.

  Lemma elements_keys a b : st_eqb a b = true ->
    map prop_key (st_elements a) = map prop_key (st_elements b).
  Proof.
    rewrite st_eqb_keys. intros E. unfold st_elements, hs_elements.
    rewrite !concat_map, E. reflexivity.
  Qed.

  Lemma st_hash_eq a b : st_eqb a b = true -> st_hash a = st_hash b.
  Proof.
    intros E. apply elements_keys in E. unfold st_hash. generalize 0%N.
    revert E. generalize (st_elements a) (st_elements b).
    induction l as [|x l IH]; intros [|y l'] E n; cbn in *; try discriminate; auto.
    injection E as E1 E2. rewrite (prop_hash_key x y); auto.
    unfold prop_key. congruence.
  Qed.

  Lemma st_nodup s : st_wf s -> NoDup (map prop_key (st_elements s)).
  Proof. apply (hs_nodup prop_key _ _ prop_ltb_ok prop_hash_key). Qed.

  Lemma st_size_elements s : st_wf s -> st_size s = length (st_elements s).
  Proof. intros W. apply (hw_size _ _ _ W). Qed.

  (** Borrowed propositions. *)
  Lemma ref_eqb_eq p stored : ref_eqb (name_hash (pname p)) stored p = prop_eqb stored p.
  Proof. reflexivity. Qed.

  (** PartialState *)
  Definition ps_wf (s : partial_state) : Prop := st_wf (ps_pos s) /\ st_wf (ps_neg s).

  Definition ps_disjoint (s : partial_state) : Prop :=
    forall a, mem (ps_pos s) a -> ~ mem (ps_neg s) a.

  Lemma ps_consistent_spec s : ps_wf s -> ps_is_consistent s = true <-> ps_disjoint s.
  Proof.
    intros [Wp Wn]. unfold ps_is_consistent, ps_disjoint. rewrite forallb_forall. split.
    - intros F a M. destruct (mem_exists _ _ M) as (p & I & <-).
      specialize (F p I). apply negb_true_iff in F. apply contains_mem_false; auto.
    - intros D p I. apply negb_true_iff. apply contains_mem_false; auto.
      apply D. unfold mem. apply in_map; auto.
  Qed.

  Lemma ps_insert_eq p s : ps_insert p s =
    (Nat.b2n (fst (st_erase p (ps_neg s))) + Nat.b2n (fst (st_insert p (ps_pos s))),
     mkPS (snd (st_insert p (ps_pos s))) (snd (st_erase p (ps_neg s)))).
  Proof.
    unfold ps_insert. destruct (st_erase p (ps_neg s)), (st_insert p (ps_pos s)); reflexivity.
  Qed.

  Lemma ps_erase_eq p s : ps_erase p s =
    (Nat.b2n (fst (st_erase p (ps_pos s))) + Nat.b2n (fst (st_insert p (ps_neg s))),
     mkPS (snd (st_erase p (ps_pos s))) (snd (st_insert p (ps_neg s)))).
  Proof.
    unfold ps_erase. destruct (st_erase p (ps_pos s)), (st_insert p (ps_neg s)); reflexivity.
  Qed.

  Lemma ps_insert_wf p s : ps_wf s -> ps_wf (snd (ps_insert p s)).
  Proof. rewrite ps_insert_eq. intros [Wp Wn]. split; cbn; [apply insert_wf|apply erase_wf]; auto. Qed.
  Lemma ps_erase_wf p s : ps_wf s -> ps_wf (snd (ps_erase p s)).
  Proof. rewrite ps_erase_eq. intros [Wp Wn]. split; cbn; [apply erase_wf|apply insert_wf]; auto. Qed.

  Lemma ps_insert_disjoint p s : ps_wf s -> ps_disjoint s -> ps_disjoint (snd (ps_insert p s)).
  Proof.
    intros [Wp Wn] D a. rewrite ps_insert_eq. cbn. rewrite insert_mem, erase_mem by auto.
    intros [->|M] [N M']; [congruence|]. apply (D a); auto.
  Qed.
  Lemma ps_erase_disjoint p s : ps_wf s -> ps_disjoint s -> ps_disjoint (snd (ps_erase p s)).
  Proof.
    intros [Wp Wn] D a. rewrite ps_erase_eq. cbn. rewrite insert_mem, erase_mem by auto.
    intros [N M] [->|M']; [congruence|]. apply (D a); auto.
  Qed.
End WithHash.
