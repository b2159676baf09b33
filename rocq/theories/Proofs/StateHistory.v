(** Lemmas about histories of State and PartialState calls. *)
From Coq Require Import String List Bool NArith Arith Lia.
From Verif.Model Require Import Base HashSet Object Proposition State.
From Verif.Spec Require Import SetSpec.
From Verif.Proofs Require Import OrderFacts HashSetFacts StateFacts.
Import ListNotations.

Section WithHash.
  Context `{SH : StdHash}.

  Lemma exec_op_wf o s : st_wf s -> st_wf (snd (exec_op o s)).
  Proof. destruct o; cbn; [apply insert_wf|apply erase_wf]. Qed.

  Lemma run_from_wf ops : forall s, st_wf s -> st_wf (run_from s ops).
  Proof. induction ops as [|o ops IH]; cbn; intros s W; auto. apply IH, exec_op_wf, W. Qed.

  Lemma run_wf ops : st_wf (run ops).
  Proof. apply run_from_wf, st_empty_wf. Qed.

  Lemma run_snoc ops o : run (ops ++ [o]) = snd (exec_op o (run ops)).
  Proof. unfold run, run_from. rewrite fold_left_app. reflexivity. Qed.

  Lemma last_snoc_ins ops p a :
    last_call_inserts (ops ++ [Ins p]) a <->
    a = prop_key p \/ last_call_inserts ops a.
  Proof.
    split.
    - intros (b & q & aft & E & K & F). destruct aft as [|o aft] using rev_ind.
      + apply app_inj_tail in E as [-> E]. injection E as ->. auto.
      + right. rewrite app_comm_cons, app_assoc in E. apply app_inj_tail in E as [-> <-].
        exists b, q, aft. repeat split; auto. intros o Io. apply F, in_app_iff. auto.
    - intros [->|(b & q & aft & -> & K & F)].
      + exists ops, p, []. repeat split; auto; intros o [].
      + destruct (atom_dec (prop_key p) a) as [Ep|Np].
        * exists (b ++ Ins q :: aft), p, []. repeat split; auto; intros o [].
        * exists b, q, (aft ++ [Ins p]). rewrite <- app_assoc. repeat split; auto.
          intros o Io. apply in_app_iff in Io as [Io|[<-|[]]]; auto.
  Qed.

  Lemma last_snoc_del ops p a :
    last_call_inserts (ops ++ [Del p]) a <->
    a <> prop_key p /\ last_call_inserts ops a.
  Proof.
    split.
    - intros (b & q & aft & E & K & F). destruct aft as [|o aft] using rev_ind.
      + apply app_inj_tail in E as [-> E]. discriminate.
      + rewrite app_comm_cons, app_assoc in E. apply app_inj_tail in E as [-> <-]. split.
        * intros ->. apply (F (Del p)); auto. apply in_app_iff; cbn; auto.
        * exists b, q, aft. repeat split; auto. intros o Io. apply F, in_app_iff. auto.
    - intros [N (b & q & aft & -> & K & F)].
      exists b, q, (aft ++ [Del p]). rewrite <- app_assoc. repeat split; auto.
      intros o Io. apply in_app_iff in Io as [Io|[<-|[]]]; auto.
  Qed.

  Lemma run_mem ops : forall a, mem (run ops) a <-> last_call_inserts ops a.
  Proof.
    induction ops as [|o ops IH] using rev_ind; intros a.
    - split.
      + intros M. destruct (mem_empty a M).
      + intros (b & p & aft & E & _). destruct b; discriminate.
    - rewrite run_snoc. destruct o as [p|p]; cbn [exec_op].
      + rewrite insert_mem, IH, last_snoc_ins by apply run_wf. reflexivity.
      + rewrite erase_mem, IH, last_snoc_del by apply run_wf. reflexivity.
  Qed.

  Lemma run_contains ops p :
    st_contains (run ops) p = true <-> last_call_inserts ops (prop_key p).
  Proof. rewrite contains_mem, run_mem by apply run_wf. reflexivity. Qed.

  Lemma exec_op_changed o s : st_wf s ->
    fst (exec_op o s) = true <->
    st_contains s (op_prop o) <> st_contains (snd (exec_op o s)) (op_prop o).
  Proof.
    intros W. pose proof (exec_op_wf o s W) as W'. destruct o as [p|p]; cbn [exec_op op_prop] in *.
    - destruct (insert_spec p s W) as (_ & -> & M & _).
      assert (C : st_contains (snd (st_insert p s)) p = true).
      { apply contains_mem; auto. apply M. auto. }
      rewrite C. destruct (st_contains s p); cbn; split; congruence.
    - destruct (erase_spec p s W) as (_ & -> & M & _).
      assert (C : st_contains (snd (st_erase p s)) p = false).
      { apply contains_mem_false; auto. rewrite M. tauto. }
      rewrite C. destruct (st_contains s p); split; congruence.
  Qed.

  Lemma run_changed ops o :
    fst (exec_op o (run ops)) = true <->
    st_contains (run ops) (op_prop o) <> st_contains (run (ops ++ [o])) (op_prop o).
  Proof. rewrite run_snoc. apply exec_op_changed, run_wf. Qed.

  Lemma run_same ops ops' :
    st_eqb (run ops) (run ops') = true <-> same_contents (run ops) (run ops').
  Proof.
    unfold st_eqb, same_contents, st_contains.
    apply (hs_eqb_spec prop_key atom_dec _ _ _ prop_ltb_ok prop_eqb_ok prop_hash_key); apply run_wf.
  Qed.

  Lemma same_contents_refl s : same_contents s s.
  Proof. intros p; reflexivity. Qed.

  Lemma run_traverse ops fuel : st_size (run ops) <= fuel ->
    exists l, hs_traverse fuel (run ops) (hs_begin (run ops)) = Ok l /\
      NoDup (map prop_key l) /\ length l = st_size (run ops) /\
      forall p, st_contains (run ops) p = true <-> In (prop_key p) (map prop_key l).
  Proof.
    intros L. pose proof (run_wf ops) as W.
    exists (st_elements (run ops)). repeat split.
    - apply traverse_elements. unfold st_size in L. rewrite (hw_size _ _ _ W) in L. exact L.
    - apply st_nodup, W.
    - symmetry. apply st_size_elements, W.
    - apply contains_mem, W.
    - apply contains_mem, W.
  Qed.

  Lemma run_traverse_same ops ops' fuel l l' :
    same_contents (run ops) (run ops') ->
    hs_traverse fuel (run ops) (hs_begin (run ops)) = Ok l ->
    hs_traverse fuel (run ops') (hs_begin (run ops')) = Ok l' ->
    map prop_key l = map prop_key l'.
  Proof.
    intros S T T'. apply run_same in S.
    assert (HH : forall s k l, hs_traverse k s (hs_begin s) = Ok l -> l = st_elements s).
    { clear. intros s k l T.
      pose proof (traverse_elements s (k + length (hs_elements s))) as T'.
      assert (M : forall k k' (s : state) p l, hs_traverse k s p = Ok l -> hs_traverse (k + k') s p = Ok l).
      { clear. induction k as [|k IH]; intros k' s p l T; cbn [hs_traverse plus] in *.
        - destruct (pos_eqb p (hs_end s)) eqn:C; [|discriminate].
          destruct k'; cbn [hs_traverse]; rewrite C; auto.
        - destruct (pos_eqb p (hs_end s)); auto.
          destruct (hs_deref s p); cbn [bind] in *; try discriminate.
          destruct (hs_traverse k s (hs_next s p)) eqn:T1; cbn [bind] in *; try discriminate.
          rewrite (IH k' _ _ _ T1). auto. }
      rewrite (M _ (length (hs_elements s)) _ _ _ T) in T'.
      specialize (T' ltac:(lia)). injection T' as ->. reflexivity. }
    rewrite (HH _ _ _ T), (HH _ _ _ T'). apply elements_keys; auto.
  Qed.

  (** Order *)
  Definition statekey (s : state) := map (map prop_key) (buckets s).

  Lemma st_ltb_ok : ord_ok statekey st_ltb.
  Proof. apply (hs_ltb_ok prop_key atom_dec _ prop_ltb_ok). Qed.

  Lemma statekey_dec : forall a b : list (list atom), {a = b} + {a <> b}.
  Proof. apply list_eq_dec, list_eq_dec, atom_dec. Qed.

  Lemma ps_ltb_ok : ord_ok (fun s => (statekey (ps_pos s), statekey (ps_neg s))) ps_ltb.
  Proof. apply (pair_ltb_ok ps_pos ps_neg statekey statekey st_ltb st_ltb statekey_dec); apply st_ltb_ok. Qed.

  Lemma ps_eqb_keys a b : ps_eqb a b = true <->
    (statekey (ps_pos a), statekey (ps_neg a)) = (statekey (ps_pos b), statekey (ps_neg b)).
  Proof.
    unfold ps_eqb, statekey. rewrite andb_true_iff, !st_eqb_keys. split.
    - intros [-> ->]; reflexivity.
    - intros E; injection E; auto.
  Qed.

  (** PartialState histories *)
  Lemma exec_pop_ok o s : ps_wf s /\ ps_disjoint s ->
    ps_wf (snd (exec_pop o s)) /\ ps_disjoint (snd (exec_pop o s)).
  Proof.
    intros [W D]. destruct o; cbn.
    - split; [apply ps_insert_wf|apply ps_insert_disjoint]; auto.
    - split; [apply ps_erase_wf|apply ps_erase_disjoint]; auto.
  Qed.

  Lemma prun_from_ok ops : forall s, ps_wf s /\ ps_disjoint s ->
    ps_wf (prun_from s ops) /\ ps_disjoint (prun_from s ops).
  Proof.
    induction ops as [|o ops IH]; intros s H; [exact H|].
    cbn. apply IH, exec_pop_ok, H.
  Qed.

  Lemma ps_empty_ok : ps_wf ps_empty /\ ps_disjoint ps_empty.
  Proof. split; [split; apply st_empty_wf|]. intros a []. Qed.

  Lemma prun_ok ops : ps_wf (prun ops) /\ ps_disjoint (prun ops).
  Proof. apply prun_from_ok, ps_empty_ok. Qed.

  Lemma prun_snoc ops o : prun (ops ++ [o]) = snd (exec_pop o (prun ops)).
  Proof. unfold prun, prun_from. rewrite fold_left_app. reflexivity. Qed.

  Lemma last_snoc_era_del ops p a :
    last_call_erases (ops ++ [Del p]) a <-> a = prop_key p \/ last_call_erases ops a.
  Proof.
    split.
    - intros (b & q & aft & E & K & F). destruct aft as [|o aft] using rev_ind.
      + apply app_inj_tail in E as [-> E]. injection E as ->. auto.
      + right. rewrite app_comm_cons, app_assoc in E. apply app_inj_tail in E as [-> <-].
        exists b, q, aft. repeat split; auto. intros o Io. apply F, in_app_iff. auto.
    - intros [->|(b & q & aft & -> & K & F)].
      + exists ops, p, []. repeat split; auto; intros o [].
      + destruct (atom_dec (prop_key p) a) as [Ep|Np].
        * exists (b ++ Del q :: aft), p, []. repeat split; auto; intros o [].
        * exists b, q, (aft ++ [Del p]). rewrite <- app_assoc. repeat split; auto.
          intros o Io. apply in_app_iff in Io as [Io|[<-|[]]]; auto.
  Qed.

  Lemma last_snoc_era_ins ops p a :
    last_call_erases (ops ++ [Ins p]) a <-> a <> prop_key p /\ last_call_erases ops a.
  Proof.
    split.
    - intros (b & q & aft & E & K & F). destruct aft as [|o aft] using rev_ind.
      + apply app_inj_tail in E as [-> E]. discriminate.
      + rewrite app_comm_cons, app_assoc in E. apply app_inj_tail in E as [-> <-]. split.
        * intros ->. apply (F (Ins p)); auto. apply in_app_iff; cbn; auto.
        * exists b, q, aft. repeat split; auto. intros o Io. apply F, in_app_iff. auto.
    - intros [N (b & q & aft & -> & K & F)].
      exists b, q, (aft ++ [Ins p]). rewrite <- app_assoc. repeat split; auto.
      intros o Io. apply in_app_iff in Io as [Io|[<-|[]]]; auto.
  Qed.

  Lemma prun_mem ops : forall a,
    (mem (ps_pos (prun ops)) a <-> last_call_inserts ops a) /\
    (mem (ps_neg (prun ops)) a <-> last_call_erases ops a).
  Proof.
    induction ops as [|o ops IH] using rev_ind; intros a.
    - split; split.
      + intros M. destruct (mem_empty a M).
      + intros (b & p & aft & E & _). destruct b; discriminate.
      + intros M. destruct (mem_empty a M).
      + intros (b & p & aft & E & _). destruct b; discriminate.
    - rewrite prun_snoc. destruct (prun_ok ops) as [[Wp Wn] _]. specialize (IH a) as [I1 I2].
      destruct o as [p|p]; cbn [exec_pop].
      + rewrite ps_insert_eq; cbn [snd ps_pos ps_neg].
        rewrite insert_mem, erase_mem, I1, I2, last_snoc_ins, last_snoc_era_ins by auto.
        split; reflexivity.
      + rewrite ps_erase_eq; cbn [snd ps_pos ps_neg].
        rewrite insert_mem, erase_mem, I1, I2, last_snoc_del, last_snoc_era_del by auto.
        split; reflexivity.
  Qed.

  Lemma exec_pop_code o s : ps_wf s -> ps_disjoint s ->
    fst (exec_pop o s) =
      match ps_contains s (op_prop o), o with
      | Ok true, Ins _ => 0 | Ok false, Del _ => 0
      | Ok true, Del _ => 2 | Ok false, Ins _ => 2
      | _, _ => 1
      end.
  Proof.
    intros [Wp Wn] D. unfold ps_contains. destruct o as [p|p]; cbn [exec_pop op_prop];
      [rewrite ps_insert_eq|rewrite ps_erase_eq]; cbn [fst].
    - destruct (insert_spec p (ps_pos s) Wp) as (_ & -> & _ & _).
      destruct (erase_spec p (ps_neg s) Wn) as (_ & -> & _ & _).
      destruct (st_contains (ps_pos s) p) eqn:Cp.
      + apply contains_mem in Cp; auto. apply D in Cp. apply contains_mem_false in Cp; auto.
        rewrite Cp. reflexivity.
      + destruct (st_contains (ps_neg s) p); reflexivity.
    - destruct (insert_spec p (ps_neg s) Wn) as (_ & -> & _ & _).
      destruct (erase_spec p (ps_pos s) Wp) as (_ & -> & _ & _).
      destruct (st_contains (ps_pos s) p) eqn:Cp.
      + apply contains_mem in Cp; auto. apply D in Cp. apply contains_mem_false in Cp; auto.
        rewrite Cp. reflexivity.
      + destruct (st_contains (ps_neg s) p); reflexivity.
  Qed.

  Lemma uv_contains_ext (f g : prop -> prop -> bool) x v :
    (forall y, f y x = g y x) -> uv_contains f prop_ltb x v = uv_contains g prop_ltb x v.
  Proof. intros E. unfold uv_contains. destruct (nth_error _ _); auto. Qed.
  Lemma uv_insert_ext (f g : prop -> prop -> bool) x v :
    (forall y, f y x = g y x) -> uv_insert f prop_ltb x v = uv_insert g prop_ltb x v.
  Proof. intros E. unfold uv_insert. destruct (nth_error _ _); auto. rewrite E; auto. Qed.
  Lemma uv_erase_ext (f g : prop -> prop -> bool) x v :
    (forall y, f y x = g y x) -> uv_erase f prop_ltb x v = uv_erase g prop_ltb x v.
  Proof. intros E. unfold uv_erase. destruct (nth_error _ _); auto. rewrite E; auto. Qed.

  Lemma borrowed_same s p :
    st_contains_ref (name_hash (pname p)) s p = st_contains s p /\
    st_insert_ref (name_hash (pname p)) p s = st_insert p s /\
    st_erase_ref (name_hash (pname p)) p s = st_erase p s.
  Proof.
    assert (I : bucket_index (prop_hash_with (name_hash (pname p))) (buckets s) p =
                bucket_index prop_hash (buckets s) p) by reflexivity.
    unfold st_contains_ref, st_insert_ref, st_erase_ref, st_contains, st_insert, st_erase,
      hs_contains, hs_insert, hs_erase. rewrite I.
    rewrite (uv_contains_ext _ prop_eqb p _ (ref_eqb_eq p)).
    rewrite (uv_insert_ext _ prop_eqb p _ (ref_eqb_eq p)).
    rewrite (uv_erase_ext _ prop_eqb p _ (ref_eqb_eq p)).
    repeat split; reflexivity.
  Qed.

  Lemma order_of_ord_ok {A K} (key : A -> K) eqb ltb :
    (forall a b : K, {a = b} + {a <> b}) ->
    ord_ok key ltb -> (forall x y, eqb x y = true <-> key x = key y) ->
    strict_total_order eqb ltb.
  Proof.
    intros D OO EE.
    assert (EF : forall x y, key x <> key y -> eqb x y = false).
    { intros x y N. destruct (eqb x y) eqn:C; auto. apply EE in C. contradiction. }
    constructor.
    - intros x. apply (ord_irrefl _ _ OO); reflexivity.
    - apply (ord_trans _ _ OO).
    - intros x y. destruct (D (key x) (key y)) as [Q|N].
      + right; right. rewrite (ord_irrefl _ _ OO x y Q), (ord_irrefl _ _ OO y x (eq_sym Q)).
        repeat split; auto. apply EE; auto.
      + destruct (ord_total _ _ OO x y N) as [L|L].
        * left. rewrite L, (ord_asym _ _ OO _ _ L), EF; auto.
        * right; left. rewrite L, (ord_asym _ _ OO _ _ L), EF; auto.
  Qed.

  Lemma prop_order : strict_total_order prop_eqb prop_ltb.
  Proof. apply (order_of_ord_ok prop_key _ _ atom_dec prop_ltb_ok prop_eqb_ok). Qed.

  Lemma state_order : strict_total_order st_eqb st_ltb.
  Proof. apply (order_of_ord_ok statekey _ _ statekey_dec st_ltb_ok st_eqb_keys). Qed.

  Lemma partial_state_order : strict_total_order ps_eqb ps_ltb.
  Proof.
    apply (order_of_ord_ok (fun s => (statekey (ps_pos s), statekey (ps_neg s)))).
    - intros [a b] [c d]. decide equality; apply statekey_dec.
    - apply ps_ltb_ok.
    - apply ps_eqb_keys.
  Qed.

  Lemma prun_consistent init ops :
    ps_is_consistent (prun init) = true /\
    ps_is_consistent (prun_from (prun init) ops) = true.
  Proof.
    split.
    - apply ps_consistent_spec; apply prun_ok.
    - destruct (prun_from_ok ops (prun init) (prun_ok init)). apply ps_consistent_spec; auto.
  Qed.

  Lemma prun_from_sets_ok pos neg ops :
    ps_is_consistent (mkPS (run pos) (run neg)) = true ->
    ps_wf (prun_from (mkPS (run pos) (run neg)) ops) /\
    ps_disjoint (prun_from (mkPS (run pos) (run neg)) ops).
  Proof.
    intros C. assert (W : ps_wf (mkPS (run pos) (run neg))) by (split; apply run_wf).
    apply prun_from_ok. split; auto. apply ps_consistent_spec; auto.
  Qed.

  Lemma prun_from_sets pos neg ops :
    ps_is_consistent (mkPS (run pos) (run neg)) = true ->
    ps_is_consistent (prun_from (mkPS (run pos) (run neg)) ops) = true.
  Proof.
    intros C. destruct (prun_from_sets_ok pos neg ops C). apply ps_consistent_spec; auto.
  Qed.

  Lemma prun_contents ops p :
    (st_contains (ps_pos (prun ops)) p = true <-> last_call_inserts ops (prop_key p)) /\
    (st_contains (ps_neg (prun ops)) p = true <-> last_call_erases ops (prop_key p)).
  Proof.
    destruct (prun_ok ops) as [[Wp Wn] _]. rewrite !contains_mem by auto. apply prun_mem.
  Qed.

  Lemma prun_codes pos neg ops o :
    ps_is_consistent (mkPS (run pos) (run neg)) = true ->
    let s := prun_from (mkPS (run pos) (run neg)) ops in
    fst (exec_pop o s) =
      match ps_contains s (op_prop o), o with
      | Ok true, Ins _ => 0 | Ok false, Del _ => 0
      | Ok true, Del _ => 2 | Ok false, Ins _ => 2
      | _, _ => 1
      end.
  Proof. intros C. destruct (prun_from_sets_ok pos neg ops C). apply exec_pop_code; auto. Qed.

  Lemma codes_inconsistent : exists pos neg p,
    ps_contains (mkPS (run pos) (run neg)) p = Ok true /\
    fst (ps_insert p (mkPS (run pos) (run neg))) = 1.
  Proof.
    pose (p := mkProp "p"%string []). exists [Ins p], [Ins p], p.
    assert (C : st_contains (run [Ins p]) p = true).
    { apply run_contains. exists [], p, []. repeat split; intros ? []. }
    unfold ps_contains. cbn [ps_pos ps_neg]. rewrite C. split; auto.
    rewrite ps_insert_eq. cbn [fst ps_pos ps_neg].
    destruct (insert_spec p (run [Ins p]) (run_wf _)) as (_ & -> & _).
    destruct (erase_spec p (run [Ins p]) (run_wf _)) as (_ & -> & _).
    rewrite C. reflexivity.
  Qed.

  Lemma prun_queries pos neg ops p :
    ps_is_consistent (mkPS (run pos) (run neg)) = true ->
    let s := prun_from (mkPS (run pos) (run neg)) ops in
    (ps_contains s p = Ok true /\ ps_does_not_contain s p = Ok false /\
       st_contains (ps_pos s) p = true /\ st_contains (ps_neg s) p = false) \/
    (ps_contains s p = Ok false /\ ps_does_not_contain s p = Ok true /\
       st_contains (ps_pos s) p = false /\ st_contains (ps_neg s) p = true) \/
    (ps_contains s p = Throw EUnknown /\ ps_does_not_contain s p = Throw EUnknown /\
       st_contains (ps_pos s) p = false /\ st_contains (ps_neg s) p = false).
  Proof.
    intros C s. destruct (prun_from_sets_ok pos neg ops C) as [[Wp Wn] D]. fold s in Wp, Wn, D.
    unfold ps_contains, ps_does_not_contain.
    destruct (st_contains (ps_pos s) p) eqn:Cp.
    - apply contains_mem in Cp; [|auto]. apply D in Cp. apply contains_mem_false in Cp; [|auto].
      left. rewrite Cp. repeat split.
    - destruct (st_contains (ps_neg s) p); auto 10.
  Qed.
End WithHash.
