(** Lemmas about the combination generator. *)
From Coq Require Import List Bool ZArith Lia FinFun.
From Verif.Model Require Import Base CombinationGenerator.
From Verif.Spec Require Import CartesianSpec.
Import ListNotations.
Local Open Scope Z_scope.

Lemma to_size_t_id z : 0 <= z < 2 ^ 64 -> to_size_t z = z.
Proof. intros. unfold to_size_t. apply Z.mod_small; auto. Qed.
Lemma to_int_id z : - 2 ^ 31 <= z < 2 ^ 31 -> to_int z = z.
Proof. intros. unfold to_int. rewrite Z.mod_small; lia. Qed.

Lemma digit_ok rem g : 0 <= rem < 2 ^ 31 -> 0 < g < 2 ^ 31 ->
  digit rem g = Ok (rem / g, rem mod g).
Proof.
  intros R G. unfold digit. destruct (g =? 0) eqn:E; [lia|]. clear E.
  assert (0 <= rem / g <= rem).
  { split; [apply Z.div_pos; lia|]. apply Z.div_le_upper_bound; nia. }
  assert (B : rem / g * g <= rem) by (rewrite Z.mul_comm; apply Z.mul_div_le; lia).
  assert (M : rem mod g = rem - rem / g * g) by (rewrite Z.mod_eq; lia).
  assert (0 <= rem / g * g) by nia.
  assert (P : 2 ^ 31 < 2 ^ 64) by reflexivity.
  rewrite (to_size_t_id rem) by lia. rewrite (to_int_id (rem / g)) by lia.
  rewrite (to_size_t_id (rem / g)) by lia. rewrite (to_size_t_id (rem / g * g)) by lia.
  rewrite <- M. assert (0 <= rem mod g < g) by (apply Z.mod_pos_bound; lia).
  rewrite to_size_t_id by lia. rewrite to_int_id by lia. reflexivity.
Qed.

Section Gen.
  Context {A : Type} (dflt : A) (eqb : A -> A -> bool).
  Implicit Types (options : list (list A)).

  Definition all_nonempty options := Forall (fun o : list A => o <> []) options.

  Lemma product_pos options : all_nonempty options -> 0 < product options.
  Proof.
    induction 1 as [|o os N _ IH]; cbn; [lia|]. destruct o; [congruence|]. cbn [length]. nia.
  Qed.

  Lemma len_pos (o : list A) : o <> [] -> 0 < Z.of_nat (length o).
  Proof. destruct o; cbn [length]; [congruence|lia]. Qed.

  Lemma product_head_le o os : o <> [] -> all_nonempty os -> product os <= product (o :: os).
  Proof.
    intros N H. pose proof (product_pos _ H). pose proof (len_pos _ N). cbn. nia.
  Qed.

  (** The group of a slot is the number of combinations of the later slots. *)
  Fixpoint groups_spec options : list Z :=
    match options with [] => [] | _ :: os => product os :: groups_spec os end.

  Lemma group_sizes_spec options : all_nonempty options -> product options < 2 ^ 31 ->
    group_sizes options = groups_spec options.
  Proof.
    induction options as [|o os IH]; auto. intros H L. inversion H as [|? ? No Hs]; subst.
    pose proof (product_head_le _ _ No Hs). specialize (IH Hs).
    cbn [groups_spec group_sizes]. rewrite IH by lia. destruct os as [|o2 os2].
    - reflexivity.
    - cbn [groups_spec]. f_equal. unfold size_of. pose proof (product_pos _ Hs). cbn [product] in *.
      assert (P : 2 ^ 31 < 2 ^ 64) by reflexivity. apply to_size_t_id. lia.
  Qed.

  Lemma make_gen_ok options : good_options options ->
    make_gen options = Ok (mkGen options (groups_spec options) (product options)).
  Proof.
    intros (N & H & L). unfold make_gen. replace (existsb _ options) with false.
    - rewrite group_sizes_spec by auto. f_equal. f_equal.
      destruct options as [|o os]; [congruence|]. cbn [compute_size groups_spec].
      assert (P : 2 ^ 31 < 2 ^ 64) by reflexivity. pose proof (product_pos _ H).
      unfold size_of. cbn [product] in *. apply to_size_t_id. lia.
    - symmetry. clear N L. induction H as [|o os No _ IH]; auto. cbn. destruct o; [congruence|auto].
  Qed.

  Lemma cart_length options : Z.of_nat (length (cart options)) = product options.
  Proof.
    induction options as [|o os IH]; auto. cbn [cart product]. rewrite <- IH. clear IH.
    induction o as [|x o IH]; auto. cbn [flat_map length]. rewrite app_length, map_length. lia.
  Qed.

  Lemma combination_at_cons o os i : 0 <= i -> all_nonempty os ->
    combination_at (o :: os) i =
    match nth_error o (Z.to_nat (i / product os)), combination_at os (i mod product os) with
    | Some x, Some c => Some (x :: c)
    | _, _ => None
    end.
  Proof.
    intros I H. pose proof (product_pos _ H) as P. unfold combination_at at 1.
    destruct (i <? 0) eqn:E; [lia|]. clear E. cbn [cart]. revert i I.
    induction o as [|x o IH]; intros i I.
    - cbn. destruct (Z.to_nat i); cbn; destruct (Z.to_nat (i / product os)); reflexivity.
    - cbn [flat_map]. pose proof (cart_length os) as CL.
      destruct (Z_lt_le_dec i (product os)) as [Lt|Ge].
      + rewrite nth_error_app1 by (rewrite map_length; lia).
        rewrite Z.div_small, Z.mod_small by lia. cbn [nth_error Z.to_nat].
        unfold combination_at. destruct (i <? 0) eqn:E; [lia|].
        destruct (nth_error (cart os) (Z.to_nat i)) as [c|] eqn:Q.
        * rewrite (map_nth_error _ _ _ Q). reflexivity.
        * apply nth_error_None in Q. lia.
      + rewrite nth_error_app2 by (rewrite map_length; lia). rewrite map_length.
        replace (Z.to_nat i - length (cart os))%nat with (Z.to_nat (i - product os)) by lia.
        rewrite IH by lia.
        assert (D : i / product os = (i - product os) / product os + 1).
        { replace i with (i - product os + 1 * product os) at 1 by lia.
          rewrite Z.div_add by lia. reflexivity. }
        assert (M : i mod product os = (i - product os) mod product os).
        { replace i with (i - product os + 1 * product os) at 1 by lia.
          rewrite Z.mod_add by lia. reflexivity. }
        rewrite D, M. assert (0 <= (i - product os) / product os) by (apply Z.div_pos; lia).
        rewrite Z2Nat.inj_add by lia. rewrite Nat.add_comm. reflexivity.
  Qed.

  Lemma combination_at_in options i : all_nonempty options ->
    (exists c, combination_at options i = Some c) <-> 0 <= i < product options.
  Proof.
    intros H. pose proof (cart_length options) as L. unfold combination_at.
    destruct (i <? 0) eqn:E; split.
    - intros [c C]; congruence.
    - lia.
    - intros [c C]. assert (nth_error (cart options) (Z.to_nat i) <> None) by congruence.
      apply nth_error_Some in H0. lia.
    - intros B. destruct (nth_error _ _) eqn:Q; eauto. apply nth_error_None in Q. lia.
  Qed.

  Lemma combination_at_len options : forall i c, combination_at options i = Some c ->
    length c = length options.
  Proof.
    assert (G : forall c, In c (cart options) -> length c = length options).
    { induction options as [|o os IH]; cbn [cart].
      - intros c [<-|[]]; auto.
      - intros c I. apply in_flat_map in I. destruct I as (x & _ & I). apply in_map_iff in I.
        destruct I as (c' & <- & I). cbn. f_equal; auto. }
    intros i c. unfold combination_at. destruct (i <? 0); [congruence|]. intros I.
    apply nth_error_In in I. auto.
  Qed.

  Lemma option_at_ok (o : list A) d : 0 <= d < 2 ^ 31 ->
    option_at o d = match nth_error o (Z.to_nat d) with Some x => Ok x | None => Throw EOutOfRange end.
  Proof.
    intros D. assert (P : 2 ^ 31 < 2 ^ 64) by reflexivity. unfold option_at, size_of.
    rewrite to_size_t_id by lia. destruct (d <? _) eqn:E; auto.
    destruct (nth_error _ _) eqn:Q; auto. assert (nth_error o (Z.to_nat d) <> None) by congruence.
    apply nth_error_Some in H. lia.
  Qed.

  Lemma div_bound i n p : 0 < p -> 0 <= i < n * p -> 0 <= i / p < n.
  Proof.
    intros. split; [apply Z.div_pos; lia|]. apply Z.div_lt_upper_bound; lia.
  Qed.

  Lemma nth_error_some_lt {B} (l : list B) n : (n < length l)%nat -> exists x, nth_error l n = Some x.
  Proof.
    intros L. destruct (nth_error l n) eqn:E; eauto. apply nth_error_None in E. lia.
  Qed.

  Lemma set_digits_ok options : all_nonempty options -> product options < 2 ^ 31 ->
    forall comb rem c, length comb = length options -> combination_at options rem = Some c ->
    set_digits options (groups_spec options) comb rem = Ok (c, 0).
  Proof.
    induction options as [|o os IH]; intros H L comb rem c Lc C.
    - assert (R : 0 <= rem < 1) by (apply (combination_at_in [] rem H); eauto).
      assert (rem = 0) by lia. subst. destruct comb; [|discriminate]. cbn in C.
      inversion C; subst. reflexivity.
    - inversion H as [|? ? No Hs]; subst. pose proof (product_pos _ Hs) as P.
      pose proof (product_head_le _ _ No Hs) as LE.
      assert (R : 0 <= rem < product (o :: os)) by (apply (combination_at_in _ rem H); eauto).
      destruct comb as [|cc comb]; [discriminate|]. cbn [set_digits groups_spec].
      rewrite digit_ok by lia. cbn [bind]. cbn [product] in R, L, LE.
      pose proof (div_bound _ _ _ P R) as Dv. pose proof (Z.mod_pos_bound rem _ P) as Md.
      rewrite combination_at_cons in C by (lia || auto).
      rewrite option_at_ok. 2:{ assert (rem / product os <= rem) by (apply Z.div_le_upper_bound; nia). lia. }
      destruct (nth_error o _) as [x|] eqn:Nx; [|discriminate]. cbn [bind].
      destruct (combination_at os _) as [c'|] eqn:Nc; [|discriminate]. inversion C; subst.
      rewrite (IH Hs) with (c := c'); [reflexivity|lia|cbn in Lc; lia|exact Nc].
  Qed.

  Lemma change_digits_ok options : all_nonempty options -> product options < 2 ^ 31 ->
    forall comb rem rem' c, combination_at options rem = Some comb ->
    combination_at options rem' = Some c ->
    change_digits options (groups_spec options) comb rem rem' = Ok (c, 0).
  Proof.
    induction options as [|o os IH]; intros H L comb rem rem' c C C'.
    - assert (R : 0 <= rem < 1) by (apply (combination_at_in [] rem H); eauto).
      assert (R' : 0 <= rem' < 1) by (apply (combination_at_in [] rem' H); eauto).
      assert (rem = 0) by lia. assert (rem' = 0) by lia. subst. rewrite C in C'.
      cbn in C. inversion C; inversion C'; subst. reflexivity.
    - inversion H as [|? ? No Hs]; subst. pose proof (product_pos _ Hs) as P.
      pose proof (product_head_le _ _ No Hs) as LE.
      assert (R : 0 <= rem < product (o :: os)) by (apply (combination_at_in _ rem H); eauto).
      assert (R' : 0 <= rem' < product (o :: os)) by (apply (combination_at_in _ rem' H); eauto).
      rewrite combination_at_cons in C, C' by (lia || auto).
      destruct (nth_error o (Z.to_nat (rem / _))) as [x|] eqn:Nx; [|discriminate].
      destruct (combination_at os (rem mod _)) as [cs|] eqn:Nc; [|discriminate].
      destruct (nth_error o (Z.to_nat (rem' / _))) as [x'|] eqn:Nx'; [|discriminate].
      destruct (combination_at os (rem' mod _)) as [cs'|] eqn:Nc'; [|discriminate].
      inversion C; inversion C'; subst.
      cbn [change_digits groups_spec]. rewrite !digit_ok by lia. cbn [bind].
      assert (0 <= rem' / product os <= rem').
      { split; [apply Z.div_pos; lia|apply Z.div_le_upper_bound; nia]. }
      replace (if rem / product os =? rem' / product os then Ok x else option_at o (rem' / product os))
        with (Ok x').
      2:{ destruct (Z.eqb_spec (rem / product os) (rem' / product os)) as [Q|Q].
          - rewrite Q in Nx. congruence.
          - rewrite option_at_ok by lia. rewrite Nx'. reflexivity. }
      cbn [bind]. rewrite (IH Hs) with (c := cs'); [reflexivity|lia|exact Nc|exact Nc'].
  Qed.

  Section OneGen.
    Context (options : list (list A)) (G : good_options options).
    Let g := mkGen options (groups_spec options) (product options).
    Let NE : all_nonempty options := proj1 (proj2 G).
    Let LT : product options < 2 ^ 31 := proj2 (proj2 G).

    Lemma out_of_bounds_spec i : - 2 ^ 31 <= i < 2 ^ 31 ->
      out_of_bounds g i = negb ((0 <=? i) && (i <? product options)).
    Proof.
      intros I. unfold out_of_bounds. cbn [g_size g]. pose proof (product_pos _ NE).
      destruct (Z.ltb_spec i 0).
      - rewrite orb_true_r. destruct (Z.leb_spec 0 i); [lia|reflexivity].
      - rewrite orb_false_r. assert (P : 2 ^ 31 < 2 ^ 64) by reflexivity.
        rewrite to_size_t_id by lia. destruct (Z.leb_spec 0 i); [|lia]. cbn.
        destruct (Z.leb_spec (product options) i), (Z.ltb_spec i (product options)); auto; lia.
    Qed.

    Lemma in_bounds i : 0 <= i < product options -> out_of_bounds g i = false.
    Proof.
      intros. rewrite out_of_bounds_spec by lia. destruct (Z.leb_spec 0 i); [|lia].
      destruct (Z.ltb_spec i (product options)); [reflexivity|lia].
    Qed.

    Lemma at_nonempty_comb i c : combination_at options i = Some c -> c <> [].
    Proof.
      intros C E. apply combination_at_len in C. subst c. pose proof (proj1 G) as N.
      apply N. apply length_zero_iff_nil. symmetry. exact C.
    Qed.

    Lemma new_iter_ok i c : combination_at options i = Some c ->
      new_iter dflt g i = Ok (mkIter i c).
    Proof.
      intros C. assert (B : 0 <= i < product options) by (apply (combination_at_in _ i NE); eauto).
      unfold new_iter, update_all. rewrite to_int_id by lia. cbn [it_idx it_comb].
      rewrite in_bounds by auto. cbn [g_options g_groups g].
      rewrite (set_digits_ok options NE LT _ i c); [reflexivity| |exact C].
      apply repeat_length.
    Qed.

    Lemma end_iter : gen_end dflt g = Ok (mkIter (product options) []).
    Proof.
      unfold gen_end, new_iter, update_all. cbn [g_size g]. pose proof (product_pos _ NE).
      rewrite to_int_id by lia. cbn [it_idx]. rewrite out_of_bounds_spec by lia.
      rewrite Z.ltb_irrefl, andb_false_r. reflexivity.
    Qed.

    Lemma update_to_ok i c i' c' : combination_at options i = Some c ->
      combination_at options i' = Some c' -> update_to dflt g (mkIter i c) i' = Ok (mkIter i' c').
    Proof.
      intros C C'. unfold update_to. cbn [it_idx it_comb].
      destruct (Z.eqb_spec i i'); [subst; congruence|].
      assert (B : 0 <= i' < product options) by (apply (combination_at_in _ i' NE); eauto).
      rewrite in_bounds by auto. cbn [g_options g_groups g].
      replace (prealloc dflt _ c) with c.
      2:{ pose proof (at_nonempty_comb _ _ C). destruct c; [congruence|reflexivity]. }
      rewrite change_digits_ok with (c := c'); auto.
    Qed.

    Lemma move_ok i c n c' : combination_at options i = Some c ->
      combination_at options (i + n) = Some c' -> it_move dflt g n (mkIter i c) = Ok (mkIter (i + n) c').
    Proof.
      intros C C'. assert (B : 0 <= i + n < product options) by (apply (combination_at_in _ _ NE); eauto).
      unfold it_move. cbn [it_idx]. rewrite to_int_id by lia. apply update_to_ok; auto.
    Qed.

    Lemma move_out i c n : - 2 ^ 31 <= i + n < 2 ^ 31 -> ~ 0 <= i + n < product options ->
      it_move dflt g n (mkIter i c) = Ok (mkIter (i + n) c).
    Proof.
      intros I O. unfold it_move, update_to. cbn [it_idx it_comb]. rewrite to_int_id by auto.
      destruct (Z.eqb_spec i (i + n)) as [Q|Q]; [rewrite <- Q; auto|].
      rewrite out_of_bounds_spec by auto.
      destruct (Z.leb_spec 0 (i + n)), (Z.ltb_spec (i + n) (product options)); auto; lia.
    Qed.

    Lemma at_zero : exists c, combination_at options 0 = Some c.
    Proof. apply combination_at_in; auto. pose proof (product_pos _ NE). lia. Qed.

    (** Positions reached by a sequence of moves. *)
    Fixpoint stays_in_range (i : Z) (ns : list Z) : Prop :=
      match ns with
      | [] => True
      | n :: ns' => 0 <= i + n < product options /\ stays_in_range (i + n) ns'
      end.

    Lemma moves_ok ns : forall i c, combination_at options i = Some c -> stays_in_range i ns ->
      exists c', combination_at options (fold_left Z.add ns i) = Some c' /\
        it_moves dflt g ns (mkIter i c) = Ok (mkIter (fold_left Z.add ns i) c').
    Proof.
      induction ns as [|n ns IH]; intros i c C S.
      - exists c; auto.
      - destruct S as [B S]. apply (combination_at_in _ _ NE) in B. destruct B as [c' C'].
        destruct (IH _ _ C' S) as (c2 & C2 & E). exists c2. split; auto.
        unfold it_moves in *. cbn [foldM fold_left]. rewrite (move_ok _ _ _ _ C C'). exact E.
    Qed.

    Lemma index_ok i c : combination_at options i = Some c -> gen_index dflt g i = Ok c.
    Proof.
      intros C. destruct at_zero as [c0 C0]. unfold gen_index, gen_begin.
      rewrite (new_iter_ok _ _ C0). cbn [bind]. rewrite (move_ok 0 c0 i c); auto.
    Qed.

    Lemma at_ok i : - 2 ^ 31 <= i < 2 ^ 31 ->
      gen_at dflt g i =
      match combination_at options (if i <? 0 then i + product options else i) with
      | Some c => Ok c
      | None => Throw EOutOfRange
      end.
    Proof.
      intros I. pose proof (product_pos _ NE) as P0. unfold gen_at. cbn [g_size g].
      assert (P : 2 ^ 64 = 2 ^ 32 * 2 ^ 32) by reflexivity.
      replace (if i <? 0 then to_int (to_size_t (to_size_t i + product options)) else i)
        with (if i <? 0 then i + product options else i).
      2:{ destruct (Z.ltb_spec i 0); auto. unfold to_size_t. rewrite Zplus_mod_idemp_l.
          unfold to_int.
          assert (Q : ((i + product options) mod 2 ^ 64 + 2 ^ 31) mod 2 ^ 32 =
                      (i + product options + 2 ^ 31) mod 2 ^ 32).
          { rewrite (Z.mod_eq _ (2 ^ 64)) by lia. set (q := (i + product options) / 2 ^ 64).
            replace (i + product options - 2 ^ 64 * q + 2 ^ 31)
              with (i + product options + 2 ^ 31 + (- (2 ^ 32 * q)) * 2 ^ 32) by lia.
            apply Z.mod_add. lia. }
          rewrite Q. rewrite Z.mod_small; lia. }
      set (k := if i <? 0 then i + product options else i).
      assert (K : - 2 ^ 31 <= k < 2 ^ 31).
      { subst k. destruct (Z.ltb_spec i 0); lia. }
      destruct (combination_at options k) as [c|] eqn:C.
      - assert (B : 0 <= k < product options) by (apply (combination_at_in _ _ NE); eauto).
        rewrite in_bounds by auto. apply index_ok; auto.
      - rewrite out_of_bounds_spec by auto.
        destruct (Z.leb_spec 0 k), (Z.ltb_spec k (product options)); auto.
        assert (B : 0 <= k < product options) by lia. apply (combination_at_in _ _ NE) in B.
        destruct B. congruence.
    Qed.

    Lemma loop_fwd n : forall i c fuel, combination_at options i = Some c ->
      Z.of_nat n = product options - i -> (n <= fuel)%nat ->
      gen_loop dflt fuel g 1 (mkIter i c) (mkIter (product options) []) = Ok (skipn (Z.to_nat i) (cart options)).
    Proof.
      induction n as [|n IH]; intros i c fuel C N F;
        assert (B : 0 <= i < product options) by (apply (combination_at_in _ i NE); eauto); [lia|].
      destruct fuel as [|fuel]; [lia|]. cbn [gen_loop it_eqb it_idx].
      unfold it_eqb. cbn [it_idx].
      destruct (Z.eqb_spec i (product options)); [lia|].
      assert (SK : skipn (Z.to_nat i) (cart options) = c :: skipn (Z.to_nat (i + 1)) (cart options)).
      { unfold combination_at in C. destruct (i <? 0) eqn:E; [lia|].
        replace (Z.to_nat (i + 1)) with (S (Z.to_nat i)) by lia.
        clear -C. revert C. generalize (Z.to_nat i), (cart options). intros m l. revert m.
        induction l as [|y l IH]; intros [|m] C; try discriminate.
        - inversion C; reflexivity.
        - apply (IH m). exact C. }
      destruct (Z_lt_le_dec (i + 1) (product options)).
      - destruct (proj2 (combination_at_in _ (i + 1) NE)) as [c' C']; [lia|].
        rewrite (move_ok _ _ _ _ C C'). cbn [bind]. rewrite (IH (i + 1) c' fuel C') by lia.
        cbn [bind it_comb]. rewrite SK. reflexivity.
      - rewrite move_out by lia. cbn [bind]. assert (Q : i + 1 = product options) by lia.
        replace (gen_loop dflt fuel g 1 (mkIter (i + 1) c) (mkIter (product options) []))
          with (@Ok (list (list A)) []).
        2:{ destruct fuel; cbn [gen_loop]; unfold it_eqb; cbn [it_idx]; rewrite Q, Z.eqb_refl; reflexivity. }
        cbn [bind it_comb]. rewrite SK. rewrite Q. f_equal. f_equal. symmetry. apply skipn_all2.
        pose proof (cart_length options). lia.
    Qed.

    Lemma traverse_ok fuel : product options <= Z.of_nat fuel ->
      gen_traverse dflt fuel g = Ok (cart options).
    Proof.
      intros F. destruct at_zero as [c0 C0]. pose proof (product_pos _ NE).
      unfold gen_traverse, gen_begin. rewrite (new_iter_ok _ _ C0). cbn [bind].
      rewrite end_iter. cbn [bind].
      rewrite (loop_fwd (Z.to_nat (product options)) 0 c0 fuel C0) by lia. reflexivity.
    Qed.

    (** ** Reverse iteration from end() *)

    Lemma loop_bwd n : forall i c fuel, combination_at options i = Some c ->
      Z.of_nat n = i + 1 -> (n <= fuel)%nat ->
      gen_loop dflt fuel g (-1) (mkIter i c) (mkIter (-1) []) =
      Ok (rev (firstn (Z.to_nat (i + 1)) (cart options))).
    Proof.
      induction n as [|n IH]; intros i c fuel C N F;
        assert (B : 0 <= i < product options) by (apply (combination_at_in _ i NE); eauto); [lia|].
      destruct fuel as [|fuel]; [lia|]. cbn [gen_loop].
      unfold it_eqb. cbn [it_idx].
      destruct (Z.eqb_spec i (-1)); [lia|].
      assert (SK : firstn (Z.to_nat (i + 1)) (cart options) = firstn (Z.to_nat i) (cart options) ++ [c]).
      { unfold combination_at in C. destruct (i <? 0) eqn:E; [lia|].
        replace (Z.to_nat (i + 1)) with (S (Z.to_nat i)) by lia.
        clear -C. revert C. generalize (Z.to_nat i), (cart options). intros m l. revert m.
        induction l as [|y l IH]; intros [|m] C; try discriminate.
        - inversion C; reflexivity.
        - cbn [app firstn]. f_equal. apply (IH m). exact C. }
      rewrite SK, rev_app_distr. cbn [rev app].
      destruct (Z_le_gt_dec 1 i).
      - destruct (proj2 (combination_at_in _ (i + -1) NE)) as [c' C']; [lia|].
        rewrite (move_ok _ _ _ _ C C'). cbn [bind]. rewrite (IH (i + -1) c' fuel C') by lia.
        cbn [bind it_comb]. replace (i + -1 + 1) with i by lia. reflexivity.
      - rewrite move_out by lia. cbn [bind]. assert (Q : i = 0) by lia. subst i.
        replace (gen_loop dflt fuel g (-1) (mkIter (0 + -1) c) (mkIter (-1) []))
          with (@Ok (list (list A)) []).
        2:{ destruct fuel; reflexivity. }
        reflexivity.
    Qed.

    Lemma loop_stop_irrel fuel step stop stop' : it_idx stop = it_idx stop' -> forall it,
      gen_loop dflt fuel g step it stop = gen_loop dflt fuel g step it stop'.
    Proof.
      intros E. induction fuel as [|fuel IH]; intros it; cbn [gen_loop]; unfold it_eqb; rewrite E; auto.
      destruct (_ =? _); auto. destruct (it_move _ _ _ _); auto. cbn [bind]. rewrite IH. auto.
    Qed.
  End OneGen.

  (** Going from the digits 0,0,... to the last combination rewrites a slot
      iff it has more than one element. *)
  Lemma change_to_last options : Forall (fun o : list A => (2 <= length o)%nat) options ->
    product options < 2 ^ 31 ->
    forall comb c, length comb = length options -> combination_at options (product options - 1) = Some c ->
    change_digits options (groups_spec options) comb 0 (product options - 1) = Ok (c, 0).
  Proof.
    intros F. assert (H : all_nonempty options).
    { eapply Forall_impl; [|exact F]. intros [|? ?] L; cbn in L; [lia|congruence]. }
    induction F as [|o os Lo F IH]; intros L comb c Lc C.
    - destruct comb; [|discriminate]. cbn in C |- *. inversion C; subst. reflexivity.
    - inversion H as [|? ? No Hs]; subst. pose proof (product_pos _ Hs) as P.
      pose proof (product_head_le _ _ No Hs) as LE. pose proof (product_pos _ H) as P'.
      destruct comb as [|cc comb]; [discriminate|]. cbn [change_digits groups_spec].
      rewrite !digit_ok by lia. cbn [bind].
      rewrite combination_at_cons in C by (lia || auto).
      assert (E : product (o :: os) - 1 = (product os - 1) + (Z.of_nat (length o) - 1) * product os)
        by (cbn [product]; nia).
      assert (D : (product (o :: os) - 1) / product os = Z.of_nat (length o) - 1).
      { rewrite E, Z.div_add, Z.div_small by lia. lia. }
      assert (M : (product (o :: os) - 1) mod product os = product os - 1).
      { rewrite E, Z.mod_add, Z.mod_small by lia. lia. }
      rewrite D, M in *. rewrite Z.div_0_l, Z.mod_0_l by lia.
      destruct (Z.eqb_spec 0 (Z.of_nat (length o) - 1)); [lia|].
      rewrite option_at_ok. 2:{ cbn [product] in L. nia. }
      destruct (nth_error o _) as [x|] eqn:Nx; [|discriminate]. cbn [bind].
      destruct (combination_at os _) as [c'|] eqn:Nc; [|discriminate]. inversion C; subst.
      rewrite (IH Hs) with (c := c'); [reflexivity|lia|cbn in Lc; lia|reflexivity].
  Qed.

  Lemma rbegin_ok options (G : good_options options) c :
    Forall (fun o : list A => (2 <= length o)%nat) (tl options) ->
    combination_at options (product options - 1) = Some c ->
    gen_rbegin dflt (mkGen options (groups_spec options) (product options)) =
    Ok (mkIter (product options - 1) c).
  Proof.
    intros F C. unfold gen_rbegin. rewrite (end_iter options G). cbn [bind].
    destruct G as (N & NE & LT). pose proof (product_pos _ NE) as P.
    unfold it_move, update_to. cbn [it_idx it_comb]. rewrite to_int_id by lia.
    destruct (Z.eqb_spec (product options) (product options + -1)); [lia|].
    replace (product options + -1) with (product options - 1) by lia.
    rewrite (in_bounds options (conj N (conj NE LT))) by lia.
    cbn [g_options g_groups]. unfold prealloc. cbn [g_options].
    destruct options as [|o os]; [congruence|]. clear N. cbn [tl] in F.
    inversion NE as [|? ? No Hs]; subst. pose proof (product_pos _ Hs) as P'.
    pose proof (product_head_le _ _ No Hs) as LE.
    cbn [length repeat change_digits groups_spec]. rewrite !digit_ok by lia. cbn [bind].
    rewrite combination_at_cons in C by (lia || auto).
    assert (E : product (o :: os) - 1 = (product os - 1) + (Z.of_nat (length o) - 1) * product os)
      by (cbn [product]; nia).
    assert (D : (product (o :: os) - 1) / product os = Z.of_nat (length o) - 1).
    { rewrite E, Z.div_add, Z.div_small by lia. lia. }
    assert (M : (product (o :: os) - 1) mod product os = product os - 1).
    { rewrite E, Z.mod_add, Z.mod_small by lia. lia. }
    assert (D' : product (o :: os) / product os = Z.of_nat (length o)).
    { cbn [product]. apply Z.div_mul. lia. }
    assert (M' : product (o :: os) mod product os = 0).
    { cbn [product]. apply Z.mod_mul. lia. }
    rewrite D, M, D', M' in *.
    destruct (Z.eqb_spec (Z.of_nat (length o)) (Z.of_nat (length o) - 1)); [lia|].
    pose proof (len_pos _ No). rewrite option_at_ok. 2:{ cbn [product] in LT. nia. }
    destruct (nth_error o _) as [x|] eqn:Nx; [|discriminate]. cbn [bind].
    destruct (combination_at os _) as [c'|] eqn:Nc; [|discriminate]. inversion C; subst.
    rewrite change_to_last with (c := c'); [reflexivity|auto|lia|apply repeat_length|auto].
  Qed.

  Lemma rtraverse_ok options (G : good_options options) fuel :
    Forall (fun o : list A => (2 <= length o)%nat) (tl options) ->
    product options <= Z.of_nat fuel ->
    gen_rtraverse dflt fuel (mkGen options (groups_spec options) (product options)) =
    Ok (rev (cart options)).
  Proof.
    intros F Fu. pose proof (product_pos _ (proj1 (proj2 G))) as P.
    destruct (proj2 (combination_at_in options (product options - 1) (proj1 (proj2 G)))) as [c C]; [lia|].
    unfold gen_rtraverse. rewrite (rbegin_ok _ G c F C). cbn [bind].
    unfold gen_rend, gen_begin. destruct (at_zero options G) as [c0 C0].
    rewrite (new_iter_ok options G 0 c0 C0). cbn [bind].
    rewrite (move_out options G 0 c0 (-1)) by lia. cbn [bind].
    rewrite (loop_stop_irrel options fuel (-1) (mkIter (0 + -1) c0) (mkIter (-1) []) eq_refl).
    rewrite (loop_bwd options G (Z.to_nat (product options)) _ c fuel C) by lia.
    f_equal. f_equal. apply firstn_all2. pose proof (cart_length options). lia.
  Qed.

  (** ** find *)

  Section Find.
    Context {K : Type} (key : A -> K) (EQ : forall x y, eqb x y = true <-> key x = key y).

    Lemma find_index_some o x k : find_index eqb o x = Some k ->
      0 <= k < Z.of_nat (length o) /\
      (exists y, nth_error o (Z.to_nat k) = Some y /\ key y = key x) /\
      (forall j y, nth_error o j = Some y -> key y = key x -> k <= Z.of_nat j).
    Proof.
      revert k. induction o as [|y o IH]; intros k; cbn [find_index]; [discriminate|].
      destruct (eqb y x) eqn:E.
      - intros Q. inversion Q; subst. cbn [length]. repeat split; try lia.
        exists y. split; auto. apply EQ; auto.
      - destruct (find_index eqb o x) as [k'|]; [|discriminate]. intros Q. assert (k = 1 + k') by (cbn [option_map] in Q; congruence). subst k. clear Q.
        destruct (IH k' eq_refl) as (B & (z & Nz & Kz) & Min). cbn [length]. split; [lia|]. split.
        + exists z. split; auto. replace (Z.to_nat (1 + k')) with (S (Z.to_nat k')) by lia. auto.
        + intros [|j] w Nw Kw.
          * cbn in Nw. inversion Nw; subst. apply EQ in Kw. congruence.
          * specialize (Min j w Nw Kw). lia.
    Qed.

    Lemma find_index_none o x : find_index eqb o x = None <-> ~ In (key x) (map key o).
    Proof.
      induction o as [|y o IH]; cbn [find_index map In]; [tauto|].
      destruct (eqb y x) eqn:E.
      - apply EQ in E. split; [discriminate|]. intros N. exfalso. apply N; auto.
      - assert (key y <> key x) by (intros Q; apply EQ in Q; congruence).
        destruct (find_index eqb o x); cbn; split; intros; try discriminate; try tauto.
        destruct IH as [IH1 IH2]. exfalso. assert (Some z = None) by (apply IH2; tauto). discriminate.
    Qed.

    Lemma find_loop_ok options : all_nonempty options -> product options < 2 ^ 31 ->
      forall comb idx, length comb = length options -> 0 <= idx -> idx + product options <= 2 ^ 31 ->
      (Forall2 (fun x o => In (key x) (map key o)) comb options /\
       exists j c', find_loop eqb options (groups_spec options) comb idx = Ok (idx + j) /\
         combination_at options j = Some c' /\ map key c' = map key comb /\
         (forall j' c'', combination_at options j' = Some c'' -> map key c'' = map key comb -> j <= j')) \/
      (~ Forall2 (fun x o => In (key x) (map key o)) comb options /\
       find_loop eqb options (groups_spec options) comb idx = Throw EOutOfRange).
    Proof.
      induction options as [|o os IH]; intros H L comb idx Lc I IB.
      - left. destruct comb; [|discriminate]. split; [constructor|]. exists 0, [].
        cbn [find_loop]. rewrite Z.add_0_r. repeat split; auto.
        intros j' c'' C _. apply (combination_at_in [] j' H). eauto.
      - inversion H as [|? ? No Hs]; subst. pose proof (product_pos _ Hs) as P.
        pose proof (product_head_le _ _ No Hs) as LE. pose proof (len_pos _ No) as LP.
        destruct comb as [|x comb]; [discriminate|]. cbn [find_loop groups_spec].
        destruct (find_index eqb o x) as [k|] eqn:Fk.
        + destruct (find_index_some _ _ _ Fk) as (Bk & (y & Ny & Ky) & Min).
          assert (PK : 0 <= product os * k /\ product os * k + product os <= product (o :: os)).
          { cbn [product]. nia. }
          assert (P64 : 2 ^ 31 < 2 ^ 64) by reflexivity.
          rewrite (to_size_t_id (product os * k)) by lia.
          rewrite (to_size_t_id (idx + _)) by lia.
          assert (IN : In (key x) (map key o)).
          { rewrite <- Ky. apply in_map. eapply nth_error_In; eauto. }
          assert (Lc' : length comb = length os) by (cbn in Lc; lia).
          destruct (IH Hs ltac:(lia) comb (idx + product os * k) Lc' ltac:(lia) ltac:(lia))
            as [(F & j & c' & E & C & Kc & Mj)|(NF & E)].
          * left. split; [constructor; auto|].
            assert (Bj : 0 <= j < product os) by (apply (combination_at_in _ _ Hs); eauto).
            assert (DD : (product os * k + j) / product os = k).
            { replace (product os * k + j) with (j + k * product os) by lia.
              rewrite Z.div_add, Z.div_small; lia. }
            assert (MM : (product os * k + j) mod product os = j).
            { replace (product os * k + j) with (j + k * product os) by lia.
              rewrite Z.mod_add, Z.mod_small; lia. }
            exists (product os * k + j), (y :: c'). rewrite E. repeat split.
            -- f_equal. lia.
            -- rewrite combination_at_cons by (nia || auto). rewrite DD, MM, Ny, C. reflexivity.
            -- cbn. congruence.
            -- intros j' c'' C' Kc'.
               assert (Bj' : 0 <= j' < product (o :: os)) by (apply (combination_at_in _ _ H); eauto).
               rewrite combination_at_cons in C' by (lia || auto).
               destruct (nth_error o (Z.to_nat (j' / product os))) as [z|] eqn:Nz; [|discriminate].
               destruct (combination_at os (j' mod product os)) as [c2|] eqn:Nc2; [|discriminate].
               inversion C'; subst. cbn in Kc'. inversion Kc' as [[Kz Kc2]].
               assert (0 <= j' / product os) by (apply Z.div_pos; lia).
               specialize (Min _ _ Nz Kz). specialize (Mj _ _ Nc2 Kc2).
               pose proof (Z.div_mod j' (product os) ltac:(lia)).
               pose proof (Z.mod_pos_bound j' (product os) P). nia.
          * right. split; auto. intros F. inversion F; subst. auto.
        + right. apply find_index_none in Fk. split; auto. intros F. inversion F; subst. auto.
    Qed.

    Lemma find_ok options (G : good_options options) comb : length comb = length options ->
      (Forall2 (fun x o => In (key x) (map key o)) comb options /\
       exists j c', gen_find eqb (mkGen options (groups_spec options) (product options)) comb = Ok j /\
         combination_at options j = Some c' /\ map key c' = map key comb /\
         (forall j' c'', combination_at options j' = Some c'' -> map key c'' = map key comb -> j <= j')) \/
      (~ Forall2 (fun x o => In (key x) (map key o)) comb options /\
       gen_find eqb (mkGen options (groups_spec options) (product options)) comb = Throw EOutOfRange).
    Proof.
      intros Lc. destruct G as (N & NE & LT). unfold gen_find. cbn [g_options g_groups].
      rewrite Lc, Nat.eqb_refl.
      destruct (find_loop_ok options NE LT comb 0 Lc ltac:(lia) ltac:(lia))
        as [(F & j & c' & E & C & Kc & Mj)|(NF & E)].
      - left. split; auto. exists j, c'. rewrite E. cbn [bind]. rewrite Z.add_0_l. repeat split; auto.
        rewrite to_int_id; auto.
        assert (0 <= j < product options) by (apply (combination_at_in _ _ NE); eauto). lia.
      - right. rewrite E. split; auto.
    Qed.

    Lemma map_cons_flat options o :
      map (map key) (flat_map (fun x => map (cons x) (cart options)) o) =
      flat_map (fun k => map (cons k) (map (map key) (cart options))) (map key o).
    Proof.
      induction o as [|x o IH]; auto. cbn [flat_map map]. rewrite map_app, IH. f_equal.
      rewrite !map_map. apply map_ext. auto.
    Qed.

    Lemma map_cart options : map (map key) (cart options) = cart (map (map key) options).
    Proof.
      induction options as [|o os IH]; auto. cbn [cart map]. rewrite map_cons_flat, IH. reflexivity.
    Qed.
  End Find.
End Gen.

Lemma In_cart {A} (options : list (list A)) c :
  In c (cart options) <-> Forall2 (fun x o => In x o) c options.
Proof.
  revert c. induction options as [|o os IH]; intros c; cbn [cart].
  - split.
    + intros [<-|[]]. constructor.
    + intros F. inversion F. left; auto.
  - rewrite in_flat_map. split.
    + intros (x & Ix & I). apply in_map_iff in I. destruct I as (c' & <- & I).
      constructor; auto. apply IH; auto.
    + intros F. inversion F as [|x ? c' ? Ix F']; subst. exists x. split; auto.
      apply in_map. apply IH; auto.
Qed.

Lemma NoDup_cart {A} (options : list (list A)) :
  Forall (@NoDup A) options -> NoDup (cart options).
Proof.
  induction 1 as [|o os No _ IH]; cbn [cart]; [repeat constructor; intros []|].
  induction No as [|x o Nx No IHo]; cbn [flat_map]; [constructor|].
  assert (ND : forall y, NoDup (map (cons y) (cart os))).
  { intros y. apply Injective_map_NoDup; auto. intros a b E. congruence. }
  revert IHo. generalize (ND x).
  assert (DJ : forall c, In c (map (cons x) (cart os)) ->
            ~ In c (flat_map (fun y => map (cons y) (cart os)) o)).
  { intros c I J. apply in_map_iff in I. destruct I as (c1 & <- & _).
    apply in_flat_map in J. destruct J as (y & Iy & J). apply in_map_iff in J.
    destruct J as (c2 & E & _). inversion E; subst. auto. }
  revert DJ. generalize (map (cons x) (cart os)) as l1.
  generalize (flat_map (fun y => map (cons y) (cart os)) o) as l2. intros l2 l1.
  induction l1 as [|c l1 IH1]; cbn; auto. intros DJ N1 N2. inversion N1; subst.
  constructor; [|apply IH1; auto]. rewrite in_app_iff. intros [I|I]; [auto|].
  apply (DJ c); auto.
Qed.

Lemma cart_length_nat {A} (options : list (list A)) :
  length (cart options) = fold_right (fun o n => length o * n)%nat 1%nat options.
Proof.
  induction options as [|o os IH]; auto. cbn [cart fold_right]. rewrite <- IH. clear IH.
  induction o as [|x o IH]; auto. cbn [flat_map length]. rewrite app_length, map_length. lia.
Qed.

(** ** Statements used by the properties *)

Section Statements.
  Context {A : Type} (dflt : A) (eqb : A -> A -> bool).
  Implicit Types (options : list (list A)).

  Lemma C09_traverse_lemma options fuel : good_options options -> product options <= Z.of_nat fuel ->
    exists g, make_gen options = Ok g /\ g_size g = product options /\
      gen_traverse dflt fuel g = Ok (cart options).
  Proof.
    intros G F. exists (mkGen options (groups_spec options) (product options)).
    split; [apply make_gen_ok; auto|]. split; auto. apply traverse_ok; auto.
  Qed.

  Lemma C09_no_options_lemma fuel : exists g : gen A, make_gen [] = Ok g /\ g_size g = 0 /\
      gen_traverse dflt fuel g = Ok [].
  Proof. exists (mkGen [] [] 0). repeat split. destruct fuel; reflexivity. Qed.

  Lemma C09_empty_option_lemma options : In [] options -> make_gen options = Throw EInvalidArgument.
  Proof.
    intros I. unfold make_gen. replace (existsb _ options) with true; auto.
    symmetry. apply existsb_exists. exists []. auto.
  Qed.

  Lemma C11_lemma options ns : good_options options -> stays_in_range options 0 ns ->
    exists g b it, make_gen options = Ok g /\ gen_begin dflt g = Ok b /\
      it_moves dflt g ns b = Ok it /\ it_idx it = fold_left Z.add ns 0 /\
      Some (it_comb it) = combination_at options (fold_left Z.add ns 0).
  Proof.
    intros G S. destruct (at_zero options G) as [c0 C0].
    destruct (moves_ok dflt options G ns 0 c0 C0 S) as (c & C & E).
    exists (mkGen options (groups_spec options) (product options)), (mkIter 0 c0),
      (mkIter (fold_left Z.add ns 0) c).
    split; [apply make_gen_ok; auto|]. split; [apply new_iter_ok; auto|]. cbn. auto.
  Qed.

  Lemma C11_reverse_lemma options fuel : good_options options ->
    Forall (fun o : list A => (2 <= length o)%nat) (tl options) ->
    product options <= Z.of_nat fuel ->
    exists g, make_gen options = Ok g /\ gen_rtraverse dflt fuel g = Ok (rev (cart options)).
  Proof.
    intros G F Fu. exists (mkGen options (groups_spec options) (product options)).
    split; [apply make_gen_ok; auto|]. apply rtraverse_ok; auto.
  Qed.

  Lemma C12_lemma options i : good_options options -> - 2 ^ 31 <= i < 2 ^ 31 ->
    exists g, make_gen options = Ok g /\
      gen_at dflt g i =
      match combination_at options (if i <? 0 then i + product options else i) with
      | Some c => Ok c
      | None => Throw EOutOfRange
      end.
  Proof.
    intros G I. exists (mkGen options (groups_spec options) (product options)).
    split; [apply make_gen_ok; auto|]. apply at_ok; auto.
  Qed.

  Lemma C10_least_lemma {K} (key : A -> K) options comb :
    (forall x y, eqb x y = true <-> key x = key y) ->
    good_options options -> length comb = length options ->
    exists g, make_gen options = Ok g /\
      ((Forall2 (fun x o => In (key x) (map key o)) comb options /\
        exists j c', gen_find eqb g comb = Ok j /\ gen_index dflt g j = Ok c' /\
          map key c' = map key comb /\
          forall j' c'', 0 <= j' < j -> gen_index dflt g j' = Ok c'' -> map key c'' <> map key comb) \/
       (~ Forall2 (fun x o => In (key x) (map key o)) comb options /\
        gen_find eqb g comb = Throw EOutOfRange)).
  Proof.
    intros EQ G L. exists (mkGen options (groups_spec options) (product options)).
    split; [apply make_gen_ok; auto|].
    destruct (find_ok eqb key EQ options G comb L) as [(F & j & c' & E & C & Kc & Mj)|R]; [left|auto].
    split; auto. exists j, c'. rewrite (index_ok dflt options G j c' C). repeat split; auto.
    intros j' c'' B I Kc''. assert (B2 : 0 <= j' < product options).
    { assert (0 <= j < product options) by (apply (combination_at_in _ _ (proj1 (proj2 G))); eauto). lia. }
    apply (combination_at_in _ _ (proj1 (proj2 G))) in B2. destruct B2 as [c2 C2].
    rewrite (index_ok dflt options G j' c2 C2) in I. inversion I; subst.
    specialize (Mj _ _ C2 Kc''). lia.
  Qed.

  Lemma C10_inverse_lemma {K} (key : A -> K) options :
    (forall x y, eqb x y = true <-> key x = key y) ->
    good_options options -> Forall (fun o => NoDup (map key o)) options ->
    exists g, make_gen options = Ok g /\
      forall i, 0 <= i < g_size g ->
        exists c, gen_index dflt g i = Ok c /\ gen_find eqb g c = Ok i.
  Proof.
    intros EQ G ND. exists (mkGen options (groups_spec options) (product options)).
    split; [apply make_gen_ok; auto|]. cbn [g_size]. intros i B.
    apply (combination_at_in _ _ (proj1 (proj2 G))) in B. destruct B as [c C].
    exists c. rewrite (index_ok dflt options G i c C). split; auto.
    pose proof (combination_at_len _ _ _ C) as L.
    destruct (find_ok eqb key EQ options G c L) as [(F & j & c' & E & C' & Kc & Mj)|(N & _)].
    - rewrite E. f_equal.
      assert (N : NoDup (map (map key) (cart options))).
      { rewrite map_cart. apply NoDup_cart. clear -ND. induction ND; constructor; auto. }
      unfold combination_at in C, C'. destruct (i <? 0) eqn:Ei; [discriminate|].
      destruct (j <? 0) eqn:Ej; [discriminate|].
      assert (Z.to_nat j = Z.to_nat i); [|lia].
      rewrite NoDup_nth_error in N. apply N.
      + rewrite map_length. apply nth_error_Some. congruence.
      + rewrite (map_nth_error _ _ _ C), (map_nth_error _ _ _ C'). congruence.
    - exfalso. apply N. unfold combination_at in C. destruct (i <? 0); [discriminate|].
      apply nth_error_In in C. apply In_cart in C. clear -C.
      induction C; constructor; auto. apply in_map; auto.
  Qed.
End Statements.
