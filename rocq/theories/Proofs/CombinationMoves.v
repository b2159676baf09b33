(** Arbitrary moves of the iterators of a combination generator. *)
From Coq Require Import List Bool ZArith Lia.
From Verif.Model Require Import Base CombinationGenerator.
From Verif.Spec Require Import CartesianSpec.
From Verif.Proofs Require Import CombinationFacts.
Import ListNotations.
Local Open Scope Z_scope.

Section Moves.
  Context {A : Type} (dflt : A).

  (** Slots are kept or rewritten one by one. *)
  Fixpoint merged (options : list (list A)) (comb : list A) (r r' : Z) : list A :=
    match options, comb with
    | o :: os, x :: xs =>
        (if r / product os =? r' / product os then x else nth (Z.to_nat (r' / product os)) o x)
        :: merged os xs (r mod product os) (r' mod product os)
    | _, _ => []
    end.

  Lemma change_merged (options : list (list A)) : all_nonempty options -> product options < 2 ^ 31 ->
    forall comb r r', length comb = length options -> 0 <= r < 2 ^ 31 -> 0 <= r' < product options ->
    exists q, change_digits options (groups_spec options) comb r r' = Ok (merged options comb r r', q) /\
      (options <> [] \/ r = 0 -> q = 0).
  Proof.
    induction options as [|o os IH]; intros H L comb r r' Lc R R'.
    - destruct comb; [|discriminate]. exists r. split; [reflexivity|]. intros [E|E]; [congruence|auto].
    - inversion H as [|? ? No Hs]; subst. pose proof (product_pos _ Hs) as P.
      pose proof (product_head_le _ _ No Hs) as LE. destruct comb as [|x xs]; [discriminate|].
      cbn [change_digits groups_spec merged]. rewrite !digit_ok by lia. cbn [bind].
      pose proof (Z.mod_pos_bound r _ P) as M. pose proof (Z.mod_pos_bound r' _ P) as M'.
      cbn [product] in R', L, LE. pose proof (div_bound _ _ _ P R') as D'.
      destruct (IH Hs ltac:(lia) xs (r mod product os) (r' mod product os)) as (q & E & Q);
        [cbn in Lc; lia|lia|lia|].
      exists q. split.
      + destruct (r / product os =? r' / product os); cbn [bind]; [rewrite E; reflexivity|].
        rewrite option_at_ok. 2:{ assert (r' / product os <= r') by (apply Z.div_le_upper_bound; nia). nia. }
        rewrite (nth_error_nth' o x) by lia. cbn [bind]. rewrite E. reflexivity.
      + intros _. apply Q. destruct os as [|o' os']; [right|left; discriminate].
        cbn [product]. apply Z.mod_1_r.
  Qed.

  Lemma merged_len (options : list (list A)) : forall comb r r', length comb = length options ->
    length (merged options comb r r') = length options.
  Proof.
    induction options as [|o os IH]; intros [|x xs] r r' L; try discriminate; auto.
    cbn [merged length]. f_equal. apply IH. cbn in L. lia.
  Qed.

  Lemma digit_0 (o : list A) os i : digit_at (o :: os) 0 i = i / product os.
  Proof. reflexivity. Qed.
  Lemma digit_S (o : list A) os k i : digit_at (o :: os) (S k) i = digit_at os k (i mod product os).
  Proof. reflexivity. Qed.

  Lemma merged_nth (options : list (list A)) : all_nonempty options ->
    forall comb r r' k o, length comb = length options -> 0 <= r' < product options ->
    nth_error options k = Some o ->
    nth_error (merged options comb r r') k =
    if digit_at options k r =? digit_at options k r' then nth_error comb k
    else nth_error o (Z.to_nat (digit_at options k r')).
  Proof.
    induction options as [|o1 os IH]; intros H comb r r' k o L R' E; [destruct k; discriminate|].
    inversion H as [|? ? No Hs]; subst. pose proof (product_pos _ Hs) as P.
    destruct comb as [|x xs]; [discriminate|]. cbn [merged]. destruct k as [|k]; cbn [nth_error] in *.
    - injection E as ->. rewrite !digit_0. destruct (_ =? _); [reflexivity|].
      cbn [product] in R'. pose proof (div_bound _ _ _ P R') as D'. symmetry. apply nth_error_nth'. lia.
    - rewrite !digit_S. apply IH; auto. apply Z.mod_pos_bound. auto.
  Qed.

  Lemma combination_slot (options : list (list A)) : all_nonempty options -> forall i c k o,
    combination_at options i = Some c -> nth_error options k = Some o ->
    nth_error c k = nth_error o (Z.to_nat (digit_at options k i)).
  Proof.
    induction options as [|o1 os IH]; intros H i c k o C E; [destruct k; discriminate|].
    assert (R : 0 <= i < product (o1 :: os)) by (apply (combination_at_in _ i H); eauto).
    inversion H as [|? ? No Hs]; subst. rewrite combination_at_cons in C by (lia || auto).
    destruct (nth_error o1 _) as [x|] eqn:Nx; [|discriminate].
    destruct (combination_at os _) as [c'|] eqn:Nc; [|discriminate]. injection C as <-.
    destruct k as [|k]; cbn [nth_error] in *.
    - injection E as ->. rewrite digit_0. auto.
    - rewrite digit_S. eapply IH; eauto.
  Qed.

  Section One.
    Context (options : list (list A)) (G : good_options options).
    Let g := mkGen options (groups_spec options) (product options).
    Let NE : all_nonempty options := proj1 (proj2 G).
    Let LT : product options < 2 ^ 31 := proj2 (proj2 G).

    Definition filled (comb : list A) : list A := prealloc dflt g comb.

    Lemma filled_len comb : comb = [] \/ length comb = length options -> length (filled comb) = length options.
    Proof.
      intros [->|L]; unfold filled, prealloc; cbn [g_options g]; [apply repeat_length|].
      destruct comb; [|auto]. apply repeat_length.
    Qed.

    Lemma move_any i comb n : comb = [] \/ length comb = length options ->
      0 <= i < 2 ^ 31 -> 0 <= i + n < 2 ^ 31 -> n <> 0 ->
      it_move dflt g n (mkIter i comb) =
      Ok (mkIter (i + n) (if i + n <? product options then merged options (filled comb) i (i + n) else comb)).
    Proof.
      intros L I I' N. destruct (Z.ltb_spec (i + n) (product options)).
      - unfold it_move, update_to. cbn [it_idx it_comb]. rewrite to_int_id by lia.
        destruct (Z.eqb_spec i (i + n)); [lia|]. rewrite (in_bounds options G) by lia.
        cbn [g_options g_groups g]. fold g. fold (filled comb).
        destruct (change_merged options NE LT (filled comb) i (i + n)) as (q & E & Q);
          [apply filled_len; auto|lia|lia|].
        rewrite E. cbn [bind]. rewrite Q by (left; exact (proj1 G)). reflexivity.
      - apply (move_out dflt options G); lia.
    Qed.
    Lemma move_none i comb : - 2 ^ 31 <= i < 2 ^ 31 -> it_move dflt g 0 (mkIter i comb) = Ok (mkIter i comb).
    Proof.
      intros I. unfold it_move, update_to. cbn [it_idx]. rewrite Z.add_0_r, to_int_id by lia.
      rewrite Z.eqb_refl. reflexivity.
    Qed.

    (** ** History *)
    Definition inside (p : Z) : bool := (0 <=? p) && (p <? product options).
    Definition slot (ps : list Z) (o : list A) (k : nat) : option A :=
      match written options k ps with
      | Some p => nth_error o (Z.to_nat (digit_at options k p))
      | None => Some dflt
      end.
    Definition history (ps : list Z) (it : iter A) : Prop :=
      it_idx it = hd 0 ps /\ ps <> [] /\
      ((it_comb it = [] /\ existsb inside ps = false) \/
       (length (it_comb it) = length options /\
        forall k o, nth_error options k = Some o -> nth_error (it_comb it) k = slot ps o k)).

    Lemma written_none k ps : existsb inside ps = false -> written options k ps = None.
    Proof.
      induction ps as [|p ps IH]; cbn [existsb written]; auto. intros E. apply orb_false_iff in E as [E1 E2].
      unfold inside in E1. rewrite E1. cbn [andb]. auto.
    Qed.

    Lemma written_cons k p q ps : written options k (p :: q :: ps) =
      if inside p && negb (digit_at options k q =? digit_at options k p) then Some p else written options k (q :: ps).
    Proof. reflexivity. Qed.

    Lemma filled_slot ps it k o : history ps it -> nth_error options k = Some o ->
      nth_error (filled (it_comb it)) k = slot ps o k.
    Proof.
      intros (_ & _ & [[E N]|[L S]]) O.
      - rewrite E. unfold filled, prealloc, slot. rewrite written_none by auto. cbn [g_options g].
        assert (B : (k < length options)%nat) by (apply nth_error_Some; congruence).
        rewrite (nth_error_nth' _ dflt) by (rewrite repeat_length; auto). f_equal. apply nth_repeat.
      - rewrite <- (S k o O). unfold filled, prealloc. destruct (it_comb it); [|reflexivity].
        destruct options; [destruct k; discriminate|discriminate L].
    Qed.

    Lemma history_move ps it n : history ps it -> 0 <= hd 0 ps < 2 ^ 31 -> 0 <= hd 0 ps + n < 2 ^ 31 ->
      exists it', it_move dflt g n it = Ok it' /\ history ((hd 0 ps + n) :: ps) it'.
    Proof.
      intros Hi I I'. pose proof Hi as (Ei & Ne & Cs). destruct it as [i comb]. cbn [it_idx it_comb] in *. subst i.
      destruct ps as [|q ps]; [congruence|]. cbn [hd] in *.
      assert (L : comb = [] \/ length comb = length options) by (destruct Cs as [[C _]|[C _]]; auto).
      destruct (Z.eq_dec n 0) as [->|N].
      { rewrite Z.add_0_r, move_none by lia. eexists. split; [reflexivity|].
        split; [reflexivity|]. split; [discriminate|]. cbn [it_comb].
        destruct Cs as [[C X]|[C S]]; [left|right]; split; auto.
        - cbn [existsb] in *. apply orb_false_iff in X as [X1 X2]. rewrite X1, X2. reflexivity.
        - intros k o O. rewrite (S k o O). unfold slot. rewrite written_cons, Z.eqb_refl, andb_false_r. reflexivity. }
      rewrite move_any by (auto || lia). eexists. split; [reflexivity|].
      split; [reflexivity|]. split; [discriminate|]. cbn [it_comb].
      destruct (Z.ltb_spec (q + n) (product options)) as [B|B].
      - right. split; [apply merged_len, filled_len; auto|]. intros k o O.
        rewrite (merged_nth options NE _ _ _ k o) by (auto using filled_len || lia).
        pose proof (filled_slot _ _ k o Hi O) as F. cbn [it_comb] in F. rewrite F.
        unfold slot. rewrite written_cons. unfold inside.
        replace (0 <=? q + n) with true by (symmetry; apply Z.leb_le; lia).
        replace (q + n <? product options) with true by (symmetry; apply Z.ltb_lt; lia). cbn [andb].
        destruct (_ =? _); reflexivity.
      - assert (X : inside (q + n) = false).
        { unfold inside. replace (q + n <? product options) with false by (symmetry; apply Z.ltb_ge; lia). apply andb_false_r. }
        destruct Cs as [[C Y]|[C S]]; [left|right]; split; auto.
        + cbn [existsb]. rewrite X. exact Y.
        + intros k o O. rewrite (S k o O). unfold slot. rewrite written_cons, X. reflexivity.
    Qed.

    Lemma history_moves ns : forall ps it, history ps it -> 0 <= hd 0 ps < 2 ^ 31 ->
      Forall (fun p => 0 <= p < 2 ^ 31) (fold_left (fun ps n => (hd 0 ps + n) :: ps) ns ps) ->
      exists it', it_moves dflt g ns it = Ok it' /\
        history (fold_left (fun ps n => (hd 0 ps + n) :: ps) ns ps) it'.
    Proof.
      assert (K : forall ns ps, exists l, fold_left (fun ps n => (hd 0 ps + n) :: ps) ns ps = l ++ ps).
      { induction ns0 as [|n ns0 IH]; intros ps; [exists []; reflexivity|].
        destruct (IH ((hd 0 ps + n) :: ps)) as [l E]. exists (l ++ [hd 0 ps + n]).
        cbn [fold_left]. rewrite E, <- app_assoc. reflexivity. }
      induction ns as [|n ns IH]; intros ps it Hi I F; [exists it; auto|].
      cbn [fold_left] in *. destruct (K ns ((hd 0 ps + n) :: ps)) as [l El].
      assert (I' : 0 <= hd 0 ps + n < 2 ^ 31).
      { rewrite Forall_forall in F. apply F. rewrite El. apply in_app_iff. cbn. auto. }
      destruct (history_move ps it n Hi I I') as (it1 & E1 & H1).
      destruct (IH _ it1 H1 I' F) as (it2 & E2 & H2). exists it2. split; auto.
      unfold it_moves in *. cbn [foldM]. rewrite E1. exact E2.
    Qed.

    Lemma begin_history : exists it, gen_begin dflt g = Ok it /\ history [0] it.
    Proof.
      destruct (at_zero options G) as [c C]. exists (mkIter 0 c).
      split; [apply (new_iter_ok dflt options G); auto|].
      split; [reflexivity|]. split; [discriminate|]. right. split; [apply (combination_at_len _ _ _ C)|].
      intros k o O. unfold slot. cbn [written].
      replace (0 <? product options) with true by (symmetry; apply Z.ltb_lt, product_pos, NE).
      cbn [Z.leb andb]. apply combination_slot; auto.
    Qed.
    Lemma end_history : exists it, gen_end dflt g = Ok it /\ history [product options] it.
    Proof.
      exists (mkIter (product options) []). split; [apply (end_iter dflt options G)|].
      split; [reflexivity|]. split; [discriminate|]. left. split; auto.
      cbn [existsb]. unfold inside. rewrite Z.ltb_irrefl, andb_false_r. reflexivity.
    Qed.
  End One.

  Lemma C11_exact_lemma (options : list (list A)) (back : bool) ns : good_options options ->
    let start := if back then product options else 0 in
    Forall (fun p => 0 <= p < 2 ^ 31) (positions start ns) ->
    hd 0 (positions start ns) < product options ->
    exists g it0 it, make_gen options = Ok g /\ (if back then gen_end dflt g else gen_begin dflt g) = Ok it0 /\
      it_moves dflt g ns it0 = Ok it /\ it_idx it = hd 0 (positions start ns) /\
      length (it_comb it) = length options /\
      forall k o, nth_error options k = Some o ->
        nth_error (it_comb it) k =
        match written options k (positions start ns) with
        | Some p => nth_error o (Z.to_nat (digit_at options k p))
        | None => Some dflt
        end.
  Proof.
    intros G start F B. pose proof (product_pos _ (proj1 (proj2 G))) as P. pose proof (proj2 (proj2 G)) as LT.
    exists (mkGen options (groups_spec options) (product options)).
    assert (S : exists it0, (if back then gen_end dflt (mkGen options (groups_spec options) (product options))
        else gen_begin dflt (mkGen options (groups_spec options) (product options))) = Ok it0 /\
        history options [start] it0).
    { unfold start. destruct back; [apply (end_history options G)|apply (begin_history options G)]. }
    destruct S as (it0 & E0 & H0). exists it0.
    assert (I0 : 0 <= hd 0 [start] < 2 ^ 31) by (unfold start; destruct back; cbn [hd]; lia).
    destruct (history_moves options G ns [start] it0 H0 I0 F) as (it & E & Ei & Ne & Cs).
    fold (positions start ns) in *. exists it. split; [apply make_gen_ok; auto|].
    split; [exact E0|]. split; [exact E|]. split; [exact Ei|].
    destruct Cs as [[C X]|[C S]]; [exfalso|split; auto].
    destruct (positions start ns) as [|p ps]; [congruence|]. cbn [hd existsb] in *.
    inversion F as [|? ? Fp _]; subst. apply orb_false_iff in X as [X _]. unfold inside in X.
    apply andb_false_iff in X as [X|X]; [apply Z.leb_gt in X|apply Z.ltb_ge in X]; lia.
  Qed.

  (** ** Steps *)
  Lemma merged_same (options : list (list A)) : forall comb r r', combination_at options r' = Some comb -> all_nonempty options ->
    merged options comb r r' = comb.
  Proof.
    induction options as [|o os IH]; intros comb r r' C H.
    - assert (R : 0 <= r' < 1) by (apply (combination_at_in [] r' H); eauto). assert (r' = 0) by lia. subst.
      injection C as <-. reflexivity.
    - assert (R : 0 <= r' < product (o :: os)) by (apply (combination_at_in _ r' H); eauto).
      inversion H as [|? ? No Hs]; subst. rewrite combination_at_cons in C by (lia || auto).
      destruct (nth_error o _) as [x|] eqn:Nx; [|discriminate].
      destruct (combination_at os _) as [c'|] eqn:Nc; [|discriminate]. injection C as <-. cbn [merged].
      f_equal; [|apply IH; auto]. destruct (_ =? _); auto. apply nth_error_nth. exact Nx.
  Qed.

  (** What is shown by an iterator that came from begin (dflt is not used) or
      from end. *)
  Lemma merged_blank (options : list (list A)) : forall c c' r r', all_nonempty options ->
    combination_at options r = Some c -> combination_at options r' = Some c' ->
    merged options (blank dflt options c) r r' = blank dflt options c'.
  Proof.
    induction options as [|o os IH]; intros c c' r r' H C C'.
    - assert (R : 0 <= r < 1) by (apply (combination_at_in [] r H); eauto).
      assert (R' : 0 <= r' < 1) by (apply (combination_at_in [] r' H); eauto).
      assert (r = 0) by lia. assert (r' = 0) by lia. subst. injection C as <-. injection C' as <-. reflexivity.
    - assert (R : 0 <= r < product (o :: os)) by (apply (combination_at_in _ r H); eauto).
      assert (R' : 0 <= r' < product (o :: os)) by (apply (combination_at_in _ r' H); eauto).
      inversion H as [|? ? No Hs]; subst. pose proof (product_pos _ Hs) as P.
      rewrite combination_at_cons in C, C' by (lia || auto).
      destruct (nth_error o (Z.to_nat (r / _))) as [x|] eqn:Nx; [|discriminate].
      destruct (combination_at os (r mod _)) as [cs|] eqn:Nc; [|discriminate].
      destruct (nth_error o (Z.to_nat (r' / _))) as [x'|] eqn:Nx'; [|discriminate].
      destruct (combination_at os (r' mod _)) as [cs'|] eqn:Nc'; [|discriminate].
      injection C as <-. injection C' as <-. cbn [blank merged]. f_equal; [|apply IH; auto].
      cbn [product] in R, R'. pose proof (div_bound _ _ _ P R). pose proof (div_bound _ _ _ P R').
      destruct (Nat.eqb_spec (length o) 1) as [L|L].
      + rewrite (proj2 (Z.eqb_eq _ _)) by lia. reflexivity.
      + destruct (Z.eqb_spec (r / product os) (r' / product os)) as [Q|Q]; [rewrite Q in Nx; congruence|].
        apply nth_error_nth. exact Nx'.
  Qed.
  Lemma last_digits (o : list A) os : all_nonempty (o :: os) ->
    (product (o :: os) - 1) / product os = Z.of_nat (length o) - 1 /\
    (product (o :: os) - 1) mod product os = product os - 1.
  Proof.
    intros H. inversion H as [|? ? No Hs]; subst. pose proof (product_pos _ Hs) as P.
    assert (E : product (o :: os) - 1 = (product os - 1) + (Z.of_nat (length o) - 1) * product os)
      by (cbn [product]; nia).
    split; rewrite E; [rewrite Z.div_add, Z.div_small by lia|rewrite Z.mod_add, Z.mod_small by lia]; lia.
  Qed.
  Lemma merged_last (options : list (list A)) : all_nonempty options -> forall comb c, length comb = length options ->
    (forall k, (k < length options)%nat -> nth_error comb k = Some dflt) ->
    combination_at options (product options - 1) = Some c ->
    merged options comb 0 (product options - 1) = blank dflt options c.
  Proof.
    induction options as [|o os IH]; intros H comb c L D C.
    - cbn in C. injection C as <-. reflexivity.
    - destruct (last_digits o os H) as [E1 E2]. inversion H as [|? ? No Hs]; subst. pose proof (product_pos _ Hs) as P.
      pose proof (product_pos _ H) as P'. pose proof (len_pos _ No) as Lp.
      rewrite combination_at_cons in C by (lia || auto). rewrite E1, E2 in C.
      destruct (nth_error o _) as [x|] eqn:Nx; [|discriminate].
      destruct (combination_at os _) as [c'|] eqn:Nc; [|discriminate]. injection C as <-.
      destruct comb as [|y ys]; [discriminate|]. cbn [merged blank].
      rewrite E1, E2, Z.div_0_l, Z.mod_0_l by lia. f_equal.
      + assert (Y : y = dflt) by (specialize (D 0%nat ltac:(cbn; lia)); cbn in D; congruence).
        destruct (Nat.eqb_spec (length o) 1) as [Q|Q].
        * rewrite (proj2 (Z.eqb_eq _ _)) by lia. auto.
        * rewrite (proj2 (Z.eqb_neq _ _)) by lia. apply nth_error_nth. exact Nx.
      + apply (IH Hs); [cbn in L; lia| |auto]. intros k K. apply (D (S k)). cbn. lia.
  Qed.

  (** The tail of the digits of the end is 0. *)
  Lemma merged_end o os : good_options (o :: os) -> forall c,
    combination_at (o :: os) (product (o :: os) - 1) = Some c ->
    merged (o :: os) (repeat dflt (length (o :: os))) (product (o :: os)) (product (o :: os) - 1) =
    blank_tail dflt (o :: os) c.
  Proof.
    intros (_ & H & LT) c C. destruct (last_digits o os H) as [E1 E2].
    inversion H as [|? ? No Hs]; subst. pose proof (product_pos _ Hs) as P. pose proof (len_pos _ No) as Lp.
    pose proof (product_pos _ H) as P'.
    rewrite combination_at_cons in C by (lia || auto). rewrite E1, E2 in C.
    destruct (nth_error o _) as [x|] eqn:Nx; [|discriminate].
    destruct (combination_at os _) as [c'|] eqn:Nc; [|discriminate]. injection C as <-.
    cbn [length repeat merged blank_tail]. rewrite E1, E2. f_equal.
    - assert (D : product (o :: os) / product os = Z.of_nat (length o)) by (cbn [product]; apply Z.div_mul; lia).
      rewrite D, (proj2 (Z.eqb_neq _ _)) by lia. apply nth_error_nth. exact Nx.
    - assert (M : product (o :: os) mod product os = 0) by (cbn [product]; apply Z.mod_mul; lia). rewrite M.
      apply merged_last; auto; [apply repeat_length|]. intros k K.
      rewrite (nth_error_nth' _ dflt) by (rewrite repeat_length; auto). f_equal. apply nth_repeat.
  Qed.
  Lemma merged_blank_tail (options : list (list A)) c c' r r' : all_nonempty options -> options <> [] ->
    combination_at options r = Some c -> combination_at options r' = Some c' ->
    merged options (blank_tail dflt options c) r r' = blank_tail dflt options c'.
  Proof.
    intros H N C C'. destruct options as [|o os]; [congruence|]. clear N.
    assert (R : 0 <= r < product (o :: os)) by (apply (combination_at_in _ r H); eauto).
    assert (R' : 0 <= r' < product (o :: os)) by (apply (combination_at_in _ r' H); eauto).
    inversion H as [|? ? No Hs]; subst. pose proof (product_pos _ Hs) as P.
    rewrite combination_at_cons in C, C' by (lia || auto).
    destruct (nth_error o (Z.to_nat (r / _))) as [x|] eqn:Nx; [|discriminate].
    destruct (combination_at os (r mod _)) as [cs|] eqn:Nc; [|discriminate].
    destruct (nth_error o (Z.to_nat (r' / _))) as [x'|] eqn:Nx'; [|discriminate].
    destruct (combination_at os (r' mod _)) as [cs'|] eqn:Nc'; [|discriminate].
    injection C as <-. injection C' as <-. cbn [blank_tail merged]. f_equal; [|apply merged_blank; auto].
    destruct (Z.eqb_spec (r / product os) (r' / product os)) as [Q|Q]; [rewrite Q in Nx; congruence|].
    apply nth_error_nth. exact Nx'.
  Qed.

  Lemma merged_blank_same (options : list (list A)) : forall c r r', all_nonempty options ->
    0 <= r < product options -> combination_at options r' = Some c ->
    merged options (blank dflt options c) r r' = blank dflt options c.
  Proof.
    induction options as [|o os IH]; intros c r r' H R C.
    - assert (R' : 0 <= r' < 1) by (apply (combination_at_in [] r' H); eauto).
      assert (r' = 0) by lia. subst. injection C as <-. reflexivity.
    - assert (R' : 0 <= r' < product (o :: os)) by (apply (combination_at_in _ r' H); eauto).
      inversion H as [|? ? No Hs]; subst. pose proof (product_pos _ Hs) as P.
      rewrite combination_at_cons in C by (lia || auto).
      destruct (nth_error o (Z.to_nat (r' / _))) as [x|] eqn:Nx; [|discriminate].
      destruct (combination_at os (r' mod _)) as [cs|] eqn:Nc; [|discriminate].
      injection C as <-. cbn [blank merged]. f_equal; [|apply IH; auto; apply Z.mod_pos_bound; auto].
      cbn [product] in R, R'. pose proof (div_bound _ _ _ P R). pose proof (div_bound _ _ _ P R').
      destruct (Nat.eqb_spec (length o) 1) as [L|L].
      + rewrite (proj2 (Z.eqb_eq _ _)) by lia. reflexivity.
      + destruct (_ =? _); auto. apply nth_error_nth. exact Nx.
  Qed.
  Lemma merged_tail_same (options : list (list A)) c : all_nonempty options -> options <> [] ->
    combination_at options (product options - 1) = Some c ->
    merged options (blank_tail dflt options c) (product options) (product options - 1) = blank_tail dflt options c.
  Proof.
    intros H N C. destruct options as [|o os]; [congruence|]. clear N. destruct (last_digits o os H) as [E1 E2].
    inversion H as [|? ? No Hs]; subst. pose proof (product_pos _ Hs) as P. pose proof (product_pos _ H) as P'.
    rewrite combination_at_cons in C by (lia || auto). rewrite E1, E2 in C.
    destruct (nth_error o _) as [x|] eqn:Nx; [|discriminate].
    destruct (combination_at os _) as [c'|] eqn:Nc; [|discriminate]. injection C as <-.
    cbn [merged blank_tail]. rewrite E1, E2. f_equal.
    - destruct (_ =? _); auto. apply nth_error_nth. exact Nx.
    - assert (M : product (o :: os) mod product os = 0) by (cbn [product]; apply Z.mod_mul; lia). rewrite M.
      apply merged_blank_same; auto. lia.
  Qed.
  Lemma blank_tail_len (options : list (list A)) : forall c, length c = length options ->
    length (blank_tail dflt options c) = length options.
  Proof.
    assert (K : forall os c, length c = length os -> length (blank dflt os c) = length os).
    { induction os as [|o os IH]; intros [|x c] L; try discriminate; auto. cbn [blank length]. f_equal. apply IH. cbn in L. lia. }
    intros c L. destruct options as [|o os], c as [|x c]; try discriminate; auto.
    cbn [blank_tail length]. f_equal. apply K. cbn in L. lia.
  Qed.

  Section Steps.
    Context (options : list (list A)) (G : good_options options) (back : bool).
    Let g := mkGen options (groups_spec options) (product options).
    Let NE : all_nonempty options := proj1 (proj2 G).
    Let LT : product options < 2 ^ 31 := proj2 (proj2 G).
    Definition shows (c : list A) : list A := if back then blank_tail dflt options c else c.

    Definition step_inv (i : Z) (comb : list A) : Prop :=
      (exists c, combination_at options i = Some c /\ comb = shows c) \/
      (i = product options /\
       ((back = true /\ comb = []) \/
        exists c, combination_at options (product options - 1) = Some c /\ comb = shows c)).

    Lemma shows_len i c : combination_at options i = Some c -> length (shows c) = length options.
    Proof.
      intros C. apply combination_at_len in C. unfold shows. destruct back; auto. apply blank_tail_len. auto.
    Qed.
    Lemma step_len i comb : step_inv i comb -> comb = [] \/ length comb = length options.
    Proof.
      intros [(c & C & ->)|(_ & [[_ ->]|(c & C & ->)])]; auto; right; eapply shows_len; eauto.
    Qed.
    Lemma filled_shows i c : combination_at options i = Some c -> filled options (shows c) = shows c.
    Proof.
      intros C. apply shows_len in C. unfold filled, prealloc. destruct (shows c); [|reflexivity].
      destruct options as [|o os]; [destruct (proj1 G eq_refl)|discriminate C].
    Qed.

    Lemma step_ok i comb n : step_inv i comb -> n = 1 \/ n = -1 -> 0 <= i + n <= product options ->
      exists comb', it_move dflt g n (mkIter i comb) = Ok (mkIter (i + n) comb') /\ step_inv (i + n) comb'.
    Proof.
      intros S N B. assert (I : 0 <= i <= product options).
      { destruct S as [(c & C & _)|(E & _)]; [|pose proof (product_pos _ NE); lia].
        assert (0 <= i < product options) by (apply (combination_at_in _ i NE); eauto). lia. }
      unfold g. rewrite (move_any options G i comb n (step_len i comb S)) by lia.
      eexists. split; [reflexivity|].
      destruct (Z.ltb_spec (i + n) (product options)) as [Q|Q].
      - left. destruct (proj2 (combination_at_in _ (i + n) NE)) as [c' C']; [lia|]. exists c'. split; auto.
        destruct S as [(c & C & ->)|(E & S)].
        + rewrite (filled_shows i c C). unfold shows. destruct back.
          * apply merged_blank_tail; auto. exact (proj1 G).
          * destruct (change_merged options NE LT c i (i + n)) as (q & Eq & _);
              [eapply combination_at_len; eauto|lia|lia|].
            rewrite (change_digits_ok options NE LT c i (i + n) c' C C') in Eq. congruence.
        + assert (n = -1) by lia. subst n. rewrite E in *. change (product options + -1) with (product options - 1) in *.
          destruct S as [[Bk ->]|(c & C & ->)].
          * unfold shows. rewrite Bk. unfold filled, prealloc. cbn [g_options].
            destruct options as [|o os] eqn:Eo; [destruct (proj1 G eq_refl)|]. apply merged_end; auto.
          * rewrite (filled_shows _ c C). assert (c' = c) by congruence. subst c'. unfold shows. destruct back.
            -- apply merged_tail_same; auto. exact (proj1 G).
            -- apply merged_same; auto.
      - right. split; [lia|]. destruct S as [(c & C & ->)|(E & S)]; [|exfalso; lia].
        right. exists c. split; auto. assert (Ei : i = product options - 1).
        { assert (0 <= i < product options) by (apply (combination_at_in _ i NE); eauto). lia. }
        congruence.
    Qed.

    Lemma steps_ok ns : forall i comb, step_inv i comb -> Forall (fun n => n = 1 \/ n = -1) ns ->
      (forall k, (k <= length ns)%nat -> 0 <= fold_left Z.add (firstn k ns) i <= product options) ->
      exists comb', it_moves dflt g ns (mkIter i comb) = Ok (mkIter (fold_left Z.add ns i) comb') /\
        step_inv (fold_left Z.add ns i) comb'.
    Proof.
      induction ns as [|n ns IH]; intros i comb S F B; [exists comb; auto|].
      inversion F as [|? ? N F']; subst.
      destruct (step_ok i comb n S N (B 1%nat ltac:(cbn; lia))) as (c1 & E1 & S1).
      destruct (IH (i + n) c1 S1 F') as (c2 & E2 & S2).
      { intros k K. apply (B (Datatypes.S k)). cbn. lia. }
      exists c2. split; auto. unfold it_moves in *. cbn [foldM fold_left]. rewrite E1. exact E2.
    Qed.
  End Steps.

  Lemma start_inv (options : list (list A)) (G : good_options options) (back : bool) :
    exists comb, (if back then gen_end dflt (mkGen options (groups_spec options) (product options))
      else gen_begin dflt (mkGen options (groups_spec options) (product options))) =
      Ok (mkIter (if back then product options else 0) comb) /\
      step_inv options back (if back then product options else 0) comb.
  Proof.
    destruct back.
    - exists []. split; [apply (end_iter dflt options G)|]. right. auto.
    - destruct (at_zero options G) as [c C]. exists c. split; [apply (new_iter_ok dflt options G); auto|].
      left. exists c. auto.
  Qed.

  Lemma C11_steps_lemma options (back : bool) ns : good_options options ->
    let start := if back then product options else 0 in
    Forall (fun n => n = 1 \/ n = -1) ns ->
    (forall k, (k <= length ns)%nat -> 0 <= fold_left Z.add (firstn k ns) start <= product options) ->
    fold_left Z.add ns start < product options ->
    exists g it0 it c, make_gen options = Ok g /\ (if back then gen_end dflt g else gen_begin dflt g) = Ok it0 /\
      it_moves dflt g ns it0 = Ok it /\ it_idx it = fold_left Z.add ns start /\
      combination_at options (fold_left Z.add ns start) = Some c /\
      it_comb it = if back then blank_tail dflt options c else c.
  Proof.
    intros G start F B L. exists (mkGen options (groups_spec options) (product options)).
    destruct (start_inv options G back) as (c0 & E0 & S0). fold start in E0, S0.
    destruct (steps_ok options G back ns start c0 S0 F B) as (c1 & E1 & S1).
    destruct S1 as [(c & C & ->)|(E & _)]; [|lia].
    exists (mkIter start c0), (mkIter (fold_left Z.add ns start) (shows options back c)), c.
    split; [apply make_gen_ok; auto|]. auto.
  Qed.

  Lemma loop_back (options : list (list A)) (G : good_options options) n : forall i c fuel,
    combination_at options i = Some c -> Z.of_nat n = i + 1 -> (n <= fuel)%nat ->
    gen_loop dflt fuel (mkGen options (groups_spec options) (product options)) (-1)
      (mkIter i (blank_tail dflt options c)) (mkIter (-1) []) =
    Ok (rev (map (blank_tail dflt options) (firstn n (cart options)))).
  Proof.
    pose proof (proj1 (proj2 G)) as NE. pose proof (proj2 (proj2 G)) as LT.
    induction n as [|n IH]; intros i c fuel C N F;
      assert (B : 0 <= i < product options) by (apply (combination_at_in _ i NE); eauto); [lia|].
    destruct fuel as [|fuel]; [lia|]. cbn [gen_loop]. unfold it_eqb. cbn [it_idx].
    destruct (Z.eqb_spec i (-1)); [lia|].
    assert (SK : firstn (S n) (cart options) = firstn n (cart options) ++ [c]).
    { unfold combination_at in C. destruct (i <? 0) eqn:E; [lia|].
      replace (Z.to_nat i) with n in C by lia.
      clear -C. revert C. generalize (cart options). intros l. revert n.
      induction l as [|y l IH]; intros [|m] C; try discriminate.
      - inversion C; reflexivity.
      - cbn [app firstn]. f_equal. apply (IH m). exact C. }
    rewrite SK, map_app, rev_app_distr. cbn [map rev app].
    destruct n as [|n].
    - assert (Q : i = 0) by lia. subst i. rewrite (move_out dflt options G) by lia. cbn [bind].
      replace (gen_loop dflt fuel _ (-1) (mkIter (0 + -1) (blank_tail dflt options c)) (mkIter (-1) []))
        with (@Ok (list (list A)) []) by (destruct fuel; reflexivity). reflexivity.
    - destruct (proj2 (combination_at_in _ (i + -1) NE)) as [c' C']; [lia|].
      destruct (step_ok options G true i (blank_tail dflt options c) (-1)) as (cb & E & S); [|auto|lia|].
      { left. exists c. auto. }
      rewrite E. cbn [bind]. destruct S as [(c2 & C2 & ->)|(E2 & _)]; [|lia].
      assert (c2 = c') by congruence. subst c2. unfold shows. rewrite (IH (i + -1) c' fuel C') by lia.
      cbn [bind it_comb]. reflexivity.
  Qed.

  Lemma C11_reverse_exact_lemma options fuel : good_options options -> product options <= Z.of_nat fuel ->
    exists g, make_gen options = Ok g /\
      gen_rtraverse dflt fuel g = Ok (rev (map (blank_tail dflt options) (cart options))).
  Proof.
    intros G Fu. exists (mkGen options (groups_spec options) (product options)).
    split; [apply make_gen_ok; auto|]. pose proof (product_pos _ (proj1 (proj2 G))) as P.
    destruct (proj2 (combination_at_in options (product options - 1) (proj1 (proj2 G)))) as [c C]; [lia|].
    unfold gen_rtraverse, gen_rbegin. rewrite (end_iter dflt options G). cbn [bind].
    destruct (step_ok options G true (product options) [] (-1)) as (cb & E & S); [right; auto|auto|lia|].
    rewrite E. cbn [bind]. destruct S as [(c2 & C2 & ->)|(E2 & _)]; [|lia].
    change (product options + -1) with (product options - 1) in *. assert (c2 = c) by congruence. subst c2.
    unfold gen_rend, gen_begin. destruct (at_zero options G) as [c0 C0].
    rewrite (new_iter_ok dflt options G 0 c0 C0). cbn [bind].
    rewrite (move_out dflt options G 0 c0 (-1)) by lia. cbn [bind].
    rewrite (loop_stop_irrel dflt options fuel (-1) (mkIter (0 + -1) c0) (mkIter (-1) []) eq_refl).
    unfold shows. rewrite (loop_back options G (Z.to_nat (product options)) _ c fuel C) by lia.
    rewrite firstn_all2; [reflexivity|]. pose proof (cart_length options). lia.
  Qed.
End Moves.
