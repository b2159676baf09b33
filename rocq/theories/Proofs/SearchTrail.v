(** Which paths a search looks at, and in which order. *)
From Coq Require Import List Bool Arith Lia Permutation Sorted.
From Verif.Model Require Import Base Search.
From Verif.Spec Require Import SearchSpec.
From Verif.Proofs Require Import SearchFacts.
Import ListNotations.

(** ** All plans of a tree *)
Section Plans.
  Context {N : Type} (isgoal : N -> bool) (kids : N -> list N).

  Notation all_plans := (lex_plans isgoal kids).

  Lemma all_plans_In k : forall n p, In p (all_plans k n) <-> plan_in isgoal kids k n p.
  Proof.
    induction k as [|k IH]; intros n p; cbn [lex_plans]; destruct (isgoal n) eqn:G; split; intros H.
    - destruct H as [<-|[]]. constructor. auto.
    - inversion H; subst; [left; auto].
    - destruct H.
    - inversion H; subst. congruence.
    - destruct H as [<-|[]]. constructor. auto.
    - inversion H; subst; [left; auto|congruence].
    - apply in_map_iff in H. destruct H as (r & <- & H). apply in_flat_map in H. destruct H as (c & Ic & H).
      apply plan_step with c; auto. apply IH; auto.
    - inversion H; subst; [congruence|]. apply in_map. apply in_flat_map. exists m. split; auto. apply IH; auto.
  Qed.

  Lemma all_plans_head k n p : In p (all_plans k n) -> exists r, p = n :: r.
  Proof.
    intros H. apply all_plans_In in H. inversion H; subst; eauto.
  Qed.

  Lemma NoDup_map_cons (n : N) (l : list (list N)) : NoDup l -> NoDup (map (cons n) l).
  Proof.
    induction 1 as [|x l H ND IH]; cbn; constructor; auto.
    intros I. apply in_map_iff in I. destruct I as (y & E & I). injection E as ->. auto.
  Qed.

  Lemma NoDup_app {A} (l l' : list A) : NoDup l -> NoDup l' -> (forall x, In x l -> ~ In x l') -> NoDup (l ++ l').
  Proof.
    induction 1 as [|x l H ND IH]; cbn; intros H' D; auto. constructor.
    - intros I. apply in_app_or in I. destruct I as [I|I]; auto. apply (D x); auto.
    - apply IH; auto.
  Qed.

  Lemma NoDup_flat (f : N -> list (list N)) l : NoDup l -> (forall c, In c l -> NoDup (f c)) ->
    (forall c p, In c l -> In p (f c) -> exists r, p = c :: r) -> NoDup (flat_map f l).
  Proof.
    induction 1 as [|c l H ND IH]; cbn; intros F S; [constructor|]. apply NoDup_app; auto.
    intros p I I'. apply in_flat_map in I'. destruct I' as (c' & Ic & I').
    destruct (S c p (or_introl eq_refl) I) as (r & ->). destruct (S c' _ (or_intror Ic) I') as (r' & E).
    injection E as -> _. auto.
  Qed.

  (** On the nodes in [P] no node is listed twice among the children. *)
  Lemma all_plans_NoDup (P : N -> Prop) :
    (forall n c, P n -> isgoal n = false -> In c (kids n) -> P c) ->
    (forall n, P n -> isgoal n = false -> NoDup (kids n)) ->
    forall k n, P n -> NoDup (all_plans k n).
  Proof.
    intros Pc Pn. induction k as [|k IH]; intros n Hn; cbn [lex_plans]; destruct (isgoal n) eqn:G.
    - repeat constructor. intros [].
    - constructor.
    - repeat constructor. intros [].
    - apply NoDup_map_cons. apply NoDup_flat; eauto. intros c p _. apply all_plans_head.
  Qed.

  (** Nodes looked at in a tree. *)
  Fixpoint size (k : nat) (n : N) : nat :=
    if isgoal n then 1
    else match k with O => 1 | S k' => S (list_sum (map (size k') (kids n))) end.
End Plans.

Section Trail.
  Context {N : Type} (isgoal : N -> bool) (kids : N -> list N) (d : nat).
  Context (pop : list (entry (N := N)) -> option (entry (N := N) * list (entry (N := N)))).
  Context (push : list (entry (N := N)) -> list (entry (N := N)) -> list (entry (N := N))).
  Context (pop_nil : pop [] = None) (pop_cons : forall x q, exists y r, pop (x :: q) = Some (y, r)).
  Context (pop_perm : forall q x r, pop q = Some (x, r) -> Permutation q (x :: r)).
  Context (push_perm : forall r c, Permutation (push r c) (c ++ r)).

  Definition esize (e : entry (N := N)) : nat := size isgoal kids (d - length (snd e)) (fst e).
  Definition total (q : list (entry (N := N))) : nat := list_sum (map esize q).
  Definition eplans (e : entry (N := N)) : list (list N) :=
    map (app (snd e)) (lex_plans isgoal kids (d - length (snd e)) (fst e)).
  Definition shallow (q : list (entry (N := N))) : Prop := Forall (fun e => length (snd e) <= d) q.

  (** The queue after looking at an entry. *)
  Definition after (n : N) (anc : list N) (r : list (entry (N := N))) : list (entry (N := N)) :=
    if isgoal n then r
    else if Nat.ltb d (length (anc ++ [n])) then r
    else push r (map (fun c => (c, anc ++ [n])) (kids n)).

  (** The paths looked at and whether they end in a goal. *)
  Fixpoint trail (f : nat) (q : list (entry (N := N))) : list (list N * bool) :=
    match f, pop q with
    | S f', Some ((n, anc), r) => (anc ++ [n], isgoal n) :: trail f' (after n anc r)
    | _, _ => []
    end.

  Lemma size_pos k n : 1 <= size isgoal kids k n.
  Proof. destruct k; cbn [size]; destruct (isgoal n); lia. Qed.

  Lemma total_perm q q' : Permutation q q' -> total q = total q'.
  Proof.
    unfold total. induction 1; cbn [map list_sum fold_right] in *; unfold list_sum in *; cbn [fold_right]; lia.
  Qed.
  Lemma total_cons e q : total (e :: q) = esize e + total q.
  Proof. reflexivity. Qed.
  Lemma total_app q q' : total (q ++ q') = total q + total q'.
  Proof. unfold total. rewrite map_app. apply list_sum_app. Qed.

  Lemma after_total n anc r : length anc <= d -> total ((n, anc) :: r) = S (total (after n anc r)).
  Proof.
    intros L. unfold after. rewrite app_length. cbn [length]. rewrite total_cons.
    unfold esize. cbn [fst snd]. destruct (isgoal n) eqn:G.
    - destruct (d - length anc); cbn [size]; rewrite G; reflexivity.
    - destruct (Nat.ltb_spec d (length anc + 1)) as [Hd|Hd].
      + replace (d - length anc) with 0 by lia. cbn [size]. rewrite G. reflexivity.
      + rewrite (total_perm _ _ (push_perm _ _)), total_app.
        destruct (d - length anc) as [|k] eqn:E; [lia|]. cbn [size]. rewrite G.
        unfold total at 2. rewrite map_map.
        replace (map (fun x => esize (x, anc ++ [n])) (kids n)) with (map (size isgoal kids k) (kids n)); [reflexivity|].
        apply map_ext. intros c. unfold esize. cbn [fst snd]. rewrite app_length. cbn. f_equal. lia.
  Qed.

  Lemma after_shallow n anc r : length anc <= d -> shallow r -> shallow (after n anc r).
  Proof.
    intros L S. unfold after. destruct (isgoal n); auto. destruct (Nat.ltb_spec d (length (anc ++ [n]))); auto.
    unfold shallow. rewrite push_perm. apply Forall_app. split; auto. apply Forall_map. apply Forall_forall.
    intros c _. cbn. auto.
  Qed.

  Lemma after_plans n anc r : length anc <= d ->
    Permutation (flat_map eplans ((n, anc) :: r))
      ((if isgoal n then [anc ++ [n]] else []) ++ flat_map eplans (after n anc r)).
  Proof.
    intros L. unfold after. rewrite app_length. cbn [length flat_map]. unfold eplans at 1. cbn [fst snd].
    destruct (isgoal n) eqn:G.
    - destruct (d - length anc); cbn [lex_plans]; rewrite G; cbn; apply Permutation_refl.
    - destruct (Nat.ltb_spec d (length anc + 1)) as [Hd|Hd].
      + replace (d - length anc) with 0 by lia. cbn [lex_plans]. rewrite G. cbn. apply Permutation_refl.
      + cbn [app]. eapply Permutation_trans; [|apply Permutation_flat_map, Permutation_sym, push_perm].
        rewrite flat_map_app. apply Permutation_app_tail.
        destruct (d - length anc) as [|k] eqn:E; [lia|]. cbn [lex_plans]. rewrite G.
        rewrite map_map. rewrite !flat_map_concat_map, concat_map, !map_map.
        apply Permutation_refl'. f_equal. apply map_ext. intros c. unfold eplans. cbn [fst snd].
        rewrite app_length. cbn. replace (d - (length anc + 1)) with k by lia. apply map_ext.
        intros p. rewrite <- app_assoc. reflexivity.
  Qed.

  Definition goals (t : list (list N * bool)) : list (list N) := map fst (filter snd t).

  Lemma trail_step q n anc r : shallow q -> pop q = Some ((n, anc), r) ->
    length anc <= d /\ shallow r /\ total q = S (total (after n anc r)) /\ shallow (after n anc r).
  Proof.
    intros S E. apply pop_perm in E. unfold shallow in S. rewrite E in S. apply Forall_cons_iff in S.
    destruct S as [L S]. cbn in L. split; auto. split; auto. split.
    - rewrite (total_perm _ _ E). apply after_total; auto.
    - apply after_shallow; auto.
  Qed.

  Lemma trail_plans f : forall q, shallow q -> total q <= f ->
    Permutation (goals (trail f q)) (flat_map eplans q).
  Proof.
    induction f as [|f IH]; intros q S T.
    - destruct q as [|x q]; [constructor|]. exfalso. rewrite total_cons in T.
      pose proof (size_pos (d - length (snd x)) (fst x)) as H. unfold esize in T. lia.
    - cbn [trail]. destruct q as [|x q].
      + rewrite pop_nil. constructor.
      + destruct (pop_cons x q) as ([n anc] & r & E). rewrite E.
        destruct (trail_step _ _ _ _ S E) as (L & Sr & Tq & Sa).
        rewrite (Permutation_flat_map eplans (pop_perm _ _ _ E)), after_plans by auto.
        unfold goals. cbn [filter snd]. specialize (IH (after n anc r) Sa ltac:(lia)). unfold goals in IH.
        destruct (isgoal n); cbn [map fst app]; [constructor|]; exact IH.
  Qed.
End Trail.
