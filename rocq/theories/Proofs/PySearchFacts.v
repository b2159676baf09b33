(** Searches used from Python follow counters into lists of plans. *)
From Coq Require Import List Bool Arith Lia Permutation Sorted.
From Verif.Model Require Import Base Search PySearch.
From Verif.Spec Require Import SearchSpec PySearchSpec.
From Verif.Proofs Require Import SearchFacts SearchTrail SearchRuns SearchTheorems.
Import ListNotations.

(** ** Replacing one element *)
Section Put.
  Context {A : Type}.
  Lemma put_same (l : list A) : forall i x, i < length l -> nth_error (put l i x) i = Some x.
  Proof. induction l as [|y l IH]; intros [|i] x L; cbn in *; try lia; try reflexivity; apply IH; lia. Qed.
  Lemma put_other (l : list A) : forall i j x, i <> j -> nth_error (put l i x) j = nth_error l j.
  Proof. induction l as [|y l IH]; intros [|i] [|j] x H; cbn; try congruence; apply IH; congruence. Qed.
  Lemma put_length (l : list A) : forall i x, length (put l i x) = length l.
  Proof. induction l as [|y l IH]; intros [|i] x; cbn; auto. Qed.
  Lemma nth_lt (l : list A) i x : nth_error l i = Some x -> i < length l.
  Proof. intros H. apply nth_error_Some. congruence. Qed.
End Put.
Lemma put_map {A B} (f : A -> B) (l : list A) : forall i x y, nth_error l i = Some y -> f x = f y -> map f (put l i x) = map f l.
Proof.
  induction l as [|z l IH]; intros [|i] x y H E; cbn in *; try discriminate.
  - injection H as ->. congruence.
  - f_equal. eauto.
Qed.
Lemma Forall2_put {A B} (R : A -> B -> Prop) l l' : Forall2 R l l' -> forall i x y, R x y -> Forall2 R (put l i x) (put l' i y).
Proof. induction 1; intros [|i] a b H'; cbn; constructor; auto. Qed.
Lemma Forall2_nth_r {A B} (R : A -> B -> Prop) l l' : Forall2 R l l' -> forall i y, nth_error l' i = Some y ->
  exists x, nth_error l i = Some x /\ R x y.
Proof. induction 1; intros [|i] b H'; cbn in *; try discriminate; eauto. injection H' as <-. eauto. Qed.
Lemma Forall2_len {A B} (R : A -> B -> Prop) l l' : Forall2 R l l' -> length l = length l'.
Proof. induction 1; cbn; auto. Qed.
Lemma Forall2_weaken {A B} (R R' : A -> B -> Prop) l l' : (forall x y, R x y -> R' x y) -> Forall2 R l l' -> Forall2 R' l l'.
Proof. intros H. induction 1; constructor; auto. Qed.

Definition kind {N} (a : a_object N) : option N := match a with APlanner n => Some n | ASearch _ _ _ _ => None end.

Section Refine.
  Context {N W : Type} (goal : N -> outcome bool) (children : N -> W -> outcome (list N * W)).
  Context (P : N -> Prop) (I : W -> Prop) (isgoal : N -> bool) (kids : N -> list N).
  Context (St : steady goal children P I isgoal kids).

  Definition py_plans (n : N) (d : nat) : list (list N) := bplans d isgoal kids [(n, [])].

  Lemma incr_keeps d fuel late : forall i q w it w', nodes_in P q -> I w ->
    bfs_incr goal children d fuel late i q w = Ok (it, w') -> I w'.
  Proof.
    induction fuel as [|f IH]; intros i [|[n anc] q] w it w' Pq Iw; cbn [bfs_incr]; try discriminate.
    - intros [= <- <-]; auto.
    - intros [= <- <-]; auto.
    - apply Forall_cons_iff in Pq. destruct Pq as [Pn Pq]. cbn in Pn.
      destruct (late i); [intros [= <- <-]; auto|].
      rewrite (st_goal _ _ _ _ _ _ St n Pn). cbn [bind]. destruct (isgoal n) eqn:G; [intros [= <- <-]; auto|].
      destruct (Nat.ltb d _); [apply IH; auto|].
      destruct (st_kids _ _ _ _ _ _ St n w Pn G Iw) as (w1 & -> & I1). cbn [bind]. apply IH; auto.
      apply Forall_app. split; auto. eapply kids_in; eauto.
  Qed.

  (** A call that ends differently was cut short by the clock. *)
  Lemma incr_late d fuel late : forall i q w it w1,
    bfs_incr goal children d fuel (fun _ => false) i q w = Ok (it, w1) ->
    bfs_incr goal children d fuel late i q w = Ok (it, w1) \/
    (exists j, late j = true) /\ exists w2, bfs_incr goal children d fuel late i q w = Ok (mkBfs [] None, w2).
  Proof.
    induction fuel as [|f IH]; intros i [|[n anc] q] w it w1; cbn [bfs_incr]; auto.
    destruct (late i) eqn:L; [right; split; eauto|].
    destruct (goal n) as [g| | | |]; cbn [bind]; auto. destruct g; auto.
    destruct (Nat.ltb d _); [apply IH|].
    destruct (children n w) as [[cs w']| | | |]; cbn [bind]; auto. 
  Qed.

  Context (fuel : nat).

  Definition it_at (n : N) (d : nat) (timed : bool) (it : bfs_it (N := N)) (c : option nat) : Prop :=
    (it = mkBfs [] None /\ (c = Some (length (py_plans n d)) \/ timed = true /\ c = None)) \/
    exists q path pre, it = mkBfs q (Some path) /\ c = Some (length pre) /\ nodes_in P q /\ shallow d q /\
      total isgoal kids d q <= fuel /\ py_plans n d = pre ++ bplans d isgoal kids q.

  Lemma incr_at n d timed late pre q w : nodes_in P q -> shallow d q -> total isgoal kids d q <= fuel -> I w ->
    py_plans n d = pre ++ bplans d isgoal kids q ->
    exists it w', bfs_incr goal children d fuel (fun j => timed && late j) 0 q w = Ok (it, w') /\ I w' /\
      ((it = mkBfs [] None /\ length pre = length (py_plans n d)) \/
       (it = mkBfs [] None /\ timed = true /\ exists j, late j = true) \/
       exists path q', it = mkBfs q' (Some path) /\ nth_error (py_plans n d) (length pre) = Some path /\
         it_at n d timed it (Some (S (length pre)))).
  Proof.
    intros Pq Sq T Iw E.
    destruct (bfs_incr_trail goal children d P I isgoal kids St fuel 0 q w Pq Sq T Iw) as (it & w1 & R & I1 & H).
    destruct (incr_late d fuel (fun j => timed && late j) _ _ _ _ _ R) as [R'|((j & L) & w2 & R')].
    - exists it, w1. split; auto. split; auto.
      destruct H as [[-> B]|(path & q' & -> & H1 & H2 & H3 & H4)].
      + left. split; auto. rewrite E, B, app_nil_r. auto.
      + right. right. exists path, q'. split; auto. split.
        * rewrite E, H4, nth_error_app2, Nat.sub_diag by lia. reflexivity.
        * right. exists q', path, (pre ++ [path]). split; auto. split.
          { rewrite app_length. cbn. f_equal. lia. }
          repeat split; auto; try lia. rewrite E, H4, <- app_assoc. reflexivity.
    - exists (mkBfs [] None), w2. split; auto. split; [exact (incr_keeps _ _ _ _ _ _ _ _ Pq Iw R')|]. right. left. split; auto.
      apply andb_true_iff in L. destruct L as [L1 L2]. split; auto. exists j. auto.
  Qed.

  Lemma start_at n d : P n -> size isgoal kids d n <= fuel ->
    nodes_in P [(n, [])] /\ shallow d [((n, []) : entry (N := N))] /\ total isgoal kids d [(n, [])] <= fuel.
  Proof.
    intros Pn L. repeat split.
    - repeat constructor; auto.
    - repeat constructor; cbn; lia.
    - unfold total, esize. cbn. rewrite Nat.sub_0_r. lia.
  Qed.

  (** ** Objects and what stands for them *)
  Definition stands_for (heap : list (py_object N)) (o : py_object N) (a : a_object N) : Prop :=
    match o, a with
    | PyPlanner n, APlanner m => n = m /\ P n
    | PySearch x, ASearch n d timed c =>
        ps_depth x = d /\ ps_timed x = timed /\ nth_error heap (ps_root x) = Some (PyPlanner n) /\ P n /\
        size isgoal kids d n <= fuel /\
        if ps_started x then
          (exists y, nth_error heap (ps_owner x) = Some (PySearch y) /\ ps_depth y = d /\ ps_timed y = timed) /\
          it_at n d timed (ps_it x) c
        else c = Some 0
    | _, _ => False
    end.
  Definition heap_for (heap : list (py_object N)) (h : list (a_object N)) : Prop := Forall2 (stands_for heap) heap h.

  Definition keeps (heap heap' : list (py_object N)) : Prop :=
    (forall i n, nth_error heap i = Some (PyPlanner n) -> nth_error heap' i = Some (PyPlanner n)) /\
    (forall i x, nth_error heap i = Some (PySearch x) -> exists y, nth_error heap' i = Some (PySearch y) /\
       ps_depth y = ps_depth x /\ ps_timed y = ps_timed x).

  Lemma stands_keeps heap heap' o a : keeps heap heap' -> stands_for heap o a -> stands_for heap' o a.
  Proof.
    intros [K1 K2]. destruct o as [n|x|], a as [m|m d t c]; cbn; auto.
    intros (H1 & H2 & H3 & H4 & H5 & H6). repeat (split; auto).
    destruct (ps_started x); auto. destruct H6 as [(y & Y1 & Y2 & Y3) H6]. split; auto.
    destruct (K2 _ _ Y1) as (z & Z1 & Z2 & Z3). exists z. split; auto. split; congruence.
  Qed.
  Lemma keeps_app heap l : keeps heap (heap ++ l).
  Proof.
    split; intros i x H; rewrite nth_error_app1 by (eapply nth_lt; eauto); eauto.
  Qed.
  Lemma keeps_put heap i x y : nth_error heap i = Some (PySearch x) -> ps_depth y = ps_depth x -> ps_timed y = ps_timed x ->
    keeps heap (put heap i (PySearch y)).
  Proof.
    intros H D T. split; intros j z Hj; (destruct (Nat.eq_dec i j) as [<-|Nij]; [|rewrite put_other by auto; eauto]).
    - congruence.
    - exists y. rewrite put_same by (eapply nth_lt; eauto). split; auto. split; congruence.
  Qed.

  Lemma heap_app heap h o a : heap_for heap h -> stands_for (heap ++ [o]) o a -> heap_for (heap ++ [o]) (h ++ [a]).
  Proof.
    intros H S1. apply Forall2_app; [|constructor; auto].
    eapply Forall2_weaken; [|exact H]. intros. eapply stands_keeps; eauto using keeps_app.
  Qed.
  Lemma heap_put heap h i x y a : heap_for heap h -> nth_error heap i = Some (PySearch x) ->
    ps_depth y = ps_depth x -> ps_timed y = ps_timed x -> stands_for (put heap i (PySearch y)) (PySearch y) a ->
    heap_for (put heap i (PySearch y)) (put h i a).
  Proof.
    intros H E D T S1. apply Forall2_put; auto. eapply Forall2_weaken; [|exact H].
    intros. eapply stands_keeps; eauto using keeps_put.
  Qed.
  Lemma put_id {A} (l : list A) : forall i x, nth_error l i = Some x -> put l i x = l.
  Proof. induction l as [|y l IH]; intros [|i] x H; cbn in *; try discriminate; [congruence|f_equal; auto]. Qed.

  (** What a call of next does. *)
  Lemma next_step heap h i late x n d timed c w :
    heap_for heap h -> nth_error heap i = Some (PySearch x) -> nth_error h i = Some (ASearch n d timed c) ->
    stands_for heap (PySearch x) (ASearch n d timed c) -> I w ->
    exists r heap' w' h', py_step goal children fuel (PyNext i late) heap w = Ok (r, heap', w') /\ I w' /\
      a_step py_plans h (PyNext i late) r h' /\ heap_for heap' h' /\ map kind h' = map kind h.
  Proof.
    intros Hh Ex Ea Sx Iw. pose proof Sx as (D & T & R & Pn & L & C).
    (* the state after begin() or ++ *)
    assert (A : exists it ow w', py_advance goal children fuel late heap i x w =
        Ok (mkPySearch (ps_root x) (ps_depth x) (ps_timed x) true it ow, w') /\ I w' /\
        (exists y, nth_error heap ow = Some (PySearch y) /\ ps_depth y = d /\ ps_timed y = timed) /\
        ((exists k, c = Some k /\ it = mkBfs [] None /\ k = length (py_plans n d)) \/
         (it = mkBfs [] None /\ timed = true /\ c = None) \/
         (exists k, c = Some k /\ it = mkBfs [] None /\ timed = true /\ exists j, late j = true) \/
         exists k path q, c = Some k /\ it = mkBfs q (Some path) /\ nth_error (py_plans n d) k = Some path /\
           it_at n d timed it (Some (S k)))).
    { unfold py_advance. destruct (ps_started x) eqn:Es; cbn [negb].
      - destruct C as [Ow [[E C]|(q & path & pre & E & C & H1 & H2 & H3 & H4)]].
        + rewrite E. cbn [bi_queue]. exists (mkBfs [] None), (ps_owner x), w. split; auto. split; auto. split; auto.
          destruct C as [C|[C1 C2]]; [left; eauto|right; left; auto].
        + destruct Ow as (y & Y1 & Y2 & Y3).
          destruct (incr_at n d timed late pre q w H1 H2 H3 Iw H4) as (it & w' & B & I' & H).
          exists it, (ps_owner x), w'. split.
          { rewrite E. cbn [bi_queue]. destruct q as [|e q].
            - rewrite <- (f_equal (fun o => match o with Ok (a, _) => a | _ => it end) B).
              destruct fuel; cbn in B |- *; injection B as <- <-; reflexivity.
            - rewrite Y1, Y2, Y3, B. reflexivity. }
          split; auto. split; [eauto|]. subst c.
          destruct H as [[-> H]|[[-> H]|(p & q' & -> & H & H')]]; [left; eauto|right; right; left; exists (length pre); tauto|].
          right. right. right. exists (length pre), p, q'. auto.
      - rewrite R. destruct (start_at n d Pn L) as (S1 & S2 & S3).
        destruct (incr_at n d timed late [] [(n, [])] w S1 S2 S3 Iw eq_refl) as (it & w' & B & I' & H).
        unfold bfs_begin. rewrite D, T, B. cbn [bind]. exists it, i, w'. split; auto. split; auto. split; [exists x; auto|].
        rewrite C. destruct H as [[-> H]|[[-> H]|(p & q' & -> & H & H')]]; [left; eauto|right; right; left; exists 0; tauto|].
        right. right. right. exists 0, p, q'. auto. }
    destruct A as (it & ow & w' & A & I' & (y & Y1 & Y2 & Y3) & H).
    set (x' := mkPySearch (ps_root x) (ps_depth x) (ps_timed x) true it ow) in *.
    assert (St' : forall c', it_at n d timed it c' ->
      stands_for (put heap i (PySearch x')) (PySearch x') (ASearch n d timed c')).
    { intros c' H'. destruct (keeps_put heap i x x' Ex eq_refl eq_refl) as [K1 K2].
      cbn. repeat (split; auto). destruct (K2 _ _ Y1) as (z & Z1 & Z2 & Z3). exists z. split; auto. split; congruence. }
    assert (Hp : forall c', it_at n d timed it c' ->
      heap_for (put heap i (PySearch x')) (put h i (ASearch n d timed c'))).
    { intros c' H'. eapply heap_put; eauto. }
    assert (Kp : forall c', map kind (put h i (ASearch n d timed c')) = map kind h).
    { intros c'. eapply put_map; eauto. }
    cbn [py_step]. rewrite Ex, A. cbn [bind]. unfold x' at 1. cbn [ps_it].
    destruct H as [(k & -> & -> & Ek)|[(-> & Et & ->)|[(k & -> & -> & Et & Lj)|(k & path & q & -> & E & Hk & Ha)]]].
    - exists PyStop, (put heap i (PySearch x')), w', h. split; auto. split; auto. split.
      + eapply a_stop; eauto. apply nth_error_None. lia.
      + split; auto. rewrite <- (put_id h i _ Ea). apply Hp. left. subst k. auto.
    - exists PyStop, (put heap i (PySearch x')), w', h. split; auto. split; auto. rewrite Et in *. split.
      + eapply a_over; eauto.
      + split; auto. rewrite <- (put_id h i _ Ea). apply Hp. left. auto.
    - rewrite Et in *. exists PyStop, (put heap i (PySearch x')), w', (put h i (ASearch n d true None)).
      split; auto. split; auto. split; [eapply a_timeout; eauto|]. split; auto. apply Hp. left. auto.
    - exists (PyPlan path), (put heap i (PySearch x')), w', (put h i (ASearch n d timed (Some (S k)))).
      split.
      { assert (F : bfs_finished it = false) by (rewrite E; destruct q; reflexivity).
        assert (V : bfs_deref (ps_it x') = Ok path) by (unfold x'; cbn [ps_it]; rewrite E; reflexivity).
        rewrite F, V. reflexivity. }
      split; auto. split; [eapply a_plan; eauto|]. split; auto.
  Qed.

  (** ** Whole programs *)
  Definition kinds_after (kinds : list (option N)) (o : py_op N) : list (option N) :=
    match o with
    | PyNewPlanner n => kinds ++ [Some n]
    | PyNewSearch _ _ _ | PyIter _ => kinds ++ [None]
    | _ => kinds
    end.
  Definition cost (kinds : list (option N)) (o : py_op N) : nat :=
    match o with
    | PyNewSearch pl d _ => match nth_error kinds pl with Some (Some n) => size isgoal kids d n | _ => 0 end
    | _ => 0
    end.
  Fixpoint need (kinds : list (option N)) (ops : list (py_op N)) : nat :=
    match ops with [] => 0 | o :: r => cost kinds o + need (kinds_after kinds o) r end.

  Lemma kind_nth (h : list (a_object N)) i k : nth_error (map kind h) i = Some k ->
    exists a, nth_error h i = Some a /\ kind a = k.
  Proof.
    rewrite nth_error_map. destruct (nth_error h i) as [a|]; [|discriminate]. cbn. intros [= <-]. eauto.
  Qed.

  Lemma run_refines ops : forall heap h w, heap_for heap h -> I w -> typed (map kind h) ops -> roots_in P ops ->
    need (map kind h) ops <= fuel ->
    exists rs heap' w', py_run goal children fuel ops heap w = Ok (rs, heap', w') /\ I w' /\ a_run py_plans h ops rs.
  Proof.
    induction ops as [|o ops IH]; intros heap h w Hh Iw Ty Ro L.
    - exists [], heap, w. cbn. split; auto. split; auto. constructor.
    - assert (A : exists r heap' w' h', py_step goal children fuel o heap w = Ok (r, heap', w') /\ I w' /\
        a_step py_plans h o r h' /\ heap_for heap' h' /\ map kind h' = kinds_after (map kind h) o).
      { assert (Lh : length heap = length h) by (eapply Forall2_len; eauto).
        cbn [need] in L. destruct o as [n|pl d timed|i|i late|i]; cbn [typed] in Ty.
        - exists (PyObj (length heap)), (heap ++ [PyPlanner n]), w, (h ++ [APlanner n]). split; auto. split; auto.
          rewrite Lh. split; [constructor|]. split; [|apply map_app]. apply heap_app; auto. cbn. split; auto.
          apply Ro. left. auto.
        - destruct Ty as [[n En] _]. destruct (kind_nth _ _ _ En) as (a & Ea & Ka). destruct a as [m|]; [|discriminate].
          injection Ka as ->. destruct (Forall2_nth_r _ _ _ Hh _ _ Ea) as (ob & Eo & So).
          destruct ob as [m| |]; try destruct So. subst m. cbn [py_step]. rewrite Eo.
          exists (PyObj (length heap)), (heap ++ [PySearch (mkPySearch pl d timed false (mkBfs [] None) 0)]), w,
            (h ++ [ASearch n d timed (Some 0)]). split; auto. split; auto. rewrite Lh.
          split; [constructor; auto|]. split; [|apply map_app]. apply heap_app; auto. cbn.
          cbn [cost] in L. rewrite En in L.
          repeat (split; auto); [|lia]. rewrite nth_error_app1; auto. eapply nth_lt; eauto.
        - destruct Ty as [En _]. destruct (kind_nth _ _ _ En) as (a & Ea & Ka). destruct a as [|n d timed c]; [discriminate|].
          destruct (Forall2_nth_r _ _ _ Hh _ _ Ea) as (ob & Eo & So). destruct ob as [|x|]; try destruct So as [].
          cbn [py_step]. rewrite Eo.
          exists (PyObj (length heap)), (heap ++ [PySearch x]), w, (h ++ [ASearch n d timed c]). split; auto. split; auto.
          rewrite Lh. split; [econstructor; eauto|]. split; [|apply map_app]. apply heap_app; auto.
          apply (stands_keeps heap); [apply keeps_app|]. cbn. auto.
        - destruct Ty as [En _]. destruct (kind_nth _ _ _ En) as (a & Ea & Ka). destruct a as [|n d timed c]; [discriminate|].
          destruct (Forall2_nth_r _ _ _ Hh _ _ Ea) as (ob & Eo & So). destruct ob as [|x|]; [destruct So| |destruct So].
          eapply next_step; eauto.
        - destruct Ty. }
      destruct A as (r & heap' & w' & h' & E & I' & A & Hh' & K).
      assert (Ty' : typed (map kind h') ops).
      { rewrite K. destruct o; cbn in Ty |- *; try tauto. }
      assert (Ro' : roots_in P ops) by (intros n Hn; apply Ro; right; auto).
      cbn [need] in L.
      destruct (IH heap' h' w' Hh' I' Ty' Ro' ltac:(rewrite K; lia)) as (rs & heap'' & w'' & E' & I'' & A').
      cbn [py_run]. rewrite E. cbn [bind]. rewrite E'. cbn [bind]. exists (r :: rs), heap'', w''.
      split; auto. split; auto. econstructor; eauto.
  Qed.
End Refine.

(** ** The counters *)
Section Counters.
  Context {N : Type} (plans : N -> nat -> list (list N)).

  (** Calls without a timeout give the plans one after the other. *)
  Lemma next_all late n d : forall l h i pre rest rs, plans n d = pre ++ l -> nth_error h i = Some (ASearch n d false (Some (length pre))) ->
    a_run plans h (repeat (PyNext i late) (length l) ++ rest) rs ->
    exists rs', rs = map PyPlan l ++ rs' /\ a_run plans (match l with [] => h | _ => put h i (ASearch n d false (Some (length (plans n d)))) end) rest rs'.
  Proof.
    assert (PP : forall (h : list (a_object N)) i a b, put (put h i a) i b = put h i b).
    { intros h. induction h as [|x h IHh]; intros [|i] a b; cbn; auto. f_equal. auto. }
    induction l as [|p l IH]; intros h i pre rest rs El E R.
    - exists rs. auto.
    - cbn [length repeat app] in R. inversion R; subst.
      assert (Np : nth_error (plans n d) (length pre) = Some p).
      { rewrite El, nth_error_app2, Nat.sub_diag by lia. reflexivity. }
      match goal with H : a_step _ _ _ _ _ |- _ => inversion H; subst end; rewrite E in *; try congruence.
      match goal with H : Some _ = Some _ |- _ => injection H as <- <- <- <- end.
      match goal with H : nth_error _ _ = Some ?q |- _ => assert (q = p) by congruence; subst q end.
      match goal with H : a_run _ (put _ _ _) _ _ |- _ => rename H into R' end.
      assert (Lp : length (pre ++ [p]) = S (length pre)) by (rewrite app_length; cbn; lia).
      assert (E' : nth_error (put h i (ASearch n d false (Some (S (length pre))))) i =
        Some (ASearch n d false (Some (length (pre ++ [p]))))).
      { rewrite Lp. apply put_same. eapply nth_lt; eauto. }
      assert (El' : plans n d = (pre ++ [p]) ++ l) by (rewrite <- app_assoc; exact El).
      destruct (IH _ i (pre ++ [p]) rest _ El' E' R') as (rs' & -> & R'').
      exists rs'. split; auto. destruct l as [|p' l].
      + replace (length (plans n d)) with (S (length pre)); auto. rewrite El, app_length. cbn. lia.
      + rewrite PP in R''. auto.
  Qed.

  Lemma loop_all late n d h i rest rs1 : nth_error h i = Some (ASearch n d false (Some 0)) ->
    a_run plans h (repeat (PyNext i late) (S (length (plans n d))) ++ rest) rs1 ->
    exists rs2 c, rs1 = map PyPlan (plans n d) ++ PyStop :: rs2 /\ a_run plans (put h i (ASearch n d false c)) rest rs2.
  Proof.
    intros Ei R1.
    assert (Er : forall m, repeat (PyNext (N := N) i late) (S m) ++ rest = repeat (PyNext i late) m ++ PyNext i late :: rest).
    { induction m as [|m IH]; cbn; auto. f_equal. exact IH. }
    rewrite Er in R1.
    destruct (next_all late n d (plans n d) h i [] _ rs1 eq_refl Ei R1) as (rs2 & -> & R2).
    set (h' := match plans n d with [] => h | _ => put h i (ASearch n d false (Some (length (plans n d)))) end) in *.
    assert (Eh : h' = put h i (ASearch n d false (Some (length (plans n d))))).
    { unfold h'. destruct (plans n d); auto. cbn. clear - Ei. revert i Ei. induction h as [|y h IH]; intros [|i] E; cbn in *; try discriminate; [congruence|f_equal; auto]. }
    assert (Ec : nth_error h' i = Some (ASearch n d false (Some (length (plans n d))))).
    { rewrite Eh. apply put_same. eapply nth_lt; eauto. }
    clearbody h'. inversion R2 as [|? ? r h2 ? rs3 S1 R3]; subst.
    inversion S1 as [| | |? ? ? n1 d1 t1 k1 p1 F1 F2|? ? ? n1 d1 t1 k1 F1 F2|? ? ? n1 d1 k1 F1 F2|? ? ? n1 d1 F1]; subst;
      rewrite Ec in F1; try discriminate F1; injection F1 as <- <- <- <-.
    - apply nth_lt in F2. lia.
    - exists rs3, (Some (length (plans n d))). auto.
  Qed.
End Counters.

(** ** After the end, on any graph *)
Section Ended.
  Context {N W : Type} (goal : N -> outcome bool) (children : N -> W -> outcome (list N * W)) (fuel : nat).

  Definition ended (heap : list (py_object N)) (i : nat) : Prop :=
    nth_error heap i = Some PyFreed \/
    exists x, nth_error heap i = Some (PySearch x) /\ ps_started x = true /\ ps_it x = mkBfs [] None.

  Lemma finished_eq (it : bfs_it (N := N)) : bfs_finished it = true -> it = mkBfs [] None.
  Proof. destruct it as [[|e q] [p|]]; cbn; auto; discriminate. Qed.

  Lemma advance_started late heap i x w x' w' :
    py_advance goal children fuel late heap i x w = Ok (x', w') -> ps_started x' = true.
  Proof.
    unfold py_advance. destruct (negb (ps_started x)).
    - destruct (nth_error heap (ps_root x)) as [[n|y|]|]; try discriminate.
      destruct (bfs_begin _ _ _ _ _ _ _) as [[it w1]| | | |]; cbn [bind]; try discriminate. intros [= <- <-]. auto.
    - destruct (bi_queue (ps_it x)); [intros [= <- <-]; auto|].
      destruct (nth_error heap (ps_owner x)) as [[n|y|]|]; try discriminate.
      destruct (bfs_incr _ _ _ _ _ _ _ _) as [[it w1]| | | |]; cbn [bind]; try discriminate. intros [= <- <-]. auto.
  Qed.

  Lemma step_ends heap i late w heap' w' :
    py_step goal children fuel (PyNext i late) heap w = Ok (PyStop, heap', w') -> ended heap' i.
  Proof.
    cbn [py_step]. destruct (nth_error heap i) as [[n|x|]|] eqn:E; try discriminate.
    destruct (py_advance _ _ _ _ _ _ _ _) as [[x' w1]| | | |] eqn:A; cbn [bind]; try discriminate.
    destruct (bfs_finished (ps_it x')) eqn:F.
    - intros [= <- <-]. right. exists x'. rewrite put_same by (eapply nth_lt; eauto). split; auto.
      split; [eapply advance_started; eauto|apply finished_eq; auto].
    - destruct (bfs_deref _); cbn [bind]; discriminate.
  Qed.

  Lemma next_ended heap i late w r heap' w' : ended heap i ->
    py_step goal children fuel (PyNext i late) heap w = Ok (r, heap', w') -> r = PyStop.
  Proof.
    intros [E|(x & E & Es & Ei)]; cbn [py_step]; rewrite E; [discriminate|].
    unfold py_advance. rewrite Es, Ei. cbn. intros [= <- <- <-]. auto.
  Qed.

  Lemma ended_app heap l i : ended heap i -> ended (heap ++ l) i.
  Proof.
    unfold ended. intros [E|(x & E & H)]; rewrite nth_error_app1 by (eapply nth_lt; eauto); eauto.
  Qed.

  Lemma step_ended o heap w r heap' w' i : ended heap i ->
    py_step goal children fuel o heap w = Ok (r, heap', w') -> ended heap' i.
  Proof.
    intros D E. destruct o as [n|pl d timed|j|j late|j]; cbn [py_step] in E.
    - injection E as <- <- <-. apply ended_app; auto.
    - destruct (nth_error heap pl) as [[n|x|]|]; try discriminate. injection E as <- <- <-. apply ended_app; auto.
    - destruct (nth_error heap j) as [[n|x|]|]; try discriminate. injection E as <- <- <-. apply ended_app; auto.
    - destruct (Nat.eq_dec j i) as [->|Nj].
      + assert (r = PyStop) by (eapply next_ended; eauto). subst r. eapply step_ends; eauto.
      + assert (K : nth_error heap' i = nth_error heap i).
        { destruct (nth_error heap j) as [[n|x|]|]; try discriminate.
          destruct (py_advance _ _ _ _ _ _ _ _) as [[x' w1]| | | |]; cbn [bind] in E; try discriminate.
          destruct (bfs_finished _); [injection E as <- <- <-|].
          - apply put_other; auto.
          - destruct (bfs_deref _); cbn [bind] in E; try discriminate. injection E as <- <- <-. apply put_other; auto. }
        unfold ended. rewrite K. exact D.
    - injection E as <- <- <-. unfold ended in *. destruct (Nat.eq_dec j i) as [->|Nj].
      + left. apply put_same. destruct D as [D|(x & D & _)]; eapply nth_lt; eauto.
      + rewrite put_other; auto.
  Qed.

  Lemma run_ended ops : forall heap w rs heap' w' i j late, ended heap i ->
    py_run goal children fuel ops heap w = Ok (rs, heap', w') -> nth_error ops j = Some (PyNext i late) ->
    nth_error rs j = Some PyStop.
  Proof.
    induction ops as [|o ops IH]; intros heap w rs heap' w' i j late D E Ej; [destruct j; discriminate|].
    cbn [py_run] in E. destruct (py_step _ _ _ _ _ _) as [[[r h1] w1]| | | |] eqn:E1; cbn [bind] in E; try discriminate.
    destruct (py_run _ _ _ _ _ _) as [[[rs' h2] w2]| | | |] eqn:E2; cbn [bind] in E; try discriminate.
    injection E as <- <- <-. destruct j as [|j]; cbn in Ej |- *.
    - injection Ej as ->. f_equal. eapply next_ended; eauto.
    - eapply IH; [eapply step_ended; eauto|exact E2|exact Ej].
  Qed.

  Lemma C71_stays_lemma ops : forall heap w rs heap' w' i j1 j2 late1 late2,
    py_run goal children fuel ops heap w = Ok (rs, heap', w') -> j1 < j2 ->
    nth_error ops j1 = Some (PyNext i late1) -> nth_error rs j1 = Some PyStop ->
    nth_error ops j2 = Some (PyNext i late2) -> nth_error rs j2 = Some PyStop.
  Proof.
    induction ops as [|o ops IH]; intros heap w rs heap' w' i j1 j2 late1 late2 E L E1 R1 E2; [destruct j1; discriminate|].
    cbn [py_run] in E. destruct (py_step _ _ _ _ _ _) as [[[r h1] w1]| | | |] eqn:S1; cbn [bind] in E; try discriminate.
    destruct (py_run _ _ _ _ _ _) as [[[rs' h2] w2]| | | |] eqn:S2; cbn [bind] in E; try discriminate.
    injection E as <- <- <-. destruct j2 as [|j2]; [lia|]. destruct j1 as [|j1]; cbn in *.
    - injection E1 as ->. injection R1 as ->. eapply run_ended; [eapply step_ends; eauto|eauto|eauto].
    - eapply IH; [exact S2| |exact E1|exact R1|exact E2]. lia.
  Qed.
End Ended.

(** ** The theorems *)
Section Theorems.
  Context {N W : Type} (goal : N -> outcome bool) (children : N -> W -> outcome (list N * W)).
  Context (P : N -> Prop) (I : W -> Prop) (isgoal : N -> bool) (kids : N -> list N).
  Context (St : steady goal children P I isgoal kids) (w0 : W) (I0 : I w0).

  Lemma plans_sorted n d : P n -> StronglySorted shorter (py_plans isgoal kids n d).
  Proof.
    intros Pn. destruct (bfs_all_trail goal children d P I isgoal kids St n w0 _ _ Pn I0 (le_n _) (le_n _)) as (w' & E & _).
    eapply C46_sorted_lemma; eauto.
  Qed.

  Lemma C71_programs_lemma : exists plans : N -> nat -> list (list N),
    (forall n d, P n -> Permutation (plans n d) (lex_plans isgoal kids d n) /\ StronglySorted shorter (plans n d) /\
       exists K, forall calls fuel w, K <= calls -> K <= fuel -> I w ->
         exists w', bfs_all goal children d calls fuel never n w = Ok (plans n d, w') /\ I w') /\
    forall ops, typed [] ops -> roots_in P ops -> exists K, forall fuel w, K <= fuel -> I w ->
      exists rs heap w', py_run goal children fuel ops [] w = Ok (rs, heap, w') /\ I w' /\ a_run plans [] ops rs.
  Proof.
    exists (py_plans isgoal kids). split.
    - intros n d Pn. split; [apply bplans_perm|]. split; [apply plans_sorted; auto|].
      exists (size isgoal kids d n). intros. eapply bfs_all_trail; eauto.
    - intros ops Ty Ro. exists (need isgoal kids [] ops). intros fuel w L Iw.
      apply (run_refines goal children P I isgoal kids St fuel ops [] [] w); auto. constructor.
  Qed.

  (** Two loops, one after the other. *)
  Lemma C71_loops_lemma n d : P n -> exists l,
    Permutation l (lex_plans isgoal kids d n) /\ StronglySorted shorter l /\
    exists K, forall fuel w late, K <= fuel -> I w ->
      let loop i := PyIter 1 :: repeat (PyNext i late) (S (length l)) in
      exists heap w', py_run goal children fuel (PyNewPlanner n :: PyNewSearch 0 d false :: loop 2 ++ loop 3) [] w =
        Ok ([PyObj 0; PyObj 1] ++ (PyObj 2 :: map PyPlan l ++ [PyStop]) ++ (PyObj 3 :: map PyPlan l ++ [PyStop]), heap, w').
  Proof.
    intros Pn. set (l := py_plans isgoal kids n d). exists l. split; [apply bplans_perm|]. split; [apply plans_sorted; auto|].
    exists (size isgoal kids d n). intros fuel w late L Iw loop.
    assert (TR : forall m i rest kinds, nth_error kinds i = Some None -> typed kinds rest ->
      typed kinds (repeat (PyNext (N := N) i late) m ++ rest)).
    { induction m; cbn; auto. }
    assert (NR : forall m i rest kinds, need isgoal kids kinds (repeat (PyNext (N := N) i late) m ++ rest) = need isgoal kids kinds rest).
    { induction m; cbn; auto. }
    destruct (run_refines goal children P I isgoal kids St fuel
      (PyNewPlanner n :: PyNewSearch 0 d false :: loop 2 ++ loop 3) [] [] w) as (rs & heap & w' & E & _ & A).
    - constructor.
    - auto.
    - unfold loop. cbn [map typed app nth_error]. split; [eauto|]. split; auto. apply TR; auto.
      cbn [typed app nth_error]. split; auto. rewrite <- (app_nil_r (repeat _ _)). apply TR; cbn; auto.
    - intros m [H|[H|H]]; [congruence|discriminate|]. exfalso. unfold loop in H. apply in_app_or in H.
      destruct H as [[H|H]|[H|H]]; try discriminate; apply repeat_spec in H; discriminate.
    - unfold loop. cbn [map need app nth_error cost kinds_after]. rewrite NR. cbn [need cost kinds_after].
      rewrite <- (app_nil_r (repeat _ _)), NR. cbn. lia.
    - exists heap, w'. rewrite E. do 3 f_equal. clear E.
      pose proof (fun h i rest rs1 => loop_all (py_plans isgoal kids) late n d h i rest rs1) as Lp. fold l in Lp.
      inversion A as [|? ? ? ? ? ? S1 A1]; subst. inversion S1; subst. cbn [app length] in *.
      inversion A1 as [|? ? ? ? ? ? S2 A2]; subst. inversion S2; subst. cbn [nth_error] in *.
      match goal with H : Some _ = Some _ |- _ => injection H as <- end. cbn [app length] in *.
      unfold loop in A2. cbn [app] in A2.
      inversion A2 as [|? ? ? ? ? ? S3 A3]; subst. inversion S3; subst. cbn [nth_error] in *.
      match goal with H : Some _ = Some _ |- _ => injection H as <- <- <- <- end. cbn [app length] in *.
      set (z := ASearch n d false (Some 0)) in *.
      destruct (Lp [APlanner n; z; z] 2 (loop 3) _ eq_refl A3) as (rs2 & c & -> & A4). unfold loop in A4. cbn [put] in A4.
      inversion A4 as [|? ? ? ? ? ? S5 A5]; subst. inversion S5; subst. cbn [nth_error] in *.
      match goal with H : Some _ = Some _ |- _ => injection H as <- <- <- <- end. cbn [app length] in *.
      destruct (Lp [APlanner n; z; ASearch n d false c; z] 3 [] rs) as (rs3 & c' & -> & A6); [reflexivity| |].
      { rewrite app_nil_r. exact A5. }
      inversion A6; subst.
      rewrite <- !app_assoc. reflexivity.
  Qed.
End Theorems.
