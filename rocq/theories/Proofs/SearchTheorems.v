(** Statements for C45-C47, C50 and C51. *)
From Coq Require Import List Bool Arith Lia Permutation Sorted.
From Verif.Model Require Import Base Search.
From Verif.Spec Require Import SearchSpec.
From Verif.Proofs Require Import SearchFacts SearchTrail SearchRuns.
Import ListNotations.

(** ** Order of breadth-first search *)
Section Levels.
  Context {N W : Type} (goal : N -> outcome bool) (children : N -> W -> outcome (list N * W)).
  Context (d : nat).

  Definition at_depth (k : nat) (q : list (entry (N := N))) : Prop := Forall (fun e => length (snd e) = k) q.
  Definition levels (k : nat) (q : list (entry (N := N))) : Prop :=
    exists q1 q2, q = q1 ++ q2 /\ at_depth k q1 /\ at_depth (S k) q2.

  Lemma levels_pop k n anc q : levels k ((n, anc) :: q) ->
    exists k', k <= k' /\ length anc = k' /\ levels k' q /\
      forall cs, levels k' (q ++ map (fun c => (c, anc ++ [n])) cs).
  Proof.
    assert (K : forall k q1 q2, at_depth k ((n, anc) :: q1) -> at_depth (S k) q2 ->
      length anc = k /\ levels k (q1 ++ q2) /\ forall cs, levels k ((q1 ++ q2) ++ map (fun c => (c, anc ++ [n])) cs)).
    { intros k' q1 q2 H1 H2. apply Forall_cons_iff in H1. destruct H1 as [L H1]. cbn in L.
      split; auto. split; [exists q1, q2; auto|]. intros cs. exists q1, (q2 ++ map (fun c => (c, anc ++ [n])) cs).
      rewrite app_assoc. split; auto. split; auto. apply Forall_app. split; auto.
      apply Forall_map, Forall_forall. intros c _. cbn. rewrite app_length. cbn. lia. }
    intros (q1 & q2 & E & H1 & H2). destruct q1 as [|e q1].
    - cbn in E. subst. exists (S k). split; auto.
      destruct (K (S k) q [] H2) as (A & B & C); [constructor|]. rewrite app_nil_r in *. auto.
    - injection E as <- ->. exists k. split; auto.
  Qed.

  Lemma bfs_incr_levels fuel late : forall i k q w it w', levels k q ->
    bfs_incr goal children d fuel late i q w = Ok (it, w') ->
    forall p, bi_plan it = Some p -> exists k', k <= k' /\ length p = S k' /\ levels k' (bi_queue it).
  Proof.
    induction fuel as [|f IH]; intros i k [|[n anc] q] w it w' H; cbn [bfs_incr].
    - intros [= <- <-]. discriminate.
    - discriminate.
    - intros [= <- <-]. discriminate.
    - destruct (levels_pop _ _ _ _ H) as (k' & Lk & La & Hq & Hc). destruct (late i).
      { intros [= <- <-]. discriminate. }
      destruct (goal n) as [[]| | | |]; cbn [bind]; try discriminate.
      + intros [= <- <-]. cbn. intros p [= <-]. exists k'. rewrite app_length. cbn. repeat split; auto. lia.
      + assert (K : forall q' w0, levels k' q' -> bfs_incr goal children d f late (S i) q' w0 = Ok (it, w') ->
          forall p, bi_plan it = Some p -> exists k', k <= k' /\ length p = S k' /\ levels k' (bi_queue it)).
        { intros q' w0 L E p Ep. destruct (IH _ _ _ _ _ _ L E p Ep) as (k2 & A & B). exists k2. split; [lia|auto]. }
        destruct (Nat.ltb d _); [apply K; auto|].
        destruct (children n w) as [[cs w1]| | | |]; cbn [bind]; try discriminate. apply K. auto.
  Qed.

  Lemma bfs_loop_levels m : forall fuel late c it w l w' k,
    (forall p, bi_plan it = Some p -> exists k', k <= k' /\ length p = S k' /\ levels k' (bi_queue it)) ->
    bfs_loop goal children d m fuel late c it w = Ok (l, w') ->
    StronglySorted shorter l /\ Forall (fun p => S k <= length p) l.
  Proof.
    induction m as [|m IH]; intros fuel late c it w l w' k H; cbn [bfs_loop]; destruct (bfs_finished it) eqn:F.
    - intros [= <- <-]. repeat constructor.
    - discriminate.
    - intros [= <- <-]. repeat constructor.
    - unfold bfs_deref. destruct (bi_plan it) as [p|] eqn:Ep; [|discriminate]. cbn [bind].
      destruct (bfs_incr _ _ _ _ _ _ _ _) as [[it1 w1]| | | |] eqn:E1; try discriminate. cbn [bind].
      destruct (bfs_loop _ _ _ _ _ _ _ _ _) as [[l1 w2]| | | |] eqn:E2; try discriminate. cbn [bind].
      intros [= <- <-]. destruct (H p eq_refl) as (k1 & L1 & Lp & Lv).
      destruct (IH _ _ _ _ _ _ _ k1 (bfs_incr_levels _ _ _ _ _ _ _ _ Lv E1) E2) as [Ss Sf].
      split.
      + constructor; auto. eapply Forall_impl; [|exact Sf]. cbn. unfold shorter. intros q Hq. lia.
      + constructor; [lia|]. eapply Forall_impl; [|exact Sf]. cbn. intros q Hq. lia.
  Qed.

  Lemma C46_sorted_lemma calls fuel late root w l w' :
    bfs_all goal children d calls fuel late root w = Ok (l, w') -> StronglySorted shorter l.
  Proof.
    unfold bfs_all, bfs_begin. destruct (bfs_incr _ _ _ _ _ _ _ _) as [[it1 w1]| | | |] eqn:E1; try discriminate.
    cbn [bind]. intros E. refine (proj1 (bfs_loop_levels _ _ _ _ _ _ _ _ 0 _ E)).
    eapply bfs_incr_levels; [|exact E1]. exists [(root, [])], []. split; auto. split; repeat constructor.
  Qed.

  (** ** Timeouts *)
  Lemma bfs_incr_late fuel late : forall i q w it w1,
    bfs_incr goal children d fuel (fun _ => false) i q w = Ok (it, w1) ->
    bfs_incr goal children d fuel late i q w = Ok (it, w1) \/
    exists w2, bfs_incr goal children d fuel late i q w = Ok (mkBfs [] None, w2).
  Proof.
    induction fuel as [|f IH]; intros i [|[n anc] q] w it w1; cbn [bfs_incr].
    - auto.
    - discriminate.
    - auto.
    - destruct (late i); [eauto|]. destruct (goal n) as [[]| | | |]; cbn [bind]; try discriminate.
      + auto.
      + destruct (Nat.ltb d _); [apply IH|].
        destruct (children n w) as [[cs w2]| | | |]; cbn [bind]; try discriminate. apply IH.
  Qed.

  Lemma bfs_loop_late m : forall fuel late c it w l w1,
    bfs_loop goal children d m fuel never c it w = Ok (l, w1) ->
    exists l' w2, bfs_loop goal children d m fuel late c it w = Ok (l', w2) /\ prefix l' l.
  Proof.
    induction m as [|m IH]; intros fuel late c it w l w1; cbn [bfs_loop]; destruct (bfs_finished it) eqn:F.
    - intros [= <- <-]. exists [], w. split; auto. exists []. auto.
    - discriminate.
    - intros [= <- <-]. exists [], w. split; auto. exists []. auto.
    - destruct (bfs_deref it) as [p| | | |]; try discriminate. cbn [bind].
      destruct (bfs_incr _ _ _ _ (never c) _ _ _) as [[it1 w2]| | | |] eqn:E1; try discriminate. cbn [bind].
      destruct (bfs_loop _ _ _ _ _ never _ _ _) as [[l1 w3]| | | |] eqn:E2; try discriminate. cbn [bind].
      intros [= <- <-]. destruct (bfs_incr_late _ (late c) _ _ _ _ _ E1) as [E|[w4 E]]; rewrite E; cbn [bind].
      + destruct (IH _ late _ _ _ _ _ E2) as (l2 & w5 & E3 & r & ->). rewrite E3. cbn [bind].
        eexists _, _. split; eauto. exists r. auto.
      + destruct m; cbn [bfs_loop bfs_finished bi_queue bi_plan bind]; eexists _, _; (split; eauto); exists l1; auto.
  Qed.

  Lemma C47_prefix_lemma calls fuel late root w l w1 :
    bfs_all goal children d calls fuel never root w = Ok (l, w1) ->
    exists l' w2, bfs_all goal children d calls fuel late root w = Ok (l', w2) /\ prefix l' l.
  Proof.
    unfold bfs_all, bfs_begin. destruct (bfs_incr _ _ _ _ (never 0) _ _ _) as [[it1 w2]| | | |] eqn:E1; try discriminate.
    cbn [bind]. intros E2. destruct (bfs_incr_late _ (late 0) _ _ _ _ _ E1) as [E|[w4 E]]; rewrite E; cbn [bind].
    - eapply bfs_loop_late; eauto.
    - destruct calls; cbn [bfs_loop bfs_finished bi_queue bi_plan]; eexists _, _; (split; eauto); exists l; auto.
  Qed.
End Levels.

(** ** Complete lists *)
Section Complete.
  Context {N W : Type} (goal : N -> outcome bool) (children : N -> W -> outcome (list N * W)).
  Context (d : nat) (P : N -> Prop) (I : W -> Prop) (isgoal : N -> bool) (kids : N -> list N) (root : N).
  Context (St : steady goal children P I isgoal kids) (Pr : P root).

  Lemma C45_lemma : exists l, Permutation l (lex_plans isgoal kids d root) /\
    exists K, forall calls fuel w, K <= calls -> K <= fuel -> I w ->
      exists w', bfs_all goal children d calls fuel never root w = Ok (l, w') /\ I w'.
  Proof.
    exists (bplans d isgoal kids [(root, [])]). split; [apply bplans_perm|].
    exists (size isgoal kids d root). intros. eapply bfs_all_trail; eauto.
  Qed.

  Lemma C45_plans_lemma : exists l,
    (forall p, In p l <-> plan_in isgoal kids d root p) /\
    ((forall n, P n -> isgoal n = false -> NoDup (kids n)) -> NoDup l) /\
    exists K, forall calls fuel w, K <= calls -> K <= fuel -> I w ->
      exists w', bfs_all goal children d calls fuel never root w = Ok (l, w') /\ I w'.
  Proof.
    destruct C45_lemma as (l & Pl & H). exists l. split; [|split; auto].
    - intros p. rewrite Pl. apply all_plans_In.
    - intros ND. rewrite Pl. eapply all_plans_NoDup; eauto. exact (st_nodes _ _ _ _ _ _ St).
  Qed.

  Lemma C46_shortest_lemma calls fuel w l w' : I w -> bfs_all goal children d calls fuel never root w = Ok (l, w') ->
    match l with
    | [] => forall p, ~ plan_in isgoal kids d root p
    | p :: _ => plan_in isgoal kids d root p /\ forall p', plan_in isgoal kids d root p' -> shorter p p'
    end.
  Proof.
    intros Iw E. pose proof (C46_sorted_lemma _ _ _ _ _ _ _ _ _ _ E) as Ss.
    assert (Mono : forall late f i q w r, bfs_incr goal children d f late i q w = Ok r -> forall f', f <= f' ->
              bfs_incr goal children d f' late i q w = Ok r).
    { intros late. induction f as [|f IH]; intros i [|[n anc] q] w0 r H f' Hf; cbn [bfs_incr] in H; try discriminate.
      - destruct f'; auto.
      - destruct f'; auto.
      - destruct f' as [|f']; [lia|]. cbn [bfs_incr]. destruct (late i); auto.
        destruct (goal n) as [[]| | | |]; cbn [bind] in *; try discriminate; auto.
        destruct (Nat.ltb d _); [apply IH; auto; lia|].
        destruct (children n w0) as [[cs w1]| | | |]; cbn [bind] in *; try discriminate. apply IH; auto; lia. }
    assert (MonoL : forall m f c it w r, bfs_loop goal children d m f never c it w = Ok r -> forall m' f', m <= m' -> f <= f' ->
              bfs_loop goal children d m' f' never c it w = Ok r).
    { induction m as [|m IH]; intros f c it w0 r H m' f' Hm Hf; cbn [bfs_loop] in H.
      - destruct (bfs_finished it) eqn:F; [|discriminate]. destruct m'; cbn [bfs_loop]; rewrite F; auto.
      - destruct (bfs_finished it) eqn:F; [destruct m'; cbn [bfs_loop]; rewrite F; auto|].
        destruct m' as [|m']; [lia|]. cbn [bfs_loop]. rewrite F.
        destruct (bfs_deref it) as [p| | | |]; try discriminate. cbn [bind] in *.
        destruct (bfs_incr _ _ _ f _ _ _ _) as [[it1 w2]| | | |] eqn:E1; try discriminate. cbn [bind] in *.
        rewrite (Mono _ _ _ _ _ _ E1 f' Hf). cbn [bind].
        destruct (bfs_loop _ _ _ m _ never _ _ _) as [[l1 w3]| | | |] eqn:E2; try discriminate. cbn [bind] in *.
        rewrite (IH _ _ _ _ _ E2 m' f'); auto; lia. }
    destruct C45_plans_lemma as (l0 & H0 & _ & K & H).
    destruct (H (K + calls) (K + fuel) w ltac:(lia) ltac:(lia) Iw) as (w2 & E2 & _).
    assert (l0 = l).
    { unfold bfs_all, bfs_begin in E, E2.
      destruct (bfs_incr _ _ _ fuel _ _ _ _) as [[it1 w1]| | | |] eqn:E1; try discriminate. cbn [bind] in *.
      rewrite (Mono _ _ _ _ _ _ E1 (K + fuel)) in E2 by lia. cbn [bind] in E2.
      rewrite (MonoL _ _ _ _ _ _ E (K + calls) (K + fuel)) in E2 by lia. congruence. }
    subst l0. destruct l as [|p l].
    - intros p Hp. apply H0 in Hp. destruct Hp.
    - split; [apply H0; left; auto|]. intros p' Hp. apply H0 in Hp. destruct Hp as [<-|Hp]; [unfold shorter; lia|].
      inversion Ss as [|? ? _ F]; subst. rewrite Forall_forall in F. auto.
  Qed.

  Lemma C47_lemma : exists l,
    (forall p, In p l <-> plan_in isgoal kids d root p) /\
    exists K, forall calls fuel late w, K <= calls -> K <= fuel -> I w ->
      exists l' w', bfs_all goal children d calls fuel late root w = Ok (l', w') /\ prefix l' l.
  Proof.
    destruct C45_plans_lemma as (l & Hl & _ & K & H). exists l. split; auto. exists K. intros calls fuel late w Hc Hf Iw.
    destruct (H calls fuel w Hc Hf Iw) as (w' & E & _). eapply C47_prefix_lemma; eauto.
  Qed.

  (** ** Depth first *)
  Definition rkids (n : N) : list N := rev (kids n).
  Notation ltrail := (trail isgoal kids d fifo_pop lifo_push).
  Notation total := (total isgoal kids d).
  Notation shallow := (shallow (N := N) d).
  Notation ent := (entry (N := N)).

  Lemma ltrail_app f : forall q q', shallow q -> shallow q' -> total q <= f ->
    ltrail (total (q ++ q')) (q ++ q') = ltrail (total q) q ++ ltrail (total q') q'.
  Proof.
    induction f as [|f IH]; intros [|[n anc] q] q' Sq Sq' T; auto.
    - pose proof (total_pos d isgoal kids (n, anc) q). lia.
    - assert (E : fifo_pop (((n, anc) : ent) :: q) = Some ((n, anc), q)) by reflexivity.
      assert (E' : fifo_pop (((n, anc) : ent) :: (q ++ q')) = Some ((n, anc), q ++ q')) by reflexivity.
      assert (Sa : shallow (((n, anc) : ent) :: (q ++ q'))) by (change (shallow (((n, anc) :: q) ++ q')); apply Forall_app; auto).
      destruct (trail_step isgoal kids d fifo_pop lifo_push fifo_perm lifo_push_perm _ _ _ _ Sq E) as (L & Sr & Tq & Sf).
      destruct (trail_step isgoal kids d fifo_pop lifo_push fifo_perm lifo_push_perm _ _ _ _ Sa E') as (_ & _ & Tq' & _).
      cbn [app]. rewrite Tq, Tq'. cbn [trail fifo_pop app]. f_equal.
      assert (A : after isgoal kids d lifo_push n anc (q ++ q') = after isgoal kids d lifo_push n anc q ++ q').
      { unfold after. destruct (isgoal n); auto. destruct (Nat.ltb d _); auto. unfold lifo_push. rewrite app_assoc. auto. }
      rewrite A. apply IH; auto. lia.
  Qed.

  Lemma after_one n anc : length anc <= d ->
    ltrail (total [((n, anc) : ent)]) [(n, anc)] =
    (anc ++ [n], isgoal n) :: ltrail (total (after isgoal kids d lifo_push n anc [])) (after isgoal kids d lifo_push n anc []).
  Proof.
    intros L. rewrite (after_total isgoal kids d lifo_push lifo_push_perm) by auto. reflexivity.
  Qed.

  Lemma ltrail_kids (F : list (list N * bool) -> list (list N)) :
    F [] = [] -> (forall a b, F (a ++ b) = F a ++ F b) ->
    forall l : list ent, shallow l -> F (ltrail (total l) l) = flat_map (fun e => F (ltrail (total [e]) [e])) l.
  Proof.
    intros F0 Fa. induction l as [|e l IH]; intros S; [exact F0|].
    apply Forall_cons_iff in S. destruct S as [Se Sl].
    cbn [flat_map]. change (e :: l) with ([e] ++ l). rewrite (ltrail_app (total [e]) [e] l); auto.
    - rewrite Fa, IH; auto.
    - repeat constructor; auto.
  Qed.

  Lemma goals_app a b : goals (N := N) (a ++ b) = goals a ++ goals b.
  Proof. unfold goals. rewrite filter_app, map_app. auto. Qed.

  Lemma ltrail_goals k : forall n anc, k = d - length anc -> length anc <= d ->
    goals (ltrail (total [((n, anc) : ent)]) [(n, anc)]) = map (app anc) (lex_plans isgoal rkids k n).
  Proof.
    induction k as [|k IH]; intros n anc Ek L; rewrite after_one by auto; unfold goals at 1; cbn [filter snd]; cbn [lex_plans];
      unfold after; destruct (isgoal n) eqn:G; auto; rewrite app_length; cbn [length].
    - destruct (Nat.ltb_spec d (length anc + 1)); [reflexivity|lia].
    - destruct (Nat.ltb_spec d (length anc + 1)); [lia|]. unfold lifo_push. rewrite app_nil_r, <- map_rev.
      match goal with |- ?x = ?y => transitivity (flat_map (fun e => goals (ltrail (total [e]) [e]))
        (map (fun c => ((c, anc ++ [n]) : ent)) (rev (kids n)))) end.
      { apply (ltrail_kids goals); auto using goals_app.
        apply Forall_map, Forall_forall. intros c _. cbn. rewrite app_length. cbn. lia. }
      rewrite !flat_map_concat_map, !map_map, concat_map, !map_map. unfold rkids.
      f_equal. apply map_ext. intros c. rewrite IH; try (rewrite app_length; cbn; lia).
      apply map_ext. intros p. rewrite <- app_assoc. auto.
  Qed.

  Lemma last_app_r {A} (l l' : list A) x : l' <> [] -> last (l ++ l') x = last l' x.
  Proof.
    intros H. induction l as [|a l IH]; auto. cbn [app last]. rewrite IH. destruct (l ++ l') eqn:E; auto.
    apply app_eq_nil in E. tauto.
  Qed.

  Lemma ltrail_nonempty (e : ent) q : ltrail (total (e :: q)) (e :: q) <> [].
  Proof. pose proof (total_pos d isgoal kids e q). destruct (total (e :: q)); [lia|]. destruct e. discriminate. Qed.

  Lemma ltrail_last k : forall n anc x, k = d - length anc -> length anc <= d ->
    exists fp m, first_path isgoal kids k n (fp ++ [m]) /\
      last (ltrail (total [((n, anc) : ent)]) [(n, anc)]) x = (anc ++ fp ++ [m], isgoal m).
  Proof.
    induction k as [|k IH]; intros n anc x Ek L; rewrite after_one by auto; unfold after;
      destruct (isgoal n) eqn:G; try rewrite app_length; cbn [length].
    - exists [], n. rewrite G. split; [constructor; auto|reflexivity].
    - destruct (Nat.ltb_spec d (length anc + 1)); [|lia]. exists [], n. rewrite G. split; [apply first_deep; auto|reflexivity].
    - exists [], n. rewrite G. split; [constructor; auto|reflexivity].
    - destruct (Nat.ltb_spec d (length anc + 1)); [lia|]. unfold lifo_push. rewrite app_nil_r.
      destruct (kids n) as [|c cs] eqn:Ek'.
      + exists [], n. rewrite G. split; [apply first_leaf; auto|reflexivity].
      + destruct (IH c (anc ++ [n]) x) as (fp & m & Hf & Hl); try (rewrite app_length; cbn; lia).
        exists (n :: fp), m. split; [cbn; eapply first_step; eauto|].
        cbn [map rev]. set (q1 := rev (map (fun c => ((c, anc ++ [n]) : ent)) cs)).
        match goal with |- last (_ :: ?t) _ = _ =>
          replace t with (ltrail (total q1) q1 ++ ltrail (total [((c, anc ++ [n]) : ent)]) [((c, anc ++ [n]) : ent)]) end;
          [|symmetry; apply (ltrail_app (total q1) q1 [((c, anc ++ [n]) : ent)]); auto].
        * change ((anc ++ [n], false) :: ?a ++ ?b) with (((anc ++ [n], false) :: a) ++ b).
          rewrite last_app_r by apply ltrail_nonempty. etransitivity; [exact Hl|]. rewrite <- app_assoc. reflexivity.
        * apply Forall_rev, Forall_map, Forall_forall. intros c' _. cbn. rewrite app_length. cbn. lia.
        * repeat constructor. cbn. rewrite app_length. cbn. lia.
  Qed.

  Lemma C50_lemma : exists fp m l, first_path isgoal kids d root (fp ++ [m]) /\
    lex_plans isgoal rkids d root = l ++ (if isgoal m then [fp ++ [m]] else []) /\
    exists K, forall calls fuel w, K <= calls -> K <= fuel -> I w ->
      exists w', dfs_all goal children d calls fuel root w = Ok (l, w') /\ I w'.
  Proof.
    set (q0 := [((root, []) : ent)]).
    destruct (ltrail_last d root [] ([], false) ltac:(cbn; lia) ltac:(cbn; lia)) as (fp & m & Hf & Hl).
    pose proof (ltrail_goals d root [] ltac:(cbn; lia) ltac:(cbn; lia)) as Hg. cbn [app] in Hg. rewrite map_id in Hg.
    pose proof (ltrail_nonempty (root, []) [] : ltrail (total q0) q0 <> []) as Hn.
    change (last (ltrail (total q0) q0) ([], false) = (fp ++ [m], isgoal m)) in Hl.
    change (goals (ltrail (total q0) q0) = lex_plans isgoal rkids d root) in Hg.
    exists fp, m, (yields d isgoal kids fifo_pop lifo_push q0). split; auto. split.
    - unfold yields. rewrite <- Hg. rewrite (app_removelast_last ([], false) Hn) at 1. rewrite goals_app. f_equal.
      rewrite Hl. unfold goals. cbn. destruct (isgoal m); reflexivity.
    - exists (size isgoal kids d root). intros. eapply dfs_all_trail; eauto.
  Qed.

  Lemma rplans_In k : forall n p, In p (lex_plans isgoal rkids k n) <-> plan_in isgoal kids k n p.
  Proof.
    intros n p. rewrite all_plans_In. unfold plan_in. split; induction 1; try (constructor; auto; fail).
    - econstructor; eauto. unfold rkids in *. apply in_rev. auto.
    - econstructor; eauto. unfold rkids in *. apply in_rev. rewrite rev_involutive. auto.
  Qed.

  Lemma C50_plans_lemma : exists fp l, first_path isgoal kids d root fp /\
    (forall p, plan_in isgoal kids d root p <-> In p l \/ (p = fp /\ plan_in isgoal kids d root fp)) /\
    exists K, forall calls fuel w, K <= calls -> K <= fuel -> I w ->
      exists w', dfs_all goal children d calls fuel root w = Ok (l, w') /\ I w'.
  Proof.
    destruct C50_lemma as (fp & m & l & Hf & Hl & H). exists (fp ++ [m]), l. split; auto. split; auto.
    intros p. rewrite <- !rplans_In, Hl. rewrite !in_app_iff. destruct (isgoal m); cbn; split; intros K; try tauto.
    - destruct K as [K|[K|[]]]; subst; auto.
    - destruct K as [K|[-> _]]; auto.
    - destruct K as [K|[-> [K|[]]]]; auto.
  Qed.

  (** ** A* *)
  Lemma C51_lemma pick : exists l lost, length lost <= 1 /\ Permutation (l ++ lost) (lex_plans isgoal kids d root) /\
    exists K, forall calls fuel w, K <= calls -> K <= fuel -> I w ->
      exists w', ast_all goal children d pick calls fuel root w = Ok (l, w') /\ I w'.
  Proof.
    destruct (all_events d isgoal kids (any_pop pick) fifo_push (any_cons pick) (any_perm pick) fifo_push_perm root eq_refl) as (lost & Hp & Hl).
    exists (yields d isgoal kids (any_pop pick) fifo_push [(root, [])]), lost. split; auto. split; auto.
    exists (size isgoal kids d root). intros. eapply ast_all_trail; eauto.
  Qed.
End Complete.
