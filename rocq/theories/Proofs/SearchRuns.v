(** Runs of the searches on a graph that does not change. *)
From Coq Require Import List Bool Arith Lia Permutation Sorted.
From Verif.Model Require Import Base Search.
From Verif.Spec Require Import SearchSpec.
From Verif.Proofs Require Import SearchFacts SearchTrail.
Import ListNotations.

Definition fifo_pop {A} (q : list A) : option (A * list A) :=
  match q with [] => None | x :: r => Some (x, r) end.
Definition fifo_push {A} (r c : list A) : list A := r ++ c.
Definition lifo_push {A} (r c : list A) : list A := rev c ++ r.
Definition any_pop {A} (pick : list A -> nat) (q : list A) : option (A * list A) :=
  match q with [] => None | x :: r => Some (take_nth (pick (x :: r)) x r) end.

Lemma fifo_nil {A} : fifo_pop (A := A) [] = None.
Proof. reflexivity. Qed.
Lemma fifo_cons {A} (x : A) q : exists y r, fifo_pop (x :: q) = Some (y, r).
Proof. cbn. eauto. Qed.
Lemma fifo_perm {A} (q : list A) x r : fifo_pop q = Some (x, r) -> Permutation q (x :: r).
Proof. destruct q; [discriminate|]. cbn. intros [= -> ->]. apply Permutation_refl. Qed.
Lemma fifo_push_perm {A} (r c : list A) : Permutation (fifo_push r c) (c ++ r).
Proof. apply Permutation_app_comm. Qed.
Lemma lifo_push_perm {A} (r c : list A) : Permutation (lifo_push r c) (c ++ r).
Proof. apply Permutation_app_tail, Permutation_sym, Permutation_rev. Qed.
Lemma any_cons {A} pick (x : A) q : exists y r, any_pop pick (x :: q) = Some (y, r).
Proof. cbn. destruct (take_nth _ _ _) as [y r]. eauto. Qed.
Lemma any_perm {A} pick (q : list A) x r : any_pop pick q = Some (x, r) -> Permutation q (x :: r).
Proof.
  destruct q; [discriminate|]. cbn. destruct (take_nth _ _ _) as [y r'] eqn:E. intros [= -> ->].
  eapply take_nth_perm; eauto.
Qed.

Section Runs.
  Context {N W : Type} (goal : N -> outcome bool) (children : N -> W -> outcome (list N * W)).
  Context (d : nat) (P : N -> Prop) (I : W -> Prop) (isgoal : N -> bool) (kids : N -> list N).
  Context (St : steady goal children P I isgoal kids).

  Notation esize := (esize isgoal kids d).
  Notation total := (total isgoal kids d).
  Notation shallow := (shallow (N := N) d).
  Definition nodes_in (q : list (entry (N := N))) : Prop := Forall (fun e => P (fst e)) q.

  Lemma total_pos (e : entry (N := N)) q : total (e :: q) <> 0.
  Proof. unfold SearchTrail.total. cbn. pose proof (size_pos isgoal kids (d - length (snd e)) (fst e)). unfold SearchTrail.esize. lia. Qed.

  Lemma kids_in n anc : P n -> isgoal n = false -> nodes_in (map (fun c => (c, anc ++ [n])) (kids n)).
  Proof.
    intros Hn G. apply Forall_map. apply Forall_forall. intros c Ic. cbn. exact (st_nodes _ _ _ _ _ _ St n c Hn G Ic).
  Qed.

  (** ** Breadth first *)
  Section Bfs.
    Notation trail := (trail isgoal kids d fifo_pop fifo_push).
    Definition bplans (q : list (entry (N := N))) : list (list N) := goals (trail (total q) q).

    Lemma bfs_incr_trail fuel : forall i q w, nodes_in q -> shallow q -> total q <= fuel -> I w ->
      exists it w', bfs_incr goal children d fuel (fun _ => false) i q w = Ok (it, w') /\ I w' /\
        ((it = mkBfs [] None /\ bplans q = []) \/
         exists path q', it = mkBfs q' (Some path) /\ nodes_in q' /\ shallow q' /\ total q' < total q /\
           bplans q = path :: bplans q').
    Proof.
      induction fuel as [|f IH]; intros i [|[n anc] q] w Pq Sq T Iw.
      - exists (mkBfs [] None), w. cbn. auto.
      - pose proof (total_pos (n, anc) q). lia.
      - exists (mkBfs [] None), w. cbn. auto.
      - assert (E : fifo_pop (((n, anc) : entry) :: q) = Some ((n, anc), q)) by reflexivity.
        destruct (trail_step isgoal kids d fifo_pop fifo_push fifo_perm fifo_push_perm _ _ _ _ Sq E) as (L & Sr & Tq & Sa).
        apply Forall_cons_iff in Pq. destruct Pq as [Pn Pq]. cbn in Pn.
        assert (B : bplans (((n, anc) : entry) :: q) =
          (if isgoal n then [anc ++ [n]] else []) ++ bplans (after isgoal kids d fifo_push n anc q)).
        { unfold bplans at 1. rewrite Tq. cbn [SearchTrail.trail fifo_pop]. unfold goals. cbn [filter snd].
          destruct (isgoal n); reflexivity. }
        cbn [bfs_incr]. rewrite (st_goal _ _ _ _ _ _ St n Pn). cbn [bind]. unfold after in *.
        destruct (isgoal n) eqn:G.
        + exists (mkBfs q (Some (anc ++ [n]))), w. split; auto. split; auto. right. exists (anc ++ [n]), q.
          repeat split; auto. lia.
        + assert (K : exists w1, (if Nat.ltb d (length (anc ++ [n]))
            then bfs_incr goal children d f (fun _ => false) (S i) q w
            else let* ' (cs, w') := children n w in
                 bfs_incr goal children d f (fun _ => false) (S i) (q ++ map (fun c => (c, anc ++ [n])) cs) w') =
            bfs_incr goal children d f (fun _ => false) (S i) (if Nat.ltb d (length (anc ++ [n])) then q
               else fifo_push q (map (fun c => (c, anc ++ [n])) (kids n))) w1 /\ I w1).
          { destruct (Nat.ltb d _); [eauto|]. destruct (st_kids _ _ _ _ _ _ St n w Pn G Iw) as (w1 & -> & I1).
            exists w1. auto. }
          destruct K as (w1 & -> & I1).
          assert (Pa : nodes_in (if Nat.ltb d (length (anc ++ [n])) then q
               else fifo_push q (map (fun c => (c, anc ++ [n])) (kids n)))).
          { destruct (Nat.ltb d _); auto. apply Forall_app. split; auto. apply kids_in; auto. }
          destruct (IH (S i) _ w1 Pa Sa ltac:(lia) I1) as (it & w' & -> & Iw' & H).
          exists it, w'. split; auto. split; auto. rewrite B. cbn [app].
          destruct H as [H|(path & q' & -> & H1 & H2 & H3 & H4)]; [left; auto|right].
          exists path, q'. repeat split; auto. lia.
    Qed.

    Lemma bfs_loop_trail m : forall fuel c it w, I w ->
      (it = mkBfs [] None \/ exists path q, it = mkBfs q (Some path) /\ nodes_in q /\ shallow q /\ total q < m /\ total q <= fuel) ->
      exists w', bfs_loop goal children d m fuel never c it w =
        Ok (match bi_plan it with None => [] | Some p => p :: bplans (bi_queue it) end, w') /\ I w'.
    Proof.
      induction m as [|m IH]; intros fuel c it w Iw [->|(path & q & -> & H1 & H2 & H3 & H4)].
      - cbn. eauto.
      - lia.
      - cbn. eauto.
      - assert (F : bfs_finished (mkBfs q (Some path)) = false) by (destruct q; auto).
        cbn [bfs_loop]. rewrite F. cbn [bfs_deref bi_plan bi_queue bind].
        destruct (bfs_incr_trail fuel 0 q w H1 H2 H4 Iw) as (it & w1 & E & I1 & H). unfold never at 1. rewrite E. cbn [bind].
        destruct (IH fuel (S c) it w1 I1) as (w2 & -> & I2).
        { destruct H as [[-> _]|(p' & q' & -> & K1 & K2 & K3 & _)]; auto. right. exists p', q'. repeat split; auto; lia. }
        exists w2. cbn [bind]. split; auto.
        destruct H as [[-> ->]|(p' & q' & -> & K1 & K2 & K3 & ->)]; reflexivity.
    Qed.

    Lemma bfs_all_trail root w calls fuel : P root -> I w ->
      size isgoal kids d root <= calls -> size isgoal kids d root <= fuel ->
      exists w', bfs_all goal children d calls fuel never root w = Ok (bplans [(root, [])], w') /\ I w'.
    Proof.
      intros Pr Iw Lc Lf. unfold bfs_all, bfs_begin.
      assert (T : total [(root, [])] = size isgoal kids d root).
      { unfold SearchTrail.total, SearchTrail.esize. cbn. rewrite Nat.sub_0_r. lia. }
      assert (Pq : nodes_in [(root, [])]) by (repeat constructor; auto).
      assert (Sq : shallow [(root, [])]) by (repeat constructor; cbn; lia).
      destruct (bfs_incr_trail fuel 0 [(root, [])] w Pq Sq ltac:(lia) Iw) as (it & w1 & E & I1 & H).
      unfold never at 1. rewrite E. cbn [bind].
      destruct (bfs_loop_trail calls fuel 1 it w1 I1) as (w2 & -> & I2).
      { destruct H as [[-> _]|(p' & q' & -> & K1 & K2 & K3 & _)]; auto. right. exists p', q'. repeat split; auto; lia. }
      exists w2. split; auto. destruct H as [[-> ->]|(p' & q' & -> & K1 & K2 & K3 & ->)]; reflexivity.
    Qed.

    Lemma bplans_perm root : Permutation (bplans [(root, [])]) (lex_plans isgoal kids d root).
    Proof.
      unfold bplans. rewrite trail_plans; auto using fifo_nil, fifo_cons, fifo_perm, fifo_push_perm.
      - cbn. unfold eplans. cbn. rewrite Nat.sub_0_r, app_nil_r, map_id. reflexivity.
      - repeat constructor; cbn; lia.
    Qed.
  End Bfs.

  (** ** Depth first and A*.  The plan found last, if nothing is left to look at,
      is lost. *)
  Section Stack.
    Context (pop : list (entry (N := N)) -> option (entry (N := N) * list (entry (N := N)))).
    Context (push : list (entry (N := N)) -> list (entry (N := N)) -> list (entry (N := N))).
    Definition yields (q : list (entry (N := N))) : list (list N) :=
      goals (removelast (trail isgoal kids d pop push (total q) q)).

    Context (pop_cons : forall x q, exists y r, pop (x :: q) = Some (y, r)).
    Context (pop_perm : forall q x r, pop q = Some (x, r) -> Permutation q (x :: r)).
    Context (push_perm : forall r c, Permutation (push r c) (c ++ r)).

    Lemma yields_step n anc x q r : shallow (x :: q) -> pop (x :: q) = Some ((n, anc), r) ->
      yields (x :: q) = if isgoal n then match r with [] => [] | _ => (anc ++ [n]) :: yields r end
                        else yields (after isgoal kids d push n anc r).
    Proof.
      intros S E. destruct (trail_step isgoal kids d pop push pop_perm push_perm _ _ _ _ S E) as (L & Sr & Tq & Sa).
      unfold yields at 1. rewrite Tq. cbn [SearchTrail.trail]. rewrite E. cbn [removelast].
      set (t := trail isgoal kids d pop push _ (after _ _ _ _ _ _ _)).
      destruct (isgoal n) eqn:G.
      - assert (A : after isgoal kids d push n anc r = r) by (unfold after; rewrite G; auto).
        unfold t. rewrite A. destruct r as [|y r].
        + reflexivity.
        + destruct (trail isgoal kids d pop push (total (y :: r)) (y :: r)) eqn:Et.
          * exfalso. pose proof (total_pos y r). destruct (total (y :: r)); [lia|]. cbn in Et.
            destruct (pop_cons y r) as ([a b] & r' & Ep). rewrite Ep in Et. discriminate.
          * unfold goals at 1. cbn [filter snd map fst]. unfold yields. rewrite Et. reflexivity.
      - unfold yields. fold t. destruct t; [reflexivity|]. unfold goals. cbn [filter snd]. reflexivity.
    Qed.

    Lemma all_events (root : N) : pop [] = None -> exists last,
      Permutation (yields [(root, [])] ++ last) (lex_plans isgoal kids d root) /\ length last <= 1.
    Proof.
      intros pop_nil. set (q0 := [((root, []) : entry)]). unfold yields.
      assert (Sq : shallow q0) by (repeat constructor; cbn; lia).
      pose proof (trail_plans isgoal kids d pop push pop_nil pop_cons pop_perm push_perm _ q0 Sq (le_n _)) as H.
      replace (flat_map (eplans isgoal kids d) q0) with (lex_plans isgoal kids d root) in H.
      2:{ cbn. unfold eplans. cbn. rewrite Nat.sub_0_r, app_nil_r, map_id. reflexivity. }
      assert (T : total q0 <> 0) by apply total_pos.
      set (t := trail isgoal kids d pop push (total q0) q0) in *.
      assert (E : t <> []).
      { unfold t. destruct (total q0); [lia|]. cbn. unfold q0.
        destruct (pop_cons ((root, []) : entry) []) as ([a b] & r' & Ep). rewrite Ep. discriminate. }
      rewrite (app_removelast_last ([], false) E) in H. unfold goals in H. rewrite filter_app, map_app in H.
      eexists. split; [exact H|]. cbn [filter]. destruct (snd (last t ([], false))); cbn; lia.
    Qed.
  End Stack.

  Section Dfs.
    Notation yields := (yields fifo_pop lifo_push).
    Lemma dfs_incr_trail fuel : forall q pl w, nodes_in q -> shallow q -> total q <= fuel -> I w ->
      exists it w', dfs_incr goal children d fuel (mkDfs q pl) w = Ok (it, w') /\ I w' /\
        ((di_stack it = [] /\ yields q = []) \/
         exists path q', q' <> [] /\ it = mkDfs q' path /\ nodes_in q' /\ shallow q' /\ total q' < total q /\
           yields q = path :: yields q').
    Proof.
      induction fuel as [|f IH]; intros [|[n anc] q] pl w Pq Sq T Iw.
      - exists (mkDfs [] pl), w. cbn. auto.
      - pose proof (total_pos (n, anc) q). lia.
      - exists (mkDfs [] pl), w. cbn. auto.
      - assert (E : fifo_pop (((n, anc) : entry) :: q) = Some ((n, anc), q)) by reflexivity.
        destruct (trail_step isgoal kids d fifo_pop lifo_push fifo_perm lifo_push_perm _ _ _ _ Sq E) as (L & Sr & Tq & Sa).
        pose proof (yields_step fifo_pop lifo_push fifo_cons fifo_perm lifo_push_perm _ _ _ _ _ Sq E) as B.
        apply Forall_cons_iff in Pq. destruct Pq as [Pn Pq]. cbn in Pn.
        cbn [dfs_incr di_stack]. rewrite (st_goal _ _ _ _ _ _ St n Pn). cbn [bind]. unfold after in *.
        destruct (isgoal n) eqn:G.
        + exists (mkDfs q (anc ++ [n])), w. split; auto. split; auto. destruct q as [|y q]; [left; auto|right].
          exists (anc ++ [n]), (y :: q). repeat split; auto; [discriminate|lia].
        + assert (K : exists w1, (if Nat.ltb d (length (anc ++ [n]))
            then dfs_incr goal children d f (mkDfs q (anc ++ [n])) w
            else let* ' (cs, w') := children n w in
                 dfs_incr goal children d f (mkDfs (rev (map (fun c => (c, anc ++ [n])) cs) ++ q) (anc ++ [n])) w') =
            dfs_incr goal children d f (mkDfs (if Nat.ltb d (length (anc ++ [n])) then q
               else lifo_push q (map (fun c => (c, anc ++ [n])) (kids n))) (anc ++ [n])) w1 /\ I w1).
          { destruct (Nat.ltb d _); [eauto|]. destruct (st_kids _ _ _ _ _ _ St n w Pn G Iw) as (w1 & -> & I1).
            exists w1. auto. }
          destruct K as (w1 & -> & I1).
          assert (Pa : nodes_in (if Nat.ltb d (length (anc ++ [n])) then q
               else lifo_push q (map (fun c => (c, anc ++ [n])) (kids n)))).
          { destruct (Nat.ltb d _); auto. apply Forall_app. split; auto. apply Forall_rev. apply kids_in; auto. }
          destruct (IH _ (anc ++ [n]) w1 Pa Sa ltac:(lia) I1) as (it & w' & -> & Iw' & H).
          exists it, w'. split; auto. split; auto. rewrite B.
          destruct H as [H|(path & q' & H0 & -> & H1 & H2 & H3 & H4)]; [left; auto|right].
          exists path, q'. repeat split; auto. lia.
    Qed.

    Lemma dfs_loop_trail m : forall fuel it w, I w ->
      (nodes_in (di_stack it) /\ shallow (di_stack it) /\ total (di_stack it) <= m /\ total (di_stack it) <= fuel) ->
      exists w', dfs_loop goal children d m fuel it w =
        Ok (match di_stack it with [] => [] | _ => di_plan it :: yields (di_stack it) end, w') /\ I w'.
    Proof.
      induction m as [|m IH]; intros fuel [[|e q] pl] w Iw (H1 & H2 & H3 & H4); cbn [di_stack di_plan] in *.
      - cbn. eauto.
      - pose proof (total_pos e q). lia.
      - cbn. eauto.
      - cbn [dfs_loop dfs_finished di_stack].
        destruct (dfs_incr_trail fuel (e :: q) pl w H1 H2 H4 Iw) as (it & w1 & -> & I1 & H). cbn [bind].
        assert (K : nodes_in (di_stack it) /\ shallow (di_stack it) /\ total (di_stack it) <= m /\ total (di_stack it) <= fuel).
        { destruct H as [[-> _]|(p' & q' & K0 & -> & K1 & K2 & K3 & _)]; cbn [di_stack].
          - repeat split; try constructor; cbn; lia.
          - repeat split; auto; lia. }
        destruct (IH fuel it w1 I1 K) as (w2 & -> & I2). cbn [bind di_plan]. exists w2. split; auto.
        destruct H as [[-> ->]|(p' & q' & K0 & -> & K1 & K2 & K3 & ->)]; [reflexivity|]. cbn [di_stack di_plan].
        destruct q'; [congruence|reflexivity].
    Qed.

    Lemma dfs_all_trail root w calls fuel : P root -> I w ->
      size isgoal kids d root <= calls -> size isgoal kids d root <= fuel ->
      exists w', dfs_all goal children d calls fuel root w = Ok (yields [(root, [])], w') /\ I w'.
    Proof.
      intros Pr Iw Lc Lf. unfold dfs_all.
      assert (T : total [(root, [])] = size isgoal kids d root).
      { unfold SearchTrail.total, SearchTrail.esize. cbn. rewrite Nat.sub_0_r. lia. }
      assert (Pq : nodes_in [(root, [])]) by (repeat constructor; auto).
      assert (Sq : shallow [(root, [])]) by (repeat constructor; cbn; lia).
      destruct (dfs_incr_trail fuel [(root, [])] [] w Pq Sq ltac:(lia) Iw) as (it & w1 & -> & I1 & H). cbn [bind].
      assert (K : nodes_in (di_stack it) /\ shallow (di_stack it) /\ total (di_stack it) <= calls /\ total (di_stack it) <= fuel).
      { destruct H as [[-> _]|(p' & q' & K0 & -> & K1 & K2 & K3 & _)]; cbn [di_stack].
        - repeat split; try constructor; cbn; lia.
        - repeat split; auto; lia. }
      destruct (dfs_loop_trail calls fuel it w1 I1 K) as (w2 & -> & I2).
      exists w2. split; auto. destruct H as [[-> ->]|(p' & q' & K0 & -> & K1 & K2 & K3 & ->)]; [reflexivity|]. cbn [di_stack di_plan].
      destruct q'; [congruence|reflexivity].
    Qed.
  End Dfs.

  Section Ast.
    Context (pick : list (entry (N := N)) -> nat).
    Notation yields := (yields (any_pop pick) fifo_push).
    Lemma ast_incr_trail fuel : forall q pl w, nodes_in q -> shallow q -> total q <= fuel -> I w ->
      exists it w', ast_incr goal children d pick fuel (mkAst q pl) w = Ok (it, w') /\ I w' /\
        ((ai_queue it = [] /\ yields q = []) \/
         exists path q', q' <> [] /\ it = mkAst q' path /\ nodes_in q' /\ shallow q' /\ total q' < total q /\
           yields q = path :: yields q').
    Proof.
      induction fuel as [|f IH]; intros [|x q] pl w Pq Sq T Iw.
      - exists (mkAst [] pl), w. cbn. auto.
      - pose proof (total_pos x q). lia.
      - exists (mkAst [] pl), w. cbn. auto.
      - destruct (any_cons pick x q) as ([n anc] & r & E).
        destruct (trail_step isgoal kids d (any_pop pick) fifo_push (any_perm pick) fifo_push_perm _ _ _ _ Sq E) as (L & Sr & Tq & Sa).
        pose proof (yields_step (any_pop pick) fifo_push (any_cons pick) (any_perm pick) fifo_push_perm _ _ _ _ _ Sq E) as B.
        unfold nodes_in in Pq. rewrite (any_perm pick _ _ _ E) in Pq.
        apply Forall_cons_iff in Pq. destruct Pq as [Pn Pq]. cbn in Pn. fold (nodes_in r) in Pq.
        cbn [ast_incr ai_queue]. cbn [any_pop] in E. injection E as E. rewrite E.
        rewrite (st_goal _ _ _ _ _ _ St n Pn). cbn [bind]. unfold after in *.
        destruct (isgoal n) eqn:G.
        + exists (mkAst r (anc ++ [n])), w. split; auto. split; auto. destruct r as [|y r]; [left; auto|right].
          exists (anc ++ [n]), (y :: r). repeat split; auto; [discriminate|lia].
        + assert (K : exists w1, (if Nat.ltb d (length (anc ++ [n]))
            then ast_incr goal children d pick f (mkAst r (anc ++ [n])) w
            else let* ' (cs, w') := children n w in
                 ast_incr goal children d pick f (mkAst (r ++ map (fun c => (c, anc ++ [n])) cs) (anc ++ [n])) w') =
            ast_incr goal children d pick f (mkAst (if Nat.ltb d (length (anc ++ [n])) then r
               else fifo_push r (map (fun c => (c, anc ++ [n])) (kids n))) (anc ++ [n])) w1 /\ I w1).
          { destruct (Nat.ltb d _); [eauto|]. destruct (st_kids _ _ _ _ _ _ St n w Pn G Iw) as (w1 & -> & I1).
            exists w1. auto. }
          destruct K as (w1 & -> & I1).
          assert (Pa : nodes_in (if Nat.ltb d (length (anc ++ [n])) then r
               else fifo_push r (map (fun c => (c, anc ++ [n])) (kids n)))).
          { destruct (Nat.ltb d _); auto. apply Forall_app. split; auto. apply kids_in; auto. }
          destruct (IH _ (anc ++ [n]) w1 Pa Sa ltac:(lia) I1) as (it & w' & -> & Iw' & H).
          exists it, w'. split; auto. split; auto. rewrite B.
          destruct H as [H|(path & q' & H0 & -> & H1 & H2 & H3 & H4)]; [left; auto|right].
          exists path, q'. repeat split; auto. lia.
    Qed.

    Lemma ast_loop_trail m : forall fuel it w, I w ->
      (nodes_in (ai_queue it) /\ shallow (ai_queue it) /\ total (ai_queue it) <= m /\ total (ai_queue it) <= fuel) ->
      exists w', ast_loop goal children d pick m fuel it w =
        Ok (match ai_queue it with [] => [] | _ => ai_plan it :: yields (ai_queue it) end, w') /\ I w'.
    Proof.
      induction m as [|m IH]; intros fuel [[|e q] pl] w Iw (H1 & H2 & H3 & H4); cbn [ai_queue ai_plan] in *.
      - cbn. eauto.
      - pose proof (total_pos e q). lia.
      - cbn. eauto.
      - cbn [ast_loop ast_finished ai_queue].
        destruct (ast_incr_trail fuel (e :: q) pl w H1 H2 H4 Iw) as (it & w1 & -> & I1 & H). cbn [bind].
        assert (K : nodes_in (ai_queue it) /\ shallow (ai_queue it) /\ total (ai_queue it) <= m /\ total (ai_queue it) <= fuel).
        { destruct H as [[-> _]|(p' & q' & K0 & -> & K1 & K2 & K3 & _)]; cbn [ai_queue].
          - repeat split; try constructor; cbn; lia.
          - repeat split; auto; lia. }
        destruct (IH fuel it w1 I1 K) as (w2 & -> & I2). cbn [bind ai_plan]. exists w2. split; auto.
        destruct H as [[-> ->]|(p' & q' & K0 & -> & K1 & K2 & K3 & ->)]; [reflexivity|]. cbn [ai_queue ai_plan].
        destruct q'; [congruence|reflexivity].
    Qed.

    Lemma ast_all_trail root w calls fuel : P root -> I w ->
      size isgoal kids d root <= calls -> size isgoal kids d root <= fuel ->
      exists w', ast_all goal children d pick calls fuel root w = Ok (yields [(root, [])], w') /\ I w'.
    Proof.
      intros Pr Iw Lc Lf. unfold ast_all.
      assert (T : total [(root, [])] = size isgoal kids d root).
      { unfold SearchTrail.total, SearchTrail.esize. cbn. rewrite Nat.sub_0_r. lia. }
      assert (Pq : nodes_in [(root, [])]) by (repeat constructor; auto).
      assert (Sq : shallow [(root, [])]) by (repeat constructor; cbn; lia).
      destruct (ast_incr_trail fuel [(root, [])] [] w Pq Sq ltac:(lia) Iw) as (it & w1 & -> & I1 & H). cbn [bind].
      assert (K : nodes_in (ai_queue it) /\ shallow (ai_queue it) /\ total (ai_queue it) <= calls /\ total (ai_queue it) <= fuel).
      { destruct H as [[-> _]|(p' & q' & K0 & -> & K1 & K2 & K3 & _)]; cbn [ai_queue].
        - repeat split; try constructor; cbn; lia.
        - repeat split; auto; lia. }
      destruct (ast_loop_trail calls fuel it w1 I1 K) as (w2 & -> & I2).
      exists w2. split; auto. destruct H as [[-> ->]|(p' & q' & K0 & -> & K1 & K2 & K3 & ->)]; [reflexivity|]. cbn [ai_queue ai_plan].
      destruct q'; [congruence|reflexivity].
    Qed.
  End Ast.
End Runs.
