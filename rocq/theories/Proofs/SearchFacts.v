(** Lemmas on the searches. *)
From Coq Require Import List Bool Arith Lia Permutation Sorted.
From Verif.Model Require Import Base Search.
From Verif.Spec Require Import SearchSpec.
Import ListNotations.

(** ** Correct plans *)
Section Sound.
  Context {N W : Type} (goal : N -> outcome bool) (children : N -> W -> outcome (list N * W)).
  Context (d : nat) (root : N).
  Notation plan := (plan_from (seen_child children) (seen_goal goal) (seen_other goal)).

  Definition entry_ok (e : entry (N := N)) : Prop := length (snd e) <= d /\
    forall k rest, plan k (fst e) rest -> plan (length (snd e) + k) root (snd e ++ rest).

  Lemma plan_mono k n p : plan k n p -> forall k', k <= k' -> plan k' n p.
  Proof.
    induction 1 as [k n H|k n m rest Hn Hk _ IH]; intros k' L.
    - constructor. auto.
    - destruct k' as [|k']; [lia|]. econstructor; eauto. apply IH. lia.
  Qed.

  Lemma entry_root : entry_ok (root, []).
  Proof. split; cbn; [lia|auto]. Qed.

  Lemma entry_goal n anc : entry_ok (n, anc) -> goal n = Ok true -> seen_plan goal children d root (anc ++ [n]).
  Proof.
    intros [L H] G. cbn in *. apply plan_mono with (length anc + 0); [|lia]. apply H. constructor. exact G.
  Qed.

  Lemma entry_kids n anc w cs w' : entry_ok (n, anc) -> goal n = Ok false -> Nat.ltb d (length (anc ++ [n])) = false ->
    children n w = Ok (cs, w') -> Forall entry_ok (map (fun c => (c, anc ++ [n])) cs).
  Proof.
    intros [L H] G Hd E. apply Nat.ltb_ge in Hd. apply Forall_forall. intros e I. apply in_map_iff in I.
    destruct I as (c & <- & I). split; cbn; [auto|]. intros k rest Hp. cbn in H.
    rewrite app_length, <- app_assoc. cbn. rewrite <- Nat.add_assoc. apply H.
    apply plan_step with c; auto. exists w, cs, w'. auto.
  Qed.

  Lemma bfs_incr_ok fuel late : forall i q w it w', Forall entry_ok q ->
    bfs_incr goal children d fuel late i q w = Ok (it, w') ->
    Forall entry_ok (bi_queue it) /\ (forall p, bi_plan it = Some p -> seen_plan goal children d root p) /\
    (bi_plan it = None -> bi_queue it = []).
  Proof.
    induction fuel as [|f IH]; intros i [|[n anc] q] w it w' F; cbn [bfs_incr].
    - intros [= <- <-]. cbn. repeat split; auto. discriminate.
    - discriminate.
    - intros [= <- <-]. cbn. repeat split; auto. discriminate.
    - apply Forall_cons_iff in F. destruct F as [Fe Fq]. destruct (late i).
      + intros [= <- <-]. cbn. repeat split; auto. discriminate.
      + destruct (goal n) as [[]| | | |] eqn:G; cbn [bind]; try discriminate.
        * intros [= <- <-]. cbn. split; auto. split; [|discriminate]. intros p [= <-]. apply entry_goal; auto.
        * destruct (Nat.ltb d (length (anc ++ [n]))) eqn:Hd.
          -- apply IH; auto.
          -- destruct (children n w) as [[cs w1]| | | |] eqn:E; cbn [bind]; try discriminate.
             apply IH. apply Forall_app. split; auto. eapply entry_kids; eauto.
  Qed.

  Lemma C44_lemma it : bfs_use goal children d root it ->
    (forall p, bi_plan it = Some p -> seen_plan goal children d root p) /\
    (bfs_finished it = false -> exists p, bfs_deref it = Ok p).
  Proof.
    intros U. assert (H : Forall entry_ok (bi_queue it) /\ (forall p, bi_plan it = Some p -> seen_plan goal children d root p) /\
      (bi_plan it = None -> bi_queue it = [])).
    { induction U as [fuel late w it w' E|fuel late it w it' w' U IH F E].
      - eapply bfs_incr_ok; [|exact E]. constructor; [apply entry_root|constructor].
      - eapply bfs_incr_ok; [|exact E]. apply IH. }
    destruct H as (_ & H & H'). split; auto. unfold bfs_finished, bfs_deref. destruct it as [q [p|]]; cbn in *; eauto.
    rewrite H'; auto. discriminate.
  Qed.

  Lemma dfs_incr_ok fuel : forall it w it' w', Forall entry_ok (di_stack it) ->
    dfs_incr goal children d fuel it w = Ok (it', w') ->
    Forall entry_ok (di_stack it') /\ (di_stack it' <> [] -> seen_plan goal children d root (di_plan it')).
  Proof.
    induction fuel as [|f IH]; intros [[|[n anc] q] pl] w it' w' F; cbn [dfs_incr di_stack]; cbn [di_stack] in F.
    - intros [= <- <-]. cbn. split; [auto|congruence].
    - discriminate.
    - intros [= <- <-]. cbn. split; [auto|congruence].
    - apply Forall_cons_iff in F. destruct F as [Fe Fq].
      destruct (goal n) as [[]| | | |] eqn:G; cbn [bind]; try discriminate.
      + intros [= <- <-]. cbn. split; auto. intros _. apply entry_goal; auto.
      + destruct (Nat.ltb d (length (anc ++ [n]))) eqn:Hd.
        * apply IH; auto.
        * destruct (children n w) as [[cs w1]| | | |] eqn:E; cbn [bind]; try discriminate.
          apply IH. cbn. apply Forall_app. split; auto. apply Forall_rev. eapply entry_kids; eauto.
  Qed.

  Lemma dfs_use_ok it : dfs_use goal children d root it ->
    Forall entry_ok (di_stack it) /\ (di_stack it <> [] -> seen_plan goal children d root (di_plan it)).
  Proof.
    induction 1 as [fuel w it w' E|fuel it w it' w' U IH F E].
    - eapply dfs_incr_ok; [|exact E]. constructor; [apply entry_root|constructor].
    - eapply dfs_incr_ok; [|exact E]. apply IH.
  Qed.
  Lemma C50_sound_lemma it : dfs_use goal children d root it -> dfs_finished it = false ->
    seen_plan goal children d root (di_plan it).
  Proof.
    intros U F. apply dfs_use_ok in U. apply U. unfold dfs_finished in F. destruct (di_stack it); congruence.
  Qed.

  Context (pick : list (entry (N := N)) -> nat).
  Lemma take_nth_perm {A} i (x : A) l y r : take_nth i x l = (y, r) -> Permutation (x :: l) (y :: r).
  Proof.
    revert x l y r. induction i as [|i IH]; intros x [|z l] y r; cbn; try (intros [= <- <-]; reflexivity).
    destruct (take_nth i z l) as [a b] eqn:E. intros [= <- <-]. apply IH in E.
    rewrite E. apply perm_swap.
  Qed.

  Lemma ast_incr_ok fuel : forall it w it' w', Forall entry_ok (ai_queue it) ->
    ast_incr goal children d pick fuel it w = Ok (it', w') ->
    Forall entry_ok (ai_queue it') /\ (ai_queue it' <> [] -> seen_plan goal children d root (ai_plan it')).
  Proof.
    induction fuel as [|f IH]; intros [[|x q] pl] w it' w' F; cbn [ast_incr ai_queue]; cbn [ai_queue] in F.
    - intros [= <- <-]. cbn. split; [auto|congruence].
    - discriminate.
    - intros [= <- <-]. cbn. split; [auto|congruence].
    - destruct (take_nth (pick (x :: q)) x q) as [[n anc] q'] eqn:T. apply take_nth_perm in T.
      rewrite T in F. apply Forall_cons_iff in F. destruct F as [Fe Fq].
      destruct (goal n) as [[]| | | |] eqn:G; cbn [bind]; try discriminate.
      + intros [= <- <-]. cbn. split; auto. intros _. apply entry_goal; auto.
      + destruct (Nat.ltb d (length (anc ++ [n]))) eqn:Hd.
        * apply IH; auto.
        * destruct (children n w) as [[cs w1]| | | |] eqn:E; cbn [bind]; try discriminate.
          apply IH. cbn. apply Forall_app. split; auto. eapply entry_kids; eauto.
  Qed.
  Lemma ast_use_ok it : ast_use goal children d root pick it ->
    Forall entry_ok (ai_queue it) /\ (ai_queue it <> [] -> seen_plan goal children d root (ai_plan it)).
  Proof.
    induction 1 as [fuel w it w' E|fuel it w it' w' U IH F E].
    - eapply ast_incr_ok; [|exact E]. constructor; [apply entry_root|constructor].
    - eapply ast_incr_ok; [|exact E]. apply IH.
  Qed.
  Lemma C51_sound_lemma it : ast_use goal children d root pick it -> ast_finished it = false ->
    seen_plan goal children d root (ai_plan it).
  Proof.
    intros U F. apply ast_use_ok in U. apply U. unfold ast_finished in F. destruct (ai_queue it); congruence.
  Qed.
End Sound.
