(** Plans found by the searches when nodes and memory satisfy an invariant. *)
From Coq Require Import List Bool Arith Lia Permutation.
From Verif.Model Require Import Base Search.
From Verif.Spec Require Import SearchSpec.
From Verif.Proofs Require Import SearchFacts.
Import ListNotations.

Section Invariant.
  Context {N W : Type} (goal : N -> outcome bool) (children : N -> W -> outcome (list N * W)).
  Context (d : nat) (root : N) (P : N -> Prop) (I : W -> Prop) (kid : N -> N -> Prop).
  Context (Hkid : forall n w cs w', P n -> I w -> children n w = Ok (cs, w') ->
             I w' /\ forall c, In c cs -> P c /\ kid n c) (Hroot : P root).
  Notation plan := (plan_from kid (seen_goal goal) (seen_other goal)).

  Definition entry_inv (e : entry (N := N)) : Prop := P (fst e) /\ length (snd e) <= d /\
    forall k rest, plan k (fst e) rest -> plan (length (snd e) + k) root (snd e ++ rest).

  Lemma plan_more k n p : plan k n p -> forall k', k <= k' -> plan k' n p.
  Proof.
    induction 1 as [k n H|k n m rest Hn Hk _ IH]; intros k' L.
    - constructor. auto.
    - destruct k' as [|k']; [lia|]. econstructor; eauto. apply IH. lia.
  Qed.
  Lemma inv_root : entry_inv (root, []).
  Proof. split; auto. split; cbn; [lia|auto]. Qed.
  Lemma inv_goal n anc : entry_inv (n, anc) -> goal n = Ok true -> plan d root (anc ++ [n]).
  Proof.
    intros (_ & L & H) G. cbn in *. apply plan_more with (length anc + 0); [|lia]. apply H. constructor. exact G.
  Qed.
  Lemma inv_kids n anc w cs w' : entry_inv (n, anc) -> goal n = Ok false -> Nat.ltb d (length (anc ++ [n])) = false ->
    I w -> children n w = Ok (cs, w') -> I w' /\ Forall entry_inv (map (fun c => (c, anc ++ [n])) cs).
  Proof.
    intros (Pn & L & H) G Hd Iw E. apply Nat.ltb_ge in Hd. destruct (Hkid _ _ _ _ Pn Iw E) as [Iw' K]. split; auto.
    apply Forall_forall. intros e Ie. apply in_map_iff in Ie.
    destruct Ie as (c & <- & Ic). destruct (K c Ic) as [Pc Kc]. split; auto. split; cbn; [auto|]. intros k rest Hp. cbn in H.
    rewrite app_length, <- app_assoc. cbn. rewrite <- Nat.add_assoc. apply H.
    apply plan_step with c; auto.
  Qed.

  Lemma bfs_incr_inv fuel late : forall i q w it w', Forall entry_inv q -> I w ->
    bfs_incr goal children d fuel late i q w = Ok (it, w') ->
    I w' /\ Forall entry_inv (bi_queue it) /\ (forall p, bi_plan it = Some p -> plan d root p).
  Proof.
    induction fuel as [|f IH]; intros i [|[n anc] q] w it w' F Iw; cbn [bfs_incr].
    - intros [= <- <-]. cbn. repeat split; auto. discriminate.
    - discriminate.
    - intros [= <- <-]. cbn. repeat split; auto. discriminate.
    - apply Forall_cons_iff in F. destruct F as [Fe Fq]. destruct (late i).
      + intros [= <- <-]. cbn. repeat split; auto. discriminate.
      + destruct (goal n) as [[]| | | |] eqn:G; cbn [bind]; try discriminate.
        * intros [= <- <-]. cbn. split; auto. split; auto. intros p [= <-]. apply inv_goal; auto.
        * destruct (Nat.ltb d (length (anc ++ [n]))) eqn:Hd.
          -- apply IH; auto.
          -- destruct (children n w) as [[cs w1]| | | |] eqn:E; cbn [bind]; try discriminate.
             destruct (inv_kids _ _ _ _ _ Fe G Hd Iw E) as [I1 F1]. apply IH; auto. apply Forall_app. auto.
  Qed.
  Lemma bfs_all_inv calls fuel late w l w' : I w -> bfs_all goal children d calls fuel late root w = Ok (l, w') ->
    I w' /\ forall p, In p l -> plan d root p.
  Proof.
    intros Iw E. unfold bfs_all, bfs_begin in E.
    destruct (bfs_incr goal children d fuel (late 0) 0 [(root, [])] w) as [[it w1]| | | |] eqn:E1; try discriminate.
    cbn [bind] in E. apply bfs_incr_inv in E1; auto; [|constructor; [apply inv_root|constructor]].
    clear Iw w. revert E E1. generalize 1. revert it w1 l w'. induction calls as [|m IH]; intros it w1 l w' c E (I1 & F1 & H1).
    - cbn [bfs_loop] in E. destruct (bfs_finished it); [|discriminate]. injection E as <- <-. split; auto. intros p [].
    - cbn [bfs_loop] in E. destruct (bfs_finished it); [injection E as <- <-; split; auto; intros p []|].
      unfold bfs_deref in E. destruct (bi_plan it) as [pl|]; [|discriminate]. cbn [bind] in E.
      destruct (bfs_incr goal children d fuel (late c) 0 (bi_queue it) w1) as [[it2 w2]| | | |] eqn:E2; try discriminate.
      cbn [bind] in E. destruct (bfs_loop goal children d m fuel late (S c) it2 w2) as [[l2 w3]| | | |] eqn:E3; try discriminate.
      injection E as <- <-. apply bfs_incr_inv in E2; auto. destruct (IH _ _ _ _ _ E3 E2) as [I3 H3]. split; auto.
      intros p [<-|Ip]; auto.
  Qed.

  Lemma dfs_incr_inv fuel : forall it w it' w', Forall entry_inv (di_stack it) -> I w ->
    dfs_incr goal children d fuel it w = Ok (it', w') ->
    I w' /\ Forall entry_inv (di_stack it') /\ (di_stack it' <> [] -> plan d root (di_plan it')).
  Proof.
    induction fuel as [|f IH]; intros [[|[n anc] q] pl] w it' w' F Iw; cbn [dfs_incr di_stack]; cbn [di_stack] in F.
    - intros [= <- <-]. cbn. repeat split; auto. congruence.
    - discriminate.
    - intros [= <- <-]. cbn. repeat split; auto. congruence.
    - apply Forall_cons_iff in F. destruct F as [Fe Fq].
      destruct (goal n) as [[]| | | |] eqn:G; cbn [bind]; try discriminate.
      + intros [= <- <-]. cbn. split; auto. split; auto. intros _. apply inv_goal; auto.
      + destruct (Nat.ltb d (length (anc ++ [n]))) eqn:Hd.
        * apply IH; auto.
        * destruct (children n w) as [[cs w1]| | | |] eqn:E; cbn [bind]; try discriminate.
          destruct (inv_kids _ _ _ _ _ Fe G Hd Iw E) as [I1 F1]. apply IH; auto. cbn. apply Forall_app. split; auto.
          apply Forall_rev; auto.
  Qed.
  Lemma dfs_all_inv calls fuel w l w' : I w -> dfs_all goal children d calls fuel root w = Ok (l, w') ->
    I w' /\ forall p, In p l -> plan d root p.
  Proof.
    intros Iw E. unfold dfs_all in E.
    destruct (dfs_incr goal children d fuel _ w) as [[it w1]| | | |] eqn:E1; try discriminate.
    cbn [bind] in E. apply dfs_incr_inv in E1; auto; [|constructor; [apply inv_root|constructor]].
    clear Iw w. revert E E1. revert it w1 l w'. induction calls as [|m IH]; intros it w1 l w' E (I1 & F1 & H1).
    - cbn [dfs_loop] in E. destruct (dfs_finished it); [|discriminate]. injection E as <- <-. split; auto. intros p [].
    - cbn [dfs_loop] in E. destruct (dfs_finished it) eqn:Fi; [injection E as <- <-; split; auto; intros p []|].
      destruct (dfs_incr goal children d fuel it w1) as [[it2 w2]| | | |] eqn:E2; try discriminate.
      cbn [bind] in E. destruct (dfs_loop goal children d m fuel it2 w2) as [[l2 w3]| | | |] eqn:E3; try discriminate.
      injection E as <- <-. apply dfs_incr_inv in E2; auto. destruct (IH _ _ _ _ E3 E2) as [I3 H3]. split; auto.
      intros p [<-|Ip]; auto. apply H1. unfold dfs_finished in Fi. destruct (di_stack it); congruence.
  Qed.

  Section Ast.
  Context (pick : list (entry (N := N)) -> nat).
  Lemma ast_incr_inv fuel : forall it w it' w', Forall entry_inv (ai_queue it) -> I w ->
    ast_incr goal children d pick fuel it w = Ok (it', w') ->
    I w' /\ Forall entry_inv (ai_queue it') /\ (ai_queue it' <> [] -> plan d root (ai_plan it')).
  Proof.
    induction fuel as [|f IH]; intros [[|x q] pl] w it' w' F Iw; cbn [ast_incr ai_queue]; cbn [ai_queue] in F.
    - intros [= <- <-]. cbn. repeat split; auto. congruence.
    - discriminate.
    - intros [= <- <-]. cbn. repeat split; auto. congruence.
    - destruct (take_nth (pick (x :: q)) x q) as [[n anc] q'] eqn:T. apply take_nth_perm in T.
      rewrite T in F. apply Forall_cons_iff in F. destruct F as [Fe Fq].
      destruct (goal n) as [[]| | | |] eqn:G; cbn [bind]; try discriminate.
      + intros [= <- <-]. cbn. split; auto. split; auto. intros _. apply inv_goal; auto.
      + destruct (Nat.ltb d (length (anc ++ [n]))) eqn:Hd.
        * apply IH; auto.
        * destruct (children n w) as [[cs w1]| | | |] eqn:E; cbn [bind]; try discriminate.
          destruct (inv_kids _ _ _ _ _ Fe G Hd Iw E) as [I1 F1]. apply IH; auto. cbn. apply Forall_app. auto.
  Qed.
  Lemma ast_all_inv calls fuel w l w' : I w -> ast_all goal children d pick calls fuel root w = Ok (l, w') ->
    I w' /\ forall p, In p l -> plan d root p.
  Proof.
    intros Iw E. unfold ast_all in E.
    destruct (ast_incr goal children d pick fuel _ w) as [[it w1]| | | |] eqn:E1; try discriminate.
    cbn [bind] in E. apply ast_incr_inv in E1; auto; [|constructor; [apply inv_root|constructor]].
    clear Iw w. revert E E1. revert it w1 l w'. induction calls as [|m IH]; intros it w1 l w' E (I1 & F1 & H1).
    - cbn [ast_loop] in E. destruct (ast_finished it); [|discriminate]. injection E as <- <-. split; auto. intros p [].
    - cbn [ast_loop] in E. destruct (ast_finished it) eqn:Fi; [injection E as <- <-; split; auto; intros p []|].
      destruct (ast_incr goal children d pick fuel it w1) as [[it2 w2]| | | |] eqn:E2; try discriminate.
      cbn [bind] in E. destruct (ast_loop goal children d pick m fuel it2 w2) as [[l2 w3]| | | |] eqn:E3; try discriminate.
      injection E as <- <-. apply ast_incr_inv in E2; auto. destruct (IH _ _ _ _ E3 E2) as [I3 H3]. split; auto.
      intros p [<-|Ip]; auto. apply H1. unfold ast_finished in Fi. destruct (ai_queue it); congruence.
  Qed.

  End Ast.

  Lemma yields_plan p : yields goal children d root I p -> plan d root p.
  Proof.
    intros [it pl U E|it U E|pk it U E].
    - assert (H : Forall entry_inv (bi_queue it) /\ (forall p, bi_plan it = Some p -> plan d root p)).
      { clear E. induction U as [fuel late w it w' Iw E|fuel late it w it' w' _ [F _] _ Iw E]; apply bfs_incr_inv in E; auto; try tauto.
        constructor; [apply inv_root|constructor]. }
      apply H; auto.
    - assert (H : Forall entry_inv (di_stack it) /\ (di_stack it <> [] -> plan d root (di_plan it))).
      { clear E. induction U as [fuel w it w' Iw E|fuel it w it' w' _ [F _] _ Iw E]; apply dfs_incr_inv in E; auto; try tauto.
        constructor; [apply inv_root|constructor]. }
      apply H. intros Q. unfold dfs_finished in E. rewrite Q in E. discriminate.
    - assert (H : Forall entry_inv (ai_queue it) /\ (ai_queue it <> [] -> plan d root (ai_plan it))).
      { clear E. induction U as [fuel w it w' Iw E|fuel it w it' w' _ [F _] _ Iw E]; apply ast_incr_inv in E; auto; try tauto.
        constructor; [apply inv_root|constructor]. }
      apply H. intros Q. unfold ast_finished in E. rewrite Q in E. discriminate.
  Qed.
End Invariant.
