(** The iterator over the children visits every argument tuple of every action in order. *)
From Coq Require Import String List Bool NArith ZArith Arith Lia.
From Verif.Model Require Import Base Object Proposition State ParameterGenerator Syntax Formula
  Effects Derived Consistency Text Pddl Planner.
Import ListNotations.
Local Open Scope string_scope.
Local Open Scope list_scope.

Section Loops.
  Context `{SH : StdHash} (L : limits) (p : pddl) (tup : op -> list (list object)).
  Context (Htup : forall o, In o (pd_actions p) -> var_tuples (pd_om p) (op_params o) = Ok (tup o)).

  Definition pairs (os : list op) : list (op * list object) := flat_map (fun o => map (pair o) (tup o)) os.

  Fixpoint walk (n : node) (l : list (op * list object)) (child : option node) (st : store)
      : outcome (list node * store) :=
    match l with
    | [] => Ok ([], st)
    | (o, args) :: r =>
        let* ' (stop, (c, st')) := try_tuple L p n o args child st in
        let* ' (cs, st'') := walk n r c st' in
        Ok (match c with Some c => if stop : bool then c :: cs else cs | None => cs end, st'')
    end.

  Lemma try_stop n o args child st c st' : try_tuple L p n o args child st = Ok (true, (c, st')) -> exists x, c = Some x.
  Proof.
    unfold try_tuple. destruct (op_valid _ _ _ _) as [[]| | | |]; cbn; try discriminate.
    destruct (apply_state _ _ _ _ _ _ _) as [[k [s1 st1]]| | | |]; cbn; try discriminate.
    destruct (pd_derive L p s1) as [[b s2]| | | |]; cbn; try discriminate. intros [= _ <- _]. eauto.
  Qed.

  (** What is left after the current position. *)
  Definition left_over (it : node_it) : list (op * list object) :=
    match it_actions it with
    | [] => []
    | o :: os => map (pair o) (tl (it_params it)) ++ pairs os
    end.
  Definition measure (it : node_it) : nat :=
    match it_actions it with
    | [] => 0
    | o :: os => length (it_params it) + S (length (pairs os) + length os)
    end.

  (** The rest of the loop after an increment. *)
  Lemma rest_ok K n : forall m f k it st, incl (it_actions it) (pd_actions p) ->
    measure it <= m -> m < f -> m < k -> m < K ->
    (let* ' (it', st') := next_child L p f n it st in collect L p K k n it' st') =
    walk n (left_over it) (it_child it) st.
  Proof.
    induction m as [|m IH]; intros f k it st I M Lf Lk LK; destruct it as [[|o os] ps child];
      unfold measure, left_over in *; cbn [it_actions it_params it_child] in *.
    - destruct f; [lia|]. destruct k; reflexivity.
    - lia.
    - destruct f; [lia|]. destruct k; reflexivity.
    - destruct f as [|f]; [lia|]. destruct k as [|k]; [lia|]. cbn [next_child it_actions it_params it_child].
      assert (Check : forall o' args r rest (Io : In o' (pd_actions p)) (Ir : incl r (pd_actions p)),
        (length rest + S (S (length (pairs r) + length r)) <= m) ->
        (let* ' (it', st') :=
           (let* ' (stop, (c, st')) := try_tuple L p n o' args child st in
            let it' := mkNodeIt (o' :: r) (args :: rest) c in
            if stop : bool then Ok (it', st') else next_child L p f n it' st') in
         collect L p K (S k) n it' st') =
        walk n ((o', args) :: map (pair o') rest ++ pairs r) child st).
      { intros o' args r rest Io Ir Lm. cbn [walk].
        destruct (try_tuple L p n o' args child st) as [[stop [c st1]]| | | |] eqn:E; cbn [bind]; auto.
        assert (I' : incl (o' :: r) (pd_actions p)) by (intros x [<-|Ix]; auto).
        destruct stop.
        - destruct (try_stop _ _ _ _ _ _ _ E) as [x ->]. cbn [bind collect it_actions it_child].
          pose proof (IH K k (mkNodeIt (o' :: r) (args :: rest) (Some x)) st1 I') as H.
          cbn [it_actions it_params it_child length tl] in H. rewrite <- H by lia.
          destruct (next_child L p K n _ st1) as [[it2 st2]| | | |]; cbn [bind]; auto.
        - pose proof (IH f (S k) (mkNodeIt (o' :: r) (args :: rest) c) st1 I') as H.
          cbn [it_actions it_params it_child length tl] in H. rewrite H by lia.
          destruct (walk n _ c st1) as [[cs st2]| | | |]; cbn [bind]; auto. destruct c; auto. }
      destruct ps as [|q ps].
      + (* next action *)
        cbn [tl map app]. destruct os as [|o' os]; [reflexivity|].
        assert (Io : In o' (pd_actions p)) by (apply I; right; left; auto).
        rewrite (Htup o' Io). cbn [bind].
        assert (I' : incl (o' :: os) (pd_actions p)) by (intros x Ix; apply I; right; auto).
        assert (Lp : length (pairs (o' :: os)) = length (tup o') + length (pairs os)).
        { unfold pairs. cbn. rewrite app_length, map_length. auto. }
        rewrite Lp in M. cbn in M. unfold pairs at 1. cbn [flat_map]. fold (pairs os).
        destruct (tup o') as [|args ts] eqn:Et.
        * pose proof (IH f (S k) (mkNodeIt (o' :: os) [] child) st I') as H.
          cbn [it_actions it_params it_child length tl map app] in H. cbn [length] in M. rewrite H by lia. reflexivity.
        * cbn [map app]. cbn [length] in M. apply Check; auto; [|lia]. intros x Ix; apply I'; right; auto.
      + cbn [tl]. destruct ps as [|args ps].
        * pose proof (IH f (S k) (mkNodeIt (o :: os) [] child) st I) as H.
          cbn [it_actions it_params it_child length tl map app] in H. cbn [length] in M. rewrite H by lia. reflexivity.
        * cbn [length] in M. cbn [map app]. apply Check; [apply I; left; auto|intros x Ix; apply I; right; auto|lia].
  Qed.

  Lemma children_walk K n st : pd_actions p <> [] -> S (length (pairs (pd_actions p)) + length (pd_actions p)) < K ->
    node_children L p K n st = walk n (pairs (pd_actions p)) None st.
  Proof.
    intros Ne LK. unfold node_children, begin_children.
    pose proof (rest_ok K n (pred (pred K))) as H. pose proof Htup as Ht. revert Ne LK H Ht.
    generalize (pd_actions p). intros l Ne LK H Ht. destruct l as [|o os]; [congruence|].
    rewrite (Ht o) by (left; auto). cbn [bind]. unfold pairs in LK |- *. cbn [flat_map length] in LK |- *. fold (pairs os) in LK |- *.
    rewrite app_length, map_length in LK. unfold measure, left_over in H.
    destruct (tup o) as [|args ts] eqn:Et.
    - specialize (H K K (mkNodeIt (o :: os) [] None) st (incl_refl _)).
      cbn [it_actions it_params it_child map tl app length] in *. apply H; lia.
    - cbn [map app walk]. destruct (try_tuple L p n o args None st) as [[stop [c st1]]| | | |] eqn:E; cbn [bind]; auto.
      cbn [length] in *.
      destruct stop.
      + destruct (try_stop _ _ _ _ _ _ _ E) as [x ->]. cbn [bind]. destruct K as [|k]; [lia|].
        cbn [collect it_actions it_child bind].
        specialize (H (S k) k (mkNodeIt (o :: os) (args :: ts) (Some x)) st1 (incl_refl _)).
        cbn [it_actions it_params it_child tl length pred] in H. rewrite <- H by lia.
        destruct (next_child _ _ _ _ _ st1) as [[it2 st2]| | | |]; cbn [bind]; auto.
      + specialize (H K K (mkNodeIt (o :: os) (args :: ts) c) st1 (incl_refl _)).
        cbn [it_actions it_params it_child tl length] in H. rewrite H by lia.
        destruct (walk n _ c st1) as [[cs st2]| | | |]; cbn [bind]; auto. destruct c; auto.
  Qed.
End Loops.
