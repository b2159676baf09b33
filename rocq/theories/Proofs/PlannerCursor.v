(** The iterator over the children with its component iterators (C70). *)
From Coq Require Import String List Bool NArith ZArith Arith Lia.
From Verif.Model Require Import Base Object Proposition State CombinationGenerator ParameterGenerator Syntax Formula
  Effects Derived Consistency Text Pddl Planner PlannerSteps.
From Verif.Spec Require Import SetSpec TypingSpec FormulaSpec EffectSpec DerivedSpec TextSpec PddlSpec PlannerSpec CartesianSpec.
From Verif.Proofs Require Import CombinationFacts CombinationMoves ParameterFacts StateFacts StateHistory FormulaFacts EffectFacts
  EffectLink EffectTheorems DerivedFacts TextFacts PddlFacts PddlTheorems PddlListing PddlHistory PlannerLoops PlannerFacts.
Import ListNotations.
Local Open Scope string_scope.
Local Open Scope list_scope.

Notation iter_at i args := (mkIter (Z.of_nat i) args).

(** The iterators of the generator of an action, whose tuples are [ts]. *)
Record gen_facts (om : object_map) (params : list object) (ts : list (list object)) (both : Prop) (gf_gen : gen object) : Prop := {
  gf_made : param_gen om params = Ok gf_gen;
  gf_begin : gen_begin null_object gf_gen = Ok (iter_at 0 (hd [] ts));
  gf_end : gen_end null_object gf_gen = Ok (iter_at (length ts) []);
  gf_next : forall ts1 a a' ts2, ts = ts1 ++ a :: a' :: ts2 ->
    it_move null_object gf_gen 1 (iter_at (length ts1) a) = Ok (iter_at (S (length ts1)) a');
  gf_past : forall ts1 a, ts = ts1 ++ [a] ->
    it_move null_object gf_gen 1 (iter_at (length ts1) a) = Ok (iter_at (S (length ts1)) a);
  gf_prev : forall ts1 a a' ts2, ts = ts1 ++ a :: a' :: ts2 ->
    it_move null_object gf_gen (-1) (iter_at (S (length ts1)) a') = Ok (iter_at (length ts1) a);
  gf_last : both -> forall ts1 a, ts = ts1 ++ [a] ->
    it_move null_object gf_gen (-1) (iter_at (length ts) []) = Ok (iter_at (length ts1) a)
}.

Lemma exists_last_or_nil {A} (l : list A) : l = [] \/ exists l' a, l = l' ++ [a].
Proof. destruct l as [|a l]; [auto|]. right. destruct (exists_last (l:=a :: l) ltac:(discriminate)) as (l' & b & E). eauto. Qed.

Section Cursor.
  Context `{SH : StdHash} (L : limits) (p : pddl) (n : node) (tup : op -> list (list object)).
  Notation acts := (pd_actions p).
  Notation pairs := (pairs tup).
  Context (both : Prop).
  Context (Hgen : forall o, In o acts -> exists g, gen_facts (pd_om p) (op_params o) (tup o) both g).
  Context (R : store -> Prop) (okc : option node -> Prop) (prod : op * list object -> bool)
          (child_of : op * list object -> node).
  Context (Htry : forall x child st, In x (pairs acts) -> okc child -> R st -> exists ch st',
    null_arg (snd x) = false /\ try_tuple L p n (fst x) (snd x) child st = Ok (prod x, (ch, st')) /\
    R st' /\ okc ch /\ (prod x = true -> ch = Some (child_of x))).

  Definition stands (c : cursor) (b : list (op * list object)) (x : op * list object) (a : list (op * list object)) : Prop :=
    exists os1 o os2 ts1 args ts2, acts = os1 ++ o :: os2 /\ tup o = ts1 ++ args :: ts2 /\
      cu_action c = length os1 /\ cu_param c = iter_at (length ts1) args /\
      b = pairs os1 ++ map (pair o) ts1 /\ x = (o, args) /\ a = map (pair o) ts2 ++ pairs os2.

  Lemma pairs_app l l' : pairs (l ++ l') = pairs l ++ pairs l'.
  Proof. apply flat_map_app. Qed.
  Lemma pairs_cons o l : pairs (o :: l) = map (pair o) (tup o) ++ pairs l.
  Proof. reflexivity. Qed.
  Lemma stands_split c b x a : stands c b x a -> pairs acts = b ++ x :: a.
  Proof.
    intros (os1 & o & os2 & ts1 & args & ts2 & E & Et & _ & _ & -> & -> & ->).
    rewrite E, pairs_app, pairs_cons, Et, map_app, <- !app_assoc. reflexivity.
  Qed.
  Lemma act_nth os1 o os2 : acts = os1 ++ o :: os2 -> nth_error acts (length os1) = Some o.
  Proof. intros E. rewrite E, nth_error_app2, Nat.sub_diag by lia. reflexivity. Qed.
  Lemma act_last os1 o os2 : acts = os1 ++ o :: os2 -> length acts = (length os1 + S (length os2))%nat.
  Proof. intros E. rewrite E, app_length. reflexivity. Qed.

  Definition found (b a : list (op * list object)) (r : outcome (cursor * store)) : Prop :=
    (exists a1 x a2 c st, a = a1 ++ x :: a2 /\ Forall (fun x => prod x = false) a1 /\ prod x = true /\
       r = Ok (c, st) /\ stands c (b ++ a1) x a2 /\ cu_child c = Some (child_of x) /\ R st /\ okc (cu_child c)) \/
    (Forall (fun x => prod x = false) a /\
     exists c st, r = Ok (c, st) /\ cu_action c = length acts /\ R st /\ okc (cu_child c)).

  Lemma found_skip b x a r : prod x = false -> found (b ++ [x]) a r -> found b (x :: a) r.
  Proof.
    intros Px [(a1 & y & a2 & c & st & E & F & Py & Er & S & H)|(F & H)].
    - left. exists (x :: a1), y, a2, c, st. rewrite E. split; [reflexivity|]. split; [constructor; auto|].
      split; [auto|]. split; [auto|]. split; [|auto]. rewrite <- app_assoc in S. exact S.
    - right. split; [constructor; auto|auto].
  Qed.

  (** Trying the tuple at which a cursor stands. *)
  Lemma try_here k it child st b x a c0 : c0 = mkCursor k it child -> stands c0 b x a -> okc child -> R st ->
    exists ch st', try_at L p n k it child st = Ok (prod x, (ch, st')) /\ R st' /\ okc ch /\
      (prod x = true -> ch = Some (child_of x)) /\ stands (mkCursor k it ch) b x a.
  Proof.
    intros -> S Oc Rs. pose proof (stands_split _ _ _ _ S) as Sp.
    destruct S as (os1 & o & os2 & ts1 & args & ts2 & E & Et & Ea & Ep & Eb & Ex & Eaf). cbn [cu_action cu_param] in *.
    assert (I : In x (pairs acts)) by (rewrite Sp; apply in_app_iff; right; left; auto).
    destruct (Htry x child st I Oc Rs) as (ch & st' & N & T & Rs' & Oc' & Hc). exists ch, st'.
    split.
    - unfold try_at. rewrite Ea, (act_nth _ _ _ E), Ep. cbn [it_comb]. subst x. cbn [fst snd] in N, T.
      rewrite N. exact T.
    - split; [auto|]. split; [auto|]. split; [auto|].
      exists os1, o, os2, ts1, args, ts2. cbn [cu_action cu_param]. auto 12.
  Qed.

  (** ** Forward *)
  Lemma next_found : forall m f c st os1 o os2 ts1 ts2, acts = os1 ++ o :: os2 -> tup o = ts1 ++ ts2 ->
    cu_action c = length os1 -> it_idx (cu_param c) = Z.of_nat (length ts1) ->
    (ts2 = [] \/ exists args ts, ts2 = args :: ts /\ cu_param c = iter_at (length ts1) args) ->
    okc (cu_child c) -> R st ->
    (length ts2 + length (pairs os2) + length os2 < m)%nat -> (m <= f)%nat ->
    found (pairs os1 ++ map (pair o) ts1 ++ match ts2 with [] => [] | a :: _ => [(o, a)] end)
          (map (pair o) (tl ts2) ++ pairs os2) (cursor_next L p f n c st).
  Proof.
    induction m as [|m IH]; intros f c st os1 o os2 ts1 ts2 E Et Ea Ei Hp Oc Rs M F; [lia|].
    destruct f as [|f]; [lia|]. cbn [cursor_next].
    assert (Io : In o acts) by (rewrite E; apply in_app_iff; right; left; auto).
    destruct (Hgen o Io) as (g & [Gm Gb Ge Gn Gp _ _]).
    rewrite Ea, (proj2 (Nat.eqb_neq _ _)) by (rewrite (act_last _ _ _ E); lia).
    unfold act_gen at 1. rewrite (act_nth _ _ _ E), Gm. cbn [bind]. rewrite Ge. cbn [bind].
    unfold it_eqb at 1. cbn [it_idx]. rewrite Ei.
    assert (Check : forall k it b x a, stands (mkCursor k it (cu_child c)) b x a ->
      (forall ch st', okc ch -> R st' -> stands (mkCursor k it ch) b x a ->
         found (b ++ [x]) a (cursor_next L p f n (mkCursor k it ch) st')) ->
      found b (x :: a) (let* ' (stop, (ch, st')) := try_at L p n k it (cu_child c) st in
        let c' := mkCursor k it ch in
        if stop : bool then Ok (c', st') else cursor_next L p f n c' st')).
    { intros k it b x a S Rest. destruct (try_here k it (cu_child c) st b x a _ eq_refl S Oc Rs)
        as (ch & st' & T & Rs' & Oc' & Hc & S'). rewrite T. cbn [bind]. destruct (prod x) eqn:Px.
      - left. exists [], x, a, (mkCursor k it ch), st'. rewrite app_nil_r. cbn [cu_child]. rewrite (Hc eq_refl).
        split; [auto|]. split; [constructor|]. split; [auto|]. split; [auto|].
        rewrite <- (Hc eq_refl). auto.
      - apply found_skip; auto. }
    destruct ts2 as [|a0 ts2].
    - (* next action *)
      rewrite app_nil_r in Et. rewrite Et, (proj2 (Z.eqb_eq _ _)) by reflexivity. cbn [tl map app].
      rewrite app_nil_r. destruct os2 as [|o2 os2].
      + rewrite (proj2 (Nat.eqb_eq _ _)) by (rewrite (act_last _ _ _ E); cbn; lia). cbn [app].
        right. split; [constructor|]. eexists _, st. split; [reflexivity|]. cbn [cu_action cu_child].
        split; [rewrite (act_last _ _ _ E); cbn; lia|auto].
      + rewrite (proj2 (Nat.eqb_neq _ _)) by (rewrite (act_last _ _ _ E); cbn; lia).
        assert (E2 : acts = (os1 ++ [o]) ++ o2 :: os2) by (rewrite <- app_assoc; exact E).
        assert (L2 : length (os1 ++ [o]) = S (length os1)) by (rewrite app_length; cbn; lia).
        assert (Io2 : In o2 acts) by (rewrite E2; apply in_app_iff; right; left; auto).
        destruct (Hgen o2 Io2) as (g2 & [Gm2 Gb2 Ge2 _ _ _ _]).
        unfold act_gen. rewrite <- L2, (act_nth _ _ _ E2), Gm2. cbn [bind]. rewrite Gb2, Ge2. cbn [bind].
        unfold it_eqb. cbn [it_idx]. rewrite (pairs_cons o2 os2).
        rewrite pairs_cons, app_length, map_length in M.
        replace (pairs os1 ++ map (pair o) ts1) with (pairs (os1 ++ [o])).
        2:{ rewrite pairs_app, pairs_cons, Et. cbn [flat_map]. rewrite app_nil_r. reflexivity. }
        destruct (tup o2) as [|a2 ts] eqn:Et2.
        * cbn [length Z.of_nat Z.eqb map app].
          pose proof (IH f (mkCursor (length (os1 ++ [o])) (iter_at 0 (hd [] [])) (cu_child c)) st (os1 ++ [o]) o2 os2 [] []) as H.
          cbn [cu_action cu_param cu_child it_idx map app tl length] in H. rewrite app_nil_r in H.
          apply H; auto; cbn in M |- *; lia.
        * rewrite (proj2 (Z.eqb_neq _ _)) by (cbn [length]; lia). cbn [hd map app].
          apply Check.
          -- exists (os1 ++ [o]), o2, os2, [], a2, ts. cbn [cu_action cu_param map length app]. rewrite app_nil_r. auto 12.
          -- intros ch st' Oc' Rs' S.
             pose proof (IH f (mkCursor (length (os1 ++ [o])) (iter_at 0 a2) ch) st' (os1 ++ [o]) o2 os2 [] (a2 :: ts)) as H.
             cbn [cu_action cu_param cu_child it_idx map app tl length] in H.
             apply H; auto; [right; eauto|cbn in M |- *; lia|lia].
    - destruct Hp as [Hp|(args & ts & [= <- <-] & Hp)]; [discriminate|].
      rewrite (proj2 (Z.eqb_neq _ _)) by (rewrite Et, app_length; cbn [length]; lia).
      rewrite Hp. cbn [tl]. destruct ts2 as [|a1 ts2].
      + rewrite (Gp ts1 a0 Et). cbn [bind]. unfold it_eqb. cbn [it_idx].
        rewrite (proj2 (Z.eqb_eq _ _)) by (rewrite Et, app_length; cbn [length]; lia).
        pose proof (IH f (mkCursor (length os1) (iter_at (S (length ts1)) a0) (cu_child c)) st os1 o os2 (ts1 ++ [a0]) []) as H.
        cbn [cu_action cu_param cu_child it_idx map app tl length] in H.
        rewrite map_app, app_nil_r, !app_length, app_nil_r in H. cbn [map length] in H. cbn [map app].
        apply H; auto; cbn in M |- *; lia.
      + rewrite (Gn ts1 a0 a1 ts2 Et). cbn [bind]. unfold it_eqb. cbn [it_idx].
        rewrite (proj2 (Z.eqb_neq _ _)) by (rewrite Et, app_length; cbn [length]; lia).
        cbn [map app]. rewrite app_assoc.
        assert (Et' : tup o = (ts1 ++ [a0]) ++ a1 :: ts2) by (rewrite <- app_assoc; exact Et).
        assert (L1 : length (ts1 ++ [a0]) = S (length ts1)) by (rewrite app_length; cbn; lia).
        replace ((pairs os1 ++ map (pair o) ts1) ++ [(o, a0)]) with (pairs os1 ++ map (pair o) (ts1 ++ [a0]))
          by (rewrite map_app, app_assoc; reflexivity).
        rewrite <- L1. apply Check.
        * exists os1, o, os2, (ts1 ++ [a0]), a1, ts2. cbn [cu_action cu_param]. auto 12.
        * intros ch st' Oc' Rs' S.
          pose proof (IH f (mkCursor (length os1) (iter_at (length (ts1 ++ [a0])) a1) ch) st' os1 o os2 (ts1 ++ [a0]) (a1 :: ts2)) as H.
          cbn [cu_action cu_param cu_child it_idx tl] in H. rewrite <- app_assoc. apply H; auto; [right; eauto|cbn in M |- *; lia|lia].
  Qed.

  Lemma next_stands f c st b x a : stands c b x a -> okc (cu_child c) -> R st ->
    (S (length (pairs acts) + length acts) < f)%nat -> found (b ++ [x]) a (cursor_next L p f n c st).
  Proof.
    intros S Oc Rs F. destruct S as (os1 & o & os2 & ts1 & args & ts2 & E & Et & Ea & Ep & -> & -> & ->).
    rewrite <- app_assoc.
    apply (next_found f f c st os1 o os2 ts1 (args :: ts2)); auto.
    - rewrite Ep. reflexivity.
    - right. eauto.
    - rewrite E, pairs_app, pairs_cons, Et, !app_length, map_length, app_length in F. cbn in F |- *. lia.
  Qed.

  Lemma begin_found f st : acts <> [] -> okc None -> R st -> (S (length (pairs acts) + length acts) < f)%nat ->
    found [] (pairs acts) (cursor_begin L p f n st).
  Proof.
    intros Ne Oc Rs F. assert (exists o os, acts = o :: os) as (o & os & E) by (destruct acts; [congruence|eauto]).
    assert (Io : In o acts) by (rewrite E; left; auto). destruct (Hgen o Io) as (g & [Gm Gb Ge _ _ _ _]).
    unfold cursor_begin, act_gen. rewrite E. cbn [nth_error]. rewrite Gm. cbn [bind]. rewrite Gb, Ge. cbn [bind].
    unfold it_eqb. cbn [it_idx]. rewrite pairs_cons. pose proof F as F0. rewrite E, pairs_cons, app_length, map_length in F.
    destruct (tup o) as [|a ts] eqn:Et.
    - cbn [length Z.of_nat Z.eqb map app].
      pose proof (next_found f f (mkCursor 0 (iter_at 0 (hd [] [])) None) st [] o os [] []) as H.
      cbn [cu_action cu_param cu_child it_idx map app tl length] in H. change (pairs [] ++ []) with (@nil (op * list object)) in H.
      apply H; auto; cbn [length] in F |- *; lia.
    - rewrite (proj2 (Z.eqb_neq _ _)) by (cbn [length]; lia). cbn [hd map app].
      assert (S : stands (mkCursor 0 (iter_at 0 a) None) [] (o, a) (map (pair o) ts ++ pairs os)).
      { exists [], o, os, [], a, ts. rewrite Et. cbn. auto 12. }
      destruct (try_here 0 (iter_at 0 a) None st _ _ _ _ eq_refl S Oc Rs) as (ch & st' & T & Rs' & Oc' & Hc & S').
      rewrite T. cbn [bind]. destruct (prod (o, a)) eqn:Px.
      + left. exists [], (o, a), (map (pair o) ts ++ pairs os), (mkCursor 0 (iter_at 0 a) ch), st'. cbn [cu_child app].
        rewrite (Hc eq_refl) in *. split; [auto|]. split; [constructor|]. auto 12.
      + apply found_skip; auto. apply (next_stands f (mkCursor 0 (iter_at 0 a) ch) st' [] (o, a)); auto.
  Qed.

  (** ** Backward *)
  Context (Hboth : both) (Hsome : forall o, In o acts -> tup o <> []).

  Definition found_back (b a : list (op * list object)) (r : outcome (cursor * store)) : Prop :=
    exists b1 x b2 c st, b = b1 ++ x :: b2 /\ Forall (fun x => prod x = false) b2 /\ prod x = true /\
      r = Ok (c, st) /\ stands c b1 x (b2 ++ a) /\ cu_child c = Some (child_of x) /\ R st /\ okc (cu_child c).

  Lemma found_back_skip b x a r : prod x = false -> found_back b (x :: a) r -> found_back (b ++ [x]) a r.
  Proof.
    intros Px (b1 & y & b2 & c & st & -> & F & Py & Er & S & H). exists b1, y, (b2 ++ [x]), c, st.
    split; [rewrite <- app_assoc; reflexivity|]. split; [apply Forall_app; auto|]. split; [auto|]. split; [auto|].
    split; [|auto]. rewrite <- app_assoc. exact S.
  Qed.

  (** The last tuple of the last of some actions. *)
  Lemma last_tuple l o os2 : acts = l ++ o :: os2 -> exists g ts args, act_gen p (length l) = Ok g /\ tup o = ts ++ [args] /\
    gen_end null_object g = Ok (iter_at (length (tup o)) []) /\
    it_move null_object g (-1) (iter_at (length (tup o)) []) = Ok (iter_at (length ts) args).
  Proof.
    intros E. assert (Io : In o acts) by (rewrite E; apply in_app_iff; right; left; auto).
    destruct (Hgen o Io) as (g & [Gm _ Ge _ _ _ Gl]). destruct (exists_last (Hsome o Io)) as (ts & args & Et).
    exists g, ts, args. unfold act_gen. rewrite (act_nth _ _ _ E). auto.
  Qed.

  Lemma try_back k it child st b x a (f : option node -> store -> outcome (cursor * store)) :
    stands (mkCursor k it child) b x a -> okc child -> R st ->
    (prod x = false -> forall ch st', okc ch -> R st' -> stands (mkCursor k it ch) b x a -> found_back b (x :: a) (f ch st')) ->
    found_back (b ++ [x]) a (let* ' (stop, (ch, st')) := try_at L p n k it child st in
      if stop : bool then Ok (mkCursor k it ch, st') else f ch st').
  Proof.
    intros S Oc Rs Rest. destruct (try_here k it child st b x a _ eq_refl S Oc Rs) as (ch & st' & T & Rs' & Oc' & Hc & S').
    rewrite T. cbn [bind]. destruct (prod x) eqn:Px.
    - exists b, x, [], (mkCursor k it ch), st'. split; [auto|]. split; [constructor|]. split; [auto|]. split; [auto|].
      cbn [cu_child app]. rewrite <- (Hc eq_refl). auto.
    - apply found_back_skip; auto.
  Qed.

  Lemma back_found : forall m f c st b x a, stands c b x a -> okc (cu_child c) -> R st -> Exists (fun x => prod x = true) b ->
    (length b <= m)%nat -> (m <= f)%nat -> found_back b (x :: a) (cursor_back L p f n c st).
  Proof.
    induction m as [|m IH]; intros f c st b x a S Oc Rs Ex M F; [destruct b; [inversion Ex|cbn in M; lia]|].
    destruct f as [|f]; [lia|]. cbn [cursor_back].
    destruct S as (os1 & o & os2 & ts1 & args & ts2 & E & Et & Ea & Ep & -> & -> & ->).
    assert (Io : In o acts) by (rewrite E; apply in_app_iff; right; left; auto).
    destruct (Hgen o Io) as (g & [Gm Gb _ _ _ Gv _]).
    unfold act_gen at 1. rewrite Ea, (act_nth _ _ _ E), Gm. cbn [bind]. rewrite Gb. cbn [bind].
    unfold it_eqb. rewrite Ep. cbn [it_idx].
    assert (Step : forall k it b x' x a, Exists (fun x => prod x = true) (b ++ [x']) -> (length (b ++ [x']) <= S m)%nat ->
      stands (mkCursor k it (cu_child c)) b x' (x :: a) ->
      found_back (b ++ [x']) (x :: a) (let* ' (stop, (ch, st')) := try_at L p n k it (cu_child c) st in
        let c' := mkCursor k it ch in
        if stop : bool then Ok (c', st') else cursor_back L p f n c' st')).
    { clear - Oc Rs IH F Htry. intros k it b x' x a Ex M S.
      apply (try_back k it (cu_child c) st b x' (x :: a) (fun ch st' => cursor_back L p f n (mkCursor k it ch) st') S Oc Rs).
      intros Px ch st' Oc' Rs' S'. apply IH; auto.
      - apply Exists_app in Ex as [Ex|Ex]; [exact Ex|]. inversion Ex as [? ? H|? ? H]; [congruence|inversion H].
      - rewrite app_length in M. cbn in M. lia.
      - lia. }
    destruct (exists_last_or_nil ts1) as [->|(ts & a' & ->)].
    - (* the action before *)
      destruct (exists_last_or_nil os1) as [->|(os & o' & ->)]; [cbn in Ex; inversion Ex|].
      cbn [length Z.of_nat Z.eqb]. rewrite andb_true_r.
      rewrite (proj2 (Nat.eqb_neq _ _)) by (rewrite app_length; cbn; lia).
      assert (E' : acts = os ++ o' :: o :: os2) by (rewrite E, <- app_assoc; reflexivity).
      destruct (last_tuple os o' (o :: os2) E') as (g' & ts & a' & Ag & Et' & Ge & Gl).
      rewrite app_length. cbn [length]. rewrite Nat.add_1_r. cbn [pred]. rewrite Ag. cbn [bind]. rewrite Ge. cbn [bind].
      rewrite Gl. cbn [bind].
      assert (Eb : pairs (os ++ [o']) ++ map (pair o) [] = (pairs os ++ map (pair o') ts) ++ [(o', a')]).
      { cbn [map]. rewrite app_nil_r, pairs_app, pairs_cons, Et', map_app. cbn [map]. unfold PlannerLoops.pairs at 2. cbn [flat_map].
        rewrite app_nil_r, app_assoc. reflexivity. }
      rewrite Eb in Ex, M |- *. apply Step; auto.
      exists os, o', (o :: os2), ts, a', []. cbn [cu_action cu_param map app].
      rewrite pairs_cons, Et. cbn [map app]. auto 12.
    - rewrite app_length. cbn [length]. rewrite (proj2 (Z.eqb_neq _ _)) by lia. rewrite andb_false_r, Nat.add_1_r.
      assert (Et' : tup o = ts ++ a' :: args :: ts2) by (rewrite Et, <- app_assoc; reflexivity).
      rewrite (Gv _ _ _ _ Et'). cbn [bind].
      rewrite map_app in Ex, M |- *. cbn [map] in Ex, M |- *. rewrite app_assoc in Ex, M |- *.
      apply Step; auto. exists os1, o, os2, ts, a', (args :: ts2). cbn [cu_action cu_param map app]. auto 12.
  Qed.

  Lemma prev_found f c st b x a : stands c b x a -> okc (cu_child c) -> R st -> Exists (fun x => prod x = true) b ->
    (length (pairs acts) <= f)%nat -> found_back b (x :: a) (cursor_prev L p f n c st).
  Proof.
    intros S Oc Rs Ex F. pose proof (stands_split _ _ _ _ S) as Sp. unfold cursor_prev.
    pose proof S as (os1 & o & os2 & ts1 & args & ts2 & E & _ & Ea & _).
    rewrite Ea, (proj2 (Nat.eqb_neq _ _)) by (rewrite (act_last _ _ _ E); lia).
    apply (back_found f); auto. rewrite Sp, app_length in F. cbn in F. lia.
  Qed.

  Lemma prev_end f c st : cu_action c = length acts -> okc (cu_child c) -> R st -> Exists (fun x => prod x = true) (pairs acts) ->
    (length (pairs acts) <= f)%nat -> found_back (pairs acts) [] (cursor_prev L p f n c st).
  Proof.
    intros Ea Oc Rs Ex F. unfold cursor_prev. rewrite Ea, Nat.eqb_refl.
    destruct (exists_last_or_nil acts) as [E|(os & o & E)].
    { rewrite E in Ex. inversion Ex. }
    assert (El : length acts = S (length os)) by (rewrite E, app_length; cbn; lia). rewrite El.
    destruct (last_tuple os o [] E) as (g & ts & args & Ag & Et & Ge & Gl). rewrite Ag. cbn [bind]. rewrite Ge. cbn [bind].
    rewrite Gl. cbn [bind].
    assert (Eb : pairs acts = (pairs os ++ map (pair o) ts) ++ [(o, args)]).
    { rewrite E, pairs_app, pairs_cons, Et, map_app. cbn [map]. unfold PlannerLoops.pairs at 2. cbn [flat_map].
      rewrite app_nil_r, app_assoc. reflexivity. }
    rewrite Eb in Ex, F |- *.
    apply (try_back (length os) (iter_at (length ts) args) (cu_child c) st _ _ []
             (fun ch st' => cursor_back L p f n (mkCursor (length os) (iter_at (length ts) args) ch) st')); auto.
    - exists os, o, [], ts, args, []. cbn [cu_action cu_param map app]. auto 12.
    - intros Px ch st' Oc' Rs' S'. apply (back_found f); auto.
      + apply Exists_app in Ex as [Ex|Ex]; [exact Ex|]. inversion Ex as [? ? H|? ? H]; [congruence|inversion H].
      + rewrite app_length in F. cbn in F. lia.
  Qed.

  (** ** Positions *)
  Notation kids l := (map child_of (filter prod l)).
  Definition at_pos (j : nat) (w : cursor * store) : Prop :=
    R (snd w) /\ okc (cu_child (fst w)) /\
    ((exists b x a, stands (fst w) b x a /\ prod x = true /\ cu_child (fst w) = Some (child_of x) /\ j = length (filter prod b)) \/
     (cu_action (fst w) = length acts /\ j = length (filter prod (pairs acts)))).

  Lemma filter_none l : Forall (fun x => prod x = false) l -> filter prod l = [].
  Proof. induction 1 as [|x l E _ IH]; cbn; auto. rewrite E. exact IH. Qed.

  Lemma found_pos b a r : pairs acts = b ++ a -> found b a r -> exists w, r = Ok w /\ at_pos (length (filter prod b)) w.
  Proof.
    intros Sp [(a1 & x & a2 & c & st & -> & Fa & Px & -> & S & H & Rs & Oc)|(Fa & c & st & -> & Ea & Rs & Oc)].
    - exists (c, st). split; auto. split; [auto|]. split; [auto|]. left. exists (b ++ a1), x, a2.
      rewrite filter_app, (filter_none _ Fa), app_nil_r. auto.
    - exists (c, st). split; auto. split; [auto|]. split; [auto|]. right. split; auto.
      rewrite Sp, filter_app, (filter_none _ Fa), app_nil_r. auto.
  Qed.

  Lemma found_back_pos b a r : found_back b a r -> exists w, r = Ok w /\ at_pos (pred (length (filter prod b))) w.
  Proof.
    intros (b1 & x & b2 & c & st & -> & Fb & Px & -> & S & H & Rs & Oc). exists (c, st). split; auto.
    split; [auto|]. split; [auto|]. left. exists b1, x, (b2 ++ a). split; [auto|]. split; [auto|]. split; [auto|].
    rewrite filter_app. cbn [filter]. rewrite Px, (filter_none _ Fb), app_length. cbn. lia.
  Qed.

  Lemma some_prod l : (0 < length (filter prod l))%nat -> Exists (fun x => prod x = true) l.
  Proof.
    induction l as [|x l IH]; cbn; [lia|]. destruct (prod x) eqn:E; [left; auto|right; auto].
  Qed.

  Lemma begin_pos f st : acts <> [] -> okc None -> R st -> (S (length (pairs acts) + length acts) < f)%nat ->
    exists w, cursor_begin L p f n st = Ok w /\ at_pos 0 w.
  Proof. intros. apply (found_pos [] (pairs acts)); auto. apply begin_found; auto. Qed.

  Lemma next_pos f j w : at_pos j w -> (j < length (filter prod (pairs acts)))%nat -> (S (length (pairs acts) + length acts) < f)%nat ->
    exists w', cursor_next L p f n (fst w) (snd w) = Ok w' /\ at_pos (S j) w'.
  Proof.
    intros (Rs & Oc & [(b & x & a & S & Px & _ & ->)|(_ & ->)]) Lj F; [|lia].
    pose proof (stands_split _ _ _ _ S) as Sp.
    destruct (found_pos (b ++ [x]) a (cursor_next L p f n (fst w) (snd w))) as (w' & Ew & Hw).
    - rewrite <- app_assoc. exact Sp.
    - apply next_stands; auto.
    - exists w'. split; auto. rewrite filter_app, app_length in Hw. cbn [filter] in Hw. rewrite Px in Hw. cbn in Hw.
      rewrite Nat.add_1_r in Hw. exact Hw.
  Qed.

  Lemma prev_pos f j w : at_pos (S j) w -> (length (pairs acts) <= f)%nat ->
    exists w', cursor_prev L p f n (fst w) (snd w) = Ok w' /\ at_pos j w'.
  Proof.
    intros (Rs & Oc & [(b & x & a & S & Px & _ & Ej)|(Ea & Ej)]) F.
    - destruct (found_back_pos b (x :: a) (cursor_prev L p f n (fst w) (snd w))) as (w' & Ew & Hw).
      + apply prev_found; auto. apply some_prod. lia.
      + exists w'. rewrite <- Ej in Hw. auto.
    - destruct (found_back_pos (pairs acts) [] (cursor_prev L p f n (fst w) (snd w))) as (w' & Ew & Hw).
      + apply prev_end; auto. apply some_prod. lia.
      + exists w'. rewrite <- Ej in Hw. auto.
  Qed.

  Lemma pos_child j w : at_pos j w ->
    (j < length (kids (pairs acts)) /\ at_end p (fst w) = false /\ cu_child (fst w) = nth_error (kids (pairs acts)) j)%nat \/
    (j = length (kids (pairs acts)) /\ at_end p (fst w) = true).
  Proof.
    intros (_ & _ & [(b & x & a & S & Px & Hc & ->)|(Ea & ->)]); rewrite map_length; unfold at_end.
    - left. rewrite (stands_split _ _ _ _ S), filter_app, map_app. cbn [filter]. rewrite Px. cbn [map].
      rewrite app_length. cbn [length]. split; [lia|]. split.
      + pose proof S as (os1 & o & os2 & ts1 & args & ts2 & E & _ & Ek & _).
        apply Nat.eqb_neq. rewrite Ek, (act_last _ _ _ E). lia.
      + rewrite nth_error_app2 by (rewrite map_length; lia). rewrite map_length, Nat.sub_diag. exact Hc.
    - right. rewrite Ea, Nat.eqb_refl. auto.
  Qed.
End Cursor.
