(** Loops over the children of nodes in Python (C80). *)
From Coq Require Import String List Bool NArith ZArith Arith Lia.
From Verif.Model Require Import Base Object Proposition State CombinationGenerator ParameterGenerator Syntax Formula
  Effects Derived Consistency Text Pddl Planner PlannerSteps PyNode.
From Verif.Spec Require Import SetSpec TypingSpec FormulaSpec EffectSpec DerivedSpec TextSpec PddlSpec PlannerSpec SearchSpec PyNodeSpec.
From Verif.Proofs Require Import FormulaFacts PlannerFacts PlannerCursor SearchFacts PlannerTheorems CursorTheorems.
Import ListNotations.
Local Open Scope string_scope.
Local Open Scope list_scope.

Lemma nth_app_old {A} (l : list A) x k y : nth_error l k = Some y -> nth_error (l ++ [x]) k = Some y.
Proof. intros H. rewrite nth_error_app1; auto. apply nth_error_Some. congruence. Qed.
Lemma nth_app_case {A} (l : list A) x k y : nth_error (l ++ [x]) k = Some y ->
  nth_error l k = Some y \/ k = length l /\ y = x.
Proof.
  destruct (Nat.lt_ge_cases k (length l)) as [H|H].
  - rewrite nth_error_app1; auto.
  - rewrite nth_error_app2 by auto. destruct (k - length l) as [|j] eqn:E; cbn; [|destruct j; discriminate].
    intros [= <-]. right. split; [lia|auto].
Qed.
Lemma nth_app_new {A} (l : list A) x : nth_error (l ++ [x]) (length l) = Some x.
Proof. rewrite nth_error_app2, Nat.sub_diag by auto. reflexivity. Qed.
Lemma nth_in {A} (l : list A) k y : nth_error l k = Some y -> k < length l.
Proof. intros H. apply nth_error_Some. congruence. Qed.

Section Programs.
  Context `{SH : StdHash} (L : limits) (p : pddl) (ar : string -> nat) (rank : nat -> nat) (drank : string -> nat).
  Context (G : good_domain L p ar rank drank).
  Notation objs := (pd_symbols p).
  Notation reachable := (reachable_store objs ar (pd_axioms p)).
  Context (Hcount : Forall (fun o => (tuple_count objs (op_params o) < 2 ^ 31)%Z) (pd_ops p)).
  Context (Ha : pd_actions p <> []) (Hnames : Forall (fun o => oname o <> "") objs) (Ho : ordinary_domain p).
  Context (K : nat) (HK : enough p <= K).
  Notation kids := (kids L p K).
  Notation pos n := (at_pos p (arg_tuples p) reachable (sibling n) (yields_child L p n) (its_child L p n)).

  Lemma kids_here n : node_ok n -> exists st, node_children L p K n no_store = Ok (kids n, st).
  Proof.
    intros N. destruct (kids_ok L p ar rank drank G Hcount Ha K HK Ho n N) as (st & E & _). eauto.
  Qed.
  Lemma kids_good n c : node_ok n -> In c (kids n) -> node_ok c.
  Proof.
    intros N I. destruct (kids_here n N) as (st & E).
    apply (children_inv L p ar rank drank G Hcount Ha K HK n no_store _ _ N (rs_none _ _ _) E); auto.
  Qed.

  Lemma begin_here n st : node_ok n -> reachable st -> exists c st', cursor_begin L p K n st = Ok (c, st') /\ pos n 0 (c, st').
  Proof.
    intros N R. destruct (kids_here n N) as (s & E).
    destruct (begin_at L p ar rank drank G Hcount Ha Hnames K n _ _ _ HK (rs_none _ _ _) E st R) as ([c st'] & Eb & Pb). eauto.
  Qed.
  Lemma end_here n st : node_ok n -> reachable st -> exists c, cursor_end p = Ok c.
  Proof.
    intros N R. destruct (kids_here n N) as (s & E).
    destruct (end_at L p ar rank drank G Hcount Ha K n _ _ _ HK (rs_none _ _ _) E st R) as (c & Eb & _). eauto.
  Qed.
  Lemma next_here n j c st : node_ok n -> pos n j (c, st) -> j < length (kids n) ->
    exists c' st', cursor_next L p K n c st = Ok (c', st') /\ pos n (S j) (c', st').
  Proof.
    intros N P Lj. destruct (kids_here n N) as (s & E).
    destruct (next_at L p ar rank drank G Hcount Ha Hnames K n _ _ _ HK (rs_none _ _ _) E j _ P Lj) as ([c' st'] & Eb & Pb). eauto.
  Qed.
  Lemma shows_here n j c st : node_ok n -> pos n j (c, st) -> at_end p c = Nat.eqb j (length (kids n)) /\
    (j < length (kids n) -> cu_child c = nth_error (kids n) j).
  Proof.
    intros N P. destruct (kids_here n N) as (s & E).
    exact (pos_shows L p ar rank drank G Hcount Ha K n _ _ _ HK (rs_none _ _ _) E j _ P).
  Qed.
  Lemma pos_store n j c st st' : reachable st' -> pos n j (c, st) -> pos n j (c, st').
  Proof. intros R (_ & H). split; [exact R|exact H]. Qed.

  (** ** The objects of the program and their abstraction *)
  Definition parent_rel (acells : list a_cell) (x : node_ref) (n : node) (from : option (nat * nat)) : Prop :=
    match x with
    | Owned k => from = None /\ nth_error acells k = Some (ANode n)
    | ViewOf k => exists g0 n' f gk o, from = Some (k, S g0) /\ nth_error acells k = Some (AIter n' f gk o) /\
        S g0 <= gk /\ nth_error (kids n') g0 = Some n
    end.
  Definition cell_rel (acells : list a_cell) (st : store) (c : py_cell) (a : a_cell) : Prop :=
    match c, a with
    | CNode n, ANode n' => n' = n /\ node_ok n
    | CIter x cu waiting, AIter n from g over =>
        node_ok n /\ parent_rel acells x n from /\
        (if over then waiting = true /\ g = length (kids n) /\ at_end p cu = true
         else match g with
              | 0 => waiting = true /\ pos n 0 (cu, st)
              | S j => waiting = false /\ S j <= length (kids n) /\ pos n j (cu, st)
              end)
    | _, _ => False
    end.
  Definition world_rel (acells : list a_cell) (w : py_world) : Prop :=
    pw_pddl w = true /\ reachable (pw_store w) /\ Forall2 (cell_rel acells (pw_store w)) (pw_cells w) acells.

  Lemma rel_at acells cells st k a : Forall2 (cell_rel acells st) cells acells -> nth_error acells k = Some a ->
    exists c, nth_error cells k = Some c /\ cell_rel acells st c a.
  Proof.
    generalize (cell_rel acells st). intros R F. revert k. induction F as [|c b cs bs H _ IH]; intros [|k]; cbn; try discriminate.
    - intros [= <-]. eauto.
    - apply IH.
  Qed.
  Lemma rel_length acells cells st : Forall2 (cell_rel acells st) cells acells -> length cells = length acells.
  Proof. generalize (cell_rel acells st). intros R. induction 1; cbn; auto. Qed.

  (** The abstract objects only grow, and iterators only move forward. *)
  Definition grows (a b : list a_cell) : Prop := forall k,
    match nth_error a k with
    | Some (ANode n) => nth_error b k = Some (ANode n)
    | Some (AIter n f g o) => exists g' o', g <= g' /\ nth_error b k = Some (AIter n f g' o')
    | None => True
    end.
  Lemma grows_app a x : grows a (a ++ [x]).
  Proof.
    intros k. destruct (nth_error a k) as [[n|n f g o]|] eqn:E; auto.
    - apply nth_app_old; auto.
    - exists g, o. split; auto. apply nth_app_old; auto.
  Qed.
  Lemma grows_refl a : grows a a.
  Proof. intros k. destruct (nth_error a k) as [[n|n f g o]|] eqn:E; eauto. Qed.
  Lemma grows_set a i n f g o g' o' : nth_error a i = Some (AIter n f g o) -> g <= g' -> grows a (set_nth i (AIter n f g' o') a).
  Proof.
    intros E Lg k. destruct (Nat.eq_dec i k) as [<-|Ne].
    - rewrite E. exists g', o'. split; auto. apply set_nth_same. eapply nth_in; eauto.
    - rewrite set_nth_other by auto. apply grows_refl.
  Qed.

  Lemma parent_grows a b x n f : grows a b -> parent_rel a x n f -> parent_rel b x n f.
  Proof.
    intros Gr. destruct x as [k|k]; cbn; specialize (Gr k).
    - intros [-> E]. rewrite E in Gr. auto.
    - intros (g0 & n' & f' & gk & o & -> & E & Lg & En). rewrite E in Gr. destruct Gr as (g' & o' & Lg' & E').
      exists g0, n', f', g', o'. repeat split; auto. lia.
  Qed.
  Lemma cell_grows a b st st' c x : grows a b -> reachable st' -> cell_rel a st c x -> cell_rel b st' c x.
  Proof.
    intros Gr R. destruct c as [n|y cu wt], x as [n'|n' f g o]; cbn; auto. intros (N & P & H).
    split; auto. split; [eapply parent_grows; eauto|]. destruct o; auto. destruct g.
    - destruct H as [-> H]. split; auto. eapply pos_store; eauto.
    - destruct H as (-> & Lg & H). split; auto. split; auto. eapply pos_store; eauto.
  Qed.
  Lemma cells_grow a b st st' cs xs : grows a b -> reachable st' -> Forall2 (cell_rel a st) cs xs -> Forall2 (cell_rel b st') cs xs.
  Proof. intros Gr R. generalize (cell_grows a b st st'). intros X. induction 1; constructor; auto. Qed.

  Lemma rel_set (R : py_cell -> a_cell -> Prop) cs xs i c x : Forall2 R cs xs -> R c x -> Forall2 R (set_nth i c cs) (set_nth i x xs).
  Proof. intros F H. revert i. induction F; intros [|i]; cbn; constructor; auto. Qed.

  Lemma shown_here acells w x n : world_rel acells w -> a_shows kids acells x = Some n ->
    shown_node (pw_cells w) x = Ok n /\ node_ok n.
  Proof.
    intros (_ & _ & F) H. destruct x as [k|k]; cbn in H |- *.
    - destruct (nth_error acells k) as [[m|m f g o]|] eqn:E; try discriminate. injection H as ->.
      destruct (rel_at _ _ _ _ _ F E) as (c & -> & Hc). destruct c; cbn in Hc; [|contradiction]. destruct Hc as [-> N]. auto.
    - destruct (nth_error acells k) as [[m|m f [|g] [|]]|] eqn:E; try discriminate.
      destruct (rel_at _ _ _ _ _ F E) as (c & -> & Hc). destruct c as [|y cu wt]; cbn in Hc; [contradiction|].
      destruct Hc as (N & _ & _ & Lg & P). destruct (shows_here m g cu _ N P) as [_ Hs].
      rewrite (Hs Lg), H. split; auto. eapply kids_good; eauto. eapply nth_error_In; eauto.
  Qed.

  Lemma parent_still acells w x n from : world_rel acells w -> node_ok n -> parent_rel acells x n from -> a_still acells from = true ->
    shown_node (pw_cells w) x = Ok n.
  Proof.
    intros W N P St. destruct x as [k|k]; cbn in P.
    - destruct P as [-> E]. apply (shown_here acells w (Owned k) n W). cbn. rewrite E. reflexivity.
    - destruct P as (g0 & n' & f & gk & o & -> & E & Lg & En). cbn in St. rewrite E in St.
      destruct o; [discriminate|]. apply (shown_here acells w (ViewOf k) n W). cbn. rewrite E.
      destruct gk as [|g]; [lia|]. apply Nat.eqb_eq in St. replace g with g0 by lia. exact En.
  Qed.

  Lemma step_rel acells w o r acells' : world_rel acells w -> a_step kids o acells = Some (r, acells') ->
    exists w', pn_step L p K o w = Ok (r, w') /\ world_rel acells' w'.
  Proof.
    intros W H. pose proof W as (Wp & Ws & F). destruct o as [x|x|i|x|]; cbn [a_step pn_step] in *.
    - destruct (a_shows kids acells x) as [n|] eqn:E; [|discriminate]. injection H as <- <-.
      destruct (shown_here acells w x n W E) as [-> N]. cbn [bind]. rewrite (rel_length _ _ _ F).
      eexists. split; [reflexivity|]. split; [auto|]. split; [auto|]. cbn [pw_cells pw_store].
      apply Forall2_app; [eapply cells_grow; eauto; apply grows_app|]. constructor; [|constructor]. cbn. auto.
    - destruct (a_shows kids acells x) as [n|] eqn:E; [|discriminate]. injection H as <- <-.
      destruct (shown_here acells w x n W E) as [-> N]. cbn [bind]. rewrite Wp.
      destruct (begin_here n (pw_store w) N Ws) as (c & st' & -> & Pb). cbn [bind].
      destruct (end_here n (pw_store w) N Ws) as (ce & ->). cbn [bind]. rewrite (rel_length _ _ _ F).
      assert (R' : reachable st') by apply Pb.
      eexists. split; [reflexivity|]. split; [auto|]. split; [auto|]. cbn [pw_cells pw_store].
      apply Forall2_app; [eapply cells_grow; eauto; apply grows_app|]. constructor; [|constructor]. cbn.
      split; [auto|]. split; [|auto]. eapply parent_grows; [apply grows_app|].
      destruct x as [k|k]; cbn in E |- *.
      + destruct (nth_error acells k) as [[m|m f g o]|]; try discriminate. injection E as ->. auto.
      + unfold a_given. destruct (nth_error acells k) as [[m|m f [|g] [|]]|] eqn:Ek; try discriminate.
        exists g, m, f, (S g), false. auto.
    - rewrite Wp. unfold pn_next. destruct (nth_error acells i) as [[|n from g over]|] eqn:E; try discriminate.
      destruct (rel_at _ _ _ _ _ F E) as (c & Ec & Hc). rewrite Ec. destruct c as [|x cu wt]; [destruct Hc|].
      cbn in Hc. destruct Hc as (N & Pr & Hc).
      assert (X : exists c' st', (if wt then Ok (cu, pw_store w) else
          let* n0 := shown_node (pw_cells w) x in cursor_next L p K n0 cu (pw_store w)) = Ok (c', st') /\
        reachable st' /\ (over = true /\ at_end p c' = true /\ g = length (kids n) \/
          over = false /\ g <= length (kids n) /\ pos n g (c', st'))).
      { destruct over.
        - destruct Hc as (-> & -> & En). exists cu, (pw_store w). split; auto.
        - destruct g as [|j].
          + destruct Hc as [-> P]. exists cu, (pw_store w). split; auto. split; auto. right. split; auto. split; [lia|auto].
          + destruct Hc as (-> & Lj & P). cbn [Nat.eqb orb] in H.
            destruct (a_still acells from) eqn:St; [|discriminate].
            rewrite (parent_still acells w x n from W N Pr St). cbn [bind].
            destruct (next_here n j cu _ N P Lj) as (c' & st' & -> & P'). exists c', st'. split; auto. split; [apply P'|]. auto. }
      destruct X as (c' & st' & -> & R' & X). cbn [bind]. rewrite Wp.
      assert (Ht : (Nat.eqb g 0 || over || a_still acells from)%bool = true) by
        (destruct (Nat.eqb g 0 || over || a_still acells from)%bool; [auto|discriminate]).
      rewrite Ht in H.
      assert (Y : forall g' o', g <= g' ->
        cell_rel (set_nth i (AIter n from g' o') acells) st' (CIter x c' (at_end p c')) (AIter n from g' o') ->
        world_rel (set_nth i (AIter n from g' o') acells)
          (mkPyWorld (set_nth i (CIter x c' (at_end p c')) (pw_cells w)) true st')).
      { intros g' o' Lg Hr. split; [auto|]. split; [auto|]. cbn [pw_cells pw_store].
        apply rel_set; [|exact Hr]. eapply cells_grow; eauto. eapply grows_set; eauto. }
      destruct X as [(-> & En & ->)|(-> & Lg & P')].
      + assert (nth_error (kids n) (length (kids n)) = None) as Eo by (apply nth_error_None; auto).
        rewrite Eo in H. injection H as <- <-. rewrite En in *. eexists. split; [reflexivity|].
        apply Y; auto. cbn. split; auto. split; [|auto].
        eapply parent_grows; [|exact Pr]. eapply grows_set; eauto.
      + destruct (shows_here n g c' _ N P') as [En _]. destruct (nth_error (kids n) g) as [y|] eqn:Eg.
        * injection H as <- <-. apply nth_in in Eg. replace (Nat.eqb g (length (kids n))) with false in En
            by (symmetry; apply Nat.eqb_neq; lia). rewrite En in *. eexists. split; [reflexivity|].
          apply Y; auto. cbn. split; auto. split; [|auto].
          eapply parent_grows; [|exact Pr]. eapply grows_set; eauto.
        * injection H as <- <-. apply nth_error_None in Eg. assert (g = length (kids n)) as -> by lia.
          rewrite Nat.eqb_refl in En. rewrite En in *. eexists. split; [reflexivity|].
          apply Y; auto. cbn. split; auto. split; [|auto].
          eapply parent_grows; [|exact Pr]. eapply grows_set; eauto.
    - destruct (a_shows kids acells x) as [n|] eqn:E; [|discriminate]. injection H as <- <-.
      destruct (shown_here acells w x n W E) as [-> N]. cbn [bind]. rewrite Wp.
      eexists. split; [reflexivity|exact W].
    - discriminate.
  Qed.

  Lemma run_rel ops : forall acells w rs, world_rel acells w -> a_run kids ops acells = Some rs ->
    exists w', pn_run L p K ops w = Ok (rs, w').
  Proof.
    induction ops as [|o ops IH]; intros acells w rs W H; cbn [a_run pn_run] in *.
    - injection H as <-. eauto.
    - destruct (a_step kids o acells) as [[r acells']|] eqn:E; [|discriminate].
      destruct (step_rel _ _ _ _ _ W E) as (w1 & -> & W1). cbn [bind].
      destruct (a_run kids ops acells') as [rs'|] eqn:Er; [|discriminate]. cbn in H. injection H as <-.
      destruct (IH _ _ _ W1 Er) as (w2 & ->). cbn [bind]. eauto.
  Qed.

  Lemma start_rel roots st : Forall node_ok roots -> reachable st -> world_rel (map ANode roots) (pn_start roots st).
  Proof.
    intros F R. split; [reflexivity|]. split; [exact R|]. cbn [pw_cells pw_store pn_start].
    generalize (map ANode roots) at 1. intros a. induction F; cbn; constructor; cbn; auto.
  Qed.
End Programs.

(** ** Loops of the abstract machine *)
Section Loops.
  Context (kids : node -> list node).

  Lemma stops n m g : nth_error (kids n) g = None -> forall cells over, nth_error cells 1 = Some (AIter n None g over) ->
    a_run kids (repeat (PnNext 1) m) cells = Some (repeat PnStop m).
  Proof.
    intros E. induction m as [|m IH]; intros cells over Ec; cbn [repeat a_run a_step]; auto.
    rewrite Ec. cbn [a_still]. rewrite orb_true_r. rewrite E. rewrite (IH _ true); [reflexivity|].
    apply set_nth_same. apply nth_in in Ec. exact Ec.
  Qed.

  Lemma loop_shows n m : forall l g, skipn g (kids n) = l ->
    a_run kids (concat (repeat [PnNext 1; PnShow (ViewOf 1)] (length l)) ++ repeat (PnNext 1) m) [ANode n; AIter n None g false] =
    Some (flat_map (fun c => [PnRef (ViewOf 1); PnValue c]) l ++ repeat PnStop m).
  Proof.
    induction l as [|c l IH]; intros g E; cbn [length repeat concat flat_map app].
    - eapply stops; [|reflexivity]. apply nth_error_None.
      pose proof (skipn_length g (kids n)) as X. rewrite E in X. cbn in X. lia.
    - assert (Ec : nth_error (kids n) g = Some c).
      { rewrite <- (firstn_skipn g (kids n)), E. rewrite nth_error_app2; rewrite firstn_length_le; try lia.
        - rewrite Nat.sub_diag. reflexivity.
        - pose proof (skipn_length g (kids n)) as X. rewrite E in X. cbn in X. lia.
        - pose proof (skipn_length g (kids n)) as X. rewrite E in X. cbn in X. lia. }
      cbn [a_run a_step nth_error a_still]. rewrite orb_true_r, Ec. cbn [set_nth a_run a_step a_shows nth_error].
      rewrite Ec. cbn [option_map]. rewrite (IH (S g)); [reflexivity|].
      pose proof (firstn_skipn g (kids n)) as F. rewrite E in F.
      assert (Lg : length (firstn g (kids n)) = g).
      { apply firstn_length_le. pose proof (skipn_length g (kids n)) as X. rewrite E in X. cbn in X. lia. }
      rewrite <- F, skipn_app, Lg. replace (S g - g) with 1 by lia.
      rewrite skipn_all2 by lia. reflexivity.
  Qed.

  (** Copies made in the loop stay. *)
  Lemma shows_all vs : forall pre (a : list a_cell) mid, length a = pre ->
    a_run kids (map (fun j => PnShow (Owned j)) (seq pre (length vs))) (a ++ map ANode vs ++ mid) = Some (map PnValue vs).
  Proof.
    induction vs as [|v vs IH]; intros pre a mid La; cbn [length seq map]; auto. cbn [a_run a_step a_shows].
    rewrite nth_error_app2 by lia. rewrite La, Nat.sub_diag. cbn [map app nth_error].
    specialize (IH (S pre) (a ++ [ANode v]) mid). rewrite <- app_assoc in IH. cbn [app] in IH.
    rewrite IH; [reflexivity|]. rewrite app_length. cbn. lia.
  Qed.
  Lemma copies_shown n vs0 : forall l g, skipn g (kids n) = l -> vs0 = firstn g (kids n) -> length vs0 = g ->
    a_run kids (concat (repeat [PnNext 1; PnCopy (ViewOf 1)] (length l)) ++ PnNext 1 ::
        map (fun j => PnShow (Owned j)) (seq 2 (length (kids n))))
      ([ANode n; AIter n None g false] ++ map ANode vs0) =
    Some (flat_map (fun j => [PnRef (ViewOf 1); PnRef (Owned j)]) (seq (2 + g) (length l)) ++ PnStop :: map PnValue (kids n)).
  Proof.
    intros l. revert vs0. induction l as [|c l IH]; intros vs0 g E Ev Lv; cbn [length repeat concat flat_map app seq].
    - assert (Lg : length (kids n) <= g).
      { pose proof (skipn_length g (kids n)) as X. rewrite E in X. cbn in X. lia. }
      rewrite firstn_all2 in Ev by auto. subst vs0.
      cbn [a_run a_step nth_error a_still]. rewrite orb_true_r.
      rewrite (proj2 (nth_error_None (kids n) g) Lg). cbn [set_nth app].
      pose proof (shows_all (kids n) 2 [ANode n; AIter n None g true] [] eq_refl) as X.
      rewrite app_nil_r in X. cbn [app] in X. rewrite X. reflexivity.
    - pose proof (firstn_skipn g (kids n)) as F. rewrite E, <- Ev in F.
      assert (Ec : nth_error (kids n) g = Some c).
      { rewrite <- F, nth_error_app2, Lv, Nat.sub_diag by lia. reflexivity. }
      cbn [a_run a_step nth_error a_still app]. rewrite orb_true_r, Ec. cbn [set_nth a_run a_step a_shows nth_error app].
      rewrite Ec. cbn [length]. rewrite map_length, Lv.
      specialize (IH (vs0 ++ [c]) (S g)). rewrite map_app in IH. cbn [map app] in IH |- *. rewrite IH; [reflexivity|..].
      + rewrite <- F, skipn_app, Lv. replace (S g - g) with 1 by lia. rewrite skipn_all2 by lia. reflexivity.
      + rewrite <- F, firstn_app, Lv. replace (S g - g) with 1 by lia. rewrite firstn_all2 by lia. reflexivity.
      + rewrite app_length. cbn. lia.
  Qed.
End Loops.

Section Theorems.
  Context `{SH : StdHash} (L : limits) (p : pddl) (ar : string -> nat) (rank : nat -> nat) (drank : string -> nat).
  Context (G : good_domain L p ar rank drank).
  Notation objs := (pd_symbols p).
  Notation reachable := (reachable_store objs ar (pd_axioms p)).
  Context (Hcount : Forall (fun o => (tuple_count objs (op_params o) < 2 ^ 31)%Z) (pd_ops p)).
  Context (Ha : pd_actions p <> []) (Hnames : Forall (fun o => oname o <> "") objs) (Ho : ordinary_domain p).

  Lemma C80_programs_lemma : exists K0, forall K, K0 <= K -> exists kids : node -> list node,
    (forall n, built (nd_state n) -> Forall built (nd_ancestors n) ->
      (forall t, represents (nd_state n) t -> successors L p n t (applicable p t) (kids n)) /\
      forall st, reachable st -> exists st', node_children L p K n st = Ok (kids n, st')) /\
    forall roots ops rs st, Forall (fun n => built (nd_state n) /\ Forall built (nd_ancestors n)) roots -> reachable st ->
      a_run kids ops (map ANode roots) = Some rs -> exists w', pn_run L p K ops (pn_start roots st) = Ok (rs, w').
  Proof.
    exists (enough p). intros K HK. exists (kids L p K). split.
    - intros n B F. destruct (kids_ok L p ar rank drank G Hcount Ha K HK Ho n (conj B F)) as (s & E & Su). split; auto.
      intros st R. destruct (children_history L p ar rank drank G Hcount K n no_store st _ _ HK Ha (rs_none _ _ _) R E) as (_ & st2 & _ & E2).
      eauto.
    - intros roots ops rs st F R A. eapply (run_rel L p ar rank drank G Hcount Ha Hnames Ho K HK); [|exact A].
      apply (start_rel L p ar K); auto.
  Qed.

  Lemma C80_loop_lemma : exists K0, forall K n cs st0 st0' st m, K0 <= K -> built (nd_state n) -> Forall built (nd_ancestors n) ->
    reachable st0 -> reachable st -> node_children L p K n st0 = Ok (cs, st0') ->
    (exists w', pn_run L p K (PnIter (Owned 0) :: concat (repeat [PnNext 1; PnShow (ViewOf 1)] (length cs)) ++ repeat (PnNext 1) m)
        (pn_start [n] st) =
      Ok (PnIterator 1 :: flat_map (fun c => [PnRef (ViewOf 1); PnValue c]) cs ++ repeat PnStop m, w')) /\
    exists w', pn_run L p K (PnIter (Owned 0) :: concat (repeat [PnNext 1; PnCopy (ViewOf 1)] (length cs)) ++ PnNext 1 ::
        map (fun j => PnShow (Owned j)) (seq 2 (length cs))) (pn_start [n] st) =
      Ok (PnIterator 1 :: flat_map (fun j => [PnRef (ViewOf 1); PnRef (Owned j)]) (seq 2 (length cs)) ++ PnStop :: map PnValue cs, w').
  Proof.
    destruct C80_programs_lemma as (K0 & H). exists K0. intros K n cs st0 st0' st m HK B F R0 R E.
    destruct (H K HK) as (kids & Hk & Hr). destruct (Hk n B F) as [_ Hc]. destruct (Hc st0 R0) as (st1 & E1).
    assert (cs = kids n) as -> by congruence. split; apply Hr; auto; cbn [map a_run a_step a_shows nth_error length app].
    - rewrite (loop_shows kids n m (kids n) 0 eq_refl). reflexivity.
    - pose proof (copies_shown kids n [] (kids n) 0 eq_refl eq_refl eq_refl) as X. cbn [map app Nat.add] in X. rewrite X. reflexivity.
  Qed.
End Theorems.

(** ** Without the Pddl *)
Section Dropped.
  Context `{SH : StdHash} (L : limits) (p : pddl) (K : nat).
  Definition harmless (o : pn_op) (r : pn_result) : Prop :=
    match o with
    | PnCopy _ | PnDrop => True
    | PnShow _ => exists n, r = PnValue n /\ st_elements (nd_state n) = []
    | PnIter _ | PnNext _ => False
    end.
  Lemma step_dropped o w r w' : pw_pddl w = false -> pn_step L p K o w = Ok (r, w') -> pw_pddl w' = false /\ harmless o r.
  Proof.
    intros E H. destruct o as [x|x|i|x|]; cbn [pn_step] in H; try rewrite E in H.
    - destruct (shown_node (pw_cells w) x); try discriminate. injection H as <- <-. cbn. auto.
    - destruct (shown_node (pw_cells w) x); discriminate.
    - discriminate.
    - destruct (shown_node (pw_cells w) x) as [n| | | |]; try discriminate. cbn [bind] in H.
      destruct (st_elements (nd_state n)) eqn:Es; [|discriminate]. injection H as <- <-. split; auto. cbn. eauto.
    - injection H as <- <-. cbn. auto.
  Qed.
  Lemma run_dropped ops : forall w rs w', pw_pddl w = false -> pn_run L p K ops w = Ok (rs, w') -> Forall2 harmless ops rs.
  Proof.
    induction ops as [|o ops IH]; intros w rs w' E H; cbn [pn_run] in H.
    - injection H as <- <-. constructor.
    - destruct (pn_step L p K o w) as [[r w1]| | | |] eqn:Es; try discriminate. cbn [bind] in H.
      destruct (pn_run L p K ops w1) as [[rs1 w2]| | | |] eqn:Er; try discriminate. cbn [bind] in H. injection H as <- <-.
      destruct (step_dropped _ _ _ _ E Es) as [E1 Hh]. constructor; eauto.
  Qed.
  Lemma C80_dropped_lemma ops1 : forall ops2 w rs w', pn_run L p K (ops1 ++ PnDrop :: ops2) w = Ok (rs, w') ->
    exists rs1 rs2, rs = rs1 ++ PnDone :: rs2 /\ length rs1 = length ops1 /\
      Forall2 (fun o r => match o with
                          | PnCopy _ | PnDrop => True
                          | PnShow _ => exists n, r = PnValue n /\ st_elements (nd_state n) = []
                          | PnIter _ | PnNext _ => False
                          end) ops2 rs2.
  Proof.
    induction ops1 as [|o ops IH]; intros ops2 w rs w' H; cbn [app pn_run] in H.
    - cbn [pn_step bind] in H. destruct (pn_run L p K ops2 _) as [[rs1 w2]| | | |] eqn:Er; try discriminate.
      cbn [bind] in H. injection H as <- <-. exists [], rs1. split; auto. split; auto.
      eapply run_dropped; [|exact Er]. reflexivity.
    - destruct (pn_step L p K o w) as [[r w1]| | | |] eqn:Es; try discriminate. cbn [bind] in H.
      destruct (pn_run L p K (ops ++ PnDrop :: ops2) w1) as [[rs1 w2]| | | |] eqn:Er; try discriminate. cbn [bind] in H.
      injection H as <- <-. destruct (IH _ _ _ _ Er) as (a & b & -> & La & Hf). exists (r :: a), b. cbn. split; auto.
  Qed.
End Dropped.
