(** The iterator over the children gives the nodes of [node_children] (C70). *)
From Coq Require Import String List Bool NArith ZArith Arith Lia.
From Verif.Model Require Import Base Object Proposition State CombinationGenerator ParameterGenerator Syntax Formula
  Effects Derived Consistency Text Pddl Planner PlannerSteps.
From Verif.Spec Require Import SetSpec TypingSpec FormulaSpec EffectSpec DerivedSpec TextSpec PddlSpec PlannerSpec CartesianSpec
  CursorSpec.
From Verif.Proofs Require Import CombinationFacts CombinationMoves ParameterFacts StateFacts StateHistory FormulaFacts EffectFacts
  EffectLink EffectTheorems DerivedFacts TextFacts PddlFacts PddlTheorems PddlListing PddlHistory PlannerLoops PlannerFacts
  PlannerCursor.
Import ListNotations.
Local Open Scope string_scope.
Local Open Scope list_scope.

Lemma cart_at {A} (options : list (list A)) ts1 a ts2 : cart options = ts1 ++ a :: ts2 ->
  combination_at options (Z.of_nat (length ts1)) = Some a.
Proof.
  intros E. unfold combination_at. rewrite (proj2 (Z.ltb_ge _ _)) by lia.
  rewrite Nat2Z.id, E, nth_error_app2, Nat.sub_diag by lia. reflexivity.
Qed.

Lemma gen_facts_none om params both : param_types om params = [] ->
  exists g, gen_facts om params [] both g.
Proof.
  intros E. exists (mkGen [] [] 0%Z). constructor.
  - unfold param_gen. rewrite E. reflexivity.
  - reflexivity.
  - reflexivity.
  - intros [|? ?] ? ? ? H; discriminate.
  - intros [|? ?] ? H; discriminate.
  - intros [|? ?] ? ? ? H; discriminate.
  - intros _ [|? ?] ? H; discriminate.
Qed.

Lemma gen_facts_good om params opts (both : Prop) : param_types om params = opts -> good_options opts ->
  (both -> Forall (fun o => (2 <= length o)%nat) (tl opts)) -> exists g, gen_facts om params (cart opts) both g.
Proof.
  intros E G Hb. pose proof (cart_length opts) as CL. pose proof G as (N & NE & LT).
  exists (mkGen opts (groups_spec opts) (product opts)). constructor.
  - unfold param_gen. rewrite E. apply make_gen_ok; auto.
  - destruct (at_zero opts G) as [c C]. unfold gen_begin. rewrite (new_iter_ok null_object opts G _ _ C).
    unfold combination_at in C. cbn in C. destruct (cart opts); cbn in *; congruence.
  - rewrite (end_iter null_object opts G). rewrite CL. reflexivity.
  - intros ts1 a a' ts2 Et. rewrite Nat2Z.inj_succ, <- Z.add_1_r. apply (move_ok null_object opts G).
    + eapply cart_at; eauto.
    + replace (Z.of_nat (length ts1) + 1)%Z with (Z.of_nat (length (ts1 ++ [a]))) by (rewrite app_length; cbn; lia).
      eapply cart_at. rewrite Et, <- app_assoc. reflexivity.
  - intros ts1 a Et. rewrite Nat2Z.inj_succ, <- Z.add_1_r.
    assert (X : (product opts = Z.of_nat (length ts1) + 1)%Z) by (rewrite <- CL, Et, app_length; cbn; lia).
    apply (move_out null_object opts G); lia.
  - intros ts1 a a' ts2 Et.
    replace (Z.of_nat (length ts1)) with (Z.of_nat (S (length ts1)) + -1)%Z by lia. apply (move_ok null_object opts G).
    + replace (S (length ts1)) with (length (ts1 ++ [a])) by (rewrite app_length; cbn; lia).
      eapply cart_at. rewrite Et, <- app_assoc. reflexivity.
    + replace (Z.of_nat (S (length ts1)) + -1)%Z with (Z.of_nat (length ts1)) by lia. eapply cart_at; eauto.
  - intros B ts1 a Et. pose proof (rbegin_ok null_object opts G a (Hb B)) as H.
    assert (X : (product opts - 1 = Z.of_nat (length ts1))%Z) by (rewrite <- CL, Et, app_length; cbn; lia).
    rewrite X in H. unfold gen_rbegin in H. rewrite (end_iter null_object opts G) in H. cbn [bind] in H.
    rewrite CL. apply H. eapply cart_at; eauto.
Qed.

Section Children.
  Context `{SH : StdHash} (L : limits) (p : pddl) (ar : string -> nat) (rank : nat -> nat) (drank : string -> nat).
  Context (G : good_domain L p ar rank drank).
  Notation objs := (pd_symbols p).
  Notation reachable := (reachable_store objs ar (pd_axioms p)).
  Context (Hcount : Forall (fun o => (tuple_count objs (op_params o) < 2 ^ 31)%Z) (pd_ops p)).
  Context (Ha : pd_actions p <> []) (Hnames : Forall (fun o => oname o <> "") objs).
  Notation all := (pairs (arg_tuples p) (pd_actions p)).

  Lemma gen_ok o : In o (pd_actions p) -> exists g, gen_facts (pd_om p) (op_params o) (arg_tuples p o) (steppable p) g.
  Proof.
    intros I. apply filter_In in I as [I Ax]. unfold arg_tuples.
    pose proof (param_types_spec objs (op_params o) (gd_types _ _ _ _ _ G) []) as T. cbn zeta in T.
    rewrite (gd_om _ _ _ _ _ G).
    destruct (op_params o) as [|v vs] eqn:E; [apply gen_facts_none; reflexivity|].
    rewrite <- E in T |- *. set (opts := map _ (op_params o)) in T. change (tuples objs (op_params o)) with (cart opts).
    cbn [app] in T. destruct (existsb _ opts) eqn:Ex.
    - rewrite (existsb_empty_product _ Ex). apply gen_facts_none. exact T.
    - apply gen_facts_good; [exact T| |].
      + split; [subst opts; rewrite E; discriminate|]. split; [apply existsb_empty_false; auto|].
        rewrite Forall_forall in Hcount. exact (Hcount o I).
      + intros B. destruct (B o I ltac:(destruct (op_is_axiom o); [discriminate|auto])) as (_ & _ & F).
        subst opts. rewrite E in F |- *. cbn [map tl] in F |- *. apply Forall_map. exact F.
  Qed.

  Lemma some_tuple : steppable p -> forall o, In o (pd_actions p) -> arg_tuples p o <> [].
  Proof.
    intros B o I. apply filter_In in I as [I Ax].
    destruct (B o I ltac:(destruct (op_is_axiom o); [discriminate|auto])) as (N & F & _).
    unfold arg_tuples. destruct (op_params o) as [|v vs] eqn:E; [congruence|]. rewrite <- E in *. clear N E v vs.
    unfold tuples. intros H. pose proof (cart_length (map (fun v => objects_of objs (type_name (otype v))) (op_params o))) as CL.
    rewrite H in CL. cbn in CL. pose proof (product_pos (map (fun v => objects_of objs (type_name (otype v))) (op_params o))) as P.
    rewrite <- CL in P. enough (0 < 0)%Z by lia. apply P. apply Forall_map. exact F.
  Qed.

  Lemma named o args : In (o, args) all -> null_arg args = false.
  Proof.
    unfold pairs. rewrite in_flat_map. intros (o' & _ & J). apply in_map_iff in J as (a & [= -> ->] & J).
    unfold arg_tuples in J. destruct (op_params o) as [|v vs]; [destruct J|]. apply tuples_In in J.
    unfold null_arg. apply not_true_iff_false. intros E. apply existsb_exists in E as (x & Ix & E). apply String.eqb_eq in E.
    rewrite Forall_forall in Hnames. apply (Hnames x); auto.
    unfold well_typed in J. revert Ix. clear - J. induction J as [|a b l l' H _ IH]; intros []; auto.
    subst. apply H.
  Qed.

  (** What an attempt does depends on neither the sibling nor the calls before. *)
  Lemma try_canon n o args child st : In o (pd_ops p) -> length (op_params o) = length args -> reachable st -> sibling n child ->
    orel (fun x y => fst x = fst y /\ sibling n (fst (snd x)) /\ reachable (snd (snd x)) /\
            (fst x = true -> fst (snd x) = fst (snd y)))
      (try_tuple L p n o args child st) (try_tuple L p n o args None no_store).
  Proof.
    intros I Ln Rs Sb. unfold try_tuple. apply orel_same. intros [] _; [|cbn; intuition discriminate].
    eapply orel_bind; [apply (act_history L p ar rank drank G o args (nd_state n) st no_store I Ln Rs); constructor|].
    intros [k [s1 st3]] [k' [s1' st4]] (_ & E & Ra & Rb). cbn in E, Ra, Rb. subst s1'.
    apply orel_same. intros [b s2] _.
    assert (Ec : child_node n child s2 (action_to_string o args) = child_node n None s2 (action_to_string o args)).
    { destruct child as [c|]; cbn in *; auto. destruct Sb as [-> ->]. reflexivity. }
    cbn -[child_node]. rewrite Ec. cbn. auto.
  Qed.

  Definition yields_child (n : node) (x : op * list object) : bool :=
    match try_tuple L p n (fst x) (snd x) None no_store with Ok (b, _) => b | _ => false end.
  Definition its_child (n : node) (x : op * list object) : node :=
    match try_tuple L p n (fst x) (snd x) None no_store with Ok (_, (Some c, _)) => c | _ => n end.

  Lemma walk_canon n : forall l child st cs st', (forall o args, In (o, args) l -> In o (pd_ops p) /\ length (op_params o) = length args) ->
    reachable st -> sibling n child -> walk L p n l child st = Ok (cs, st') ->
    cs = map (its_child n) (filter (yields_child n) l) /\
    Forall (fun x => exists r, try_tuple L p n (fst x) (snd x) None no_store = Ok r) l.
  Proof.
    induction l as [|[o args] l IH]; intros child st cs st' Hl Rs Sb; cbn [walk]; [intros [= <- _]; auto|].
    destruct (Hl o args (or_introl eq_refl)) as [Io Ln].
    pose proof (try_canon n o args child st Io Ln Rs Sb) as T.
    destruct (try_tuple L p n o args child st) as [[stop [c st1]]| | | |] eqn:E1; cbn [bind]; try discriminate.
    destruct (try_tuple L p n o args None no_store) as [[stop' [c' st2]]| | | |] eqn:E2; cbn in T; try tauto.
    destruct T as (<- & Sc & Rs1 & Hc).
    destruct (walk L p n l c st1) as [[cs2 st4]| | | |] eqn:E3; cbn [bind]; try discriminate. intros [= <- _].
    destruct (IH c st1 cs2 st4 (fun o args H => Hl o args (or_intror H)) Rs1 Sc E3) as [-> F].
    split; [|constructor; [cbn; eauto|auto]].
    assert (Y : yields_child n (o, args) = stop) by (unfold yields_child; cbn [fst snd]; rewrite E2; reflexivity).
    cbn [filter]. rewrite Y. destruct stop.
    - specialize (Hc eq_refl). subst c'. destruct (try_stop _ _ _ _ _ _ _ _ _ E1) as [x ->]. cbn [map].
      f_equal. unfold its_child. cbn [fst snd]. rewrite E2. reflexivity.
    - destruct c; reflexivity.
  Qed.

  Lemma try_facts n : Forall (fun x => exists r, try_tuple L p n (fst x) (snd x) None no_store = Ok r) all ->
    forall x child st, In x all -> sibling n child -> reachable st -> exists ch st',
    null_arg (snd x) = false /\ try_tuple L p n (fst x) (snd x) child st = Ok (yields_child n x, (ch, st')) /\
    reachable st' /\ sibling n ch /\ (yields_child n x = true -> ch = Some (its_child n x)).
  Proof.
    intros F [o args] child st I Sb Rs. rewrite Forall_forall in F. destruct (F _ I) as [[b [c' st2]] E2]. cbn [fst snd] in *.
    destruct (pairs_typed p o args I) as [Io Ln]. pose proof (try_canon n o args child st Io Ln Rs Sb) as T.
    rewrite E2 in T. destruct (try_tuple L p n o args child st) as [[stop [c st1]]| | | |] eqn:E1; cbn in T; try tauto.
    destruct T as (-> & Sc & Rs1 & Hc). exists c, st1. split; [eapply named; eauto|].
    unfold yields_child, its_child. cbn [fst snd]. rewrite E2. split; [auto|]. split; [auto|]. split; [auto|].
    intros ->. specialize (Hc eq_refl). subst c'. destruct (try_stop _ _ _ _ _ _ _ _ _ E1) as [x ->]. reflexivity.
  Qed.

  Section Node.
    Context (K : nat) (n : node) (cs : list node) (st0 st0' : store).
    Context (HK : enough p <= K) (R0 : reachable st0) (E0 : node_children L p K n st0 = Ok (cs, st0')).
    Notation pos := (at_pos p (arg_tuples p) reachable (sibling n) (yields_child n) (its_child n)).

    Lemma these_children : cs = map (its_child n) (filter (yields_child n) all) /\
      Forall (fun x => exists r, try_tuple L p n (fst x) (snd x) None no_store = Ok r) all.
    Proof.
      pose proof E0 as E. rewrite (children_walk L p (arg_tuples p) (arg_tuples_ok L p ar rank drank G Hcount) K n st0 Ha) in E by exact HK.
      apply (walk_canon n all None st0 cs st0'); [apply pairs_typed|exact R0|exact Logic.I|exact E].
    Qed.
    Lemma number_of_children : length (filter (yields_child n) all) = length cs.
    Proof. rewrite (proj1 these_children) at 1. rewrite map_length. reflexivity. Qed.

    Lemma begin_at st : reachable st -> exists w, cursor_begin L p K n st = Ok w /\ pos 0 w.
    Proof.
      intros Rs. eapply begin_pos; eauto.
      - apply gen_ok.
      - apply try_facts, these_children.
      - exact Logic.I.
    Qed.
    Lemma end_at st : reachable st -> exists c, cursor_end p = Ok c /\ pos (length cs) (c, st).
    Proof.
      intros Rs. assert (exists o os, pd_actions p = o :: os) as (o & os & E) by (destruct (pd_actions p); [congruence|eauto]).
      destruct (gen_ok o) as (g & [Gm Gb _ _ _ _ _]); [rewrite E; left; auto|].
      unfold cursor_end, act_gen. rewrite E. cbn [nth_error]. rewrite Gm. cbn [bind]. rewrite Gb. cbn [bind].
      eexists. split; [reflexivity|]. split; [exact Rs|]. split; [exact Logic.I|]. right. cbn [fst cu_action].
      rewrite E. split; [reflexivity|]. rewrite <- E. symmetry. apply number_of_children.
    Qed.
    Lemma next_at j w : pos j w -> j < length cs -> exists w', cursor_next L p K n (fst w) (snd w) = Ok w' /\ pos (S j) w'.
    Proof.
      intros H Lj. eapply next_pos; eauto.
      - apply gen_ok.
      - apply try_facts, these_children.
      - rewrite number_of_children. exact Lj.
    Qed.
    Lemma prev_at j w : steppable p -> pos (S j) w -> exists w', cursor_prev L p K n (fst w) (snd w) = Ok w' /\ pos j w'.
    Proof.
      intros B H. eapply (prev_pos L p n (arg_tuples p) (steppable p)); eauto.
      - apply gen_ok.
      - apply try_facts, these_children.
      - apply some_tuple; auto.
      - unfold enough in HK. lia.
    Qed.
    Lemma pos_shows j w : pos j w -> at_end p (fst w) = Nat.eqb j (length cs) /\
      (j < length cs -> cu_child (fst w) = nth_error cs j).
    Proof.
      intros H. apply pos_child in H. rewrite <- (proj1 these_children) in H.
      destruct H as [(Lj & -> & ->)|(-> & ->)].
      - split; [symmetry; apply Nat.eqb_neq; lia|auto].
      - rewrite Nat.eqb_refl. split; [auto|lia].
    Qed.

    Lemma forward_at k : forall j w, pos j w -> j + k <= length cs -> exists w',
      cursor_steps L p K n (repeat true k) w = Ok w' /\ pos (j + k) w'.
    Proof.
      induction k as [|k IH]; intros j w H Lk; cbn [repeat].
      - exists w. rewrite Nat.add_0_r. auto.
      - destruct (next_at j w H ltac:(lia)) as (w1 & E1 & H1). unfold cursor_steps. cbn [foldM]. rewrite E1. cbn [bind].
        destruct (IH (S j) w1 H1 ltac:(lia)) as (w2 & E2 & H2). exists w2. split; [exact E2|].
        replace (j + S k) with (S j + k) by lia. exact H2.
    Qed.

    Lemma steps_at bs : steppable p -> forall j w, pos j w -> stays_within (Z.of_nat j) bs (length cs) -> exists k w',
      cursor_steps L p K n bs w = Ok w' /\ pos k w' /\ moved (Z.of_nat j) bs = Z.of_nat k.
    Proof.
      intros B. induction bs as [|b bs IH]; intros j w H W.
      - exists j, w. auto.
      - assert (X : exists j1 w1, (if b then cursor_next L p K n (fst w) (snd w) else cursor_prev L p K n (fst w) (snd w)) = Ok w1 /\
          pos j1 w1 /\ (Z.of_nat j1 = if b then Z.of_nat j + 1 else Z.of_nat j - 1)%Z).
        { specialize (W 1 ltac:(cbn; lia)). cbn in W. destruct b.
          - destruct (next_at j w H ltac:(lia)) as (w1 & E1 & H1). exists (S j), w1. split; [auto|]. split; [auto|lia].
          - destruct j as [|j]; [lia|]. destruct (prev_at j w B H) as (w1 & E1 & H1). exists j, w1. split; [auto|]. split; [auto|lia]. }
        destruct X as (j1 & w1 & E1 & H1 & Ej).
        destruct (IH j1 w1 H1) as (k & w2 & E2 & H2 & M).
        + intros m Lm. specialize (W (S m) ltac:(cbn; lia)). cbn [firstn] in W. unfold moved in W |- *. cbn [fold_left] in W.
          rewrite Ej. exact W.
        + exists k, w2. unfold cursor_steps. cbn [foldM]. rewrite E1. cbn [bind]. split; [exact E2|]. split; [auto|].
          rewrite <- M, Ej. reflexivity.
    Qed.
  End Node.

  Lemma C70_forward_lemma : exists K0, forall K n cs st0 st0' st, K0 <= K -> reachable st0 -> reachable st ->
    node_children L p K n st0 = Ok (cs, st0') -> forall k, k <= length cs ->
    exists w c st', cursor_begin L p K n st = Ok w /\ cursor_steps L p K n (repeat true k) w = Ok (c, st') /\
      at_end p c = Nat.eqb k (length cs) /\ (k < length cs -> cu_child c = nth_error cs k) /\ reachable st'.
  Proof.
    exists (enough p). intros K n cs st0 st0' st HK R0 Rs E0 k Lk.
    destruct (begin_at K n cs st0 st0' HK R0 E0 st Rs) as (w & Ew & Hw).
    destruct (forward_at K n cs st0 st0' HK R0 E0 k 0 w Hw Lk) as ([c st'] & Es & Hs).
    exists w, c, st'. split; [auto|]. split; [auto|].
    destruct (pos_shows K n cs st0 st0' HK R0 E0 _ _ Hs) as [H1 H2]. split; [auto|]. split; [auto|]. apply Hs.
  Qed.

  Lemma C70_steps_lemma : steppable p ->
    exists K0, forall K n cs st0 st0' st (back : bool) bs, K0 <= K -> reachable st0 -> reachable st ->
    node_children L p K n st0 = Ok (cs, st0') ->
    let start := if back then Z.of_nat (length cs) else 0%Z in
    stays_within start bs (length cs) ->
    exists w c st', (if back then let* e := cursor_end p in Ok (e, st) else cursor_begin L p K n st) = Ok w /\
      cursor_steps L p K n bs w = Ok (c, st') /\
      at_end p c = (moved start bs =? Z.of_nat (length cs))%Z /\
      (at_end p c = false -> cu_child c = nth_error cs (Z.to_nat (moved start bs))) /\ reachable st'.
  Proof.
    intros B. exists (enough p). intros K n cs st0 st0' st back bs HK R0 Rs E0 start W.
    assert (X : exists w j, (if back then let* e := cursor_end p in Ok (e, st) else cursor_begin L p K n st) = Ok w /\
      at_pos p (arg_tuples p) reachable (sibling n) (yields_child n) (its_child n) j w /\ start = Z.of_nat j).
    { destruct back.
      - destruct (end_at K n cs st0 st0' HK R0 E0 st Rs) as (c & E & H). rewrite E. exists (c, st), (length cs). auto.
      - destruct (begin_at K n cs st0 st0' HK R0 E0 st Rs) as (w & E & H). exists w, 0. auto. }
    destruct X as (w & j & Ew & Hw & Ej). rewrite Ej in W |- *.
    destruct (steps_at K n cs st0 st0' HK R0 E0 bs B j w Hw W) as (k & [c st'] & Es & Hs & M).
    exists w, c, st'. split; [auto|]. split; [auto|]. rewrite M, Nat2Z.id.
    destruct (pos_shows K n cs st0 st0' HK R0 E0 _ _ Hs) as [H1 H2]. cbn [fst] in H1, H2. rewrite H1.
    split; [|split; [|apply Hs]].
    - destruct (Nat.eqb_spec k (length cs)); symmetry; [apply Z.eqb_eq|apply Z.eqb_neq]; lia.
    - intros N. apply H2. apply Nat.eqb_neq in N.
      pose proof (W (length bs) (le_n _)) as Wl. rewrite firstn_all, M in Wl. lia.
  Qed.
End Children.
