(** Lemmas behind C48, C49 and C62: paths of the planner. *)
From Coq Require Import Ascii String List Bool NArith ZArith Arith Lia.
From Verif.Model Require Import Base Object Proposition State ParameterGenerator Syntax Formula
  Effects Derived Consistency Text Search Pddl Planner.
From Verif.Spec Require Import SetSpec TypingSpec FormulaSpec EffectSpec DerivedSpec TextSpec AxiomSpec SearchSpec PddlSpec PlannerSpec.
From Verif.Proofs Require Import StateFacts StateHistory FormulaFacts EffectFacts EffectLink EffectTheorems
  DerivedFacts TextFacts AxiomLoops SearchFacts SearchTheorems SearchInv PddlFacts PddlTheorems PddlListing PddlHistory
  PlannerLoops PlannerFacts.
Import ListNotations.
Local Open Scope string_scope.
Local Open Scope list_scope.

(** ** No State twice, in any domain *)
Section Distinct.
  Context `{SH : StdHash} (L : limits) (p : pddl).

  Definition fresh_child (n c : node) : Prop :=
    sibling n (Some c) /\ built (nd_state c) /\ has_state (nd_state c) (nd_ancestors c) = false.

  Lemma try_fresh n o args child st stop c st' : built (nd_state n) -> sibling n child ->
    try_tuple L p n o args child st = Ok (stop, (c, st')) ->
    sibling n c /\ (stop = true -> exists x, c = Some x /\ fresh_child n x).
  Proof.
    intros B Sb E. unfold try_tuple in E. apply bind_Ok in E as (v & _ & E). destruct v.
    - apply bind_Ok in E as ([k [s1 st1]] & E1 & E). apply bind_Ok in E as ([b s2] & E2 & E).
      injection E as <- <- <-. pose proof (child_sibling n child s2 (action_to_string o args) Sb) as Sc. split; auto.
      intros H. eexists. split; [reflexivity|]. split; auto. split.
      + apply apply_state_built in E1; auto. apply derived_all_built in E2; auto. destruct child; exact E2.
      + apply negb_true_iff in H. exact H.
    - injection E as <- <- <-. split; auto. discriminate.
  Qed.

  Definition it_ok (n : node) (it : node_it) : Prop :=
    sibling n (it_child it) /\ (it_actions it <> [] -> exists x, it_child it = Some x /\ fresh_child n x).

  Lemma next_fresh n : built (nd_state n) -> forall f it st it' st', sibling n (it_child it) ->
    next_child L p f n it st = Ok (it', st') -> it_ok n it'.
  Proof.
    intros B. induction f as [|f IH]; intros [[|o os] ps child] st it' st' Sb E; cbn [next_child it_actions it_params it_child] in *.
    - injection E as <- <-. (split; [assumption|cbn; congruence]).
    - discriminate.
    - injection E as <- <-. (split; [assumption|cbn; congruence]).
    - assert (Check : forall o' args l ps' it' st', 
        (let* ' (stop, (c, st')) := try_tuple L p n o' args child st in
         let it' := mkNodeIt l ps' c in
         if stop : bool then Ok (it', st') else next_child L p f n it' st') = Ok (it', st') -> it_ok n it').
      { intros o' args l ps' it2 st2 E2. apply bind_Ok in E2 as ([stop [c st3]] & E3 & E2).
        destruct (try_fresh _ _ _ _ _ _ _ _ B Sb E3) as [Sc Fc]. destruct stop.
        - injection E2 as <- <-. (split; [assumption|cbn; auto]).
        - apply IH in E2; auto. }
      destruct ps as [|q [|args ps]].
      + destruct os as [|o' os]; [injection E as <- <-; split; auto; cbn; congruence|].
        apply bind_Ok in E as (ts & _ & E). destruct ts as [|args ts]; [apply IH in E; auto|].
        eapply Check; exact E.
      + apply IH in E; auto.
      + eapply Check; exact E.
  Qed.

  Lemma children_fresh K n st cs st' : built (nd_state n) -> node_children L p K n st = Ok (cs, st') ->
    forall c, In c cs -> fresh_child n c.
  Proof.
    intros B E. unfold node_children in E. apply bind_Ok in E as ([it st1] & E1 & E).
    assert (H : it_ok n it).
    { unfold begin_children in E1. destruct (pd_actions p) as [|o os]; [discriminate|].
      apply bind_Ok in E1 as (ts & _ & E1). destruct ts as [|args ts].
      - eapply next_fresh; [exact B| |exact E1]. exact I.
      - apply bind_Ok in E1 as ([stop [c st3]] & E3 & E2).
        destruct (try_fresh _ _ _ _ _ _ _ _ B (Logic.I : sibling n None) E3) as [Sc Fc]. destruct stop.
        + injection E2 as <- <-. (split; [assumption|cbn; auto]).
        + eapply next_fresh; [exact B| |exact E2]. exact Sc. }
    clear E1. revert H E. generalize K at 2. intros k. revert it st1 cs st'.
    induction k as [|k IH]; intros it st1 cs st' H E; cbn [collect] in E.
    - destruct (it_actions it); [|discriminate]. injection E as <- <-. intros c [].
    - destruct H as [Sb Hc]. destruct (it_actions it); [injection E as <- <-; intros c []|].
      destruct Hc as (x & Ex & Fx); [discriminate|]. rewrite Ex in E. cbn [bind] in E.
      apply bind_Ok in E as ([it2 st2] & E2 & E). apply bind_Ok in E as ([cl st3] & E3 & E). injection E as <- <-.
      assert (H2 : it_ok n it2) by (eapply next_fresh; [exact B|exact Sb|exact E2]).
      intros c [<-|Ic]; eauto.
  Qed.

  Lemma eqb_false_among s s' : built s -> built s' -> st_eqb s s' = false ->
    forall t, represents s t -> represents s' t -> False.
  Proof. intros _ _ E t R R'. rewrite (same_set s s' t R R') in E. discriminate. Qed.

  (** Nothing on the rest of the path is the set of the node or of an ancestor. *)
  Lemma path_fresh K goal yes d n plan : plan_from (seen_child (node_children L p K)) yes goal d n plan ->
    built (nd_state n) -> Forall built (nd_ancestors n) ->
    exists rest, plan = n :: rest /\
      (forall m t, In m rest -> represents (nd_state m) t -> ~ known n t) /\
      ForallOrdPairs (fun a b => forall t, represents (nd_state a) t -> ~ represents (nd_state b) t) plan.
  Proof.
    induction 1 as [d n Hy|d n c rest Hn Hk _ IH]; intros B F.
    - exists []. split; auto. split; [intros m t []|]. constructor; constructor.
    - destruct Hk as (w & l & w' & E & Ic). destruct (children_fresh _ _ _ _ _ B E c Ic) as ([Ea _] & Bc & Hs).
      assert (Fc : Forall built (nd_ancestors c)) by (rewrite Ea; apply add_built; auto).
      destruct (IH Bc Fc) as (r & -> & H & O).
      assert (Kn : forall m t, In m (c :: r) -> represents (nd_state m) t -> ~ known n t).
      { intros m t Im Rm Kn. unfold known in Kn. apply (add_among (nd_state n) (nd_ancestors n) t B F) in Kn. rewrite <- Ea in Kn.
        destruct Im as [<-|Im].
        - apply (has_among _ t _ Rm Fc) in Kn. congruence.
        - apply (H m t Im Rm). destruct Kn as (s & Is & Rs). exists s. split; [right|]; auto. }
      exists (c :: r). split; auto. split; auto. constructor; auto.
      apply Forall_forall. intros m Im t Rn Rm. apply (Kn m t Im Rm). exists (nd_state n). split; [left|]; auto.
  Qed.

  Lemma C48_lemma K d s plan : built s ->
    yields (node_goal p) (node_children L p K) d (root_node s) (fun _ => True) plan ->
    forall i j a b t, nth_error plan i = Some a -> nth_error plan j = Some b ->
      represents (nd_state a) t -> represents (nd_state b) t -> i = j.
  Proof.
    intros B Y.
    assert (Hp : seen_plan (node_goal p) (node_children L p K) d (root_node s) plan).
    { refine (yields_plan _ _ _ _ (fun _ => True) (fun _ => True) _ _ Logic.I plan Y).
      intros n w cs w' _ _ E. split; auto. intros c Ic. split; auto. exists w, cs, w'. auto. }
    revert Hp.
    intros Hp. destruct (path_fresh _ _ _ _ _ _ Hp B (Forall_nil _)) as (r & -> & _ & O).
    revert O. generalize (root_node s :: r). clear. intros l O.
    assert (X : forall i j a b t, i < j -> nth_error l i = Some a -> nth_error l j = Some b ->
      represents (nd_state a) t -> represents (nd_state b) t -> False).
    { induction O as [|x l F _ IH]; intros [|i] [|j] a b t Lt Ea Eb Ra Rb; try lia; try discriminate.
      - cbn in Ea, Eb. injection Ea as ->. rewrite Forall_forall in F. apply nth_error_In in Eb. exact (F b Eb t Ra Rb).
      - cbn in Ea, Eb. eapply (IH i j a b t); eauto. lia. }
    intros i j a b t Ea Eb Ra Rb. destruct (Nat.lt_trichotomy i j) as [H|[H|H]]; auto; exfalso.
    - exact (X i j a b t H Ea Eb Ra Rb).
    - exact (X j i b a t H Eb Ea Rb Ra).
  Qed.
End Distinct.

(** ** Plans *)
Section Domain.
  Context `{SH : StdHash} (L : limits) (p : pddl) (ar : string -> nat) (rank : nat -> nat) (drank : string -> nat).
  Context (G : good_domain L p ar rank drank).
  Notation objs := (pd_symbols p).
  Notation reachable := (reachable_store objs ar (pd_axioms p)).
  Context (Hcount : Forall (fun o => (tuple_count objs (op_params o) < 2 ^ 31)%Z) (pd_ops p)).
  Context (Ha : pd_actions p <> []).
  Context (K : nat) (HK : enough p <= K).

  Lemma successors_In n t l cs c : successors L p n t l cs -> In c cs -> exists o args t',
    In (o, args) l /\ results_in L p o args t t' /\ ~ known n t' /\ represents (nd_state c) t' /\
    nd_action c = action_to_string o args /\ nd_depth c = S (nd_depth n) /\
    (forall u, among (nd_ancestors c) u <-> known n u).
  Proof.
    induction 1 as [|o args r t' cs Re Kn _ IH|o args r t' x cs Re Kn Rx Ax Dx An _ IH]; intros Ic.
    - destruct Ic.
    - destruct (IH Ic) as (o' & a' & u & I & H). exists o', a', u. split; [right; auto|auto].
    - destruct Ic as [->|Ic].
      + exists o, args, t'. split; [left; auto|auto 12].
      + destruct (IH Ic) as (o' & a' & u & I & H). exists o', a', u. split; [right; auto|auto].
  Qed.
  Lemma successors_all n t l cs : successors L p n t l cs -> forall o args, In (o, args) l -> exists t',
    results_in L p o args t t' /\
    (known n t' \/ exists c, In c cs /\ represents (nd_state c) t' /\ forall u, among (nd_ancestors c) u <-> known n u).
  Proof.
    induction 1 as [|o args r t' cs Re Kn _ IH|o args r t' x cs Re Kn Rx Ax Dx An _ IH]; intros o' a' I.
    - destruct I.
    - destruct I as [[= <- <-]|I]; eauto.
    - destruct I as [[= <- <-]|I].
      + exists t'. split; auto. right. exists x. split; [left; auto|auto 12].
      + destruct (IH o' a' I) as (u & Ru & [Ku|(c & Ic & Hc)]); exists u; split; auto.
        right. exists c. split; [right; auto|auto].
  Qed.

  (** A child, for any set the node has. *)
  Definition call_to (a b : node) : Prop := forall t, represents (nd_state a) t -> exists o args t',
    listable p t o args /\ results_in L p o args t t' /\ represents (nd_state b) t' /\
    nd_action b = action_to_string o args.

  Lemma children_inv n w cs w' : node_ok n -> reachable w -> node_children L p K n w = Ok (cs, w') ->
    reachable w' /\ forall c, In c cs -> node_ok c /\ call_to n c.
  Proof.
    intros Nn Rs E.
    assert (X : forall t, represents (nd_state n) t -> reachable w' /\ successors L p n t (applicable p t) cs).
    { intros t R. destruct (children_ok L p ar rank drank G Hcount K n w t HK Ha Nn R Rs) as [(cs' & st' & E' & Rs' & Su)|[E' _]];
        rewrite E in E'; [|discriminate]. injection E' as <- <-. auto. }
    split; [apply (X (set_in (nd_state n))), set_in_represents, Nn|]. intros c Ic.
    split.
    - destruct Nn as [B F]. destruct (children_fresh L p K n w cs w' B E c Ic) as ([Ea _] & Bc & _).
      split; auto. rewrite Ea. apply add_built; auto.
    - intros t R. destruct (X t R) as [_ Su]. destruct (successors_In _ _ _ _ _ Su Ic) as (o & args & t' & I & Re & _ & Rc & Ac & _).
      apply applicable_In in I. exists o, args, t'. auto.
  Qed.

  Section Text.
    Context (Hwords : Forall word (map oname objs)) (Hops : Forall (fun o => free_of "("%char (op_name o)) (pd_ops p))
      (Nops : NoDup (map op_name (pd_ops p))).

    Lemma path_ok d n plan : plan_from call_to (seen_goal (node_goal p)) (seen_other (node_goal p)) d n plan ->
      forall t, represents (nd_state n) t -> exists rest, plan = n :: rest /\ plan_ok L p (map nd_action rest) t.
    Proof.
      induction 1 as [d n Hg|d n c rest Hn Hk _ IH]; intros t R.
      - exists []. split; auto. constructor. unfold seen_goal, node_goal in Hg.
        rewrite (goal_agree L p ar rank drank G _ t R) in Hg. injection Hg as Hg. apply goal_b; auto.
      - destruct (Hk t R) as (o & args & t' & Li & Re & Rc & Ac). destruct (IH t' Rc) as (r & -> & Po).
        exists (c :: r). split; auto. cbn [map]. rewrite Ac. econstructor; eauto.
        + eapply listable_calls; eauto.
        + apply Li.
    Qed.

    Lemma root_ok s : built s -> node_ok (root_node s).
    Proof. intros B. split; [exact B|constructor]. Qed.

    (** Plans of all searches from a State are plans for its set. *)
    Lemma C49_from_lemma d s t plan : represents s t ->
      yields (node_goal p) (node_children L p K) d (root_node s) reachable plan ->
      length (plan_calls plan) <= d /\ plan_ok L p (plan_calls plan) t.
    Proof.
      intros R Y.
      assert (X : plan_from call_to (seen_goal (node_goal p)) (seen_other (node_goal p)) d (root_node s) plan).
      { refine (yields_plan _ _ _ _ node_ok reachable _ _ (root_ok s (proj1 R)) plan Y). exact children_inv. }
      split.
      - unfold plan_calls. rewrite map_length. clear -X. induction X as [d n Hg|d n c rest Hn Hk X IH]; cbn; [lia|].
        destruct X; cbn in *; lia.
      - destruct (path_ok _ _ _ X t R) as (r & -> & Po). exact Po.
    Qed.

    Lemma C49_lemma st0 : 0 < l_rounds L -> built (pd_init p) ->
      is_valid_state (pd_om p) (pd_axioms p) (l_cascade L) (pd_init p) st0 = Ok true ->
      exists root, make_planner L p (pd_init p, st0) = Ok (root, st0) /\
      forall d plan st, yields (node_goal p) (node_children L p K) d root reachable plan -> reachable st ->
      length (plan_calls plan) <= d /\ exists st', is_valid_plan L p (plan_calls plan) st = Ok (true, st').
    Proof.
      intros Lr B V. exists (root_node (pd_init p)). split.
      - unfold make_planner. destruct (l_rounds L) as [|r]; [lia|]. rewrite (C30_returns_lemma _ _ _ r _ _ B V). reflexivity.
      - intros d plan st Y Rs. pose proof (set_in_represents _ B) as R.
        destruct (C49_from_lemma d _ _ plan R Y) as [Ln Po]. split; auto.
        apply (C41_lemma L p ar rank drank G _ st _ Rs R); auto.
    Qed.
  End Text.

  (** ** Shortest plans *)
  Fixpoint reach (k : nat) (t : aset) : Prop :=
    match k with
    | O => goal_true p t
    | S j => exists o args t', listable p t o args /\ results_in L p o args t t' /\ reach j t'
    end.

  Lemma plan_reach cs : forall t, plan_ok L p cs t -> Forall (plain_call p) cs -> reach (length cs) t.
  Proof.
    induction cs as [|c cs IH]; intros t Po F; inversion Po as [|? ? o args ? t' C P Re Po']; subst; cbn [length reach]; auto.
    apply Forall_cons_iff in F as [(o' & args' & C' & A & N) F].
    apply parse_calls in C as E. apply parse_calls in C' as E'. rewrite E in E'. injection E' as <- <-.
    destruct (calls_typed _ _ _ _ C) as [Io Wt]. exists o, args, t'. split; [|auto]. repeat (split; auto).
  Qed.

  Lemma goal_ext s t u : represents s t -> represents s u -> goal_true p t -> goal_true p u.
  Proof.
    intros R R'. rewrite !goal_b. pose proof (goal_agree L p ar rank drank G s t R) as E.
    rewrite (goal_agree L p ar rank drank G s u R') in E. injection E as ->. auto.
  Qed.
  Lemma pre_ext s t u o args : In o (pd_ops p) -> well_typed objs (op_params o) args -> represents s t -> represents s u ->
    precondition p o args t -> precondition p o args u.
  Proof.
    intros I W R R'. rewrite !precondition_b. pose proof (well_typed_length _ _ _ W) as Ln.
    pose proof (valid_agree L p ar rank drank G o args s t I Ln R) as E.
    rewrite (valid_agree L p ar rank drank G o args s u I Ln R') in E. injection E as ->. auto.
  Qed.
  Lemma results_exts s t u o args t' : In o (pd_ops p) -> length (op_params o) = length args ->
    represents s t -> represents s u -> results_in L p o args t t' ->
    exists s', represents s' t' /\ results_in L p o args u (set_in s') /\
      forall u', results_in L p o args u u' -> represents s' u'.
  Proof.
    intros I Ln R R' Re.
    pose proof (step_ok L p ar rank drank G o args s no_store t I Ln (rs_none _ _ _) R) as S1.
    pose proof (step_ok L p ar rank drank G o args s no_store u I Ln (rs_none _ _ _) R') as S2.
    pose proof Re as (n & t1 & E & _). rewrite E in S1. destruct S1 as (c & s' & st' & E1 & _ & _ & B1 & _ & H1).
    destruct (effects_give L p o args u) as [[m t2]|e| | |]; try tauto.
    - destruct S2 as (c2 & s2 & st2 & E2 & _ & _ & B2 & Re2 & H2). rewrite E1 in E2. injection E2 as <- <-.
      exists s'. auto.
    - destruct S2 as (_ & E2 & _). congruence.
  Qed.
  Lemma reach_ext k : forall s t u, represents s t -> represents s u -> reach k t -> reach k u.
  Proof.
    induction k as [|k IH]; intros s t u R R'; cbn [reach]; [apply (goal_ext s); auto|].
    intros (o & args & t' & (I & A & N & W & P) & Re & H).
    destruct (results_exts s t u o args t' I (well_typed_length _ _ _ W) R R' Re) as (s' & R1 & Re' & _).
    exists o, args, (set_in s'). split; [|split; auto].
    - repeat (split; auto). eapply (pre_ext s t u); eauto.
    - eapply IH; [exact R1| |exact H]. apply set_in_represents, R1.
  Qed.

  Context (Ho : ordinary_domain p).

  Lemma reach_dec k : forall s t, represents s t -> reach k t \/ ~ reach k t.
  Proof.
    induction k as [|k IH]; intros s t R; cbn [reach].
    - rewrite goal_b. destruct (holdsb objs t no_env (pd_goal p)); auto.
    - assert (X : forall l, incl l (applicable p t) ->
        (exists o args t', In (o, args) l /\ results_in L p o args t t' /\ reach k t') \/
        ~ (exists o args t', In (o, args) l /\ results_in L p o args t t' /\ reach k t')).
      { induction l as [|[o args] l IHl]; intros Il; [right; intros (o & args & t' & [] & _)|].
        destruct (IHl (fun x I => Il x (or_intror I))) as [(o' & a' & t' & I & H)|N]; [left; exists o', a', t'; split; [right|]; auto|].
        pose proof (Il (o, args) (or_introl eq_refl)) as I. apply applicable_In in I as (I & _ & _ & W & _).
        pose proof (well_typed_length _ _ _ W) as Ln.
        destruct (ordinary_results L p ar rank drank G o args t Ho I Ln s R) as [t' Re].
        destruct (results_exts s t t o args t' I Ln R R Re) as (s' & R1 & _ & U).
        destruct (IH s' t' R1) as [H|H]; [left; exists o, args, t'; split; [left|]; auto|].
        right. intros (o' & a' & u & [[= <- <-]|I'] & Ru & Hu); [|apply N; eauto 6].
        apply H. eapply reach_ext; [exact (U u Ru)|exact R1|exact Hu]. }
      destruct (X _ (incl_refl _)) as [(o & args & t' & I & H)|N].
      + left. apply applicable_In in I. eauto 6.
      + right. intros (o & args & t' & I & H). apply N. exists o, args, t'. rewrite applicable_In. auto.
  Qed.

  Definition is_goal (n : node) : bool := match node_goal p n with Ok b => b | _ => false end.
  Definition kids (n : node) : list node :=
    match node_children L p K n no_store with Ok (l, _) => l | _ => [] end.

  Lemma kids_ok n : node_ok n -> exists st, node_children L p K n no_store = Ok (kids n, st) /\
    forall t, represents (nd_state n) t -> successors L p n t (applicable p t) (kids n).
  Proof.
    intros Nn.
    assert (X : forall t, represents (nd_state n) t -> exists st, node_children L p K n no_store = Ok (kids n, st) /\
      successors L p n t (applicable p t) (kids n)).
    { intros t R. unfold kids.
      destruct (children_ok L p ar rank drank G Hcount K n no_store t HK Ha Nn R (rs_none _ _ _)) as [(cs & st' & -> & _ & Su)|(_ & o & args & I & N)]; eauto.
      exfalso. apply applicable_In in I as (I & _ & _ & W & _).
      destruct (ordinary_results L p ar rank drank G o args t Ho I (well_typed_length _ _ _ W) _ R) as [t' Re]. eapply N; eauto. }
    destruct (X _ (set_in_represents _ (proj1 Nn))) as (st & E & _). exists st. split; auto.
    intros t R. destruct (X t R) as (_ & _ & Su). exact Su.
  Qed.

  Lemma planner_steady : steady (node_goal p) (node_children L p K) node_ok reachable is_goal kids.
  Proof.
    constructor.
    - intros n Nn. unfold is_goal, node_goal. rewrite (goal_agree L p ar rank drank G _ _ (set_in_represents _ (proj1 Nn))). auto.
    - intros n w Nn _ Rs. destruct (kids_ok n Nn) as (st & E & _).
      destruct (children_history L p ar rank drank G Hcount K n no_store w _ _ HK Ha (rs_none _ _ _) Rs E) as (_ & st2 & R2 & E2). eauto.
    - intros n c Nn _ Ic. destruct (kids_ok n Nn) as (st & E & _).
      apply (children_inv n no_store _ _ Nn (rs_none _ _ _) E); auto.
  Qed.

  Lemma is_goal_spec n t : represents (nd_state n) t -> is_goal n = true <-> goal_true p t.
  Proof. intros R. unfold is_goal, node_goal. rewrite (goal_agree L p ar rank drank G _ t R), goal_b. tauto. Qed.

  (** A shortest way is followed by the nodes. *)
  Lemma lift k : forall n t, node_ok n -> represents (nd_state n) t -> reach k t ->
    (forall j, j < k -> ~ reach j t) -> (forall u j, among (nd_ancestors n) u -> j <= k -> ~ reach j u) ->
    exists plan, plan_in is_goal kids k n plan /\ length plan = S k.
  Proof.
    induction k as [|k IH]; intros n t Nn R Hr Hmin Hanc.
    - exists [n]. split; auto. constructor. apply (is_goal_spec n t R). exact Hr.
    - destruct Hr as (o & args & t1 & Li & Re & Hr). destruct (kids_ok n Nn) as (st & E & Su). specialize (Su t R).
      pose proof Li as (I & _ & _ & W & _).
      destruct (successors_all _ _ _ _ Su o args) as (t' & Re' & Hc); [apply applicable_In; exact Li|].
      destruct (results_exts _ t t o args t1 I (well_typed_length _ _ _ W) R R Re) as (s' & R1 & _ & U).
      pose proof (reach_ext k s' t1 t' R1 (U t' Re') Hr) as Hr'.
      assert (Hj : forall j u, known n u -> reach j u -> j <= k -> False).
      { intros j u (s & [<-|Is] & Rs) Hu Lj.
        - apply (Hmin j); [lia|]. eapply reach_ext; [exact Rs|exact R|exact Hu].
        - apply (Hanc u j); [exists s; auto|lia|auto]. }
      destruct Hc as [Kn|(c & Ic & Rc & An)]; [exfalso; eapply Hj; eauto|].
      assert (Nc : node_ok c) by (apply (children_inv n no_store _ _ Nn (rs_none _ _ _) E); auto).
      destruct (IH c t' Nc Rc Hr') as (plan & Hp & Lp).
      { intros j Lj Hj'. apply (Hmin (S j)); [lia|]. exists o, args, t'. auto. }
      { intros u j Au Lj Hu. apply An in Au. eapply Hj; eauto. }
      exists (n :: plan). split; [|cbn; auto]. econstructor; eauto.
      destruct (is_goal n) eqn:Q; auto. exfalso. apply (Hmin 0); [lia|]. apply (is_goal_spec n t R); auto.
  Qed.

  Lemma plan_in_mono k k' n plan : k <= k' -> plan_in is_goal kids k n plan -> plan_in is_goal kids k' n plan.
  Proof.
    intros Le H. revert k' Le. induction H as [k n H|k n m rest Hn Hk _ IH]; intros k' Le.
    - constructor; auto.
    - destruct k' as [|k']; [lia|]. econstructor; eauto. apply IH. lia.
  Qed.

  Lemma short_plan d s t k : represents s t -> k <= d -> reach k t ->
    exists plan, plan_in is_goal kids d (root_node s) plan /\ length plan <= S k.
  Proof.
    intros R Lk Hr.
    assert (X : exists j, j <= k /\ reach j t /\ forall i, i < j -> ~ reach i t).
    { clear Lk. revert Hr. induction k as [k IH] using lt_wf_ind. intros Hr.
      assert (Y : forall m, m <= k -> (exists i, i < m /\ reach i t) \/ forall i, i < m -> ~ reach i t).
      { induction m as [|m IHm]; intros Lm; [right; lia|].
        destruct IHm as [(i & Li & Hi)|N]; [lia|left; exists i; split; [lia|auto]|].
        destruct (reach_dec m s t R) as [H|H]; [left; exists m; split; [lia|auto]|].
        right. intros i Li. destruct (Nat.eq_dec i m) as [->|Ne]; auto. apply N. lia. }
      destruct (Y k (le_n k)) as [(i & Li & Hi)|N].
      - destruct (IH i Li Hi) as (j & Lj & H). exists j. split; [lia|auto].
      - exists k. auto. }
    destruct X as (j & Lj & Hj & Hmin).
    destruct (lift j (root_node s) t (root_ok s (proj1 R)) R Hj Hmin) as (plan & Hp & Lp).
    { intros u i (x & [] & _). }
    exists plan. split; [|lia]. eapply plan_in_mono; [|exact Hp]. lia.
  Qed.

  Lemma C62_lemma d s t : represents s t ->
    exists plans M, 
      (forall calls fuel w, M <= calls -> M <= fuel -> reachable w ->
         exists w', bfs_all (node_goal p) (node_children L p K) d calls fuel never (root_node s) w = Ok (plans, w')) /\
      (forall cs, plan_ok L p cs t -> Forall (plain_call p) cs -> length cs <= d ->
         exists plan rest, plans = plan :: rest) /\
      (forall plan rest cs, plans = plan :: rest -> plan_ok L p cs t -> Forall (plain_call p) cs ->
         length (plan_calls plan) <= length cs).
  Proof.
    intros R. pose proof (root_ok s (proj1 R)) as Ro.
    destruct (C45_plans_lemma (node_goal p) (node_children L p K) d node_ok reachable is_goal kids (root_node s)
      planner_steady Ro) as (l & Hl & _ & M & HM).
    exists l, M. split; [|split].
    - intros calls fuel w L1 L2 Rs. destruct (HM calls fuel w L1 L2 Rs) as (w' & E & _). eauto.
    - intros cs Po F Ld. apply plan_reach in Po; auto. destruct (short_plan d s t _ R Ld Po) as (plan & Hp & _).
      apply Hl in Hp. destruct l as [|x l]; [destruct Hp|]. eauto.
    - intros plan rest cs -> Po F. destruct (HM M M no_store (le_n _) (le_n _) (rs_none _ _ _)) as (w' & E & _).
      pose proof (C46_shortest_lemma (node_goal p) (node_children L p K) d node_ok reachable is_goal kids (root_node s)
        planner_steady Ro M M no_store _ w' (rs_none _ _ _) E) as [Hp Hs].
      assert (Lp : length plan <= S d /\ plan <> []).
      { clear -Hp. unfold plan_in in Hp. induction Hp as [k n H|k n m rest Hn Hk _ [IH _]]; cbn; split; try lia; discriminate. }
      unfold plan_calls. rewrite map_length. destruct plan as [|x plan]; [tauto|]. cbn [tl length] in *.
      destruct (Nat.le_gt_cases (length cs) d) as [Ld|Ld]; [|lia].
      apply plan_reach in Po; auto. destruct (short_plan d s t _ R Ld Po) as (plan' & Hp' & Lp').
      apply Hs in Hp'. unfold shorter in Hp'. cbn [length] in Hp'. lia.
  Qed.

  Lemma C62_initial_lemma (Hwords : Forall word (map oname objs))
      (Hops : Forall (fun o => free_of "("%char (op_name o)) (pd_ops p)) (Nops : NoDup (map op_name (pd_ops p))) st0 :
    0 < l_rounds L -> built (pd_init p) ->
    is_valid_state (pd_om p) (pd_axioms p) (l_cascade L) (pd_init p) st0 = Ok true ->
    exists root, make_planner L p (pd_init p, st0) = Ok (root, st0) /\
    forall d, exists plans M,
      (forall calls fuel w, M <= calls -> M <= fuel -> reachable w ->
         exists w', bfs_all (node_goal p) (node_children L p K) d calls fuel never root w = Ok (plans, w')) /\
      (forall plan st, In plan plans -> reachable st ->
         exists st', is_valid_plan L p (plan_calls plan) st = Ok (true, st')) /\
      (forall cs st st', reachable st -> is_valid_plan L p cs st = Ok (true, st') -> Forall (plain_call p) cs ->
         length cs <= d ->
         exists plan more, plans = plan :: more /\ length (plan_calls plan) <= length cs).
  Proof.
    intros Lr B V. destruct (C49_lemma Hwords Hops Nops st0 Lr B V) as (root & E & _). exists root. split; auto.
    unfold make_planner in E. destruct (l_rounds L) as [|r]; [lia|]. rewrite (C30_returns_lemma _ _ _ r _ _ B V) in E.
    injection E as <-. intros d. pose proof (set_in_represents _ B) as R.
    destruct (C62_lemma d _ _ R) as (plans & M & H1 & H2 & H3). exists plans, M. split; auto. split.
    - intros plan st I Rs. destruct (H1 M M no_store (le_n _) (le_n _) (rs_none _ _ _)) as (w' & E).
      assert (X : plan_from call_to (seen_goal (node_goal p)) (seen_other (node_goal p)) d (root_node (pd_init p)) plan).
      { refine (proj2 (bfs_all_inv _ _ _ _ node_ok reachable call_to _ (root_ok _ B) _ _ _ _ _ _ (rs_none _ _ _) E) _ I).
        exact children_inv. }
      apply (C41_lemma L p ar rank drank G _ st _ Rs R).
      destruct (path_ok Hwords Hops Nops _ _ _ X _ R) as (rst & -> & Po). exact Po.
    - intros cs st st' Rs Hv F Ld.
      assert (Po : plan_ok L p cs (set_in (pd_init p))) by (apply (C41_lemma L p ar rank drank G _ st _ Rs R); eauto).
      destruct (H2 cs Po F Ld) as (plan & more & ->). exists plan, more. split; auto. eapply H3; eauto.
  Qed.
End Domain.

Lemma root_lemma `{SH : StdHash} L p s st root st' : built s -> make_planner L p (s, st) = Ok (root, st') ->
  (exists s', root = root_node s' /\ built s') /\
  forall st2, is_valid_state (pd_om p) (pd_axioms p) (l_cascade L) (nd_state root) st2 = Ok true.
Proof.
  intros B E. unfold make_planner in E. apply bind_Ok in E as ([s' st1] & E & Q). injection Q as <- <-.
  apply C29_lemma in E as [B' V]; auto. split; [exists s'; auto|exact V].
Qed.

(** ** In the form of Properties/PlannerProps.v *)
Section Forms.
  Context `{SH : StdHash} (L : limits) (p : pddl) (ar : string -> nat) (rank : nat -> nat) (drank : string -> nat).
  Context (G : good_domain L p ar rank drank).
  Notation reachable := (reachable_store (pd_symbols p) ar (pd_axioms p)).
  Context (Hcount : Forall (fun o => (tuple_count (pd_symbols p) (op_params o) < 2 ^ 31)%Z) (pd_ops p)).
  Context (Ha : pd_actions p <> []).

  Lemma C43_lemma : exists K0, forall K n st t, K0 <= K -> built (nd_state n) -> Forall built (nd_ancestors n) ->
    represents (nd_state n) t -> reachable st ->
    (exists cs st', node_children L p K n st = Ok (cs, st') /\ reachable st' /\ successors L p n t (applicable p t) cs) \/
    (node_children L p K n st = Throw ERuntime /\
     exists o args, In (o, args) (applicable p t) /\ forall t', ~ results_in L p o args t t').
  Proof.
    exists (enough p). intros K n st t HK B F R Rs.
    apply (children_ok L p ar rank drank G Hcount K n st t HK Ha (conj B F) R Rs).
  Qed.
  Lemma C43_ordinary_lemma : ordinary_domain p ->
    exists K0, forall K n st t, K0 <= K -> built (nd_state n) -> Forall built (nd_ancestors n) ->
    represents (nd_state n) t -> reachable st ->
    exists cs st', node_children L p K n st = Ok (cs, st') /\ reachable st' /\ successors L p n t (applicable p t) cs.
  Proof.
    intros Ho. destruct C43_lemma as [K0 H]. exists K0. intros K n st t HK B F R Rs.
    destruct (H K n st t HK B F R Rs) as [X|(_ & o & args & I & N)]; auto. exfalso.
    apply applicable_In in I as (I & _ & _ & W & _).
    destruct (ordinary_results L p ar rank drank G o args t Ho I (well_typed_length _ _ _ W) _ R) as [t' Re]. eapply N; eauto.
  Qed.
  Lemma C43_history_lemma : exists K0, forall K n st1 st2 cs st', K0 <= K -> reachable st1 -> reachable st2 ->
    node_children L p K n st1 = Ok (cs, st') -> exists st'', node_children L p K n st2 = Ok (cs, st'').
  Proof.
    exists (enough p). intros K n st1 st2 cs st' HK R1 R2 E.
    destruct (children_history L p ar rank drank G Hcount K n st1 st2 _ _ HK Ha R1 R2 E) as (_ & st'' & _ & E'). eauto.
  Qed.

  Context (Hwords : Forall word (map oname (pd_symbols p))) (Hops : Forall (fun o => free_of "("%char (op_name o)) (pd_ops p))
    (Nops : NoDup (map op_name (pd_ops p))).

  Lemma C49_valid_lemma : exists K0, forall K st0, K0 <= K -> 0 < l_rounds L -> built (pd_init p) ->
    is_valid_state (pd_om p) (pd_axioms p) (l_cascade L) (pd_init p) st0 = Ok true ->
    exists root, make_planner L p (pd_init p, st0) = Ok (root, st0) /\
    forall d plan st, yields (node_goal p) (node_children L p K) d root reachable plan -> reachable st ->
    length (plan_calls plan) <= d /\ exists st', is_valid_plan L p (plan_calls plan) st = Ok (true, st').
  Proof. exists (enough p). intros K st0 HK. eapply C49_lemma; eauto. Qed.
  Lemma C49_any_lemma : exists K0, forall K d s t plan, K0 <= K -> represents s t ->
    yields (node_goal p) (node_children L p K) d (root_node s) reachable plan ->
    length (plan_calls plan) <= d /\ plan_ok L p (plan_calls plan) t.
  Proof. exists (enough p). intros K d s t plan HK. eapply C49_from_lemma; eauto. Qed.

  Lemma C62_shortest_lemma : ordinary_domain p ->
    exists K0, forall K st0, K0 <= K -> 0 < l_rounds L -> built (pd_init p) ->
    is_valid_state (pd_om p) (pd_axioms p) (l_cascade L) (pd_init p) st0 = Ok true ->
    exists root, make_planner L p (pd_init p, st0) = Ok (root, st0) /\
    forall d, exists plans M,
      (forall calls fuel w, M <= calls -> M <= fuel -> reachable w ->
         exists w', bfs_all (node_goal p) (node_children L p K) d calls fuel never root w = Ok (plans, w')) /\
      (forall plan st, In plan plans -> reachable st ->
         exists st', is_valid_plan L p (plan_calls plan) st = Ok (true, st')) /\
      (forall cs st st', reachable st -> is_valid_plan L p cs st = Ok (true, st') -> Forall (plain_call p) cs ->
         length cs <= d ->
         exists plan more, plans = plan :: more /\ length (plan_calls plan) <= length cs).
  Proof. intros Ho. exists (enough p). intros K st0 HK. eapply C62_initial_lemma; eauto. Qed.
End Forms.
