(** Lemmas behind C74: the plans of the planner are the direct plans. *)
From Coq Require Import Ascii String List Bool NArith ZArith Arith Lia Permutation Sorted.
From Verif.Model Require Import Base Object Proposition State ParameterGenerator Syntax Formula
  Effects Derived Consistency Text Search Pddl Planner.
From Verif.Spec Require Import SetSpec TypingSpec FormulaSpec EffectSpec DerivedSpec TextSpec AxiomSpec SearchSpec PddlSpec
  PlannerSpec DirectSpec.
From Verif.Proofs Require Import StateFacts StateHistory FormulaFacts EffectFacts EffectLink EffectTheorems
  DerivedFacts TextFacts AxiomLoops SearchFacts SearchTrail SearchTheorems SearchInv PddlFacts PddlTheorems PddlListing
  PddlHistory PlannerLoops PlannerFacts PlannerTheorems.
Import ListNotations.
Local Open Scope string_scope.
Local Open Scope list_scope.

Lemma plan_head {N} (isgoal : N -> bool) kids k n plan : plan_in isgoal kids k n plan -> exists r, plan = n :: r.
Proof. intros H. inversion H; subst; eauto. Qed.

Lemma plan_in_kids {N} (isgoal : N -> bool) kids kids' k n plan : (forall m c, In c (kids m) <-> In c (kids' m)) ->
  plan_in isgoal kids k n plan -> plan_in isgoal kids' k n plan.
Proof.
  intros E H. unfold plan_in in *. induction H; [constructor; auto|]. econstructor; eauto. apply E; auto.
Qed.

Lemma represents_same `{SH : StdHash} s t u : represents s t -> represents s u -> same t u.
Proof.
  intros [_ H] [_ H'] a. specialize (H a). specialize (H' a). rewrite H in H'.
  destruct (t a), (u a); auto; intuition congruence.
Qed.
Lemma same_represents `{SH : StdHash} s t u : represents s t -> same t u -> represents s u.
Proof. intros [B H] E. split; auto. intros a. rewrite H, E. tauto. Qed.

Lemma sorted_map {A B} (f : A -> B) (R : A -> A -> Prop) (Q : B -> B -> Prop) l :
  (forall a b, In a l -> In b l -> R a b -> Q (f a) (f b)) -> StronglySorted R l -> StronglySorted Q (map f l).
Proof.
  induction l as [|x l IH]; intros H S; cbn; constructor; inversion S; subst.
  - apply IH; auto. intros a b Ia Ib. apply H; right; auto.
  - rewrite Forall_map. rewrite Forall_forall in *. intros y I. apply H; [left|right|]; auto.
Qed.

(** More fuel does not change what a search finds. *)
Section Fuel.
  Context {N W : Type} (goal : N -> outcome bool) (children : N -> W -> outcome (list N * W)) (d : nat).

  Lemma bfs_incr_fuel fuel : forall late i q w r, bfs_incr goal children d fuel late i q w = Ok r ->
    forall fuel', fuel <= fuel' -> bfs_incr goal children d fuel' late i q w = Ok r.
  Proof.
    induction fuel as [|f IH]; intros late i q w r E fuel' Le; destruct q as [|[n anc] q]; cbn [bfs_incr] in E;
      try discriminate; destruct fuel' as [|f']; try lia; cbn [bfs_incr]; auto.
    destruct (late i); auto. destruct (goal n) as [[|]| | | |]; cbn [bind] in *; auto.
    destruct (Nat.ltb _ _); [apply IH; auto; lia|].
    destruct (children n w) as [[cs w1]| | | |]; cbn [bind] in *; try discriminate. apply IH; auto. lia.
  Qed.
  Lemma bfs_loop_fuel calls fuel late : forall c it w r, bfs_loop goal children d calls fuel late c it w = Ok r ->
    forall calls' fuel', calls <= calls' -> fuel <= fuel' -> bfs_loop goal children d calls' fuel' late c it w = Ok r.
  Proof.
    induction calls as [|m IH]; intros c it w r E calls' fuel' Lc Lf; destruct calls' as [|m']; try lia;
      cbn [bfs_loop] in *; destruct (bfs_finished it); auto; try discriminate.
    destruct (bfs_deref it); cbn [bind] in *; try discriminate.
    apply bind_Ok in E as ((it1 & w1) & E1 & E). rewrite (bfs_incr_fuel _ _ _ _ _ _ E1 fuel' Lf). cbn [bind].
    apply bind_Ok in E as ((l1 & w2) & E2 & E). rewrite (IH _ _ _ _ E2 m' fuel' ltac:(lia) Lf). exact E.
  Qed.
  Lemma bfs_all_fuel calls fuel late root w r : bfs_all goal children d calls fuel late root w = Ok r ->
    forall calls' fuel', calls <= calls' -> fuel <= fuel' -> bfs_all goal children d calls' fuel' late root w = Ok r.
  Proof.
    unfold bfs_all, bfs_begin. intros E calls' fuel' Lc Lf. apply bind_Ok in E as ((it1 & w1) & E1 & E).
    rewrite (bfs_incr_fuel _ _ _ _ _ _ E1 fuel' Lf). cbn [bind]. eapply bfs_loop_fuel; eauto.
  Qed.
End Fuel.

Section Domain.
  Context `{SH : StdHash} (L : limits) (p : pddl) (ar : string -> nat) (rank : nat -> nat) (drank : string -> nat).
  Context (G : good_domain L p ar rank drank).
  Notation objs := (pd_symbols p).
  Notation reachable := (reachable_store objs ar (pd_axioms p)).
  Context (Hcount : Forall (fun o => (tuple_count objs (op_params o) < 2 ^ 31)%Z) (pd_ops p)).
  Context (Ha : pd_actions p <> []).
  Context (Hwords : Forall word (map oname objs)) (Hops : Forall (fun o => free_of "("%char (op_name o)) (pd_ops p))
    (Nops : NoDup (map op_name (pd_ops p))).
  Context (Ho : ordinary_domain p).
  Context (K : nat) (HK : enough p <= K).
  Notation kids := (kids L p K).
  Notation is_goal := (is_goal p).
  Notation steady_planner := (planner_steady L p ar rank drank G Hcount Ha K HK Ho).

  Lemma successors_calls n t l cs : successors L p n t l cs ->
    incl (map nd_action cs) (map (fun x => action_to_string (fst x) (snd x)) l).
  Proof.
    intros H x I. apply in_map_iff in I as (c & <- & I).
    destruct (successors_In L p n t l cs c H I) as (o & args & t' & J & _ & _ & _ & E & _).
    rewrite E. apply in_map_iff. exists (o, args). auto.
  Qed.
  Lemma successors_distinct n t l cs : successors L p n t l cs ->
    NoDup (map (fun x => action_to_string (fst x) (snd x)) l) -> NoDup (map nd_action cs).
  Proof.
    induction 1 as [|o args r t' cs Re Kn H IH|o args r t' x cs Re Kn Rx Ax Dx An H IH]; intros N; cbn in *.
    - constructor.
    - apply IH. inversion N; auto.
    - inversion N as [|? ? N1 N2]; subst. constructor; auto. rewrite Ax. intros I. apply N1.
      apply (successors_calls _ _ _ _ H). exact I.
  Qed.
  Lemma successors_found n t l cs : successors L p n t l cs -> forall o args, In (o, args) l -> exists t',
    results_in L p o args t t' /\
    (known n t' \/ exists c, In c cs /\ represents (nd_state c) t' /\ nd_action c = action_to_string o args /\
                     forall u, among (nd_ancestors c) u <-> known n u).
  Proof.
    induction 1 as [|o args r t' cs Re Kn _ IH|o args r t' x cs Re Kn Rx Ax Dx An _ IH]; intros o' a' I.
    - destruct I.
    - destruct I as [[= <- <-]|I]; eauto.
    - destruct I as [[= <- <-]|I].
      + exists t'. split; auto. right. exists x. split; [left; auto|auto 12].
      + destruct (IH o' a' I) as (u & Ru & [Ku|(c & Ic & Hc)]); exists u; split; auto.
        right. exists c. split; [right; auto|auto].
  Qed.

  Lemma kids_distinct n : node_ok n -> NoDup (map nd_action (kids n)).
  Proof.
    intros Nn. destruct (kids_ok L p ar rank drank G Hcount Ha K HK Ho n Nn) as (st & _ & Su).
    pose proof (set_in_represents _ (proj1 Nn)) as R. specialize (Su _ R).
    eapply successors_distinct; [exact Su|].
    apply (C42_accepted_lemma L p ar rank drank G Hcount Hwords Hops Nops (nd_state n) _ _ R).
    apply (C42_order_lemma L p ar rank drank G Hcount); auto.
  Qed.
  Lemma kids_nodes n c : node_ok n -> is_goal n = false -> In c (kids n) -> node_ok c.
  Proof. apply (st_nodes _ _ _ _ _ _ steady_planner). Qed.

  (** Calls determine the nodes. *)
  Lemma plans_determined k n plan : plan_in is_goal kids k n plan -> node_ok n ->
    forall k' plan', plan_in is_goal kids k' n plan' -> plan_calls plan = plan_calls plan' -> plan = plan'.
  Proof.
    unfold plan_in. induction 1 as [k n Hg|k n m rest Hn Hk Hp IH]; intros Nn k' plan' Hp' E.
    - inversion Hp' as [|? ? m' r' ? ? Hp2]; subst; auto. apply plan_head in Hp2 as (r & ->). discriminate.
    - inversion Hp' as [|? ? m' r' Hn' Hk' Hp2]; subst; [congruence|].
      destruct (plan_head _ _ _ _ _ Hp) as (r & ->). destruct (plan_head _ _ _ _ _ Hp2) as (r2 & ->).
      unfold plan_calls in E. cbn [tl map] in E. injection E as E1 E2.
      assert (m = m') as <-.
      { pose proof (kids_distinct n Nn) as N. clear -N Hk Hk' E1. induction (kids n) as [|x l IHl]; [destruct Hk|].
        cbn in N. inversion N as [|? ? N1 N2]; subst. destruct Hk as [->|Hk], Hk' as [->|Hk']; auto.
        - exfalso. apply N1. rewrite E1. apply in_map; auto.
        - exfalso. apply N1. rewrite <- E1. apply in_map; auto. }
      f_equal. eapply IH; eauto. eapply kids_nodes; eauto.
  Qed.

  (** The sets of the ancestors. *)
  Definition passed (n : node) (seen : list aset) : Prop :=
    forall u, among (nd_ancestors n) u <-> exists v, In v seen /\ same v u.

  Lemma passed_known n seen t u : node_ok n -> represents (nd_state n) t -> passed n seen ->
    known n u <-> exists v, In v (t :: seen) /\ same v u.
  Proof.
    intros Nn R Ps. unfold known, among. split.
    - intros (s & [<-|I] & Rs).
      + exists t. split; [left; auto|]. eapply represents_same; eauto.
      + destruct (proj1 (Ps u)) as (v & Iv & E); [exists s; auto|]. exists v. split; [right|]; auto.
    - intros (v & [<-|I] & E).
      + exists (nd_state n). split; [left; auto|]. eapply same_represents; eauto.
      + destruct (proj2 (Ps u)) as (s & Is & Rs); [eauto|]. exists s. split; [right|]; auto.
  Qed.

  Lemma plan_direct k n plan : plan_in is_goal kids k n plan -> node_ok n -> forall t seen,
    represents (nd_state n) t -> passed n seen -> direct L p seen k t (plan_calls plan).
  Proof.
    unfold plan_in. induction 1 as [k n Hg|k n m rest Hn Hk Hp IH]; intros Nn t seen R Ps.
    - constructor. apply (is_goal_spec L p ar rank drank G n t R); auto.
    - destruct (kids_ok L p ar rank drank G Hcount Ha K HK Ho n Nn) as (st & _ & Su). specialize (Su t R).
      destruct (successors_In L p n t _ _ m Su Hk) as (o & args & t' & I & Re & Nk & Rm & Am & _ & An).
      apply applicable_In in I as (I & Ax & Np & W & Pr).
      destruct (plan_head _ _ _ _ _ Hp) as (r & ->).
      change (plan_calls (n :: m :: r)) with (nd_action m :: plan_calls (m :: r)). rewrite Am.
      eapply di_call with (t' := t'); eauto.
      + intros H. apply (is_goal_spec L p ar rank drank G n t R) in H. congruence.
      + intros u Iu E. apply Nk. apply (passed_known n seen t t' Nn R Ps). eauto.
      + apply IH; auto.
        * eapply kids_nodes; eauto.
        * intros u. rewrite An. apply passed_known; auto.
  Qed.

  Lemma direct_plan d : forall seen t cs n, direct L p seen d t cs -> node_ok n ->
    represents (nd_state n) t -> passed n seen ->
    exists plan, plan_in is_goal kids d n plan /\ plan_calls plan = cs.
  Proof.
    induction d as [|d IH]; intros seen t cs n D Nn R Ps;
      inversion D as [? ? ? Hg|? ? ? o args t' cs' Hg I A N W Pr Re Fr D']; subst.
    - exists [n]. split; auto. constructor. apply (is_goal_spec L p ar rank drank G n t R); auto.
    - exists [n]. split; auto. constructor. apply (is_goal_spec L p ar rank drank G n t R); auto.
    - destruct (kids_ok L p ar rank drank G Hcount Ha K HK Ho n Nn) as (st & _ & Su). specialize (Su t R).
      destruct (successors_found n t _ _ Su o args) as (t2 & Re2 & Hc).
      { apply applicable_In. repeat (split; auto). }
      destruct (results_exts L p ar rank drank G _ t t o args t' I (well_typed_length _ _ _ W) R R Re) as (s' & R1 & _ & U).
      pose proof (represents_same _ _ _ R1 (U t2 Re2)) as E.
      destruct Hc as [Kn|(c & Ic & Rc & Ac & An)].
      + exfalso. apply (passed_known n seen t t2 Nn R Ps) in Kn as (v & Iv & Ev). apply (Fr v Iv).
        intros a. rewrite (Ev a), (E a). reflexivity.
      + assert (Gn : is_goal n = false).
        { destruct (is_goal n) eqn:Q; auto. exfalso. apply Hg. apply (is_goal_spec L p ar rank drank G n t R); auto. }
        assert (Rc' : represents (nd_state c) t').
        { eapply same_represents; [exact Rc|]. intros a. symmetry. apply E. }
        assert (Nc : node_ok c) by (eapply kids_nodes; eauto).
        destruct (IH (t :: seen) t' cs' c D' Nc Rc') as (plan & Hp & Ec).
        { intros u. rewrite An. apply passed_known; auto. }
        exists (n :: plan). split; [econstructor; eauto|].
        destruct (plan_head _ _ _ _ _ Hp) as (r & ->). cbn [plan_calls tl map] in *. rewrite Ac. unfold plan_calls in Ec.
        cbn [tl] in Ec. rewrite Ec. reflexivity.
  Qed.

  Lemma all_direct d s t l : represents s t -> NoDup l ->
    (forall plan, In plan l <-> plan_in is_goal kids d (root_node s) plan) ->
    NoDup (map plan_calls l) /\ forall cs, In cs (map plan_calls l) <-> direct L p [] d t cs.
  Proof.
    intros R N H. pose proof (root_ok s (proj1 R)) as Ro.
    assert (Ps : passed (root_node s) []).
    { intros u. split; [intros (x & [] & _)|intros (v & [] & _)]. }
    split.
    - apply NoDup_map_on; auto. intros a b Ia Ib E. apply H in Ia, Ib. eapply plans_determined; eauto.
    - intros cs. rewrite in_map_iff. split.
      + intros (plan & <- & I). apply H in I. eapply plan_direct; eauto.
      + intros D. destruct (direct_plan d [] t cs (root_node s) D Ro R Ps) as (plan & Hp & <-).
        exists plan. rewrite H. auto.
  Qed.

  Lemma kids_nodup n : node_ok n -> is_goal n = false -> NoDup (kids n).
  Proof. intros Nn _. eapply NoDup_map_inv. apply kids_distinct; auto. Qed.

  Definition by_length (a b : list string) : Prop := length a <= length b.

  Lemma bfs_direct d s t : represents s t -> exists plans M,
    (forall calls fuel w, M <= calls -> M <= fuel -> reachable w ->
       exists w', bfs_all (node_goal p) (node_children L p K) d calls fuel never (root_node s) w = Ok (plans, w')) /\
    NoDup (map plan_calls plans) /\ (forall cs, In cs (map plan_calls plans) <-> direct L p [] d t cs) /\
    StronglySorted by_length (map plan_calls plans).
  Proof.
    intros R. pose proof (root_ok s (proj1 R)) as Ro.
    destruct (C45_plans_lemma (node_goal p) (node_children L p K) d node_ok reachable is_goal kids (root_node s)
      steady_planner Ro) as (l & Hl & Nl & M & HM).
    specialize (Nl kids_nodup). exists l, M. split.
    { intros calls fuel w L1 L2 Rs. destruct (HM calls fuel w L1 L2 Rs) as (w' & E & _). eauto. }
    destruct (all_direct d s t l R Nl Hl) as [H1 H2]. split; auto. split; auto.
    destruct (HM M M no_store (le_n _) (le_n _) (rs_none _ _ _)) as (w' & E & _).
    apply C46_sorted_lemma in E. eapply sorted_map; [|exact E]. intros a b _ _. unfold shorter, by_length, plan_calls.
    rewrite !map_length. destruct a, b; cbn; lia.
  Qed.

  (** Whatever the fuel, if the loop ends. *)
  Lemma bfs_direct_any d s t calls fuel w plans w' : represents s t -> reachable w ->
    bfs_all (node_goal p) (node_children L p K) d calls fuel never (root_node s) w = Ok (plans, w') ->
    NoDup (map plan_calls plans) /\ (forall cs, In cs (map plan_calls plans) <-> direct L p [] d t cs) /\
    StronglySorted by_length (map plan_calls plans).
  Proof.
    intros R Rs E. destruct (bfs_direct d s t R) as (plans' & M & HM & H).
    destruct (HM (max M calls) (max M fuel) w (Nat.le_max_l _ _) (Nat.le_max_l _ _) Rs) as (w2 & E2).
    rewrite (bfs_all_fuel _ _ _ _ _ _ _ _ _ E _ _ (Nat.le_max_r _ _) (Nat.le_max_r _ _)) in E2.
    injection E2 as <- _. exact H.
  Qed.

  Lemma dfs_direct d s t : represents s t -> exists plans lost M,
    (forall calls fuel w, M <= calls -> M <= fuel -> reachable w ->
       exists w', dfs_all (node_goal p) (node_children L p K) d calls fuel (root_node s) w = Ok (plans, w')) /\
    length lost <= 1 /\ NoDup (map plan_calls plans ++ lost) /\
    (forall cs, In cs (map plan_calls plans ++ lost) <-> direct L p [] d t cs).
  Proof.
    intros R. pose proof (root_ok s (proj1 R)) as Ro.
    destruct (C50_lemma (node_goal p) (node_children L p K) d node_ok reachable is_goal kids (root_node s)
      steady_planner Ro) as (fp & m & l & _ & El & M & HM).
    exists l, (map plan_calls (if is_goal m then [fp ++ [m]] else [])), M. split.
    { intros calls fuel w L1 L2 Rs. destruct (HM calls fuel w L1 L2 Rs) as (w' & E & _). eauto. }
    split; [destruct (is_goal m); cbn; lia|]. rewrite <- map_app, <- El.
    apply all_direct with (s := s); auto.
    - apply (all_plans_NoDup _ _ node_ok); auto.
      + intros n c Nn Hg I. apply in_rev in I. eapply kids_nodes; eauto.
      + intros n Nn Hg. apply NoDup_rev. apply kids_nodup; auto.
    - intros plan. rewrite all_plans_In. split; apply plan_in_kids; intros n c; [symmetry|]; apply in_rev.
  Qed.

  Lemma ast_direct d s t pick : represents s t -> exists plans lost M,
    (forall calls fuel w, M <= calls -> M <= fuel -> reachable w ->
       exists w', ast_all (node_goal p) (node_children L p K) d pick calls fuel (root_node s) w = Ok (plans, w')) /\
    length lost <= 1 /\ NoDup (map plan_calls plans ++ lost) /\
    (forall cs, In cs (map plan_calls plans ++ lost) <-> direct L p [] d t cs).
  Proof.
    intros R. pose proof (root_ok s (proj1 R)) as Ro.
    destruct (C51_lemma (node_goal p) (node_children L p K) d node_ok reachable is_goal kids (root_node s)
      steady_planner Ro pick) as (l & lost & Ll & Pl & M & HM).
    exists l, (map plan_calls lost), M. split.
    { intros calls fuel w L1 L2 Rs. destruct (HM calls fuel w L1 L2 Rs) as (w' & E & _). eauto. }
    split; [rewrite map_length; auto|]. rewrite <- map_app.
    apply all_direct with (s := s); auto.
    - rewrite Pl. apply (all_plans_NoDup _ _ node_ok); auto.
      + intros n c Nn Hg I. eapply kids_nodes; eauto.
      + apply kids_nodup.
    - intros plan. rewrite Pl. apply all_plans_In.
  Qed.

  (** Direct plans are valid plans ... *)
  Lemma direct_ok seen d t cs : direct L p seen d t cs -> plan_ok L p cs t /\ Forall (plain_call p) cs /\ length cs <= d.
  Proof.
    induction 1 as [seen d t Hg|seen d t o args t' cs Hg I A N W Pr Re Fr _ (IH1 & IH2 & IH3)].
    - split; [constructor; auto|]. split; [constructor|cbn; lia].
    - assert (C : calls p (action_to_string o args) o args).
      { apply (listable_calls L p ar rank drank G Hwords Hops Nops t). repeat (split; auto). }
      split; [econstructor; eauto|]. split; [|cbn; lia]. constructor; auto. exists o, args. auto.
  Qed.
  Lemma direct_valid d t cs st : represents (pd_init p) t -> reachable st -> direct L p [] d t cs ->
    exists st', is_valid_plan L p cs st = Ok (true, st').
  Proof.
    intros R Rs D. apply (C41_lemma L p ar rank drank G cs st t Rs R). apply (direct_ok _ _ _ _ D).
  Qed.
  (** ... and for every valid plan there is a direct one that is not longer. *)
  Lemma valid_direct t cs st st' : represents (pd_init p) t -> reachable st ->
    is_valid_plan L p cs st = Ok (true, st') -> Forall (plain_call p) cs ->
    exists cs', direct L p [] (length cs) t cs'.
  Proof.
    intros R Rs E F.
    assert (Po : plan_ok L p cs t) by (apply (C41_lemma L p ar rank drank G cs st t Rs R); eauto).
    destruct (C62_lemma L p ar rank drank G Hcount Ha K HK Ho (length cs) (pd_init p) t R) as (plans & M & HM & H & _).
    destruct (H cs Po F (le_n _)) as (plan & rest & ->).
    destruct (HM M M no_store (le_n _) (le_n _) (rs_none _ _ _)) as (w' & E').
    destruct (bfs_direct_any _ _ t _ _ _ _ _ R (rs_none _ _ _) E') as (_ & D & _).
    exists (plan_calls plan). apply D. left. reflexivity.
  Qed.
End Domain.

(** ** In the form of Properties/DirectProps.v *)
Section Forms.
  Context `{SH : StdHash} (L : limits) (p : pddl) (ar : string -> nat) (rank : nat -> nat) (drank : string -> nat).
  Context (G : good_domain L p ar rank drank).
  Notation reachable := (reachable_store (pd_symbols p) ar (pd_axioms p)).
  Context (Hcount : Forall (fun o => (tuple_count (pd_symbols p) (op_params o) < 2 ^ 31)%Z) (pd_ops p)).
  Context (Ha : pd_actions p <> []).
  Context (Hwords : Forall word (map oname (pd_symbols p))) (Hops : Forall (fun o => free_of "("%char (op_name o)) (pd_ops p))
    (Nops : NoDup (map op_name (pd_ops p))).
  Context (Ho : ordinary_domain p).

  Lemma C74_bfs_lemma : exists K0, forall K s st0 root st1 t d, K0 <= K -> built s ->
    make_planner L p (s, st0) = Ok (root, st1) -> represents (nd_state root) t ->
    exists plans M,
      (forall calls fuel w, M <= calls -> M <= fuel -> reachable w ->
         exists w', bfs_all (node_goal p) (node_children L p K) d calls fuel never root w = Ok (plans, w')) /\
      NoDup (map plan_calls plans) /\ (forall cs, In cs (map plan_calls plans) <-> direct L p [] d t cs) /\
      StronglySorted (fun a b => length a <= length b) (map plan_calls plans).
  Proof.
    exists (enough p). intros K s st0 root st1 t d HK B E R.
    destruct (root_lemma L p s st0 root st1 B E) as [(s' & -> & _) _]. eapply bfs_direct; eauto.
  Qed.
  Lemma C74_ends_lemma : exists K0, forall K s st0 root st1 t d calls fuel w plans w', K0 <= K -> built s ->
    make_planner L p (s, st0) = Ok (root, st1) -> represents (nd_state root) t -> reachable w ->
    bfs_all (node_goal p) (node_children L p K) d calls fuel never root w = Ok (plans, w') ->
    NoDup (map plan_calls plans) /\ (forall cs, In cs (map plan_calls plans) <-> direct L p [] d t cs).
  Proof.
    exists (enough p). intros K s st0 root st1 t d calls fuel w plans w' HK B E R Rs Eb.
    destruct (root_lemma L p s st0 root st1 B E) as [(s' & -> & _) _].
    destruct (bfs_direct_any L p ar rank drank G Hcount Ha Hwords Hops Nops Ho K HK d s' t calls fuel w plans w' R Rs Eb) as (H1 & H2 & _).
    auto.
  Qed.
  Lemma C74_valid_lemma t : represents (pd_init p) t ->
    (forall d cs st, reachable st -> direct L p [] d t cs -> exists st', is_valid_plan L p cs st = Ok (true, st')) /\
    (forall cs st st', reachable st -> is_valid_plan L p cs st = Ok (true, st') -> Forall (plain_call p) cs ->
       exists cs', direct L p [] (length cs) t cs').
  Proof.
    intros R. split; intros; [eapply direct_valid; eauto|eapply (valid_direct L p ar rank drank G Hcount Ha Hwords Hops Nops Ho (enough p)); eauto].
  Qed.

  Lemma C74_dfs_lemma : exists K0, forall K s st0 root st1 t d, K0 <= K -> built s ->
    make_planner L p (s, st0) = Ok (root, st1) -> represents (nd_state root) t ->
    exists plans lost M,
      (forall calls fuel w, M <= calls -> M <= fuel -> reachable w ->
         exists w', dfs_all (node_goal p) (node_children L p K) d calls fuel root w = Ok (plans, w')) /\
      length lost <= 1 /\ NoDup (map plan_calls plans ++ lost) /\
      (forall cs, In cs (map plan_calls plans ++ lost) <-> direct L p [] d t cs).
  Proof.
    exists (enough p). intros K s st0 root st1 t d HK B E R.
    destruct (root_lemma L p s st0 root st1 B E) as [(s' & -> & _) _]. eapply dfs_direct; eauto.
  Qed.
  Lemma C74_ast_lemma : exists K0, forall K s st0 root st1 t d pick, K0 <= K -> built s ->
    make_planner L p (s, st0) = Ok (root, st1) -> represents (nd_state root) t ->
    exists plans lost M,
      (forall calls fuel w, M <= calls -> M <= fuel -> reachable w ->
         exists w', ast_all (node_goal p) (node_children L p K) d pick calls fuel root w = Ok (plans, w')) /\
      length lost <= 1 /\ NoDup (map plan_calls plans ++ lost) /\
      (forall cs, In cs (map plan_calls plans ++ lost) <-> direct L p [] d t cs).
  Proof.
    exists (enough p). intros K s st0 root st1 t d pick HK B E R.
    destruct (root_lemma L p s st0 root st1 B E) as [(s' & -> & _) _]. eapply ast_direct; eauto.
  Qed.
End Forms.
