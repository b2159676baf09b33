(** Lemmas behind C76: in orderly domains calls have PDDL's meaning. *)
From Coq Require Import Ascii String List Bool NArith ZArith Arith Lia.
From Verif.Model Require Import Base Object Proposition State ParameterGenerator Syntax Formula
  Effects Derived Consistency Text Pddl Planner Search.
From Verif.Spec Require Import SetSpec TypingSpec FormulaSpec EffectSpec DerivedSpec TextSpec AxiomSpec PddlSpec
  SearchSpec PlannerSpec DirectSpec PlainSpec.
From Verif.Proofs Require Import FormulaFacts EffectFacts EffectLink EffectTheorems StateHistory PddlFacts PddlTheorems PddlListing
  PlannerFacts PlannerTheorems DirectFacts NormalizeFacts TextFacts.
Import ListNotations.
Local Open Scope string_scope.
Local Open Scope list_scope.

Lemma eff_lit_same objects (C C' : assignment -> goal -> Prop) : (forall e g, C e g <-> C' e g) ->
  forall e env pos a, eff_lit objects C env e pos a <-> eff_lit objects C' env e pos a.
Proof.
  intros H. induction e as [fs adds dels cs IHf IHc] using effs_ind'. intros env pos a. rewrite !eff_lit_eq.
  assert (F : (exists vars b, In (vars, b) fs /\ exists objs, well_typed objects vars objs /\
     eff_lit objects C (bind_vars vars objs env) b pos a) <->
    (exists vars b, In (vars, b) fs /\ exists objs, well_typed objects vars objs /\
     eff_lit objects C' (bind_vars vars objs env) b pos a)).
  { split; intros (vars & b & I & objs & W & E); exists vars, b; (split; [exact I|]); exists objs; (split; [exact W|]);
      apply (IHf vars b I); exact E. }
  assert (G : (exists g b, In (g, b) cs /\ C env g /\ eff_lit objects C env b pos a) <->
    (exists g b, In (g, b) cs /\ C' env g /\ eff_lit objects C' env b pos a)).
  { split; intros (g & b & I & W & E); exists g, b; (split; [exact I|]); (split; [apply H; exact W|]);
      apply (IHc g b I); exact E. }
  tauto.
Qed.

Lemma eff_lit_sets objects (S S' : atom -> Prop) : (forall a, S a <-> S' a) ->
  forall e env pos a, eff_lit objects (holds objects S) env e pos a <-> eff_lit objects (holds objects S') env e pos a.
Proof. intros H. apply eff_lit_same. intros e g. apply holds_same; auto. Qed.

Lemma atom_plain objects (S : atom -> Prop) n args : ordinary objects n -> atom_holds objects S n args <-> S (n, map oname args).
Proof. intros [N T]. unfold atom_holds. tauto. Qed.
Lemma atom_equal objects (S : atom -> Prop) a b : atom_holds objects S "=" [a; b] <-> oname a = oname b.
Proof.
  unfold atom_holds. split.
  - intros [(_ & x & y & E & H)|[(N & _)|(N & _)]]; [injection E as -> ->; auto|congruence|congruence].
  - intros E. left. split; auto. exists a, b. auto.
Qed.

Section Same.
  Context (p : pddl).

  Lemma affects_same o args (S S' : atom -> Prop) pos a : (forall b, S b <-> S' b) ->
    affects p o args S pos a <-> affects p o args S' pos a.
  Proof. intros H. unfold affects. apply eff_lit_sets; auto. Qed.
  Lemma enabled_same o args (S S' : atom -> Prop) : (forall b, S b <-> S' b) -> enabled p o args S -> enabled p o args S'.
  Proof. intros H (A & B & C). split; auto. split; auto. apply (holds_same _ S S'); auto. Qed.
  Lemma turns_into_same o args (S S' U U' : atom -> Prop) : (forall b, S b <-> S' b) -> (forall b, U b <-> U' b) ->
    turns_into p o args S U -> turns_into p o args S' U'.
  Proof.
    intros H K F a. rewrite <- K, (F a), (affects_same o args S S' true a H), (affects_same o args S S' false a H), H. tauto.
  Qed.
  Lemma turns_into_unique o args (S U U' : atom -> Prop) : turns_into p o args S U -> turns_into p o args S U' ->
    forall a, U a <-> U' a.
  Proof. intros F F' a. rewrite (F a), (F' a). tauto. Qed.
  Lemma solves_same l : forall S S' : atom -> Prop, (forall b, S b <-> S' b) -> solves p l S -> solves p l S'.
  Proof.
    intros S S' H K. inversion K as [? Hg|o args l' ? U En Fo So]; subst.
    - constructor. apply (holds_same _ S S'); auto.
    - econstructor; [eapply enabled_same; eauto| |exact So]. eapply turns_into_same; [exact H| |exact Fo]. tauto.
  Qed.
  Lemma straight_same seen l S : straight p seen l S -> forall seen' S', (forall b, S b <-> S' b) ->
    Forall2 (fun U V : atom -> Prop => forall b, U b <-> V b) seen seen' -> straight p seen' l S'.
  Proof.
    induction 1 as [seen S Hg|seen o args l S U Ng Na Np En Fo Fr _ IH]; intros seen' S' H F.
    - constructor. apply (holds_same _ S S'); auto.
    - apply sr_step with (S' := U); auto.
      + intros K. apply Ng. apply (holds_same _ S S'); auto.
      + eapply enabled_same; eauto.
      + eapply turns_into_same; [exact H| |exact Fo]. tauto.
      + intros V [<-|I] Q.
        * apply (Fr S); [left; auto|]. intros a. rewrite H. apply Q.
        * assert (X : exists W : atom -> Prop, In W seen /\ forall b, W b <-> V b).
          { clear -F I. induction F as [|x y l l' E _ IH']; [destruct I|]. destruct I as [<-|I]; [exists x; split; [left|]; auto|].
            destruct (IH' I) as (W & J & Q). exists W. split; [right|]; auto. }
          destruct X as (W & J & E). apply (Fr W); [right; auto|]. intros a. rewrite E. apply Q.
      + apply IH; [tauto|]. constructor; auto.
  Qed.
  Lemma attainable_same S0 (S S' : atom -> Prop) : (forall b, S b <-> S' b) -> attainable p S0 S -> attainable p S0 S'.
  Proof.
    intros H K. inversion K as [? E|U o args ? A En Fo]; subst.
    - apply at_start. intros a. rewrite E. apply H.
    - eapply at_step; [exact A|exact En|]. eapply turns_into_same; [|exact H|exact Fo]. tauto.
  Qed.
  Lemma straight_solves seen l S : straight p seen l S -> solves p l S.
  Proof. induction 1; [constructor; auto|econstructor; eauto]. Qed.
End Same.

Section Domain.
  Context `{SH : StdHash}.
  Context (L : limits) (p : pddl) (ar : string -> nat) (rank : nat -> nat) (drank : string -> nat).
  Context (G : good_domain L p ar rank drank) (S0 : atom -> Prop) (Od : orderly p S0).
  Notation objs := (pd_symbols p).
  Notation reachable := (reachable_store objs ar (pd_axioms p)).

  Lemma effects_follow o args s t : represents s t -> attainable p S0 (atoms s) -> enabled p o args (atoms s) ->
    exists n t1, effects_give L p o args t = Ok (n, t1) /\ turns_into p o args (set_of t) (set_of t1).
  Proof.
    intros R At En. pose proof En as (I & Wt & Pr). pose proof (well_typed_length _ _ _ Wt) as Ln.
    destruct (temp_agree L p ar rank drank G o args s no_store t I Ln (rs_none _ _ _) R) as [A _].
    pose proof (go_wf _ _ _ (proj1 (op_good L p ar rank drank G o I))) as Wf.
    destruct (stable_lemma objs (pd_axioms p) (l_cascade L) (OAct (op_name o)) o args s (forget_actions no_store)
      (gd_types _ _ _ _ _ G) (proj1 R) Ln Wf (od_quiet _ _ Od o I) (od_ordinary _ _ Od o I)
      (od_reads _ _ Od o args _ At En) (od_clash _ _ Od o args _ At En)) as (n & s1 & E & B1 & H1).
    unfold temp_apply in A. cbn [fst snd] in A. rewrite (gd_om _ _ _ _ _ G), E in A. cbn [bind] in A.
    destruct (effects_give L p o args t) as [[m t1]| | | |]; cbn in A; try tauto.
    destruct A as (_ & [_ R1] & _). cbn in R1. exists m, t1. split; auto. destruct R as [_ R].
    apply (turns_into_same p o args (atoms s) _ (atoms s1)); auto.
  Qed.

  Lemma results_follow o args s t : represents s t -> attainable p S0 (set_of t) -> enabled p o args (set_of t) ->
    (exists t', results_in L p o args t t') /\
    forall t', results_in L p o args t t' <-> turns_into p o args (set_of t) (set_of t').
  Proof.
    intros R At En. assert (At' : attainable p S0 (atoms s)).
    { eapply attainable_same; [|exact At]. intros a. symmetry. apply (proj2 R a). }
    assert (En' : enabled p o args (atoms s)).
    { eapply enabled_same; [|exact En]. intros a. symmetry. apply (proj2 R a). }
    destruct (effects_follow o args s t R At' En') as (n & t1 & E & F).
    assert (D : forall t', results_in L p o args t t' <-> forall a, t' a = t1 a).
    { intros t'. unfold results_in. rewrite (od_derived _ _ Od). split.
      - intros (n' & t1' & E' & H & _) a. rewrite E in E'. injection E' as _ <-. apply H. intros (d & [] & _).
      - intros H. exists n, t1. split; auto. split; [auto|intros d []]. }
    split; [exists t1; apply D; auto|]. intros t'. rewrite D. split.
    - intros H. eapply turns_into_same; [| |exact F]; [tauto|]. intros a. unfold set_of. rewrite H. tauto.
    - intros F' a. pose proof (turns_into_unique p o args _ _ _ F F' a) as K. unfold set_of in K.
      destruct (t' a), (t1 a); intuition congruence.
  Qed.

  (** ** One step *)
  Lemma C76_next_lemma call o args s st : built s -> reachable st -> calls p call o args -> attainable p S0 (atoms s) ->
    enabled p o args (atoms s) ->
    exists s' st', next_state L p call (s, st) = Ok (s', st') /\ reachable st' /\ built s' /\
      turns_into p o args (atoms s) (atoms s').
  Proof.
    intros B Rs C At En. pose proof (set_in_represents s B) as R.
    assert (At' : attainable p S0 (set_of (set_in s))) by (eapply attainable_same; [|exact At]; apply R).
    assert (En' : enabled p o args (set_of (set_in s))) by (eapply enabled_same; [|exact En]; apply R).
    destruct (results_follow o args s _ R At' En') as [(t' & Rt) H].
    destruct (next_ok L p ar rank drank G call s st _ Rs R) as [(o1 & a1 & s' & st' & E & C1 & Rs' & B' & Re & U)|[_ N]].
    2:{ exfalso. eapply N; eauto. }
    exists s', st'. split; auto. split; auto. split; auto. pose proof (U _ _ _ C Rt) as [_ R'].
    apply (turns_into_same p o args (set_of (set_in s)) _ (set_of t')).
    - intros b. symmetry. apply (proj2 R b).
    - intros b. symmetry. apply R'.
    - apply H; auto.
  Qed.

  (** ** Plans *)
  Lemma plan_solves cs : forall s t, represents s t -> attainable p S0 (set_of t) -> plan_ok L p cs t <->
    exists l, Forall2 (fun c x => calls p c (fst x) (snd x)) cs l /\ solves p l (set_of t).
  Proof.
    induction cs as [|c cs IH]; intros s t R At; split.
    - intros K. inversion K; subst. exists []. split; constructor; auto.
    - intros (l & F & K). inversion F; subst. inversion K; subst. constructor; auto.
    - intros K. inversion K as [|? ? o args ? t' C P Rt K1]; subst.
      destruct (calls_typed p _ _ _ C) as [Io Wt].
      assert (En : enabled p o args (set_of t)) by (split; auto).
      destruct (results_follow o args s t R At En) as [_ H].
      pose proof (step_ok L p ar rank drank G o args s no_store t Io (well_typed_length _ _ _ Wt) (rs_none _ _ _) R) as Q.
      pose proof Rt as (n & t1 & Ee & _). rewrite Ee in Q. destruct Q as (b & s' & st' & _ & _ & _ & _ & _ & U).
      destruct (proj1 (IH s' t' (U _ Rt) (at_step p S0 _ o args _ At En (proj1 (H t') Rt))) K1) as (l & F & So). exists ((o, args) :: l).
      split; [constructor; auto|]. econstructor; eauto. apply H; auto.
    - intros (l & F & K). inversion F as [|? [o args] ? l' C F']; subst. cbn in C.
      inversion K as [|? ? ? ? S' En Fo So]; subst.
      destruct (results_follow o args s t R At En) as [(t' & Rt) H]. pose proof En as (Io & Wt & Pr).
      pose proof (step_ok L p ar rank drank G o args s no_store t Io (well_typed_length _ _ _ Wt) (rs_none _ _ _) R) as Q.
      pose proof Rt as (n & t1 & Ee & _). rewrite Ee in Q. destruct Q as (b & s' & st' & _ & _ & _ & _ & _ & U).
      econstructor; eauto. apply (IH s' t' (U _ Rt) (at_step p S0 _ o args _ At En (proj1 (H t') Rt))). exists l'. split; auto.
      eapply solves_same; [|exact So]. eapply turns_into_unique; [exact Fo|]. apply H; auto.
  Qed.
  Lemma plan_decided cs : forall s t l, represents s t -> attainable p S0 (set_of t) ->
    Forall2 (fun c x => calls p c (fst x) (snd x)) cs l -> plan_ok L p cs t \/ plan_fails L p cs t.
  Proof.
    induction cs as [|c cs IH]; intros s t l R At F.
    - destruct (holdsb objs t no_env (pd_goal p)) eqn:E.
      + left. constructor. apply goal_b; auto.
      + right. constructor. intros K. apply goal_b in K. congruence.
    - inversion F as [|? [o args] ? l' C F']; subst. cbn in C. destruct (calls_typed p _ _ _ C) as [Io Wt].
      destruct (holdsb objs t (bind_vars (op_params o) args no_env) (op_pre o)) eqn:E.
      2:{ right. eapply pf_precondition; eauto. intros K. apply precondition_b in K. congruence. }
      apply precondition_b in E. assert (En : enabled p o args (set_of t)) by (split; auto).
      destruct (results_follow o args s t R At En) as [(t' & Rt) H].
      pose proof (step_ok L p ar rank drank G o args s no_store t Io (well_typed_length _ _ _ Wt) (rs_none _ _ _) R) as Q.
      pose proof Rt as (n & t1 & Ee & _). rewrite Ee in Q. destruct Q as (b & s' & st' & _ & _ & _ & _ & _ & U).
      destruct (IH s' t' l' (U _ Rt) (at_step p S0 _ o args _ At En (proj1 (H t') Rt)) F'); [left; eapply po_call|right; eapply pf_call]; eauto.
  Qed.
  Lemma C76_plan_lemma cs st : built (pd_init p) -> (forall a, S0 a <-> atoms (pd_init p) a) -> reachable st ->
    ((exists st', is_valid_plan L p cs st = Ok (true, st')) <->
     exists l, Forall2 (fun c x => calls p c (fst x) (snd x)) cs l /\ solves p l (atoms (pd_init p))) /\
    (forall l, Forall2 (fun c x => calls p c (fst x) (snd x)) cs l ->
       exists b st', is_valid_plan L p cs st = Ok (b, st')).
  Proof.
    intros B E0 Rs. pose proof (set_in_represents _ B) as R.
    assert (At : attainable p S0 (set_of (set_in (pd_init p)))) by (apply at_start; intros a; rewrite E0; apply R).
    destruct (C41_lemma L p ar rank drank G cs st _ Rs R) as (H1 & H2 & _). split.
    - rewrite H1, (plan_solves cs _ _ R At). split; intros (l & F & K); exists l; (split; [exact F|]);
        (eapply solves_same; [|exact K]); intros a; [symmetry|]; apply (proj2 R a).
    - intros l F. destruct (plan_decided cs _ _ l R At F) as [K|K].
      + apply H1 in K as (st' & E). eauto.
      + apply H2 in K as (st' & E). eauto.
  Qed.

  (** ** Search *)
  Lemma direct_straight d : forall seen t cs s, represents s t -> attainable p S0 (set_of t) -> direct L p seen d t cs <->
    exists l, cs = printed l /\ length l <= d /\ straight p (map set_of seen) l (set_of t).
  Proof.
    assert (Fr : forall (seen : list aset) t t', (forall u, In u (t :: seen) -> ~ same u t') <->
      (forall U, In U (set_of t :: map set_of seen) -> ~ forall a, U a <-> set_of t' a)).
    { intros seen t t'. change (set_of t :: map set_of seen) with (map set_of (t :: seen)).
      assert (Q : forall u, same u t' <-> forall a, set_of u a <-> set_of t' a).
      { intros u. unfold same, set_of. split; intros H a; specialize (H a); [rewrite H; tauto|].
        destruct (u a), (t' a); intuition congruence. }
      split.
      - intros H U I. apply in_map_iff in I as (u & <- & I). rewrite <- Q. auto.
      - intros H u I. rewrite Q. apply H. apply in_map; auto. }
    induction d as [|d IH]; intros seen t cs s R At; split.
    - intros D. inversion D; subst. exists []. split; auto. split; auto. constructor; auto.
    - intros (l & -> & Ln & K). destruct l; [|cbn in Ln; lia]. inversion K; subst. constructor; auto.
    - intros D. inversion D as [|? ? ? o args t' cs' Ng Io Na Np Wt Pr Rt Ne D']; subst.
      + exists []. split; auto. split; [cbn; lia|]. constructor; auto.
      + assert (En : enabled p o args (set_of t)) by (split; auto).
        destruct (results_follow o args s t R At En) as [_ H].
        pose proof (step_ok L p ar rank drank G o args s no_store t Io (well_typed_length _ _ _ Wt) (rs_none _ _ _) R) as Q.
        pose proof Rt as (n & t1 & Ee & _). rewrite Ee in Q. destruct Q as (b & s' & st' & _ & _ & _ & _ & _ & U).
        destruct (proj1 (IH (t :: seen) t' cs' s' (U _ Rt) (at_step p S0 _ o args _ At En (proj1 (H t') Rt))) D') as (l & -> & Ln & K).
        exists ((o, args) :: l). split; auto. split; [cbn; lia|]. apply sr_step with (S' := set_of t'); auto.
        * apply H; auto.
        * apply Fr; auto.
    - intros (l & -> & Ln & K). inversion K as [|? o args l' ? S' Ng Na Np En Fo Ne K']; subst; [constructor; auto|].
      destruct (results_follow o args s t R At En) as [(t' & Rt) H]. pose proof En as (Io & Wt & Pr).
      pose proof (step_ok L p ar rank drank G o args s no_store t Io (well_typed_length _ _ _ Wt) (rs_none _ _ _) R) as Q.
      pose proof Rt as (n & t1 & Ee & _). rewrite Ee in Q. destruct Q as (b & s' & st' & _ & _ & _ & _ & _ & U).
      assert (X : forall a, S' a <-> set_of t' a) by (eapply turns_into_unique; [exact Fo|]; apply H; auto).
      cbn [printed map fst snd]. eapply di_call; eauto.
      + apply Fr. intros V I Q. apply (Ne V I). intros a. rewrite Q. symmetry. apply X.
      + apply (IH (t :: seen) t' _ s' (U _ Rt) (at_step p S0 _ o args _ At En (proj1 (H t') Rt))). exists l'. split; auto. split; [cbn in Ln; lia|].
        eapply straight_same; [exact K'|exact X|]. cbn [map]. clear. generalize (set_of t :: map set_of seen).
        intros l. induction l; constructor; auto. tauto.
  Qed.
  Lemma direct_straight_root d s t cs : represents s t -> (forall a, S0 a <-> atoms s a) ->
    direct L p [] d t cs <->
    exists l, cs = printed l /\ length l <= d /\ straight p [] l (atoms s).
  Proof.
    intros R E0. rewrite (direct_straight d [] t cs s R) by (apply at_start; intros a; rewrite E0; apply (proj2 R a)). split; intros (l & E & Ln & K); exists l; (split; [exact E|]);
      (split; [exact Ln|]); (eapply straight_same; [exact K| |constructor]); intros a; [symmetry|]; apply (proj2 R a).
  Qed.
End Domain.

Section Search.
  Context `{SH : StdHash}.
  Context (L : limits) (p : pddl) (ar : string -> nat) (rank : nat -> nat) (drank : string -> nat).
  Context (G : good_domain L p ar rank drank).
  Notation objs := (pd_symbols p).
  Notation reachable := (reachable_store objs ar (pd_axioms p)).
  Context (Hcount : Forall (fun o => (tuple_count (pd_symbols p) (op_params o) < 2 ^ 31)%Z) (pd_ops p)).
  Context (Ha : pd_actions p <> []).
  Context (Hwords : Forall word (map oname (pd_symbols p))) (Hops : Forall (fun o => free_of "("%char (op_name o)) (pd_ops p))
    (Nops : NoDup (map op_name (pd_ops p))).
  Context (Ho : ordinary_domain p).

  Lemma printed_calls o args : In o (pd_ops p) -> well_typed objs (op_params o) args ->
    calls p (action_to_string o args) o args.
  Proof.
    intros I W. apply parse_calls. unfold pd_parse. apply C17_print_lemma.
    - rewrite Forall_forall in Hops. auto.
    - eapply args_words; eauto.
    - apply first_named_unique; auto.
    - intros a Ia. apply first_named_unique; [apply (gd_names _ _ _ _ _ G)|]. clear -W Ia.
      induction W as [|q x ps args [Hx Ix] W IH]; [destruct Ia|]. destruct Ia as [<-|Ia]; auto.
    - clear -W. induction W as [|q x ps args [Hx Ix] W IH]; constructor; auto.
  Qed.
  Lemma solves_calls l S : solves p l S -> Forall2 (fun c x => calls p c (fst x) (snd x)) (printed l) l.
  Proof.
    induction 1 as [|o args l S S' (I & W & _) _ _ IH]; [constructor|]. cbn. constructor; auto. cbn.
    apply printed_calls; auto.
  Qed.

  Lemma C76_search_lemma : exists K0, forall K s st0 root st1 d, K0 <= K -> built s ->
    make_planner L p (s, st0) = Ok (root, st1) -> orderly p (atoms (nd_state root)) ->
    exists plans M,
      (forall calls fuel w, M <= calls -> M <= fuel -> reachable w ->
         exists w', bfs_all (node_goal p) (node_children L p K) d calls fuel never root w = Ok (plans, w')) /\
      NoDup (map plan_calls plans) /\
      (forall cs, In cs (map plan_calls plans) <->
         exists l, cs = printed l /\ length l <= d /\ straight p [] l (atoms (nd_state root))) /\
      (forall l, solves p l (atoms (nd_state root)) -> length l <= d ->
         Forall (fun x => op_is_axiom (fst x) = false /\ op_params (fst x) <> []) l ->
         exists plan rest, plans = plan :: rest /\ length (plan_calls plan) <= length l).
  Proof.
    destruct (C74_bfs_lemma L p ar rank drank G Hcount Ha Hwords Hops Nops Ho) as (K0 & H).
    exists (max K0 (enough p)). intros K s st0 root st1 d HK B E Od.
    assert (B' : built (nd_state root)).
    { destruct (root_lemma L p s st0 root st1 B E) as [(s' & -> & B') _]. exact B'. }
    pose proof (set_in_represents _ B') as R.
    destruct (H K s st0 root st1 _ d ltac:(lia) B E R) as (plans & M & HM & N & D & So).
    exists plans, M. split; auto. split; auto. split.
    - intros cs. rewrite D. apply (direct_straight_root L p ar rank drank G _ Od); auto. tauto.
    - intros l Sl Ld F.
      assert (Sl' : solves p l (set_of (set_in (nd_state root)))).
      { eapply solves_same; [|exact Sl]. apply R. }
      assert (At : attainable p (atoms (nd_state root)) (set_of (set_in (nd_state root)))) by (apply at_start; apply R).
      assert (Po : plan_ok L p (printed l) (set_in (nd_state root))).
      { apply (plan_solves L p ar rank drank G _ Od (printed l) _ _ R At). exists l. split; auto. eapply solves_calls; eauto. }
      assert (Fp : Forall (plain_call p) (printed l)).
      { pose proof (solves_calls _ _ Sl) as Fc. clear -F Fc. unfold printed in *.
        induction l as [|[o args] l IH]; [constructor|]. inversion F as [|? ? [F1 F2] F3]; subst. cbn in Fc.
        inversion Fc; subst. constructor; auto. exists o, args. auto. }
      destruct (C62_lemma L p ar rank drank G Hcount Ha K ltac:(lia) Ho (length l) (nd_state root) _ R)
        as (plans2 & M2 & HM2 & H2 & _).
      destruct (H2 (printed l) Po Fp) as (plan2 & rest2 & ->).
      { unfold printed. rewrite map_length. auto. }
      destruct (HM2 M2 M2 no_store (le_n _) (le_n _) (rs_none _ _ _)) as (w2 & E2).
      destruct (bfs_direct_any L p ar rank drank G Hcount Ha Hwords Hops Nops Ho K ltac:(lia) _ _ _ _ _ _ _ _ R (rs_none _ _ _) E2)
        as (_ & D2 & _).
      pose proof (proj1 (D2 _) (or_introl eq_refl)) as Di.
      apply (direct_straight_root L p ar rank drank G _ Od _ (nd_state root)) in Di as (l2 & El & Ll & Kl); auto; [|tauto].
      assert (Le : length (plan_calls plan2) <= length l) by (rewrite El; unfold printed; rewrite map_length; exact Ll).
      assert (Di' : direct L p [] d (set_in (nd_state root)) (plan_calls plan2)).
      { apply (direct_straight_root L p ar rank drank G _ Od _ (nd_state root)); auto; [tauto|].
        exists l2. split; auto. split; auto. lia. }
      apply D in Di'. destruct plans as [|plan rest]; [destruct Di'|]. exists plan, rest. split; auto.
      cbn in So, Di'. inversion So as [|? ? _ Fs]; subst. rewrite Forall_forall in Fs.
      destruct Di' as [Q|Q]; [rewrite Q; auto|]. specialize (Fs _ Q). cbn in Fs. lia.
  Qed.
End Search.
