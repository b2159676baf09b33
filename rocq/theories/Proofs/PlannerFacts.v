(** Lemmas behind C43: one call, and the children it gives rise to. *)
From Coq Require Import String List Bool NArith ZArith Arith Lia.
From Verif.Model Require Import Base Object Proposition State ParameterGenerator Syntax Formula
  Effects Derived Consistency Text Pddl Planner.
From Verif.Spec Require Import SetSpec TypingSpec FormulaSpec EffectSpec DerivedSpec TextSpec PddlSpec PlannerSpec.
From Verif.Proofs Require Import StateFacts StateHistory FormulaFacts EffectFacts EffectLink EffectTheorems
  DerivedFacts TextFacts PddlFacts PddlTheorems PddlListing PddlHistory PlannerLoops.
Import ListNotations.
Local Open Scope string_scope.
Local Open Scope list_scope.

(** ** Effects without = and types do not throw *)
Definition calm {A} (x : outcome A) : Prop := match x with Ok _ => True | _ => False end.
Lemma calm_bind {A B} (x : outcome A) (f : A -> outcome B) :
  calm x -> (forall a, x = Ok a -> calm (f a)) -> calm (bind x f).
Proof. destruct x; cbn; auto. Qed.

Section Calm.
  Context {T : Type} (ins del : prop -> T -> nat * T)
          (cond : T -> goal -> list object -> list object -> outcome bool)
          (objects : list object) (axioms : list axiom).
  Context (Hc : forall t g params vals, calm (cond t g params vals)).
  Context (Hax : forall a, In a axioms -> ordinary_effs objects (op_effs (ax_op a))).

  Lemma in_turn_calm {A} (f : A -> T -> outcome (nat * T)) l :
    (forall a t, In a l -> calm (f a t)) -> forall n t, calm (in_turn f l n t).
  Proof.
    induction l as [|a l IH]; intros H n t; cbn [in_turn]; [exact I|].
    apply calm_bind; [apply H; left; auto|]. intros [m t'] _. apply IH. intros; apply H; right; auto.
  Qed.

  Section Body.
    Context (rec : nat -> list object -> T -> outcome (nat * T)) (sigs : list (bool * string)).
    Context (Hrec : forall i a vals t, nth_error axioms i = Some a -> In (ax_pos a, ax_name a) sigs ->
               length vals = length (op_params (ax_op a)) -> calm (rec i vals t)).
    Context (Ho : forall s, In s sigs -> ordinary objects (snd s)).

    Lemma sub_fire_calm pos name l : In (pos, name) sigs -> forall axs pre, axioms = pre ++ axs -> forall t,
      calm (sub_fire rec (length pre) axs pos name l t).
    Proof.
      intros Is. induction axs as [|a axs IH]; intros pre E t; cbn [sub_fire]; [exact I|].
      assert (N : nth_error axioms (length pre) = Some a).
      { rewrite E, nth_error_app2, Nat.sub_diag by lia. reflexivity. }
      assert (E' : axioms = (pre ++ [a]) ++ axs) by (rewrite <- app_assoc; exact E).
      specialize (IH _ E'). rewrite app_length in IH. cbn in IH. rewrite Nat.add_1_r in IH.
      apply calm_bind; [|intros; apply IH].
      destruct (Bool.eqb (ax_pos a) pos && String.eqb (ax_name a) name) eqn:Em; [|exact I].
      apply andb_true_iff in Em. destruct Em as [E1 E2]. apply Bool.eqb_prop in E1. apply String.eqb_eq in E2.
      subst pos name. unfold context_values. destruct (consts_match _ _ l); [|exact I].
      apply calm_bind; [|intros [? ?] _; exact I].
      apply (Hrec _ a); auto. apply map_length.
    Qed.

    Lemma sub_effs_calm e : forall params vals t, incl (eff_sigs e) sigs ->
      calm (sub_effs ins del cond objects axioms rec params vals e t).
    Proof.
      assert (HL : forall params vals pos p t, In (pos, pname p) sigs ->
                 calm (sub_lit ins del objects axioms rec params vals pos p t)).
      { intros params vals pos p t Is. unfold sub_lit. destruct (Ho _ Is) as [O1 O2]. cbn in O1, O2.
        destruct (String.eqb_spec (pname p) "=") as [Eq|_]; [congruence|].
        destruct (is_typeb objects (pname p)) eqn:Et; [apply is_typeb_spec in Et; tauto|].
        destruct ((if pos then ins else del) _ t) as [s t1]. destruct (Nat.eqb s 0); [exact I|].
        apply calm_bind; [|intros; exact I]. exact (sub_fire_calm pos (pname p) _ Is axioms [] eq_refl t1). }
      induction e as [fs adds dels cs IHf IHc] using effs_ind'.
      intros params vals t Is. cbn [sub_effs]. apply calm_bind.
      { apply in_turn_calm. intros [vars b] t1 If. cbn [fst snd]. apply in_turn_calm.
        intros objs t2 Io. apply (IHf vars b If). intros s Hs. apply Is. eapply sigs_forall; eauto. }
      intros [n1 t1] _. apply calm_bind.
      { apply in_turn_calm. intros p t2 Ip. apply HL. apply Is, sigs_add; auto. }
      intros [n2 t2] _. apply calm_bind.
      { apply in_turn_calm. intros p t3 Ip. apply HL. apply Is, sigs_del; auto. }
      intros [n3 t3] _. apply in_turn_calm. intros [g b] t4 Ic. cbn [fst snd].
      apply calm_bind; [apply Hc|]. intros [|] _; [|exact I].
      apply (IHc g b Ic); auto. intros s Hs. apply Is. eapply sigs_cond; eauto.
    Qed.
  End Body.

  Lemma sub_axiom_calm rank : ranked axioms rank ->
    forall fuel i a vals t, nth_error axioms i = Some a -> rank i < fuel ->
    calm (sub_axiom ins del cond objects axioms fuel i vals t).
  Proof.
    intros Hr. induction fuel as [|fuel IH]; intros i a vals t N Lf; [lia|]. cbn [sub_axiom]. rewrite N.
    apply (sub_effs_calm _ (eff_sigs (op_effs (ax_op a)))).
    - intros j b vals' t' Nb Ib Lb. eapply IH; eauto. pose proof (Hr i a N j b Nb Ib). lia.
    - apply Hax. eapply nth_error_In; eauto.
    - intros s Hs; auto.
  Qed.

  Lemma sub_op_calm rank fuel o vals t : ranked axioms rank -> ordinary_effs objects (op_effs o) ->
    (forall i, i < length axioms -> rank i < fuel) ->
    calm (sub_effs ins del cond objects axioms (sub_axiom ins del cond objects axioms fuel)
       (op_params o) vals (op_effs o) t).
  Proof.
    intros Hr Oe Hf. apply (sub_effs_calm _ (eff_sigs (op_effs o))); auto.
    - intros i a vals' t' N _ Lv. eapply sub_axiom_calm; eauto. apply Hf. apply nth_error_Some. congruence.
    - intros s Hs; auto.
  Qed.
End Calm.

(** ** Sets of States *)
Section States.
  Context `{SH : StdHash}.

  Lemma eqb_among s t s' : represents s t -> built s' -> st_eqb s s' = true <-> represents s' t.
  Proof.
    intros R B. rewrite (eqb_represents s s' t R B). unfold represents. tauto.
  Qed.
  Lemma has_among s t l : represents s t -> Forall built l -> has_state s l = true <-> among l t.
  Proof.
    intros R F. rewrite Forall_forall in F. unfold has_state. rewrite existsb_exists. split.
    - intros (x & I & E). exists x. split; auto. apply (eqb_among s t x); auto.
    - intros (x & I & E). exists x. split; auto. apply (eqb_among s t x); auto.
  Qed.
  Lemma add_among s l t : built s -> Forall built l -> among (add_state s l) t <-> among (s :: l) t.
  Proof.
    intros B F. unfold add_state. destruct (has_state s l) eqn:E; [|tauto]. split.
    - intros (x & I & R). exists x. split; [right|]; auto.
    - intros (x & [<-|I] & R); [|exists x; auto]. apply (has_among s t l R F); auto.
  Qed.
  Lemma add_built s l : built s -> Forall built l -> Forall built (add_state s l).
  Proof. intros B F. unfold add_state. destruct (has_state s l); auto. Qed.
End States.

Section Domain.
  Context `{SH : StdHash} (L : limits) (p : pddl) (ar : string -> nat) (rank : nat -> nat) (drank : string -> nat).
  Context (G : good_domain L p ar rank drank).
  Notation objs := (pd_symbols p).
  Notation reachable := (reachable_store objs ar (pd_axioms p)).
  Notation act o args w := (apply_state (l_cascade L) (pd_om p) (pd_axioms p) (OAct (op_name o)) o args w).

  (** An action of Pddl::actions(), whose vectors are kept. *)
  Lemma act_agree o args s st t : In o (pd_ops p) -> length (op_params o) = length args ->
    reachable st -> represents s t ->
    orel (eff_rel p ar) (act o args (s, st)) (effects_give L p o args t) /\
    fair (effects_give L p o args t).
  Proof.
    intros I Ln Rs R. destruct (op_good L p ar rank drank G o I) as [Go _].
    pose proof (gd_types _ _ _ _ _ G) as W. pose proof (gd_axioms _ _ _ _ _ G) as Ha.
    pose proof (gd_ranked _ _ _ _ _ G) as Hr. split.
    2:{ unfold effects_give. eapply sub_op_fair; eauto; [|apply (gd_cascade _ _ _ _ _ G)].
        intros; exact Logic.I. }
    rewrite (gd_om _ _ _ _ _ G).
    pose proof (apply_op_link st_ins st_del (cond_state (create_object_map objs)) objs (pd_axioms p) ar rank
      (l_cascade L) (OAct (op_name o)) o args s st W Ha Hr Go Ln
      (reachable_ok objs ar rank _ _ W Ha Hr Rs) Logic.I) as K.
    pose proof (sub_op_agree st_ins st_del a_ins a_del (cond_state (create_object_map objs)) (a_cond objs) objs
      (pd_axioms p) represents represents_ins represents_del
      ltac:(intros a b g ps vs Rab Lp Wg; unfold cond_state, a_cond; rewrite (eval_agree objs a b) by auto; reflexivity)
      ar (l_cascade L) o args s t Ha Go Ln R) as A.
    unfold apply_state. fold (apply_state (l_cascade L) (create_object_map objs) (pd_axioms p) (OAct (op_name o)) o args
       (s, st)) in K |- *.
    destruct (apply_state _ _ _ _ _ _ _) as [[n [s' st']]|e| | |] eqn:E; unfold effects_give;
      destruct (sub_effs st_ins _ _ _ _ _ _ _ _ _) as [[m u]|e1| | |]; cbn in K; try tauto;
      destruct (sub_effs a_ins _ _ _ _ _ _ _ _ _) as [[k v]|e2| | |]; cbn in A; try tauto; cbn; try congruence.
    destruct K as (-> & -> & _), A as [EA RA]. cbn in EA, RA. split; [auto|]. split; [auto|]. cbn.
    eapply rs_state; [exact Rs|exact Go|exact Ln|exact E].
  Qed.

  Definition same_world {A} (x y : A * (state * store)) : Prop :=
    fst x = fst y /\ fst (snd x) = fst (snd y) /\ reachable (snd (snd x)) /\ reachable (snd (snd y)).

  Lemma act_history o args s st1 st2 : In o (pd_ops p) -> length (op_params o) = length args ->
    reachable st1 -> reachable st2 -> orel same_world (act o args (s, st1)) (act o args (s, st2)).
  Proof.
    intros I Ln R1 R2. destruct (op_good L p ar rank drank G o I) as [Go _].
    pose proof (gd_types _ _ _ _ _ G) as W. pose proof (gd_axioms _ _ _ _ _ G) as Ha.
    pose proof (gd_ranked _ _ _ _ _ G) as Hr. rewrite (gd_om _ _ _ _ _ G) in *.
    pose proof (fun st R => apply_op_link st_ins st_del (cond_state (create_object_map objs)) objs (pd_axioms p) ar rank
      (l_cascade L) (OAct (op_name o)) o args s st W Ha Hr Go Ln
      (reachable_ok objs ar rank _ _ W Ha Hr R) Logic.I) as K.
    pose proof (K _ R1) as K1. pose proof (K _ R2) as K2. clear K. unfold apply_state.
    fold (apply_state (l_cascade L) (create_object_map objs) (pd_axioms p) (OAct (op_name o)) o args (s, st1)) in K1 |- *.
    fold (apply_state (l_cascade L) (create_object_map objs) (pd_axioms p) (OAct (op_name o)) o args (s, st2)) in K2 |- *.
    destruct (apply_state _ _ _ _ _ _ (s, st1)) as [[n1 [s1 st3]]|e| | |] eqn:E1;
      destruct (apply_state _ _ _ _ _ _ (s, st2)) as [[n2 [s2 st4]]|e'| | |] eqn:E2;
      destruct (sub_effs st_ins _ _ _ _ _ _ _ _ _) as [[k u]|e1| | |]; cbn in *; try tauto; try congruence.
    destruct K1 as (-> & -> & _), K2 as (-> & -> & _). repeat split; cbn.
    - eapply rs_state; [exact R1|exact Go|exact Ln|exact E1].
    - eapply rs_state; [exact R2|exact Go|exact Ln|exact E2].
  Qed.

  (** ** One tuple *)

  (** The child_ of the iterator belongs to the node. *)
  Definition sibling (n : node) (child : option node) : Prop :=
    match child with
    | None => True
    | Some c => nd_ancestors c = add_state (nd_state n) (nd_ancestors n) /\ nd_depth c = S (nd_depth n)
    end.
  Lemma child_sibling n child s a : sibling n child -> sibling n (Some (child_node n child s a)).
  Proof. destruct child as [c|]; cbn; auto. Qed.

  Definition node_ok (n : node) : Prop := built (nd_state n) /\ Forall built (nd_ancestors n).

  Lemma try_ok n o args child st t : In o (pd_ops p) -> length (op_params o) = length args ->
    reachable st -> node_ok n -> represents (nd_state n) t -> sibling n child ->
    if holdsb objs t (bind_vars (op_params o) args no_env) (op_pre o) then
      (exists c st' t', try_tuple L p n o args child st = Ok (negb (has_state (nd_state c) (nd_ancestors c)), (Some c, st')) /\
         reachable st' /\ results_in L p o args t t' /\ represents (nd_state c) t' /\ sibling n (Some c) /\
         nd_action c = action_to_string o args) \/
      (try_tuple L p n o args child st = Throw ERuntime /\ forall t', ~ results_in L p o args t t')
    else try_tuple L p n o args child st = Ok (false, (child, st)).
  Proof.
    intros I Ln Rs [B F] R Sb. unfold try_tuple. rewrite (valid_agree L p ar rank drank G o args _ t I Ln R). cbn [bind].
    destruct (holdsb _ _ _ _); [|reflexivity].
    destruct (act_agree o args (nd_state n) st t I Ln Rs R) as [A Fa].
    destruct (act o args (nd_state n, st)) as [[k [s1 st1]]|e| | |],
      (effects_give L p o args t) as [[m t1]|e'| | |] eqn:E; cbn in A, Fa; try tauto.
    - left. destruct A as (EA & RA & Sa). cbn in EA, RA, Sa. subst m. cbn [bind].
      destruct (derive_ok L p ar rank drank G s1 t1 RA) as (c & s' & -> & B' & Lo & Sat & U). cbn [bind].
      exists (child_node n child s' (action_to_string o args)), st1, (set_in s').
      split; [reflexivity|]. split; auto. pose proof (set_in_represents s' B') as Rs'. split; [|split; [|split]].
      + exists k, t1. split; auto. destruct Rs' as [_ Hs]. split.
        * intros a Na. specialize (Lo a Na). specialize (Hs a). destruct (set_in s' a), (t1 a); intuition congruence.
        * intros d Id. apply (satisfied_same p (atoms s')); auto.
      + destruct child; exact Rs'.
      + apply child_sibling; auto.
      + destruct child; reflexivity.
    - right. subst. split; auto. intros t' (k & t2 & E2 & _). congruence.
  Qed.

  Lemma walk_ok n t : node_ok n -> represents (nd_state n) t -> forall l child st,
    (forall o args, In (o, args) l -> In o (pd_ops p) /\ length (op_params o) = length args) ->
    reachable st -> sibling n child ->
    let good := filter (fun x => holdsb objs t (bind_vars (op_params (fst x)) (snd x) no_env) (op_pre (fst x))) l in
    (exists cs st', walk L p n l child st = Ok (cs, st') /\ reachable st' /\ successors L p n t good cs) \/
    (walk L p n l child st = Throw ERuntime /\
     exists o args, In (o, args) good /\ forall t', ~ results_in L p o args t t').
  Proof.
    intros Nn R. induction l as [|[o args] l IH]; intros child st Hl Rs Sb; cbn [walk filter fst snd].
    { left. exists [], st. split; auto. split; auto. constructor. }
    destruct (Hl o args (or_introl eq_refl)) as [Io Ln].
    specialize (fun child st => IH child st (fun o args I => Hl o args (or_intror I))).
    pose proof (try_ok n o args child st t Io Ln Rs Nn R Sb) as T.
    destruct (holdsb objs t (bind_vars (op_params o) args no_env) (op_pre o)).
    - destruct T as [(c & st1 & t' & -> & Rs1 & Re & Rc & Sc & Ac)|[-> N]]; cbn [bind].
      2:{ right. split; auto. exists o, args. split; [left; auto|auto]. }
      destruct (IH (Some c) st1 Rs1 Sc) as [(cs & st2 & -> & Rs2 & Su)|(-> & o' & args' & I' & N)]; cbn [bind].
      2:{ right. split; auto. exists o', args'. split; [right; auto|auto]. }
      left. do 2 eexists. split; [reflexivity|]. split; auto. destruct Nn as [B F]. destruct Sc as [Sc Sd].
      pose proof (has_among (nd_state c) t' (nd_ancestors c) Rc) as H.
      assert (K : forall u, among (nd_ancestors c) u <-> known n u).
      { intros u. rewrite Sc. apply add_among; auto. }
      assert (Fc : Forall built (nd_ancestors c)) by (rewrite Sc; apply add_built; auto).
      specialize (H Fc). rewrite K in H. destruct (has_state (nd_state c) (nd_ancestors c)); cbn [negb].
      + apply su_known with t'; auto. apply H; auto.
      + apply su_child with t'; auto. intros Kn. apply H in Kn. discriminate.
    - rewrite T. cbn [bind]. destruct (IH child st Rs Sb) as [(cs & st2 & -> & Rs2 & Su)|(-> & o' & args' & I' & N)]; cbn [bind].
      + left. exists cs, st2. split; [destruct child; auto|auto].
      + right. split; auto. exists o', args'. auto.
  Qed.

  (** ** All children *)
  Context (Hcount : Forall (fun o => (tuple_count objs (op_params o) < 2 ^ 31)%Z) (pd_ops p)).
  Definition arg_tuples (o : op) : list (list object) :=
    match op_params o with [] => [] | _ => tuples objs (op_params o) end.

  Lemma arg_tuples_ok o : In o (pd_actions p) -> var_tuples (pd_om p) (op_params o) = Ok (arg_tuples o).
  Proof.
    intros I. apply filter_In in I as [I _]. unfold arg_tuples. destruct (op_params o) as [|v vs] eqn:E.
    - rewrite (gd_om _ _ _ _ _ G). reflexivity.
    - rewrite <- E, (gd_om _ _ _ _ _ G). apply tuples_exact; [apply (gd_types _ _ _ _ _ G)|congruence|].
      rewrite Forall_forall in Hcount. auto.
  Qed.
  Lemma filter_map_pair {A B} (f : A * B -> bool) (a : A) l :
    filter f (map (pair a) l) = map (pair a) (filter (fun b => f (a, b)) l).
  Proof. induction l as [|b l IH]; cbn; auto. destruct (f (a, b)); cbn; rewrite IH; auto. Qed.
  Lemma filter_flat_map {A B} (f : B -> bool) (g : A -> list B) l :
    filter f (flat_map g l) = flat_map (fun a => filter f (g a)) l.
  Proof. induction l as [|a l IH]; cbn; auto. rewrite filter_app, IH; auto. Qed.
  Lemma applicable_pairs t :
    filter (fun x => holdsb objs t (bind_vars (op_params (fst x)) (snd x) no_env) (op_pre (fst x)))
      (pairs arg_tuples (pd_actions p)) = applicable p t.
  Proof.
    unfold pairs, applicable, pd_actions. rewrite filter_flat_map. apply flat_map_ext. intros o.
    rewrite filter_map_pair. reflexivity.
  Qed.
  Lemma pairs_typed o args : In (o, args) (pairs arg_tuples (pd_actions p)) ->
    In o (pd_ops p) /\ length (op_params o) = length args.
  Proof.
    unfold pairs. rewrite in_flat_map. intros (o' & I & J). apply in_map_iff in J as (a & [= -> ->] & J).
    apply filter_In in I as [I _]. split; auto. unfold arg_tuples in J. destruct (op_params o) as [|v vs] eqn:E; [destruct J|].
    apply tuples_In in J. apply (well_typed_length _ _ _ J).
  Qed.

  Definition enough : nat := S (S (length (pairs arg_tuples (pd_actions p)) + length (pd_actions p))).

  Lemma children_ok K n st t : enough <= K -> pd_actions p <> [] -> node_ok n -> represents (nd_state n) t ->
    reachable st ->
    (exists cs st', node_children L p K n st = Ok (cs, st') /\ reachable st' /\ successors L p n t (applicable p t) cs) \/
    (node_children L p K n st = Throw ERuntime /\
     exists o args, In (o, args) (applicable p t) /\ forall t', ~ results_in L p o args t t').
  Proof.
    intros LK Ne Nn R Rs. rewrite (children_walk L p arg_tuples arg_tuples_ok K n st Ne) by exact LK.
    pose proof (walk_ok n t Nn R (pairs arg_tuples (pd_actions p)) None st pairs_typed Rs Logic.I) as H.
    cbn zeta in H. rewrite applicable_pairs in H. exact H.
  Qed.

  (** They do not depend on earlier calls. *)
  Lemma children_history K n st1 st2 cs st' : enough <= K -> pd_actions p <> [] -> reachable st1 -> reachable st2 ->
    node_children L p K n st1 = Ok (cs, st') ->
    reachable st' /\ exists st'', reachable st'' /\ node_children L p K n st2 = Ok (cs, st'').
  Proof.
    intros LK Ne R1 R2. rewrite !(children_walk L p arg_tuples arg_tuples_ok K n _ Ne) by exact LK.
    assert (X : forall l child st1 st2, (forall o args, In (o, args) l -> In o (pd_ops p) /\ length (op_params o) = length args) ->
      reachable st1 -> reachable st2 ->
      orel (fun x y => fst x = fst y /\ reachable (snd x) /\ reachable (snd y)) (walk L p n l child st1) (walk L p n l child st2)).
    { clear - G. induction l as [|[o args] l IH]; intros child st1 st2 Hl R1 R2; cbn [walk]; [cbn; auto|].
      destruct (Hl o args (or_introl eq_refl)) as [Io Ln].
      apply (orel_bind (fun x y => fst x = fst y /\ fst (snd x) = fst (snd y) /\ reachable (snd (snd x)) /\ reachable (snd (snd y)))).
      - unfold try_tuple. apply orel_same. intros [] _; [|cbn; auto].
        apply (orel_bind same_world); [apply act_history; auto|].
        intros [k [s1 st3]] [k' [s1' st4]] (_ & E & Ra & Rb). cbn in E, Ra, Rb. subst s1'.
        apply orel_same. intros [b s2] _. cbn. auto.
      - intros [b [c st3]] [b' [c' st4]] (E1 & E2 & Ra & Rb). cbn in E1, E2, Ra, Rb. subst b' c'.
        eapply orel_bind; [apply IH; auto; intros; apply Hl; right; auto|].
        intros [cs1 st5] [cs2 st6] (E & Rc & Rd). cbn in E, Rc, Rd. subst cs2. cbn. auto. }
    specialize (X _ None st1 st2 pairs_typed R1 R2). intros E. rewrite E in X.
    destruct (walk L p n _ None st2) as [[cs2 st4]| | | |]; cbn in X; try tauto. destruct X as (<- & Ra & Rb).
    split; auto. eauto.
  Qed.

  (** With effects that cannot throw. *)
  Lemma ordinary_results o args t : ordinary_domain p -> In o (pd_ops p) -> length (op_params o) = length args ->
    forall s, represents s t -> exists t', results_in L p o args t t'.
  Proof.
    intros [H1 H2] I Ln s R.
    assert (C : calm (effects_give L p o args t)).
    { unfold effects_give. apply (sub_op_calm a_ins a_del (a_cond objs) objs (pd_axioms p) (fun _ _ _ _ => Logic.I) H2 rank); auto.
      - apply (gd_ranked _ _ _ _ _ G).
      - apply (gd_cascade _ _ _ _ _ G). }
    destruct (act_agree o args s no_store t I Ln (rs_none _ _ _) R) as [A _].
    destruct (effects_give L p o args t) as [[k t1]| | | |] eqn:E; cbn in C; try tauto.
    destruct (act o args (s, no_store)) as [[m [s1 st1]]| | | |]; cbn in A; try tauto. destruct A as (_ & RA & _). cbn in RA.
    destruct (derive_ok L p ar rank drank G s1 t1 RA) as (c & s' & _ & B' & Lo & Sat & U).
    exists (set_in s'), k, t1. split; auto. pose proof (set_in_represents s' B') as [_ Hs]. split.
    - intros a Na. specialize (Lo a Na). specialize (Hs a). destruct (set_in s' a), (t1 a); intuition congruence.
    - intros d Id. apply (satisfied_same p (atoms s')); auto.
  Qed.
End Domain.
