(** Lemmas behind C39-C42. *)
From Coq Require Import String List Bool NArith ZArith Arith Lia.
From Verif.Model Require Import Base Object Proposition State ParameterGenerator Syntax Formula
  Effects Derived Consistency Text Pddl.
From Verif.Spec Require Import SetSpec TypingSpec FormulaSpec EffectSpec DerivedSpec TextSpec PddlSpec.
From Verif.Proofs Require Import StateFacts StateHistory FormulaFacts EffectFacts EffectLink EffectTheorems
  DerivedFacts DerivedExamples TextFacts PddlFacts.
Import ListNotations.
Local Open Scope string_scope.
Local Open Scope list_scope.

Lemma first_named_In {A} (nm : A -> string) l name x : first_named nm l name x -> In x l /\ nm x = name.
Proof. intros (l1 & l2 & -> & E & _). split; auto. apply in_or_app. right; left; auto. Qed.
Lemma first_named_unique {A} (nm : A -> string) l x : NoDup (map nm l) -> In x l -> first_named nm l (nm x) x.
Proof.
  intros N I. apply in_split in I as (l1 & l2 & ->). exists l1, l2. split; auto. split; auto.
  intros y Iy E. rewrite map_app in N. cbn in N. apply NoDup_remove_2 in N. apply N. apply in_or_app. left.
  rewrite <- E. apply in_map; auto.
Qed.

Section Built.
  Context `{SH : StdHash}.

  Lemma derived_fold_built om d ts : forall x r, built (snd x) -> foldM (derived_step om d) ts x = Ok r -> built (snd r).
  Proof.
    induction ts as [|t ts IH]; intros x r B; cbn [foldM]; [intros [= <-]; auto|].
    intros E. apply bind_Ok in E as (y & E & F). apply (IH y r); auto. unfold derived_step in E.
    apply bind_Ok in E as (v & _ & E). destruct v.
    - pose proof (built_run_from (snd x) [Ins (mkProp (dp_name d) t)] B) as K. unfold run_from in K. cbn in K.
      destruct (st_insert _ _) as [c s']. injection E as <-. exact K.
    - pose proof (built_run_from (snd x) [Del (mkProp (dp_name d) t)] B) as K. unfold run_from in K. cbn in K.
      destruct (st_erase _ _) as [c s']. injection E as <-. exact K.
  Qed.
  Lemma derived_apply_built om d n : forall s r, built s -> derived_apply om n d s = Ok r -> built (snd r).
  Proof.
    induction n as [|n IH]; intros s r B; cbn; [discriminate|]. intros E. apply bind_Ok in E as ([c s1] & E1 & E).
    unfold derived_pass in E1. apply bind_Ok in E1 as (ts & _ & E1).
    apply derived_fold_built in E1; auto. cbn in E1. destruct c; [|injection E as <-; auto].
    apply bind_Ok in E as ([c2 s2] & E2 & E). injection E as <-. apply (IH s1 (c2, s2)); auto.
  Qed.
  Lemma derived_round_built om n ds : forall x r, built (snd x) ->
    foldM (fun acc d => let* ' (c, s') := derived_apply om n d (snd acc) in Ok (fst acc || c, s')) ds x = Ok r ->
    built (snd r).
  Proof.
    induction ds as [|d ds IH]; intros x r B; cbn [foldM]; [intros [= <-]; auto|].
    intros E. apply bind_Ok in E as (y & E & F). apply (IH y r); auto.
    apply bind_Ok in E as ([c s'] & E & Q). injection Q as <-. apply derived_apply_built in E; auto.
  Qed.
  Lemma derived_all_built om inner outer ds : forall s r, built s -> derived_all om inner outer ds s = Ok r -> built (snd r).
  Proof.
    induction outer as [|n IH]; intros s r B; cbn; [discriminate|]. intros E. apply bind_Ok in E as ([c s1] & E1 & E).
    apply derived_round_built in E1; auto. cbn in E1. destruct c; [|injection E as <-; auto].
    apply bind_Ok in E as ([c2 s2] & E2 & E). injection E as <-. apply (IH s1 (c2, s2)); auto.
  Qed.
End Built.

Section Domain.
  Context `{SH : StdHash}.
  Context (L : limits) (p : pddl) (ar : string -> nat) (rank : nat -> nat) (drank : string -> nat).
  Context (G : good_domain L p ar rank drank).
  Notation objs := (pd_symbols p).
  Notation reachable := (reachable_store objs ar (pd_axioms p)).

  Lemma parse_calls call o args : pd_parse p call = Ok (o, args) <-> calls p call o args.
  Proof. unfold pd_parse, calls. apply C17_lemma. Qed.
  Lemma parse_total call : (exists o args, pd_parse p call = Ok (o, args)) \/
    pd_parse p call = Throw ERuntime \/ pd_parse p call = Throw EInvalidArgument.
  Proof. apply parse_action_else. Qed.

  Lemma calls_typed call o args : calls p call o args ->
    In o (pd_ops p) /\ well_typed objs (op_params o) args.
  Proof.
    intros (n & ws & _ & Ho & Ha & Ht). split; [apply (first_named_In _ _ _ _ Ho)|].
    unfold well_typed. clear -Ha Ht. revert ws Ha. induction Ht as [|a q args ps H _ IH]; intros ws Ha; constructor.
    - inversion Ha; subst. split; auto. eapply first_named_In; eauto.
    - inversion Ha; subst. eauto.
  Qed.

  Lemma op_good o : In o (pd_ops p) -> good_op objs ar o /\ wf_goal objs (map oname (op_params o)) (op_pre o).
  Proof.
    intros I. pose proof (gd_ops _ _ _ _ _ G) as A. pose proof (gd_pre _ _ _ _ _ G) as B.
    rewrite Forall_forall in A, B. auto.
  Qed.

  Lemma valid_agree o args s t : In o (pd_ops p) -> length (op_params o) = length args -> represents s t ->
    op_valid (pd_om p) s o args = Ok (holdsb objs t (bind_vars (op_params o) args no_env) (op_pre o)).
  Proof.
    intros I Ln R. unfold op_valid. rewrite (gd_om _ _ _ _ _ G). apply eval_agree; auto.
    - apply (gd_types _ _ _ _ _ G).
    - apply op_good; auto.
  Qed.
  Lemma precondition_b o args t :
    precondition p o args t <-> holdsb objs t (bind_vars (op_params o) args no_env) (op_pre o) = true.
  Proof. unfold precondition. rewrite holdsb_spec. tauto. Qed.

  Lemma goal_agree s t : represents s t -> goal_holds p s = Ok (holdsb objs t no_env (pd_goal p)).
  Proof.
    intros R. unfold goal_holds. rewrite (gd_om _ _ _ _ _ G).
    apply (eval_agree objs s t (pd_goal p) [] []); auto.
    - apply (gd_types _ _ _ _ _ G).
    - apply (gd_goal _ _ _ _ _ G).
  Qed.
  Lemma goal_b t : goal_true p t <-> holdsb objs t no_env (pd_goal p) = true.
  Proof. unfold goal_true. rewrite holdsb_spec. tauto. Qed.

  (** ** One step *)
  Definition eff_rel (x : nat * (state * store)) (y : nat * aset) : Prop :=
    fst x = fst y /\ represents (fst (snd x)) (snd y) /\ reachable (snd (snd x)).

  Lemma temp_agree o args s st t : In o (pd_ops p) -> length (op_params o) = length args ->
    reachable st -> represents s t ->
    orel eff_rel (temp_apply L p o args (s, st)) (effects_give L p o args t) /\ fair (effects_give L p o args t).
  Proof.
    intros I Ln Rs R. destruct (op_good o I) as [Go _].
    pose proof (gd_types _ _ _ _ _ G) as W. pose proof (gd_axioms _ _ _ _ _ G) as Ha.
    pose proof (gd_ranked _ _ _ _ _ G) as Hr. split.
    2:{ unfold effects_give. eapply sub_op_fair; eauto; [|apply (gd_cascade _ _ _ _ _ G)].
        intros; exact Logic.I. }
    unfold temp_apply. cbn [fst snd]. rewrite (gd_om _ _ _ _ _ G).
    pose proof (apply_op_link st_ins st_del (cond_state (create_object_map objs)) objs (pd_axioms p) ar rank
      (l_cascade L) (OAct (op_name o)) o args s (forget_actions st) W Ha Hr Go Ln
      (reachable_ok objs ar rank _ _ W Ha Hr (rs_new _ _ _ _ Rs)) Logic.I) as K.
    pose proof (sub_op_agree st_ins st_del a_ins a_del (cond_state (create_object_map objs)) (a_cond objs) objs
      (pd_axioms p) represents represents_ins represents_del
      ltac:(intros a b g ps vs Rab Lp Wg; unfold cond_state, a_cond; rewrite (eval_agree objs a b) by auto; reflexivity)
      ar (l_cascade L) o args s t Ha Go Ln R) as A.
    unfold apply_state. fold (apply_state (l_cascade L) (create_object_map objs) (pd_axioms p) (OAct (op_name o)) o args
       (s, forget_actions st)) in K |- *.
    destruct (apply_state _ _ _ _ _ _ _) as [[n [s' st']]|e| | |] eqn:E; unfold effects_give;
      destruct (sub_effs st_ins _ _ _ _ _ _ _ _ _) as [[m u]|e1| | |]; cbn in K; try tauto;
      destruct (sub_effs a_ins _ _ _ _ _ _ _ _ _) as [[k v]|e2| | |]; cbn in A; try tauto; cbn; try congruence.
    destruct K as (-> & -> & _), A as [EA RA]. cbn in EA, RA. split; [auto|]. split; [auto|]. cbn.
    apply rs_old; auto. eapply rs_state; [|exact Go|exact Ln|exact E]. apply rs_new; auto.
  Qed.

  Lemma derive_ok s t1 : represents s t1 -> exists c s',
    pd_derive L p s = Ok (c, s') /\ built s' /\
    (forall a, ~ any_defined objs (pd_derived p) a -> (atoms s' a <-> t1 a = true)) /\
    (forall d, In d (pd_derived p) -> satisfied objs (atoms s') d) /\
    forall t', (forall a, ~ any_defined objs (pd_derived p) a -> t' a = t1 a) ->
      (forall d, In d (pd_derived p) -> satisfied objs (set_of t') d) -> represents s' t'.
  Proof.
    intros [B H]. unfold pd_derive. rewrite (gd_om _ _ _ _ _ G).
    pose proof (gd_types _ _ _ _ _ G) as W. pose proof (gd_derived _ _ _ _ _ G) as Gd.
    destruct (gd_outer _ _ _ _ _ G) as [O1 O2].
    destruct (C35_terminates_lemma SH objs (l_inner L) (l_outer L) (pd_derived p) drank (pred (l_outer L)) s W
      (gd_names _ _ _ _ _ G) B Gd (gd_heads _ _ _ _ _ G) (gd_stratified _ _ _ _ _ G)
      ltac:(intros d Id; specialize (O2 d Id); lia) (gd_inner _ _ _ _ _ G) ltac:(lia)) as (c & s' & E).
    exists c, s'. split; auto. pose proof (derived_all_built _ _ _ _ _ _ B E) as B'. cbn in B'. split; auto.
    destruct (derived_all_ok objs W (l_inner L) (l_outer L) (pd_derived p) Gd s c s' (built_wf _ B) E) as (_ & Sa & _ & Lo).
    split; [intros a Na; rewrite Lo by auto; apply H|]. split; auto.
    intros t' Ht Sat. split; auto. intros a.
    apply (C33_unique_lemma SH objs (l_inner L) (l_outer L) (pd_derived p) drank s c s' (set_of t') W B Gd
             (gd_stratified _ _ _ _ _ G) E).
    - intros b Nb. unfold set_of. rewrite Ht by auto. rewrite H. tauto.
    - intros d args Id Wt. apply Sat; auto.
  Qed.

  Lemma satisfied_same (S S' : atom -> Prop) d : (forall a, S a <-> S' a) -> satisfied objs S d -> satisfied objs S' d.
  Proof.
    intros H Sat args Wt. rewrite <- H. rewrite (Sat args Wt). unfold body_holds. apply holds_same; auto.
  Qed.

  Lemma step_ok o args s st t : In o (pd_ops p) -> length (op_params o) = length args ->
    reachable st -> represents s t ->
    match effects_give L p o args t with
    | Ok (n, _) => exists c s' st',
        apply_copy L p o args (s, st) = Ok (s', st') /\
        apply_in_place L p o args (s, st) = Ok (negb (Nat.eqb n 0) || c, (s', st')) /\
        reachable st' /\ built s' /\ results_in L p o args t (set_in s') /\
        forall t', results_in L p o args t t' -> represents s' t'
    | Throw e => e = ERuntime /\ apply_copy L p o args (s, st) = Throw ERuntime /\
                 apply_in_place L p o args (s, st) = Throw ERuntime
    | _ => False
    end.
  Proof.
    intros I Ln Rs R. destruct (temp_agree o args s st t I Ln Rs R) as [A F].
    unfold apply_copy, apply_in_place.
    destruct (temp_apply L p o args (s, st)) as [[n [s1 st1]]|e| | |], (effects_give L p o args t) as [[m t1]|e'| | |] eqn:E;
      cbn in A, F; try tauto.
    - destruct A as (EA & RA & Sa). cbn in EA, RA, Sa. subst m. cbn [bind].
      destruct (derive_ok s1 t1 RA) as (c & s' & -> & B & Lo & Sat & U). cbn [bind]. exists c, s', st1.
      split; auto. split; auto. split; auto. split; auto. split.
      + exists n, t1. split; auto. pose proof (set_in_represents s' B) as [_ Hs]. split.
        * intros a Na. specialize (Lo a Na). specialize (Hs a). destruct (set_in s' a), (t1 a); intuition congruence.
        * intros d Id. apply (satisfied_same (atoms s')); auto.
      + intros t' (n' & t1' & E' & H1 & H2). rewrite E in E'. injection E' as <- <-. apply U; auto.
    - subst. cbn. auto.
  Qed.

  (** ** C39 *)
  Lemma apply_actions_fold cs w : apply_actions L p cs w = foldM (fun w call => next_state L p call w) cs w.
  Proof.
    revert w. induction cs as [|c cs IH]; intros w; [reflexivity|]. unfold apply_actions. cbn [foldM].
    fold (apply_actions L p cs). unfold next_state at 1.
    destruct (pd_parse p c) as [[o args]| | | |]; cbn [bind]; auto.
    unfold apply_copy, apply_in_place. destruct (temp_apply L p o args w) as [[n [s1 st1]]| | | |]; cbn [bind]; auto.
    destruct (pd_derive L p s1) as [[c' s2]| | | |]; cbn [bind]; auto.
  Qed.
  Lemma apply_actions_app c1 c2 w :
    apply_actions L p (c1 ++ c2) w = (let* w' := apply_actions L p c1 w in apply_actions L p c2 w').
  Proof. unfold apply_actions. apply foldM_app. Qed.

  Lemma next_ok call s st t : reachable st -> represents s t ->
    (exists o args s' st', next_state L p call (s, st) = Ok (s', st') /\ calls p call o args /\
       reachable st' /\ built s' /\ results_in L p o args t (set_in s') /\
       forall o' args' t', calls p call o' args' -> results_in L p o' args' t t' -> represents s' t') \/
    ((next_state L p call (s, st) = Throw ERuntime \/ next_state L p call (s, st) = Throw EInvalidArgument) /\
     forall o args t', calls p call o args -> ~ results_in L p o args t t').
  Proof.
    intros Rs R. unfold next_state. destruct (parse_total call) as [(o & args & E)|[E|E]]; rewrite E; cbn [bind].
    - pose proof (proj1 (parse_calls _ _ _) E) as C. destruct (calls_typed _ _ _ C) as [Io Wt].
      pose proof (step_ok o args s st t Io (well_typed_length _ _ _ Wt) Rs R) as S.
      assert (U : forall o' args', calls p call o' args' -> o' = o /\ args' = args).
      { intros o' args' C'. apply parse_calls in C'. rewrite E in C'. injection C' as <- <-. auto. }
      destruct (effects_give L p o args t) as [[n t1]|e| | |] eqn:Ee; try tauto.
      + destruct S as (c & s' & st' & E1 & _ & R1 & B1 & Re & Hr). left. exists o, args, s', st'.
        split; auto. split; auto. split; auto. split; auto. split; auto.
        intros o' args' t' C' Rt. destruct (U _ _ C') as [-> ->]. auto.
      + destruct S as (-> & -> & _). right. split; auto. intros o' args' t' C' (n' & t1 & Ee' & _).
        destruct (U _ _ C') as [-> ->]. congruence.
    - right. split; auto. intros o args t' C. apply parse_calls in C. congruence.
    - right. split; auto. intros o args t' C. apply parse_calls in C. congruence.
  Qed.

  Lemma executes_same cs : forall t t' u, executes L p cs t t' -> executes L p cs t u -> forall s st,
    reachable st -> represents s t ->
    exists s' st', apply_actions L p cs (s, st) = Ok (s', st') /\ reachable st' /\ represents s' t' /\ represents s' u.
  Proof.
    induction cs as [|c cs IH]; intros t t' u X Y s st Rs R.
    - inversion X; subst. inversion Y; subst. exists s, st. auto.
    - inversion X as [|? ? o args ? t1 ? C1 R1 X1]; subst. inversion Y as [|? ? o' args' ? t2 ? C2 R2 Y1]; subst.
      rewrite apply_actions_fold. cbn [foldM].
      destruct (next_ok c s st t Rs R) as [(oo & aa & s1 & st1 & E & C & Rs1 & B1 & Re & H)|[_ N]].
      2:{ exfalso. eapply N; eauto. }
      rewrite E. cbn [bind].
      pose proof (H _ _ _ C1 R1) as K1. pose proof (H _ _ _ C2 R2) as K2.
      rewrite <- apply_actions_fold.
      (* runs from the two sets end in the same sets *)
      destruct (IH t1 t' t' X1 X1 s1 st1 Rs1 K1) as (s2 & st2 & E2 & Rs2 & A1 & _).
      destruct (IH t2 u u Y1 Y1 s1 st1 Rs1 K2) as (s3 & st3 & E3 & _ & A2 & _).
      rewrite E2 in E3. injection E3 as <- <-. exists s2, st2. auto.
  Qed.

  Lemma C39_meaning_lemma cs s st t : reachable st -> represents s t ->
    (forall s' st', apply_actions L p cs (s, st) = Ok (s', st') ->
       reachable st' /\ exists t', executes L p cs t t' /\ represents s' t') /\
    (forall t', executes L p cs t t' ->
       exists s' st', apply_actions L p cs (s, st) = Ok (s', st') /\ represents s' t') /\
    ((exists w, apply_actions L p cs (s, st) = Ok w) \/ apply_actions L p cs (s, st) = Throw ERuntime \/
     apply_actions L p cs (s, st) = Throw EInvalidArgument).
  Proof.
    intros Rs R. split; [|split].
    - rewrite apply_actions_fold. revert s st t Rs R.
      induction cs as [|c cs IH]; intros s st t Rs R s' st' E; cbn [foldM] in E.
      { injection E as <- <-. split; auto. exists t. split; auto. constructor. }
      apply bind_Ok in E as ([s1 st1] & E1 & E).
      destruct (next_ok c s st t Rs R) as [(o & args & s1' & st1' & E' & C & Rs1 & B1 & Re & H)|[[N|N] _]];
        try congruence. rewrite E1 in E'. injection E' as <- <-.
      destruct (IH s1 st1 (set_in s1) Rs1 (set_in_represents _ B1) s' st' E) as (Rs' & t' & X & R').
      split; auto. exists t'. split; auto. econstructor; eauto.
    - intros t' X. destruct (executes_same cs t t' t' X X s st Rs R) as (s' & st' & E & _ & R' & _). eauto.
    - rewrite apply_actions_fold. revert s st t Rs R.
      induction cs as [|c cs IH]; intros s st t Rs R; cbn [foldM]; [left; eauto|].
      destruct (next_ok c s st t Rs R) as [(o & args & s1' & st1' & -> & C & Rs1 & B1 & Re & H)|[[N|N] _]].
      + cbn [bind]. apply (IH s1' st1' (set_in s1')); auto. apply set_in_represents; auto.
      + rewrite N. auto.
      + rewrite N. auto.
  Qed.

  (** ** C40 *)
  Lemma C40_lemma call s st t s2 : reachable st -> represents s t -> built s2 ->
    ((exists st', is_valid_tuple L p (s, st) call s2 = Ok (true, st')) <->
     exists o args t', calls p call o args /\ precondition p o args t /\ results_in L p o args t t' /\
       represents s2 t') /\
    ((exists st', is_valid_tuple L p (s, st) call s2 = Ok (false, st')) <->
     exists o args, calls p call o args /\
       (~ precondition p o args t \/
        precondition p o args t /\ exists t', results_in L p o args t t' /\ ~ represents s2 t')) /\
    ((exists b st', is_valid_tuple L p (s, st) call s2 = Ok (b, st') /\ reachable st') \/
     is_valid_tuple L p (s, st) call s2 = Throw ERuntime \/ is_valid_tuple L p (s, st) call s2 = Throw EInvalidArgument).
  Proof.
    intros Rs R B2. unfold is_valid_tuple. destruct (parse_total call) as [(o & args & E)|E].
    2:{ assert (N : forall o args, ~ calls p call o args).
        { intros o args C. apply parse_calls in C. destruct E; congruence. }
        split; [|split; [|destruct E as [-> | ->]; auto]]; (split;
          [intros (st' & Q); destruct E as [E|E]; rewrite E in Q; discriminate|]).
        - intros (o & args & t' & C & _). destruct (N _ _ C).
        - intros (o & args & C & _). destruct (N _ _ C). }
    rewrite E. cbn [bind fst].
    pose proof (proj1 (parse_calls _ _ _) E) as C. destruct (calls_typed _ _ _ C) as [Io Wt].
    assert (U : forall o' args', calls p call o' args' -> o' = o /\ args' = args).
    { intros o' args' C'. apply parse_calls in C'. rewrite E in C'. injection C' as <- <-. auto. }
    rewrite (valid_agree o args s t Io (well_typed_length _ _ _ Wt) R). cbn [bind].
    pose proof (precondition_b o args t) as Pb.
    destruct (holdsb objs t (bind_vars (op_params o) args no_env) (op_pre o)).
    - assert (P : precondition p o args t) by (apply Pb; auto). clear Pb.
      pose proof (step_ok o args s st t Io (well_typed_length _ _ _ Wt) Rs R) as S.
      destruct (effects_give L p o args t) as [[n t1]|e| | |] eqn:Ee; try tauto.
      + destruct S as (c & s' & st' & E1 & _ & R1 & B1 & Re & Hr). rewrite E1. cbn [bind].
        pose proof (Hr _ Re) as Rp. split; [|split].
        * split.
          -- intros (st2 & Q). injection Q as Q _. exists o, args, (set_in s'). split; auto. split; auto. split; auto.
             split; auto. apply (eqb_represents s'); auto.
          -- intros (o' & args' & t' & C' & _ & R' & R2). destruct (U _ _ C') as [-> ->]. exists st'.
             rewrite (same_set s' s2 t'); auto.
        * split.
          -- intros (st2 & Q). injection Q as Q _. exists o, args. split; auto. right. split; auto.
             exists (set_in s'). split; auto. intros R2. rewrite (same_set s' s2 (set_in s')) in Q; auto. discriminate.
          -- intros (o' & args' & C' & [N|(_ & t' & R' & N)]); destruct (U _ _ C') as [-> ->]; [tauto|].
             exists st'. destruct (st_eqb s' s2) eqn:Q; auto. exfalso. apply N. split; auto.
             apply (eqb_represents s' s2 t'); auto.
        * left. eauto.
      + destruct S as (-> & -> & _). cbn [bind]. split; [|split; [|auto]].
        * split; [intros (? & ?); discriminate|]. intros (o' & args' & t' & C' & _ & (n' & t1 & E' & _) & _).
          destruct (U _ _ C') as [-> ->]. congruence.
        * split; [intros (? & ?); discriminate|]. intros (o' & args' & C' & [N|(_ & t' & (n' & t1 & E' & _) & _)]);
            destruct (U _ _ C') as [-> ->]; [tauto|congruence].
    - assert (P : ~ precondition p o args t) by (intros K; apply Pb in K; discriminate). clear Pb. cbn [snd].
      split; [|split; [|left; eauto]].
      + split; [intros (? & ?); discriminate|]. intros (o' & args' & t' & C' & P' & _).
        destruct (U _ _ C') as [-> ->]. tauto.
      + split; eauto.
  Qed.

  (** ** C41 *)
  Lemma plan_from_ok cs : forall s st t, reachable st -> represents s t ->
    (exists b st', valid_plan_from L p cs (s, st) = Ok (b, st') /\ reachable st' /\
       if b : bool then plan_ok L p cs t else plan_fails L p cs t) \/
    (valid_plan_from L p cs (s, st) = Throw ERuntime \/ valid_plan_from L p cs (s, st) = Throw EInvalidArgument).
  Proof.
    induction cs as [|c cs IH]; intros s st t Rs R; cbn [valid_plan_from fst snd].
    - rewrite (goal_agree s t R). cbn [bind]. left. eexists. exists st. split; [reflexivity|]. split; auto.
      pose proof (goal_b t) as Gb. destruct (holdsb objs t no_env (pd_goal p)); constructor; [tauto|].
      intros K. apply Gb in K. discriminate.
    - destruct (parse_total c) as [(o & args & E)|[E|E]]; rewrite E; cbn [bind]; auto.
      pose proof (proj1 (parse_calls _ _ _) E) as C. destruct (calls_typed _ _ _ C) as [Io Wt].
      rewrite (valid_agree o args s t Io (well_typed_length _ _ _ Wt) R). cbn [bind].
      pose proof (precondition_b o args t) as Pb.
      destruct (holdsb objs t (bind_vars (op_params o) args no_env) (op_pre o)).
      + assert (P : precondition p o args t) by (apply Pb; auto).
        pose proof (step_ok o args s st t Io (well_typed_length _ _ _ Wt) Rs R) as S.
        destruct (effects_give L p o args t) as [[n t1]|e| | |] eqn:Ee; try tauto.
        * destruct S as (b & s' & st' & _ & -> & R1 & B1 & Re & Hr). cbn [bind].
          destruct (IH s' st' (set_in s') R1 (set_in_represents _ B1)) as [(v & st2 & E2 & R2 & K)|K]; auto.
          left. exists v, st2. split; auto. split; auto.
          destruct v; [eapply po_call|eapply pf_call]; eauto.
        * destruct S as (-> & _ & ->). auto.
      + left. exists false, st. split; auto. split; auto. eapply pf_precondition; eauto.
        intros K. apply Pb in K. discriminate.
  Qed.

  Lemma plan_holds cs : forall t s st, reachable st -> represents s t ->
    (plan_ok L p cs t -> exists st', valid_plan_from L p cs (s, st) = Ok (true, st')) /\
    (plan_fails L p cs t -> exists st', valid_plan_from L p cs (s, st) = Ok (false, st')).
  Proof.
    induction cs as [|c cs IH]; intros t s st Rs R; cbn [valid_plan_from fst snd].
    - rewrite (goal_agree s t R). cbn [bind]. pose proof (goal_b t) as Gb.
      split; intros K; inversion K; subst; exists st; destruct (holdsb objs t no_env (pd_goal p)); auto; exfalso;
        intuition congruence.
    - assert (X : forall o args, calls p c o args -> pd_parse p c = Ok (o, args) /\
         op_valid (pd_om p) s o args = Ok (holdsb objs t (bind_vars (op_params o) args no_env) (op_pre o)) /\
         (precondition p o args t <-> holdsb objs t (bind_vars (op_params o) args no_env) (op_pre o) = true) /\
         forall t', results_in L p o args t t' -> exists b s' st',
           apply_in_place L p o args (s, st) = Ok (b, (s', st')) /\ reachable st' /\ represents s' t').
      { intros o args C. destruct (calls_typed _ _ _ C) as [Io Wt]. pose proof (well_typed_length _ _ _ Wt) as Ln.
        split; [apply parse_calls; auto|]. split; [apply valid_agree; auto|]. split; [apply precondition_b|].
        intros t' Rt. pose proof (step_ok o args s st t Io Ln Rs R) as S. pose proof Rt as (n & t1 & Ee & _).
        rewrite Ee in S. destruct S as (b & s' & st' & _ & E & R1 & B1 & Re & Hr). do 3 eexists. eauto. }
      split; intros K.
      + inversion K as [|? ? o args ? t' C P Rt K1]; subst. destruct (X o args C) as (-> & E2 & Pb & Y).
        cbn [bind]. rewrite E2. cbn [bind]. rewrite (proj1 Pb P).
        destruct (Y t' Rt) as (b & s' & st' & -> & R1 & R2). cbn [bind]. apply (IH t' s' st'); auto.
      + inversion K as [|? ? o args ? C P|? ? o args ? t' C P Rt K1]; subst; destruct (X o args C) as (-> & E2 & Pb & Y);
          cbn [bind]; rewrite E2; cbn [bind].
        * exists st. destruct (holdsb objs t _ _); auto. tauto.
        * rewrite (proj1 Pb P). destruct (Y t' Rt) as (b & s' & st' & -> & R1 & R2). cbn [bind].
          apply (IH t' s' st'); auto.
  Qed.

  Lemma C41_lemma cs st t : reachable st -> represents (pd_init p) t ->
    ((exists st', is_valid_plan L p cs st = Ok (true, st')) <-> plan_ok L p cs t) /\
    ((exists st', is_valid_plan L p cs st = Ok (false, st')) <-> plan_fails L p cs t) /\
    ((exists b st', is_valid_plan L p cs st = Ok (b, st') /\ reachable st') \/
     is_valid_plan L p cs st = Throw ERuntime \/ is_valid_plan L p cs st = Throw EInvalidArgument).
  Proof.
    intros Rs R. unfold is_valid_plan. destruct (plan_holds cs t (pd_init p) st Rs R) as [H1 H2].
    destruct (plan_from_ok cs (pd_init p) st t Rs R) as [(b & st' & E & R' & K)|K].
    - split; [|split].
      + split; [|exact H1]. intros (st2 & Q). rewrite E in Q. injection Q as -> _. exact K.
      + split; [|exact H2]. intros (st2 & Q). rewrite E in Q. injection Q as -> _. exact K.
      + left; eauto.
    - split; [|split; auto].
      + split; [|exact H1]. intros (st2 & Q). destruct K; congruence.
      + split; [|exact H2]. intros (st2 & Q). destruct K; congruence.
  Qed.

  (** ** C42 *)
  Context (Hcount : Forall (fun o => (tuple_count objs (op_params o) < 2 ^ 31)%Z) (pd_ops p)).

  Lemma filterM_filter {A} (f : A -> outcome bool) g l : (forall a, In a l -> f a = Ok (g a)) ->
    filterM f l = Ok (filter g l).
  Proof.
    induction l as [|a l IH]; intros H; [reflexivity|]. cbn. rewrite H by (left; auto). cbn.
    rewrite IH by (intros; apply H; right; auto). reflexivity.
  Qed.

  Lemma arguments_listed o s t : In o (pd_ops p) -> represents s t ->
    list_valid_arguments p s o =
    Ok (filter (fun args => holdsb objs t (bind_vars (op_params o) args no_env) (op_pre o))
         (match op_params o with [] => [] | _ => tuples objs (op_params o) end)).
  Proof.
    intros I R. unfold list_valid_arguments. rewrite (gd_om _ _ _ _ _ G).
    destruct (op_params o) as [|v vs] eqn:Ep.
    - reflexivity.
    - rewrite <- Ep. rewrite tuples_exact.
      + cbn [bind]. apply filterM_filter. intros args Ia. apply tuples_In in Ia.
        pose proof (valid_agree o args s t I (well_typed_length _ _ _ Ia) R) as V.
        rewrite (gd_om _ _ _ _ _ G) in V. exact V.
      + apply (gd_types _ _ _ _ _ G).
      + congruence.
      + rewrite Forall_forall in Hcount. auto.
  Qed.

  Lemma actions_listed s t : represents s t ->
    list_valid_actions p s = Ok (map (fun x => action_to_string (fst x) (snd x)) (applicable p t)).
  Proof.
    intros R. unfold list_valid_actions, applicable, pd_actions.
    assert (H : forall o, In o (filter (fun o => negb (op_is_axiom o)) (pd_ops p)) -> In o (pd_ops p))
      by (intros o I; apply filter_In in I; tauto).
    revert H. generalize (filter (fun o => negb (op_is_axiom o)) (pd_ops p)). intros l H.
    assert (X : forall acc, foldM (fun acc o => let* l := list_valid_arguments p s o in
        Ok (acc ++ map (action_to_string o) l)) l acc =
      Ok (acc ++ map (fun x => action_to_string (fst x) (snd x)) (flat_map (fun o => map (fun args => (o, args))
      (filter (fun args => holdsb objs t (bind_vars (op_params o) args no_env) (op_pre o))
         (match op_params o with [] => [] | _ => tuples objs (op_params o) end))) l))).
    { induction l as [|o l IH]; intros acc; cbn [foldM flat_map map]; [rewrite app_nil_r; auto|].
      rewrite (arguments_listed o s t) by (auto; apply H; left; auto). cbn [bind].
      rewrite IH by (intros; apply H; right; auto). rewrite map_app, map_map. cbn [fst snd].
      rewrite app_assoc. reflexivity. }
    apply (X []).
  Qed.
End Domain.
