(** States given as text, independence of earlier calls, and the constructor (C39-C42, C61). *)
From Coq Require Import Ascii String List Bool NArith ZArith Arith Lia.
From Verif.Model Require Import Base Object Proposition State ParameterGenerator Syntax Formula
  Effects Derived Consistency Text Pddl.
From Verif.Spec Require Import SetSpec TypingSpec FormulaSpec EffectSpec DerivedSpec TextSpec AxiomSpec PddlSpec.
From Verif.Proofs Require Import StateFacts StateHistory FormulaFacts ConstructFacts EffectFacts EffectLink EffectTheorems
  DerivedFacts DerivedExamples TextFacts AxiomLoops AxiomMeaning PddlFacts PddlTheorems PddlListing.
Import ListNotations.
Local Open Scope string_scope.
Local Open Scope list_scope.

Section Domain.
  Context `{SH : StdHash} (L : limits) (p : pddl) (ar : string -> nat) (rank : nat -> nat) (drank : string -> nat).
  Context (G : good_domain L p ar rank drank).
  Notation objs := (pd_symbols p).
  Notation reachable := (reachable_store objs ar (pd_axioms p)).

  Lemma results_ext o args t t' u : (forall a, t' a = u a) -> results_in L p o args t t' -> results_in L p o args t u.
  Proof.
    intros H (n & t1 & E & Lo & Sa). exists n, t1. split; auto. split; [intros a Na; rewrite <- H; auto|].
    intros d I. eapply satisfied_same; [|apply Sa; auto]. intros a. unfold set_of. rewrite H. tauto.
  Qed.
  Lemma represents_ext s t u : represents s t -> represents s u -> forall a, t a = u a.
  Proof.
    intros [_ H] [_ K] a. specialize (H a). specialize (K a). destruct (t a), (u a); auto.
    - symmetry. apply K, H, eq_refl.
    - apply H, K, eq_refl.
  Qed.

  Lemma C40_text_lemma strs call strs' st t t' : reachable st -> spells objs strs t -> spells objs strs' t' ->
    ((exists st', is_valid_tuple_str L p strs call strs' st = Ok (true, st')) <->
     exists o args, calls p call o args /\ precondition p o args t /\ results_in L p o args t t') /\
    ((exists st', is_valid_tuple_str L p strs call strs' st = Ok (false, st')) <->
     exists o args, calls p call o args /\
       (~ precondition p o args t \/ precondition p o args t /\
          exists u, results_in L p o args t u /\ exists a, u a <> t' a)).
  Proof.
    intros Rs S S'. destruct (spells_parse objs strs t S) as (s & E & R). destruct (spells_parse objs strs' t' S') as (s' & E' & R').
    unfold is_valid_tuple_str. rewrite E, E'. cbn [bind].
    destruct (C40_lemma L p ar rank drank G call s st t s' Rs R (proj1 R')) as (A & B & _). rewrite A, B. clear A B.
    split; split.
    - intros (o & args & u & C & P & Re & Ru). exists o, args. split; auto. split; auto.
      eapply results_ext; [|exact Re]. apply (represents_ext s'); auto.
    - intros (o & args & C & P & Re). exists o, args, t'. auto.
    - intros (o & args & C & [N|(P & u & Re & N)]); exists o, args; split; auto. right. split; auto.
      exists u. split; auto. destruct R' as [B' K'].
      (* a representative of u differs from s' somewhere *)
      destruct (calls_typed _ _ _ _ C) as [Io Wt].
      pose proof (step_ok L p ar rank drank G o args s st t Io (well_typed_length _ _ _ Wt) Rs R) as Q.
      pose proof Re as (n & t1 & Ee & _). rewrite Ee in Q. destruct Q as (c & s2 & st2 & _ & _ & _ & B2 & _ & Hr).
      pose proof (Hr u Re) as R2. destruct (st_eqb s2 s') eqn:Q.
      + exfalso. apply N. split; auto. apply (eqb_represents s2 s' u R2 B'). exact Q.
      + assert (X : forall l : list atom, (exists a, In a l /\ u a <> t' a) \/ (forall a, In a l -> u a = t' a)).
        { induction l as [|a l [(b & Ib & Nb)|IH]]; [right; intros ? []|left; exists b; split; [right|]; auto|].
          destruct (bool_dec (u a) (t' a)) as [Ea|Ea].
          - right. intros b [<-|Ib]; auto.
          - left. exists a. split; [left|]; auto. }
        destruct (X (map prop_key (st_elements s2) ++ map prop_key (st_elements s'))) as [(a & _ & Na)|H]; [eauto|].
        exfalso. assert (st_eqb s2 s' = true); [|congruence]. apply (eqb_represents s2 s' u R2 B').
        intros a. pose proof (proj2 R2 a) as M2. pose proof (K' a) as M.
        rewrite (atoms_mem s2 a (built_wf _ B2)) in M2. pose proof (atoms_mem s' a (built_wf _ B')) as M3.
        unfold mem in M2, M3.
        assert (D : u a = true \/ t' a = true -> u a = t' a).
        { intros [D|D]; apply H; apply in_or_app; [left; apply M2; auto|right; apply M3, M; auto]. }
        split; intros K.
        * apply M in K. rewrite D; auto.
        * apply M. rewrite <- D; auto.
    - intros (o & args & C & [N|(P & u & Re & a & N)]); exists o, args; split; auto. right. split; auto.
      exists u. split; auto. intros Ru. apply N. apply (represents_ext s'); auto.
  Qed.
  Lemma C40_text_else_lemma strs call strs' st :
    (forall t, ~ spells objs strs t) \/ (forall t, ~ spells objs strs' t) ->
    is_valid_tuple_str L p strs call strs' st = Throw ERuntime.
  Proof.
    clear G. unfold is_valid_tuple_str. intros [N|N].
    - rewrite parse_state_else; auto.
    - destruct (parse_state_total objs strs) as [[s ->]| ->]; cbn [bind]; auto.
      rewrite (parse_state_else objs strs'); auto.
  Qed.

  Lemma goal_text_lemma strs t : spells objs strs t -> exists b,
    is_goal_satisfied p strs = Ok b /\ (b = true <-> goal_true p t).
  Proof.
    intros S. destruct (spells_parse objs strs t S) as (s & E & R). unfold is_goal_satisfied. rewrite E. cbn [bind].
    eexists. split; [apply (goal_agree L p ar rank drank G s t R)|]. symmetry. apply goal_b.
  Qed.

  Context (Hcount : Forall (fun o => (tuple_count objs (op_params o) < 2 ^ 31)%Z) (pd_ops p)).
  Lemma list_text_lemma strs t : spells objs strs t ->
    list_valid_actions_str p strs = Ok (map (fun x => action_to_string (fst x) (snd x)) (applicable p t)) /\
    forall text name ws, call_text text name ws ->
      (forall o, first_named op_name (pd_ops p) name o ->
         list_valid_arguments_str p strs text =
         Ok (map (map oname) (filter (fun args => holdsb objs t (bind_vars (op_params o) args no_env) (op_pre o))
               (match op_params o with [] => [] | _ => tuples objs (op_params o) end)))) /\
      ((forall o, ~ first_named op_name (pd_ops p) name o) -> list_valid_arguments_str p strs text = Throw ERuntime).
  Proof.
    intros S. destruct (spells_parse objs strs t S) as (s & E & R). split.
    - unfold list_valid_actions_str. rewrite E. cbn [bind]. apply (actions_listed L p ar rank drank G Hcount s t R).
    - intros text name ws T. apply call_text_iff in T as [-> _]. unfold list_valid_arguments_str. rewrite E. cbn [bind].
      split.
      + intros o Fo. pose proof (proj1 (first_named_In _ _ _ _ Fo)) as Io. apply get_op_spec in Fo. rewrite Fo. cbn [bind].
        rewrite (arguments_listed L p ar rank drank G Hcount o s t Io R). reflexivity.
      + intros N. destruct (get_op_else (pd_ops p) (parse_head text)) as [[o Eo]| ->]; [|reflexivity].
        apply get_op_spec in Eo. destruct (N o Eo).
  Qed.
  Lemma list_text_else strs name : (forall t, ~ spells objs strs t) ->
    list_valid_actions_str p strs = Throw ERuntime /\ list_valid_arguments_str p strs name = Throw ERuntime.
  Proof.
    clear G Hcount. intros N. unfold list_valid_actions_str, list_valid_arguments_str. rewrite parse_state_else by auto. auto.
  Qed.

  (** The states do not depend on earlier calls. *)
  Lemma temp_history o args s st1 st2 : In o (pd_ops p) -> length (op_params o) = length args ->
    reachable st1 -> reachable st2 -> forall n s' st', temp_apply L p o args (s, st1) = Ok (n, (s', st')) ->
    reachable st' /\ exists st'', reachable st'' /\ temp_apply L p o args (s, st2) = Ok (n, (s', st'')).
  Proof.
    intros I Ln R1 R2 n s' st' E. destruct (op_good L p ar rank drank G o I) as [Go _].
    pose proof (gd_types _ _ _ _ _ G) as W. pose proof (gd_axioms _ _ _ _ _ G) as Ha.
    pose proof (gd_ranked _ _ _ _ _ G) as Hr. unfold temp_apply in *. cbn [fst snd] in *.
    rewrite (gd_om _ _ _ _ _ G) in *.
    pose proof (fun st R => apply_op_link st_ins st_del (cond_state (create_object_map objs)) objs (pd_axioms p) ar rank
      (l_cascade L) (OAct (op_name o)) o args s (forget_actions st) W Ha Hr Go Ln
      (reachable_ok objs ar rank _ _ W Ha Hr (rs_new _ _ _ _ R)) Logic.I) as K.
    pose proof (K _ R1) as K1. pose proof (K _ R2) as K2. clear K. unfold apply_state in E |- *.
    fold (apply_state (l_cascade L) (create_object_map objs) (pd_axioms p) (OAct (op_name o)) o args
       (s, forget_actions st1)) in K1, E.
    fold (apply_state (l_cascade L) (create_object_map objs) (pd_axioms p) (OAct (op_name o)) o args
       (s, forget_actions st2)) in K2 |- *.
    apply bind_Ok in E as ([m [s1 st3]] & E & F). injection F as <- <- <-. rewrite E in K1.
    destruct (sub_effs st_ins _ _ _ _ _ _ _ _ _) as [[k u]|e1| | |]; cbn in K1; try tauto. destruct K1 as (-> & -> & _).
    split; [apply rs_old; auto; eapply rs_state; [|exact Go|exact Ln|exact E]; apply rs_new; auto|].
    destruct (apply_state _ _ _ _ _ _ (s, forget_actions st2)) as [[n' [s'' st'']]|e| | |] eqn:E2; cbn in K2; try tauto.
    destruct K2 as (-> & -> & _). cbn [bind]. exists (restore_actions st2 st''). split; auto.
    apply rs_old; auto. eapply rs_state; [|exact Go|exact Ln|exact E2]. apply rs_new; auto.
  Qed.

  Lemma history_lemma cs : forall s st1 st2, reachable st1 -> reachable st2 -> forall s' st',
    apply_actions L p cs (s, st1) = Ok (s', st') -> exists st'', apply_actions L p cs (s, st2) = Ok (s', st'').
  Proof.
    unfold apply_actions. induction cs as [|c cs IH]; intros s st1 st2 R1 R2 s' st' E; cbn [foldM] in *.
    - injection E as <- _. eauto.
    - apply bind_Ok in E as ([s1 st3] & E & F). apply bind_Ok in E as ([o args] & Ep & E). rewrite Ep. cbn [bind].
      apply bind_Ok in E as ([b w] & E & X). injection X as ->.
      pose proof (proj1 (parse_calls _ _ _ _) Ep) as C. destruct (calls_typed _ _ _ _ C) as [Io Wt].
      unfold apply_in_place in *. apply bind_Ok in E as ([n [s2 st4]] & E & Q).
      destruct (temp_history o args s st1 st2 Io (well_typed_length _ _ _ Wt) R1 R2 n s2 st4 E) as (R4 & st5 & R5 & ->).
      cbn [bind]. apply bind_Ok in Q as ([c' s3] & -> & Q). injection Q as <- <- <-. cbn [bind].
      apply (IH s3 st4 st5 R4 R5 s' st' F).
  Qed.
End Domain.

Section Constructor.
  Context `{SH : StdHash} (objects : list object) (ar : string -> nat) (axioms : list axiom) (fuel : nat).
  Context (W : Forall (fun o => wf_type (otype o)) objects) (K : Forall (fun o => okind o = KConst) objects)
    (Hwf : Forall (wf_axiom objects) axioms).
  Notation om := (create_object_map objects).
  Notation reachable := (reachable_store objects ar axioms).

  Lemma axiom_apply_reachable i a w c w' : nth_error axioms i = Some a -> reachable (snd w) ->
    axiom_apply om axioms fuel i a w = Ok (c, w') -> reachable (snd w').
  Proof.
    intros N R E. unfold axiom_apply in E.
    destruct (prepare_ok objects W K a) as (l & El & Hl & _).
    { rewrite Forall_forall in Hwf. apply Hwf. eapply nth_error_In; eauto. }
    rewrite El in E. cbn [bind] in E.
    assert (X : forall l, (forall args, In args l -> well_typed objects (op_params (ax_op a)) args) -> forall x y,
      reachable (snd (snd x)) -> foldM (axiom_step om axioms fuel i (ax_op a)) l x = Ok y -> reachable (snd (snd y))).
    { clear -N. induction l as [|args l IH]; intros Hl x y R E; cbn [foldM] in E; [injection E as <-; auto|].
      apply bind_Ok in E as (z & E & F). apply (IH (fun t I => Hl t (or_intror I)) z y); auto. unfold axiom_step in E.
      apply bind_Ok in E as (v & _ & E). destruct v; [|injection E as <-; auto].
      apply bind_Ok in E as ([n [s1 st1]] & E & Q). injection Q as <-. cbn [snd].
      destruct x as [b [s st]]. cbn [snd] in *. eapply rs_axiom_state; [exact R|exact N| |exact E].
      apply (well_typed_length objects). apply Hl. left; auto. }
    apply (X l Hl (false, w) (c, w') R E).
  Qed.

  Lemma consistent_reachable rounds : forall w w', reachable (snd w) ->
    consistent_state om axioms fuel rounds w = Ok w' -> reachable (snd w').
  Proof.
    induction rounds as [|n IH]; intros w w' R E; [discriminate|]. cbn [consistent_state] in E.
    apply bind_Ok in E as ([c w1] & E & F).
    assert (X : forall axs pre, axioms = pre ++ axs -> forall x y, reachable (snd (snd x)) ->
      foldMi (fun i acc a => let* ' (c, w') := axiom_apply om axioms fuel i a (snd acc) in Ok (fst acc || c, w'))
        (length pre) axs x = Ok y -> reachable (snd (snd y))).
    { clear - W K Hwf. induction axs as [|a axs IH]; intros pre Ea x y R E; cbn [foldMi] in E; [injection E as <-; auto|].
      apply bind_Ok in E as (z & E & F). apply bind_Ok in E as ([c w] & E & Q). injection Q as <-.
      assert (N : nth_error axioms (length pre) = Some a).
      { rewrite Ea, nth_error_app2, Nat.sub_diag by lia. reflexivity. }
      pose proof (axiom_apply_reachable _ _ _ _ _ N R E) as R'.
      apply (IH (pre ++ [a]) ltac:(rewrite <- app_assoc; exact Ea) (fst x || c, w) y R').
      rewrite app_length. cbn. rewrite Nat.add_1_r. exact F. }
    pose proof (X axioms [] eq_refl (false, w) (c, w1) R E) as R1. cbn [snd] in R1.
    destruct c; [eapply IH; eauto|]. injection F as <-. auto.
  Qed.
End Constructor.

Section Make.
  Context `{SH : StdHash}.

  Lemma initial_atoms props : built (initial_state props) /\
    forall a, atoms (initial_state props) a <-> exists q, In q props /\ prop_key q = a.
  Proof.
    unfold initial_state.
    assert (X : forall s, built s -> built (fold_left (fun s p => snd (st_insert p s)) props s) /\
      forall a, atoms (fold_left (fun s p => snd (st_insert p s)) props s) a <->
        atoms s a \/ exists q, In q props /\ prop_key q = a).
    { induction props as [|q props IH]; intros s B; cbn [fold_left].
      - split; auto. intros a. split; auto. intros [A|(q & [] & _)]; auto.
      - assert (B' : built (snd (st_insert q s))) by exact (built_run_from s [Ins q] B).
        destruct (IH _ B') as [B2 A]. split; auto. intros a. rewrite A.
        assert (Q : atoms (snd (st_insert q s)) a <-> atoms s a \/ prop_key q = a).
        { destruct (insert_spec q s (built_wf s B)) as (_ & _ & M & _).
          rewrite (atoms_mem _ a (built_wf _ B')), (atoms_mem _ a (built_wf _ B)). rewrite M. intuition. }
        rewrite Q. split.
        + intros [[H|H]|(r & I & E)]; auto; right; [exists q|exists r]; split; auto; [left|right]; auto.
        + intros [H|(r & [<-|I] & E)]; auto. right. eauto. }
    destruct (X st_empty (ex_intro _ [] eq_refl)) as [B A]. split; auto. intros a. rewrite A. split; auto.
    intros [(q & _ & C)|H]; auto. exfalso. apply contains_mem in C; [destruct C|apply (built_wf _ (ex_intro _ [] eq_refl))].
  Qed.

  Lemma C61_lemma L constants objects ops ds init g aa p st :
    make_pddl L constants objects ops ds init g aa = Ok (p, st) ->
    built (pd_init p) /\
    (aa = false -> forall a, atoms (pd_init p) a <-> exists q, In q init /\ prop_key q = a) /\
    (aa = true -> forall st2, is_valid_state (pd_om p) (pd_axioms p) (l_cascade L) (pd_init p) st2 = Ok true) /\
    (aa = true ->
       is_valid_state (pd_om p) (pd_axioms p) (l_cascade L) (initial_state init) no_store = Ok true ->
       forall a, atoms (pd_init p) a <-> exists q, In q init /\ prop_key q = a).
  Proof.
    unfold make_pddl, make_from. intros E. apply bind_Ok in E as (axioms & _ & E). apply bind_Ok in E as ([s st1] & E & F).
    injection F as <- <-. cbn [pd_init pd_om pd_axioms]. destruct (initial_atoms init) as [B A]. destruct aa.
    - pose proof E as E'. apply C29_lemma in E' as [B' V]; auto. split; auto. split; [discriminate|]. split; auto.
      intros _ V0. apply (C30_fixed_lemma _ _ _ _ _ _ _ _ B E) in V0. subst s. exact A.
    - injection E as <- <-. split; auto. split; auto. split; discriminate.
  Qed.

  (** The members of a new Pddl; what C39-C42 and C49 assume of the store holds. *)
  Lemma make_members L constants objects ops ds init g aa p st :
    make_pddl L constants objects ops ds init g aa = Ok (p, st) ->
    pd_symbols p = constants ++ objects /\ pd_om p = create_object_map (pd_symbols p) /\ pd_ops p = ops /\
    pd_derived p = ds /\ pd_goal p = g /\
    Forall2 (fun o a => ax_op a = o /\ extract_context o = Ok a) (filter op_is_axiom ops) (pd_axioms p).
  Proof.
    unfold make_pddl, make_from. intros E. apply bind_Ok in E as (axioms & Em & E). apply bind_Ok in E as ([s st1] & E & F).
    injection F as <- <-. cbn. do 5 (split; [reflexivity|]). apply build_axioms, mapM_spec in Em. clear -Em.
    induction Em as [|o a os axs H _ IH]; constructor; auto. split; auto.
    unfold extract_context in H. destruct (op_pre o) as [| | |[]| | |]; inversion H; reflexivity.
  Qed.
  Lemma make_reachable L constants objects ops ds init g aa p st ar :
    Forall (fun o => wf_type (otype o)) (constants ++ objects) ->
    Forall (fun o => okind o = KConst) (constants ++ objects) ->
    make_pddl L constants objects ops ds init g aa = Ok (p, st) ->
    (aa = true -> Forall (wf_axiom (pd_symbols p)) (pd_axioms p)) ->
    reachable_store (pd_symbols p) ar (pd_axioms p) st.
  Proof.
    intros W K E. pose proof (make_members _ _ _ _ _ _ _ _ _ _ E) as (Es & _).
    unfold make_pddl, make_from in E. apply bind_Ok in E as (axioms & _ & E). apply bind_Ok in E as ([s st1] & E & F).
    injection F as <- <-. cbn in *. destruct aa; intros H.
    - apply (consistent_reachable (constants ++ objects) ar axioms (l_cascade L) W K (H eq_refl) (l_rounds L)
        (initial_state init, no_store) (s, st1)); auto. constructor.
    - injection E as <- <-. constructor.
  Qed.
End Make.
