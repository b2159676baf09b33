(** The functions on sets of strings (C65). *)
From Coq Require Import Ascii String List Bool NArith ZArith Arith Lia Permutation.
From Verif.Model Require Import Base Order HashSet Object Proposition State CombinationGenerator
  ParameterGenerator Syntax Formula Effects Derived NormalForm Consistency Text Pddl Python.
From Verif.Spec Require Import SetSpec CartesianSpec TypingSpec FormulaSpec EffectSpec NormalFormSpec AxiomSpec DerivedSpec
  TextSpec PddlSpec PythonSpec.
From Verif.Proofs Require Import StateFacts StateHistory FormulaFacts EffectFacts EffectLink EffectTheorems DerivedFacts
  DerivedExamples NormalFormGoal AxiomPartial AxiomLoops AxiomMeaning AxiomTotal AxiomExtend AxiomSound TextFacts PddlFacts
  PddlTheorems PddlListing
  PddlHistory NormalizeFacts PythonFacts.
Import ListNotations.
Local Open Scope string_scope.
Local Open Scope list_scope.

Section Loops.
  Context `{SH : StdHash}.
  Context (objects : list object) (axioms : list axiom) (ar : string -> nat) (rank : nat -> nat) (fuel : nat).
  Context (W : Forall (fun o => wf_type (otype o)) objects) (K : Forall (fun o => okind o = KConst) objects)
          (Hgood : Forall (good_axiom objects ar) axioms) (Hrank : ranked axioms rank)
          (Htext : Forall (fun a => text_effs objects (op_effs (ax_op a))) axioms)
          (Hwf : Forall (wf_axiom objects) axioms).
  Notation om := (create_object_map objects).
  Notation reachable := (reachable_store objects ar axioms).

  (** ** Derived predicates *)
  Lemma derived_all_over inner outer ds : (forall d, In d ds -> good_derived objects d) ->
    Forall (fun d => free_of "("%char (dp_name d)) ds ->
    forall s r, over objects s -> derived_all om inner outer ds s = Ok r -> over objects (snd r).
  Proof.
    intros Gd Fn.
    assert (D1 : forall d, In d ds -> forall ts, (forall t, In t ts -> Forall (fun o => In o objects) t) ->
      forall x r, over objects (snd x) -> foldM (derived_step om d) ts x = Ok r -> over objects (snd r)).
    { intros d Id. rewrite Forall_forall in Fn. induction ts as [|t ts IH]; intros Ht x r O E; cbn [foldM] in E.
      - injection E as <-; auto.
      - apply bind_Ok in E as (y & E & F). apply (IH (fun t I => Ht t (or_intror I)) y r); auto. unfold derived_step in E.
        apply bind_Ok in E as (v & _ & E). destruct v.
        + pose proof (over_insert objects (mkProp (dp_name d) t) (snd x) O (conj (Fn d Id) (Ht t (or_introl eq_refl)))) as Q.
          destruct (st_insert _ _) as [c s']. injection E as <-. exact Q.
        + pose proof (over_erase objects (mkProp (dp_name d) t) (snd x) O) as Q.
          destruct (st_erase _ _) as [c s']. injection E as <-. exact Q. }
    assert (D2 : forall d, In d ds -> forall n s r, over objects s -> derived_apply om n d s = Ok r -> over objects (snd r)).
    { intros d Id. induction n as [|n IH]; intros s r O E; cbn in E; [discriminate|].
      apply bind_Ok in E as ([c s1] & E1 & E). unfold derived_pass in E1. apply bind_Ok in E1 as (ts & Et & E1).
      destruct (Gd d Id) as (G1 & G2 & _). destruct (tuples_ok objects (dp_params d) W G1 G2) as (l & El & Hl).
      rewrite Et in El. injection El as <-.
      apply (D1 d Id) in E1; auto; [|intros t It; apply Hl in It; eapply well_typed_In; eauto]. cbn in E1.
      destruct c; [|injection E as <-; auto]. apply bind_Ok in E as ([c2 s2] & E2 & E). injection E as <-.
      apply (IH s1 (c2, s2)); auto. }
    assert (D3 : forall n l, incl l ds -> forall x r, over objects (snd x) ->
      foldM (fun acc d => let* ' (c, s') := derived_apply om n d (snd acc) in Ok (fst acc || c, s')) l x = Ok r ->
      over objects (snd r)).
    { intros n. induction l as [|d l IH]; intros Il x r O E; cbn [foldM] in E; [injection E as <-; auto|].
      apply bind_Ok in E as (y & E & F). apply (IH (fun d I => Il d (or_intror I)) y r); auto.
      apply bind_Ok in E as ([c s'] & E & Q). injection Q as <-. apply (D2 d (Il d (or_introl eq_refl))) in E; auto. }
    induction outer as [|n IH]; intros s r O E; cbn in E; [discriminate|]. apply bind_Ok in E as ([c s1] & E1 & E).
    unfold derived_round in E1. apply D3 in E1; auto using incl_refl. cbn in E1.
    destruct c; [|injection E as <-; auto].
    apply bind_Ok in E as ([c2 s2] & E2 & E). injection E as <-. apply (IH s1 (c2, s2)); auto.
  Qed.

  (** ** Axioms on full states *)
  Definition fit (w : state * store) : Prop := over objects (fst w) /\ reachable (snd w).
  Definition fit_partial (w : partial_state * store) : Prop := over_partial objects (fst w) /\ reachable (snd w).

  Lemma axiom_args i a : nth_error axioms i = Some a -> exists l, prepare_arguments om (ax_op a) = Ok l /\
    forall args, In args l -> length (op_params (ax_op a)) = length args /\ Forall (fun o => In o objects) args.
  Proof.
    intros N. destruct (prepare_ok objects W K a) as (l & El & Hl & _).
    { rewrite Forall_forall in Hwf. apply Hwf. eapply nth_error_In; eauto. }
    exists l. split; auto. intros args I. specialize (Hl args I).
    split; [apply (well_typed_length _ _ _ Hl)|eapply well_typed_In; eauto].
  Qed.
  Lemma axiom_op i a : nth_error axioms i = Some a -> good_op objects ar (ax_op a) /\ text_effs objects (op_effs (ax_op a)).
  Proof.
    intros N. destruct (good_axiom_nth _ _ _ _ _ Hgood N). split; auto.
    rewrite Forall_forall in Htext. apply Htext. eapply nth_error_In; eauto.
  Qed.

  Lemma axiom_apply_fit i a w c w' : nth_error axioms i = Some a -> fit w ->
    axiom_apply om axioms fuel i a w = Ok (c, w') -> fit w'.
  Proof.
    intros N Fw E. unfold axiom_apply in E. destruct (axiom_args i a N) as (l & El & Hl).
    destruct (axiom_op i a N) as [Go Tx]. rewrite El in E. cbn [bind] in E. clear El.
    revert Fw E. generalize false. revert w. induction l as [|args l IH]; intros w b Fw E; cbn [foldM] in E.
    - injection E as _ <-. auto.
    - apply bind_Ok in E as ([b1 w1] & E & F). refine (IH (fun t I => Hl t (or_intror I)) w1 b1 _ F).
      unfold axiom_step in E. cbn [fst snd] in E. apply bind_Ok in E as (v & _ & E).
      destruct v; [|injection E as <- <-; auto]. apply bind_Ok in E as ([n [s1 st1]] & E & Q). injection Q as <- <-.
      destruct w as [s st], Fw as [O R]. cbn [fst snd] in *. destruct (Hl args (or_introl eq_refl)) as [Ll Fa]. split; cbn.
      + exact (state_over objects axioms ar rank W Hgood Hrank Htext fuel (OAx i) (ax_op a) args s st n s1 st1 Go Tx Ll Fa R
                 (ex_intro _ a (conj N eq_refl)) O E).
      + eapply rs_axiom_state; [exact R|exact N|exact Ll|exact E].
  Qed.

  Lemma consistent_fit rounds : forall w w', fit w -> consistent_state om axioms fuel rounds w = Ok w' -> fit w'.
  Proof.
    induction rounds as [|n IH]; intros w w' Fw E; [discriminate|]. cbn [consistent_state] in E.
    apply bind_Ok in E as ([c w1] & E & F).
    assert (X : forall axs pre, axioms = pre ++ axs -> forall x y, fit (snd x) ->
      foldMi (fun i acc a => let* ' (c, w') := axiom_apply om axioms fuel i a (snd acc) in Ok (fst acc || c, w'))
        (length pre) axs x = Ok y -> fit (snd y)).
    { clear - W K Hgood Hrank Htext Hwf. induction axs as [|a axs IH]; intros pre Ea x y R E; cbn [foldMi] in E; [injection E as <-; auto|].
      apply bind_Ok in E as (z & E & F). apply bind_Ok in E as ([c w] & E & Q). injection Q as <-.
      assert (N : nth_error axioms (length pre) = Some a).
      { rewrite Ea, nth_error_app2, Nat.sub_diag by lia. reflexivity. }
      pose proof (axiom_apply_fit _ _ _ _ _ N R E) as R'.
      apply (IH (pre ++ [a]) ltac:(rewrite <- app_assoc; exact Ea) (fst x || c, w) y R').
      rewrite app_length. cbn. rewrite Nat.add_1_r. exact F. }
    pose proof (X axioms [] eq_refl (false, w) (c, w1) Fw E) as R1. cbn [snd] in R1.
    destruct c; [eapply IH; eauto|]. injection F as <-. auto.
  Qed.

  (** ** Axioms on partial states *)
  Lemma axiom_partial_fit i a w c w' : nth_error axioms i = Some a -> fit_partial w ->
    axiom_apply_partial om axioms fuel i a w = Ok (c, w') -> fit_partial w'.
  Proof.
    intros N Fw E. unfold axiom_apply_partial in E. destruct (axiom_args i a N) as (l & El & Hl).
    destruct (axiom_op i a N) as [Go Tx]. rewrite El in E. cbn [bind] in E. clear El.
    revert Fw E. generalize 0. revert w. induction l as [|args l IH]; intros w b Fw E; cbn [foldM] in E.
    - injection E as _ <-. auto.
    - apply bind_Ok in E as ([b1 w1] & E & F). refine (IH (fun t I => Hl t (or_intror I)) w1 b1 _ F).
      unfold axiom_step_partial in E. cbn [fst snd] in E. apply bind_Ok in E as (v & _ & E).
      destruct v as [[|]|]; [|injection E as <- <-; auto|injection E as <- <-; auto].
      apply bind_Ok in E as ([n [s1 st1]] & E & Q). injection Q as <- <-.
      destruct w as [s st], Fw as [O R]. cbn [fst snd] in *. destruct (Hl args (or_introl eq_refl)) as [Ll Fa]. split; cbn.
      + exact (partial_over objects axioms ar rank W Hgood Hrank Htext fuel (OAx i) (ax_op a) args s st n s1 st1 Go Tx Ll Fa R
                 (ex_intro _ a (conj N eq_refl)) O E).
      + eapply rs_axiom_partial; [exact R|exact N|exact Ll|exact E].
  Qed.

  Lemma rounds_fit rounds : forall w w', fit_partial w -> consistent_rounds om axioms fuel rounds w = Ok w' -> fit_partial w'.
  Proof.
    assert (P : forall w c w', fit_partial w -> consistent_pass_partial om axioms fuel w = Ok (c, w') -> fit_partial w').
    { intros w c w1 R E. unfold consistent_pass_partial in E.
      assert (X : forall axs pre, axioms = pre ++ axs -> forall x y, fit_partial (snd x) ->
        foldMi (fun i acc a =>
          let* ' (n, w') := axiom_apply_partial om axioms fuel i a (snd acc) in
          if Nat.eqb n 2 then Throw ERuntime else Ok (fst acc || Nat.ltb 0 n, w'))
          (length pre) axs x = Ok y -> fit_partial (snd y)).
      { clear - W K Hgood Hrank Htext Hwf. induction axs as [|a axs IH]; intros pre Ea x y R E; cbn [foldMi] in E; [injection E as <-; auto|].
        apply bind_Ok in E as (z & E & F). apply bind_Ok in E as ([c w] & E & Q).
        destruct (Nat.eqb c 2); [discriminate|]. injection Q as <-.
        assert (N : nth_error axioms (length pre) = Some a).
        { rewrite Ea, nth_error_app2, Nat.sub_diag by lia. reflexivity. }
        pose proof (axiom_partial_fit _ _ _ _ _ N R E) as R'.
        apply (IH (pre ++ [a]) ltac:(rewrite <- app_assoc; exact Ea) (fst x || Nat.ltb 0 c, w) y R').
        rewrite app_length. cbn. rewrite Nat.add_1_r. exact F. }
      apply (X axioms [] eq_refl (false, w) (c, w1) R E). }
    induction rounds as [|n IH]; intros w w' R E; cbn [consistent_rounds] in E;
      apply bind_Ok in E as ([c w1] & E & F); [discriminate|].
    pose proof (P _ _ _ R E) as R1. destruct c; [eapply IH; eauto|]. injection F as <-. auto.
  Qed.
  Lemma consistent_partial_fit w w' : fit_partial w -> consistent_partial om axioms fuel w = Ok w' -> fit_partial w'.
  Proof. apply rounds_fit. Qed.
End Loops.

Lemma post_same objects (S S' : atom -> Prop) e : (forall a, S a <-> S' a) -> forall env,
  post objects S env e -> post objects S' env e.
Proof.
  intros H. induction e as [fs adds dels cs IHf IHc] using effs_ind'. intros env. rewrite !post_eq.
  intros (Pf & Pa & Pd & Pc). split; [|split; [|split]].
  - intros vars b I objs Wt. apply (IHf vars b I). eauto.
  - intros q I. apply (holds_same objects S S' _ H). auto.
  - intros q I K. apply (Pd q I). apply (holds_same objects S S' _ H). exact K.
  - intros g b I K. apply (IHc g b I). apply (Pc g b I). apply (holds_same objects S S' _ H). exact K.
Qed.
Lemma respects_same objects (S S' : atom -> Prop) a : (forall x, S x <-> S' x) ->
  respects objects S a -> respects objects S' a.
Proof.
  intros H R args Wt env K. apply (post_same objects S S' _ H). apply (R args Wt).
  apply (holds_same objects S S' _ H). exact K.
Qed.

Section Domain.
  Context `{SH : StdHash} (L : limits) (p : pddl) (ar : string -> nat) (rank : nat -> nat) (drank : string -> nat).
  Context (G : good_domain L p ar rank drank) (T : text_domain p).
  Notation objs := (pd_symbols p).
  Notation reachable := (reachable_store (pd_symbols p) ar (pd_axioms p)).
  Notation Over := (over (pd_symbols p)).

  Lemma derive_over s c s' : Over s -> pd_derive L p s = Ok (c, s') -> Over s'.
  Proof.
    unfold pd_derive. rewrite (gd_om _ _ _ _ _ G). intros O E.
    apply (derived_all_over objs (gd_types _ _ _ _ _ G) _ _ _ (gd_derived _ _ _ _ _ G) (td_derived _ T) _ _ O E).
  Qed.

  Lemma temp_over o args s st n s' st' : In o (pd_ops p) -> well_typed objs (op_params o) args -> reachable st -> Over s ->
    temp_apply L p o args (s, st) = Ok (n, (s', st')) -> Over s'.
  Proof.
    unfold temp_apply. cbn [fst snd]. rewrite (gd_om _ _ _ _ _ G). intros Io Wt R O E.
    apply bind_Ok in E as ([m [s1 st1]] & E & F). injection F as <- <- <-.
    pose proof (td_ops _ T) as To. rewrite Forall_forall in To. destruct (op_good _ _ _ _ _ G o Io) as [Go _].
    exact (state_over objs (pd_axioms p) ar rank (gd_types _ _ _ _ _ G) (gd_axioms _ _ _ _ _ G) (gd_ranked _ _ _ _ _ G)
      (td_axioms _ T) (l_cascade L) (OAct (op_name o)) o args s (forget_actions st) m s1 st1 Go (To o Io)
      (well_typed_length _ _ _ Wt) (well_typed_In _ _ _ Wt) (rs_new _ _ _ _ R) Logic.I O E).
  Qed.

  Lemma next_over call s st s' st' : reachable st -> Over s -> next_state L p call (s, st) = Ok (s', st') ->
    Over s' /\ reachable st'.
  Proof.
    intros R O E. split.
    - unfold next_state in E. apply bind_Ok in E as ([o args] & Ep & E). unfold apply_copy in E.
      apply bind_Ok in E as ([n [s1 st1]] & E & F). apply bind_Ok in F as ([c s2] & F & Q). injection Q as <- <-.
      destruct (calls_typed _ _ _ _ (proj1 (parse_calls _ _ _ _) Ep)) as [Io Wt].
      eapply derive_over; [|exact F]. eapply temp_over; eauto.
    - destruct (next_ok _ _ _ _ _ G call s st (set_in s) R (set_in_represents _ (proj1 O)))
        as [(o & args & s1 & st1 & E1 & _ & R1 & _)|[[N|N] _]]; congruence.
  Qed.

  Lemma actions_over cs : forall s st s' st', reachable st -> Over s -> apply_actions L p cs (s, st) = Ok (s', st') ->
    Over s' /\ reachable st'.
  Proof.
    intros s st s' st'. rewrite apply_actions_fold. revert s st. induction cs as [|c cs IH]; intros s st R O E; cbn [foldM] in E.
    - injection E as <- <-. auto.
    - apply bind_Ok in E as ([s1 st1] & E & F). destruct (next_over _ _ _ _ _ R O E). eapply IH; eauto.
  Qed.

  (** ** Reading back *)
  Lemma back strs s : Over s -> same_strings strs (stringify s) -> parse_state objs strs = Ok s.
  Proof. intros O S. apply parse_back; auto; [apply (gd_names _ _ _ _ _ G)|apply (td_words _ T)]. Qed.
  Lemma back_self s : Over s -> parse_state objs (stringify s) = Ok s.
  Proof. intros O. apply back; auto. apply same_refl_s. Qed.
  Lemma text_of s t : Over s -> represents s t -> spells objs (stringify s) t /\ NoDup (stringify s).
  Proof.
    intros O R. split; [apply stringify_spells; auto; apply (td_words _ T)|].
    apply (stringify_nodup objs s); auto; [apply (gd_names _ _ _ _ _ G)|apply (td_words _ T)].
  Qed.

  (** ** Text in, text out *)
  Lemma py_actions_lemma cs strs st t : reachable st -> spells objs strs t ->
    (forall strs' st', py_apply_actions L p strs cs st = Ok (strs', st') -> reachable st' /\ NoDup strs' /\
       exists t', executes L p cs t t' /\ spells objs strs' t') /\
    (forall t', executes L p cs t t' -> exists strs' st', py_apply_actions L p strs cs st = Ok (strs', st') /\
       spells objs strs' t') /\
    ((exists w, py_apply_actions L p strs cs st = Ok w) \/ py_apply_actions L p strs cs st = Throw ERuntime \/
     py_apply_actions L p strs cs st = Throw EInvalidArgument).
  Proof.
    intros R S. destruct (spells_parse objs strs t S) as (s & Es & Rs). unfold py_apply_actions. rewrite Es. cbn [bind].
    pose proof (parse_over objs strs s Es) as O.
    destruct (C39_meaning_lemma L p ar rank drank G cs s st t R Rs) as (A & B & C). split; [|split].
    - intros strs' st' E. apply bind_Ok in E as ([s' st1] & E & F). injection F as <- <-.
      destruct (A _ _ E) as (R1 & t' & X & Rt). destruct (actions_over _ _ _ _ _ R O E) as [O1 _].
      destruct (text_of s' t' O1 Rt) as [Sp N]. split; auto. split; auto. exists t'. auto.
    - intros t' X. destruct (B t' X) as (s' & st' & E & Rt). rewrite E. cbn [bind]. exists (stringify s'), st'.
      split; auto. destruct (actions_over _ _ _ _ _ R O E) as [O1 _]. apply (text_of s' t' O1 Rt).
    - destruct C as [[[s' st'] E]|[E|E]]; rewrite E; cbn [bind]; eauto.
  Qed.

  Lemma py_next_apply strs call st : py_next_state L p strs call st = py_apply_actions L p strs [call] st.
  Proof.
    unfold py_next_state, py_apply_actions. destruct (parse_state objs strs) as [s| | | |]; cbn [bind]; auto.
    rewrite apply_actions_fold. cbn [foldM]. destruct (next_state L p call (s, st)) as [[s' st']| | | |]; reflexivity.
  Qed.

  (** ** Calls on the results of calls *)
  Lemma py_chain_lemma c1 c2 strs st strs1 st1 strs1' st2 r :
    reachable st -> py_apply_actions L p strs c1 st = Ok (strs1, st1) -> same_strings strs1' strs1 -> reachable st2 ->
    (exists st', py_apply_actions L p strs1' c2 st2 = Ok (r, st')) <->
    (exists st', py_apply_actions L p strs (c1 ++ c2) st = Ok (r, st')).
  Proof.
    intros R E S R2. unfold py_apply_actions in *. apply bind_Ok in E as (s & Es & E). rewrite Es. cbn [bind].
    apply bind_Ok in E as ([s1 st1'] & E & F). injection F as <- <-.
    destruct (actions_over _ _ _ _ _ R (parse_over _ _ _ Es) E) as [O1 R1].
    rewrite (back strs1' s1 O1 S). cbn [bind]. rewrite apply_actions_app, E. cbn [bind]. split.
    - intros (st' & Q). apply bind_Ok in Q as ([s2 st3] & Q & F). injection F as <- <-.
      destruct (history_lemma L p ar rank drank G c2 s1 st2 st1' R2 R1 s2 st3 Q) as (st'' & ->). cbn [bind]. eauto.
    - intros (st' & Q). apply bind_Ok in Q as ([s2 st3] & Q & F). injection F as <- <-.
      destruct (history_lemma L p ar rank drank G c2 s1 st1' st2 R1 R2 s2 st3 Q) as (st'' & ->). cbn [bind]. eauto.
  Qed.

  Lemma py_valid_lemma strs call t : spells objs strs t ->
    (forall b, py_is_valid_action p strs call = Ok b <->
       exists o args, calls p call o args /\ (b = true <-> precondition p o args t)) /\
    ((exists b, py_is_valid_action p strs call = Ok b) \/ py_is_valid_action p strs call = Throw ERuntime \/
     py_is_valid_action p strs call = Throw EInvalidArgument).
  Proof.
    intros S. destruct (spells_parse objs strs t S) as (s & Es & Rs). unfold py_is_valid_action, is_valid_action.
    rewrite Es. cbn [bind]. destruct (parse_total p call) as [(o & args & E)|E].
    - rewrite E. cbn [bind]. destruct (calls_typed _ _ _ _ (proj1 (parse_calls _ _ _ _) E)) as [Io Wt].
      rewrite (valid_agree _ _ _ _ _ G o args s t Io (well_typed_length _ _ _ Wt) Rs).
      pose proof (precondition_b p o args t) as Pb. split; [|eauto]. intros b. split.
      + intros [= <-]. exists o, args. split; [apply parse_calls; auto|]. symmetry. exact Pb.
      + intros (o' & args' & C & H). apply parse_calls in C. rewrite E in C. injection C as <- <-. f_equal.
        destruct b, (holdsb objs t (bind_vars (op_params o) args no_env) (op_pre o)); intuition congruence.
    - split; [|destruct E as [-> | ->]; auto]. intros b. split.
      + destruct E as [-> | ->]; discriminate.
      + intros (o' & args' & C & H). apply parse_calls in C. destruct E; congruence.
  Qed.

  Lemma py_tuple_lemma strs call st strs1 st1 strs1' st2 b :
    reachable st -> py_next_state L p strs call st = Ok (strs1, st1) -> same_strings strs1' strs1 -> reachable st2 ->
    ((exists st', is_valid_tuple_str L p strs call strs1' st2 = Ok (b, st')) <-> py_is_valid_action p strs call = Ok b).
  Proof.
    intros R E S R2. unfold py_next_state, py_is_valid_action, is_valid_tuple_str in *.
    apply bind_Ok in E as (s & Es & E). rewrite Es. cbn [bind]. apply bind_Ok in E as ([s1 st1'] & E & F).
    injection F as <- <-. destruct (next_over _ _ _ _ _ R (parse_over _ _ _ Es) E) as [O1 _].
    rewrite (back strs1' s1 O1 S). cbn [bind]. unfold is_valid_tuple, is_valid_action. cbn [fst snd].
    unfold next_state in E. apply bind_Ok in E as ([o args] & Ep & E). rewrite Ep. cbn [bind].
    destruct (calls_typed _ _ _ _ (proj1 (parse_calls _ _ _ _) Ep)) as [Io Wt].
    rewrite (valid_agree _ _ _ _ _ G o args s (set_in s) Io (well_typed_length _ _ _ Wt)
               (set_in_represents _ (proj1 (parse_over _ _ _ Es)))). cbn [bind].
    destruct (holdsb _ _ _ _); [|cbn; split; [intros (st' & [= <- _])|intros [= <-]]; eauto].
    unfold apply_copy in *. apply bind_Ok in E as ([n [s2 st3]] & E & F).
    destruct (temp_history L p ar rank drank G o args s st st2 Io (well_typed_length _ _ _ Wt) R R2 n s2 st3 E)
      as (_ & st4 & _ & ->). cbn [bind]. apply bind_Ok in F as ([c s3] & F & Q). injection Q as -> <-. rewrite F. cbn [bind].
    assert (X : st_eqb s1 s1 = true)
      by (apply (same_set s1 s1 (set_in s1)); apply set_in_represents; apply (proj1 O1)).
    rewrite X. split; [intros (st' & [= <- _])|intros [= <-]]; eauto.
  Qed.

  Lemma py_plan_from cs : forall strs st s st2, reachable st -> reachable st2 -> Over s -> parse_state objs strs = Ok s ->
    (py_plan L p cs strs st <-> exists st', valid_plan_from L p cs (s, st2) = Ok (true, st')).
  Proof.
    induction cs as [|c cs IH]; intros strs st s st2 R R2 O Es; cbn [valid_plan_from fst snd].
    - split.
      + intros K. inversion K as [? ? Hg|]; subst. unfold is_goal_satisfied in Hg. rewrite Es in Hg. cbn [bind] in Hg.
        rewrite Hg. cbn. eauto.
      + intros (st' & E). apply bind_Ok in E as (b & E & F). injection F as -> _. constructor.
        unfold is_goal_satisfied. rewrite Es. exact E.
    - split.
      + intros K. inversion K as [|? ? ? ? strs1 st1 strs' Hv Hn Hs Hp]; subst.
        unfold py_is_valid_action in Hv. rewrite Es in Hv. cbn [bind] in Hv. unfold is_valid_action in Hv.
        apply bind_Ok in Hv as ([o args] & Ep & Hv). rewrite Ep. cbn [bind]. rewrite Hv. cbn [bind].
        unfold py_next_state in Hn. rewrite Es in Hn. cbn [bind] in Hn. apply bind_Ok in Hn as ([s1 st1'] & Hn & Q).
        injection Q as <- <-. destruct (next_over _ _ _ _ _ R O Hn) as [O1 R1].
        unfold next_state in Hn. rewrite Ep in Hn. cbn [bind] in Hn. unfold apply_copy in Hn.
        apply bind_Ok in Hn as ([n [s2 st3]] & E & F). unfold apply_in_place.
        destruct (calls_typed _ _ _ _ (proj1 (parse_calls _ _ _ _) Ep)) as [Io Wt].
        destruct (temp_history L p ar rank drank G o args s st st2 Io (well_typed_length _ _ _ Wt) R R2 n s2 st3 E)
          as (R3 & st4 & R4 & ->). cbn [bind]. apply bind_Ok in F as ([b s3] & F & Q). injection Q as -> ->.
        rewrite F. cbn [bind]. apply (IH strs' st1' s1 st4); auto. apply back; auto.
      + intros (st' & E). apply bind_Ok in E as ([o args] & Ep & E). apply bind_Ok in E as (v & Ev & E).
        destruct v; [|discriminate]. apply bind_Ok in E as ([b [s1 st1]] & E & F).
        unfold apply_in_place in E. apply bind_Ok in E as ([n [s2 st3]] & E & Q).
        destruct (calls_typed _ _ _ _ (proj1 (parse_calls _ _ _ _) Ep)) as [Io Wt].
        destruct (temp_history L p ar rank drank G o args s st2 st Io (well_typed_length _ _ _ Wt) R2 R n s2 st3 E)
          as (R3 & st4 & R4 & E4). apply bind_Ok in Q as ([d s3] & Ed & Q). injection Q as _ -> ->.
        assert (N : next_state L p c (s, st) = Ok (s1, st4)).
        { unfold next_state. rewrite Ep. cbn [bind]. unfold apply_copy. rewrite E4. cbn [bind]. rewrite Ed. reflexivity. }
        destruct (next_over _ _ _ _ _ R O N) as [O1 _].
        apply (pp_call L p c cs strs st (stringify s1) st4 (stringify s1)).
        * unfold py_is_valid_action. rewrite Es. cbn [bind]. unfold is_valid_action. rewrite Ep. exact Ev.
        * unfold py_next_state. rewrite Es. cbn [bind]. rewrite N. reflexivity.
        * apply same_refl_s.
        * apply (IH (stringify s1) st4 s1 st1); eauto using back_self.
  Qed.
  Lemma py_plan_lemma cs strs st st2 : over objs (pd_init p) -> reachable st -> reachable st2 ->
    same_strings strs (py_initial_state p) ->
    (py_plan L p cs strs st <-> exists st', is_valid_plan L p cs st2 = Ok (true, st')).
  Proof. intros O R R2 S. unfold is_valid_plan. apply py_plan_from; auto. apply back; auto. Qed.

  (** ** derived_state *)
  Lemma py_derived_lemma strs t : spells objs strs t -> exists strs',
    py_derived_state L p strs = Ok strs' /\ NoDup strs' /\
    (exists t', spells objs strs' t' /\ (forall a, ~ any_defined objs (pd_derived p) a -> t' a = t a) /\
       forall d, In d (pd_derived p) -> satisfied objs (set_of t') d) /\
    forall strs2, same_strings strs2 strs' -> py_derived_state L p strs2 = Ok strs'.
  Proof.
    intros S. destruct (spells_parse objs strs t S) as (s & Es & Rs). unfold py_derived_state. rewrite Es. cbn [bind].
    destruct (derive_ok _ _ _ _ _ G s t Rs) as (c & s' & E & B & Lo & Sat & _). rewrite E. cbn [bind].
    pose proof (derive_over _ _ _ (parse_over _ _ _ Es) E) as O. exists (stringify s').
    pose proof (set_in_represents s' B) as R'. destruct (text_of s' _ O R') as [Sp N]. split; auto. split; auto. split.
    - exists (set_in s'). split; auto. destruct R' as [_ Hs]. split.
      + intros a Na. specialize (Lo a Na). specialize (Hs a). destruct (set_in s' a), (t a); intuition congruence.
      + intros d Id. apply (satisfied_same p (atoms s')); auto.
    - intros strs2 S2. rewrite (back strs2 s' O S2). cbn [bind]. unfold pd_derive in *. rewrite (gd_om _ _ _ _ _ G) in *.
      rewrite (C34_idempotent_lemma SH objs _ _ (pd_derived p) s c s' (gd_types _ _ _ _ _ G) (proj1 (parse_over _ _ _ Es))
        (gd_derived _ _ _ _ _ G) E); auto.
      + pose proof (gd_inner _ _ _ _ _ G). lia.
      + pose proof (gd_outer _ _ _ _ _ G) as []. lia.
  Qed.

  Lemma py_next_derived_lemma strs call st strs1 st1 strs1' : reachable st ->
    py_next_state L p strs call st = Ok (strs1, st1) -> same_strings strs1' strs1 ->
    py_derived_state L p strs1' = Ok strs1.
  Proof.
    intros R E S. unfold py_next_state, py_derived_state in *. apply bind_Ok in E as (s & Es & E).
    apply bind_Ok in E as ([s1 st1'] & E & F). injection F as <- <-.
    pose proof (parse_over _ _ _ Es) as O. destruct (next_over _ _ _ _ _ R O E) as [O1 _].
    rewrite (back strs1' s1 O1 S). cbn [bind]. unfold next_state in E. apply bind_Ok in E as ([o args] & Ep & E).
    unfold apply_copy in E. apply bind_Ok in E as ([n [s2 st3]] & E & F). apply bind_Ok in F as ([c s3] & F & Q).
    injection Q as -> <-. destruct (calls_typed _ _ _ _ (proj1 (parse_calls _ _ _ _) Ep)) as [Io Wt].
    pose proof (temp_over _ _ _ _ _ _ _ Io Wt R O E) as O2.
    unfold pd_derive in *. rewrite (gd_om _ _ _ _ _ G) in *.
    rewrite (C34_idempotent_lemma SH objs _ _ (pd_derived p) s2 c s1 (gd_types _ _ _ _ _ G) (proj1 O2)
        (gd_derived _ _ _ _ _ G) F); auto.
    - pose proof (gd_inner _ _ _ _ _ G). lia.
    - pose proof (gd_outer _ _ _ _ _ G) as []. lia.
  Qed.

  (** ** The functions on States *)
  Lemma py_agrees_lemma strs s : Over s -> same_strings strs (stringify s) ->
    (forall cs st, py_apply_actions L p strs cs st = (let* w := apply_actions L p cs (s, st) in Ok (stringify (fst w), snd w))) /\
    py_derived_state L p strs = (let* x := pd_derive L p s in Ok (stringify (snd x))) /\
    (forall st, py_consistent_state L p strs st =
       (let* w := consistent_state (pd_om p) (pd_axioms p) (l_cascade L) (l_rounds L) (s, st) in Ok (stringify (fst w), snd w))) /\
    (forall call, py_is_valid_action p strs call = is_valid_action p s call) /\
    (forall st, py_is_valid_state L p strs st = is_valid_state (pd_om p) (pd_axioms p) (l_cascade L) s st) /\
    (forall neg strs' st, Over neg -> same_strings strs' (stringify neg) ->
       py_consistent_partial L p strs strs' st =
         (let* w := consistent_partial (pd_om p) (pd_axioms p) (l_cascade L) (mkPS s neg, st) in
          Ok ((stringify (ps_pos (fst w)), stringify (ps_neg (fst w))), snd w)) /\
       py_is_valid_partial L p strs strs' st =
         is_valid_partial (pd_om p) (pd_axioms p) (l_cascade L) (l_rounds L) (mkPS s neg, st)).
  Proof.
    intros O S. pose proof (back strs s O S) as B.
    unfold py_apply_actions, py_derived_state, py_consistent_state, py_is_valid_action, py_is_valid_state,
      py_consistent_partial, py_is_valid_partial, parse_partial. rewrite B. cbn [bind].
    assert (X : forall (x : outcome (state * store)),
      (let* ' (s', st') := x in Ok (stringify s', st')) = (let* w := x in Ok (stringify (fst w), snd w)))
      by (intros [[]| | | |]; reflexivity).
    split; [auto|]. split; [destruct (pd_derive L p s) as [[]| | | |]; reflexivity|]. split; [auto|].
    split; [auto|]. split; [auto|]. intros neg strs' st On Sn. rewrite (back strs' neg On Sn). cbn [bind].
    split; [|reflexivity]. destruct (consistent_partial _ _ _ _) as [[]| | | |]; reflexivity.
  Qed.

  Lemma py_valid_state_lemma strs t st : reachable st -> spells objs strs t ->
    exists b, py_is_valid_state L p strs st = Ok b /\ (b = true <-> Forall (respects objs (set_of t)) (pd_axioms p)).
  Proof.
    intros R S. destruct (spells_parse objs strs t S) as (s & Es & Rs). unfold py_is_valid_state. rewrite Es. cbn [bind].
    rewrite (gd_om _ _ _ _ _ G).
    destruct (C30_decides_lemma objs (gd_types _ _ _ _ _ G) (pd_axioms p) ar (gd_axioms _ _ _ _ _ G) (td_const _ T) (td_wf _ T)
      rank (gd_ranked _ _ _ _ _ G) (l_cascade L) (gd_cascade _ _ _ _ _ G) s st (proj1 Rs) R) as (b & E & H).
    exists b. split; auto. rewrite H.
    split; apply Forall_impl; intros a; apply respects_same; intros x; [|symmetry]; apply Rs.
  Qed.

  (** ** consistent_state *)
  Lemma py_consistent_lemma strs st strs1 st1 strs1' : reachable st ->
    py_consistent_state L p strs st = Ok (strs1, st1) -> same_strings strs1' strs1 ->
    reachable st1 /\ NoDup strs1 /\
    (exists t, spells objs strs1 t /\ Forall (respects objs (set_of t)) (pd_axioms p)) /\
    (forall st2, py_is_valid_state L p strs1' st2 = Ok true) /\
    (forall st2, py_consistent_state L p strs1' st2 = Ok (strs1, st2)).
  Proof.
    intros R E S. unfold py_consistent_state, py_is_valid_state in *. apply bind_Ok in E as (s & Es & E).
    apply bind_Ok in E as ([s1 st1'] & E & F). injection F as <- <-.
    pose proof (parse_over _ _ _ Es) as O. rewrite (gd_om _ _ _ _ _ G) in *.
    destruct (consistent_fit objs (pd_axioms p) ar rank (l_cascade L) (gd_types _ _ _ _ _ G) (td_const _ T)
      (gd_axioms _ _ _ _ _ G) (gd_ranked _ _ _ _ _ G) (td_axioms _ T) (td_wf _ T) (l_rounds L) (s, st) (s1, st1')
      (conj O R) E) as [O1 R1]. cbn [fst snd] in *.
    pose proof (set_in_represents s1 (proj1 O1)) as Rt. destruct (text_of s1 _ O1 Rt) as [Sp N].
    split; auto. split; auto. rewrite (back strs1' s1 O1 S). cbn [bind].
    destruct (C29_lemma _ _ _ _ _ _ _ _ (proj1 O) E) as [B1 V]. split; [|split; auto].
    - exists (set_in s1). split; auto.
      destruct (C29_meaning_lemma objs (gd_types _ _ _ _ _ G) (td_const _ T) _ _ _ _ _ _ _ (td_wf _ T) (proj1 O) E) as [_ Q].
      eapply Forall_impl; [|exact Q]. intros a. apply respects_same, (proj2 Rt).
    - intros st2. destruct (l_rounds L) as [|n]; [discriminate|].
      rewrite (C30_idempotent_lemma _ _ _ _ n s st s1 st1' st2 (proj1 O) E). reflexivity.
  Qed.

  Lemma back_partial pos neg s : over_partial objs s -> same_strings pos (fst (stringify_partial s)) ->
    same_strings neg (snd (stringify_partial s)) -> parse_partial p pos neg = Ok s.
  Proof.
    intros [Op On] Sp Sn. unfold parse_partial. rewrite (back pos _ Op Sp), (back neg _ On Sn). destruct s; reflexivity.
  Qed.

  Lemma py_consistent_partial_lemma pos neg tp tn st pos1 neg1 st1 pos1' neg1' : reachable st ->
    spells objs pos tp -> spells objs neg tn -> (forall a, tp a = true -> tn a = true -> False) ->
    py_consistent_partial L p pos neg st = Ok ((pos1, neg1), st1) ->
    same_strings pos1' pos1 -> same_strings neg1' neg1 ->
    reachable st1 /\ NoDup pos1 /\ NoDup neg1 /\
    (exists tp' tn', spells objs pos1 tp' /\ spells objs neg1 tn' /\
       (forall a, tp' a = true -> tn' a = true -> False) /\
       forall a, tp a = true \/ tn a = true -> tp' a = true \/ tn' a = true) /\
    (forall st2, l_rounds L <> 0 -> py_is_valid_partial L p pos1' neg1' st2 = Ok true) /\
    (forall st2, py_consistent_partial L p pos1' neg1' st2 = Ok ((pos1, neg1), st2)).
  Proof.
    intros R Sp Sn D E S1 S2. destruct (spells_parse objs pos tp Sp) as (a & Ea & Ra).
    destruct (spells_parse objs neg tn Sn) as (b & Eb & Rb).
    assert (Pb : pbuilt (mkPS a b)).
    { split; [apply Ra|]. split; [apply Rb|]. apply ps_consistent_spec; cbn.
      { split; apply built_wf; [apply Ra|apply Rb]. }
      intros x Ha Hb. cbn in Ha, Hb.
      apply (D x); [apply Ra; apply atoms_mem; auto; apply built_wf, Ra|apply Rb; apply atoms_mem; auto; apply built_wf, Rb]. }
    unfold py_consistent_partial, parse_partial in E. rewrite Ea, Eb in E. cbn [bind] in E.
    apply bind_Ok in E as ([s1 st1'] & E & F). injection F as <- <- <-.
    pose proof E as E0. rewrite (gd_om _ _ _ _ _ G) in E0.
    destruct (consistent_partial_fit objs (pd_axioms p) ar rank (l_cascade L) (gd_types _ _ _ _ _ G) (td_const _ T)
      (gd_axioms _ _ _ _ _ G) (gd_ranked _ _ _ _ _ G) (td_axioms _ T) (td_wf _ T) (mkPS a b, st) (s1, st1')
      (conj (conj (parse_over _ _ _ Ea) (parse_over _ _ _ Eb)) R) E0) as [O1 R1]. cbn [fst snd] in *. clear E0.
    destruct (C32_stable_lemma _ _ _ _ _ _ _ Pb E) as (P1 & St & Va).
    destruct (C32_known_lemma _ _ _ _ _ _ _ Pb E) as (Kn & _).
    pose proof (set_in_represents _ (proj1 (proj1 O1))) as Rp. pose proof (set_in_represents _ (proj1 (proj2 O1))) as Rn.
    destruct (text_of _ _ (proj1 O1) Rp) as [Sp1 N1]. destruct (text_of _ _ (proj2 O1) Rn) as [Sn1 N2].
    split; auto. split; auto. split; auto. split; [|split].
    - exists (set_in (ps_pos s1)), (set_in (ps_neg s1)). split; auto. split; auto. split.
      + intros x Hp Hn. apply Rp in Hp. apply Rn in Hn. destruct P1 as (B1 & B2 & Cs).
        apply (proj1 (ps_consistent_spec s1 (conj (built_wf _ B1) (built_wf _ B2))) Cs x).
        * apply atoms_mem; auto. apply built_wf, B1.
        * apply atoms_mem; auto. apply built_wf, B2.
      + intros x Hx. destruct (Kn x) as [H|H]; [|left; apply Rp; auto|right; apply Rn; auto].
        destruct Hx as [Hx|Hx]; [left; apply Ra|right; apply Rb]; auto.
    - intros st2 Hr. unfold py_is_valid_partial. rewrite (back_partial _ _ s1 O1 S1 S2). cbn [bind].
      destruct (l_rounds L) as [|n]; [congruence|]. apply Va.
    - intros st2. unfold py_consistent_partial. rewrite (back_partial _ _ s1 O1 S1 S2). cbn [bind]. rewrite St. reflexivity.
  Qed.

End Domain.

(** ** initial_state *)
Section Initial.
  Context `{SH : StdHash} (L : limits) (p : pddl) (ar : string -> nat) (rank : nat -> nat) (drank : string -> nat).
  Context (G : good_domain L p ar rank drank) (T : text_domain p).
  Notation objs := (pd_symbols p).
  Notation reachable := (reachable_store (pd_symbols p) ar (pd_axioms p)).

  Definition with_init (s : state) : pddl :=
    mkPddl (pd_constants p) (pd_problem_objects p) (pd_objects p) (pd_om p) (pd_ops p) (pd_axioms p) (pd_derived p) s (pd_goal p).
  Lemma with_init_good s : good_domain L (with_init s) ar rank drank.
  Proof. destruct G; constructor; auto. Qed.
  Lemma with_init_text s : text_domain (with_init s).
  Proof. destruct T; constructor; auto. Qed.
  Lemma with_init_plan s cs : forall strs st, py_plan L (with_init s) cs strs st <-> py_plan L p cs strs st.
  Proof.
    induction cs as [|c cs IH]; intros strs st; split; intros K; inversion K; subst.
    - constructor; auto.
    - constructor; auto.
    - econstructor; [| | |apply IH]; eauto.
    - econstructor; [| | |apply IH]; eauto.
  Qed.

  Lemma py_set_initial_lemma strs t : spells objs strs t -> exists p',
    py_set_initial_state p strs = Ok p' /\ spells objs (py_initial_state p') t /\ NoDup (py_initial_state p') /\
    good_domain L p' ar rank drank /\ text_domain p' /\ over objs (pd_init p') /\
    forall cs st st2, reachable st -> reachable st2 ->
      ((exists st', is_valid_plan L p' cs st2 = Ok (true, st')) <-> py_plan L p cs strs st).
  Proof.
    intros S. destruct (spells_parse objs strs t S) as (s & Es & Rs). pose proof (parse_over _ _ _ Es) as O.
    exists (with_init s). unfold py_set_initial_state. rewrite Es. cbn [bind]. split; auto.
    destruct (text_of L p ar rank drank G T s t O Rs) as [Sp N]. split; auto. split; auto.
    split; [apply with_init_good|]. split; [apply with_init_text|]. split; auto.
    intros cs st st2 R R2. rewrite <- (with_init_plan s).
    symmetry. apply (py_plan_from L (with_init s) ar rank drank (with_init_good s) (with_init_text s)); auto.
  Qed.
  Lemma py_keep_initial_lemma strs : over objs (pd_init p) -> same_strings strs (py_initial_state p) ->
    py_set_initial_state p strs = Ok p.
  Proof.
    intros O S. unfold py_set_initial_state. rewrite (back L p ar rank drank G T strs _ O S). destruct p; reflexivity.
  Qed.
  Lemma py_malformed_lemma strs : (forall t, ~ spells objs strs t) ->
    (forall call st, py_next_state L p strs call st = Throw ERuntime) /\
    (forall cs st, py_apply_actions L p strs cs st = Throw ERuntime) /\
    py_derived_state L p strs = Throw ERuntime /\
    (forall st, py_consistent_state L p strs st = Throw ERuntime) /\
    (forall neg st, py_consistent_partial L p strs neg st = Throw ERuntime) /\
    (forall pos st, py_consistent_partial L p pos strs st = Throw ERuntime) /\
    (forall call, py_is_valid_action p strs call = Throw ERuntime) /\
    (forall st, py_is_valid_state L p strs st = Throw ERuntime) /\
    (forall neg st, py_is_valid_partial L p strs neg st = Throw ERuntime) /\
    (forall pos st, py_is_valid_partial L p pos strs st = Throw ERuntime) /\
    py_set_initial_state p strs = Throw ERuntime.
  Proof.
    clear G T. intros N. unfold py_next_state, py_apply_actions, py_derived_state, py_consistent_state, py_consistent_partial,
      py_is_valid_action, py_is_valid_state, py_is_valid_partial, parse_partial, py_set_initial_state.
    rewrite parse_state_else by auto. cbn [bind].
    repeat split; auto; intros pos st; destruct (parse_state_total objs pos) as [[s E]|E]; rewrite E; reflexivity.
  Qed.
End Initial.

(** A new Pddl has an initial state over its objects. *)
Lemma make_over `{SH : StdHash} L constants objects ops ds init g aa p st ar rank drank :
  make_pddl L constants objects ops ds init g aa = Ok (p, st) ->
  Forall (fun q => free_of "("%char (pname q) /\ Forall (fun o => In o (constants ++ objects)) (pargs q)) init ->
  good_domain L p ar rank drank -> text_domain p -> over (pd_symbols p) (pd_init p).
Proof.
  intros E Hi G T. pose proof (make_members _ _ _ _ _ _ _ _ _ _ E) as (Es & _).
  assert (O : over (constants ++ objects) (initial_state init)).
  { unfold initial_state. generalize (over_empty (constants ++ objects)). generalize st_empty. clear - Hi.
    induction Hi as [|q init H _ IH]; intros s O; cbn [fold_left]; auto. apply IH, over_insert; auto. }
  unfold make_pddl, make_from in E. apply bind_Ok in E as (axioms & _ & E). apply bind_Ok in E as ([s st1] & E & F).
  injection F as <- <-. cbn [pd_symbols pd_init pd_constants pd_problem_objects] in *. destruct aa.
  - refine (proj1 (consistent_fit (constants ++ objects) axioms ar rank (l_cascade L) (gd_types _ _ _ _ _ G) (td_const _ T)
      (gd_axioms _ _ _ _ _ G) (gd_ranked _ _ _ _ _ G) (td_axioms _ T) (td_wf _ T) (l_rounds L) (initial_state init, no_store)
      (s, st1) _ E)). split; [exact O|constructor].
  - injection E as <- _. exact O.
Qed.
