(** C65: the functions of pysymbolic.Pddl on sets of strings. *)
From Coq Require Import Ascii String List Bool NArith ZArith Lia.
From Verif.Model Require Import Base Object Proposition HashSet State CombinationGenerator
  ParameterGenerator Syntax Formula Effects Derived NormalForm Consistency Text Pddl Python.
From Verif.Proofs Require Import StateFacts StateHistory EffectLink EffectExamples AxiomExamples DerivedExamples
  PddlTheorems PddlExamples PythonFacts PythonTheorems.
From Verif.Properties Require Import StateProps ParameterProps FormulaProps.
From Verif.Spec Require Import SetSpec TypingSpec FormulaSpec EffectSpec NormalFormSpec AxiomSpec DerivedSpec TextSpec PddlSpec
  PythonSpec.
Import ListNotations.
Local Open Scope string_scope.
Local Open Scope list_scope.

(** apply_actions yields, as text without repetitions, the set of atoms that
    executing the calls yields, and throws if there is none. *)
Theorem C65_actions : forall (SH : StdHash) L p ar rank drank, good_domain L p ar rank drank -> text_domain p ->
  forall cs strs st t, reachable_store (pd_symbols p) ar (pd_axioms p) st -> spells (pd_symbols p) strs t ->
  (forall strs' st', py_apply_actions L p strs cs st = Ok (strs', st') ->
     reachable_store (pd_symbols p) ar (pd_axioms p) st' /\ NoDup strs' /\
     exists t', executes L p cs t t' /\ spells (pd_symbols p) strs' t') /\
  (forall t', executes L p cs t t' -> exists strs' st', py_apply_actions L p strs cs st = Ok (strs', st') /\
     spells (pd_symbols p) strs' t') /\
  ((exists w, py_apply_actions L p strs cs st = Ok w) \/ py_apply_actions L p strs cs st = Throw ERuntime \/
   py_apply_actions L p strs cs st = Throw EInvalidArgument).
Proof. exact @py_actions_lemma. Qed.
Print Assumptions C65_actions.

(** On a set that lists the propositions of a State the functions are those of
    C++ on the State. *)
Theorem C65_agrees : forall (SH : StdHash) L p ar rank drank, good_domain L p ar rank drank -> text_domain p ->
  forall strs s, over (pd_symbols p) s -> same_strings strs (stringify s) ->
  (forall cs st, py_apply_actions L p strs cs st =
     (let* w := apply_actions L p cs (s, st) in Ok (stringify (fst w), snd w))) /\
  py_derived_state L p strs = (let* x := pd_derive L p s in Ok (stringify (snd x))) /\
  (forall st, py_consistent_state L p strs st =
     (let* w := consistent_state (pd_om p) (pd_axioms p) (l_cascade L) (l_rounds L) (s, st) in
      Ok (stringify (fst w), snd w))) /\
  (forall call, py_is_valid_action p strs call = is_valid_action p s call) /\
  (forall st, py_is_valid_state L p strs st = is_valid_state (pd_om p) (pd_axioms p) (l_cascade L) s st) /\
  (forall neg strs' st, over (pd_symbols p) neg -> same_strings strs' (stringify neg) ->
     py_consistent_partial L p strs strs' st =
       (let* w := consistent_partial (pd_om p) (pd_axioms p) (l_cascade L) (mkPS s neg, st) in
        Ok ((stringify (ps_pos (fst w)), stringify (ps_neg (fst w))), snd w)) /\
     py_is_valid_partial L p strs strs' st =
       is_valid_partial (pd_om p) (pd_axioms p) (l_cascade L) (l_rounds L) (mkPS s neg, st)).
Proof. exact @py_agrees_lemma. Qed.
Print Assumptions C65_agrees.

(** next_state is apply_actions of one call. *)
Theorem C65_next : forall (SH : StdHash) L p strs call st,
  py_next_state L p strs call st = py_apply_actions L p strs [call] st.
Proof. exact @py_next_apply. Qed.
Print Assumptions C65_next.

(** A returned set can be passed on, in any order of iteration and after any
    other calls: two calls of apply_actions are one call with all the actions. *)
Theorem C65_chain : forall (SH : StdHash) L p ar rank drank, good_domain L p ar rank drank -> text_domain p ->
  forall c1 c2 strs st strs1 st1 strs1' st2 r,
  reachable_store (pd_symbols p) ar (pd_axioms p) st -> py_apply_actions L p strs c1 st = Ok (strs1, st1) ->
  same_strings strs1' strs1 -> reachable_store (pd_symbols p) ar (pd_axioms p) st2 ->
  (exists st', py_apply_actions L p strs1' c2 st2 = Ok (r, st')) <->
  (exists st', py_apply_actions L p strs (c1 ++ c2) st = Ok (r, st')).
Proof. exact @py_chain_lemma. Qed.
Print Assumptions C65_chain.

(** is_valid_action says whether the precondition holds. *)
Theorem C65_valid : forall (SH : StdHash) L p ar rank drank, good_domain L p ar rank drank ->
  forall strs call t, spells (pd_symbols p) strs t ->
  (forall b, py_is_valid_action p strs call = Ok b <->
     exists o args, calls p call o args /\ (b = true <-> precondition p o args t)) /\
  ((exists b, py_is_valid_action p strs call = Ok b) \/ py_is_valid_action p strs call = Throw ERuntime \/
   py_is_valid_action p strs call = Throw EInvalidArgument).
Proof. exact @py_valid_lemma. Qed.
Print Assumptions C65_valid.

(** is_valid_tuple accepts the result of next_state exactly if is_valid_action
    accepts the call. *)
Theorem C65_tuple : forall (SH : StdHash) L p ar rank drank, good_domain L p ar rank drank -> text_domain p ->
  forall strs call st strs1 st1 strs1' st2 b,
  reachable_store (pd_symbols p) ar (pd_axioms p) st -> py_next_state L p strs call st = Ok (strs1, st1) ->
  same_strings strs1' strs1 -> reachable_store (pd_symbols p) ar (pd_axioms p) st2 ->
  ((exists st', is_valid_tuple_str L p strs call strs1' st2 = Ok (b, st')) <-> py_is_valid_action p strs call = Ok b).
Proof. exact @py_tuple_lemma. Qed.
Print Assumptions C65_tuple.

(** is_valid_plan agrees with a Python loop over is_valid_action and next_state
    that ends with is_goal_satisfied. *)
Theorem C65_plan : forall (SH : StdHash) L p ar rank drank, good_domain L p ar rank drank -> text_domain p ->
  forall cs strs st st2, over (pd_symbols p) (pd_init p) ->
  reachable_store (pd_symbols p) ar (pd_axioms p) st -> reachable_store (pd_symbols p) ar (pd_axioms p) st2 ->
  same_strings strs (py_initial_state p) ->
  (py_plan L p cs strs st <-> exists st', is_valid_plan L p cs st2 = Ok (true, st')).
Proof. exact @py_plan_lemma. Qed.
Print Assumptions C65_plan.

(** derived_state always returns, with the derived predicates as their rules say
    and the rest unchanged; it is idempotent ... *)
Theorem C65_derived : forall (SH : StdHash) L p ar rank drank, good_domain L p ar rank drank -> text_domain p ->
  forall strs t, spells (pd_symbols p) strs t -> exists strs',
  py_derived_state L p strs = Ok strs' /\ NoDup strs' /\
  (exists t', spells (pd_symbols p) strs' t' /\
     (forall a, ~ any_defined (pd_symbols p) (pd_derived p) a -> t' a = t a) /\
     forall d, In d (pd_derived p) -> satisfied (pd_symbols p) (PddlSpec.set_of t') d) /\
  forall strs2, same_strings strs2 strs' -> py_derived_state L p strs2 = Ok strs'.
Proof. exact @py_derived_lemma. Qed.
Print Assumptions C65_derived.

(** ... and changes nothing in a result of next_state. *)
Theorem C65_next_derived : forall (SH : StdHash) L p ar rank drank, good_domain L p ar rank drank -> text_domain p ->
  forall strs call st strs1 st1 strs1', reachable_store (pd_symbols p) ar (pd_axioms p) st ->
  py_next_state L p strs call st = Ok (strs1, st1) -> same_strings strs1' strs1 ->
  py_derived_state L p strs1' = Ok strs1.
Proof. exact @py_next_derived_lemma. Qed.
Print Assumptions C65_next_derived.

(** is_valid_state says whether the axioms are respected. *)
Theorem C65_valid_state : forall (SH : StdHash) L p ar rank drank, good_domain L p ar rank drank -> text_domain p ->
  forall strs t st, reachable_store (pd_symbols p) ar (pd_axioms p) st -> spells (pd_symbols p) strs t ->
  exists b, py_is_valid_state L p strs st = Ok b /\
    (b = true <-> Forall (respects (pd_symbols p) (PddlSpec.set_of t)) (pd_axioms p)).
Proof. exact @py_valid_state_lemma. Qed.
Print Assumptions C65_valid_state.

(** What consistent_state returns respects the axioms, is accepted by
    is_valid_state and returned unchanged by consistent_state ... *)
Theorem C65_consistent : forall (SH : StdHash) L p ar rank drank, good_domain L p ar rank drank -> text_domain p ->
  forall strs st strs1 st1 strs1', reachable_store (pd_symbols p) ar (pd_axioms p) st ->
  py_consistent_state L p strs st = Ok (strs1, st1) -> same_strings strs1' strs1 ->
  reachable_store (pd_symbols p) ar (pd_axioms p) st1 /\ NoDup strs1 /\
  (exists t, spells (pd_symbols p) strs1 t /\ Forall (respects (pd_symbols p) (PddlSpec.set_of t)) (pd_axioms p)) /\
  (forall st2, py_is_valid_state L p strs1' st2 = Ok true) /\
  (forall st2, py_consistent_state L p strs1' st2 = Ok (strs1, st2)).
Proof. exact @py_consistent_lemma. Qed.
Print Assumptions C65_consistent.

(** ... also for partial states, where what is known stays known. *)
Theorem C65_partial_state : forall (SH : StdHash) L p ar rank drank, good_domain L p ar rank drank -> text_domain p ->
  forall pos neg tp tn st pos1 neg1 st1 pos1' neg1', reachable_store (pd_symbols p) ar (pd_axioms p) st ->
  spells (pd_symbols p) pos tp -> spells (pd_symbols p) neg tn -> (forall a, tp a = true -> tn a = true -> False) ->
  py_consistent_partial L p pos neg st = Ok ((pos1, neg1), st1) ->
  same_strings pos1' pos1 -> same_strings neg1' neg1 ->
  reachable_store (pd_symbols p) ar (pd_axioms p) st1 /\ NoDup pos1 /\ NoDup neg1 /\
  (exists tp' tn', spells (pd_symbols p) pos1 tp' /\ spells (pd_symbols p) neg1 tn' /\
     (forall a, tp' a = true -> tn' a = true -> False) /\
     forall a, tp a = true \/ tn a = true -> tp' a = true \/ tn' a = true) /\
  (forall st2, l_rounds L <> 0 -> py_is_valid_partial L p pos1' neg1' st2 = Ok true) /\
  (forall st2, py_consistent_partial L p pos1' neg1' st2 = Ok ((pos1, neg1), st2)).
Proof. exact @py_consistent_partial_lemma. Qed.
Print Assumptions C65_partial_state.

(** Assigning initial_state: reading it gives the same atoms, plans start there,
    and the domain is as before ... *)
Theorem C65_set_initial : forall (SH : StdHash) L p ar rank drank, good_domain L p ar rank drank -> text_domain p ->
  forall strs t, spells (pd_symbols p) strs t -> exists p',
  py_set_initial_state p strs = Ok p' /\ spells (pd_symbols p) (py_initial_state p') t /\ NoDup (py_initial_state p') /\
  good_domain L p' ar rank drank /\ text_domain p' /\ over (pd_symbols p) (pd_init p') /\
  forall cs st st2, reachable_store (pd_symbols p) ar (pd_axioms p) st ->
    reachable_store (pd_symbols p) ar (pd_axioms p) st2 ->
    ((exists st', is_valid_plan L p' cs st2 = Ok (true, st')) <-> py_plan L p cs strs st).
Proof. exact @py_set_initial_lemma. Qed.
Print Assumptions C65_set_initial.

(** ... and assigning what was read changes nothing. *)
Theorem C65_keep_initial : forall (SH : StdHash) L p ar rank drank, good_domain L p ar rank drank -> text_domain p ->
  forall strs, over (pd_symbols p) (pd_init p) -> same_strings strs (py_initial_state p) ->
  py_set_initial_state p strs = Ok p.
Proof. exact @py_keep_initial_lemma. Qed.
Print Assumptions C65_keep_initial.

(** The initial state of a new Pddl is over its objects. *)
Theorem C65_constructor : forall (SH : StdHash) L constants objects ops ds init g aa p st ar rank drank,
  make_pddl L constants objects ops ds init g aa = Ok (p, st) ->
  Forall (fun q => free_of "("%char (pname q) /\ Forall (fun o => In o (constants ++ objects)) (pargs q)) init ->
  good_domain L p ar rank drank -> text_domain p -> over (pd_symbols p) (pd_init p).
Proof. exact @make_over. Qed.
Print Assumptions C65_constructor.

(** Malformed sets are rejected by every function. *)
Theorem C65_malformed : forall (SH : StdHash) L p strs, (forall t, ~ spells (pd_symbols p) strs t) ->
  (forall call st, py_next_state L p strs call st = Throw ERuntime) /\
  (forall cs st, py_apply_actions L p strs cs st = Throw ERuntime) /\
  py_derived_state L p strs = Throw ERuntime /\
  (forall st, py_consistent_state L p strs st = Throw ERuntime) /\
  (forall neg st, py_consistent_partial L p strs neg st = Throw ERuntime) /\
  (forall pos st, py_consistent_partial L p pos strs st = Throw ERuntime) /\
  (forall call, py_is_valid_action p strs call = Throw ERuntime) /\
  (forall st, py_is_valid_state L p strs st = Throw ERuntime) /\
  (forall neg st, py_is_valid_partial L p strs neg st = Throw ERuntime) /\
  (forall pos st, py_is_valid_partial L p pos strs st = Throw ERuntime) /\
  py_set_initial_state p strs = Throw ERuntime.
Proof. exact @py_malformed_lemma. Qed.
Print Assumptions C65_malformed.

(** Samples. *)
Lemma ex_pddl_text : text_domain ex_pddl.
Proof.
  assert (K : forall o, In o (pd_ops ex_pddl) -> text_effs (pd_symbols ex_pddl) (op_effs o)).
  { intros o I. cbn in I. intuition subst; (split;
      [cbn; repeat split; repeat apply Forall_cons; try apply Forall_nil; discriminate
      |intros x I; cbn in I; intuition subst; cbn; intros J; cbn in J; intuition discriminate]). }
  constructor.
  - apply ex_words.
  - exact ex_objects_consts.
  - apply Forall_forall. exact K.
  - apply Forall_forall. intros a I. apply K. cbn in I |- *. intuition (subst; auto).
  - exact ex_rules_wf.
  - repeat apply Forall_cons; try apply Forall_nil; intros I; cbn in I; intuition discriminate.
Qed.

Definition first_of {A B} (r : outcome (A * B)) : outcome A := let* ' (a, _) := r in Ok a.

Example C65_example :
  good_domain ex_limits ex_pddl ex_rules_arity ex_rules_rank ex_rule_rank /\ text_domain ex_pddl /\
  first_of (py_apply_actions (SH := collide) ex_limits ex_pddl ["near(hook, box)"; "broken(box)"]
    ["move(hook, box, table)"] no_store) =
    Ok ["near(hook, table)"; "broken(box)"; "close(hook)"; "lonely(box)"; "lonely(table)"; "reach(hook)"] /\
  first_of (py_apply_actions (SH := collide) ex_limits ex_pddl
    ["reach(hook)"; "lonely(table)"; "lonely(box)"; "close(hook)"; "broken(box)"; "near(hook, table)"]
    ["move(hook, table, box)"; "wait()"] no_store) =
    first_of (py_apply_actions (SH := collide) ex_limits ex_pddl ["near(hook, box)"; "broken(box)"]
      ["move(hook, box, table)"; "move(hook, table, box)"; "wait()"] no_store) /\
  py_is_valid_action (SH := collide) ex_pddl ["near(hook, box)"] "move(hook, box, table)" = Ok true /\
  py_is_valid_action (SH := collide) ex_pddl ["near(hook, box)"] "move(box, hook, table)" = Ok false /\
  py_next_state (SH := collide) ex_limits ex_pddl ["near(hook, cup)"] "wait()" no_store = Throw ERuntime.
Proof.
  split; [exact ex_pddl_good|]. split; [exact ex_pddl_text|]. repeat split; vm_compute; reflexivity.
Qed.

Example C65_states_example :
  py_derived_state (SH := collide) ex_limits ex_pddl ["near(hook, box)"] =
    Ok ["near(hook, box)"; "close(hook)"; "lonely(box)"; "lonely(table)"] /\
  first_of (py_consistent_state (SH := collide) ex_limits ex_pddl ["near(hook, box)"; "broken(hook)"] no_store) =
    Ok ["near(hook, box)"; "reach(hook)"] /\
  first_of (py_consistent_partial (SH := collide) ex_limits ex_pddl ["near(hook, box)"] ["near(box, hook)"] no_store) =
    Ok (["near(hook, box)"; "reach(hook)"], ["near(box, hook)"; "broken(hook)"]) /\
  py_is_valid_state (SH := collide) ex_limits ex_pddl ["near(hook, box)"; "reach(hook)"] no_store = Ok true /\
  py_is_valid_state (SH := collide) ex_limits ex_pddl ["near(hook, box)"] no_store = Ok false /\
  py_is_valid_partial (SH := collide) ex_limits ex_pddl ["near(hook, box)"] ["reach(hook)"] no_store = Ok false.
Proof. repeat split; vm_compute; reflexivity. Qed.

Example C65_initial_example : exists p',
  py_set_initial_state (SH := collide) ex_pddl ["near(hook, box)"] = Ok p' /\ over (SH := collide) (pd_symbols p') (pd_init p') /\
  py_initial_state p' = ["near(hook, box)"] /\
  drop_fst (is_valid_plan (SH := collide) ex_limits p' ["move(hook, box, table)"] no_store) = Ok true /\
  py_plan (SH := collide) ex_limits p' ["move(hook, box, table)"] ["near(hook, box)"] no_store.
Proof.
  eexists. split; [reflexivity|]. split.
  - split; [exists [Ins (mkProp "near" [nth 1 ex_objects null_object; nth 2 ex_objects null_object])]; vm_compute; reflexivity|].
    intros q I. vm_compute in I. destruct I as [<-|[]]. split; [intros I; cbn in I; intuition discriminate|].
    repeat apply Forall_cons; try apply Forall_nil; vm_compute; auto 6.
  - split; [vm_compute; reflexivity|]. split; [vm_compute; reflexivity|].
    eapply pp_call; [vm_compute; reflexivity|vm_compute; reflexivity|intros x; apply iff_refl|].
    apply pp_goal. vm_compute. reflexivity.
Qed.
