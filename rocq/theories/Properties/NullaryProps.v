(** C57: operators without parameters.  Calling them works; every enumeration
    leaves them out. *)
From Coq Require Import Ascii String List Bool NArith ZArith Arith.
From Verif.Model Require Import Base Object Proposition State ParameterGenerator Syntax Formula
  Effects Derived Consistency Text Pddl Planner StateIndex.
From Verif.Spec Require Import SetSpec TypingSpec FormulaSpec EffectSpec DerivedSpec TextSpec AxiomSpec PddlSpec
  PlannerSpec IndexSpec.
From Verif.Proofs Require Import StateFacts StateHistory EffectExamples AxiomExamples DerivedExamples PddlExamples PlannerExamples
  IndexExamples NullaryFacts.
From Verif.Properties Require Import StateProps ParameterProps FormulaProps.
Import ListNotations.
Local Open Scope string_scope.
Local Open Scope list_scope.

(** "name()" calls the operator; IsValidAction tests its precondition and
    NextState has the results its effects have. *)
Theorem C57_called_partial : forall (SH : StdHash) L p ar rank drank, good_domain L p ar rank drank ->
  forall o, In o (pd_ops p) -> NoDup (map op_name (pd_ops p)) -> free_of "("%char (op_name o) -> op_params o = [] ->
  let call := (op_name o ++ "()")%string in
  forall s st t, reachable_store (pd_symbols p) ar (pd_axioms p) st -> represents s t ->
  (is_valid_action p s call = Ok true <-> precondition p o [] t) /\
  (is_valid_action p s call = Ok false <-> ~ precondition p o [] t) /\
  (forall t', results_in L p o [] t t' ->
     exists s' st', next_state L p call (s, st) = Ok (s', st') /\ represents s' t') /\
  (forall s' st', next_state L p call (s, st) = Ok (s', st') ->
     exists t', results_in L p o [] t t' /\ represents s' t').
Proof. exact @null_called. Qed.
Print Assumptions C57_called_partial.

(** Missing from the full claim, because the code does otherwise: in no domain
    is a call without arguments listed, ... *)
Theorem C57_never_listed : forall (SH : StdHash) p s l, list_valid_actions p s = Ok l -> forall x, In x l ->
  exists o args, In o (pd_actions p) /\ op_params o <> [] /\ x = action_to_string o args.
Proof. exact @null_list. Qed.
Print Assumptions C57_never_listed.
Theorem C57_listed_refuted : exists (SH : StdHash) L p ar rank drank s call l,
  good_domain L p ar rank drank /\ built s /\ is_valid_action p s call = Ok true /\
  list_valid_actions p s = Ok l /\
  ~ exists x o args, In x l /\ calls p call o args /\ calls p x o args.
Proof. exact nullary_listed_refuted. Qed.
Print Assumptions C57_listed_refuted.

(** ... or tried by the planner, ... *)
Theorem C57_never_planned : forall (SH : StdHash) L p ar rank drank, good_domain L p ar rank drank ->
  Forall (fun o => (tuple_count (pd_symbols p) (op_params o) < 2 ^ 31)%Z) (pd_ops p) -> pd_actions p <> [] ->
  exists K0, forall K n st cs st', K0 <= K -> built (nd_state n) -> Forall built (nd_ancestors n) ->
  reachable_store (pd_symbols p) ar (pd_axioms p) st -> node_children L p K n st = Ok (cs, st') ->
  forall c, In c cs -> exists o args, In o (pd_ops p) /\ op_params o <> [] /\ nd_action c = action_to_string o args.
Proof. exact @null_children. Qed.
Print Assumptions C57_never_planned.
Theorem C57_planned_refuted : exists (SH : StdHash) L p ar rank drank s call,
  good_domain L p ar rank drank /\ built s /\ is_valid_action p s call = Ok true /\
  (exists s' st, next_state L p call (s, no_store) = Ok (s', st) /\ st_eqb s' s = false) /\
  forall K, 2 <= K -> node_children L p K (root_node s) no_store = Ok ([], no_store).
Proof. exact nullary_child_refuted. Qed.
Print Assumptions C57_planned_refuted.

(** ... no derived predicate without parameters ever changes, ... *)
Theorem C57_never_derived : forall (SH : StdHash) om inner outer ds x,
  (forall d, In d ds -> dp_name d = x -> dp_params d = []) ->
  forall s s', built s -> derived_state om inner outer ds s = Ok s' -> (atoms s' (x, []) <-> atoms s (x, [])).
Proof. exact @null_derived. Qed.
Print Assumptions C57_never_derived.
Theorem C57_derived_refuted : exists (SH : StdHash) objects d s s',
  built s /\ derived_state (create_object_map objects) 2 2 [d] s = Ok s' /\
  holds objects (atoms s') no_env (dp_body d) /\ dp_params d = [] /\ ~ atoms s' (dp_name d, []).
Proof.
  pose (SH := collide). exists collide, ex_objects, (mkDer "calm" [] (GConj [])), st_empty, st_empty.
  split; [exists []; reflexivity|]. split; [reflexivity|]. split; [exact Logic.I|]. split; [reflexivity|].
  intros (p & _ & C). apply contains_mem in C; [destruct C|apply st_empty_wf].
Qed.
Print Assumptions C57_derived_refuted.

(** ... no axiom without parameters is ever checked, ... *)
Theorem C57_never_checked : forall (SH : StdHash) om axioms fuel i a s st, op_params (ax_op a) = [] ->
  is_consistent om axioms fuel i a s st = Ok (Some st).
Proof. exact @null_axiom. Qed.
Print Assumptions C57_never_checked.

(** ... and predicates without parameters get numbers of other propositions, or
    numbers outside the vector. *)
Theorem C57_number_refuted : exists (SH : StdHash) objects decls si p q,
  NoDup (map oname objects) /\ NoDup (map fst decls) /\ index_of objects decls false = Ok si /\
  ground objects decls p /\ ground objects decls q /\ prop_key p <> prop_key q /\
  exists i, fst (get_proposition_index si p no_caches) = Ok i /\
    fst (get_proposition_index si q no_caches) = Ok i.
Proof. exact nullary_collision. Qed.
Print Assumptions C57_number_refuted.
Theorem C57_outside_refuted : exists (SH : StdHash) objects decls si ops,
  index_of objects decls true = Ok si /\
  (forall p, st_contains (run ops) p = true -> ground_names objects decls p) /\
  fst (get_indexed_state si (run ops) no_caches) = UB.
Proof. exact nullary_outside. Qed.
Print Assumptions C57_outside_refuted.

Example C57_example : In pd_wait (pd_ops ex_pddl) /\ op_params pd_wait = [] /\
  good_domain ex_limits ex_pddl ex_rules_arity ex_rules_rank ex_rule_rank /\
  is_valid_action (SH := collide) ex_pddl (pd_init ex_pddl) "wait()" = Ok true /\
  list_valid_actions (SH := collide) ex_pddl (pd_init ex_pddl) = Ok ["move(hook, box, table)"].
Proof.
  split; [cbn; auto 8|]. split; [reflexivity|]. split; [exact ex_pddl_good|]. split; vm_compute; reflexivity.
Qed.
