(** C43, C48, C49 and C62: the planner. *)
From Coq Require Import Ascii String List Bool NArith ZArith Arith Lia.
From Verif.Model Require Import Base Object Proposition State ParameterGenerator Syntax Formula
  Effects Derived Consistency Text Search Pddl Planner.
From Verif.Spec Require Import SetSpec TypingSpec FormulaSpec EffectSpec DerivedSpec TextSpec AxiomSpec SearchSpec PddlSpec
  PlannerSpec.
From Verif.Proofs Require Import StateHistory AxiomExamples PddlFacts PddlExamples PlannerFacts PlannerTheorems PlannerExamples.
From Verif.Properties Require Import StateProps.
Import ListNotations.
Local Open Scope string_scope.
Local Open Scope list_scope.

(** C43. [applicable] lists the applicable calls in order of declaration and of
    the objects (C42). The loop over the children throws only if one of the
    calls has no result. *)
Theorem C43_successors_partial : forall (SH : StdHash) L p ar rank drank, good_domain L p ar rank drank ->
  Forall (fun o => (tuple_count (pd_symbols p) (op_params o) < 2 ^ 31)%Z) (pd_ops p) -> pd_actions p <> [] ->
  exists K0, forall K n st t, K0 <= K -> built (nd_state n) -> Forall built (nd_ancestors n) ->
  represents (nd_state n) t -> reachable_store (pd_symbols p) ar (pd_axioms p) st ->
  (exists cs st', node_children L p K n st = Ok (cs, st') /\
     reachable_store (pd_symbols p) ar (pd_axioms p) st' /\ successors L p n t (applicable p t) cs) \/
  (node_children L p K n st = Throw ERuntime /\
   exists o args, In (o, args) (applicable p t) /\ forall t', ~ results_in L p o args t t').
Proof. exact @C43_lemma. Qed.
Print Assumptions C43_successors_partial.

(** If no effect is about = or a type, it does not throw. *)
Theorem C43_ordinary : forall (SH : StdHash) L p ar rank drank, good_domain L p ar rank drank ->
  Forall (fun o => (tuple_count (pd_symbols p) (op_params o) < 2 ^ 31)%Z) (pd_ops p) -> pd_actions p <> [] ->
  ordinary_domain p ->
  exists K0, forall K n st t, K0 <= K -> built (nd_state n) -> Forall built (nd_ancestors n) ->
  represents (nd_state n) t -> reachable_store (pd_symbols p) ar (pd_axioms p) st ->
  exists cs st', node_children L p K n st = Ok (cs, st') /\
    reachable_store (pd_symbols p) ar (pd_axioms p) st' /\ successors L p n t (applicable p t) cs.
Proof. exact @C43_ordinary_lemma. Qed.
Print Assumptions C43_ordinary.

(** The same nodes whatever was called before. *)
Theorem C43_history : forall (SH : StdHash) L p ar rank drank, good_domain L p ar rank drank ->
  Forall (fun o => (tuple_count (pd_symbols p) (op_params o) < 2 ^ 31)%Z) (pd_ops p) -> pd_actions p <> [] ->
  exists K0, forall K n st1 st2 cs st', K0 <= K ->
  reachable_store (pd_symbols p) ar (pd_axioms p) st1 -> reachable_store (pd_symbols p) ar (pd_axioms p) st2 ->
  node_children L p K n st1 = Ok (cs, st') -> exists st'', node_children L p K n st2 = Ok (cs, st'').
Proof. exact @C43_history_lemma. Qed.
Print Assumptions C43_history.

(** Without actions begin() dereferences the end of the list of actions. *)
Theorem C43_empty_refuted : exists (SH : StdHash) L p ar rank drank n,
  good_domain L p ar rank drank /\ built (nd_state n) /\ nd_ancestors n = [] /\
  forall K st, node_children L p K n st = UB.
Proof. exact no_actions_refuted. Qed.
Print Assumptions C43_empty_refuted.

(** Actions without parameters lead to no children. *)
Theorem C43_nullary_refuted : exists (SH : StdHash) L p ar rank drank s call,
  good_domain L p ar rank drank /\ built s /\ is_valid_action p s call = Ok true /\
  (exists s' st, next_state L p call (s, no_store) = Ok (s', st) /\ st_eqb s' s = false) /\
  forall K, 2 <= K -> node_children L p K (root_node s) no_store = Ok ([], no_store).
Proof. exact nullary_child_refuted. Qed.
Print Assumptions C43_nullary_refuted.

Example C43_example :
  good_domain ex_limits (map_pddl true "c") map_arity (fun _ => 0) (fun _ => 0) /\ ordinary_domain (map_pddl true "c") /\
  let n := mkNode (run (SH := collide) [Ins (sp "at" "b"); Ins (road "b" "a"); Ins (road "b" "c")])
             [run (SH := collide) [Ins (sp "far" "b"); Ins (sp "at" "a"); Ins (road "b" "a"); Ins (road "b" "c");
                                   Ins (sp "far" "c"); Ins (sp "far" "d"); Ins (sp "seen" "a")]] "go(a, b)" 1 in
  children_view (node_children (SH := collide) ex_limits (map_pddl true "c") 40 n no_store) =
  Ok [([("road", ["b"; "a"]); ("road", ["b"; "c"]); ("at", ["c"]); ("far", ["a"]); ("far", ["b"]); ("far", ["d"]);
        ("seen", ["c"])], "go(b, c)", 2, 2);
      ([("road", ["b"; "a"]); ("road", ["b"; "c"]); ("at", ["b"]); ("far", ["a"]); ("far", ["c"]); ("far", ["d"]);
        ("seen", ["b"])], "rest(b)", 2, 2)].
Proof. split; [apply map_good; cbn; auto|]. split; [apply (map_words true "c")|]. vm_compute. reflexivity. Qed.

(** C48. In any domain, for any of the searches, from any State. *)
Theorem C48_distinct : forall (SH : StdHash) L p K d s plan, built s ->
  yields (node_goal p) (node_children L p K) d (root_node s) (fun _ => True) plan ->
  forall i j a b t, nth_error plan i = Some a -> nth_error plan j = Some b ->
  represents (nd_state a) t -> represents (nd_state b) t -> i = j.
Proof. exact @C48_lemma. Qed.
Print Assumptions C48_distinct.

Example C48_example : exists plan,
  yields (node_goal (SH := collide) (map_pddl true "c")) (node_children (SH := collide) ex_limits (map_pddl true "c") 60) 3
    (root_node (pd_init (map_pddl true "c"))) (fun _ => True) plan /\ plan_calls plan = ["go(a, b)"; "go(b, c)"].
Proof. exact map_yields. Qed.

(** C49. If the initial state is valid, the planner starts from it, and every
    plan found by any of the searches passes IsValidPlan. *)
Theorem C49_valid_partial : forall (SH : StdHash) L p ar rank drank, good_domain L p ar rank drank ->
  Forall (fun o => (tuple_count (pd_symbols p) (op_params o) < 2 ^ 31)%Z) (pd_ops p) -> pd_actions p <> [] ->
  Forall word (map oname (pd_symbols p)) -> Forall (fun o => free_of "("%char (op_name o)) (pd_ops p) ->
  NoDup (map op_name (pd_ops p)) ->
  exists K0, forall K st0, K0 <= K -> 0 < l_rounds L -> built (pd_init p) ->
  is_valid_state (pd_om p) (pd_axioms p) (l_cascade L) (pd_init p) st0 = Ok true ->
  exists root, make_planner L p (pd_init p, st0) = Ok (root, st0) /\
  forall d plan st,
  yields (node_goal p) (node_children L p K) d root (reachable_store (pd_symbols p) ar (pd_axioms p)) plan ->
  reachable_store (pd_symbols p) ar (pd_axioms p) st ->
  length (plan_calls plan) <= d /\ exists st', is_valid_plan L p (plan_calls plan) st = Ok (true, st').
Proof. exact @C49_valid_lemma. Qed.
Print Assumptions C49_valid_partial.

(** From any other State they are plans for its set of atoms. *)
Theorem C49_from : forall (SH : StdHash) L p ar rank drank, good_domain L p ar rank drank ->
  Forall (fun o => (tuple_count (pd_symbols p) (op_params o) < 2 ^ 31)%Z) (pd_ops p) -> pd_actions p <> [] ->
  Forall word (map oname (pd_symbols p)) -> Forall (fun o => free_of "("%char (op_name o)) (pd_ops p) ->
  NoDup (map op_name (pd_ops p)) ->
  exists K0, forall K d s t plan, K0 <= K -> represents s t ->
  yields (node_goal p) (node_children L p K) d (root_node s) (reachable_store (pd_symbols p) ar (pd_axioms p)) plan ->
  length (plan_calls plan) <= d /\ plan_ok L p (plan_calls plan) t.
Proof. exact @C49_any_lemma. Qed.
Print Assumptions C49_from.

(** In any domain the planner starts from a valid State. *)
Theorem C49_root : forall (SH : StdHash) L p s st root st', built s -> make_planner L p (s, st) = Ok (root, st') ->
  (exists s', root = root_node s' /\ built s') /\
  forall st2, is_valid_state (pd_om p) (pd_axioms p) (l_cascade L) (nd_state root) st2 = Ok true.
Proof. exact @root_lemma. Qed.
Print Assumptions C49_root.

(** If the initial state is not valid, they may fail: the planner starts from
    ConsistentState of it, IsValidPlan does not. *)
Theorem C49_start_refuted : exists (SH : StdHash) L p ar rank drank root st plan,
  good_domain L p ar rank drank /\ built (pd_init p) /\ make_planner L p (pd_init p, no_store) = Ok (root, st) /\
  (forall K d, yields (node_goal p) (node_children L p K) d root (reachable_store (pd_symbols p) ar (pd_axioms p)) plan) /\
  exists st', is_valid_plan L p (plan_calls plan) no_store = Ok (false, st').
Proof. exact start_refuted. Qed.
Print Assumptions C49_start_refuted.

(** C62. Breadth-first search finds a shortest valid plan, if there is one within
    the depth; plans with calls of actions without parameters do not count. *)
Theorem C62_shortest : forall (SH : StdHash) L p ar rank drank, good_domain L p ar rank drank ->
  Forall (fun o => (tuple_count (pd_symbols p) (op_params o) < 2 ^ 31)%Z) (pd_ops p) -> pd_actions p <> [] ->
  Forall word (map oname (pd_symbols p)) -> Forall (fun o => free_of "("%char (op_name o)) (pd_ops p) ->
  NoDup (map op_name (pd_ops p)) -> ordinary_domain p ->
  exists K0, forall K st0, K0 <= K -> 0 < l_rounds L -> built (pd_init p) ->
  is_valid_state (pd_om p) (pd_axioms p) (l_cascade L) (pd_init p) st0 = Ok true ->
  exists root, make_planner L p (pd_init p, st0) = Ok (root, st0) /\
  forall d, exists plans M,
    (forall calls fuel w, M <= calls -> M <= fuel -> reachable_store (pd_symbols p) ar (pd_axioms p) w ->
       exists w', bfs_all (node_goal p) (node_children L p K) d calls fuel never root w = Ok (plans, w')) /\
    (forall plan st, In plan plans -> reachable_store (pd_symbols p) ar (pd_axioms p) st ->
       exists st', is_valid_plan L p (plan_calls plan) st = Ok (true, st')) /\
    (forall cs st st', reachable_store (pd_symbols p) ar (pd_axioms p) st ->
       is_valid_plan L p cs st = Ok (true, st') -> Forall (plain_call p) cs -> length cs <= d ->
       exists plan more, plans = plan :: more /\ length (plan_calls plan) <= length cs).
Proof. exact @C62_shortest_lemma. Qed.
Print Assumptions C62_shortest.

(** A plan with a nullary action may be the only one. *)
Theorem C62_nullary_refuted : exists (SH : StdHash) L p ar rank drank,
  good_domain L p ar rank drank /\ ordinary_domain p /\ built (pd_init p) /\
  is_valid_state (pd_om p) (pd_axioms p) (l_cascade L) (pd_init p) no_store = Ok true /\
  (exists cs st, is_valid_plan L p cs no_store = Ok (true, st)) /\
  forall K d, 2 <= K -> bfs_all (node_goal p) (node_children L p K) (S d) 1 2 never (root_node (pd_init p)) no_store =
                 Ok ([], no_store).
Proof. exact nullary_plan_refuted. Qed.
Print Assumptions C62_nullary_refuted.

Example C49_example :
  let p := map_pddl true "c" in
  good_domain ex_limits p map_arity (fun _ => 0) (fun _ => 0) /\ pd_actions p <> [] /\
  Forall word (map oname (pd_symbols p)) /\ Forall (fun o => free_of "("%char (op_name o)) (pd_ops p) /\
  NoDup (map op_name (pd_ops p)) /\ ordinary_domain p /\ 0 < l_rounds ex_limits /\
  built (SH := collide) (pd_init p) /\
  is_valid_state (SH := collide) (pd_om p) (pd_axioms p) (l_cascade ex_limits) (pd_init p) no_store = Ok true /\
  plans_view (bfs_all (node_goal (SH := collide) p) (node_children (SH := collide) ex_limits p 60) 3 300 300 never
    (root_node (pd_init p)) no_store) =
  Ok [["go(a, b)"; "go(b, c)"]; ["go(a, b)"; "go(b, d)"; "go(d, c)"]; ["rest(a)"; "go(a, b)"; "go(b, c)"]] /\
  drop_fst (is_valid_plan (SH := collide) ex_limits p ["go(a, b)"; "go(b, c)"] no_store) = Ok true.
Proof.
  cbv zeta. split; [apply map_good; cbn; auto|]. destruct (map_words true "c") as (H1 & H2 & H3 & _ & H4 & H5).
  repeat (split; [assumption|]). split; [cbn; lia|]. destruct (map_valid "c") as [B V]. split; [exact B|]. split; [exact V|].
  split; vm_compute; reflexivity.
Qed.
