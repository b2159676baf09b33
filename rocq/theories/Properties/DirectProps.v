(** C74: the searches find every direct plan exactly once. *)
From Coq Require Import Ascii String List Bool NArith ZArith Arith Lia Sorted.
From Verif.Model Require Import Base Object Proposition State ParameterGenerator Syntax Formula
  Effects Derived Consistency Text Search Pddl Planner.
From Verif.Spec Require Import SetSpec TypingSpec FormulaSpec EffectSpec DerivedSpec TextSpec AxiomSpec SearchSpec PddlSpec
  PlannerSpec DirectSpec.
From Verif.Proofs Require Import StateHistory AxiomExamples PddlFacts PddlTheorems PddlExamples PlannerFacts PlannerTheorems
  PlannerExamples DirectFacts.
From Verif.Properties Require Import StateProps.
Import ListNotations.
Local Open Scope string_scope.
Local Open Scope list_scope.

(** C74. Breadth-first search yields exactly the direct plans within the depth,
    each once, short ones first. *)
Theorem C74_breadth_first : forall (SH : StdHash) L p ar rank drank, good_domain L p ar rank drank ->
  Forall (fun o => (tuple_count (pd_symbols p) (op_params o) < 2 ^ 31)%Z) (pd_ops p) -> pd_actions p <> [] ->
  Forall word (map oname (pd_symbols p)) -> Forall (fun o => free_of "("%char (op_name o)) (pd_ops p) ->
  NoDup (map op_name (pd_ops p)) -> ordinary_domain p ->
  exists K0, forall K s st0 root st1 t d, K0 <= K -> built s ->
  make_planner L p (s, st0) = Ok (root, st1) -> represents (nd_state root) t ->
  exists plans M,
    (forall calls fuel w, M <= calls -> M <= fuel -> reachable_store (pd_symbols p) ar (pd_axioms p) w ->
       exists w', bfs_all (node_goal p) (node_children L p K) d calls fuel never root w = Ok (plans, w')) /\
    NoDup (map plan_calls plans) /\ (forall cs, In cs (map plan_calls plans) <-> direct L p [] d t cs) /\
    StronglySorted (fun a b => length a <= length b) (map plan_calls plans).
Proof. exact @C74_bfs_lemma. Qed.
Print Assumptions C74_breadth_first.

(** The same of every loop that ends. *)
Theorem C74_ends : forall (SH : StdHash) L p ar rank drank, good_domain L p ar rank drank ->
  Forall (fun o => (tuple_count (pd_symbols p) (op_params o) < 2 ^ 31)%Z) (pd_ops p) -> pd_actions p <> [] ->
  Forall word (map oname (pd_symbols p)) -> Forall (fun o => free_of "("%char (op_name o)) (pd_ops p) ->
  NoDup (map op_name (pd_ops p)) -> ordinary_domain p ->
  exists K0, forall K s st0 root st1 t d calls fuel w plans w', K0 <= K -> built s ->
  make_planner L p (s, st0) = Ok (root, st1) -> represents (nd_state root) t ->
  reachable_store (pd_symbols p) ar (pd_axioms p) w ->
  bfs_all (node_goal p) (node_children L p K) d calls fuel never root w = Ok (plans, w') ->
  NoDup (map plan_calls plans) /\ (forall cs, In cs (map plan_calls plans) <-> direct L p [] d t cs).
Proof. exact @C74_ends_lemma. Qed.
Print Assumptions C74_ends.

(** Depth-first search and A* with any priorities lose at most one of them
    (C50, C51) and repeat none. *)
Theorem C74_depth_first : forall (SH : StdHash) L p ar rank drank, good_domain L p ar rank drank ->
  Forall (fun o => (tuple_count (pd_symbols p) (op_params o) < 2 ^ 31)%Z) (pd_ops p) -> pd_actions p <> [] ->
  Forall word (map oname (pd_symbols p)) -> Forall (fun o => free_of "("%char (op_name o)) (pd_ops p) ->
  NoDup (map op_name (pd_ops p)) -> ordinary_domain p ->
  exists K0, forall K s st0 root st1 t d, K0 <= K -> built s ->
  make_planner L p (s, st0) = Ok (root, st1) -> represents (nd_state root) t ->
  exists plans lost M,
    (forall calls fuel w, M <= calls -> M <= fuel -> reachable_store (pd_symbols p) ar (pd_axioms p) w ->
       exists w', dfs_all (node_goal p) (node_children L p K) d calls fuel root w = Ok (plans, w')) /\
    length lost <= 1 /\ NoDup (map plan_calls plans ++ lost) /\
    (forall cs, In cs (map plan_calls plans ++ lost) <-> direct L p [] d t cs).
Proof. exact @C74_dfs_lemma. Qed.
Print Assumptions C74_depth_first.

Theorem C74_a_star : forall (SH : StdHash) L p ar rank drank, good_domain L p ar rank drank ->
  Forall (fun o => (tuple_count (pd_symbols p) (op_params o) < 2 ^ 31)%Z) (pd_ops p) -> pd_actions p <> [] ->
  Forall word (map oname (pd_symbols p)) -> Forall (fun o => free_of "("%char (op_name o)) (pd_ops p) ->
  NoDup (map op_name (pd_ops p)) -> ordinary_domain p ->
  exists K0, forall K s st0 root st1 t d pick, K0 <= K -> built s ->
  make_planner L p (s, st0) = Ok (root, st1) -> represents (nd_state root) t ->
  exists plans lost M,
    (forall calls fuel w, M <= calls -> M <= fuel -> reachable_store (pd_symbols p) ar (pd_axioms p) w ->
       exists w', ast_all (node_goal p) (node_children L p K) d pick calls fuel root w = Ok (plans, w')) /\
    length lost <= 1 /\ NoDup (map plan_calls plans ++ lost) /\
    (forall cs, In cs (map plan_calls plans ++ lost) <-> direct L p [] d t cs).
Proof. exact @C74_ast_lemma. Qed.
Print Assumptions C74_a_star.

(** From the initial state direct plans pass IsValidPlan, and there is one not
    longer than any plan of actions with parameters that passes. *)
Theorem C74_valid : forall (SH : StdHash) L p ar rank drank, good_domain L p ar rank drank ->
  Forall (fun o => (tuple_count (pd_symbols p) (op_params o) < 2 ^ 31)%Z) (pd_ops p) -> pd_actions p <> [] ->
  Forall word (map oname (pd_symbols p)) -> Forall (fun o => free_of "("%char (op_name o)) (pd_ops p) ->
  NoDup (map op_name (pd_ops p)) -> ordinary_domain p ->
  forall t, represents (pd_init p) t ->
  (forall d cs st, reachable_store (pd_symbols p) ar (pd_axioms p) st -> direct L p [] d t cs ->
     exists st', is_valid_plan L p cs st = Ok (true, st')) /\
  (forall cs st st', reachable_store (pd_symbols p) ar (pd_axioms p) st -> is_valid_plan L p cs st = Ok (true, st') ->
     Forall (plain_call p) cs -> exists cs', direct L p [] (length cs) t cs').
Proof. exact @C74_valid_lemma. Qed.
Print Assumptions C74_valid.

Lemma view_plans r v : plans_view r = Ok v -> exists plans w, r = Ok (plans, w) /\ map plan_calls plans = v.
Proof. destruct r as [[plans w]| | | |]; try discriminate. intros [= <-]. eauto. Qed.

(** The direct plans of the sample domain of at most three steps, found by
    running the search. *)
Example C74_example : let p := map_pddl true "c" in
  good_domain ex_limits p map_arity (fun _ => 0) (fun _ => 0) /\ pd_actions p <> [] /\ ordinary_domain p /\
  (exists root, make_planner (SH := collide) ex_limits p (pd_init p, no_store) = Ok (root, no_store)) /\
  forall t, represents (SH := collide) (pd_init p) t -> forall cs, direct ex_limits p [] 3 t cs <->
    In cs [["go(a, b)"; "go(b, c)"]; ["go(a, b)"; "go(b, d)"; "go(d, c)"]; ["rest(a)"; "go(a, b)"; "go(b, c)"]].
Proof.
  cbv zeta. assert (Gd := map_good true "c" ltac:(cbn; auto)). destruct (map_words true "c") as (H1 & H2 & H3 & H4 & H5 & H6).
  split; [exact Gd|]. split; [exact H5|]. split; [exact H6|]. split; [eexists; vm_compute; reflexivity|].
  intros t R cs.
  assert (V : plans_view (bfs_all (node_goal (SH := collide) (map_pddl true "c"))
      (node_children (SH := collide) ex_limits (map_pddl true "c") 60) 3 300 300 never
      (root_node (pd_init (map_pddl true "c"))) no_store) =
    Ok [["go(a, b)"; "go(b, c)"]; ["go(a, b)"; "go(b, d)"; "go(d, c)"]; ["rest(a)"; "go(a, b)"; "go(b, c)"]])
    by (vm_compute; reflexivity).
  apply view_plans in V as (plans & w & E & V). rewrite <- V.
  assert (Le : enough (map_pddl true "c") <= 60) by (apply Nat.leb_le; vm_compute; reflexivity).
  symmetry. revert cs.
  exact (proj1 (proj2 (bfs_direct_any (SH := collide) ex_limits (map_pddl true "c") map_arity (fun _ => 0) (fun _ => 0)
    Gd H4 H5 H1 H2 H3 H6 60 Le 3 _ t _ _ _ _ _ R (rs_none _ _ _) E))).
Qed.

(** Depth-first search can lose a direct plan: here the one along first
    children, which breadth-first search yields. *)
Example C74_lost : let p := map_pddl true "b" in
  let goal := node_goal (SH := collide) p in let children := node_children (SH := collide) ex_limits p 60 in
  let root := root_node (pd_init p) in
  plans_view (bfs_all goal children 2 300 300 never root no_store) =
    Ok [["go(a, b)"; "go(b, a)"]; ["go(a, b)"; "go(b, c)"]; ["go(a, b)"; "go(b, d)"]] /\
  plans_view (dfs_all goal children 2 300 300 root no_store) =
    Ok [["go(a, b)"; "go(b, d)"]; ["go(a, b)"; "go(b, c)"]].
Proof. vm_compute. split; reflexivity. Qed.
