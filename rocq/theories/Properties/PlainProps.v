(** C76: PDDL's own semantics where the order of effects does not matter. *)
From Coq Require Import Ascii String List Bool NArith ZArith Arith Lia.
From Verif.Model Require Import Base Object Proposition State ParameterGenerator Syntax Formula
  Effects Derived Consistency Text Search Pddl Planner.
From Verif.Spec Require Import SetSpec TypingSpec FormulaSpec EffectSpec DerivedSpec TextSpec AxiomSpec SearchSpec PddlSpec
  PlannerSpec DirectSpec PlainSpec.
From Verif.Proofs Require Import StateHistory EffectExamples AxiomExamples DerivedExamples PddlFacts PddlTheorems PddlExamples
  PlannerFacts PlannerTheorems PlannerExamples DirectFacts PlainFacts PlainExamples.
From Verif.Properties Require Import StateProps.
Import ListNotations.
Local Open Scope string_scope.
Local Open Scope list_scope.

(** C76. NextState of an enabled call succeeds and has exactly the atoms the
    call adds and those it does not delete. *)
Theorem C76_next : forall (SH : StdHash) L p ar rank drank, good_domain L p ar rank drank ->
  forall S0, orderly p S0 -> forall call o args s st, built s -> reachable_store (pd_symbols p) ar (pd_axioms p) st ->
  calls p call o args -> attainable p S0 (atoms s) -> enabled p o args (atoms s) ->
  exists s' st', next_state L p call (s, st) = Ok (s', st') /\
    reachable_store (pd_symbols p) ar (pd_axioms p) st' /\ built s' /\ turns_into p o args (atoms s) (atoms s').
Proof. exact @C76_next_lemma. Qed.
Print Assumptions C76_next.

(** IsValidPlan accepts exactly the solutions, and answers for every sequence
    of well-typed calls. *)
Theorem C76_plan : forall (SH : StdHash) L p ar rank drank, good_domain L p ar rank drank ->
  orderly p (atoms (pd_init p)) -> forall cs st, built (pd_init p) -> reachable_store (pd_symbols p) ar (pd_axioms p) st ->
  ((exists st', is_valid_plan L p cs st = Ok (true, st')) <->
   exists l, Forall2 (fun c x => calls p c (fst x) (snd x)) cs l /\ solves p l (atoms (pd_init p))) /\
  (forall l, Forall2 (fun c x => calls p c (fst x) (snd x)) cs l ->
     exists b st', is_valid_plan L p cs st = Ok (b, st')).
Proof.
  intros SH L p ar rank drank G Od cs st B Rs.
  apply (C76_plan_lemma L p ar rank drank G _ Od cs st B); auto. tauto.
Qed.
Print Assumptions C76_plan.

(** Breadth-first search yields exactly the solutions without detours within
    the depth, each once; the first is as short as any solution. *)
Theorem C76_search : forall (SH : StdHash) L p ar rank drank, good_domain L p ar rank drank ->
  Forall (fun o => (tuple_count (pd_symbols p) (op_params o) < 2 ^ 31)%Z) (pd_ops p) -> pd_actions p <> [] ->
  Forall word (map oname (pd_symbols p)) -> Forall (fun o => free_of "("%char (op_name o)) (pd_ops p) ->
  NoDup (map op_name (pd_ops p)) -> ordinary_domain p ->
  exists K0, forall K s st0 root st1 d, K0 <= K -> built s ->
  make_planner L p (s, st0) = Ok (root, st1) -> orderly p (atoms (nd_state root)) ->
  exists plans M,
    (forall calls fuel w, M <= calls -> M <= fuel -> reachable_store (pd_symbols p) ar (pd_axioms p) w ->
       exists w', bfs_all (node_goal p) (node_children L p K) d calls fuel never root w = Ok (plans, w')) /\
    NoDup (map plan_calls plans) /\
    (forall cs, In cs (map plan_calls plans) <->
       exists l, cs = printed l /\ length l <= d /\ straight p [] l (atoms (nd_state root))) /\
    (forall l, solves p l (atoms (nd_state root)) -> length l <= d ->
       Forall (fun x => op_is_axiom (fst x) = false /\ op_params (fst x) <> []) l ->
       exists plan rest, plans = plan :: rest /\ length (plan_calls plan) <= length l).
Proof. exact @C76_search_lemma. Qed.
Print Assumptions C76_search.

(** Without the conditions neither holds: IsValidPlan rejects a solution if an
    action adds and deletes the same atom ... *)
Theorem C76_clash_refuted : exists (SH : StdHash) L p ar rank drank cs l st,
  good_domain L p ar rank drank /\ built (pd_init p) /\ pd_derived p = [] /\ pd_axioms p = [] /\
  (forall o, In o (pd_ops p) -> eff_conds (op_effs o) = []) /\
  Forall2 (fun c x => calls p c (fst x) (snd x)) cs l /\ solves p l (atoms (pd_init p)) /\
  is_valid_plan L p cs no_store = Ok (false, st).
Proof. exact clash_refuted. Qed.
Print Assumptions C76_clash_refuted.

(** ... and if one conditional effect changes the condition of another. *)
Theorem C76_reads_refuted : exists (SH : StdHash) L p ar rank drank cs l st,
  good_domain L p ar rank drank /\ built (pd_init p) /\ pd_derived p = [] /\ pd_axioms p = [] /\
  (forall o args S, enabled p o args S -> forall a, ~ (affects p o args S true a /\ affects p o args S false a)) /\
  Forall2 (fun c x => calls p c (fst x) (snd x)) cs l /\ solves p l (atoms (pd_init p)) /\
  is_valid_plan L p cs no_store = Ok (false, st).
Proof. exact reads_refuted. Qed.
Print Assumptions C76_reads_refuted.

(** A domain that meets the conditions only in the sets it attains, with its
    plans. *)
Example C76_example :
  good_domain ex_limits trip map_arity (fun _ => 0) (fun _ => 0) /\ pd_actions trip <> [] /\ ordinary_domain trip /\
  orderly trip (atoms (SH := collide) (pd_init trip)) /\ built (SH := collide) (pd_init trip) /\
  make_planner (SH := collide) ex_limits trip (pd_init trip, no_store) = Ok (root_node (pd_init trip), no_store) /\
  ~ orderly trip (fun _ => True) /\
  map (fun cs => match is_valid_plan (SH := collide) ex_limits trip cs no_store with Ok (b, _) => Some b | _ => None end)
    [["walk(a, b)"; "walk(b, c)"]; ["walk(a, b)"; "walk(b, d)"; "walk(d, c)"]; ["walk(a, b)"; "walk(b, d)"];
     ["walk(a, c)"]; ["walk(a)"]] = [Some true; Some true; Some false; Some false; None] /\
  plans_view (bfs_all (node_goal (SH := collide) trip) (node_children (SH := collide) ex_limits trip 60) 3 300 300 never
    (root_node (pd_init trip)) no_store) =
    Ok [["walk(a, b)"; "walk(b, c)"]; ["walk(a, b)"; "walk(b, d)"; "walk(d, c)"]].
Proof.
  destruct trip_words as (_ & _ & _ & _ & H5 & H6). split; [exact trip_good|]. split; [exact H5|]. split; [exact H6|].
  split; [apply trip_orderly, trip_start|]. split; [eexists; reflexivity|]. split; [vm_compute; reflexivity|]. split.
  - intros Od. pose (x := ex_const "a").
    assert (W : well_typed (pd_symbols trip) (op_params walk) [x; x]).
    { constructor; [|constructor; [|constructor]]; (split; [left; reflexivity|]); cbn; unfold has_type; cbn; auto. }
    apply (od_clash trip _ Od walk [x; x] (fun _ => True) (at_start _ _ _ (fun a => iff_refl _))) with (a := ("at", ["a"])).
    + split; [left; reflexivity|]. split; [exact W|]. split; [|split; [|exact Logic.I]];
        apply atom_plain; auto; apply trip_ordinary; cbn; tauto.
    + split; unfold affects; cbn [op_effs op_params walk]; rewrite EffectLink.eff_lit_eq; right; left; eexists;
        (split; [left; reflexivity|]); (split; [apply trip_ordinary; cbn; tauto|reflexivity]).
  - split; vm_compute; reflexivity.
Qed.
