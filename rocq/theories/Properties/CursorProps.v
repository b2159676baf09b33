(** C70: the iterator over the children of a node, in both directions. *)
From Coq Require Import Ascii String List Bool NArith ZArith Arith Lia.
From Verif.Model Require Import Base Object Proposition State CombinationGenerator ParameterGenerator Syntax Formula
  Effects Derived Consistency Text Search Pddl Planner PlannerSteps.
From Verif.Spec Require Import SetSpec TypingSpec FormulaSpec EffectSpec DerivedSpec TextSpec PddlSpec PlannerSpec CursorSpec.
From Verif.Proofs Require Import EffectExamples AxiomExamples DerivedExamples PddlExamples PlannerExamples CursorTheorems CursorExamples.
From Verif.Properties Require Import StateProps.
Import ListNotations.
Local Open Scope string_scope.
Local Open Scope list_scope.

(** From begin(), [k] times ++ leads to child [k] of the list that C43 is about,
    and to end() after the last one.  This also connects the iterators over
    argument tuples with the lists of tuples in Model/Planner.v. *)
Theorem C70_forward : forall (SH : StdHash) L p ar rank drank, good_domain L p ar rank drank ->
  Forall (fun o => (tuple_count (pd_symbols p) (op_params o) < 2 ^ 31)%Z) (pd_ops p) -> pd_actions p <> [] ->
  Forall (fun o => oname o <> "") (pd_symbols p) ->
  exists K0, forall K n cs st0 st0' st, K0 <= K ->
  reachable_store (pd_symbols p) ar (pd_axioms p) st0 -> reachable_store (pd_symbols p) ar (pd_axioms p) st ->
  node_children L p K n st0 = Ok (cs, st0') -> forall k, k <= List.length cs ->
  exists w c st', cursor_begin L p K n st = Ok w /\ cursor_steps L p K n (repeat true k) w = Ok (c, st') /\
    at_end p c = Nat.eqb k (List.length cs) /\ (k < List.length cs -> cu_child c = nth_error cs k) /\
    reachable_store (pd_symbols p) ar (pd_axioms p) st'.
Proof. exact @C70_forward_lemma. Qed.
Print Assumptions C70_forward.

(** Any ++ and -- from begin() or end() that stay within the children.  Missing
    for the full claim: actions without arguments to try, and parameters, except
    first ones, with a single object; see the refutations. *)
Theorem C70_steps_partial : forall (SH : StdHash) L p ar rank drank, good_domain L p ar rank drank ->
  Forall (fun o => (tuple_count (pd_symbols p) (op_params o) < 2 ^ 31)%Z) (pd_ops p) -> pd_actions p <> [] ->
  Forall (fun o => oname o <> "") (pd_symbols p) -> steppable p ->
  exists K0, forall K n cs st0 st0' st (back : bool) bs, K0 <= K ->
  reachable_store (pd_symbols p) ar (pd_axioms p) st0 -> reachable_store (pd_symbols p) ar (pd_axioms p) st ->
  node_children L p K n st0 = Ok (cs, st0') ->
  let start := if back then Z.of_nat (List.length cs) else 0%Z in
  stays_within start bs (List.length cs) ->
  exists w c st', (if back then let* e := cursor_end p in Ok (e, st) else cursor_begin L p K n st) = Ok w /\
    cursor_steps L p K n bs w = Ok (c, st') /\
    at_end p c = (moved start bs =? Z.of_nat (List.length cs))%Z /\
    (at_end p c = false -> cu_child c = nth_error cs (Z.to_nat (moved start bs))) /\
    reachable_store (pd_symbols p) ar (pd_axioms p) st'.
Proof. exact @C70_steps_lemma. Qed.
Print Assumptions C70_steps_partial.

(** With one object, -- from end() reads an argument that was never set. *)
Theorem C70_single_refuted : exists (SH : StdHash) L p ar rank drank n c st0 e,
  good_domain L p ar rank drank /\ node_children L p 10 n no_store = Ok ([c], st0) /\ cursor_end p = Ok e /\
  forall K st, cursor_prev L p K n e st = UB.
Proof. exact single_refuted. Qed.
Print Assumptions C70_single_refuted.

(** Actions without parameters lead to no children (C43), but -- from end()
    finds one. *)
Theorem C70_nullary_refuted : exists (SH : StdHash) L p ar rank drank n e c st,
  good_domain L p ar rank drank /\ node_children L p 10 n no_store = Ok ([], no_store) /\ cursor_end p = Ok e /\
  (forall K, cursor_prev L p K n e no_store = Ok (c, st)) /\ at_end p c = false /\
  option_map nd_action (cu_child c) = Some "ring()".
Proof. exact nullary_back_refuted. Qed.
Print Assumptions C70_nullary_refuted.

(** Iterators compare equal only if both are at the end; elsewhere not even an
    iterator and its copy. *)
Theorem C70_equality : forall p a b, cursor_eqb p a b = true <-> at_end p a = true /\ at_end p b = true.
Proof. exact cursor_eqb_spec. Qed.
Print Assumptions C70_equality.
Theorem C70_equal_refuted : exists (SH : StdHash) L p K n w,
  cursor_begin L p K n no_store = Ok w /\ cursor_eqb p (fst w) (fst w) = false.
Proof. exact equal_refuted. Qed.
Print Assumptions C70_equal_refuted.

Example C70_example :
  let p := map_pddl true "c" in
  let n := mkNode (run (SH := collide) [Ins (sp "at" "b"); Ins (road "b" "a"); Ins (road "b" "c")])
             [run (SH := collide) [Ins (sp "far" "b"); Ins (sp "at" "a"); Ins (road "b" "a"); Ins (road "b" "c");
                                   Ins (sp "far" "c"); Ins (sp "far" "d"); Ins (sp "seen" "a")]] "go(a, b)" 1 in
  let shown bs w := let* w := w in let* w := cursor_steps (SH := collide) ex_limits p 40 n bs w in
                    Ok (at_end p (fst w), option_map nd_action (cu_child (fst w))) in
  good_domain ex_limits p map_arity (fun _ => 0) (fun _ => 0) /\ steppable p /\
  Forall (fun o => oname o <> "") (pd_symbols p) /\
  stays_within 0 [true; false; true] 2 /\ stays_within 2 [false; false; true; true; false] 2 /\
  shown [] (cursor_begin (SH := collide) ex_limits p 40 n no_store) = Ok (false, Some "go(b, c)") /\
  shown [true; false; true] (cursor_begin (SH := collide) ex_limits p 40 n no_store) = Ok (false, Some "rest(b)") /\
  shown [false; false] (let* e := cursor_end p in Ok (e, no_store)) = Ok (false, Some "go(b, c)") /\
  shown [false; false; true; true; false] (let* e := cursor_end p in Ok (e, no_store)) = Ok (false, Some "rest(b)").
Proof.
  cbn zeta. split; [apply map_good; cbn; auto|]. split; [apply map_steppable|].
  split; [repeat constructor; discriminate|]. split; [|split; [|vm_compute; repeat split]].
  - intros k Hk. cbn in Hk. do 4 (destruct k as [|k]; [cbn; lia|]). lia.
  - intros k Hk. cbn in Hk. do 6 (destruct k as [|k]; [cbn; lia|]). lia.
Qed.
