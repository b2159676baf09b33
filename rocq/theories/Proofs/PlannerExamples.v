(** A sample domain for C43, C48, C49 and C62. *)
From Coq Require Import Ascii String List Bool NArith ZArith Arith Lia.
From Verif.Model Require Import Base Object Proposition State ParameterGenerator Syntax Formula
  Effects Derived Consistency Text Search Pddl Planner.
From Verif.Spec Require Import SetSpec TypingSpec FormulaSpec EffectSpec DerivedSpec TextSpec AxiomSpec SearchSpec PddlSpec
  PlannerSpec.
From Verif.Proofs Require Import StateFacts StateHistory EffectExamples AxiomExamples DerivedExamples PddlFacts
  PddlTheorems PddlListing PddlHistory PddlExamples PlannerTheorems.
From Verif.Properties Require Import StateProps ParameterProps FormulaProps.
Import ListNotations.
Local Open Scope string_scope.
Local Open Scope list_scope.

(** go ?x ?y along roads; where one is has been seen; far is derived. *)
Definition go : op :=
  mkOp "go" false [tv "x" 0; tv "y" 1]
    (GConj [GSimple "at" [tv "x" 0]; GSimple "road" [tv "x" 0; tv "y" 1]])
    (Effs [] [mkProp "at" [tv "y" 1]] [mkProp "at" [tv "x" 0]] []).
Definition rest : op :=
  mkOp "rest" false [tv "x" 0] (GSimple "at" [tv "x" 0]) (Effs [] [mkProp "seen" [tv "x" 0]] [] []).
Definition see : axiom := rule "see" [tv "x" 0] true (mkProp "at" [tv "x" 0]) [mkProp "seen" [tv "x" 0]] [].
Definition far : derived := mkDer "far" [tv "x" 0] (GNeg (GSimple "at" [tv "x" 0])).
Definition towns : list object := map ex_const ["a"; "b"; "c"; "d"].
Definition road (x y : string) : prop := mkProp "road" [ex_const x; ex_const y].
Definition map_init (seen : bool) : list prop :=
  [road "a" "b"; road "b" "a"; road "b" "d"; road "d" "c"; road "b" "c"; sp "at" "a"] ++
  if seen then [sp "seen" "a"] else [].
Definition map_goal (x : string) : goal := GConj [GSimple "seen" [ex_const x]; GSimple "far" [ex_const "b"]].
Definition map_arity (n : string) : nat := if String.eqb n "road" then 2 else 1.
Definition map_pddl (seen : bool) (x : string) : pddl :=
  mkPddl [] towns towns (create_object_map towns) [go; ax_op see; rest] [see] [far]
    (run (SH := collide) (map Ins (map_init seen))) (map_goal x).

Lemma map_made seen x : make_pddl (SH := collide) ex_limits [] towns [go; ax_op see; rest] [far] (map_init seen) (map_goal x) false =
  Ok (map_pddl seen x, no_store).
Proof. destruct seen; vm_compute; reflexivity. Qed.

Lemma map_good seen x : In x ["a"; "b"; "c"; "d"] ->
  good_domain ex_limits (map_pddl seen x) map_arity (fun _ => 0) (fun _ => 0).
Proof.
  intros Hx. constructor.
  - reflexivity.
  - repeat constructor; cbn; intuition (congruence || auto).
  - nodup_tac.
  - repeat apply Forall_cons; try apply Forall_nil; good_op_tac.
  - repeat apply Forall_cons; try apply Forall_nil; wf_tac.
  - repeat apply Forall_cons; try apply Forall_nil. constructor; [good_op_tac| |reflexivity]. split; [nodup_tac|].
    intros p [<-|[]]. exists [], (tv "x" 0), []. cbn. intuition discriminate.
  - intros [|i] a N j b Nb I; cbn in N; [|destruct i; discriminate]. injection N as <-.
    destruct j as [|j]; cbn in Nb; [|destruct j; discriminate]. injection Nb as <-. cbn in I. intuition discriminate.
  - intros i _. cbn. lia.
  - intros d I. cbn in I. intuition subst. unfold good_derived. wf_tac.
  - nodup_tac.
  - intros d d' I I' M. cbn in I, I'. intuition subst. cbn in M. intuition discriminate.
  - cbn; lia.
  - split; [cbn; lia|]. intros d _. cbn. lia.
  - cbn in Hx. intuition subst; wf_tac.
Qed.

Lemma map_words seen x : Forall word (map oname (pd_symbols (map_pddl seen x))) /\
  Forall (fun o => free_of "("%char (op_name o)) (pd_ops (map_pddl seen x)) /\ NoDup (map op_name (pd_ops (map_pddl seen x))) /\
  Forall (fun o => (tuple_count (pd_symbols (map_pddl seen x)) (op_params o) < 2 ^ 31)%Z) (pd_ops (map_pddl seen x)) /\
  pd_actions (map_pddl seen x) <> [] /\ ordinary_domain (map_pddl seen x).
Proof.
  split; [|split; [|split; [|split; [|split]]]].
  - repeat apply Forall_cons; try apply Forall_nil;
      (split; [discriminate|intros c I [->|J]; cbn in I; [intuition discriminate|]; cbn in J; intuition (subst; discriminate)]).
  - repeat apply Forall_cons; try apply Forall_nil; intros I; cbn in I; intuition discriminate.
  - nodup_tac.
  - repeat apply Forall_cons; try apply Forall_nil; reflexivity.
  - discriminate.
  - split; intros o I; cbn in I; intuition subst; ord_tac.
Qed.
Lemma map_valid x : built (SH := collide) (pd_init (map_pddl true x)) /\
  is_valid_state (SH := collide) (pd_om (map_pddl true x)) (pd_axioms (map_pddl true x)) (l_cascade ex_limits)
    (pd_init (map_pddl true x)) no_store = Ok true.
Proof. split; [eexists; reflexivity|vm_compute; reflexivity]. Qed.

(** States and actions of nodes. *)
Definition node_view (n : node) : list atom * string * nat * nat :=
  (map prop_key (st_elements (nd_state n)), nd_action n, nd_depth n, List.length (nd_ancestors n)).
Definition children_view (r : outcome (list node * store)) : outcome (list (list atom * string * nat * nat)) :=
  let* ' (l, _) := r in Ok (map node_view l).
Definition plans_view (r : outcome (list (list node) * store)) : outcome (list (list string)) :=
  let* ' (l, _) := r in Ok (map plan_calls l).

(** ** Counterexamples *)
Definition bare (ops : list op) (g : goal) : pddl := mkPddl [] [] [] [] ops [] [] st_empty g.
Definition ring : op := mkOp "ring" false [] (GConj []) (Effs [] [mkProp "rung" []] [] []).
Lemma bare_good ops g : Forall (good_op [] (fun _ => 0)) ops ->
  Forall (fun o => wf_goal [] (map oname (op_params o)) (op_pre o)) ops -> wf_goal [] [] g ->
  good_domain ex_limits (bare ops g) (fun _ => 0) (fun _ => 0) (fun _ => 0).
Proof.
  intros Ho Hp Hg. constructor; auto.
  - apply Forall_nil.
  - constructor.
  - constructor.
  - intros i a N. destruct i; discriminate.
  - cbn. lia.
  - intros d [].
  - constructor.
  - intros d d' [].
  - split; [cbn; lia|intros d []].
Qed.

Lemma no_actions_refuted : exists (SH : StdHash) L p ar rank drank n,
  good_domain L p ar rank drank /\ built (nd_state n) /\ nd_ancestors n = [] /\
  forall K st, node_children L p K n st = UB.
Proof.
  pose (SH := collide). exists collide, ex_limits, (bare [] (GConj [])), (fun _ => 0), (fun _ => 0), (fun _ => 0), (root_node st_empty).
  split; [apply bare_good; [constructor|constructor|wf_tac]|]. split; [exists []; reflexivity|]. split; [reflexivity|].
  intros K st. reflexivity.
Qed.

(** A call of an action without parameters leads to a new State, but to no child. *)
Lemma nullary_child_refuted : exists (SH : StdHash) L p ar rank drank s call,
  good_domain L p ar rank drank /\ built s /\ is_valid_action p s call = Ok true /\
  (exists s' st, next_state L p call (s, no_store) = Ok (s', st) /\ st_eqb s' s = false) /\
  forall K, 2 <= K -> node_children L p K (root_node s) no_store = Ok ([], no_store).
Proof.
  pose (SH := collide). exists collide, ex_limits, (bare [ring] (GConj [])), (fun _ => 0), (fun _ => 0), (fun _ => 0), st_empty, "ring()".
  split; [apply bare_good; [constructor; [good_op_tac|constructor]|constructor; [wf_tac|constructor]|wf_tac]|].
  split; [exists []; reflexivity|]. split; [vm_compute; reflexivity|]. split.
  - exists (run [Ins (mkProp "rung" [])]), (restore_actions no_store (forget_actions no_store)). split; vm_compute; reflexivity.
  - intros [|[|K]] H; try lia. vm_compute. reflexivity.
Qed.

(** The planner starts from ConsistentState, IsValidPlan from the initial state itself. *)
Lemma start_refuted : exists (SH : StdHash) L p ar rank drank root st plan,
  good_domain L p ar rank drank /\ built (pd_init p) /\ make_planner L p (pd_init p, no_store) = Ok (root, st) /\
  (forall K d, yields (node_goal p) (node_children L p K) d root (reachable_store (pd_symbols p) ar (pd_axioms p)) plan) /\
  exists st', is_valid_plan L p (plan_calls plan) no_store = Ok (false, st').
Proof.
  pose (SH := collide). pose (p := mkPddl [] towns towns (create_object_map towns) [go; ax_op see; rest] [see] [far]
    (run (map Ins (map_init false))) (GSimple "seen" [ex_const "a"])).
  assert (E : exists root st, make_planner ex_limits p (pd_init p, no_store) = Ok (root, st) /\ node_goal p root = Ok true).
  { exists (root_node (run (map Ins (map_init true)))), no_store. split; vm_compute; reflexivity. }
  destruct E as (root & st & E & Eg).
  exists SH, ex_limits, p, map_arity, (fun _ => 0), (fun _ => 0), root, st, [root].
  split.
  { assert (Hg : wf_goal towns [] (GSimple "seen" [ex_const "a"])) by (clear; wf_tac).
    destruct (map_good false "a" (or_introl eq_refl)). constructor; assumption. }
  split; [eexists; reflexivity|]. split; auto. split.
  - intros K d. eapply yields_bfs; [apply (bfs_in_begin _ _ _ _ _ 1 (fun _ => false) no_store _ no_store)|].
    + constructor.
    + unfold bfs_begin. cbn [bfs_incr]. rewrite Eg. cbn. reflexivity.
    + reflexivity.
  - exists no_store. vm_compute. reflexivity.
Qed.

Lemma nullary_plan_refuted : exists (SH : StdHash) L p ar rank drank,
  good_domain L p ar rank drank /\ ordinary_domain p /\ built (pd_init p) /\
  is_valid_state (pd_om p) (pd_axioms p) (l_cascade L) (pd_init p) no_store = Ok true /\
  (exists cs st, is_valid_plan L p cs no_store = Ok (true, st)) /\
  forall K d, 2 <= K -> bfs_all (node_goal p) (node_children L p K) (S d) 1 2 never (root_node (pd_init p)) no_store =
                 Ok ([], no_store).
Proof.
  pose (SH := collide). exists collide, ex_limits, (bare [ring] (GSimple "rung" [])), (fun _ => 0), (fun _ => 0), (fun _ => 0).
  split; [apply bare_good; [constructor; [good_op_tac|constructor]|constructor; [wf_tac|constructor]|wf_tac]|].
  split; [split; intros o I; cbn in I; intuition subst; ord_tac|].
  split; [exists []; reflexivity|]. split; [reflexivity|]. split.
  - exists ["ring()"], (restore_actions no_store (forget_actions no_store)). vm_compute. reflexivity.
  - intros [|[|K]] d H; try lia. vm_compute. reflexivity.
Qed.

Lemma map_yields : exists plan,
  yields (node_goal (SH := collide) (map_pddl true "c")) (node_children (SH := collide) ex_limits (map_pddl true "c") 60) 3
    (root_node (pd_init (map_pddl true "c"))) (fun _ => True) plan /\ plan_calls plan = ["go(a, b)"; "go(b, c)"].
Proof.
  pose (r := bfs_begin (node_goal (SH := collide) (map_pddl true "c"))
    (node_children (SH := collide) ex_limits (map_pddl true "c") 60) 3 50 (fun _ => false)
    (root_node (pd_init (map_pddl true "c"))) no_store).
  assert (H : match r with
              | Ok (it, _) => match bi_plan it with Some plan => plan_calls plan = ["go(a, b)"; "go(b, c)"] | None => False end
              | _ => False
              end) by (vm_compute; reflexivity).
  destruct r as [[it w]| | | |] eqn:E; try contradiction. destruct (bi_plan it) as [plan|] eqn:Ep; [|contradiction].
  exists plan. split; auto. eapply yields_bfs; [|exact Ep]. eapply bfs_in_begin; [exact I|exact E].
Qed.
