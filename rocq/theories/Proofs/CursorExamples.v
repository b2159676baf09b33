(** Examples and counterexamples for C70. *)
From Coq Require Import Ascii String List Bool NArith ZArith Arith Lia.
From Verif.Model Require Import Base Object Proposition State CombinationGenerator ParameterGenerator Syntax Formula
  Effects Derived Consistency Text Search Pddl Planner PlannerSteps.
From Verif.Spec Require Import SetSpec TypingSpec FormulaSpec EffectSpec DerivedSpec TextSpec PddlSpec PlannerSpec CursorSpec.
From Verif.Proofs Require Import EffectExamples PddlExamples PlannerExamples.
From Verif.Properties Require Import StateProps.
Import ListNotations.
Local Open Scope string_scope.
Local Open Scope list_scope.

Lemma cursor_eqb_spec p a b : cursor_eqb p a b = true <-> at_end p a = true /\ at_end p b = true.
Proof. unfold cursor_eqb, at_end. rewrite andb_true_iff, !Nat.eqb_eq. intuition congruence. Qed.

Lemma map_steppable seen x : steppable (map_pddl seen x).
Proof.
  intros o I A. cbn in I. destruct I as [<-|[<-|[<-|[]]]]; cbn in A; try discriminate;
    (split; [discriminate|]); split; repeat constructor; try discriminate; cbn; lia.
Qed.

(** One object, two parameters. *)
Definition join : op :=
  mkOp "join" false [tv "x" 0; tv "y" 1] (GConj []) (Effs [] [mkProp "joined" [tv "x" 0; tv "y" 1]] [] []).
Definition lone : pddl :=
  mkPddl [] [ex_const "a"] [ex_const "a"] (create_object_map [ex_const "a"]) [join] [] [] st_empty (GConj []).
Lemma lone_good : good_domain ex_limits lone (fun _ => 2) (fun _ => 0) (fun _ => 0).
Proof.
  constructor.
  - reflexivity.
  - repeat constructor; cbn; intuition (congruence || auto).
  - nodup_tac.
  - repeat apply Forall_cons; try apply Forall_nil; good_op_tac.
  - repeat apply Forall_cons; try apply Forall_nil; wf_tac.
  - constructor.
  - intros i a N. destruct i; discriminate.
  - intros i _. cbn. lia.
  - intros d [].
  - constructor.
  - intros d d' [].
  - cbn; lia.
  - split; [cbn; lia|intros d []].
  - wf_tac.
Qed.

Lemma single_refuted : exists (SH : StdHash) L p ar rank drank n c st0 e,
  good_domain L p ar rank drank /\ node_children L p 10 n no_store = Ok ([c], st0) /\ cursor_end p = Ok e /\
  forall K st, cursor_prev L p K n e st = UB.
Proof.
  pose (SH := collide). exists collide, ex_limits, lone, (fun _ => 2), (fun _ => 0), (fun _ => 0), (root_node st_empty).
  do 3 eexists. split; [apply lone_good|]. split; [vm_compute; reflexivity|]. split; [vm_compute; reflexivity|].
  intros K st. reflexivity.
Qed.

Lemma nullary_back_refuted : exists (SH : StdHash) L p ar rank drank n e c st,
  good_domain L p ar rank drank /\ node_children L p 10 n no_store = Ok ([], no_store) /\ cursor_end p = Ok e /\
  (forall K, cursor_prev L p K n e no_store = Ok (c, st)) /\ at_end p c = false /\
  option_map nd_action (cu_child c) = Some "ring()".
Proof.
  pose (SH := collide). exists collide, ex_limits, (bare [ring] (GConj [])), (fun _ => 0), (fun _ => 0), (fun _ => 0), (root_node st_empty).
  do 3 eexists. split; [apply bare_good; [constructor; [good_op_tac|constructor]|constructor; [wf_tac|constructor]|wf_tac]|].
  split; [vm_compute; reflexivity|]. split; [vm_compute; reflexivity|].
  split; [intros K; vm_compute; reflexivity|]. split; vm_compute; reflexivity.
Qed.

Lemma equal_refuted : exists (SH : StdHash) L p K n w,
  cursor_begin L p K n no_store = Ok w /\ cursor_eqb p (fst w) (fst w) = false.
Proof.
  pose (SH := collide). exists collide, ex_limits, lone, 10, (root_node st_empty).
  eexists. split; [vm_compute; reflexivity|]. vm_compute. reflexivity.
Qed.
