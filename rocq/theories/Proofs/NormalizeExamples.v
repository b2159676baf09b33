(** Sample domains for C64. *)
From Coq Require Import Ascii String List Bool NArith ZArith Arith Lia.
From Verif.Model Require Import Base Object Proposition State CombinationGenerator ParameterGenerator Syntax Formula
  Effects Derived NormalForm Consistency Text Pddl Normalize.
From Verif.Spec Require Import SetSpec TypingSpec FormulaSpec EffectSpec NormalFormSpec DerivedSpec TextSpec AxiomSpec
  PddlSpec NormalizeSpec.
From Verif.Proofs Require Import StateFacts StateHistory EffectExamples AxiomExamples DerivedExamples NormalFormExamples
  PddlFacts PddlTheorems PddlListing PddlHistory PddlExamples NormalizeFacts.
From Verif.Properties Require Import StateProps ParameterProps FormulaProps.
Import ListNotations.
Local Open Scope string_scope.
Local Open Scope list_scope.

Definition with_goal (g : goal) : pddl :=
  mkPddl (pd_constants ex_pddl) (pd_problem_objects ex_pddl) (pd_objects ex_pddl) (pd_om ex_pddl) (pd_ops ex_pddl)
    (pd_axioms ex_pddl) (pd_derived ex_pddl) (pd_init ex_pddl) g.

Lemma with_goal_good g : wf_goal (pd_symbols ex_pddl) [] g ->
  good_domain ex_limits (with_goal g) ex_rules_arity ex_rules_rank ex_rule_rank.
Proof. intros W. destruct ex_pddl_good. constructor; auto. Qed.

Lemma with_goal_plain g : plain_axioms (with_goal g) ex_rules_sig.
Proof.
  constructor.
  - repeat apply Forall_cons; try apply Forall_nil; reflexivity.
  - exact ex_rules_wf.
  - exact ex_rules_typed.
Qed.

(** The box is near the hook, or the hook is both in reach and broken. *)
Definition split_goal : goal :=
  GDisj [GSimple "near" [o_box; o_hook];
         GConj [GSimple "reach" [o_hook]; GSimple "broken" [o_hook]]].

Lemma split_goal_wf : wf_goal (pd_symbols ex_pddl) [] split_goal.
Proof. wf_tac. Qed.

Lemma split_goal_declared : declared (pd_symbols ex_pddl) split_goal.
Proof. cbn. repeat split; repeat apply Forall_cons; try apply Forall_nil; intros _; vm_compute; auto 6. Qed.

Lemma split_goal_nondegenerate : nondegenerate (pd_symbols ex_pddl) no_env split_goal.
Proof.
  split; [|eexists; split; [left; reflexivity|left; exact I]].
  split; [split; [exact I|left; exact I]|]. split; [|exact I]. split; [cbn; auto|]. right. intros V.
  destruct (V (fun _ => false)) as [[[Q _]|[(_ & T & _)|(_ & _ & H)]] _]; [discriminate| |discriminate].
  revert T. not_type.
Qed.

(** Held by the first disjunct alone. *)
Definition near_state : state := run (SH := collide) [Ins (mkProp "near" [o_box; o_hook]); Ins (sp "reach" "box")].

Lemma near_accepted g : accepted (SH := collide) (with_goal g) near_state.
Proof. split; [eexists; reflexivity|]. exists 2, no_store. vm_compute. reflexivity. Qed.

Lemma axioms_throw_refuted : exists (SH : StdHash) L p ar rank drank sig s d st,
  good_domain L p ar rank drank /\ plain_axioms p sig /\ declared (pd_symbols p) (pd_goal p) /\
  nondegenerate (pd_symbols p) no_env (pd_goal p) /\ accepted p s /\ goal_holds p s = Ok true /\
  normalize_goal L p false no_store = Ok (Some d, st) /\ normalize_goal L p true no_store = Throw ERuntime.
Proof.
  exists collide, ex_limits, (with_goal split_goal), ex_rules_arity, ex_rules_rank, ex_rule_rank, ex_rules_sig, near_state.
  eexists. eexists.
  split; [apply with_goal_good; exact split_goal_wf|]. split; [apply with_goal_plain|].
  split; [exact split_goal_declared|]. split; [exact split_goal_nondegenerate|]. split; [apply near_accepted|].
  split; [vm_compute; reflexivity|]. split; vm_compute; reflexivity.
Qed.

Definition pair_show (r : outcome (option dnf * store)) := show (H := collide) (let* ' (d, _) := r in Ok d).

Lemma move_calls : calls ex_pddl "move(hook, box, table)" pd_move [o_hook; o_box; surf].
Proof. apply parse_calls. vm_compute. reflexivity. Qed.

Lemma move_conditions :
  declared (pd_symbols ex_pddl) (op_pre pd_move) /\
  nondegenerate (pd_symbols ex_pddl) (bind_vars (op_params pd_move) [o_hook; o_box; surf] no_env)
    (op_pre pd_move) /\
  declared_effs (pd_symbols ex_pddl) (op_effs pd_move) /\
  nondegenerate_effs (pd_symbols ex_pddl)
    (bind_vars (op_params pd_move) [o_hook; o_box; surf] no_env) (op_effs pd_move).
Proof.
  split; [|split; [|split]].
  - cbn. repeat split; repeat apply Forall_cons; try apply Forall_nil; discriminate.
  - cbn. repeat split; auto.
  - cbn. repeat split; repeat apply Forall_cons; try apply Forall_nil; repeat apply Forall_cons; try apply Forall_nil; discriminate.
  - cbn. auto.
Qed.

(** Without axioms and derived predicates. *)
Definition bare : pddl :=
  mkPddl (pd_constants ex_pddl) (pd_problem_objects ex_pddl) (pd_objects ex_pddl) (pd_om ex_pddl) (pd_ops ex_pddl)
    [] [] (pd_init ex_pddl) (pd_goal ex_pddl).
Lemma bare_good : good_domain ex_limits bare ex_rules_arity ex_rules_rank ex_rule_rank.
Proof.
  destruct ex_pddl_good. constructor; auto.
  - apply Forall_nil.
  - intros i a N. destruct i; discriminate.
  - cbn. intros i I. lia.
  - intros d [].
  - constructor.
  - intros d d' [].
  - split; [cbn; lia|intros d []].
Qed.
