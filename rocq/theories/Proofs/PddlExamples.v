(** A sample domain for C39-C42 and C61. *)
From Coq Require Import Ascii String List Bool NArith ZArith Arith Lia.
From Verif.Model Require Import Base Object Proposition State ParameterGenerator Syntax Formula
  Effects Derived Consistency Text Pddl.
From Verif.Spec Require Import SetSpec TypingSpec FormulaSpec EffectSpec DerivedSpec TextSpec AxiomSpec PddlSpec.
From Verif.Proofs Require Import StateFacts StateHistory EffectExamples AxiomExamples DerivedExamples PddlFacts
  PddlTheorems PddlListing PddlHistory.
From Verif.Properties Require Import StateProps ParameterProps FormulaProps.
Import ListNotations.
Local Open Scope string_scope.
Local Open Scope list_scope.

(** move ?a from ?b to ?c; what is near something is in reach, what is in reach
    is not broken; close and lonely are derived. *)
Definition pd_move : op :=
  mkOp "move" false [tv "a" 0; tv "b" 1; tv "c" 2]
    (GConj [GSimple "near" [tv "a" 0; tv "b" 1]; GNeg (GSimple "=" [tv "b" 1; tv "c" 2]);
            GNeg (GSimple "=" [tv "a" 0; tv "c" 2])])
    (Effs [] [mkProp "near" [tv "a" 0; tv "c" 2]] [mkProp "near" [tv "a" 0; tv "b" 1]] []).
Definition pd_wait : op := mkOp "wait" false [] (GConj []) (Effs [] [] [] []).
Definition ex_domain_ops : list op := map ax_op AxiomExamples.ex_rules ++ [pd_move; pd_wait].
Definition ex_limits : limits := mkLimits 2 2 4 5.
Definition ex_init : list prop := [mkProp "near" [ex_const "hook"; ex_const "box"]; sp "broken" "box"].
Definition ex_goal : goal := GConj [GSimple "near" [ex_const "hook"; ex_const "table"]; GSimple "lonely" [ex_const "box"]].
Definition ex_make (aa : bool) : outcome (pddl * store) :=
  make_pddl (SH := collide) ex_limits (firstn 1 ex_objects) (skipn 1 ex_objects) ex_domain_ops
    DerivedExamples.ex_rules ex_init ex_goal aa.
Definition ex_pddl : pddl :=
  mkPddl (firstn 1 ex_objects) (skipn 1 ex_objects) ex_objects (create_object_map ex_objects) ex_domain_ops
    AxiomExamples.ex_rules DerivedExamples.ex_rules
    (run (SH := collide) (map Ins ex_init)) ex_goal.

Lemma ex_made : ex_make false = Ok (ex_pddl, no_store).
Proof. vm_compute. reflexivity. Qed.

Lemma ex_pddl_good : good_domain ex_limits ex_pddl ex_rules_arity ex_rules_rank ex_rule_rank.
Proof.
  constructor.
  - reflexivity.
  - exact ex_objects_wf.
  - apply C35_ex.
  - pose proof AxiomExamples.ex_rules_good as H. repeat apply Forall_cons; try apply Forall_nil.
    + apply (Forall_inv H).
    + apply (Forall_inv (Forall_inv_tail H)).
    + good_op_tac.
    + good_op_tac.
  - repeat apply Forall_cons; try apply Forall_nil; wf_tac.
  - exact AxiomExamples.ex_rules_good.
  - exact ex_rules_ranked.
  - intros [|[|i]] I; cbn in I; cbn; lia.
  - exact DerivedExamples.ex_rules_good.
  - apply C35_ex.
  - exact ex_rules_stratified.
  - cbn; lia.
  - split; [cbn; lia|]. intros d I. cbn in I. intuition subst; cbn; lia.
  - wf_tac.
Qed.

Lemma ex_words : Forall word (map oname (pd_symbols ex_pddl)) /\
  Forall (fun o => free_of "("%char (op_name o)) (pd_ops ex_pddl) /\ NoDup (map op_name (pd_ops ex_pddl)) /\
  Forall (fun o => (tuple_count (pd_symbols ex_pddl) (op_params o) < 2 ^ 31)%Z) (pd_ops ex_pddl).
Proof.
  split; [|split; [|split]].
  - repeat apply Forall_cons; try apply Forall_nil;
      (split; [discriminate|intros c I [->|J]; cbn in I; [intuition discriminate|]; cbn in J; intuition (subst; discriminate)]).
  - repeat apply Forall_cons; try apply Forall_nil; intros I; cbn in I; intuition discriminate.
  - nodup_tac.
  - repeat apply Forall_cons; try apply Forall_nil; reflexivity.
Qed.

Definition state_keys (r : outcome (state * store)) : outcome (list atom) :=
  let* ' (s, _) := r in Ok (map prop_key (st_elements s)).
Definition drop_fst {A} (r : outcome (A * store)) : outcome A := let* ' (b, _) := r in Ok b.

Lemma nullary_listed_refuted : exists (SH : StdHash) L p ar rank drank s call l,
  good_domain L p ar rank drank /\ built s /\ is_valid_action p s call = Ok true /\
  list_valid_actions p s = Ok l /\
  ~ exists x o args, In x l /\ calls p call o args /\ calls p x o args.
Proof.
  pose (SH := collide). set (p := mkPddl [] [] [] [] [pd_wait] [] [] st_empty (GConj [])).
  exists collide, ex_limits, p, ex_rules_arity, ex_rules_rank, ex_rule_rank, st_empty, "wait()", [].
  split; [|split; [|split; [|split]]].
  - constructor.
    + reflexivity.
    + apply Forall_nil.
    + constructor.
    + constructor; [good_op_tac|constructor].
    + constructor; [wf_tac|constructor].
    + constructor.
    + intros i a N. destruct i; discriminate.
    + cbn. lia.
    + intros d [].
    + constructor.
    + intros d d' [].
    + cbn; lia.
    + split; [cbn; lia|intros d []].
    + wf_tac.
  - exists []. reflexivity.
  - vm_compute. reflexivity.
  - vm_compute. reflexivity.
  - intros (x & o & args & [] & _).
Qed.
