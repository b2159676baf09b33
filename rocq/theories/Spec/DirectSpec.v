(** Plans without detours, as sequences of calls. *)
From Coq Require Import String List Bool NArith ZArith Arith.
From Verif.Model Require Import Base Object Proposition State ParameterGenerator Syntax Formula
  Effects Derived Consistency Text Pddl.
From Verif.Spec Require Import SetSpec TypingSpec FormulaSpec EffectSpec DerivedSpec TextSpec PddlSpec.
Import ListNotations.
Local Open Scope string_scope.
Local Open Scope list_scope.

Definition same (t u : aset) : Prop := forall a, t a = u a.

Section Direct.
  Context (L : limits) (p : pddl).

  (** From the set [t], reached over the sets [seen], the calls lead to the goal
      in at most [d] steps: each is an applicable call of an action with
      parameters, printed the standard way; no set occurs twice, and the goal
      holds at the end only. *)
  Inductive direct : list aset -> nat -> aset -> list string -> Prop :=
  | di_goal seen d t : goal_true p t -> direct seen d t []
  | di_call seen d t o args t' cs :
      ~ goal_true p t ->
      In o (pd_ops p) -> op_is_axiom o = false -> op_params o <> [] ->
      well_typed (pd_symbols p) (op_params o) args -> precondition p o args t ->
      results_in L p o args t t' -> (forall u, In u (t :: seen) -> ~ same u t') ->
      direct (t :: seen) d t' cs ->
      direct seen (S d) t (action_to_string o args :: cs).
End Direct.
