(** Successors of search nodes as sets of atoms. *)
From Coq Require Import String List Bool NArith ZArith Arith.
From Verif.Model Require Import Base Object Proposition State ParameterGenerator Syntax Formula
  Effects Derived Consistency Text Pddl Planner.
From Verif.Spec Require Import SetSpec TypingSpec FormulaSpec EffectSpec DerivedSpec TextSpec PddlSpec.
Import ListNotations.
Local Open Scope string_scope.
Local Open Scope list_scope.

Section Successors.
  Context `{SH : StdHash} (L : limits) (p : pddl).

  Definition among (l : list state) (t : aset) : Prop := exists s, In s l /\ represents s t.
  (** The set of the node or of one of its ancestors. *)
  Definition known (n : node) (t : aset) : Prop := among (nd_state n :: nd_ancestors n) t.

  (** The children that the calls give rise to, one by one. *)
  Inductive successors (n : node) (t : aset) : list (op * list object) -> list node -> Prop :=
  | su_none : successors n t [] []
  | su_known o args r t' cs : results_in L p o args t t' -> known n t' ->
      successors n t r cs -> successors n t ((o, args) :: r) cs
  | su_child o args r t' c cs : results_in L p o args t t' -> ~ known n t' ->
      represents (nd_state c) t' -> nd_action c = action_to_string o args -> nd_depth c = S (nd_depth n) ->
      (forall u, among (nd_ancestors c) u <-> known n u) ->
      successors n t r cs -> successors n t ((o, args) :: r) (c :: cs).

  (** Calls that can be listed: of actions with parameters. *)
  Definition plain_call (call : string) : Prop :=
    exists o args, calls p call o args /\ op_is_axiom o = false /\ op_params o <> [].

  (** The plan a search has found, as text. *)
  Definition plan_calls (plan : list node) : list string := map nd_action (tl plan).
End Successors.

(** No effect of the domain is about = or a type, so that no call throws. *)
Definition ordinary_domain (p : pddl) : Prop :=
  (forall o, In o (pd_ops p) -> ordinary_effs (pd_symbols p) (op_effs o)) /\
  (forall a, In a (pd_axioms p) -> ordinary_effs (pd_symbols p) (op_effs (ax_op a))).
