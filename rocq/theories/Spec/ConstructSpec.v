(** Which domains and problems a Pddl can be made of. *)
From Coq Require Import String List Bool ZArith.
From Verif.Model Require Import Base Object Proposition ParameterGenerator Syntax Formula Derived.
From Verif.Spec Require Import TypingSpec FormulaSpec EffectSpec.
Import ListNotations.
Local Open Scope string_scope.
Local Open Scope list_scope.

(** ** Formulas *)
Inductive occurs (h : goal) : goal -> Prop :=
| oc_here : occurs h h
| oc_conj g gs : In g gs -> occurs h g -> occurs h (GConj gs)
| oc_disj g gs : In g gs -> occurs h g -> occurs h (GDisj gs)
| oc_neg g : occurs h g -> occurs h (GNeg g)
| oc_forall vars g : occurs h g -> occurs h (GForall vars g)
| oc_exists vars g : occurs h g -> occurs h (GExists vars g).

(** All its parts are kinds of formulas the library knows. *)
Definition understood (g : goal) : Prop := ~ occurs GOther g.

(** The formulas of a domain and problem. *)
Definition op_formulas (o : op) : list goal := op_pre o :: eff_conds (op_effs o).
Definition formulas (ops : list op) (ds : list derived) (g : goal) : list goal :=
  flat_map op_formulas ops ++ map dp_body ds ++ [g].

(** ** Literals *)
Fixpoint eff_literals (e : effs) : list (bool * prop) :=
  match e with
  | Effs fs adds dels cs =>
      flat_map (fun f => eff_literals (snd f)) fs ++ map (pair true) adds ++ map (pair false) dels ++
      flat_map (fun c => eff_literals (snd c)) cs
  end.

(** The operator is an axiom for this literal. *)
Definition rule_for (o : op) (sign : bool) (n : string) (xs : list object) : Prop :=
  op_is_axiom o = true /\ op_pre o = if sign then GSimple n xs else GNeg (GSimple n xs).

(** Literals of effects have as many arguments as those of the axioms that
    react to them. *)
Definition fits (objects : list object) (ops : list op) : Prop :=
  forall r sign n xs o p, In r ops -> rule_for r sign n xs -> In o ops -> In (sign, p) (eff_literals (op_effs o)) ->
    pname p = n -> ordinary objects n -> length (pargs p) = length xs.

(** ** Axioms *)

(** Axioms made of literals of ordinary predicates, with not too many instances. *)
Record simple_rule (objects : list object) (o : op) : Prop := {
  sr_context : exists sign n xs, rule_for o sign n xs /\ ordinary objects n;
  sr_effs : exists adds dels, op_effs o = Effs [] adds dels [] /\ adds ++ dels <> [];
  sr_ordinary : forall s p, In (s, p) (eff_literals (op_effs o)) -> ordinary objects (pname p);
  sr_count : (tuple_count objects (op_params o) < 2 ^ 31)%Z
}.

(** The same literal is added and deleted. *)
Definition contradictory (o : op) : Prop :=
  exists p q, In (true, p) (eff_literals (op_effs o)) /\ In (false, q) (eff_literals (op_effs o)) /\
    prop_key p = prop_key q.
