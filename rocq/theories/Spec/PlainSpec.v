(** PDDL's own transitions and plans, on sets of ground atoms. *)
From Coq Require Import String List Bool.
From Verif.Model Require Import Base Object Proposition State ParameterGenerator Syntax Formula
  Effects Derived Consistency Text Pddl.
From Verif.Spec Require Import SetSpec TypingSpec FormulaSpec EffectSpec DerivedSpec PddlSpec.
Import ListNotations.
Local Open Scope string_scope.
Local Open Scope list_scope.

Section Plain.
  Context (p : pddl).
  Notation objects := (pd_symbols p).

  (** The atom is added ([pos]) or deleted by the action in [S]: it is an instance
      of an effect whose conditions hold in [S]. *)
  Definition affects (o : op) (args : list object) (S : atom -> Prop) (pos : bool) (a : atom) : Prop :=
    eff_lit objects (holds objects S) (bind_vars (op_params o) args no_env) (op_effs o) pos a.
  Definition turns_into (o : op) (args : list object) (S S' : atom -> Prop) : Prop :=
    forall a, S' a <-> affects o args S true a \/ (S a /\ ~ affects o args S false a).

  Definition enabled (o : op) (args : list object) (S : atom -> Prop) : Prop :=
    In o (pd_ops p) /\ well_typed objects (op_params o) args /\
    holds objects S (bind_vars (op_params o) args no_env) (op_pre o).

  Inductive solves : list (op * list object) -> (atom -> Prop) -> Prop :=
  | so_goal S : holds objects S no_env (pd_goal p) -> solves [] S
  | so_step o args l S S' : enabled o args S -> turns_into o args S S' -> solves l S' -> solves ((o, args) :: l) S.

  (** Solutions without detours: no set twice, the goal at the end only; calls of
      actions with parameters. *)
  Inductive straight : list (atom -> Prop) -> list (op * list object) -> (atom -> Prop) -> Prop :=
  | sr_goal seen S : holds objects S no_env (pd_goal p) -> straight seen [] S
  | sr_step seen o args l S S' :
      ~ holds objects S no_env (pd_goal p) -> op_is_axiom o = false -> op_params o <> [] ->
      enabled o args S -> turns_into o args S S' -> (forall U, In U (S :: seen) -> ~ forall a, U a <-> S' a) ->
      straight (S :: seen) l S' -> straight seen ((o, args) :: l) S.

  (** What calls can lead to from [S0]. *)
  Inductive attainable (S0 : atom -> Prop) : (atom -> Prop) -> Prop :=
  | at_start S : (forall a, S0 a <-> S a) -> attainable S0 S
  | at_step S o args S' : attainable S0 S -> enabled o args S -> turns_into o args S S' -> attainable S0 S'.

  (** Domains in which the order of effects does not matter from [S0] on: no
      derived predicates, no effect that triggers an axiom or is about = or a
      type; where an action is enabled, it does not add and delete the same atom
      and changes nothing its conditional effects ask for. *)
  Record orderly (S0 : atom -> Prop) : Prop := {
    od_derived : pd_derived p = [];
    od_quiet : forall o, In o (pd_ops p) -> quiet (pd_axioms p) (op_effs o);
    od_ordinary : forall o, In o (pd_ops p) -> ordinary_effs objects (op_effs o);
    od_reads : forall o args S, attainable S0 S -> enabled o args S -> forall a pos,
      eff_reads objects (bind_vars (op_params o) args no_env) (op_effs o) a -> ~ affects o args S pos a;
    od_clash : forall o args S, attainable S0 S -> enabled o args S -> forall a,
      ~ (affects o args S true a /\ affects o args S false a)
  }.
End Plain.

(** The text of a sequence of calls. *)
Definition printed (l : list (op * list object)) : list string :=
  map (fun x => action_to_string (fst x) (snd x)) l.
