(** What axioms mean: implications that a state satisfies or not. *)
From Coq Require Import String List Bool NArith ZArith Arith.
From Verif.Model Require Import Base Object Proposition State ParameterGenerator Syntax Formula Effects.
From Verif.Spec Require Import SetSpec TypingSpec FormulaSpec EffectSpec NormalFormSpec.
Import ListNotations.
Local Open Scope string_scope.
Local Open Scope list_scope.

(** The axiom as an implication, for all objects of the parameters' types; [post]
    is the effect read as a formula. *)
Definition respects (objects : list object) (S : atom -> Prop) (a : axiom) : Prop :=
  forall args, well_typed objects (op_params (ax_op a)) args ->
    let env := bind_vars (op_params (ax_op a)) args no_env in
    holds objects S env (op_pre (ax_op a)) -> post objects S env (op_effs (ax_op a)).

(** Axioms of the supported fragment. *)
Record wf_axiom (objects : list object) (a : axiom) : Prop := {
  wa_context : extract_context (ax_op a) = Ok a;
  wa_params : op_params (ax_op a) <> [];
  wa_count : (tuple_count objects (op_params (ax_op a)) < 2 ^ 31)%Z;
  wa_pre : wf_goal objects (map oname (op_params (ax_op a))) (op_pre (ax_op a));
  wa_effs : wf_effs objects (map oname (op_params (ax_op a))) (op_effs (ax_op a))
}.

(** ** Typing of predicates

    [sig] gives the types of the arguments of a predicate. *)
Definition arg_typed (objects scope : list object) (x : object) (ty : string) : Prop :=
  match okind x with
  | KConst => In x objects /\ has_type x ty
  | KVar _ => forall v o, In v scope -> oname v = oname x -> In o objects ->
                has_type o (type_name (otype v)) -> has_type o ty
  end.

Fixpoint typed_effs (objects : list object) (sig : string -> list string) (scope : list object) (e : effs)
    : Prop :=
  match e with
  | Effs fs adds dels cs =>
      (fix all fs := match fs with
                     | [] => True
                     | (vars, b) :: fs' => typed_effs objects sig (scope ++ vars) b /\ all fs'
                     end) fs /\
      Forall (fun p => Forall2 (arg_typed objects scope) (pargs p) (sig (pname p))) adds /\
      Forall (fun p => Forall2 (arg_typed objects scope) (pargs p) (sig (pname p))) dels /\
      (fix all cs := match cs with
                     | [] => True
                     | (_, b) :: cs' => typed_effs objects sig scope b /\ all cs'
                     end) cs
  end.

(** The context of an axiom admits every object the predicate admits. *)
Definition general_context (objects : list object) (sig : string -> list string) (a : axiom) : Prop :=
  Forall2 (fun x ty => forall p o, In p (op_params (ax_op a)) -> oname p = oname x ->
             In o objects -> has_type o ty -> has_type o (type_name (otype p)))
    (ax_args a) (sig (ax_name a)).

Definition typed_axiom (objects : list object) (sig : string -> list string) (a : axiom) : Prop :=
  typed_effs objects sig (op_params (ax_op a)) (op_effs (ax_op a)) /\ general_context objects sig a.

(** ** Partial states *)
Section WithHash.
  Context `{SH : StdHash}.

  (** The atom changed from false to true ([pos]) or from true to false. *)
  Definition flipped (ps ps' : partial_state) (pos : bool) (a : atom) : Prop :=
    if pos then atoms (ps_neg ps) a /\ atoms (ps_pos ps') a
    else atoms (ps_pos ps) a /\ atoms (ps_neg ps') a.
End WithHash.

(** Some axiom has a literal that triggers another axiom with the literal. *)
Definition cascade_literal (axioms : list axiom) (pos : bool) (name : string) : Prop :=
  exists a b, In a axioms /\ In b axioms /\
    In (ax_pos b, ax_name b) (eff_sigs (op_effs (ax_op a))) /\
    In (pos, name) (eff_sigs (op_effs (ax_op b))).

(** Atoms that effects of the axioms may speak about: a predicate of an effect
    literal applied to names of objects. *)
Definition effect_atom (objects : list object) (ar : string -> nat) (axioms : list axiom) (a : atom) : Prop :=
  (exists x pos, In x axioms /\ In (pos, fst a) (eff_sigs (op_effs (ax_op x)))) /\
  length (snd a) = ar (fst a) /\ incl (snd a) (map oname objects).

Section WithHash2.
  Context `{SH : StdHash}.

  (** [U] lists at least the effect atoms that the partial state does not know. *)
  Definition lists_unknown (objects : list object) (ar : string -> nat) (axioms : list axiom) (ps : partial_state)
      (U : list atom) : Prop :=
    forall a, effect_atom objects ar axioms a -> knows ps a \/ In a U.
End WithHash2.
