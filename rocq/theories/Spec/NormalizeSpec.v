(** Normal forms of an action and of the goal, with axioms applied. *)
From Coq Require Import String List Bool.
From Verif.Model Require Import Base Object Proposition State Syntax Effects NormalForm Consistency Pddl.
From Verif.Spec Require Import SetSpec TypingSpec FormulaSpec EffectSpec NormalFormSpec AxiomSpec.
Import ListNotations.

Section WithHash.
  Context `{SH : StdHash}.

  (** The State satisfies the axioms of the domain, as IsValidState says. *)
  Definition accepted (p : pddl) (s : state) : Prop :=
    built s /\ exists fuel st, is_valid_state (pd_om p) (pd_axioms p) fuel s st = Ok true.

  (** [c'] is a consistent partial state closed under the axioms with the same
      accepted completions as [c]. *)
  Record closure (L : limits) (p : pddl) (c c' : partial_state) : Prop := {
    cl_built : pbuilt c';
    cl_valid : forall st n, is_valid_partial (pd_om p) (pd_axioms p) (l_cascade L) (S n) (c', st) = Ok true;
    cl_stable : forall st, consistent_partial (pd_om p) (pd_axioms p) (l_cascade L) (c', st) = Ok (c', st);
    cl_keeps : forall s, accepted p s -> completes s c -> completes s c' /\ extends c c';
    cl_extends : (forall a, In a (pd_axioms p) -> quiet (pd_axioms p) (op_effs (ax_op a))) -> extends c c'
  }.

  (** One of the conjunctions is completed by the State; none and [] as in
      NormalFormSpec. *)
  Definition meets (s : state) (r : option dnf) : Prop :=
    match r with
    | None => False
    | Some d => d = [] \/ exists c, In c d /\ completes s c
    end.

  Definition each {A} (R : A -> A -> Prop) (r r' : option (list A)) : Prop :=
    match r, r' with
    | None, None => True
    | Some d, Some d' => Forall2 R d d'
    | _, _ => False
    end.
End WithHash.

(** The axioms have parameters, triggers and types as in AxiomSpec. *)
Record plain_axioms (p : pddl) (sig : string -> list string) : Prop := {
  pa_const : Forall (fun o => okind o = KConst) (pd_symbols p);
  pa_wf : Forall (wf_axiom (pd_symbols p)) (pd_axioms p);
  pa_typed : Forall (typed_axiom (pd_symbols p) sig) (pd_axioms p)
}.
