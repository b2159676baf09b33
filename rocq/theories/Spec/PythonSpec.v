(** Domains whose states can be written as text and read back, and plans as loops
    over sets of strings. *)
From Coq Require Import Ascii String List Bool.
From Verif.Model Require Import Base Object Proposition State Syntax Effects Derived Pddl Python.
From Verif.Spec Require Import SetSpec TypingSpec FormulaSpec EffectSpec NormalFormSpec AxiomSpec TextSpec PddlSpec.
Import ListNotations.

(** The literals of the effects are about declared objects, and their names have
    no parenthesis. *)
Definition text_effs (objects : list object) (e : effs) : Prop :=
  declared_effs objects e /\ forall x, In x (eff_sigs e) -> free_of "("%char (snd x).

(** What the parser of VAL ensures, and the restriction of axioms of AxiomSpec. *)
Record text_domain (p : pddl) : Prop := {
  td_words : Forall word (map oname (pd_symbols p));
  td_const : Forall (fun o => okind o = KConst) (pd_symbols p);
  td_ops : Forall (fun o => text_effs (pd_symbols p) (op_effs o)) (pd_ops p);
  td_axioms : Forall (fun a => text_effs (pd_symbols p) (op_effs (ax_op a))) (pd_axioms p);
  td_wf : Forall (wf_axiom (pd_symbols p)) (pd_axioms p);
  td_derived : Forall (fun d => free_of "("%char (dp_name d)) (pd_derived p)
}.

(** The same set of strings, listed differently. *)
Definition same_strings (l l' : list string) : Prop := forall x, In x l <-> In x l'.

Section WithHash.
  Context `{SH : StdHash}.

  (** The State consists of propositions over the declared objects. *)
  Definition over (objects : list object) (s : state) : Prop :=
    built s /\ forall q, In q (st_elements s) ->
      free_of "("%char (pname q) /\ Forall (fun o => In o objects) (pargs q).
  Definition over_partial (objects : list object) (s : partial_state) : Prop :=
    over objects (ps_pos s) /\ over objects (ps_neg s).

  (** A plan checked one action at a time on sets of strings, which Python may
      list in another order every time. *)
  Inductive py_plan (L : limits) (p : pddl) : list string -> list string -> store -> Prop :=
  | pp_goal strs st : is_goal_satisfied p strs = Ok true -> py_plan L p [] strs st
  | pp_call call calls strs st strs1 st' strs' : py_is_valid_action p strs call = Ok true ->
      py_next_state L p strs call st = Ok (strs1, st') -> same_strings strs' strs1 ->
      py_plan L p calls strs' st' -> py_plan L p (call :: calls) strs st.
End WithHash.
