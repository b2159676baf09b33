(** First-order semantics of goals, independent of the evaluator. *)
From Coq Require Import String List Bool ZArith.
From Verif.Model Require Import Base Object Proposition State Syntax Formula.
From Verif.Spec Require Import SetSpec TypingSpec.
Import ListNotations.
Local Open Scope string_scope.

(** Values of variables by name. *)
Definition assignment := string -> object.

Definition bind_vars (vars objs : list object) (e : assignment) : assignment :=
  fold_left (fun e vo n => if String.eqb n (oname (fst vo)) then snd vo else e n)
    (combine vars objs) e.

(** Value of an argument: constants denote themselves. *)
Definition denote (e : assignment) (x : object) : object :=
  match okind x with KConst => x | KVar _ => e (oname x) end.

(** Some declared object has the type. *)
Definition is_type (objects : list object) (name : string) : Prop :=
  exists o, In o objects /\ has_type o name.

(** Truth of a ground atom. [S] is the set of atoms that hold. *)
Definition atom_holds (objects : list object) (S : atom -> Prop) (name : string)
    (args : list object) : Prop :=
  (name = "=" /\ exists a b, args = [a; b] /\ oname a = oname b) \/
  (name <> "=" /\ is_type objects name /\ exists a, args = [a] /\ has_type a name) \/
  (name <> "=" /\ ~ is_type objects name /\ S (name, map oname args)).

Fixpoint holds (objects : list object) (S : atom -> Prop) (e : assignment) (g : goal) : Prop :=
  match g with
  | GSimple name args => atom_holds objects S name (map (denote e) args)
  | GConj gs => (fix all gs := match gs with [] => True | g :: gs' => holds objects S e g /\ all gs' end) gs
  | GDisj gs => (fix any gs := match gs with [] => False | g :: gs' => holds objects S e g \/ any gs' end) gs
  | GNeg g => ~ holds objects S e g
  | GForall vars g => forall objs, well_typed objects vars objs -> holds objects S (bind_vars vars objs e) g
  | GExists vars g => exists objs, well_typed objects vars objs /\ holds objects S (bind_vars vars objs e) g
  | GOther => False
  end.

(** Formulas of the supported fragment: variables are bound, constants do not
    have the name of a variable in scope, quantifiers bind something, = and type
    predicates have the right number of arguments, tuples can be counted. *)
Definition arg_ok (scope : list string) (x : object) : Prop :=
  match okind x with KConst => ~ In (oname x) scope | KVar _ => In (oname x) scope end.

Definition arity_ok (objects : list object) (name : string) (args : list object) : Prop :=
  (name = "=" -> length args = 2) /\ (name <> "=" -> is_type objects name -> length args = 1).

Fixpoint wf_goal (objects : list object) (scope : list string) (g : goal) : Prop :=
  match g with
  | GSimple name args => Forall (arg_ok scope) args /\ arity_ok objects name args
  | GConj gs | GDisj gs =>
      (fix all gs := match gs with [] => True | g :: gs' => wf_goal objects scope g /\ all gs' end) gs
  | GNeg g => wf_goal objects scope g
  | GForall vars g | GExists vars g =>
      vars <> [] /\ (tuple_count objects vars < 2 ^ 31)%Z /\
      wf_goal objects (scope ++ map oname vars)%list g
  | GOther => False
  end.

(** The ground atoms the truth of a goal depends on. *)
Fixpoint relevant (objects : list object) (e : assignment) (g : goal) (a : atom) : Prop :=
  match g with
  | GSimple name args =>
      name <> "=" /\ ~ is_type objects name /\ a = (name, map oname (map (denote e) args))
  | GConj gs | GDisj gs =>
      (fix any gs := match gs with [] => False | g :: gs' => relevant objects e g a \/ any gs' end) gs
  | GNeg g => relevant objects e g a
  | GForall vars g | GExists vars g =>
      exists objs, well_typed objects vars objs /\ relevant objects (bind_vars vars objs e) g a
  | GOther => False
  end.

Section WithHash.
  Context `{SH : StdHash}.

  (** States and partial states obtained through the public operations. *)
  Definition built (s : state) : Prop := exists ops, s = run ops.
  Definition pbuilt (s : partial_state) : Prop :=
    built (ps_pos s) /\ built (ps_neg s) /\ ps_is_consistent s = true.

  (** The atoms of a state. *)
  Definition atoms (s : state) (a : atom) : Prop :=
    exists p, prop_key p = a /\ st_contains s p = true.

  (** [s] completes [ps]: all positive and no negative propositions. *)
  Definition completes (s : state) (ps : partial_state) : Prop :=
    (forall p, st_contains (ps_pos ps) p = true -> st_contains s p = true) /\
    (forall p, st_contains (ps_neg ps) p = true -> st_contains s p = false).

  (** [b] knows at least as much as [a]. *)
  Definition extends (a b : partial_state) : Prop :=
    (forall p, st_contains (ps_pos a) p = true -> st_contains (ps_pos b) p = true) /\
    (forall p, st_contains (ps_neg a) p = true -> st_contains (ps_neg b) p = true).

  (** The truth value of the atom is known. *)
  Definition knows (s : partial_state) (a : atom) : Prop := atoms (ps_pos s) a \/ atoms (ps_neg s) a.

  (** What earlier calls of the same Formula object leave behind: the closures
      are called on any states with any arguments. *)
  Definition after_calls (f : cform) (calls : list (state * list object)) (b : btree) : btree :=
    fold_left (fun b c => snd (call_state f (fst c) (snd c) b)) calls b.
  Definition after_partial_calls (f : cform) (calls : list (partial_state * list object)) (b : btree) : btree :=
    fold_left (fun b c => snd (call_partial f (fst c) (snd c) b)) calls b.
End WithHash.
