(** Effects executed one after another on sets of atoms. *)
From Coq Require Import String List Bool.
From Verif.Model Require Import Base Object Proposition Syntax Formula Effects.
From Verif.Spec Require Import TypingSpec FormulaSpec EffectSpec.
Import ListNotations.
Local Open Scope string_scope.
Local Open Scope list_scope.

Definition put (a : atom) (S : atom -> Prop) : atom -> Prop := fun x => x = a \/ S x.
Definition take (a : atom) (S : atom -> Prop) : atom -> Prop := fun x => x <> a /\ S x.
Definition inst (env : assignment) (p : prop) : atom := (pname p, map oname (map (denote env) (pargs p))).

(** First the forall effects, for all tuples of objects in the order of
    declaration, then the added and the deleted literals, then the conditional
    effects, each condition in the set reached so far. *)
Fixpoint in_sequence (objects : list object) (env : assignment) (e : effs) (S : atom -> Prop) : atom -> Prop :=
  match e with
  | Effs fs adds dels cs =>
      let S1 := fold_left (fun S f =>
                  fold_left (fun S objs => in_sequence objects (bind_vars (fst f) objs env) (snd f) S)
                    (tuples objects (fst f)) S) fs S in
      let S2 := fold_left (fun S p => put (inst env p) S) adds S1 in
      let S3 := fold_left (fun S p => take (inst env p) S) dels S2 in
      fold_left (fun S c => fun a =>
                   (holds objects S env (fst c) /\ in_sequence objects env (snd c) S a) \/
                   (~ holds objects S env (fst c) /\ S a)) cs S3
  end.

(** ** Two-state description of one forall effect with plain literals: the last
    tuple that mentions the atom decides; within a tuple deletion comes last. *)
Definition last_word (objects : list object) (env : assignment) (vars : list object) (adds dels : list prop)
    (S : atom -> Prop) (a : atom) : Prop :=
  let adds_at objs := exists p, In p adds /\ a = inst (bind_vars vars objs env) p in
  let dels_at objs := exists p, In p dels /\ a = inst (bind_vars vars objs env) p in
  (exists l1 objs l2, tuples objects vars = l1 ++ objs :: l2 /\ adds_at objs /\ ~ dels_at objs /\
     forall objs', In objs' l2 -> ~ dels_at objs') \/
  (S a /\ forall objs, In objs (tuples objects vars) -> ~ dels_at objs).
