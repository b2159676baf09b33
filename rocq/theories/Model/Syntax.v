(** The abstract syntax produced by VAL, as far as /repo looks at it.
    Arguments of atoms and quantified variables are already converted to Object
    by Object::CreateList (object.h 131-143), as every user in /repo does first
    (formula.cc 52, 230; action.cc 55, 82; axiom.cc 99). *)
From Coq Require Import String List Bool.
From Verif.Model Require Import Base Object Proposition.
Import ListNotations.

(** VAL::goal: simple_goal, conj_goal, disj_goal, neg_goal, qfied_goal with
    E_FORALL / E_EXISTS; every other goal (or a null pointer) is [GOther]
    (dispatch in formula.cc 303-341). *)
Inductive goal : Set :=
| GSimple (name : string) (args : list object)
| GConj (gs : list goal)
| GDisj (gs : list goal)
| GNeg (g : goal)
| GForall (vars : list object) (g : goal)
| GExists (vars : list object) (g : goal)
| GOther.

(** VAL::effect_lists: forall_effects, add_effects, del_effects, cond_effects
    (used in action.cc 280-313).  Numeric and timed effects are ignored by /repo
    and not represented. *)
Inductive effs : Set :=
| Effs (foralls : list (list object * effs)) (adds dels : list prop)
       (conds : list (goal * effs)).

(** VAL::operator_: an action or an axiom (pddl.cc 157-187). *)
Record op : Set := mkOp {
  op_name : string;
  op_is_axiom : bool;
  op_params : list object;
  op_pre : goal;
  op_effs : effs
}.

(** formula.cc 303-341: goals for which CreateFormula does not throw. *)
Fixpoint supported (g : goal) : bool :=
  match g with
  | GSimple _ _ => true
  | GConj gs | GDisj gs => forallb supported gs
  | GNeg g => supported g
  | GForall _ g | GExists _ g => supported g
  | GOther => false
  end.

Fixpoint supported_effs (e : effs) : bool :=
  match e with
  | Effs fs _ _ cs =>
      forallb (fun f => supported_effs (snd f)) fs &&
      forallb (fun c => supported (fst c) && supported_effs (snd c)) cs
  end.
