(** Specification vocabulary for State and PartialState histories. *)
From Coq Require Import String List Bool NArith.
From Verif.Model Require Import Base HashSet Object Proposition State.
Import ListNotations.

(** A call of insert or erase. *)
Inductive set_op : Set := Ins (p : prop) | Del (p : prop).

Definition op_prop (o : set_op) : prop := match o with Ins p | Del p => p end.

(** The last call in [ops] whose argument is the atom [a] was an insert. *)
Definition last_call_inserts (ops : list set_op) (a : atom) : Prop :=
  exists before p after,
    ops = before ++ Ins p :: after /\ prop_key p = a /\
    forall o, In o after -> prop_key (op_prop o) <> a.

Definition last_call_erases (ops : list set_op) (a : atom) : Prop :=
  exists before p after,
    ops = before ++ Del p :: after /\ prop_key p = a /\
    forall o, In o after -> prop_key (op_prop o) <> a.

Section WithHash.
  Context `{SH : StdHash}.

  (** Executing calls on a State / PartialState. *)
  Definition exec_op (o : set_op) (s : state) : bool * state :=
    match o with Ins p => st_insert p s | Del p => st_erase p s end.
  Definition run_from (s : state) (ops : list set_op) : state :=
    fold_left (fun s o => snd (exec_op o s)) ops s.
  Definition run (ops : list set_op) : state := run_from st_empty ops.

  Definition exec_pop (o : set_op) (s : partial_state) : nat * partial_state :=
    match o with Ins p => ps_insert p s | Del p => ps_erase p s end.
  Definition prun_from (s : partial_state) (ops : list set_op) : partial_state :=
    fold_left (fun s o => snd (exec_pop o s)) ops s.
  Definition prun (ops : list set_op) : partial_state := prun_from ps_empty ops.

  (** What an observer can see of a state. *)
  Definition same_contents (s t : state) : Prop := forall p, st_contains s p = st_contains t p.
End WithHash.

(** Strict total order whose equality is [eqb]. *)
Record strict_total_order {A} (eqb ltb : A -> A -> bool) : Prop := {
  sto_irrefl : forall x, ltb x x = false;
  sto_trans : forall x y z, ltb x y = true -> ltb y z = true -> ltb x z = true;
  sto_trichotomy : forall x y,
    (ltb x y = true /\ ltb y x = false /\ eqb x y = false) \/
    (ltb x y = false /\ ltb y x = true /\ eqb x y = false) \/
    (ltb x y = false /\ ltb y x = false /\ eqb x y = true)
}.
