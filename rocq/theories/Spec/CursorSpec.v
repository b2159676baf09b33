(** Positions of an iterator that is stepped back and forth. *)
From Coq Require Import List Bool ZArith String.
From Verif.Model Require Import Object Syntax Pddl.
From Verif.Spec Require Import TypingSpec.
Import ListNotations.

(** ++ is true, -- is false. *)
Definition moved (start : Z) (bs : list bool) : Z :=
  fold_left (fun z (b : bool) => if b then z + 1 else z - 1)%Z bs start.

(** No prefix of the steps leaves [0, len]. *)
Definition stays_within (start : Z) (bs : list bool) (len : nat) : Prop :=
  forall k, (k <= List.length bs)%nat -> (0 <= moved start (firstn k bs) <= Z.of_nat len)%Z.

(** Every action has a tuple of arguments, and each of its parameters except
    the first has at least two objects to choose from. *)
Definition steppable (p : pddl) : Prop :=
  forall o, In o (pd_ops p) -> op_is_axiom o = false ->
    op_params o <> [] /\
    Forall (fun v => objects_of (pd_symbols p) (type_name (otype v)) <> []) (op_params o) /\
    Forall (fun v => (2 <= List.length (objects_of (pd_symbols p) (type_name (otype v))))%nat) (tl (op_params o)).
