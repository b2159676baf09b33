(** Cartesian products, independent of the generator. *)
From Coq Require Import List Bool ZArith.
Import ListNotations.

Section Cart.
  Context {A : Type}.

  (** All combinations, lexicographic in the positions of the options. *)
  Fixpoint cart (options : list (list A)) : list (list A) :=
    match options with
    | [] => [[]]
    | o :: os => flat_map (fun x => map (cons x) (cart os)) o
    end.

  (** Number of combinations. *)
  Fixpoint product (options : list (list A)) : Z :=
    match options with [] => 1 | o :: os => Z.of_nat (length o) * product os end.

  (** Options a generator accepts and whose indices fit an int. *)
  Definition good_options (options : list (list A)) : Prop :=
    options <> [] /\ Forall (fun o => o <> []) options /\ (product options < 2 ^ 31)%Z.

  (** Combination at a position. *)
  Definition combination_at (options : list (list A)) (i : Z) : option (list A) :=
    if (i <? 0)%Z then None else nth_error (cart options) (Z.to_nat i).

  (** The digits of a position; beyond the last combination the first digit is
      too large. *)
  Fixpoint digits (options : list (list A)) (i : Z) : list Z :=
    match options with
    | [] => []
    | _ :: os => (i / product os)%Z :: digits os (i mod product os)%Z
    end.
  Definition digit_at options k i : Z := nth k (digits options i) 0%Z.

  (** The positions visited by moves, the last one first. *)
  Definition positions (start : Z) (ns : list Z) : list Z :=
    fold_left (fun ps n => (hd 0 ps + n)%Z :: ps) ns [start].

  (** The last position at which slot [k] was written if a slot is written only
      at positions that exist, and when its digit differs from the digit of the
      position just left. *)
  Fixpoint written (options : list (list A)) (k : nat) (ps : list Z) : option Z :=
    match ps with
    | [] => None
    | p :: rest =>
        if ((0 <=? p) && (p <? product options) &&
            match rest with [] => true | q :: _ => negb (digit_at options k q =? digit_at options k p) end)%Z%bool
        then Some p else written options k rest
    end.

  (** A combination whose slots with a single choice, except the first, are
      [dflt]. *)
  Fixpoint blank (dflt : A) (options : list (list A)) (c : list A) : list A :=
    match options, c with
    | o :: os, x :: xs => (if Nat.eqb (length o) 1 then dflt else x) :: blank dflt os xs
    | _, _ => c
    end.
  Definition blank_tail (dflt : A) (options : list (list A)) (c : list A) : list A :=
    match options, c with
    | _ :: os, x :: xs => x :: blank dflt os xs
    | _, _ => c
    end.
End Cart.
