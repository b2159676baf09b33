(** include/symbolic/state.h 272-273 and 296-388: iterators over StateIndexes. *)
From Coq Require Import String List Bool ZArith.
From Verif.Model Require Import Base Object Proposition CombinationGenerator StateIndex.
Import ListNotations.
Local Open Scope Z_scope.
Local Open Scope list_scope.

(** 385-387: the StateIndex (indexes are named by numbers), the position, and the
    Proposition that references point to. *)
Record x_iter : Type := mkXIter { x_of : nat; x_idx : Z; x_prop : prop }.

(** Named iterators of a program and the caches of the indexes. *)
Record x_world : Type := mkXWorld { x_caches : list caches; x_iters : list x_iter }.

(** [XPlus] is it + n, [XPost] it++ (n = 1) and it-- (n = -1); these and [XCopy]
    give a new iterator.  [XDeref] binds a reference to *it.  [XPlusDeref] binds a
    reference to *(it + n), [XReverse] to *std::reverse_iterator(it). *)
Inductive x_op : Set :=
| XBegin (k : nat)
| XEnd (k : nat)
| XCopy (i : nat)
| XMove (i : nat) (n : Z)
| XBack (i : nat) (n : Z)
| XPlus (i : nat) (n : Z)
| XPost (i : nat) (n : Z)
| XDeref (i : nat)
| XPlusDeref (i : nat) (n : Z)
| XReverse (i : nat)
| XRead (r : option nat)
| XAt (i : nat) (n : Z)
| XDiff (i j : nat)
| XEq (i j : nat)
| XNe (i j : nat)
| XLt (i j : nat)
| XGt (i j : nat)
| XLe (i j : nat)
| XGe (i j : nat).

(** A reference into a named iterator, or into one that is gone. *)
Inductive x_result : Type :=
| XDone
| XIter (i : nat)
| XRef (r : option nat)
| XProp (p : prop)
| XBool (b : bool)
| XNumber (n : Z).

(** Proposition of a new iterator (proposition.h 69).  Its hash_ is not initialized;
    that copies of a new iterator copy it is treated as harmless. *)
Definition no_prop : prop := mkProp "" [].

(** 357-360, operator+=: the sum is a ptrdiff_t, stored in an int. *)
Definition x_plus (n : Z) (it : x_iter) : outcome x_iter :=
  let s := x_idx it + n in
  if (- 2 ^ 63 <=? s) && (s <? 2 ^ 63) then Ok (mkXIter (x_of it) (to_int s) (x_prop it)) else UB.

Section WithIndexes.
  Context (indexes : list state_index).

  (** The named objects of a program; names that do not exist do not occur. *)
  Definition x_iter_at (w : x_world) (i : nat) : outcome x_iter :=
    match nth_error (x_iters w) i with Some it => Ok it | None => Throw EInvalidArgument end.
  Definition x_index (k : nat) : outcome state_index :=
    match nth_error indexes k with Some si => Ok si | None => Throw EInvalidArgument end.

  (** 272-273 and 307-308 *)
  Definition x_new (w : x_world) (it : x_iter) : x_result * x_world :=
    (XIter (length (x_iters w)), mkXWorld (x_caches w) (x_iters w ++ [it])).

  (** 319-327: GetProposition takes a size_t. *)
  Definition x_get (w : x_world) (it : x_iter) : outcome (prop * list caches) :=
    let* si := x_index (x_of it) in
    match nth_error (x_caches w) (x_of it) with
    | None => Throw EInvalidArgument
    | Some c =>
        match get_proposition si (to_size_t (x_idx it)) c with
        | (Ok p, c') => Ok (p, set_nth (x_of it) c' (x_caches w))
        | (e, _) => failed e
        end
    end.

  (** 329-331, 345-347, 351-353 *)
  Definition x_eqb (a b : x_iter) : bool := Nat.eqb (x_of a) (x_of b) && (x_idx a =? x_idx b).
  Definition x_ltb (a b : x_iter) : bool := Nat.eqb (x_of a) (x_of b) && (x_idx a <? x_idx b).
  Definition x_leb (a b : x_iter) : bool := Nat.eqb (x_of a) (x_of b) && (x_idx a <=? x_idx b).

  (** 311-382.  The int difference of 378-380 must fit. *)
  Definition x_step (o : x_op) (w : x_world) : outcome (x_result * x_world) :=
    let set i it w := mkXWorld (x_caches w) (set_nth i it (x_iters w)) in
    let compare f i j :=
      let* a := x_iter_at w i in let* b := x_iter_at w j in Ok (XBool (f a b), w) in
    match o with
    | XBegin k => let* _ := x_index k in Ok (x_new w (mkXIter k 0 no_prop))
    | XEnd k => let* si := x_index k in Ok (x_new w (mkXIter k (to_int (si_size si)) no_prop))
    | XCopy i => let* it := x_iter_at w i in Ok (x_new w it)
    | XMove i n => let* it := x_iter_at w i in let* it' := x_plus n it in Ok (XDone, set i it' w)
    | XBack i n =>
        let* it := x_iter_at w i in
        let* it' := if n =? - 2 ^ 63 then UB else x_plus (- n) it in Ok (XDone, set i it' w)
    | XPlus i n => let* it := x_iter_at w i in let* it' := x_plus n it in Ok (x_new w it')
    | XPost i n =>
        let* it := x_iter_at w i in
        let* it' := x_plus n it in Ok (x_new (set i it' w) it)
    | XDeref i =>
        let* it := x_iter_at w i in
        let* ' (p, cs) := x_get w it in
        Ok (XRef (Some i), mkXWorld cs (set_nth i (mkXIter (x_of it) (x_idx it) p) (x_iters w)))
    | XPlusDeref i n =>
        let* it := x_iter_at w i in
        let* it' := x_plus n it in
        let* ' (_, cs) := x_get w it' in Ok (XRef None, mkXWorld cs (x_iters w))
    | XReverse i =>
        let* it := x_iter_at w i in
        let* it' := x_plus (-1) it in
        let* ' (_, cs) := x_get w it' in Ok (XRef None, mkXWorld cs (x_iters w))
    | XRead None => UB
    | XRead (Some i) => let* it := x_iter_at w i in Ok (XProp (x_prop it), w)
    | XAt i n =>
        let* it := x_iter_at w i in
        let* it' := x_plus n it in
        let* ' (p, cs) := x_get w it' in Ok (XProp p, mkXWorld cs (x_iters w))
    | XDiff i j =>
        let* a := x_iter_at w i in
        let* b := x_iter_at w j in
        let d := x_idx a - x_idx b in
        if (- 2 ^ 31 <=? d) && (d <? 2 ^ 31) then Ok (XNumber d, w) else UB
    | XEq i j => compare x_eqb i j
    | XNe i j => compare (fun a b => negb (x_eqb a b)) i j
    | XLt i j => compare x_ltb i j
    | XGt i j => compare (fun a b => x_ltb b a) i j
    | XLe i j => compare x_leb i j
    | XGe i j => compare (fun a b => x_leb b a) i j
    end.

  (** A program, 311-382: its operations one after the other. *)
  Fixpoint x_run (ops : list x_op) (w : x_world) : outcome (list x_result * x_world) :=
    match ops with
    | [] => Ok ([], w)
    | o :: ops' =>
        let* ' (r, w') := x_step o w in
        let* ' (rs, w'') := x_run ops' w' in
        Ok (r :: rs, w'')
    end.
End WithIndexes.
