(** src/state.cc 94-98, 106-110: PartialState::insert and erase given a reference to
    a literal of the same PartialState, as in s.insert( *s.neg().begin() ).

    Both functions use their argument a second time after the first set has been
    changed.  A reference is a place in the buckets (HashSet.v, pos): while the
    number of buckets stays, std::vector::erase moves the elements behind the erased
    one down by one (unique_vector.h 101-108), so that the reference shows what is at
    its place now; Rehash frees all the old buckets unless their number stays
    (hash_set.h 127-142).  Only the overloads for const references are modelled; the
    ones for Proposition&& need a reference to a non-const element. *)
From Coq Require Import List Bool Arith.
From Verif.Model Require Import Base Object Proposition HashSet State.
Import ListNotations.

Section WithHash.
  Context `{SH : StdHash}.

  (** What a reference to place p of s shows once s has become s', hash_set.h
      127-142, unique_vector.h 101-108. *)
  Definition ref_after (s s' : state) (p : pos) : outcome prop :=
    if length (buckets s') =? length (buckets s) then hs_deref s' p else UB.

  (** s.insert(x), x a reference to place p of s.neg(), state.cc 94-98. *)
  Definition ps_insert_neg (p : pos) (s : partial_state) : outcome (nat * partial_state) :=
    let* x := hs_deref (ps_neg s) p in
    let '(was_negated, neg') := st_erase x (ps_neg s) in
    let* y := ref_after (ps_neg s) neg' p in
    let '(was_added, pos') := st_insert y (ps_pos s) in
    Ok (Nat.b2n was_negated + Nat.b2n was_added, mkPS pos' neg').

  (** s.erase(x), x a reference to place p of s.pos(), state.cc 106-110. *)
  Definition ps_erase_pos (p : pos) (s : partial_state) : outcome (nat * partial_state) :=
    let* x := hs_deref (ps_pos s) p in
    let '(was_negated, pos') := st_erase x (ps_pos s) in
    let* y := ref_after (ps_pos s) pos' p in
    let '(was_erased, neg') := st_insert y (ps_neg s) in
    Ok (Nat.b2n was_negated + Nat.b2n was_erased, mkPS pos' neg').

  (** s.insert(x), x a reference to place p of s.pos(), state.cc 94-98: neg_.erase
      leaves pos_ alone, so the reference stays good until pos_.insert. *)
  Definition ps_insert_pos (p : pos) (s : partial_state) : outcome (nat * partial_state) :=
    let* x := hs_deref (ps_pos s) p in
    let '(was_negated, neg') := st_erase x (ps_neg s) in
    let* y := hs_deref (ps_pos s) p in
    let '(was_added, pos') := st_insert y (ps_pos s) in
    Ok (Nat.b2n was_negated + Nat.b2n was_added, mkPS pos' neg').

  (** s.erase(x), x a reference to place p of s.neg(), state.cc 106-110. *)
  Definition ps_erase_neg (p : pos) (s : partial_state) : outcome (nat * partial_state) :=
    let* x := hs_deref (ps_neg s) p in
    let '(was_negated, pos') := st_erase x (ps_pos s) in
    let* y := hs_deref (ps_neg s) p in
    let '(was_erased, neg') := st_insert y (ps_neg s) in
    Ok (Nat.b2n was_negated + Nat.b2n was_erased, mkPS pos' neg').
End WithHash.
