(** include/symbolic/state.h, src/state.cc: State and PartialState.
    SYMBOLIC_STATE_USE_SET is defined (state.h 13), so a State is a HashSet. *)
From Coq Require Import String List Bool NArith Arith.
From Verif.Model Require Import Base Order HashSet Object Proposition.
Import ListNotations.

Section WithHash.
  Context `{SH : StdHash}.

  (** state.h 40-41 *)
  Definition state := hashset prop.

  (** state.h 48 *)
  Definition st_empty : state := hs_empty.
  (** state.h 56-58 *)
  Definition st_contains (s : state) (p : prop) : bool :=
    hs_contains prop_hash prop_eqb prop_ltb s p.
  (** state.h 64-65, 74-77 (insert, emplace) *)
  Definition st_insert (p : prop) (s : state) : bool * state :=
    hs_insert prop_hash prop_eqb prop_ltb p s.
  (** state.h 83 *)
  Definition st_erase (p : prop) (s : state) : bool * state :=
    hs_erase prop_hash prop_eqb prop_ltb p s.
  (** state.h 49 *)
  Definition st_of_list (l : list prop) : state :=
    hs_of_list prop_hash prop_eqb prop_ltb l.
  (** state.h 116-124, range insert *)
  Definition st_insert_range (l : list prop) (s : state) : bool * state :=
    fold_left (fun bs p => let '(c, s') := st_insert p (snd bs) in (fst bs || c, s')) l (false, s).
  (** state.h 92 *)
  Definition st_size (s : state) : nat := hsize s.
  (** state.h 91 *)
  Definition st_is_empty (s : state) : bool := Nat.eqb (st_size s) 0.
  (** state.h 102-104 *)
  Definition st_eqb (a b : state) : bool := hs_eqb prop_eqb a b.
  (** state.h 109-111 *)
  Definition st_ltb (a b : state) : bool := hs_ltb prop_ltb a b.
  (** state.h 85-86 and range-for: elements in iteration order *)
  Definition st_elements (s : state) : list prop := hs_elements s.

  (** state.cc 246-254, std::hash<State> *)
  Definition st_hash (s : state) : N :=
    fold_left (fun seed p => hash_combine seed (prop_hash p)) (st_elements s) 0%N.

  (** state.h 56, 64 and 83 called with a PropositionRef carrying a precomputed
      predicate hash [h] (proposition.h 111-116): the bucket is chosen with the
      hash of the reference and stored propositions are compared with it. *)
  Definition ref_eqb (h : N) (stored p : prop) : bool :=
    N.eqb (prop_hash stored) (prop_hash_with h p) &&
    String.eqb (pname stored) (pname p) && list_eqb obj_eqb (pargs stored) (pargs p).
  Definition st_contains_ref (h : N) (s : state) (p : prop) : bool :=
    let i := bucket_index (prop_hash_with h) (buckets s) p in
    uv_contains (ref_eqb h) prop_ltb p (nth i (buckets s) []).
  Definition st_insert_ref (h : N) (p : prop) (s : state) : bool * state :=
    let bs := buckets s in
    let i := bucket_index (prop_hash_with h) bs p in
    let '(inserted, b) := uv_insert (ref_eqb h) prop_ltb p (nth i bs []) in
    let bs' := set_nth i b bs in
    if inserted then
      let n := S (hsize s) in
      (true, mkHS (if length bs' <? n
                   then rehash prop_hash prop_eqb prop_ltb (upper_bound bs') bs' else bs') n)
    else (false, mkHS bs' (hsize s)).
  Definition st_erase_ref (h : N) (p : prop) (s : state) : bool * state :=
    let bs := buckets s in
    let i := bucket_index (prop_hash_with h) bs p in
    let '(erased, b) := uv_erase (ref_eqb h) prop_ltb p (nth i bs []) in
    let bs' := set_nth i b bs in
    if erased then
      let n := hsize s - 1 in
      (true, mkHS (if n <=? lower_limit bs'
                   then rehash prop_hash prop_eqb prop_ltb (lower_limit bs') bs' else bs') n)
    else (false, mkHS bs' (hsize s)).

  (** ** PartialState *)

  (** state.h 211-212 *)
  Record partial_state := mkPS { ps_pos : state; ps_neg : state }.

  (** state.h 142 *)
  Definition ps_empty : partial_state := mkPS st_empty st_empty.

  (** state.cc 83-87 *)
  Definition ps_contains (s : partial_state) (p : prop) : outcome bool :=
    if st_contains (ps_pos s) p then Ok true
    else if st_contains (ps_neg s) p then Ok false
    else Throw EUnknown.

  (** state.cc 88-92 *)
  Definition ps_does_not_contain (s : partial_state) (p : prop) : outcome bool :=
    if st_contains (ps_pos s) p then Ok false
    else if st_contains (ps_neg s) p then Ok true
    else Throw EUnknown.

  (** state.cc 94-104 *)
  Definition ps_insert (p : prop) (s : partial_state) : nat * partial_state :=
    let '(was_negated, neg') := st_erase p (ps_neg s) in
    let '(was_added, pos') := st_insert p (ps_pos s) in
    (Nat.b2n was_negated + Nat.b2n was_added, mkPS pos' neg').

  (** state.cc 106-116 *)
  Definition ps_erase (p : prop) (s : partial_state) : nat * partial_state :=
    let '(was_negated, pos') := st_erase p (ps_pos s) in
    let '(was_erased, neg') := st_insert p (ps_neg s) in
    (Nat.b2n was_negated + Nat.b2n was_erased, mkPS pos' neg').

  (** state.cc 118-123 *)
  Definition ps_is_consistent (s : partial_state) : bool :=
    forallb (fun p => negb (st_contains (ps_neg s) p)) (st_elements (ps_pos s)).

  (** state.h 159-160 *)
  Definition ps_size (s : partial_state) : nat := st_size (ps_pos s) + st_size (ps_neg s).
  Definition ps_is_empty (s : partial_state) : bool :=
    st_is_empty (ps_pos s) && st_is_empty (ps_neg s).

  (** state.h 196-198 *)
  Definition ps_eqb (a b : partial_state) : bool :=
    st_eqb (ps_pos a) (ps_pos b) && st_eqb (ps_neg a) (ps_neg b).

  (** state.h 204-206 *)
  Definition ps_ltb (a b : partial_state) : bool :=
    pair_ltb st_ltb st_ltb (ps_pos a) (ps_neg a) (ps_pos b) (ps_neg b).
End WithHash.
