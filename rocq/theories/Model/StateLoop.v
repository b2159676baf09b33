(** include/symbolic/utils/hash_set.h 39-95, 144-233 and state.h 64-92, 116-124:
    loops that change the State they run over.

    Iterators are a pointer to the set and two indices (hash_set.h 229-231), so
    that they see the buckets as they are now.  Insert and erase may be given a
    reference to an element of the same set: they do not look at it any more once
    they have changed the bucket (hash_set.h 67-95, unique_vector.h 79-108).
    Differences between int and size_t are left out. *)
From Coq Require Import List Bool Arith.
From Verif.Model Require Import Base Object Proposition HashSet State.
Import ListNotations.

Section WithHash.
  Context `{SH : StdHash}.

  (** for (const Proposition& p : s) s.erase(p); range-for asks for end() once,
      hash_set.h 46, 162-166, 87-95. *)
  Fixpoint erase_loop (fuel : nat) (last : pos) (s : state) (p : pos) : outcome state :=
    if pos_eqb p last then Ok s
    else match fuel with
         | O => OutOfFuel
         | S fuel' =>
             let* x := hs_deref s p in
             let s' := snd (st_erase x s) in
             erase_loop fuel' last s' (hs_next s' p)
         end.

  (** for (auto it = s.begin(); it != s.end(); ++it) s.erase( *it ), hash_set.h
      46, 162-166, 87-95. *)
  Fixpoint erase_loop_end (fuel : nat) (s : state) (p : pos) : outcome state :=
    if pos_eqb p (hs_end s) then Ok s
    else match fuel with
         | O => OutOfFuel
         | S fuel' =>
             let* x := hs_deref s p in
             let s' := snd (st_erase x s) in
             erase_loop_end fuel' s' (hs_next s' p)
         end.

  (** while (!s.empty()) s.erase( *s.begin() ), state.h 83-92. *)
  Fixpoint drain_loop (fuel : nat) (s : state) : outcome state :=
    if st_is_empty s then Ok s
    else match fuel with
         | O => OutOfFuel
         | S fuel' => let* x := hs_deref s (hs_begin s) in drain_loop fuel' (snd (st_erase x s))
         end.

  (** s.insert(s.begin(), s.end()), state.h 116-124. *)
  Fixpoint insert_loop (fuel : nat) (last : pos) (s : state) (p : pos) : outcome (bool * state) :=
    if pos_eqb p last then Ok (false, s)
    else match fuel with
         | O => OutOfFuel
         | S fuel' =>
             let* x := hs_deref s p in
             let '(c, s') := st_insert x s in
             let* ' (c', s'') := insert_loop fuel' last s' (hs_next s' p) in
             Ok (c || c', s'')
         end.

  (** const State copy = s; for (const Proposition& p : copy) s.erase(p);
      state.h 83-86. *)
  Definition erase_copy (fuel : nat) (s : state) : outcome state :=
    let* l := hs_traverse fuel s (hs_begin s) in
    Ok (fold_left (fun s x => snd (st_erase x s)) l s).
End WithHash.
