(** include/symbolic/utils/unique_vector.h and
    include/symbolic/utils/hash_set.h. *)
From Coq Require Import List NArith Bool Arith ZArith.
From Verif.Model Require Import Base Order.
Import ListNotations.

Section HashSet.
  Context {T : Type}.
  Variable hash : T -> N.               (* std::hash<T> *)
  Variable eqb : T -> T -> bool.        (* operator== on T *)
  Variable ltb : T -> T -> bool.        (* operator<  on T *)

  (** ** UniqueVector *)

  (** [std::lower_bound] as used in unique_vector.h 75, 83, 93, 104: position
      of the first element that is not [< x].  Simplification: the binary
      search is replaced by its contract on sorted ranges; UniqueVector.v has
      the search and the asserts, and [C72_hash_set] says that they agree. *)
  Fixpoint lower_bound (x : T) (v : list T) : nat :=
    match v with
    | [] => 0
    | y :: v' => if ltb y x then S (lower_bound x v') else 0
    end.

  (** unique_vector.h 71-77 *)
  Definition uv_contains (x : T) (v : list T) : bool :=
    match nth_error v (lower_bound x v) with
    | Some y => eqb y x
    | None => false
    end.

  (** unique_vector.h 79-98 (both overloads) *)
  Definition uv_insert (x : T) (v : list T) : bool * list T :=
    let i := lower_bound x v in
    let changed := (true, firstn i v ++ x :: skipn i v) in
    match nth_error v i with
    | Some y => if eqb y x then (false, v) else changed
    | None => changed
    end.

  (** unique_vector.h 100-108 *)
  Definition uv_erase (x : T) (v : list T) : bool * list T :=
    let i := lower_bound x v in
    match nth_error v i with
    | Some y => if eqb y x then (true, firstn i v ++ skipn (S i) v) else (false, v)
    | None => (false, v)
    end.

  (** ** HashSet *)

  (** hash_set.h 141-142: the data members. *)
  Record hashset := mkHS { buckets : list (list T); hsize : nat }.

  (** hash_set.h 21, 33: one empty bucket. *)
  Definition hs_empty : hashset := mkHS [[]] 0.

  (** hash_set.h 114-123, GetBucket: index of the bucket of [x].
      Simplification: a moved-from HashSet (zero buckets, modulo by zero) is
      not a value here; UniqueVector.v has it. *)
  Definition bucket_index (bs : list (list T)) (x : T) : nat :=
    N.to_nat (N.modulo (hash x) (N.of_nat (length bs))).

  (** hash_set.h 63-66 *)
  Definition hs_contains (s : hashset) (x : T) : bool :=
    uv_contains x (nth (bucket_index (buckets s) x) (buckets s) []).

  (** hash_set.h 134, body of the inner loop of Rehash. *)
  Definition bucket_add (bs : list (list T)) (x : T) : list (list T) :=
    let i := bucket_index bs x in
    set_nth i (snd (uv_insert x (nth i bs []))) bs.

  (** hash_set.h 125-139 *)
  Definition rehash (n : nat) (bs : list (list T)) : list (list T) :=
    if n =? length bs then bs
    else fold_left bucket_add (concat bs) (repeat [] n).

  (** hash_set.h 109 *)
  Definition upper_bound (bs : list (list T)) : nat := 2 * length bs + 1.

  (** hash_set.h 110-112 *)
  Definition lower_limit (bs : list (list T)) : nat :=
    Nat.max 1 ((length bs - 1) / 2).

  (** hash_set.h 67-85 (both overloads) *)
  Definition hs_insert (x : T) (s : hashset) : bool * hashset :=
    let bs := buckets s in
    let i := bucket_index bs x in
    let '(inserted, b) := uv_insert x (nth i bs []) in
    let bs' := set_nth i b bs in
    if inserted then
      let n := S (hsize s) in
      (true, mkHS (if length bs' <? n then rehash (upper_bound bs') bs' else bs') n)
    else (false, mkHS bs' (hsize s)).

  (** hash_set.h 87-95 *)
  Definition hs_erase (x : T) (s : hashset) : bool * hashset :=
    let bs := buckets s in
    let i := bucket_index bs x in
    let '(erased, b) := uv_erase x (nth i bs []) in
    let bs' := set_nth i b bs in
    if erased then
      let n := hsize s - 1 in
      (true, mkHS (if n <=? lower_limit bs' then rehash (lower_limit bs') bs' else bs') n)
    else (false, mkHS bs' (hsize s)).

  (** hash_set.h 35-39, initializer-list constructor. *)
  Definition hs_of_list (l : list T) : hashset :=
    fold_left (fun s x => snd (hs_insert x s)) l hs_empty.

  (** hash_set.h 97-99 *)
  Definition hs_eqb (a b : hashset) : bool :=
    list_eqb (list_eqb eqb) (buckets a) (buckets b).

  (** hash_set.h 104-106 *)
  Definition hs_ltb (a b : hashset) : bool :=
    lex_ltb (lex_ltb ltb) (buckets a) (buckets b).

  (** ** const_iterator / iterator (hash_set.h 144-322) *)

  (** hash_set.h 154-159: position (bucket, index in bucket). *)
  Definition pos := (nat * nat)%type.

  (** hash_set.h 205-218, FindNextElement; [rest] are the buckets from
      [ib] on.  Result of the while loop. *)
  Fixpoint find_next (rest : list (list T)) (ib ii : nat) : pos :=
    match rest with
    | [] => (ib, 0)
    | b :: rest' => if length b <=? ii then find_next rest' (S ib) 0 else (ib, ii)
    end.

  (** hash_set.h 48-52 *)
  Definition hs_begin (s : hashset) : pos := find_next (buckets s) 0 0.
  (** hash_set.h 53-55 *)
  Definition hs_end (s : hashset) : pos := (length (buckets s), 0).
  (** hash_set.h 162-166 *)
  Definition hs_next (s : hashset) (p : pos) : pos :=
    let '(ib, ii) := p in find_next (skipn ib (buckets s)) ib (S ii).
  (** hash_set.h 174-176 *)
  Definition hs_deref (s : hashset) (p : pos) : outcome T :=
    let '(ib, ii) := p in
    let* b := index (buckets s) ib in index b ii.
  (** hash_set.h 182-185 *)
  Definition pos_eqb (p q : pos) : bool :=
    (fst p =? fst q) && (snd p =? snd q).

  (** Range-for loop [for (x : set)] from position [p]. *)
  Fixpoint hs_traverse (fuel : nat) (s : hashset) (p : pos) : outcome (list T) :=
    if pos_eqb p (hs_end s) then Ok []
    else match fuel with
         | O => OutOfFuel
         | S fuel' =>
             let* x := hs_deref s p in
             let* xs := hs_traverse fuel' s (hs_next s p) in
             Ok (x :: xs)
         end.

  (** hash_set.h 219-227, FindPreviousElement after the decrement of
      operator-- (190-194).  [rev_before] are the buckets before the current
      one, nearest first; [None] is the position before begin(). *)
  Fixpoint find_prev (rev_before : list (list T)) (ib : nat) : option pos :=
    match rev_before with
    | [] => None
    | b :: r => match length b with
                | O => find_prev r (ib - 1)
                | S n => Some (ib - 1, n)
                end
    end.
  Definition hs_prev (s : hashset) (p : pos) : option pos :=
    let '(ib, ii) := p in
    match ii with
    | S ii' => Some (ib, ii')
    | O => find_prev (rev (firstn ib (buckets s))) ib
    end.

  (** The elements in iteration order (justified by [traverse_elements]). *)
  Definition hs_elements (s : hashset) : list T := concat (buckets s).
End HashSet.
Arguments hashset T : clear implicits.
