(** include/symbolic/utils/unique_vector.h with its asserts and the binary
    search, include/symbolic/utils/hash_set.h on top of it (moved-from sets
    included), and the State that include/symbolic/state.h describes when
    SYMBOLIC_STATE_USE_SET is not defined. *)
From Coq Require Import List NArith Bool Arith.
From Verif.Model Require Import Base Order HashSet Object Proposition.
Import ListNotations.

Section UniqueVector.
  Context {T : Type}.
  Variable hash : T -> N.               (* std::hash<T> *)
  Variable eqb : T -> T -> bool.        (* operator== on T *)
  Variable ltb : T -> T -> bool.        (* operator<  on T *)

  (** [std::is_sorted] in the asserts of unique_vector.h 68, 74, 82, 92, 103:
      no element is smaller than its predecessor. *)
  Fixpoint is_sorted (v : list T) : bool :=
    match v with
    | x :: (y :: _) as v' => negb (ltb y x) && is_sorted v'
    | _ => true
    end.

  (** [std::lower_bound] as called in unique_vector.h 75, 83, 93, 104: the loop
      of libstdc++ (bits/stl_algobase.h, __lower_bound) on the range of [len]
      elements that starts at [first].  Reads outside the vector are undefined. *)
  Fixpoint search (fuel : nat) (x : T) (v : list T) (first len : nat) : outcome nat :=
    match len with
    | O => Ok first
    | _ =>
        match fuel with
        | O => OutOfFuel
        | S fuel' =>
            let half := Nat.div2 len in
            let middle := first + half in
            let* y := index v middle in
            if ltb y x then search fuel' x v (S middle) (len - half - 1)
            else search fuel' x v first half
        end
    end.
  (** unique_vector.h 75, 83, 93, 104: the whole vector is searched. *)
  Definition uvc_lower_bound (x : T) (v : list T) : outcome nat :=
    search (length v) x v 0 (length v).

  (** unique_vector.h 74, 82, 92, 103 *)
  Definition assert_sorted (v : list T) : outcome unit :=
    if is_sorted v then Ok tt else AssertFail.

  (** [it != end() && *it == val], unique_vector.h 76, 84, 94, 105 *)
  Definition found (x : T) (v : list T) (i : nat) : outcome bool :=
    if i =? length v then Ok false else let* y := index v i in Ok (eqb y x).

  (** unique_vector.h 71-77 *)
  Definition uvc_contains (x : T) (v : list T) : outcome bool :=
    let* _ := assert_sorted v in
    let* i := uvc_lower_bound x v in
    found x v i.

  (** unique_vector.h 79-98 (both overloads) *)
  Definition uvc_insert (x : T) (v : list T) : outcome (bool * list T) :=
    let* _ := assert_sorted v in
    let* i := uvc_lower_bound x v in
    let* b := found x v i in
    if b then Ok (false, v) else Ok (true, firstn i v ++ x :: skipn i v).

  (** unique_vector.h 100-108 *)
  Definition uvc_erase (x : T) (v : list T) : outcome (bool * list T) :=
    let* _ := assert_sorted v in
    let* i := uvc_lower_bound x v in
    let* b := found x v i in
    if b then Ok (true, firstn i v ++ skipn (S i) v) else Ok (false, v).

  (** [std::unique] and [erase], unique_vector.h 66-67: of every run of equal
      elements the first is kept; every element is compared with the last one
      that was kept. *)
  Fixpoint unique_from (kept : T) (v : list T) : list T :=
    match v with
    | [] => []
    | y :: v' => if eqb kept y then unique_from kept v' else y :: unique_from y v'
    end.
  Definition unique (v : list T) : list T :=
    match v with [] => [] | x :: v' => x :: unique_from x v' end.

  (** unique_vector.h 63-69, initializer-list constructor; [sort] is
      [std::sort], of which nothing is assumed here. *)
  Definition uvc_of_list (sort : list T -> list T) (l : list T) : outcome (list T) :=
    let v := unique (sort l) in
    let* _ := assert_sorted v in Ok v.

  (** ** HashSet *)

  (** hash_set.h 114-123, GetBucket: the remainder by zero of a moved-from
      set, which has no buckets, is undefined. *)
  Definition hsc_bucket (bs : list (list T)) (x : T) : outcome (nat * list T) :=
    match bs with
    | [] => UB
    | _ =>
        let i := bucket_index hash bs x in
        let* b := index bs i in Ok (i, b)
    end.

  (** hash_set.h 63-66 *)
  Definition hsc_contains (s : hashset T) (x : T) : outcome bool :=
    let* ' (_, b) := hsc_bucket (buckets s) x in uvc_contains x b.

  (** hash_set.h 125-139 *)
  Definition hsc_rehash (n : nat) (bs : list (list T)) : outcome (list (list T)) :=
    if n =? length bs then Ok bs
    else
      foldM
        (fun bs' x =>
           let* ' (i, b) := hsc_bucket bs' x in
           let* ' (_, b') := uvc_insert x b in
           Ok (set_nth i b' bs'))
        (concat bs) (repeat [] n).

  (** hash_set.h 67-85 (both overloads) *)
  Definition hsc_insert (x : T) (s : hashset T) : outcome (bool * hashset T) :=
    let* ' (i, b) := hsc_bucket (buckets s) x in
    let* ' (inserted, b') := uvc_insert x b in
    let bs := set_nth i b' (buckets s) in
    if inserted then
      let n := S (hsize s) in
      let* bs' := (if length bs <? n then hsc_rehash (upper_bound bs) bs else Ok bs) in
      Ok (true, mkHS bs' n)
    else Ok (false, mkHS bs (hsize s)).

  (** hash_set.h 87-95 *)
  Definition hsc_erase (x : T) (s : hashset T) : outcome (bool * hashset T) :=
    let* ' (i, b) := hsc_bucket (buckets s) x in
    let* ' (erased, b') := uvc_erase x b in
    let bs := set_nth i b' (buckets s) in
    if erased then
      let n := hsize s - 1 in
      let* bs' := (if n <=? lower_limit bs then hsc_rehash (lower_limit bs) bs else Ok bs) in
      Ok (true, mkHS bs' n)
    else Ok (false, mkHS bs (hsize s)).

  (** hash_set.h has no move members: the implicit ones move [buckets_] and
      copy [size_] (141-142), so that a moved-from set keeps its size. *)
  Definition hs_moved_from (s : hashset T) : hashset T := mkHS [] (hsize s).
End UniqueVector.

Section VectorState.
  Context `{SH : StdHash}.

  (** state.h 37-38 *)
  Definition vstate := list prop.
  (** state.h 48 *)
  Definition vs_empty : vstate := [].
  (** state.h 49 *)
  Definition vs_of_list (sort : list prop -> list prop) (l : list prop) : outcome vstate :=
    uvc_of_list prop_eqb prop_ltb sort l.
  (** state.h 56-58 *)
  Definition vs_contains (s : vstate) (p : prop) : outcome bool :=
    uvc_contains prop_eqb prop_ltb p s.
  (** state.h 64-65, 74-77 *)
  Definition vs_insert (p : prop) (s : vstate) : outcome (bool * vstate) :=
    uvc_insert prop_eqb prop_ltb p s.
  (** state.h 83 *)
  Definition vs_erase (p : prop) (s : vstate) : outcome (bool * vstate) :=
    uvc_erase prop_eqb prop_ltb p s.
  (** state.h 92: std::vector::size *)
  Definition vs_size (s : vstate) : nat := length s.
  (** state.h 91: std::vector::empty *)
  Definition vs_is_empty (s : vstate) : bool := match s with [] => true | _ => false end.
  (** state.h 102-104: operator== of std::vector *)
  Definition vs_eqb (a b : vstate) : bool := list_eqb prop_eqb a b.
  (** state.h 109-111: operator< of std::vector *)
  Definition vs_ltb (a b : vstate) : bool := lex_ltb prop_ltb a b.
End VectorState.
