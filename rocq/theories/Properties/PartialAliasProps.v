(** C85: PartialState::insert and erase given a reference to a literal of the same
    PartialState. *)
From Coq Require Import String List Bool NArith Arith.
From Verif.Model Require Import Base HashSet Object Proposition State PartialAlias.
From Verif.Spec Require Import SetSpec.
From Verif.Proofs Require Import PartialAliasFacts.
From Verif.Properties Require Import StateProps.
Import ListNotations.
Local Open Scope string_scope.
Local Open Scope list_scope.

(** C85. s.insert(x) with x a reference into s.neg() never does what it promises: it
    is undefined, or it drops x and inserts the next literal of the bucket, which also
    stays negative, and returns 2 as if all had gone well. *)
Theorem C85_insert_refuted : forall (SH : StdHash) ops i j x, let s := prun ops in
  hs_deref (ps_neg s) (i, j) = Ok x ->
  ps_insert_neg (i, j) s = UB \/
  exists y s', ps_insert_neg (i, j) s = Ok (2, s') /\
    hs_deref (ps_neg s) (i, S j) = Ok y /\ ps_is_consistent s' = false /\
    st_contains (ps_pos s') x = false /\ st_contains (ps_neg s') x = false /\
    st_contains (ps_pos s') y = true /\ st_contains (ps_neg s') y = true.
Proof. exact @C85_insert_lemma. Qed.
Print Assumptions C85_insert_refuted.

(** So does s.erase(x) with x a reference into s.pos(). *)
Theorem C85_erase_refuted : forall (SH : StdHash) ops i j x, let s := prun ops in
  hs_deref (ps_pos s) (i, j) = Ok x ->
  ps_erase_pos (i, j) s = UB \/
  exists y s', ps_erase_pos (i, j) s = Ok (2, s') /\
    hs_deref (ps_pos s) (i, S j) = Ok y /\ ps_is_consistent s' = false /\
    st_contains (ps_pos s') x = false /\ st_contains (ps_neg s') x = false /\
    st_contains (ps_pos s') y = true /\ st_contains (ps_neg s') y = true.
Proof. exact @C85_erase_lemma. Qed.
Print Assumptions C85_erase_refuted.

(** It is undefined exactly when the table shrinks or x is the last of its bucket. *)
Theorem C85_undefined : forall (SH : StdHash) ops i j x, let s := prun ops in
  (hs_deref (ps_neg s) (i, j) = Ok x ->
   (ps_insert_neg (i, j) s = UB <->
    st_size (ps_neg s) <= S (lower_limit (buckets (ps_neg s))) \/ hs_deref (ps_neg s) (i, S j) = UB)) /\
  (hs_deref (ps_pos s) (i, j) = Ok x ->
   (ps_erase_pos (i, j) s = UB <->
    st_size (ps_pos s) <= S (lower_limit (buckets (ps_pos s))) \/ hs_deref (ps_pos s) (i, S j) = UB)).
Proof. exact @C85_ub_lemma. Qed.
Print Assumptions C85_undefined.

(** References into the set that gets the literal are harmless: nothing changes. *)
Theorem C85_other : forall (SH : StdHash) ops p x, let s := prun ops in
  (hs_deref (ps_pos s) p = Ok x -> ps_insert_pos p s = Ok (0, s)) /\
  (hs_deref (ps_neg s) p = Ok x -> ps_erase_neg p s = Ok (0, s)).
Proof. exact @C85_other_lemma. Qed.
Print Assumptions C85_other.

(** ** Examples: three negative literals in one bucket. *)
Definition ex_neg : list set_op :=
  [Del (ex_on "a" "b"); Del (ex_on "b" "c"); Del (ex_on "c" "d"); Ins (ex_on "x" "y")].
Definition both (r : outcome (nat * partial_state)) : outcome (nat * list prop * list prop) :=
  let* q := r in Ok (fst q, st_elements (ps_pos (snd q)), st_elements (ps_neg (snd q))).
Example C85_example :
  let s := prun (SH := collide) ex_neg in
  (hs_deref (ps_neg s) (0, 0), both (ps_insert_neg (SH := collide) (0, 0) s),
   hs_deref (ps_neg s) (0, 2), both (ps_insert_neg (SH := collide) (0, 2) s),
   hs_deref (ps_pos s) (0, 0), both (ps_erase_pos (SH := collide) (0, 0) s),
   both (ps_insert_pos (SH := collide) (0, 0) s), both (ps_erase_neg (SH := collide) (0, 0) s)) =
  (Ok (ex_on "a" "b"), Ok (2, [ex_on "b" "c"; ex_on "x" "y"], [ex_on "b" "c"; ex_on "c" "d"]),
   Ok (ex_on "c" "d"), UB,
   Ok (ex_on "x" "y"), UB,
   Ok (0, [ex_on "x" "y"], [ex_on "a" "b"; ex_on "b" "c"; ex_on "c" "d"]),
   Ok (0, [ex_on "x" "y"], [ex_on "a" "b"; ex_on "b" "c"; ex_on "c" "d"])).
Proof. vm_compute. reflexivity. Qed.

(** The same for erase. *)
Example C85_erase_example :
  let s := prun (SH := collide) [Ins (ex_on "a" "b"); Ins (ex_on "b" "c"); Ins (ex_on "c" "d")] in
  (hs_deref (ps_pos s) (0, 1), both (ps_erase_pos (SH := collide) (0, 1) s)) =
  (Ok (ex_on "b" "c"), Ok (2, [ex_on "a" "b"; ex_on "c" "d"], [ex_on "c" "d"])).
Proof. vm_compute. reflexivity. Qed.
