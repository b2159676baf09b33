(** C84: loops that change the State they run over. *)
From Coq Require Import String List Bool NArith Arith.
From Verif.Model Require Import Base HashSet Object Proposition State StateLoop.
From Verif.Spec Require Import SetSpec.
From Verif.Proofs Require Import StateLoopFacts.
From Verif.Properties Require Import StateProps.
Import ListNotations.
Local Open Scope string_scope.
Local Open Scope list_scope.

(** C84. A call that returns false leaves the State as it is, so that all iterators
    and references stay good ... *)
Theorem C84_unchanged : forall (SH : StdHash) ops o,
  fst (exec_op o (run ops)) = false -> snd (exec_op o (run ops)) = run ops.
Proof. exact @C84_unchanged_lemma. Qed.
Print Assumptions C84_unchanged.

(** ... in particular inserting the range of a State into itself. *)
Theorem C84_self : forall (SH : StdHash) ops fuel, st_size (run ops) <= fuel ->
  insert_loop fuel (hs_end (run ops)) (run ops) (hs_begin (run ops)) = Ok (false, run ops).
Proof. exact @C84_self_lemma. Qed.
Print Assumptions C84_self.

(** After an erase that keeps the number of buckets, iterators at or behind the
    erased place in its bucket are one element further, the others where they were. *)
Theorem C84_positions : forall (SH : StdHash) ops i j x s' i' j',
  hs_deref (run ops) (i, j) = Ok x -> st_erase x (run ops) = (true, s') ->
  lower_limit (buckets (run ops)) < st_size s' ->
  hs_deref s' (i', j') =
    if ((i' =? i) && (j <=? j'))%nat then hs_deref (run ops) (i', S j') else hs_deref (run ops) (i', j').
Proof. exact @C84_positions_lemma. Qed.
Print Assumptions C84_positions.

(** for (const Proposition& p : s) s.erase(p) is undefined for every State with two
    propositions or more, whatever the hash function: the table shrinks and the loop
    never meets its end. *)
Theorem C84_erase_refuted : forall (SH : StdHash) ops fuel,
  2 <= st_size (run ops) -> st_size (run ops) < fuel ->
  erase_loop fuel (hs_end (run ops)) (run ops) (hs_begin (run ops)) = UB.
Proof. exact @C84_erase_lemma. Qed.
Print Assumptions C84_erase_refuted.

(** With fewer it works. *)
Theorem C84_erase_small : forall (SH : StdHash) ops fuel,
  st_size (run ops) <= 1 -> st_size (run ops) < fuel ->
  exists s, erase_loop fuel (hs_end (run ops)) (run ops) (hs_begin (run ops)) = Ok s /\ st_size s = 0.
Proof. exact @C84_small_lemma. Qed.
Print Assumptions C84_erase_small.

(** Asking for end() every time does not help: the loop is undefined or leaves a
    proposition. *)
Theorem C84_end_refuted : forall (SH : StdHash) ops fuel,
  2 <= st_size (run ops) -> st_size (run ops) < fuel ->
  erase_loop_end fuel (run ops) (hs_begin (run ops)) = UB \/
  exists s, erase_loop_end fuel (run ops) (hs_begin (run ops)) = Ok s /\ 1 <= st_size s.
Proof. exact @C84_end_lemma. Qed.
Print Assumptions C84_end_refuted.

(** Erasing the first one until the State is empty works, and so does a loop over a
    copy. *)
Theorem C84_clear : forall (SH : StdHash) ops fuel, st_size (run ops) <= fuel ->
  (exists s, drain_loop fuel (run ops) = Ok s /\ st_size s = 0 /\ forall p, st_contains s p = false) /\
  (exists s, erase_copy fuel (run ops) = Ok s /\ st_size s = 0 /\ forall p, st_contains s p = false).
Proof. intros SH ops fuel F. split; [exact (C84_drain_lemma ops fuel F)|exact (C84_copy_lemma ops fuel F)]. Qed.
Print Assumptions C84_clear.

(** ** Examples: the State of C01 has three propositions. *)
Example C84_example :
  st_size (run (SH := by_length) ex_ops) = 3 /\
  erase_loop (SH := by_length) 9 (hs_end (run (SH := by_length) ex_ops)) (run (SH := by_length) ex_ops)
    (hs_begin (run (SH := by_length) ex_ops)) = UB /\
  (exists s, drain_loop (SH := by_length) 3 (run (SH := by_length) ex_ops) = Ok s /\ st_elements s = []) /\
  fst (exec_op (SH := by_length) (Ins (ex_on "c" "d")) (run (SH := by_length) ex_ops)) = false.
Proof. repeat split; try (eexists; split); vm_compute; reflexivity. Qed.

(** Both ways in which the loop that asks for end() goes wrong. *)
Definition ex_pair : list set_op := [Ins (ex_on "a" "b"); Ins (ex_on "b" "c")].
Definition all_five : StdHash := fun _ => 5%N.
Example C84_end_example :
  (exists s, erase_loop_end (SH := collide) 9 (run (SH := collide) ex_pair) (hs_begin (run (SH := collide) ex_pair)) = Ok s /\
  st_elements s = [ex_on "b" "c"]) /\
  erase_loop_end (SH := all_five) 9 (run (SH := all_five) ex_pair) (hs_begin (run (SH := all_five) ex_pair)) = UB.
Proof. split; [eexists; split|]; vm_compute; reflexivity. Qed.

(** Iterators that moved on to the next element, with everything in bucket 1. *)
Definition ex_five : list set_op :=
  [Ins (ex_on "a" "b"); Ins (ex_on "b" "c"); Ins (ex_on "c" "d"); Ins (ex_on "d" "e"); Ins (ex_on "e" "f")].
Example C84_positions_example :
  let s := run (SH := collide) ex_five in
  let s' := snd (st_erase (SH := collide) (ex_on "b" "c") s) in
  hs_deref s (1, 1) = Ok (ex_on "b" "c") /\ fst (st_erase (SH := collide) (ex_on "b" "c") s) = true /\
  Nat.ltb (lower_limit (buckets s)) (st_size s') = true /\
  hs_deref s' (1, 0) = Ok (ex_on "a" "b") /\ hs_deref s' (1, 1) = Ok (ex_on "c" "d") /\ hs_deref s' (1, 4) = UB.
Proof. repeat split; vm_compute; reflexivity. Qed.
