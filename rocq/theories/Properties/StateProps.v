(** C01-C08: State and PartialState. *)
From Coq Require Import String List Bool NArith Arith.
From Verif.Model Require Import Base HashSet Object Proposition State.
From Verif.Spec Require Import SetSpec.
From Verif.Proofs Require Import OrderFacts HashSetFacts StateFacts StateHistory.
Import ListNotations.
Local Open Scope string_scope.

(** Sample data used by the examples. *)
Definition ex_obj (n : string) : object := mkObj n ["block"; "object"] KConst.
Definition ex_on (a b : string) : prop := mkProp "on" [ex_obj a; ex_obj b].
(** Two hash functions: everything collides; length of the string. *)
Definition collide : StdHash := fun _ => 7%N.
Definition by_length : StdHash := fun s => N.of_nat (String.length s).

(** C01. Membership is decided by the last call concerning the proposition. *)
Theorem C01_membership : forall (SH : StdHash) ops p,
  st_contains (run ops) p = true <-> last_call_inserts ops (prop_key p).
Proof. exact @run_contains. Qed.
Print Assumptions C01_membership.

(** C01. The returned flag tells whether membership of the argument changed. *)
Theorem C01_return_value : forall (SH : StdHash) ops o,
  fst (exec_op o (run ops)) = true <->
  st_contains (run ops) (op_prop o) <> st_contains (run (ops ++ [o])) (op_prop o).
Proof. exact @run_changed. Qed.
Print Assumptions C01_return_value.

Definition ex_ops : list set_op :=
  [Ins (ex_on "a" "b"); Ins (ex_on "b" "c"); Ins (ex_on "c" "d"); Ins (ex_on "d" "e");
   Del (ex_on "b" "c"); Ins (ex_on "a" "b"); Del (ex_on "x" "y")].
Example C01_example :
  st_contains (SH := collide) (run (SH := collide) ex_ops) (ex_on "a" "b") = true /\
  st_contains (SH := collide) (run (SH := collide) ex_ops) (ex_on "b" "c") = false /\
  fst (exec_op (SH := collide) (Del (ex_on "c" "d")) (run (SH := collide) ex_ops)) = true.
Proof. repeat split. Qed.

(** C02. Traversal from begin() to end() lists every proposition once; size()
    is their number.  [fuel] bounds the number of loop iterations. *)
Theorem C02_iteration : forall (SH : StdHash) ops fuel,
  st_size (run ops) <= fuel ->
  exists l, hs_traverse fuel (run ops) (hs_begin (run ops)) = Ok l /\
    NoDup (map prop_key l) /\ length l = st_size (run ops) /\
    forall p, st_contains (run ops) p = true <-> In (prop_key p) (map prop_key l).
Proof. exact @run_traverse. Qed.
Print Assumptions C02_iteration.

Example C02_example :
  hs_traverse 3 (run (SH := by_length) ex_ops) (hs_begin (run (SH := by_length) ex_ops)) =
  Ok [ex_on "a" "b"; ex_on "c" "d"; ex_on "d" "e"].
Proof. reflexivity. Qed.

(** C03. == is equality of contents whatever the histories; equal states
    iterate in the same order. *)
Theorem C03_equality : forall (SH : StdHash) ops ops',
  st_eqb (run ops) (run ops') = true <-> same_contents (run ops) (run ops').
Proof. exact @run_same. Qed.
Print Assumptions C03_equality.

Theorem C03_iteration_order : forall (SH : StdHash) ops ops' fuel l l',
  same_contents (run ops) (run ops') ->
  hs_traverse fuel (run ops) (hs_begin (run ops)) = Ok l ->
  hs_traverse fuel (run ops') (hs_begin (run ops')) = Ok l' ->
  map prop_key l = map prop_key l'.
Proof. exact @run_traverse_same. Qed.
Print Assumptions C03_iteration_order.

(** Two histories that pass through different bucket counts. *)
Definition ex_ops2 : list set_op :=
  [Ins (ex_on "d" "e"); Ins (ex_on "c" "d"); Ins (ex_on "p" "q"); Ins (ex_on "r" "s");
   Ins (ex_on "t" "u"); Ins (ex_on "a" "b"); Ins (ex_on "v" "w"); Ins (ex_on "x" "y");
   Del (ex_on "p" "q"); Del (ex_on "r" "s"); Del (ex_on "t" "u"); Del (ex_on "v" "w");
   Del (ex_on "x" "y")].
Example C03_example :
  st_eqb (SH := by_length) (run (SH := by_length) ex_ops) (run (SH := by_length) ex_ops2) = true /\
  st_eqb (SH := by_length) (run (SH := by_length) ex_ops) (run (SH := by_length) (ex_ops2 ++ [Ins (ex_on "z" "z")])) = false.
Proof. split; reflexivity. Qed.

(** C04. Equal states have equal hashes. *)
Theorem C04_hash : forall (SH : StdHash) ops ops',
  st_eqb (run ops) (run ops') = true -> st_hash (run ops) = st_hash (run ops').
Proof. intros SH ops ops'. exact (st_hash_eq (run ops) (run ops')). Qed.
Print Assumptions C04_hash.

Example C04_example :
  st_eqb (SH := by_length) (run (SH := by_length) ex_ops) (run (SH := by_length) ex_ops2) = true /\
  st_hash (SH := by_length) (run (SH := by_length) ex_ops) <> 0%N.
Proof. split; [reflexivity|vm_compute; discriminate]. Qed.

(** C05. A borrowed proposition (with the hash of its predicate name
    precomputed) behaves like an owned one. *)
Theorem C05_borrowed : forall (SH : StdHash) s p,
  st_contains_ref (name_hash (pname p)) s p = st_contains s p /\
  st_insert_ref (name_hash (pname p)) p s = st_insert p s /\
  st_erase_ref (name_hash (pname p)) p s = st_erase p s.
Proof. exact @borrowed_same. Qed.
Print Assumptions C05_borrowed.

(** C06. Strict total orders compatible with ==. *)
Theorem C06_proposition_order : forall (SH : StdHash),
  strict_total_order prop_eqb prop_ltb.
Proof. exact @prop_order. Qed.
Print Assumptions C06_proposition_order.

Theorem C06_state_order : forall (SH : StdHash),
  strict_total_order st_eqb st_ltb.
Proof. exact @state_order. Qed.
Print Assumptions C06_state_order.

Theorem C06_partial_state_order : forall (SH : StdHash),
  strict_total_order ps_eqb ps_ltb.
Proof. exact @partial_state_order. Qed.
Print Assumptions C06_partial_state_order.

Example C06_example :
  prop_ltb (ex_on "a" "b") (ex_on "a" "c") = true /\
  st_ltb (run (SH := by_length) ex_ops) (run (SH := by_length) (ex_ops2 ++ [Del (ex_on "d" "e")])) <>
  st_ltb (run (SH := by_length) (ex_ops2 ++ [Del (ex_on "d" "e")])) (run (SH := by_length) ex_ops).
Proof. split; [reflexivity|vm_compute; discriminate]. Qed.

(** C07. Positive and negative sets stay disjoint, from any consistent start. *)
Theorem C07_disjoint : forall (SH : StdHash) init ops,
  ps_is_consistent (prun init) = true /\
  ps_is_consistent (prun_from (prun init) ops) = true.
Proof. exact @prun_consistent. Qed.
Print Assumptions C07_disjoint.

(** C07. PartialState built from two full states that do not overlap. *)
Theorem C07_disjoint_from_sets : forall (SH : StdHash) pos neg ops,
  ps_is_consistent (mkPS (run pos) (run neg)) = true ->
  ps_is_consistent (prun_from (mkPS (run pos) (run neg)) ops) = true.
Proof. exact @prun_from_sets. Qed.
Print Assumptions C07_disjoint_from_sets.

(** C07. Contents after a history. *)
Theorem C07_contents : forall (SH : StdHash) ops p,
  (st_contains (ps_pos (prun ops)) p = true <-> last_call_inserts ops (prop_key p)) /\
  (st_contains (ps_neg (prun ops)) p = true <-> last_call_erases ops (prop_key p)).
Proof. exact @prun_contents. Qed.
Print Assumptions C07_contents.

(** C07. Return codes: 0 already so, 1 was unknown, 2 was the opposite. *)
Theorem C07_codes : forall (SH : StdHash) pos neg ops o,
  ps_is_consistent (mkPS (run pos) (run neg)) = true ->
  let s := prun_from (mkPS (run pos) (run neg)) ops in
  fst (exec_pop o s) =
    match ps_contains s (op_prop o), o with
    | Ok true, Ins _ => 0 | Ok false, Del _ => 0
    | Ok true, Del _ => 2 | Ok false, Ins _ => 2
    | _, _ => 1
    end.
Proof. exact @prun_codes. Qed.
Print Assumptions C07_codes.

(** Without consistency the code 0 is not returned for a proposition that is
    already positive. *)
Theorem C07_codes_inconsistent_refuted : forall (SH : StdHash),
  exists pos neg p,
    ps_contains (mkPS (run pos) (run neg)) p = Ok true /\
    fst (ps_insert p (mkPS (run pos) (run neg))) = 1.
Proof. exact @codes_inconsistent. Qed.
Print Assumptions C07_codes_inconsistent_refuted.

Example C07_example :
  let s := prun (SH := collide) [Ins (ex_on "a" "b"); Del (ex_on "c" "d")] in
  fst (ps_insert (SH := collide) (ex_on "a" "b") s) = 0 /\
  fst (ps_insert (SH := collide) (ex_on "x" "y") s) = 1 /\
  fst (ps_insert (SH := collide) (ex_on "c" "d") s) = 2.
Proof. repeat split. Qed.

(** C08. Three-valued queries. *)
Theorem C08_queries : forall (SH : StdHash) pos neg ops p,
  ps_is_consistent (mkPS (run pos) (run neg)) = true ->
  let s := prun_from (mkPS (run pos) (run neg)) ops in
  (ps_contains s p = Ok true /\ ps_does_not_contain s p = Ok false /\
     st_contains (ps_pos s) p = true /\ st_contains (ps_neg s) p = false) \/
  (ps_contains s p = Ok false /\ ps_does_not_contain s p = Ok true /\
     st_contains (ps_pos s) p = false /\ st_contains (ps_neg s) p = true) \/
  (ps_contains s p = Throw EUnknown /\ ps_does_not_contain s p = Throw EUnknown /\
     st_contains (ps_pos s) p = false /\ st_contains (ps_neg s) p = false).
Proof. exact @prun_queries. Qed.
Print Assumptions C08_queries.

Example C08_example :
  let s := prun (SH := collide) [Ins (ex_on "a" "b"); Del (ex_on "c" "d")] in
  ps_contains (SH := collide) s (ex_on "c" "d") = Ok false /\
  ps_contains (SH := collide) s (ex_on "e" "f") = Throw EUnknown.
Proof. split; reflexivity. Qed.
