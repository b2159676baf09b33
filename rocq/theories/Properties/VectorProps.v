(** C72: sorted vectors. *)
From Coq Require Import String List NArith Bool Arith.
From Verif.Model Require Import Base HashSet Object Proposition State UniqueVector.
From Verif.Spec Require Import SetSpec VectorSpec.
From Verif.Proofs Require Import OrderFacts StateFacts StateHistory VectorFacts.
From Verif.Properties Require Import StateProps.
Import ListNotations.
Local Open Scope string_scope.

(** C72. With the asserts, the binary searches, the bucket reads and the
    remainders spelled out, no history of calls on a State fails an assert or
    reads outside a vector, and every call does what the other theorems say. *)
Theorem C72_hash_set : forall (SH : StdHash) ops,
  crun ops = Ok (run ops) /\
  (forall p, hsc_contains prop_hash prop_eqb prop_ltb (run ops) p = Ok (st_contains (run ops) p)) /\
  (forall o, cexec_op o (run ops) = Ok (exec_op o (run ops))).
Proof. exact @crun_eq. Qed.
Print Assumptions C72_hash_set.

(** C72. The binary search of an ascending vector splits it at the element
    searched for, and asks for at most log2 n + 1 comparisons (the fuel). *)
Theorem C72_search : forall (v : list prop) x,
  ascending prop_ltb v ->
  exists i, uvc_lower_bound prop_ltb x v = Ok i /\
    search prop_ltb (S (Nat.log2 (length v))) x v 0 (length v) = Ok i /\
    i <= length v /\
    forall j y, nth_error v j = Some y -> (prop_ltb y x = true <-> j < i).
Proof. exact @vector_search. Qed.
Print Assumptions C72_search.

(** C72. A State that is one sorted vector, built from a list with any correct
    [std::sort] and changed by any calls, is ascending throughout, fails no
    assert, and answers as the hash set does. *)
Theorem C72_vector_state : forall (SH : StdHash) sort init ops,
  sorts prop_ltb sort ->
  exists v0 v, vs_of_list sort init = Ok v0 /\ vrun_from v0 ops = Ok v /\
    ascending prop_ltb v /\
    (forall p, vs_contains v p = Ok (st_contains (run_from (st_of_list init) ops) p)) /\
    vs_size v = st_size (run_from (st_of_list init) ops) /\
    vs_is_empty v = st_is_empty (run_from (st_of_list init) ops) /\
    (forall o, exists v', vexec_op o v =
       Ok (fst (exec_op o (run_from (st_of_list init) ops)), v')).
Proof. exact @vector_state. Qed.
Print Assumptions C72_vector_state.

(** C72. Two such States are == exactly when the hash sets are. *)
Theorem C72_vector_equality : forall (SH : StdHash) sort sort' init init' ops ops' v0 v v0' v',
  sorts prop_ltb sort -> sorts prop_ltb sort' ->
  vs_of_list sort init = Ok v0 -> vrun_from v0 ops = Ok v ->
  vs_of_list sort' init' = Ok v0' -> vrun_from v0' ops' = Ok v' ->
  vs_eqb v v' =
  st_eqb (run_from (st_of_list init) ops) (run_from (st_of_list init') ops').
Proof. exact @vector_equal. Qed.
Print Assumptions C72_vector_equality.

(** Sorting functions exist. *)
Example C72_sorts : sorts prop_ltb (sort_by_placing prop_ltb).
Proof. exact (sort_by_placing_sorts prop_key atom_dec prop_ltb prop_ltb_ok). Qed.

Definition ex_list : list prop :=
  [ex_on "c" "d"; ex_on "a" "b"; ex_on "c" "d"; ex_on "b" "a"; ex_on "a" "b"].
Example C72_example :
  let SH := collide in
  vs_of_list (sort_by_placing prop_ltb) ex_list =
    Ok [ex_on "a" "b"; ex_on "b" "a"; ex_on "c" "d"] /\
  vrun_from [ex_on "a" "b"; ex_on "b" "a"; ex_on "c" "d"] ex_ops =
    Ok [ex_on "a" "b"; ex_on "b" "a"; ex_on "c" "d"; ex_on "d" "e"] /\
  vexec_op (Ins (ex_on "a" "b")) [ex_on "a" "b"; ex_on "b" "a"] =
    Ok (false, [ex_on "a" "b"; ex_on "b" "a"]) /\
  match crun ex_ops with Ok s => st_size s | _ => 0 end = 3.
Proof. repeat split. Qed.

(** The asserts are not idle, and what is left of a set that was moved away
    cannot be used although it still reports its size. *)
Example C72_misuse :
  let SH := collide in
  vs_contains [ex_on "b" "a"; ex_on "a" "b"] (ex_on "a" "b") = AssertFail /\
  hsc_contains prop_hash prop_eqb prop_ltb (hs_moved_from (run ex_ops)) (ex_on "a" "b") = UB /\
  st_size (hs_moved_from (run ex_ops)) = 3 /\
  hs_begin (hs_moved_from (run ex_ops)) = hs_end (hs_moved_from (run ex_ops)).
Proof. repeat split. Qed.

(** The two kinds of State are not ordered alike: < of a hash set compares the
    buckets. *)
Theorem C72_order_refuted : exists (SH : StdHash) ops ops' v v',
  vrun_from vs_empty ops = Ok v /\ vrun_from vs_empty ops' = Ok v' /\
  st_ltb (run ops) (run ops') = true /\ vs_ltb v v' = false /\ vs_ltb v' v = true.
Proof.
  exists by_length, [Ins (ex_on "b" "b"); Ins (ex_on "c" "c")], [Ins (ex_on "a" "a")].
  eexists. eexists. repeat split.
Qed.
Print Assumptions C72_order_refuted.
