(** Specification vocabulary for sorted vectors: histories of calls with the
    asserts and searches spelled out. *)
From Coq Require Import List NArith Bool Permutation.
From Verif.Model Require Import Base HashSet Object Proposition State UniqueVector.
From Verif.Spec Require Import SetSpec.
Import ListNotations.

(** Every element is smaller than all elements after it. *)
Definition ascending {T} (ltb : T -> T -> bool) (v : list T) : Prop :=
  forall i j x y, i < j -> nth_error v i = Some x -> nth_error v j = Some y -> ltb x y = true.

(** What the standard says about [std::sort]: the result has the same elements,
    and none of them is smaller than an earlier one. *)
Definition sorts {T} (ltb : T -> T -> bool) (sort : list T -> list T) : Prop :=
  forall l, Permutation l (sort l) /\
    forall i j x y, i < j -> nth_error (sort l) i = Some x -> nth_error (sort l) j = Some y ->
      ltb y x = false.

Section WithHash.
  Context `{SH : StdHash}.

  (** Calls on a State that is one sorted vector. *)
  Definition vexec_op (o : set_op) (v : vstate) : outcome (bool * vstate) :=
    match o with Ins p => vs_insert p v | Del p => vs_erase p v end.
  Definition vrun_from (v : vstate) (ops : list set_op) : outcome vstate :=
    foldM (fun v o => let* ' (_, v') := vexec_op o v in Ok v') ops v.

  (** Calls on a State that is a hash set, with asserts and searches. *)
  Definition cexec_op (o : set_op) (s : state) : outcome (bool * state) :=
    match o with
    | Ins p => hsc_insert prop_hash prop_eqb prop_ltb p s
    | Del p => hsc_erase prop_hash prop_eqb prop_ltb p s
    end.
  Definition crun (ops : list set_op) : outcome state :=
    foldM (fun s o => let* ' (_, s') := cexec_op o s in Ok s') ops st_empty.
End WithHash.
