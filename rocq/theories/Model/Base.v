(** Basic vocabulary of the model: results of C++ computations. *)
From Coq Require Import String List ZArith Bool.
Import ListNotations.

(** Exceptions thrown by the modelled code, by C++ class.
    [EUnknown] is [UnknownEvaluation] (include/symbolic/proposition.h,
    thrown by src/state.cc 103-121). The message strings are not modelled. *)
Inductive exn : Set :=
| ERuntime          (* std::runtime_error *)
| EOutOfRange       (* std::out_of_range *)
| EInvalidArgument  (* std::invalid_argument *)
| EDomain           (* std::domain_error *)
| EUnknown          (* UnknownEvaluation *)
| EBadCall.         (* std::bad_function_call, by an empty std::function *)

(** Result of running a piece of C++ code: a value, an exception, undefined
    behaviour, a failed [assert] (checked only in debug builds), or the model
    ran out of fuel (a loop or recursion that has not finished yet). *)
Inductive outcome (A : Type) : Type :=
| Ok (a : A)
| Throw (e : exn)
| UB
| AssertFail
| OutOfFuel.
Arguments Ok {A} a.
Arguments Throw {A} e.
Arguments UB {A}.
Arguments AssertFail {A}.
Arguments OutOfFuel {A}.

Definition bind {A B} (x : outcome A) (f : A -> outcome B) : outcome B :=
  match x with
  | Ok a => f a
  | Throw e => Throw e
  | UB => UB
  | AssertFail => AssertFail
  | OutOfFuel => OutOfFuel
  end.

Declare Scope outcome_scope.
Delimit Scope outcome_scope with outcome.
Notation "'let*' x ':=' a 'in' b" := (bind a (fun x => b))
  (at level 200, x name, a at level 100, b at level 200) : outcome_scope.
Notation "'let*' ' p ':=' a 'in' b" := (bind a (fun x => match x with p => b end))
  (at level 200, p strict pattern, a at level 100, b at level 200) : outcome_scope.
Open Scope outcome_scope.

(** Unchecked indexing [v[i]]: undefined behaviour out of range. *)
Definition index {A} (l : list A) (i : nat) : outcome A :=
  match nth_error l i with Some a => Ok a | None => UB end.

(** Checked indexing [v.at(i)]. *)
Definition index_at {A} (l : list A) (i : nat) : outcome A :=
  match nth_error l i with Some a => Ok a | None => Throw EOutOfRange end.

(** [v[i] = a]: overwrite one element; out-of-range positions are left alone
    (callers check the range first). *)
Fixpoint set_nth {A} (i : nat) (a : A) (l : list A) : list A :=
  match l, i with
  | [], _ => []
  | _ :: l', O => a :: l'
  | b :: l', S i' => b :: set_nth i' a l'
  end.

(** Left-to-right loop over a vector, stopping at the first non-[Ok]. *)
Definition foldM {A B} (f : B -> A -> outcome B) : list A -> B -> outcome B :=
  fix foldM l b :=
    match l with
    | [] => Ok b
    | a :: l' => let* b' := f b a in foldM l' b'
    end.

Definition mapM {A B} (f : A -> outcome B) : list A -> outcome (list B) :=
  fix mapM l :=
    match l with
    | [] => Ok []
    | a :: l' => let* b := f a in let* bs := mapM l' in Ok (b :: bs)
    end.
