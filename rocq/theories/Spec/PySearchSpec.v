(** What a Python program sees of its searches, as counters into lists of plans. *)
From Coq Require Import List Bool Arith.
From Verif.Model Require Import Base PySearch.
Import ListNotations.

Section Abstract.
  Context {N : Type} (plans : N -> nat -> list (list N)).

  (** A search from a root to a depth, with or without a timeout, and how many
      plans it has given; None after a timeout. *)
  Inductive a_object : Type :=
  | APlanner (root : N)
  | ASearch (root : N) (depth : nat) (timed : bool) (given : option nat).

  Inductive a_step : list a_object -> py_op N -> py_result N -> list a_object -> Prop :=
  | a_planner h n : a_step h (PyNewPlanner n) (PyObj (length h)) (h ++ [APlanner n])
  | a_search h pl n d timed : nth_error h pl = Some (APlanner n) ->
      a_step h (PyNewSearch pl d timed) (PyObj (length h)) (h ++ [ASearch n d timed (Some 0)])
  | a_iter h i n d timed c : nth_error h i = Some (ASearch n d timed c) ->
      a_step h (PyIter i) (PyObj (length h)) (h ++ [ASearch n d timed c])
  | a_plan h i late n d timed k p : nth_error h i = Some (ASearch n d timed (Some k)) ->
      nth_error (plans n d) k = Some p ->
      a_step h (PyNext i late) (PyPlan p) (put h i (ASearch n d timed (Some (S k))))
  | a_stop h i late n d timed k : nth_error h i = Some (ASearch n d timed (Some k)) ->
      nth_error (plans n d) k = None -> a_step h (PyNext i late) PyStop h
  | a_timeout h i late n d k : nth_error h i = Some (ASearch n d true (Some k)) ->
      (exists j, late j = true) -> a_step h (PyNext i late) PyStop (put h i (ASearch n d true None))
  | a_over h i late n d : nth_error h i = Some (ASearch n d true None) -> a_step h (PyNext i late) PyStop h.

  Inductive a_run : list a_object -> list (py_op N) -> list (py_result N) -> Prop :=
  | a_done h : a_run h [] []
  | a_more h o r h' ops rs : a_step h o r h' -> a_run h' ops rs -> a_run h (o :: ops) (r :: rs).

  (** Programs that name objects of the right kinds and free nothing; [kinds]
      lists the roots of the planners among the objects there are. *)
  Fixpoint typed (kinds : list (option N)) (ops : list (py_op N)) : Prop :=
    match ops with
    | [] => True
    | PyNewPlanner n :: r => typed (kinds ++ [Some n]) r
    | PyNewSearch pl _ _ :: r => (exists n, nth_error kinds pl = Some (Some n)) /\ typed (kinds ++ [None]) r
    | PyIter i :: r => nth_error kinds i = Some None /\ typed (kinds ++ [None]) r
    | PyNext i _ :: r => nth_error kinds i = Some None /\ typed kinds r
    | PyFree _ :: _ => False
    end.
  (** The roots satisfy [P]. *)
  Definition roots_in (P : N -> Prop) (ops : list (py_op N)) : Prop := forall n, In (PyNewPlanner n) ops -> P n.
End Abstract.
Arguments a_object N : clear implicits.
