(** src/python/symbolic.cc 54-64 and 591-608: breadth-first search from Python.
    Python objects live on a heap; a search refers to other objects without
    keeping them alive. *)
From Coq Require Import List Bool Arith.
From Verif.Model Require Import Base Search.
Import ListNotations.

Section PySearch.
  (** As in Search.v. *)
  Context {N W : Type} (goal : N -> outcome bool) (children : N -> W -> outcome (list N * W)).

  (** symbolic.cc 54-64.  [ps_root] is the object that owns the node the
      reference BreadthFirstSearch::root_ (breadth_first_search.h 48) denotes; [ps_depth]
      and [ps_timed] are max_depth_ and whether timeout_ is positive (45-47).
      [ps_owner] is the Python object whose [bfs] the pointer bfs_ of [it]
      denotes (76); it means nothing before [initialized] is set. *)
  Record py_search : Type := mkPySearch {
    ps_root : nat;
    ps_depth : nat;
    ps_timed : bool;
    ps_started : bool;
    ps_it : bfs_it (N := N);
    ps_owner : nat
  }.

  (** A Planner with its root (symbolic.cc 573), a BreadthFirstSearch, or memory
      that was freed. *)
  Inductive py_object : Type :=
  | PyPlanner (root : N)
  | PySearch (s : py_search)
  | PyFreed.

  (** What a Python program can do; objects are named by their position on the
      heap.  [PyFree] happens when Python drops the last reference.  [late] is
      the clock during the call, see [bfs_incr]. *)
  Inductive py_op : Type :=
  | PyNewPlanner (root : N)
  | PyNewSearch (planner depth : nat) (timed : bool)
  | PyIter (s : nat)
  | PyNext (s : nat) (late : nat -> bool)
  | PyFree (x : nat).
  Inductive py_result : Type :=
  | PyObj (x : nat)
  | PyPlan (plan : list N)
  | PyStop
  | PyNone.

  Fixpoint put {A} (l : list A) (i : nat) (x : A) : list A :=
    match l, i with
    | [], _ => []
    | _ :: l', O => x :: l'
    | y :: l', S j => y :: put l' j x
    end.

  (** symbolic.cc 596-601: begin() or ++.  ++ reads through bfs_ only if the
      queue is not empty. *)
  Definition py_advance (fuel : nat) (late : nat -> bool) (heap : list py_object) (i : nat) (x : py_search) (w : W)
      : outcome (py_search * W) :=
    if negb (ps_started x) then
      match nth_error heap (ps_root x) with
      | Some (PyPlanner n) =>
          let* ' (it, w') := bfs_begin goal children (ps_depth x) fuel (fun j => ps_timed x && late j) n w in
          Ok (mkPySearch (ps_root x) (ps_depth x) (ps_timed x) true it i, w')
      | _ => UB
      end
    else
      match bi_queue (ps_it x) with
      | [] => Ok (mkPySearch (ps_root x) (ps_depth x) (ps_timed x) true (mkBfs [] None) (ps_owner x), w)
      | q =>
          match nth_error heap (ps_owner x) with
          | Some (PySearch y) =>
              let* ' (it, w') := bfs_incr goal children (ps_depth y) fuel (fun j => ps_timed y && late j) 0 q w in
              Ok (mkPySearch (ps_root x) (ps_depth x) (ps_timed x) true it (ps_owner x), w')
          | _ => UB
          end
      end.

  (** One operation.  Positions without an object of the right kind cannot be
      named in Python. *)
  Definition py_step (fuel : nat) (o : py_op) (heap : list py_object) (w : W)
      : outcome (py_result * list py_object * W) :=
    match o with
    | PyNewPlanner n => Ok (PyObj (length heap), heap ++ [PyPlanner n], w)
    (* 592-593 *)
    | PyNewSearch pl d timed =>
        match nth_error heap pl with
        | Some (PyPlanner _) =>
            Ok (PyObj (length heap), heap ++ [PySearch (mkPySearch pl d timed false (mkBfs [] None) 0)], w)
        | _ => Throw EInvalidArgument
        end
    (* 594: __iter__ returns a copy *)
    | PyIter i =>
        match nth_error heap i with
        | Some (PySearch x) => Ok (PyObj (length heap), heap ++ [PySearch x], w)
        | _ => Throw EInvalidArgument
        end
    (* 595-608: __next__ *)
    | PyNext i late =>
        match nth_error heap i with
        | Some (PySearch x) =>
            let* ' (x', w') := py_advance fuel late heap i x w in
            let heap' := put heap i (PySearch x') in
            if bfs_finished (ps_it x') then Ok (PyStop, heap', w')
            else let* plan := bfs_deref (ps_it x') in Ok (PyPlan plan, heap', w')
        | _ => Throw EInvalidArgument
        end
    | PyFree i => Ok (PyNone, put heap i PyFreed, w)
    end.

  Fixpoint py_run (fuel : nat) (ops : list py_op) (heap : list py_object) (w : W)
      : outcome (list py_result * list py_object * W) :=
    match ops with
    | [] => Ok ([], heap, w)
    | o :: ops' =>
        let* ' (r, heap', w') := py_step fuel o heap w in
        let* ' (rs, heap'', w'') := py_run fuel ops' heap' w' in
        Ok (r :: rs, heap'', w'')
    end.
End PySearch.
Arguments py_object N : clear implicits.
Arguments py_op N : clear implicits.
Arguments py_result N : clear implicits.
