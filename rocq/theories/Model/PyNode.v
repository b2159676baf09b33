(** src/python/symbolic.cc 531-550 and 552-573: nodes of the search and the loops
    over their children in Python.

    [__iter__] is pybind11's make_iterator(begin(), end()), which returns what
    [operator*] returns by reference (its default policy reference_internal): the
    child_ inside the iterator (planner.h 102).  The code of make_iterator is
    outside the repository; it is modelled by its documented behaviour. *)
From Coq Require Import String List Bool Arith.
From Verif.Model Require Import Base Object Proposition State CombinationGenerator
  ParameterGenerator Syntax Formula Effects Derived NormalForm Consistency Text Pddl Planner PlannerSteps.
Import ListNotations.

(** What a Python object of class PlannerNode refers to: a Node that never
    changes (Planner.root, 573; a copy, 533), or the child_ of an iterator. *)
Inductive node_ref : Set := Owned (k : nat) | ViewOf (k : nat).

(** Nodes and iterators.  An iterator has a reference to the node whose children
    it visits (planner.h 107) and the flag first_or_done of make_iterator. *)
Inductive py_cell : Type :=
| CNode (n : node)
| CIter (parent : node_ref) (c : cursor) (waiting : bool).

(** The objects of a program, named by their positions, and whether the Pddl
    still exists: neither Planner (553-572) nor PlannerNode keep it alive. *)
Record py_world : Type := mkPyWorld {
  pw_cells : list py_cell;
  pw_pddl : bool;
  pw_store : store
}.

(** PlannerNode(x), iter(x), next(i), reading action, state and depth of a node,
    and del of the last reference to the Pddl.  Other objects are kept alive by
    those that refer to them (keep_alive, 544; reference_internal). *)
Inductive pn_op : Set :=
| PnCopy (x : node_ref)
| PnIter (x : node_ref)
| PnNext (i : nat)
| PnShow (x : node_ref)
| PnDrop.
Inductive pn_result : Type :=
| PnRef (x : node_ref)
| PnIterator (i : nat)
| PnValue (n : node)
| PnStop
| PnDone.

Section WithHash.
  Context `{SH : StdHash} (L : limits) (p : pddl).

  (** The node a reference shows now.  A child_ that was never set has no
      contents.  Other names do not occur in Python programs. *)
  Definition shown_node (cells : list py_cell) (x : node_ref) : outcome node :=
    match x with
    | Owned k => match nth_error cells k with Some (CNode n) => Ok n | _ => Throw EInvalidArgument end
    | ViewOf k =>
        match nth_error cells k with
        | Some (CIter _ c _) => match cu_child c with Some n => Ok n | None => UB end
        | _ => Throw EInvalidArgument
        end
    end.

  (** __next__ of make_iterator: ++ unless the flag is set, then the comparison
      with end(). *)
  Definition pn_next (fuel : nat) (i : nat) (w : py_world) : outcome (pn_result * py_world) :=
    match nth_error (pw_cells w) i with
    | Some (CIter x c waiting) =>
        let* ' (c', st) :=
          if waiting : bool then Ok (c, pw_store w)
          else let* n := shown_node (pw_cells w) x in cursor_next L p fuel n c (pw_store w) in
        let stop := at_end p c' in
        Ok (if stop then PnStop else PnRef (ViewOf i),
            mkPyWorld (set_nth i (CIter x c' stop) (pw_cells w)) (pw_pddl w) st)
    | _ => Throw EInvalidArgument
    end.

  (** One operation.  Without the Pddl all reads of it are undefined: actions()
      in begin() and end() of a node (planner.cc 79-113) and in the comparison,
      and the names of the objects in a State (object.cc 121), which the Pddl
      owns; action and depth are the node's own. *)
  Definition pn_step (fuel : nat) (o : pn_op) (w : py_world) : outcome (pn_result * py_world) :=
    let cells := pw_cells w in
    match o with
    | PnCopy x =>
        let* n := shown_node cells x in
        Ok (PnRef (Owned (length cells)), mkPyWorld (cells ++ [CNode n]) (pw_pddl w) (pw_store w))
    | PnIter x =>
        let* n := shown_node cells x in
        if pw_pddl w then
          let* ' (c, st) := cursor_begin L p fuel n (pw_store w) in
          let* _ := cursor_end p in
          Ok (PnIterator (length cells), mkPyWorld (cells ++ [CIter x c true]) true st)
        else UB
    | PnNext i => if pw_pddl w then pn_next fuel i w else UB
    | PnShow x =>
        let* n := shown_node cells x in
        match pw_pddl w, st_elements (nd_state n) with
        | false, _ :: _ => UB
        | _, _ => Ok (PnValue n, w)
        end
    | PnDrop => Ok (PnDone, mkPyWorld cells false (pw_store w))
    end.

  Fixpoint pn_run (fuel : nat) (ops : list pn_op) (w : py_world) : outcome (list pn_result * py_world) :=
    match ops with
    | [] => Ok ([], w)
    | o :: ops' =>
        let* ' (r, w') := pn_step fuel o w in
        let* ' (rs, w'') := pn_run fuel ops' w' in
        Ok (r :: rs, w'')
    end.

  (** A program that starts with the roots of some planners. *)
  Definition pn_start (roots : list node) (st : store) : py_world := mkPyWorld (map CNode roots) true st.
End WithHash.
