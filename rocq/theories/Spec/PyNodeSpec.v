(** What a Python program should see of nodes and loops over their children:
    nodes are values, an iterator is a list of children and a number. *)
From Coq Require Import List Bool Arith.
From Verif.Model Require Import Base Planner PyNode.
Import ListNotations.

Section Abstract.
  Context (kids : node -> list node).

  (** A node, or an iterator over the children of a node: which child of which
      other iterator the node was (None if it was an object of its own), how many
      children were returned, and whether it has stopped. *)
  Inductive a_cell : Type :=
  | ANode (n : node)
  | AIter (n : node) (from : option (nat * nat)) (given : nat) (over : bool).

  (** A node object shows its node.  What next() returned shows the child
      returned last, until the iterator stops. *)
  Definition a_shows (cells : list a_cell) (x : node_ref) : option node :=
    match x with
    | Owned k => match nth_error cells k with Some (ANode n) => Some n | _ => None end
    | ViewOf k =>
        match nth_error cells k with
        | Some (AIter n _ (S g) false) => nth_error (kids n) g
        | _ => None
        end
    end.

  (** The other iterator has not moved. *)
  Definition a_still (cells : list a_cell) (from : option (nat * nat)) : bool :=
    match from with
    | None => true
    | Some (k, g) => match nth_error cells k with Some (AIter _ _ g' false) => Nat.eqb g g' | _ => false end
    end.
  Definition a_given (cells : list a_cell) (k : nat) : nat :=
    match nth_error cells k with Some (AIter _ _ g _) => g | _ => 0 end.

  (** None: the program uses an object that next() returned after the iterator
      has stopped, or goes on with a loop over the children of such an object
      after the iterator it is from has moved on; or it drops the Pddl. *)
  Definition a_step (o : pn_op) (cells : list a_cell) : option (pn_result * list a_cell) :=
    match o with
    | PnCopy x =>
        match a_shows cells x with
        | Some n => Some (PnRef (Owned (length cells)), cells ++ [ANode n])
        | None => None
        end
    | PnIter x =>
        match a_shows cells x with
        | Some n =>
            let from := match x with Owned _ => None | ViewOf k => Some (k, a_given cells k) end in
            Some (PnIterator (length cells), cells ++ [AIter n from 0 false])
        | None => None
        end
    | PnNext i =>
        match nth_error cells i with
        | Some (AIter n from g over) =>
            if Nat.eqb g 0 || over || a_still cells from then
              match nth_error (kids n) g with
              | Some _ => Some (PnRef (ViewOf i), set_nth i (AIter n from (S g) false) cells)
              | None => Some (PnStop, set_nth i (AIter n from g true) cells)
              end
            else None
        | _ => None
        end
    | PnShow x => match a_shows cells x with Some n => Some (PnValue n, cells) | None => None end
    | PnDrop => None
    end.

  Fixpoint a_run (ops : list pn_op) (cells : list a_cell) : option (list pn_result) :=
    match ops with
    | [] => Some []
    | o :: ops' =>
        match a_step o cells with
        | Some (r, cells') => option_map (cons r) (a_run ops' cells')
        | None => None
        end
    end.
End Abstract.
