(** src/python/symbolic.cc 277-278, 295, 334-346 and pddl.cc 516-543: the Objects
    in pddl.objects while objects are added and removed.

    [Pddl::objects] returns a reference to objects_ (pddl.h 231), so that the
    Python list holds references to the elements of that vector (pybind11/stl.h
    keeps the policy, which is reference_internal for properties); [Object::type]
    returns a reference to a member of the element (object.h 51).  The code of
    pybind11 is outside the repository; it is modelled by its documented
    behaviour, which also keeps the Pddl alive. *)
From Coq Require Import String List Bool Arith.
From Verif.Model Require Import Base Object Objects.
Import ListNotations.

(** An element of objects_: the symbol it points to (symbols are numbered), and
    its name and type. *)
Record slot : Set := mkSlot { sl_sym : nat; sl_obj : object }.

(** objects_ (pddl.h 258) as a std::vector: its elements, the number of its
    buffer and its capacity; the next new symbol and the deleted ones. *)
Record objects_world : Set := mkOW {
  ow_slots : list slot;
  ow_buffer : nat;
  ow_capacity : nat;
  ow_next : nat;
  ow_deleted : list nat
}.

(** A reference to an element: buffer and position. *)
Definition object_ref : Set := (nat * nat)%type.

(** Reading through a reference: the buffer may have been freed, or have no
    element at that position any more. *)
Definition deref (w : objects_world) (r : object_ref) : outcome slot :=
  if Nat.eqb (fst r) (ow_buffer w) then
    match nth_error (ow_slots w) (snd r) with Some s => Ok s | None => UB end
  else UB.
(** symbolic.cc 344, 346 and object.cc 122: the name is read from the symbol. *)
Definition ref_name (w : objects_world) (r : object_ref) : outcome string :=
  let* s := deref w r in
  if existsb (Nat.eqb (sl_sym s)) (ow_deleted w) then UB else Ok (oname (sl_obj s)).
(** symbolic.cc 339-340, 345 and object.cc 101-104: the type has a symbol of its own. *)
Definition ref_type (w : objects_world) (r : object_ref) : outcome string :=
  let* s := deref w r in Ok (type_name (otype (sl_obj s))).

(** symbolic.cc 295, pddl.objects *)
Definition py_objects (w : objects_world) : list object_ref :=
  map (fun i => (ow_buffer w, i)) (seq 0 (length (ow_slots w))).

(** pddl.cc 527-543, RemoveObject: erase moves the following elements down. *)
Fixpoint find_slot (name : string) (l : list slot) : option nat :=
  match l with
  | [] => None
  | s :: l' => if String.eqb (oname (sl_obj s)) name then Some 0 else option_map S (find_slot name l')
  end.
Definition ow_remove (name : string) (w : objects_world) : objects_world :=
  match find_slot name (ow_slots w) with
  | None => w
  | Some k =>
      mkOW (firstn k (ow_slots w) ++ skipn (S k) (ow_slots w)) (ow_buffer w) (ow_capacity w) (ow_next w)
        (match nth_error (ow_slots w) k with Some s => sl_sym s :: ow_deleted w | None => ow_deleted w end)
  end.

Section Growth.
  (** The capacity a std::vector takes when the given one is used up. *)
  Context (grow : nat -> nat).

  (** pddl.cc 516-525, AddObject: emplace_back moves to a new buffer if the old
      one is full. *)
  Definition ow_add (types : option (list pddl_type)) (name type : string) (w : objects_world) : outcome objects_world :=
    match types with
    | None => UB
    | Some types =>
        let s := mkSlot (ow_next w) (mkObj name (get_type_symbol types (find_type types type)) KConst) in
        let full := Nat.eqb (length (ow_slots w)) (ow_capacity w) in
        Ok (mkOW (ow_slots w ++ [s])
              (if full then S (ow_buffer w) else ow_buffer w)
              (if full then grow (ow_capacity w) else ow_capacity w)
              (S (ow_next w)) (ow_deleted w))
    end.

  (** What a program does: held += pddl.objects, add_object, remove_object, and
      reading held[k].name, held[k].type.name. *)
  Inductive ob_op : Set :=
  | ObList
  | ObAdd (name type : string)
  | ObRemove (name : string)
  | ObName (k : nat)
  | ObType (k : nat).
  Inductive ob_result : Set :=
  | ObCount (n : nat)
  | ObDone
  | ObText (s : string).

  (** symbolic.cc 277-278, 295, 334-346.  References that are not held do not
      occur in programs. *)
  Definition ob_step (types : option (list pddl_type)) (o : ob_op) (wh : objects_world * list object_ref)
      : outcome (ob_result * (objects_world * list object_ref)) :=
    let '(w, held) := wh in
    match o with
    | ObList => Ok (ObCount (length (py_objects w)), (w, held ++ py_objects w))
    | ObAdd n t => let* w' := ow_add types n t w in Ok (ObDone, (w', held))
    | ObRemove n => Ok (ObDone, (ow_remove n w, held))
    | ObName k =>
        match nth_error held k with
        | Some r => let* s := ref_name w r in Ok (ObText s, (w, held))
        | None => Throw EInvalidArgument
        end
    | ObType k =>
        match nth_error held k with
        | Some r => let* s := ref_type w r in Ok (ObText s, (w, held))
        | None => Throw EInvalidArgument
        end
    end.
  (** The operations of a program, symbolic.cc 277-346, one after the other. *)
  Fixpoint ob_run (types : option (list pddl_type)) (ops : list ob_op) (wh : objects_world * list object_ref)
      : outcome (list ob_result * (objects_world * list object_ref)) :=
    match ops with
    | [] => Ok ([], wh)
    | o :: ops' =>
        let* ' (r, wh') := ob_step types o wh in
        let* ' (rs, wh'') := ob_run types ops' wh' in
        Ok (r :: rs, wh'')
    end.

  (** Loops over Objects, symbolic.cc 277-278, 344:
      for o in objects: pddl.remove_object(o.name) and
      for o in objects: pddl.add_object(f(o.name), type). *)
  Definition remove_each (rs : list object_ref) (w : objects_world) : outcome objects_world :=
    foldM (fun w r => let* n := ref_name w r in Ok (ow_remove n w)) rs w.
  Definition add_each (types : option (list pddl_type)) (f : string -> string) (type : string)
      (rs : list object_ref) (w : objects_world) : outcome objects_world :=
    foldM (fun w r => let* n := ref_name w r in ow_add types (f n) type w) rs w.
End Growth.

(** pddl.cc 129-143 and 256: objects_ of a new Pddl, with any capacity that is
    large enough; every object has its own symbol. *)
Definition new_world (objects : list object) (capacity : nat) : objects_world :=
  mkOW (map (fun io => mkSlot (fst io) (snd io)) (combine (seq 0 (length objects)) objects))
    0 capacity (length objects) [].
