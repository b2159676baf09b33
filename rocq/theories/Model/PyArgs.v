(** src/python/symbolic.cc 44-52, 349-362, 364-407 and 473-489: argument tuples
    and calls in Python.

    Objects in a list that comes from a reference to a std::vector are themselves
    references to the elements (pybind11/stl.h keeps the policy, which is
    reference_internal in make_iterator).  [operator*] of the iterator returns a
    reference to its combination_ (combination_generator.h 236), so the lists that
    next() returns refer to the slots of the iterator; [at] returns a copy.  The
    code of pybind11 is outside the repository; it is modelled by its documented
    behaviour. *)
From Coq Require Import String List Bool Arith ZArith.
From Verif.Model Require Import Base Object CombinationGenerator ParameterGenerator Text.
Import ListNotations.

(** A list of Objects: its own (gen[i]), or the slots of an iterator. *)
Inductive args_ref : Set := OwnArgs (k : nat) | SlotsOf (k : nat).

(** Lists and iterators of a program, named by their positions.  An iterator has
    the flag first_or_done of make_iterator. *)
Inductive pa_cell : Type :=
| PaArgs (l : list object)
| PaIter (g : nat) (it : iter object) (waiting : bool).

(** len(gen), gen[i], iter(gen), next(it), reading the names in a list, and
    gen.index(names); generators are named by numbers. *)
Inductive pa_op : Set :=
| PaLen (g : nat)
| PaAt (g : nat) (i : Z)
| PaLoop (g : nat)
| PaNext (i : nat)
| PaShow (x : args_ref)
| PaIndex (g : nat) (names : list string).
Inductive pa_result : Type :=
| PaNumber (n : Z)
| PaList (x : args_ref)
| PaIterator (i : nat)
| PaNames (l : list string)
| PaStop
| PaIndexError.

(** The pointers to a Pddl kept by its parts: ParameterGenerator.pddl_ is not set
    by the constructors (parameter_generator.cc 61-76), nor is that of the Action
    in a Predicate (predicate.cc 20-24 uses the default constructor); an Action
    points to the Pddl it was made for (action.cc 333), which is gone once that
    Pddl was moved, as when it is unpickled (symbolic.cc 328-332). *)
Inductive back_pointer : Set := BpNull | BpGone | BpPddl.

(** 44-52 and object.cc 145-153 *)
Definition parse_names (objects : list object) (bp : back_pointer) (names : list string) : outcome (list object) :=
  match names, bp with
  | [], _ => Ok []
  | _, BpPddl => mapM (get_object objects) names
  | _, _ => UB
  end.
(** 355-359 and 386-392 *)
Definition py_call_text (objects : list object) (bp : back_pointer) (name : string) (names : list string) : outcome string :=
  let* args := parse_names objects bp names in Ok (print_call name args).

Section WithHash.
  Context `{SH : StdHash} (objects : list object) (gens : list (gen object)).

  (** Reading a list: its own objects, or those in combination_ of the iterator
      (combination_generator.h 236). *)
  Definition shown_args (cells : list pa_cell) (x : args_ref) : outcome (list object) :=
    match x with
    | OwnArgs k => match nth_error cells k with Some (PaArgs l) => Ok l | _ => Throw EInvalidArgument end
    | SlotsOf k => match nth_error cells k with Some (PaIter _ it _) => Ok (it_comb it) | _ => Throw EInvalidArgument end
    end.

  (** 484-489 *)
  Definition py_index (g : gen object) (names : list string) : outcome Z :=
    let* args := parse_names objects BpNull names in gen_find obj_eqb g args.

  (** 474-489.  std::out_of_range becomes IndexError.  Names of generators,
      lists and iterators that do not exist do not occur in Python programs. *)
  Definition pa_step (o : pa_op) (cells : list pa_cell) : outcome (pa_result * list pa_cell) :=
    let the_gen k := match nth_error gens k with Some g => Ok g | None => Throw EInvalidArgument end in
    match o with
    | PaLen k => let* g := the_gen k in Ok (PaNumber (g_size g), cells)
    | PaAt k i =>
        let* g := the_gen k in
        match gen_at null_object g i with
        | Ok l => Ok (PaList (OwnArgs (length cells)), cells ++ [PaArgs l])
        | Throw EOutOfRange => Ok (PaIndexError, cells)
        | Throw e => Throw e
        | UB => UB
        | AssertFail => AssertFail
        | OutOfFuel => OutOfFuel
        end
    | PaLoop k =>
        let* g := the_gen k in
        let* it := gen_begin null_object g in
        let* _ := gen_end null_object g in
        Ok (PaIterator (length cells), cells ++ [PaIter k it true])
    | PaNext i =>
        match nth_error cells i with
        | Some (PaIter k it waiting) =>
            let* g := the_gen k in
            let* it' := if waiting : bool then Ok it else it_move null_object g 1 it in
            let* e := gen_end null_object g in
            let stop := it_eqb it' e in
            Ok (if stop then PaStop else PaList (SlotsOf i), set_nth i (PaIter k it' stop) cells)
        | _ => Throw EInvalidArgument
        end
    | PaShow x => let* l := shown_args cells x in Ok (PaNames (map oname l), cells)
    | PaIndex k names => let* g := the_gen k in let* i := py_index g names in Ok (PaNumber i, cells)
    end.

  (** A program, 474-489: its operations one after the other. *)
  Fixpoint pa_run (ops : list pa_op) (cells : list pa_cell) : outcome (list pa_result * list pa_cell) :=
    match ops with
    | [] => Ok ([], cells)
    | o :: ops' =>
        let* ' (r, cells') := pa_step o cells in
        let* ' (rs, cells'') := pa_run ops' cells' in
        Ok (r :: rs, cells'')
    end.
End WithHash.
