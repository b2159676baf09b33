(** What a Python program sees of generators and their argument tuples. *)
From Coq Require Import String List Bool Arith ZArith.
From Verif.Model Require Import Base Object PyArgs.
Import ListNotations.

Section Abstract.
  (** The tuples of each generator. *)
  Context (tuples_of : nat -> option (list (list object))).

  (** A list of objects, or a loop over a generator that has returned some of its
      tuples. *)
  Inductive g_cell : Type :=
  | GArgs (l : list object)
  | GLoop (k : nat) (given : nat).

  (** A list from gen[i] shows its tuple.  All lists from one loop show the tuple
      returned last. *)
  Definition g_shows (cells : list g_cell) (x : args_ref) : option (list object) :=
    match x with
    | OwnArgs j => match nth_error cells j with Some (GArgs l) => Some l | _ => None end
    | SlotsOf j =>
        match nth_error cells j with
        | Some (GLoop k (S g)) => match tuples_of k with Some T => nth_error T g | None => None end
        | _ => None
        end
    end.

  (** None: names that do not exist, ints out of range, and index. *)
  Definition g_step (o : pa_op) (cells : list g_cell) : option (pa_result * list g_cell) :=
    match o with
    | PaLen k => option_map (fun T => (PaNumber (Z.of_nat (length T)), cells)) (tuples_of k)
    | PaAt k i =>
        match tuples_of k with
        | Some T =>
            let j := (if i <? 0 then i + Z.of_nat (length T) else i)%Z in
            if ((- 2 ^ 31 <=? i) && (i <? 2 ^ 31))%Z then
              match (if j <? 0 then None else nth_error T (Z.to_nat j))%Z with
              | Some l => Some (PaList (OwnArgs (length cells)), cells ++ [GArgs l])
              | None => Some (PaIndexError, cells)
              end
            else None
        | None => None
        end
    | PaLoop k => option_map (fun _ => (PaIterator (length cells), cells ++ [GLoop k 0])) (tuples_of k)
    | PaNext i =>
        match nth_error cells i with
        | Some (GLoop k g) =>
            match tuples_of k with
            | Some T =>
                match nth_error T g with
                | Some _ => Some (PaList (SlotsOf i), set_nth i (GLoop k (S g)) cells)
                | None => Some (PaStop, cells)
                end
            | None => None
            end
        | _ => None
        end
    | PaShow x => option_map (fun l => (PaNames (map oname l), cells)) (g_shows cells x)
    | PaIndex _ _ => None
    end.

  Fixpoint g_run (ops : list pa_op) (cells : list g_cell) : option (list pa_result) :=
    match ops with
    | [] => Some []
    | o :: ops' =>
        match g_step o cells with
        | Some (r, cells') => option_map (cons r) (g_run ops' cells')
        | None => None
        end
    end.
End Abstract.
