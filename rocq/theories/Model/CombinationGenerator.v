(** include/symbolic/utils/combination_generator.h *)
From Coq Require Import List Bool ZArith.
From Verif.Model Require Import Base.
Import ListNotations.
Local Open Scope Z_scope.

(** Conversions to size_t (64 bit, unsigned) and to int (32 bit, two's
    complement), as performed implicitly throughout the header. *)
Definition to_size_t (z : Z) : Z := z mod 2 ^ 64.
Definition to_int (z : Z) : Z := (z + 2 ^ 31) mod 2 ^ 32 - 2 ^ 31.

Section Generator.
  (** Element type of the option containers; [dflt] is the value-initialised
      element that [vector::resize] creates (lines 307, 338). *)
  Context {A : Type} (dflt : A) (eqb : A -> A -> bool).

  (** 201-203.  The pointers in [options_] are modelled by the vectors they
      point to; these are not modified during the generator's life. *)
  Record gen : Type := mkGen { g_options : list (list A); g_groups : list Z; g_size : Z }.

  Definition size_of (o : list A) : Z := Z.of_nat (length o).

  (** 172-188, ComputeGroupSizes, right to left. *)
  Fixpoint group_sizes (options : list (list A)) : list Z :=
    match options with
    | [] => []
    | _ :: rest =>
        let groups := group_sizes rest in
        match rest, groups with
        | next :: _, g :: gs => to_size_t (size_of next * g) :: g :: gs
        | _, _ => [1]
        end
    end.

  (** 195-199, ComputeSize. *)
  Definition compute_size (options : list (list A)) (groups : list Z) : Z :=
    match options, groups with
    | o :: _, g :: _ => to_size_t (size_of o * g)
    | _, _ => 0
    end.

  (** 65-76, constructor. *)
  Definition make_gen (options : list (list A)) : outcome gen :=
    if existsb (fun o => match o with [] => true | _ => false end) options
    then Throw EInvalidArgument
    else Ok (mkGen options (group_sizes options) (compute_size options (group_sizes options))).

  (** 62, default constructor. *)
  Definition default_gen : gen := mkGen [] [] 0.

  (** 359-361: position and current combination; [gen_] is passed separately. *)
  Record iter : Type := mkIter { it_idx : Z; it_comb : list A }.

  (** 312-313, 344-347: one mixed-radix digit and what remains.  The operands
      are converted to size_t, the results to int. *)
  Definition digit (remaining g : Z) : outcome (Z * Z) :=
    if g =? 0 then UB else
    let d := to_int (to_size_t remaining / g) in
    Ok (d, to_int (to_size_t (to_size_t remaining - to_size_t (to_size_t d * g)))).

  (** [options_[i]->at(idx)] with an int argument (316, 353). *)
  Definition option_at (o : list A) (d : Z) : outcome A :=
    let i := to_size_t d in
    if i <? size_of o then index_at o (Z.to_nat i) else Throw EOutOfRange.

  (** 306-307, 337-338: preallocation. *)
  Definition prealloc (g : gen) (comb : list A) : list A :=
    match comb with [] => repeat dflt (length (g_options g)) | _ => comb end.

  (** 303, 331: [idx >= size() || idx < 0]. *)
  Definition out_of_bounds (g : gen) (idx : Z) : bool :=
    (g_size g <=? to_size_t idx) || (idx <? 0).

  (** 309-317, loop over the slots. *)
  Fixpoint set_digits (options : list (list A)) (groups : list Z) (comb : list A)
      (remaining : Z) : outcome (list A * Z) :=
    match options, groups, comb with
    | [], _, _ => Ok (comb, remaining)
    | o :: os, g :: gs, _ :: cs =>
        let* ' (d, rem) := digit remaining g in
        let* x := option_at o d in
        let* ' (cs', rem') := set_digits os gs cs rem in
        Ok (x :: cs', rem')
    | _, _, _ => UB
    end.

  (** 301-319, UpdateCombination(). *)
  Definition update_all (g : gen) (it : iter) : outcome iter :=
    if out_of_bounds g (it_idx it) then Ok it else
    let* ' (comb, rem) :=
      set_digits (g_options g) (g_groups g) (prealloc g (it_comb it)) (it_idx it) in
    if rem =? 0 then Ok (mkIter (it_idx it) comb) else AssertFail.

  (** 340-354, loop over the slots rewriting only changed digits. *)
  Fixpoint change_digits (options : list (list A)) (groups : list Z) (comb : list A)
      (remaining remaining_new : Z) : outcome (list A * Z) :=
    match options, groups, comb with
    | [], _, _ => Ok (comb, remaining)
    | o :: os, g :: gs, c :: cs =>
        let* ' (d, rem) := digit remaining g in
        let* ' (d_new, rem_new) := digit remaining_new g in
        let* x := if d =? d_new then Ok c else option_at o d_new in
        let* ' (cs', rem') := change_digits os gs cs rem rem_new in
        Ok (x :: cs', rem')
    | _, _, _ => UB
    end.

  (** 326-357, UpdateCombination(idx_new). *)
  Definition update_to (g : gen) (it : iter) (idx_new : Z) : outcome iter :=
    if it_idx it =? idx_new then Ok it else
    if out_of_bounds g idx_new then Ok (mkIter idx_new (it_comb it)) else
    let* ' (comb, rem) :=
      change_digits (g_options g) (g_groups g) (prealloc g (it_comb it)) (it_idx it) idx_new in
    if rem =? 0 then Ok (mkIter idx_new comb) else AssertFail.

  (** 223-225, constructor Iterator(gen, idx). *)
  Definition new_iter (g : gen) (idx : Z) : outcome iter :=
    update_all g (mkIter (to_int idx) []).

  (** 79-84, begin() and end(). *)
  Definition gen_begin (g : gen) : outcome iter := new_iter g 0.
  Definition gen_end (g : gen) : outcome iter := new_iter g (g_size g).

  (** 268-271, operator+=; operator++ is +1 (228), operator-- is -1 (247),
      operator-= n is +=(-n) (282). *)
  Definition it_move (g : gen) (n : Z) (it : iter) : outcome iter :=
    update_to g it (to_int (it_idx it + n)).

  (** 240-242, operator== on iterators of the same generator. *)
  Definition it_eqb (a b : iter) : bool := it_idx a =? it_idx b.

  (** 131-133, operator[]. *)
  Definition gen_index (g : gen) (i : Z) : outcome (list A) :=
    let* b := gen_begin g in
    let* it := it_move g i b in
    Ok (it_comb it).

  (** 115-126, at. *)
  Definition gen_at (g : gen) (i : Z) : outcome (list A) :=
    let i := if i <? 0 then to_int (to_size_t (to_size_t i + g_size g)) else i in
    if out_of_bounds g i then Throw EOutOfRange else gen_index g i.

  (** [std::find] then [it - begin()] (148-157). *)
  Fixpoint find_index (o : list A) (x : A) : option Z :=
    match o with
    | [] => None
    | y :: o' => if eqb y x then Some 0 else option_map (Z.add 1) (find_index o' x)
    end.

  (** 143-159 *)
  Fixpoint find_loop (options : list (list A)) (groups : list Z) (comb : list A) (idx : Z)
      : outcome Z :=
    match comb with
    | [] => Ok idx
    | c :: cs =>
        match options, groups with
        | o :: os, g :: gs =>
            match find_index o c with
            | None => Throw EOutOfRange
            | Some k => find_loop os gs cs (to_size_t (idx + to_size_t (g * k)))
            end
        | _, _ => Throw EOutOfRange      (* options_.at(i) *)
        end
    end.

  (** 138-162, find. *)
  Definition gen_find (g : gen) (comb : list A) : outcome Z :=
    if (length comb =? length (g_options g))%nat then
      let* idx := find_loop (g_options g) (g_groups g) comb 0 in Ok (to_int idx)
    else AssertFail.

  (** The loop [for (it = begin; it != end; it += step) visit( *it)], the shape
      of every range-based for over a generator ([step] = 1) or over a pair of
      reverse iterators ([step] = -1, 382-385). *)
  Fixpoint gen_loop (fuel : nat) (g : gen) (step : Z) (it stop : iter) : outcome (list (list A)) :=
    if it_eqb it stop then Ok [] else
    match fuel with
    | O => OutOfFuel
    | S fuel' =>
        let* it' := it_move g step it in
        let* rest := gen_loop fuel' g step it' stop in
        Ok (it_comb it :: rest)
    end.

  Definition gen_traverse (fuel : nat) (g : gen) : outcome (list (list A)) :=
    let* b := gen_begin g in
    let* e := gen_end g in
    gen_loop fuel g 1 b e.

  (** 87-94 and 379: rbegin() is --end(), rend() is --begin(). *)
  Definition gen_rbegin (g : gen) : outcome iter := let* e := gen_end g in it_move g (-1) e.
  Definition gen_rend (g : gen) : outcome iter := let* b := gen_begin g in it_move g (-1) b.
  Definition gen_rtraverse (fuel : nat) (g : gen) : outcome (list (list A)) :=
    let* b := gen_rbegin g in
    let* e := gen_rend g in
    gen_loop fuel g (-1) b e.

  (** A sequence of moves of one iterator. *)
  Definition it_moves (g : gen) (ns : list Z) (it : iter) : outcome iter :=
    foldM (fun it n => it_move g n it) ns it.
End Generator.
Arguments gen A : clear implicits.
Arguments iter A : clear implicits.
