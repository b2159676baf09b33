(** Iterators as positions in lists. *)
From Coq Require Import String List Bool ZArith.
From Verif.Model Require Import Base Proposition IndexIter.
Import ListNotations.
Local Open Scope Z_scope.
Local Open Scope list_scope.

Section Abstract.
  (** The propositions of each index. *)
  Context (props_of : nat -> option (list prop)).

  (** A position in the list of an index, and what was read there last. *)
  Record p_iter : Type := mkPIter { p_of : nat; p_pos : Z; p_shown : option prop }.

  (** Positions are 0 (begin) to the length (end). *)
  Definition p_plus (n : Z) (it : p_iter) : option p_iter :=
    match props_of (p_of it) with
    | Some l =>
        let q := p_pos it + n in
        if (0 <=? q) && (q <=? Z.of_nat (length l)) then Some (mkPIter (p_of it) q (p_shown it)) else None
    | None => None
    end.
  Definition p_get (it : p_iter) : option prop :=
    match props_of (p_of it) with
    | Some l => if 0 <=? p_pos it then nth_error l (Z.to_nat (p_pos it)) else None
    | None => None
    end.
  Definition opt_bind {A B} (x : option A) (f : A -> option B) : option B := match x with Some a => f a | None => None end.

  (** Positions in one index are ordered as numbers; positions in two indexes are
      different and in no order. *)
  Definition p_compare (f : Z -> Z -> bool) (apart : bool) (a b : p_iter) : bool :=
    if Nat.eq_dec (p_of a) (p_of b) then f (p_pos a) (p_pos b) else apart.

  (** None: moves beyond begin or end, reading at end, reading a reference before
      there is one, differences between indexes, references to something gone. *)
  Definition p_step (o : x_op) (its : list p_iter) : option (x_result * list p_iter) :=
    let new it := Some (XIter (length its), its ++ [it]) in
    let compare f apart i j :=
      opt_bind (nth_error its i) (fun a => opt_bind (nth_error its j) (fun b => Some (XBool (p_compare f apart a b), its))) in
    match o with
    | XBegin k => opt_bind (props_of k) (fun _ => new (mkPIter k 0 None))
    | XEnd k => opt_bind (props_of k) (fun l => new (mkPIter k (Z.of_nat (length l)) None))
    | XCopy i => opt_bind (nth_error its i) new
    | XMove i n => opt_bind (nth_error its i) (fun it => opt_bind (p_plus n it) (fun it' => Some (XDone, set_nth i it' its)))
    | XBack i n => opt_bind (nth_error its i) (fun it => opt_bind (p_plus (- n) it) (fun it' => Some (XDone, set_nth i it' its)))
    | XPlus i n => opt_bind (nth_error its i) (fun it => opt_bind (p_plus n it) new)
    | XPost i n =>
        opt_bind (nth_error its i) (fun it => opt_bind (p_plus n it) (fun it' =>
          Some (XIter (length its), set_nth i it' its ++ [it])))
    | XDeref i =>
        opt_bind (nth_error its i) (fun it => opt_bind (p_get it) (fun p =>
          Some (XRef (Some i), set_nth i (mkPIter (p_of it) (p_pos it) (Some p)) its)))
    | XRead (Some i) => opt_bind (nth_error its i) (fun it => opt_bind (p_shown it) (fun p => Some (XProp p, its)))
    | XAt i n =>
        opt_bind (nth_error its i) (fun it => opt_bind (p_plus n it) (fun it' => opt_bind (p_get it') (fun p =>
          Some (XProp p, its))))
    | XDiff i j =>
        opt_bind (nth_error its i) (fun a => opt_bind (nth_error its j) (fun b =>
          if Nat.eq_dec (p_of a) (p_of b) then Some (XNumber (p_pos a - p_pos b), its) else None))
    | XEq i j => compare Z.eqb false i j
    | XNe i j => compare (fun a b => negb (a =? b)) true i j
    | XLt i j => compare Z.ltb false i j
    | XGt i j => compare Z.gtb false i j
    | XLe i j => compare Z.leb false i j
    | XGe i j => compare Z.geb false i j
    | XPlusDeref _ _ | XReverse _ | XRead None => None
    end.

  Fixpoint p_run (ops : list x_op) (its : list p_iter) : option (list x_result) :=
    match ops with
    | [] => Some []
    | o :: ops' => opt_bind (p_step o its) (fun ' (r, its') => option_map (cons r) (p_run ops' its'))
    end.
End Abstract.
