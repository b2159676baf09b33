(** src/planning/planner.cc 142-244: the iterator over the children of a node,
    with the iterators it is made of, and steps in both directions.  Planner.v
    models the same loops forward, with lists of tuples. *)
From Coq Require Import String List Bool NArith ZArith Arith.
From Verif.Model Require Import Base Object Proposition State CombinationGenerator
  ParameterGenerator Syntax Formula Effects Derived NormalForm Consistency Text Pddl Planner.
Import ListNotations.
Local Open Scope string_scope.
Local Open Scope list_scope.

(** planner.h 113-119: child_, it_action_ (its distance from the first action)
    and it_param_. *)
Record cursor : Type := mkCursor {
  cu_action : nat;
  cu_param : iter object;
  cu_child : option node
}.

Section WithHash.
  Context `{SH : StdHash} (L : limits) (p : pddl).

  (** it_action_->parameter_generator() *)
  Definition act_gen (k : nat) : outcome (gen object) :=
    match nth_error (pd_actions p) k with
    | Some o => param_gen (pd_om p) (op_params o)
    | None => UB
    end.

  (** planner.cc 164-178, 193-205 and 222-236.  Arguments that were never set
      (C11) are null Objects; reading their names is undefined.  That is counted
      even where a formula would not read them. *)
  Definition null_arg (args : list object) : bool := existsb (fun a => String.eqb (oname a) "") args.
  Definition try_at (n : node) (k : nat) (it : iter object) (child : option node) (st : store)
      : outcome (bool * (option node * store)) :=
    match nth_error (pd_actions p) k with
    | Some o => if null_arg (it_comb it) then UB else try_tuple L p n o (it_comb it) child st
    | None => UB
    end.

  (** planner.cc 148-183, operator++; [fuel] bounds the iterations. *)
  Fixpoint cursor_next (fuel : nat) (n : node) (c : cursor) (st : store) : outcome (cursor * store) :=
    if Nat.eqb (cu_action c) (length (pd_actions p)) then Ok (c, st) else
    match fuel with
    | O => OutOfFuel
    | S f =>
        let check k it :=
          let* ' (stop, (ch, st')) := try_at n k it (cu_child c) st in
          let c' := mkCursor k it ch in
          if stop : bool then Ok (c', st') else cursor_next f n c' st' in
        let* g := act_gen (cu_action c) in
        let* e := gen_end null_object g in
        if it_eqb (cu_param c) e then
          let k := S (cu_action c) in
          if Nat.eqb k (length (pd_actions p)) then Ok (mkCursor k (cu_param c) (cu_child c), st) else
          let* g' := act_gen k in
          let* b := gen_begin null_object g' in
          let* e' := gen_end null_object g' in
          if it_eqb b e' then cursor_next f n (mkCursor k b (cu_child c)) st else check k b
        else
          let* it := it_move null_object g 1 (cu_param c) in
          if it_eqb it e then cursor_next f n (mkCursor (cu_action c) it (cu_child c)) st
          else check (cu_action c) it
    end.

  (** planner.cc 79-107, begin *)
  Definition cursor_begin (fuel : nat) (n : node) (st : store) : outcome (cursor * store) :=
    let* g := act_gen 0 in
    let* b := gen_begin null_object g in
    let* e := gen_end null_object g in
    if it_eqb b e then cursor_next fuel n (mkCursor 0 b None) st else
    let* ' (stop, (ch, st')) := try_at n 0 b None st in
    let c := mkCursor 0 b ch in
    if stop : bool then Ok (c, st') else cursor_next fuel n c st'.

  (** planner.cc 109-113, end *)
  Definition cursor_end : outcome cursor :=
    let* g := act_gen 0 in
    let* b := gen_begin null_object g in
    Ok (mkCursor (length (pd_actions p)) b None).

  (** planner.cc 208-237, the loop of operator-- *)
  Fixpoint cursor_back (fuel : nat) (n : node) (c : cursor) (st : store) : outcome (cursor * store) :=
    let* g := act_gen (cu_action c) in
    let* b := gen_begin null_object g in
    if Nat.eqb (cu_action c) 0 && it_eqb (cu_param c) b then Ok (c, st) else
    match fuel with
    | O => OutOfFuel
    | S f =>
        let* ' (k, it) :=
          if it_eqb (cu_param c) b then
            let k := pred (cu_action c) in
            let* g' := act_gen k in
            let* e := gen_end null_object g' in
            let* it := it_move null_object g' (-1) e in
            Ok (k, it)
          else
            let* it := it_move null_object g (-1) (cu_param c) in
            Ok (cu_action c, it) in
        let* ' (stop, (ch, st')) := try_at n k it (cu_child c) st in
        let c' := mkCursor k it ch in
        if stop : bool then Ok (c', st') else cursor_back f n c' st'
    end.

  (** planner.cc 185-240, operator-- *)
  Definition cursor_prev (fuel : nat) (n : node) (c : cursor) (st : store) : outcome (cursor * store) :=
    if Nat.eqb (cu_action c) (length (pd_actions p)) then
      match length (pd_actions p) with
      | O => UB
      | S k =>
          let* g := act_gen k in
          let* e := gen_end null_object g in
          let* it := it_move null_object g (-1) e in
          let* ' (stop, (ch, st')) := try_at n k it (cu_child c) st in
          let c' := mkCursor k it ch in
          if stop : bool then Ok (c', st') else cursor_back fuel n c' st'
      end
    else cursor_back fuel n c st.

  (** planner.cc 242-244, operator==; == end() *)
  Definition cursor_eqb (a b : cursor) : bool :=
    Nat.eqb (cu_action a) (cu_action b) && Nat.eqb (cu_action a) (length (pd_actions p)).
  Definition at_end (c : cursor) : bool := Nat.eqb (cu_action c) (length (pd_actions p)).

  (** Some ++ (true) and -- (false). *)
  Definition cursor_steps (fuel : nat) (n : node) (bs : list bool) (w : cursor * store) : outcome (cursor * store) :=
    foldM (fun w (b : bool) => if b then cursor_next fuel n (fst w) (snd w) else cursor_prev fuel n (fst w) (snd w)) bs w.
End WithHash.
