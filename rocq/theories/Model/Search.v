(** include/symbolic/planning: breadth_first_search.h, depth_first_search.h and
    a_star.h. *)
From Coq Require Import List Bool Arith.
From Verif.Model Require Import Base.
Import ListNotations.

Section Search.
  (** NodeT: [goal] is the conversion to bool; [children] is the range-based for
      loop over a node, collected into a list, with whatever other memory it
      reads and writes in [W]. *)
  Context {N W : Type} (goal : N -> outcome bool) (children : N -> W -> outcome (list N * W)).
  Context (max_depth : nat).

  (** A node with its list of ancestors. *)
  Definition entry : Type := N * list N.

  (** ** breadth_first_search.h *)

  (** 79-80: [bi_plan] is ancestors_, None for the null pointer. *)
  Record bfs_it : Type := mkBfs { bi_queue : list entry; bi_plan : option (list N) }.

  (** 77, IsFinished; 67-69, operator== against end() *)
  Definition bfs_finished (it : bfs_it) : bool :=
    match bi_queue it, bi_plan it with [], None => true | _, _ => false end.

  (** 83-141, operator++ without the printing. [late i] says whether the clock is
      found to be past the timeout in iteration [i]; [fuel] bounds the
      iterations. *)
  Fixpoint bfs_incr (fuel : nat) (late : nat -> bool) (i : nat) (q : list entry) (w : W)
      : outcome (bfs_it * W) :=
    match q with
    | [] => Ok (mkBfs [] None, w)
    | (n, ancestors) :: q' =>
        match fuel with
        | O => OutOfFuel
        | S f =>
            if late i then Ok (mkBfs [] None, w)
            else
              let path := ancestors ++ [n] in
              let* g := goal n in
              if g : bool then Ok (mkBfs q' (Some path), w)
              else if Nat.ltb max_depth (length path) then bfs_incr f late (S i) q' w
              else
                let* ' (cs, w') := children n w in
                bfs_incr f late (S i) (q' ++ map (fun c => (c, path)) cs) w'
        end
    end.

  (** 37-40, begin *)
  Definition bfs_begin (fuel : nat) (late : nat -> bool) (root : N) (w : W) : outcome (bfs_it * W) :=
    bfs_incr fuel late 0 [(root, [])] w.

  (** 73, operator*: the null pointer must not be dereferenced. *)
  Definition bfs_deref (it : bfs_it) : outcome (list N) :=
    match bi_plan it with Some plan => Ok plan | None => UB end.

  (** for (plan : bfs): [late c] is the clock of call [c] of operator++; [calls]
      bounds the number of calls. *)
  Fixpoint bfs_loop (calls fuel : nat) (late : nat -> nat -> bool) (c : nat) (it : bfs_it) (w : W)
      : outcome (list (list N) * W) :=
    if bfs_finished it then Ok ([], w)
    else
      match calls with
      | O => OutOfFuel
      | S m =>
          let* plan := bfs_deref it in
          let* ' (it', w') := bfs_incr fuel (late c) 0 (bi_queue it) w in
          let* ' (l, w'') := bfs_loop m fuel late (S c) it' w' in
          Ok (plan :: l, w'')
      end.
  Definition bfs_all (calls fuel : nat) (late : nat -> nat -> bool) (root : N) (w : W)
      : outcome (list (list N) * W) :=
    let* ' (it, w') := bfs_begin fuel (late 0) root w in bfs_loop calls fuel late 1 it w'.

  (** ** depth_first_search.h *)

  (** 65-66; the top of the stack is the head of the list. *)
  Record dfs_it : Type := mkDfs { di_stack : list entry; di_plan : list N }.

  (** 57, operator== against end() *)
  Definition dfs_finished (it : dfs_it) : bool := match di_stack it with [] => true | _ => false end.

  (** 70-94, operator++ *)
  Fixpoint dfs_incr (fuel : nat) (it : dfs_it) (w : W) : outcome (dfs_it * W) :=
    match di_stack it with
    | [] => Ok (it, w)
    | (n, ancestors) :: stack =>
        match fuel with
        | O => OutOfFuel
        | S f =>
            let path := ancestors ++ [n] in
            let* g := goal n in
            if g : bool then Ok (mkDfs stack path, w)
            else if Nat.ltb max_depth (length path) then dfs_incr f (mkDfs stack path) w
            else
              let* ' (cs, w') := children n w in
              dfs_incr f (mkDfs (rev (map (fun c => (c, path)) cs) ++ stack) path) w'
        end
    end.

  (** 30, begin, and for (plan : dfs) *)
  Fixpoint dfs_loop (calls fuel : nat) (it : dfs_it) (w : W) : outcome (list (list N) * W) :=
    if dfs_finished it then Ok ([], w)
    else
      match calls with
      | O => OutOfFuel
      | S m =>
          let* ' (it', w') := dfs_incr fuel it w in
          let* ' (l, w'') := dfs_loop m fuel it' w' in
          Ok (di_plan it :: l, w'')
      end.
  Definition dfs_all (calls fuel : nat) (root : N) (w : W) : outcome (list (list N) * W) :=
    let* ' (it, w') := dfs_incr fuel (mkDfs [(root, [])] []) w in dfs_loop calls fuel it w'.

  (** ** a_star.h *)

  (** std::priority_queue: [pick] gives the position of the element that top()
      and pop() take from the elements of the queue.  Any function is allowed, so
      any comparison and tie breaking. *)
  Context (pick : list entry -> nat).

  (** The element at a position and the others. *)
  Fixpoint take_nth {A} (i : nat) (x : A) (l : list A) : A * list A :=
    match i, l with
    | O, _ | _, [] => (x, l)
    | S j, y :: l' => let '(z, r) := take_nth j y l' in (z, x :: r)
    end.

  (** a_star.h 77-81 *)
  Record ast_it : Type := mkAst { ai_queue : list entry; ai_plan : list N }.
  (** 69-71 *)
  Definition ast_finished (it : ast_it) : bool := match ai_queue it with [] => true | _ => false end.

  (** 84-108, operator++ *)
  Fixpoint ast_incr (fuel : nat) (it : ast_it) (w : W) : outcome (ast_it * W) :=
    match ai_queue it with
    | [] => Ok (it, w)
    | x :: q =>
        match fuel with
        | O => OutOfFuel
        | S f =>
            let '((n, ancestors), q') := take_nth (pick (x :: q)) x q in
            let path := ancestors ++ [n] in
            let* g := goal n in
            if g : bool then Ok (mkAst q' path, w)
            else if Nat.ltb max_depth (length path) then ast_incr f (mkAst q' path) w
            else
              let* ' (cs, w') := children n w in
              ast_incr f (mkAst (q' ++ map (fun c => (c, path)) cs) path) w'
        end
    end.

  (** 40-43, begin, and for (plan : a_star) *)
  Fixpoint ast_loop (calls fuel : nat) (it : ast_it) (w : W) : outcome (list (list N) * W) :=
    if ast_finished it then Ok ([], w)
    else
      match calls with
      | O => OutOfFuel
      | S m =>
          let* ' (it', w') := ast_incr fuel it w in
          let* ' (l, w'') := ast_loop m fuel it' w' in
          Ok (ai_plan it :: l, w'')
      end.
  Definition ast_all (calls fuel : nat) (root : N) (w : W) : outcome (list (list N) * W) :=
    let* ' (it, w') := ast_incr fuel (mkAst [(root, [])] []) w in ast_loop calls fuel it w'.
End Search.
