(** Plans in a graph. *)
From Coq Require Import List Bool Arith.
From Verif.Model Require Import Base Search.
Import ListNotations.

Section Plans.
  Context {N : Type} (kid : N -> N -> Prop) (yes no : N -> Prop).

  (** A path of at most [d] steps from [n] to a node that satisfies [yes]; all
      earlier nodes satisfy [no]. *)
  Inductive plan_from : nat -> N -> list N -> Prop :=
  | plan_goal d n : yes n -> plan_from d n [n]
  | plan_step d n m rest : no n -> kid n m -> plan_from d m rest -> plan_from (S d) n (n :: rest).
End Plans.

(** Iterators met during any use of a search: after begin(), and after ++ of an
    iterator that is not the end.  Other code may change [W] in between. *)
Section Uses.
  Context {N W : Type} (goal : N -> outcome bool) (children : N -> W -> outcome (list N * W)).
  Context (d : nat) (root : N).

  (** What the search sees of the graph. *)
  Definition seen_child (a b : N) : Prop := exists w l w', children a w = Ok (l, w') /\ In b l.
  Definition seen_goal (n : N) : Prop := goal n = Ok true.
  Definition seen_other (n : N) : Prop := goal n = Ok false.
  Definition seen_plan (plan : list N) : Prop := plan_from seen_child seen_goal seen_other d root plan.

  Inductive bfs_use : bfs_it (N := N) -> Prop :=
  | bfs_use_begin fuel late w it w' : bfs_begin goal children d fuel late root w = Ok (it, w') -> bfs_use it
  | bfs_use_next fuel late it w it' w' : bfs_use it -> bfs_finished it = false ->
      bfs_incr goal children d fuel late 0 (bi_queue it) w = Ok (it', w') -> bfs_use it'.

  Inductive dfs_use : dfs_it (N := N) -> Prop :=
  | dfs_use_begin fuel w it w' : dfs_incr goal children d fuel (mkDfs [(root, [])] []) w = Ok (it, w') -> dfs_use it
  | dfs_use_next fuel it w it' w' : dfs_use it -> dfs_finished it = false ->
      dfs_incr goal children d fuel it w = Ok (it', w') -> dfs_use it'.

  Context (pick : list (entry (N := N)) -> nat).
  Inductive ast_use : ast_it (N := N) -> Prop :=
  | ast_use_begin fuel w it w' : ast_incr goal children d pick fuel (mkAst [(root, [])] []) w = Ok (it, w') -> ast_use it
  | ast_use_next fuel it w it' w' : ast_use it -> ast_finished it = false ->
      ast_incr goal children d pick fuel it w = Ok (it', w') -> ast_use it'.
End Uses.

(** The graph does not change: on the nodes in [P], as long as memory satisfies
    [I], conversion to bool and the loop over the children always give
    [isgoal] and [kids]. *)
Record steady {N W : Type} (goal : N -> outcome bool) (children : N -> W -> outcome (list N * W))
    (P : N -> Prop) (I : W -> Prop) (isgoal : N -> bool) (kids : N -> list N) : Prop := {
  st_goal : forall n, P n -> goal n = Ok (isgoal n);
  st_kids : forall n w, P n -> isgoal n = false -> I w -> exists w', children n w = Ok (kids n, w') /\ I w';
  st_nodes : forall n c, P n -> isgoal n = false -> In c (kids n) -> P c
}.

(** Plans in such a graph. *)
Definition plan_in {N} (isgoal : N -> bool) (kids : N -> list N) : nat -> N -> list N -> Prop :=
  plan_from (fun a b => In b (kids a)) (fun n => isgoal n = true) (fun n => isgoal n = false).

(** All of them, in lexicographic order of the children. *)
Fixpoint lex_plans {N} (isgoal : N -> bool) (kids : N -> list N) (k : nat) (n : N) : list (list N) :=
  if isgoal n then [[n]]
  else match k with
       | O => []
       | S k' => map (cons n) (flat_map (lex_plans isgoal kids k') (kids n))
       end.

(** The path along first children. *)
Inductive first_path {N} (isgoal : N -> bool) (kids : N -> list N) : nat -> N -> list N -> Prop :=
| first_goal d n : isgoal n = true -> first_path isgoal kids d n [n]
| first_deep n : isgoal n = false -> first_path isgoal kids 0 n [n]
| first_leaf d n : isgoal n = false -> kids n = [] -> first_path isgoal kids (S d) n [n]
| first_step d n c cs rest : isgoal n = false -> kids n = c :: cs -> first_path isgoal kids d c rest ->
    first_path isgoal kids (S d) n (n :: rest).

(** No timeout. *)
Definition never : nat -> nat -> bool := fun _ _ => false.
Definition shorter {N} (p q : list N) : Prop := length p <= length q.
Definition prefix {A} (l l' : list A) : Prop := exists r, l' = l ++ r.

(** The same uses when memory satisfies [I] before every call. *)
Section Yields.
  Context {N W : Type} (goal : N -> outcome bool) (children : N -> W -> outcome (list N * W)).
  Context (d : nat) (root : N) (I : W -> Prop).

  Inductive bfs_use_in : bfs_it (N := N) -> Prop :=
  | bfs_in_begin fuel late w it w' : I w -> bfs_begin goal children d fuel late root w = Ok (it, w') -> bfs_use_in it
  | bfs_in_next fuel late it w it' w' : bfs_use_in it -> bfs_finished it = false -> I w ->
      bfs_incr goal children d fuel late 0 (bi_queue it) w = Ok (it', w') -> bfs_use_in it'.
  Inductive dfs_use_in : dfs_it (N := N) -> Prop :=
  | dfs_in_begin fuel w it w' : I w -> dfs_incr goal children d fuel (mkDfs [(root, [])] []) w = Ok (it, w') ->
      dfs_use_in it
  | dfs_in_next fuel it w it' w' : dfs_use_in it -> dfs_finished it = false -> I w ->
      dfs_incr goal children d fuel it w = Ok (it', w') -> dfs_use_in it'.
  Inductive ast_use_in (pick : list (entry (N := N)) -> nat) : ast_it (N := N) -> Prop :=
  | ast_in_begin fuel w it w' : I w -> ast_incr goal children d pick fuel (mkAst [(root, [])] []) w = Ok (it, w') ->
      ast_use_in pick it
  | ast_in_next fuel it w it' w' : ast_use_in pick it -> ast_finished it = false -> I w ->
      ast_incr goal children d pick fuel it w = Ok (it', w') -> ast_use_in pick it'.

  (** Plans found by any of the searches. *)
  Inductive yields : list N -> Prop :=
  | yields_bfs it plan : bfs_use_in it -> bi_plan it = Some plan -> yields plan
  | yields_dfs it : dfs_use_in it -> dfs_finished it = false -> yields (di_plan it)
  | yields_ast pick it : ast_use_in pick it -> ast_finished it = false -> yields (ai_plan it).
End Yields.
