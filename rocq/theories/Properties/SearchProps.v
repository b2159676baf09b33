(** C44-C47, C50, C51: the searches. *)
From Coq Require Import List Bool Arith Lia Permutation Sorted.
From Verif.Model Require Import Base Search.
From Verif.Spec Require Import SearchSpec.
From Verif.Proofs Require Import SearchFacts SearchTheorems.
Import ListNotations.

(** A binary tree with a counter of the nodes expanded so far as memory. *)
Definition ex_isgoal (n : nat) : bool := Nat.eqb n 4 || Nat.eqb n 6 || Nat.eqb n 2 || Nat.eqb n 7.
Definition ex_kids (n : nat) : list nat := [2 * n + 1; 2 * n + 2].
Definition ex_children (n : nat) (w : nat) : outcome (list nat * nat) := Ok (ex_kids n, S w).
Definition ex_test (n : nat) : outcome bool := Ok (ex_isgoal n).
Lemma ex_steady : steady ex_test ex_children (fun _ => True) (fun _ => True) ex_isgoal ex_kids.
Proof. constructor; auto. intros n w _ _ _. exists (S w). auto. Qed.
Lemma ex_kids_distinct n : NoDup (ex_kids n).
Proof. unfold ex_kids. constructor; [|constructor; [|constructor]]; cbn; [|tauto]. intros [H|[]]. lia. Qed.

(** C44. What breadth-first search yields are plans, whatever the clock, the
    memory and the use of the iterator; operator* of an iterator that is not
    the end never dereferences the null pointer. *)
Theorem C44_plans : forall (N W : Type) (goal : N -> outcome bool) (children : N -> W -> outcome (list N * W)) d root it,
  bfs_use goal children d root it ->
  (forall p, bi_plan it = Some p -> seen_plan goal children d root p) /\
  (bfs_finished it = false -> exists p, bfs_deref it = Ok p).
Proof. exact @C44_lemma. Qed.
Print Assumptions C44_plans.

Example C44_example : exists it, bfs_use ex_test ex_children 3 0 it /\ bi_plan it = Some [0; 1; 4].
Proof.
  pose (b := bfs_begin ex_test ex_children 3 10 (fun _ => false) 0 0).
  assert (E : b = Ok (mkBfs [(3, [0; 1]); (4, [0; 1])] (Some [0; 2]), 2)) by reflexivity.
  eexists. split; [eapply bfs_use_next; [exact (bfs_use_begin _ _ _ _ _ _ _ _ _ E)|reflexivity|]|].
  - cbn [bi_queue]. instantiate (5 := 10). instantiate (4 := fun _ => false). instantiate (3 := 0). reflexivity.
  - reflexivity.
Qed.

(** C45. Without timeout breadth-first search yields every plan. *)
Theorem C45_complete : forall (N W : Type) (goal : N -> outcome bool) (children : N -> W -> outcome (list N * W))
    d (P : N -> Prop) (I : W -> Prop) isgoal kids root,
  steady goal children P I isgoal kids -> P root ->
  exists l,
    (forall p, In p l <-> plan_in isgoal kids d root p) /\
    ((forall n, P n -> isgoal n = false -> NoDup (kids n)) -> NoDup l) /\
    exists K, forall calls fuel w, K <= calls -> K <= fuel -> I w ->
      exists w', bfs_all goal children d calls fuel never root w = Ok (l, w') /\ I w'.
Proof. exact @C45_plans_lemma. Qed.
Print Assumptions C45_complete.

(** Equal children count as often as they occur. *)
Theorem C45_multiplicity : forall (N W : Type) (goal : N -> outcome bool) (children : N -> W -> outcome (list N * W))
    d (P : N -> Prop) (I : W -> Prop) isgoal kids root,
  steady goal children P I isgoal kids -> P root ->
  exists l, Permutation l (lex_plans isgoal kids d root) /\
    exists K, forall calls fuel w, K <= calls -> K <= fuel -> I w ->
      exists w', bfs_all goal children d calls fuel never root w = Ok (l, w') /\ I w'.
Proof. exact @C45_lemma. Qed.
Print Assumptions C45_multiplicity.

Example C45_example :
  steady ex_test ex_children (fun _ => True) (fun _ => True) ex_isgoal ex_kids /\
  (forall n, NoDup (ex_kids n)) /\
  bfs_all ex_test ex_children 3 20 20 never 0 0 = Ok ([[0; 2]; [0; 1; 4]; [0; 1; 3; 7]], 3).
Proof. split; [exact ex_steady|]. split; [exact ex_kids_distinct|reflexivity]. Qed.

(** C46. Plans come in order of length, whatever the clock and the memory ... *)
Theorem C46_sorted : forall (N W : Type) (goal : N -> outcome bool) (children : N -> W -> outcome (list N * W))
    d calls fuel late root w l w',
  bfs_all goal children d calls fuel late root w = Ok (l, w') -> StronglySorted shorter l.
Proof. exact @C46_sorted_lemma. Qed.
Print Assumptions C46_sorted.

(** ... and the first one is a shortest one. *)
Theorem C46_shortest : forall (N W : Type) (goal : N -> outcome bool) (children : N -> W -> outcome (list N * W))
    d (P : N -> Prop) (I : W -> Prop) isgoal kids root,
  steady goal children P I isgoal kids -> P root ->
  forall calls fuel w l w', I w -> bfs_all goal children d calls fuel never root w = Ok (l, w') ->
  match l with
  | [] => forall p, ~ plan_in isgoal kids d root p
  | p :: _ => plan_in isgoal kids d root p /\ forall p', plan_in isgoal kids d root p' -> shorter p p'
  end.
Proof. exact @C46_shortest_lemma. Qed.
Print Assumptions C46_shortest.

Example C46_example : bfs_all ex_test ex_children 3 20 20 (fun c _ => Nat.eqb c 2) 0 0 = Ok ([[0; 2]; [0; 1; 4]], 3).
Proof. reflexivity. Qed.

(** C47. The search ends and a timeout only cuts the list of plans short. *)
Theorem C47_timeouts : forall (N W : Type) (goal : N -> outcome bool) (children : N -> W -> outcome (list N * W))
    d (P : N -> Prop) (I : W -> Prop) isgoal kids root,
  steady goal children P I isgoal kids -> P root ->
  exists l,
    (forall p, In p l <-> plan_in isgoal kids d root p) /\
    exists K, forall calls fuel late w, K <= calls -> K <= fuel -> I w ->
      exists l' w', bfs_all goal children d calls fuel late root w = Ok (l', w') /\ prefix l' l.
Proof. exact @C47_lemma. Qed.
Print Assumptions C47_timeouts.

(** The same of runs from the same memory, with no assumption on the graph. *)
Theorem C47_prefix : forall (N W : Type) (goal : N -> outcome bool) (children : N -> W -> outcome (list N * W))
    d calls fuel late root w l w1,
  bfs_all goal children d calls fuel never root w = Ok (l, w1) ->
  exists l' w2, bfs_all goal children d calls fuel late root w = Ok (l', w2) /\ prefix l' l.
Proof. exact @C47_prefix_lemma. Qed.
Print Assumptions C47_prefix.

Example C47_example : bfs_all ex_test ex_children 3 20 20 (fun c i => Nat.eqb c 2 && Nat.eqb i 0) 0 0 = Ok ([[0; 2]; [0; 1; 4]], 3) /\
  bfs_all ex_test ex_children 3 20 20 (fun _ i => Nat.eqb i 2) 0 0 = Ok ([], 2).
Proof. split; reflexivity. Qed.

(** C50. What depth-first search yields are plans ... *)
Theorem C50_plans : forall (N W : Type) (goal : N -> outcome bool) (children : N -> W -> outcome (list N * W)) d root it,
  dfs_use goal children d root it -> dfs_finished it = false -> seen_plan goal children d root (di_plan it).
Proof. exact @C50_sound_lemma. Qed.
Print Assumptions C50_plans.

(** ... and it yields all of them, except the path along first children. *)
Theorem C50_complete_partial : forall (N W : Type) (goal : N -> outcome bool) (children : N -> W -> outcome (list N * W))
    d (P : N -> Prop) (I : W -> Prop) isgoal kids root,
  steady goal children P I isgoal kids -> P root ->
  exists fp l, first_path isgoal kids d root fp /\
    (forall p, plan_in isgoal kids d root p <-> In p l \/ (p = fp /\ plan_in isgoal kids d root fp)) /\
    exists K, forall calls fuel w, K <= calls -> K <= fuel -> I w ->
      exists w', dfs_all goal children d calls fuel root w = Ok (l, w') /\ I w'.
Proof. exact @C50_plans_lemma. Qed.
Print Assumptions C50_complete_partial.

(** The order is lexicographic, last child first; the path along first children
    would come last and is lost if it is a plan. *)
Theorem C50_order : forall (N W : Type) (goal : N -> outcome bool) (children : N -> W -> outcome (list N * W))
    d (P : N -> Prop) (I : W -> Prop) isgoal kids root,
  steady goal children P I isgoal kids -> P root ->
  exists fp m l, first_path isgoal kids d root (fp ++ [m]) /\
    lex_plans isgoal (fun n => rev (kids n)) d root = l ++ (if isgoal m then [fp ++ [m]] else []) /\
    exists K, forall calls fuel w, K <= calls -> K <= fuel -> I w ->
      exists w', dfs_all goal children d calls fuel root w = Ok (l, w') /\ I w'.
Proof. exact @C50_lemma. Qed.
Print Assumptions C50_order.

Example C50_example :
  dfs_all ex_test ex_children 2 20 20 0 0 = Ok ([[0; 2]; [0; 1; 4]], 2) /\
  dfs_all ex_test ex_children 3 20 20 0 0 = Ok ([[0; 2]; [0; 1; 4]], 3).
Proof. split; reflexivity. Qed.

(** A plan that is not yielded: the root is a goal. *)
Theorem C50_complete_refuted : exists (N W : Type) (goal : N -> outcome bool) (children : N -> W -> outcome (list N * W))
    (P : N -> Prop) (I : W -> Prop) isgoal kids root p w,
  steady goal children P I isgoal kids /\ P root /\ I w /\
  forall d, plan_in isgoal kids d root p /\
    forall calls fuel, 1 <= fuel -> exists w', dfs_all goal children d calls fuel root w = Ok ([], w').
Proof.
  exists nat, nat, ex_test, ex_children, (fun _ => True), (fun _ => True), ex_isgoal, ex_kids, 4, [4], 0.
  split; [exact ex_steady|]. split; auto. split; auto. intros d. split; [constructor; reflexivity|].
  intros calls [|fuel] L; [lia|]. exists 0. destruct calls; reflexivity.
Qed.
Print Assumptions C50_complete_refuted.

(** C51. What A* yields are plans for any priorities ... *)
Theorem C51_plans : forall (N W : Type) (goal : N -> outcome bool) (children : N -> W -> outcome (list N * W)) d root pick it,
  ast_use goal children d root pick it -> ast_finished it = false -> seen_plan goal children d root (ai_plan it).
Proof. exact @C51_sound_lemma. Qed.
Print Assumptions C51_plans.

(** ... and it yields all of them except at most one. *)
Theorem C51_complete_partial : forall (N W : Type) (goal : N -> outcome bool) (children : N -> W -> outcome (list N * W))
    d (P : N -> Prop) (I : W -> Prop) isgoal kids root,
  steady goal children P I isgoal kids -> P root ->
  forall pick, exists l lost, length lost <= 1 /\
    Permutation (l ++ lost) (lex_plans isgoal kids d root) /\
    exists K, forall calls fuel w, K <= calls -> K <= fuel -> I w ->
      exists w', ast_all goal children d pick calls fuel root w = Ok (l, w') /\ I w'.
Proof. exact @C51_lemma. Qed.
Print Assumptions C51_complete_partial.

Theorem C51_lex_plans : forall (N : Type) isgoal (kids : N -> list N) k n p,
  In p (lex_plans isgoal kids k n) <-> plan_in isgoal kids k n p.
Proof. exact @SearchTrail.all_plans_In. Qed.
Print Assumptions C51_lex_plans.

Example C51_example :
  ast_all ex_test ex_children 3 (fun q => pred (length q)) 20 20 0 0 = Ok ([[0; 2]; [0; 1; 4]], 3) /\
  ast_all ex_test ex_children 3 (fun q => 0) 20 20 0 0 = Ok ([[0; 2]; [0; 1; 4]; [0; 1; 3; 7]], 3).
Proof. split; reflexivity. Qed.

Theorem C51_complete_refuted : exists (N W : Type) (goal : N -> outcome bool) (children : N -> W -> outcome (list N * W))
    (P : N -> Prop) (I : W -> Prop) isgoal kids root p w,
  steady goal children P I isgoal kids /\ P root /\ I w /\
  forall d pick, plan_in isgoal kids d root p /\
    forall calls fuel, 1 <= fuel -> exists w', ast_all goal children d pick calls fuel root w = Ok ([], w').
Proof.
  exists nat, nat, ex_test, ex_children, (fun _ => True), (fun _ => True), ex_isgoal, ex_kids, 4, [4], 0.
  split; [exact ex_steady|]. split; auto. split; auto. intros d pick. split; [constructor; reflexivity|].
  intros calls [|fuel] L; [lia|]. exists 0. unfold ast_all. cbn [ast_incr ai_queue].
  match goal with |- context [take_nth ?i ?x ?l] => destruct i end.
  all: destruct calls; reflexivity.
Qed.
Print Assumptions C51_complete_refuted.
