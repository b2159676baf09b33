(** C71: breadth-first search from Python. *)
From Coq Require Import List Bool Arith Lia Permutation Sorted.
From Verif.Model Require Import Base Search PySearch.
From Verif.Spec Require Import SearchSpec PySearchSpec.
From Verif.Proofs Require Import SearchFacts SearchTheorems PySearchFacts.
From Verif.Properties Require Import SearchProps.
Import ListNotations.

(** C71. Any Python program with any number of searches and copies of them that
    frees nothing sees, for every search, the plans of the loop in C++ one after
    the other; copies made by iter() count on their own. *)
Theorem C71_programs : forall (N W : Type) (goal : N -> outcome bool) (children : N -> W -> outcome (list N * W))
    (P : N -> Prop) (I : W -> Prop) isgoal kids,
  steady goal children P I isgoal kids -> forall w0 : W, I w0 ->
  exists plans : N -> nat -> list (list N),
    (forall n d, P n -> Permutation (plans n d) (lex_plans isgoal kids d n) /\ StronglySorted shorter (plans n d) /\
       exists K, forall calls fuel w, K <= calls -> K <= fuel -> I w ->
         exists w', bfs_all goal children d calls fuel never n w = Ok (plans n d, w') /\ I w') /\
    forall ops, typed [] ops -> roots_in P ops -> exists K, forall fuel w, K <= fuel -> I w ->
      exists rs heap w', py_run goal children fuel ops [] w = Ok (rs, heap, w') /\ I w' /\ a_run plans [] ops rs.
Proof. exact @C71_programs_lemma. Qed.
Print Assumptions C71_programs.

(** Every loop over a search on which next() was not called sees all plans. *)
Theorem C71_loops : forall (N W : Type) (goal : N -> outcome bool) (children : N -> W -> outcome (list N * W))
    (P : N -> Prop) (I : W -> Prop) isgoal kids,
  steady goal children P I isgoal kids -> forall w0 : W, I w0 -> forall n d, P n -> exists l,
    Permutation l (lex_plans isgoal kids d n) /\ StronglySorted shorter l /\
    exists K, forall fuel w late, K <= fuel -> I w ->
      let loop i := PyIter 1 :: repeat (PyNext i late) (S (length l)) in
      exists heap w', py_run goal children fuel (PyNewPlanner n :: PyNewSearch 0 d false :: loop 2 ++ loop 3) [] w =
        Ok ([PyObj 0; PyObj 1] ++ (PyObj 2 :: map PyPlan l ++ [PyStop]) ++ (PyObj 3 :: map PyPlan l ++ [PyStop]), heap, w').
Proof. exact @C71_loops_lemma. Qed.
Print Assumptions C71_loops.

(** Once next() has raised StopIteration it always does, on any graph and
    whatever else the program does, also after a timeout. *)
Theorem C71_stays : forall (N W : Type) (goal : N -> outcome bool) (children : N -> W -> outcome (list N * W)) fuel
    ops heap w rs heap' w' i j1 j2 late1 late2,
  py_run goal children fuel ops heap w = Ok (rs, heap', w') -> j1 < j2 ->
  nth_error ops j1 = Some (PyNext i late1) -> nth_error rs j1 = Some PyStop ->
  nth_error ops j2 = Some (PyNext i late2) -> nth_error rs j2 = Some PyStop.
Proof. exact @C71_stays_lemma. Qed.
Print Assumptions C71_stays.

(** iter(x) is not x: what a loop takes is not taken from the search, so a loop
    that stops early and next() afterwards give the same plan again. *)
Theorem C71_protocol_refuted : exists (N W : Type) (goal : N -> outcome bool) (children : N -> W -> outcome (list N * W))
    n d w plan heap w', 
  py_run goal children 20 [PyNewPlanner n; PyNewSearch 0 d false; PyIter 1; PyNext 2 (fun _ => false); PyNext 1 (fun _ => false)] [] w =
    Ok ([PyObj 0; PyObj 1; PyObj 2; PyPlan plan; PyPlan plan], heap, w') /\
  exists other, bfs_all goal children d 20 20 never n w = Ok ([plan; other], w) /\ plan <> other.
Proof.
  exists nat, unit, ex_test, (fun n w => Ok (ex_kids n, w)), 0, 2, tt, [0; 2]. eexists _, tt. split; [reflexivity|].
  exists [0; 1; 4]. split; [reflexivity|discriminate].
Qed.
Print Assumptions C71_protocol_refuted.

(** A search does not keep its planner alive: in every graph, the first next()
    after the planner is gone reads freed memory. *)
Theorem C71_root_refuted : forall (N W : Type) (goal : N -> outcome bool) (children : N -> W -> outcome (list N * W))
    fuel n d timed late w,
  py_run goal children fuel [PyNewPlanner n; PyNewSearch 0 d timed; PyFree 0; PyNext 1 late] [] w = UB.
Proof. reflexivity. Qed.
Print Assumptions C71_root_refuted.

(** Nor does a copy keep alive the search it was copied from, which it reads if
    the original had been started. *)
Theorem C71_copy_refuted : exists (goal : nat -> outcome bool) (children : nat -> nat -> outcome (list nat * nat)) n d w p q,
  let start := [PyNewPlanner n; PyNewSearch 0 d false; PyNext 1 (fun _ => false); PyIter 1] in
  forall fuel, 10 <= fuel ->
  (exists heap w', py_run goal children fuel (start ++ [PyNext 2 (fun _ => false)]) [] w =
     Ok ([PyObj 0; PyObj 1; PyPlan p; PyObj 2; PyPlan q], heap, w')) /\
  py_run goal children fuel (start ++ [PyFree 1; PyNext 2 (fun _ => false)]) [] w = UB.
Proof.
  exists ex_test, ex_children, 0, 2, 0, [0; 2], [0; 1; 4]. intros start fuel L.
  do 10 (destruct fuel as [|fuel]; [lia|]). split; [|reflexivity]. do 2 eexists. reflexivity.
Qed.
Print Assumptions C71_copy_refuted.

(** Two searches from one planner, one with a timeout, and a copy in between. *)
Example C71_example :
  let on_time := fun _ => false in let too_late := fun i => Nat.eqb i 0 in
  let ops := [PyNewPlanner 0; PyNewSearch 0 3 false; PyNewSearch 0 2 true; PyNext 1 too_late; PyNext 2 on_time; PyIter 2;
    PyNext 2 too_late; PyNext 3 on_time; PyNext 1 on_time; PyNext 2 on_time; PyNext 1 on_time; PyNext 1 on_time; PyNext 3 on_time] in
  steady ex_test ex_children (fun _ => True) (fun _ => True) ex_isgoal ex_kids /\
  typed [] ops /\ roots_in (fun _ => True) ops /\
  exists heap w', py_run ex_test ex_children 20 ops [] 0 = Ok ([PyObj 0; PyObj 1; PyObj 2; PyPlan [0; 2]; PyPlan [0; 2]; PyObj 3;
    PyStop; PyPlan [0; 1; 4]; PyPlan [0; 1; 4]; PyStop; PyPlan [0; 1; 3; 7]; PyStop; PyStop], heap, w').
Proof.
  split; [exact ex_steady|]. split; [cbn; repeat (split; eauto)|]. split; [intros n _; exact Logic.I|].
  do 2 eexists. reflexivity.
Qed.
