(** C77: the domain and problem in resources/. *)
From Coq Require Import Ascii String List Bool NArith ZArith Arith Lia.
From Verif.Model Require Import Base Order Object Proposition State ParameterGenerator Syntax Formula
  Effects Derived Consistency Text Search Pddl Objects Load Planner NormalForm Normalize StateIndex Bundled.
From Verif.Spec Require Import SetSpec TypingSpec FormulaSpec EffectSpec DerivedSpec TextSpec AxiomSpec SearchSpec PddlSpec
  PlannerSpec DirectSpec PlainSpec IndexSpec BundledSpec.
From Verif.Proofs Require Import StateHistory AxiomLimit NormalFormExamples PddlFacts PddlHistory PddlExamples PlannerExamples
  PlainFacts BundledFacts BundledExamples.
From Verif.Properties Require Import StateProps.
Import ListNotations.
Local Open Scope string_scope.
Local Open Scope list_scope.

(** C77. With resources/domain.pddl any problem over its types can be loaded,
    and everything proved of supported and of orderly domains applies to it. *)
Theorem C77_supported : forall (SH : StdHash) domain_in problem_in L d q aa b, domain_in d = Some lgp -> q <> "" ->
  problem_in lgp (problem_source q) = Some b -> lgp_problem b -> some_limits L ->
  exists l, load domain_in problem_in L d q aa = Ok (l, no_store) /\
  let p := ld_pddl l in
    good_domain L p lgp_arity (fun _ => 0) (fun _ => 0) /\
    Forall (fun o => (tuple_count (pd_symbols p) (op_params o) < 2 ^ 31)%Z) (pd_ops p) /\ pd_actions p <> [] /\
    Forall word (map oname (pd_symbols p)) /\ Forall (fun o => free_of "("%char (op_name o)) (pd_ops p) /\
    NoDup (map op_name (pd_ops p)) /\ ordinary_domain p /\ (forall S0, orderly p S0) /\
    built (pd_init p) /\ forall a, atoms (pd_init p) a <-> exists x, In x (ps_init b) /\ prop_key x = a.
Proof.
  intros SH domain_in problem_in L d q aa b Hd Nq Hp Lp HL.
  destruct (load_lgp domain_in problem_in L d q aa b Hd Nq Hp Lp HL) as (l & E & El). exists l. split; [exact E|]. rewrite El.
  destruct (lgp_words b Lp (initial_state (ps_init b))) as (H1 & H2 & H3 & H4 & H5 & H6).
  exact (conj (lgp_good b Lp _ L HL) (conj H1 (conj H2 (conj H3 (conj H4 (conj H5 (conj H6
    (conj (lgp_orderly b Lp _) (initial_atoms (ps_init b)))))))))).
Qed.
Print Assumptions C77_supported.

(** IsValidAction accepts exactly the moves; NextState makes them. *)
Theorem C77_moves : forall (SH : StdHash) domain_in problem_in L d q aa b l st0, domain_in d = Some lgp -> q <> "" ->
  problem_in lgp (problem_source q) = Some b -> lgp_problem b -> some_limits L ->
  load domain_in problem_in L d q aa = Ok (l, st0) ->
  let p := ld_pddl l in forall s st call, built s -> reachable_store (pd_symbols p) lgp_arity (pd_axioms p) st ->
  (is_valid_action p s call = Ok true <-> exists n ws S', call_text call n ws /\ moves b n ws (atoms s) S') /\
  (is_valid_action p s call = Ok true -> exists s' st', next_state L p call (s, st) = Ok (s', st') /\ built s' /\
     reachable_store (pd_symbols p) lgp_arity (pd_axioms p) st' /\
     forall n ws, call_text call n ws -> moves b n ws (atoms s) (atoms s')).
Proof.
  intros SH domain_in problem_in L d q aa b l st0 Hd Nq Hp Lp HL E p.
  destruct (load_lgp domain_in problem_in L d q aa b Hd Nq Hp Lp HL) as (l' & E' & El). rewrite E in E'. injection E' as <- _.
  subst p. rewrite El. intros s st call B Rs. split; [apply (valid_moves b Lp _ L HL); auto|].
  apply (next_moves b Lp _ L HL); auto.
Qed.
Print Assumptions C77_moves.

(** From a tidy problem valid actions lead to tidy States only, nothing leaves
    the workspace, and with the table and something movable in it there is
    always a valid action. *)
Theorem C77_tidy : forall (SH : StdHash) domain_in problem_in L d q aa b l st0, domain_in d = Some lgp -> q <> "" ->
  problem_in lgp (problem_source q) = Some b -> lgp_problem b -> some_limits L ->
  load domain_in problem_in L d q aa = Ok (l, st0) ->
  let p := ld_pddl l in tidy b (atoms (pd_init p)) -> forall s st, legal L p (pd_init p, st0) (s, st) ->
  tidy b (atoms s) /\ (forall x, atoms (pd_init p) (inworkspace x) -> atoms s (inworkspace x)) /\
  forall x, atoms (pd_init p) (inworkspace "table") -> movable b x -> atoms (pd_init p) (inworkspace x) ->
    exists call, is_valid_action p s call = Ok true.
Proof.
  intros SH domain_in problem_in L d q aa b l st0 Hd Nq Hp Lp HL E p.
  destruct (load_lgp domain_in problem_in L d q aa b Hd Nq Hp Lp HL) as (l' & E' & El). rewrite E in E'. injection E' as <- ->.
  subst p. rewrite El. intros Td s st Lg.
  destruct (legal_tidy b Lp _ L HL _ _ Lg (proj1 (initial_atoms _)) (rs_none _ _ _) Td) as (B & _ & Td' & Wk).
  split; [exact Td'|]. split; [exact Wk|]. intros x Ht Mx Hx. apply (tidy_valid b Lp _ L HL s x); auto.
Qed.
Print Assumptions C77_tidy.

(** resources/problem.pddl is tidy at first; no sequence of moves shorter than
    five achieves its goal, and three of length five do. *)
Theorem C77_start : forall (SH : StdHash), lgp_problem put_box_on_shelf /\ tidy put_box_on_shelf box_start /\
  (forall a, atoms (initial_state (ps_init put_box_on_shelf)) a <-> box_start a) /\
  forall S, holds (table :: ps_objects put_box_on_shelf) S no_env (ps_goal put_box_on_shelf) <-> box_aim S.
Proof.
  intros SH. split; [exact box_problem|]. split; [exact box_tidy|]. split; [apply box_init_atoms|].
  intros S. exact (box_goal_aim S st_empty).
Qed.
Print Assumptions C77_start.
Theorem C77_shortest : forall l S', carries put_box_on_shelf l box_start S' -> box_aim S' -> 5 <= length l.
Proof. exact C77_shortest_lemma. Qed.
Print Assumptions C77_shortest.
Theorem C77_plans : forall l, (length l = 5 /\ exists S', carries put_box_on_shelf l box_start S' /\ box_aim S') <->
  In l (map box_plan ["table"; "shelf"; "box"]).
Proof. exact C77_plans_lemma. Qed.
Print Assumptions C77_plans.

(** Breadth-first search to the default depth of the program yields the texts of
    these three, whatever the hash function. *)
Theorem C77_search : forall (SH : StdHash) domain_in problem_in L d q aa l st0, domain_in d = Some lgp -> q <> "" ->
  problem_in lgp (problem_source q) = Some put_box_on_shelf -> some_limits L ->
  load domain_in problem_in L d q aa = Ok (l, st0) ->
  let p := ld_pddl l in exists K0, forall K, K0 <= K -> exists plans M,
  (forall calls fuel, M <= calls -> M <= fuel ->
     exists st, bfs_all (node_goal p) (node_children L p K) 5 calls fuel never (root_node (pd_init p)) st0 = Ok (plans, st)) /\
  NoDup (map plan_calls plans) /\
  forall cs, In cs (map plan_calls plans) <->
    In cs [["pick(hook)"; "push(hook, box, table)"; "place(hook, table)"; "pick(box)"; "place(box, shelf)"];
           ["pick(hook)"; "push(hook, box, table)"; "place(hook, shelf)"; "pick(box)"; "place(box, shelf)"];
           ["pick(hook)"; "push(hook, box, table)"; "place(hook, box)"; "pick(box)"; "place(box, shelf)"]].
Proof.
  intros SH domain_in problem_in L d q aa l st0 Hd Nq Hp HL E p.
  destruct (load_lgp domain_in problem_in L d q aa _ Hd Nq Hp box_problem HL) as (l' & E' & El). rewrite E in E'. injection E' as <- ->.
  subst p. rewrite El. exact (C77_search_lemma L HL).
Qed.
Print Assumptions C77_search.

(** Tidy States can be impossible: the box rests on the hook and the hook on the
    box. *)
Theorem C77_circle_refuted : exists (SH : StdHash) L s st, some_limits L /\
  legal L box_pddl (pd_init box_pddl, no_store) (s, st) /\ atoms s (on "box" "hook") /\ atoms s (on "hook" "box").
Proof. exact circle. Qed.
Print Assumptions C77_circle_refuted.

(** *** The assertions of tests/tests.cc, with three hash functions *)
Definition three : list StdHash := [collide; by_length; by_char].
Definition ok_fst {A B} (r : outcome (A * B)) : option A := match r with Ok (a, _) => Some a | _ => None end.

(** 162-181 *)
Example C77_index : Forall (fun SH : StdHash =>
  exists si, index_of (table :: ps_objects put_box_on_shelf) lgp_predicates true = Ok si /\ si_size si = 16%Z /\
    fst (get_proposition si 0 no_caches) = Ok (mkProp "inhand" [hook]) /\
    fst (get_proposition si 15 no_caches) = Ok (mkProp "throwable" [box]) /\
    map (fun i => match fst (get_proposition si (Z.of_nat i) no_caches) with
                  | Ok q => fst (get_proposition_index si q no_caches) | _ => Throw ERuntime end) (seq 0 16) =
      map (fun i => Ok (Z.of_nat i)) (seq 0 16)) three.
Proof.
  repeat apply Forall_cons; try apply Forall_nil; (eexists; split; [reflexivity|]); repeat split; vm_compute; reflexivity.
Qed.

(** 183-249 *)
Example C77_tests : Forall (fun SH : StdHash =>
  let p := box_pddl in let s := pd_init p in let strs := stringify s in
  let s' := snd (st_insert (mkProp "inhand" [hook]) (snd (st_erase (mkProp "on" [hook; table]) s))) in
  is_valid_action p s "pick(hook)" = Ok true /\ is_valid_action p s "pick(box)" = Ok false /\
  (match next_state ex_limits p "pick(hook)" (s, no_store) with
   | Ok (s1, _) => st_eqb s1 s' && negb (st_eqb s1 s) | _ => false end) = true /\
  ok_fst (is_valid_tuple_str ex_limits p strs "pick(hook)" (stringify s') no_store) = Some true /\
  ok_fst (is_valid_tuple_str ex_limits p strs "pick(hook)" strs no_store) = Some false /\
  is_goal_satisfied p (strs ++ ["on(box, shelf)"]) = Ok true /\ is_goal_satisfied p strs = Ok false /\
  ok_fst (is_valid_plan ex_limits p ["pick(hook)"; "push(hook, box, table)"; "place(hook, table)"; "pick(box)"; "place(box, shelf)"]
    no_store) = Some true /\
  ok_fst (is_valid_plan ex_limits p ["pick(hook)"] no_store) = Some false /\
  list_valid_arguments p s pick = Ok [[hook]] /\ list_valid_arguments_str p strs "pick" = Ok [["hook"]] /\
  list_valid_actions p s = Ok ["pick(hook)"] /\ list_valid_actions_str p strs = Ok ["pick(hook)"]) three.
Proof. repeat apply Forall_cons; try apply Forall_nil; vm_compute; repeat split. Qed.

(** 261-296 *)
Definition agree `{StdHash} (r : outcome (option dnf)) (l : list (list prop * list prop)) : bool :=
  match r with
  | Ok (Some d) => list_eqb ps_eqb d (map (fun x => ps_of (fst x) (snd x)) l)
  | _ => false
  end.
Example C77_formulas : Forall (fun SH : StdHash =>
  let h := mkProp "inhand" [hook] in let b := mkProp "inhand" [box] in let w := mkProp "inworkspace" [hook] in
  let o x := mkProp "on" [hook; x] in
  let pre := create_pre box_pddl pick [hook] in
  agree pre [([w], [b; h])] = true /\
  agree (let* r := pre in match r with Some d => negate (pd_om box_pddl) d | None => Ok None end)
    [([], [w]); ([b], []); ([h], [])] = true /\
  agree (create_post box_pddl pick [hook]) [([h], [o box; o hook; o shelf; o table])] = true) three.
Proof. repeat apply Forall_cons; try apply Forall_nil; vm_compute; repeat split. Qed.
