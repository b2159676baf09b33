(** C75: the program pddl. *)
From Coq Require Import Ascii String List Bool NArith ZArith Arith Sorted.
From Verif.Model Require Import Base Object Proposition State ParameterGenerator Syntax Formula
  Effects Derived Consistency Text Pddl Objects Load Planner Search Print App.
From Verif.Spec Require Import SetSpec TypingSpec FormulaSpec EffectSpec DerivedSpec TextSpec AxiomSpec PddlSpec
  SearchSpec PlannerSpec DirectSpec PrintSpec AppSpec.
From Verif.Proofs Require Import StateHistory EffectExamples AxiomExamples DerivedExamples PddlExamples PlannerExamples AppFacts AppListing.
From Verif.Properties Require Import StateProps ParameterProps FormulaProps.
Import ListNotations.
Local Open Scope string_scope.
Local Open Scope list_scope.
Local Infix "+++" := String.append (at level 60, right associativity).

(** C75. The command lines that are accepted, and what they mean: --depth and
    --verbose in any order and number behind the two files; the last depth
    counts, and only the beginning of its text is read. *)
Theorem C75_accepts : forall argv a, parse_args argv = ("", Ok a) <-> command argv a.
Proof. exact command_iff. Qed.
Print Assumptions C75_accepts.

(** All others are rejected, for the first fault; the usage is only printed if
    it is not about a number. *)
Theorem C75_rejects : forall argv f,
  parse_args argv =
    (match f with Malformed => usage | NoNumber | TooLarge => "" end,
     Throw match f with Malformed => ERuntime | NoNumber => EInvalidArgument | TooLarge => EOutOfRange end)
  <-> wrong argv f.
Proof. intros argv f. rewrite <- wrong_iff. destruct f; reflexivity. Qed.
Print Assumptions C75_rejects.
Theorem C75_total : forall argv, (exists a, command argv a) \/ exists f, wrong argv f.
Proof. exact parse_total. Qed.
Print Assumptions C75_total.

(** In the supported fragment the program prints the heading, what VAL prints,
    and the direct plans (C74) each once, shorter ones first, then their number;
    with --verbose, the visits to all paths of non-goals within the depth, level
    by level. *)
Theorem C75_output : forall (SH : StdHash) domain_in problem_in check seconds L argv a l st text ok ar rank drank,
  command argv a -> load domain_in problem_in L (ar_domain a) (ar_problem a) true = Ok (l, st) ->
  check l = (text, Ok ok) ->
  let p := ld_pddl l in
  good_domain L p ar rank drank -> Forall (wf_axiom (pd_symbols p)) (pd_axioms p) ->
  Forall (fun o => okind o = KConst) (pd_symbols p) ->
  Forall (fun o => (tuple_count (pd_symbols p) (op_params o) < 2 ^ 31)%Z) (pd_ops p) -> pd_actions p <> [] ->
  Forall word (map oname (pd_symbols p)) -> Forall (fun o => free_of "("%char (op_name o)) (pd_ops p) ->
  NoDup (map op_name (pd_ops p)) -> ordinary_domain p ->
  exists K0, forall K, K0 <= K ->
  exists P I isgoal kids M depth count,
    let root := root_node (pd_init p) in
    let d := N.to_nat (ar_depth a) in
    let plans := found isgoal kids d root in
    let report k plan := unlines (listing (mkListed (seconds k) (state_text (pd_init p))
                           (map (fun n => (nd_action n, state_text (nd_state n))) (tl plan)))) in
    steady (node_goal p) (node_children L p K) P I isgoal kids /\ P root /\ I st /\
    digits depth (Z.of_N (ar_depth a)) /\ (forall n, numeral (count n) n) /\
    (forall fuel calls, M <= fuel -> M <= calls ->
       main domain_in problem_in check seconds L K fuel calls argv =
         (heading a depth +++ text +++ line "Planning:" +++
          (if ar_verbose a then narrate isgoal kids d root node_text count report 0 0 (visits isgoal kids d root)
           else reports report 0 plans) +++
          summary (count (length plans)) (seconds (length plans)), Ok tt)) /\
    NoDup (map plan_calls plans) /\ StronglySorted (fun a b => length a <= length b) (map plan_calls plans) /\
    forall t, represents (pd_init p) t -> forall cs, In cs (map plan_calls plans) <-> direct L p [] d t cs.
Proof. exact @main_listing. Qed.
Print Assumptions C75_output.

(** The calls of all plans, and where they lead, can be read from the text, if
    no name has an escape or a newline. *)
Theorem C75_readable : forall seconds seconds' start start' plans plans' count count' time time',
  (forall k steps, In steps plans -> legible (mkListed (seconds k) start steps)) ->
  (forall k steps, In steps plans' -> legible (mkListed (seconds' k) start' steps)) ->
  Forall (free_of "010"%char) [count; count'; time; time'] ->
  reports (fun k steps => unlines (listing (mkListed (seconds k) start steps))) 0 plans +++ summary count time =
  reports (fun k steps => unlines (listing (mkListed (seconds' k) start' steps))) 0 plans' +++ summary count' time' ->
  plans = plans'.
Proof. exact reports_readable. Qed.
Print Assumptions C75_readable.

(** --verbose does not change how the program ends, in any domain, nor what a
    search finds. *)
Theorem C75_verbose : forall (SH : StdHash) domain_in problem_in check seconds L K fuel calls argv argv' a a',
  command argv a -> command argv' a' ->
  ar_domain a = ar_domain a' -> ar_problem a = ar_problem a' -> ar_depth a = ar_depth a' ->
  snd (main domain_in problem_in check seconds L K fuel calls argv) =
  snd (main domain_in problem_in check seconds L K fuel calls argv').
Proof. exact @main_result. Qed.
Print Assumptions C75_verbose.
Theorem C75_search : forall (N W : Type) goal (children : N -> W -> outcome (list N * W)) d show v fuel late i depth q w,
  snd (print_incr goal children d show v fuel late i depth q w) = bfs_incr goal children d fuel late i q w /\
  (v = false -> fst (print_incr goal children d show v fuel late i depth q w) = "").
Proof. intros. split; [apply print_erase|intros ->; apply print_silent]. Qed.
Print Assumptions C75_search.

(** The verdict of the type checker is ignored. *)
Theorem C75_unchecked_refuted : forall (SH : StdHash) domain_in problem_in check check' seconds L K fuel calls argv,
  (forall l, exists text b b', check l = (text, Ok b) /\ check' l = (text, Ok b')) ->
  main domain_in problem_in check seconds L K fuel calls argv = main domain_in problem_in check' seconds L K fuel calls argv.
Proof. exact @main_check. Qed.
Print Assumptions C75_unchecked_refuted.

(** An empty name of the problem file is accepted, and a null pointer followed. *)
Theorem C75_empty_refuted : forall (SH : StdHash) domain_in problem_in check seconds L K fuel calls argv a ds,
  command argv a -> ar_problem a = "" -> domain_in (ar_domain a) = Some ds ->
  exists depth, digits depth (Z.of_N (ar_depth a)) /\
    main domain_in problem_in check seconds L K fuel calls argv = (heading a depth, UB).
Proof. exact @main_empty. Qed.
Print Assumptions C75_empty_refuted.

(** *** Examples *)
Definition map_domain : domain_syntax := mkDomain None [] [go; ax_op see; rest] [far].
Definition map_domain_in (name : string) : option domain_syntax :=
  if String.eqb name "map.pddl" then Some map_domain else None.
Definition map_problem_in (ds : domain_syntax) (s : source) : option problem_syntax :=
  match s with
  | FromFile "trip.pddl" => Some (mkProblemSyntax towns (map_init true) (map_goal "b"))
  | _ => None
  end.
Definition run_map (l : list string) : printing unit :=
  main (SH := collide) map_domain_in map_problem_in (fun _ => (line "Errors: 0, warnings: 0", Ok true))
    (fun k => "0." +++ size_text (N.of_nat k)) ex_limits 60 300 300 ("pddl" :: l).

(** The lines of a text, without the bold face and what follows an arrow. *)
Fixpoint lines_of (s cur : string) : list string :=
  match s with
  | EmptyString => match cur with EmptyString => [] | _ => [cur] end
  | String c s' => if Ascii.eqb c "010" then cur :: lines_of s' "" else lines_of s' (cur +++ String c "")
  end.
Fixpoint before_arrow (s : string) : string :=
  match s with
  | EmptyString => ""
  | String c s' => if String.prefix " -> " s then "" else String c (before_arrow s')
  end.
Definition unbold (s : string) : string := if String.prefix bold_on s then substring 4 (String.length s) s else s.
Definition view (r : printing unit) : list string * outcome unit :=
  (map (fun l => unbold (before_arrow l)) (lines_of (fst r) ""), snd r).

Lemma map_loaded : exists l, load (SH := collide) map_domain_in map_problem_in ex_limits "map.pddl" "trip.pddl" true
  = Ok (l, no_store) /\ ld_pddl l = map_pddl true "b".
Proof. eexists. split; vm_compute; reflexivity. Qed.

Example C75_example : let p := map_pddl true "b" in
  command ["pddl"; "map.pddl"; "trip.pddl"; "--depth"; "2"] (mkArgs "map.pddl" "trip.pddl" 2 false) /\
  (exists l, load (SH := collide) map_domain_in map_problem_in ex_limits "map.pddl" "trip.pddl" true = Ok (l, no_store) /\ ld_pddl l = p) /\
  good_domain ex_limits p map_arity (fun _ => 0) (fun _ => 0) /\ Forall (wf_axiom (pd_symbols p)) (pd_axioms p) /\
  Forall (fun o => okind o = KConst) (pd_symbols p) /\ pd_actions p <> [] /\ ordinary_domain p /\
  view (run_map ["map.pddl"; "trip.pddl"; "--depth"; "2"]) =
    (["Domain: map.pddl"; "Problem: trip.pddl"; "Depth: 2"; ""; "Errors: 0, warnings: 0"; "Planning:";
      "0.0s"; ""; "- go(a, b)"; "-- go(b, a)"; "";
      "0.1s"; ""; "- go(a, b)"; "-- go(b, c)"; "";
      "0.2s"; ""; "- go(a, b)"; "-- go(b, d)"; "";
      "Found 3 plans in 0.3s"], Ok tt).
Proof.
  cbv zeta. destruct (map_words true "b") as (_ & _ & _ & _ & H5 & H6).
  split; [apply C75_accepts; vm_compute; reflexivity|]. split; [apply map_loaded|].
  split; [exact (map_good true "b" ltac:(cbn; auto))|]. split.
  { apply Forall_cons; [|apply Forall_nil]. constructor; [reflexivity|discriminate|reflexivity|wf_tac|wf_tac]. }
  split; [repeat constructor|]. split; [exact H5|]. split; [exact H6|]. vm_compute. reflexivity.
Qed.

(** The lines about the depth are printed anew after every plan. *)
Theorem C75_depth_refuted : exists l text, run_map l = (text, Ok tt) /\
  count_occ string_dec (lines_of text "") "BFS depth: 2" = 4 /\
  view (run_map l) =
    (["Domain: map.pddl"; "Problem: trip.pddl"; "Depth: 2"; ""; "Errors: 0, warnings: 0"; "Planning:";
      "BFS depth: 0"; ""; "===================="; "- go(a, b)"; ""; "- rest(a)"; "";
      "BFS depth: 1"; ""; "- go(a, b)"; "====================";
      "-- go(b, a)"; ""; "-- go(b, c)"; ""; "-- go(b, d)"; "";
      ""; "- rest(a)"; "===================="; "-- go(a, b)"; "";
      "BFS depth: 2"; "Goal state reached: " +++ bold_on +++ "-- go(b, a)";
      "0.0s"; ""; "- go(a, b)"; "-- go(b, a)"; "";
      "BFS depth: 2"; "Goal state reached: " +++ bold_on +++ "-- go(b, c)";
      "0.1s"; ""; "- go(a, b)"; "-- go(b, c)"; "";
      "BFS depth: 2"; "Goal state reached: " +++ bold_on +++ "-- go(b, d)";
      "0.2s"; ""; "- go(a, b)"; "-- go(b, d)"; "";
      "BFS depth: 2"; "Found 3 plans in 0.3s"], Ok tt).
Proof.
  exists ["map.pddl"; "trip.pddl"; "--verbose"; "--depth"; "2"]. eexists. split; [|split].
  - vm_compute. reflexivity.
  - vm_compute. reflexivity.
  - vm_compute. reflexivity.
Qed.
Print Assumptions C75_depth_refuted.

(** Only the beginning of a number is read; a negative one is a huge depth; a
    word behind --depth is taken as its number. *)
Theorem C75_numbers_refuted :
  parse_args ["pddl"; "d"; "p"; "--depth"; "3x"] = ("", Ok (mkArgs "d" "p" 3 false)) /\
  parse_args ["pddl"; "d"; "p"; "--depth"; "-1"] = ("", Ok (mkArgs "d" "p" 18446744073709551615 false)) /\
  parse_args ["pddl"; "d"; "p"; "--depth"; "--verbose"] = ("", Throw EInvalidArgument) /\
  parse_args ["pddl"; "d"; "p"; "--depth"; "2147483648"] = ("", Throw EOutOfRange) /\
  parse_args ["pddl"; "d"; "p"; "--verbose"; "--depth"] = (usage, Throw ERuntime) /\
  parse_args ["pddl"; "d"; "p"; "--depth"; " 7"; "--verbose"; "--depth"; "+08"] = ("", Ok (mkArgs "d" "p" 8 true)).
Proof. repeat split; vm_compute; reflexivity. Qed.
Print Assumptions C75_numbers_refuted.

Example C75_readable_example : let steps := [("go(a, b)", "{ at(b) }"); ("rest(b)", "{ at(b), rested() }")] in
  legible (mkListed "0.5" "{ at(a) }" steps) /\
  listing (mkListed "0.5" "{ at(a) }" steps) =
    ["0.5s"; String "027" "[1m -> " +++ String "027" "[0m{ at(a) }";
     String "027" "[1m- go(a, b) -> " +++ String "027" "[0m{ at(b) }";
     String "027" "[1m-- rest(b) -> " +++ String "027" "[0m{ at(b), rested() }"; ""].
Proof.
  split; [|reflexivity]. split; [exists "0"%char, 0, ".5"; split; reflexivity|].
  split; [plain_text|]. split; [plain_text|]. cbn [li_steps].
  repeat (apply Forall_cons || apply Forall_nil); repeat split; plain_text.
Qed.
(** A call with a newline could not be told from two. *)
Example C75_unreadable_refuted : exists x y, x <> y /\ unlines (listing x) = unlines (listing y).
Proof.
  set (e := String "027" "[0m"). set (b := String "027" "[1m").
  exists (mkListed "0" "" [("a", ""); ("b", "")]),
    (mkListed "0" "" [("a -> " +++ e +++ String "010" (b +++ "-- b"), "")]). split; [discriminate|reflexivity].
Qed.
