(** C79: printing a Pddl. *)
From Coq Require Import Ascii String List Bool NArith ZArith Lia.
From Verif.Model Require Import Base Object Proposition State ParameterGenerator Syntax Effects Derived Text Pddl Print Listing.
From Verif.Spec Require Import TypingSpec TextSpec PrintSpec EffectSpec ConstructSpec ListingSpec.
From Verif.Proofs Require Import ListingTheorems ListingExamples PddlExamples.
From Verif.Properties Require Import StateProps ParameterProps.
Import ListNotations.
Local Open Scope string_scope.
Local Open Scope list_scope.

(** C79. There is a text if and only if every type has a parent, every symbol a
    type, and all formulas are of a known kind.  Otherwise a null pointer is
    dereferenced or it throws. *)
Theorem C79_outcome : forall ad d p,
  ((exists t, print_pddl ad d p = Ok t) <-> typed_domain d /\ Forall understood (domain_goals d)) /\
  (print_pddl ad d p = UB -> ~ typed_domain d) /\
  (print_pddl ad d p = Throw ERuntime -> ~ Forall understood (domain_goals d)) /\
  ((exists t, print_pddl ad d p = Ok t) \/ print_pddl ad d p = UB \/ print_pddl ad d p = Throw ERuntime).
Proof. exact C79_outcome_lemma. Qed.
Print Assumptions C79_outcome.

(** It cannot throw for a domain of which a Pddl was made (whatever [f] the
    constructor does to symbols without type). *)
Theorem C79_made : forall (SH : StdHash) L constants objects f d p ds init g aa q st ad,
  Forall (fun o => wf_type (otype o)) (constants ++ objects) ->
  make_pddl L constants objects (map (map_op f) (vd_ops d)) ds init g aa = Ok (q, st) ->
  (typed_domain d -> exists t, print_pddl ad d p = Ok t) /\ (~ typed_domain d -> print_pddl ad d p = UB).
Proof. exact @C79_made_lemma. Qed.
Print Assumptions C79_made.

(** Whatever the addresses are, the text determines the names of the domain, its
    types and their parents, constants, predicates and actions with the names and
    types of all symbols, and the structure of all formulas and effects. *)
Theorem C79_readable : forall d d' p p' ad ad' t t', plain_domain d -> plain_domain d' ->
  plain_addresses ad -> plain_addresses ad' -> print_pddl ad d p = Ok t -> print_pddl ad' d' p' = Ok t' ->
  t = t' -> shown_domain d = shown_domain d'.
Proof. exact C79_readable_lemma. Qed.
Print Assumptions C79_readable.

(** It determines nothing else: not the problem, the derived predicates, which
    actions are axioms, which symbols are constants, supertypes of parents. *)
Theorem C79_hidden : forall d d' p p' ad, shown_domain d = shown_domain d' -> print_pddl ad d p = print_pddl ad d' p'.
Proof. exact C79_hidden_lemma. Qed.
Print Assumptions C79_hidden.

(** The same for the text of a problem, which nothing prints. *)
Theorem C79_problem_outcome : forall ad p,
  ((exists t, print_problem ad p = Ok t) <-> typed (problem_symbols p) /\ Forall understood (problem_goals p)) /\
  (print_problem ad p = UB -> ~ typed (problem_symbols p)) /\
  (print_problem ad p = Throw ERuntime -> ~ Forall understood (problem_goals p)) /\
  ((exists t, print_problem ad p = Ok t) \/ print_problem ad p = UB \/ print_problem ad p = Throw ERuntime).
Proof. exact C79_problem_outcome_lemma. Qed.
Print Assumptions C79_problem_outcome.
Theorem C79_problem : forall p p' ad ad' t t', plain_problem p -> plain_problem p' ->
  plain_addresses ad -> plain_addresses ad' -> print_problem ad p = Ok t -> print_problem ad' p' = Ok t' ->
  t = t' -> shown_problem p = shown_problem p'.
Proof. exact C79_problem_lemma. Qed.
Print Assumptions C79_problem.
Theorem C79_problem_hidden : forall p p' ad, shown_problem p = shown_problem p' -> print_problem ad p = print_problem ad p'.
Proof. exact C79_problem_hidden_lemma. Qed.
Print Assumptions C79_problem_hidden.

(** Printing a Pddl does not show its problem. *)
Theorem C79_problem_refuted : exists ad d p p' t, plain_domain d /\ typed_domain d /\ plain_addresses ad /\
  vp_goal p <> vp_goal p' /\ vp_objects p <> vp_objects p' /\
  print_pddl ad d p = Ok t /\ print_pddl ad d p' = Ok t.
Proof.
  exists ex_address, demo, demo_problem, (mkValProblem "p" "demo" "" [] (Effs [] [] [] []) (GConj [])). eexists.
  split; [exact demo_plain|]. split; [exact demo_typed|]. split; [exact ex_address_plain|].
  split; [discriminate|]. split; [discriminate|]. split; reflexivity.
Qed.
Print Assumptions C79_problem_refuted.

(** Domains need not have types, but such a domain cannot be printed. *)
Theorem C79_untyped_refuted : exists ad d p, plain_domain d /\ vd_types d = [] /\ domain_goals d = [] /\ print_pddl ad d p = UB.
Proof.
  exists ex_address, demo_untyped, demo_problem. split; [|repeat split].
  split; [apply free_ok; reflexivity|]. split; [apply free_ok; reflexivity|]. split; [intros t []|].
  split; [apply symbols_ok; reflexivity|]. split; [intros p []|intros o []].
Qed.
Print Assumptions C79_untyped_refuted.

Example C79_outcome_example :
  typed_domain demo /\ Forall understood (domain_goals demo) /\
  print_pddl ex_address demo demo_problem = Ok (unlines (demo_lines ++ [""] ++ demo_lines ++ [""])) /\
  print_pddl ex_address demo_untyped demo_problem = UB /\
  print_pddl ex_address demo_other demo_problem = Throw ERuntime.
Proof. split; [exact demo_typed|]. split; [exact demo_understood|]. split; [vm_compute; reflexivity|]. split; reflexivity. Qed.

Example C79_made_example : exists q st,
  Forall (fun o => wf_type (otype o)) ([] ++ ex_objects) /\
  make_pddl (SH := collide) ex_limits [] ex_objects (map (map_op (fun x => x)) (vd_ops demo)) [] [] (GConj []) false = Ok (q, st) /\
  typed_domain demo.
Proof.
  eexists; eexists. split; [exact ex_objects_wf|]. split; [vm_compute; reflexivity|exact demo_typed].
Qed.

Example C79_readable_example :
  plain_domain demo /\ plain_domain demo_axiom /\ plain_addresses ex_address /\ demo <> demo_axiom /\
  shown_domain demo = shown_domain demo_axiom /\
  print_pddl ex_address demo demo_problem = print_pddl ex_address demo_axiom demo_problem.
Proof.
  split; [exact demo_plain|]. split; [exact demo_axiom_plain|]. split; [exact ex_address_plain|].
  split; [discriminate|]. split; reflexivity.
Qed.

Example C79_problem_example :
  plain_problem demo_problem /\ typed (problem_symbols demo_problem) /\ Forall understood (problem_goals demo_problem) /\
  print_problem ex_address demo_problem = Ok (unlines
    ["PROBLEM"; "======="; "Name: p"; "Domain: demo"; "Requirements: "; "Objects:"; tabs 1 "box [0x5]: thing";
     "Initial State:"; tabs 1 "(+) in(box [0x5]: thing, room [0x5]: thing) [0x5]"; "Goal:"; tabs 1 "neg:"; tabs 2 "dusty() [0x5]"]).
Proof.
  split; [exact demo_problem_plain|]. split; [apply typed_ok; reflexivity|].
  split; [repeat apply Forall_cons; try apply Forall_nil; apply understood_ok; reflexivity|]. vm_compute. reflexivity.
Qed.
