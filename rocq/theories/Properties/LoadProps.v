(** C73: constructing, printing and pickling a Pddl. *)
From Coq Require Import Ascii String List Bool NArith ZArith Arith.
From Verif.Model Require Import Base Object Proposition State ParameterGenerator Syntax Formula
  Effects Derived Consistency Text Pddl Objects Problem Load.
From Verif.Spec Require Import SetSpec TypingSpec FormulaSpec EffectSpec DerivedSpec TextSpec AxiomSpec PddlSpec
  LoadSpec.
From Verif.Proofs Require Import StateHistory EffectExamples AxiomExamples DerivedExamples PddlExamples
  ObjectsExamples LoadFacts.
From Verif.Properties Require Import StateProps ParameterProps FormulaProps.
Import ListNotations.
Local Open Scope string_scope.
Local Open Scope list_scope.

(** C73. The problem argument is taken as PDDL text exactly if it ends with a
    closing parenthesis up to blanks, and as the name of a file otherwise. *)
Theorem C73_source : forall p,
  (problem_source p = FromText p <-> ends_with_paren p) /\
  (problem_source p = FromFile p <-> ~ ends_with_paren p).
Proof. exact source_iff. Qed.
Print Assumptions C73_source.

(** What problem.py prints is always taken as text. *)
Theorem C73_generated : forall b, problem_source (problem_text b) = FromText (problem_text b).
Proof. exact problem_text_source. Qed.
Print Assumptions C73_generated.

(** A Pddl with a problem is the Pddl of C39-C42 of the parsed domain and
    problem; its goal and plans are checked as there. *)
Theorem C73_with_problem : forall (SH : StdHash) domain_in problem_in L d p aa l st,
  load domain_in problem_in L d p aa = Ok (l, st) ->
  exists ds b, domain_in d = Some ds /\ problem_in ds (problem_source p) = Some b /\
    make_pddl L (ds_constants ds) (ps_objects b) (ds_ops ds) (ds_derived ds) (ps_init b) (ps_goal b) aa
      = Ok (ld_pddl l, st) /\
    ld_constants l = pd_constants (ld_pddl l) /\
    (forall s, ld_goal_holds l s = goal_holds (ld_pddl l) s) /\
    (forall calls st0, ld_is_valid_plan L l calls st0 = is_valid_plan L (ld_pddl l) calls st0).
Proof. exact @with_problem. Qed.
Print Assumptions C73_with_problem.

(** An empty problem argument is not a Pddl without a problem: a null pointer
    is followed. *)
Theorem C73_empty_refuted : forall (SH : StdHash) domain_in problem_in L d ds aa,
  domain_in d = Some ds -> load domain_in problem_in L d "" aa = UB.
Proof. exact @load_empty. Qed.
Print Assumptions C73_empty_refuted.

(** A Pddl made from the domain alone is one whose problem has no objects and
    no initial propositions, with any goal a Pddl can have, except that its goal cannot be
    checked, no plan is valid, objects cannot be edited, and constants() is
    empty. *)
Theorem C73_domain_only : forall (SH : StdHash) domain_in problem_in L d l st,
  load_domain domain_in problem_in L d = Ok (l, st) ->
  exists ds p, domain_in d = Some ds /\
    (forall g, supported g = true -> make_pddl L (ds_constants ds) [] (ds_ops ds) (ds_derived ds) [] g false
       = Ok (with_goal g p, st)) /\
    ld_pddl l = with_goal (pd_goal (ld_pddl l)) p /\
    pd_objects (ld_pddl l) = ds_constants ds /\ ld_constants l = [] /\
    (forall s, ld_goal_holds l s = Throw EBadCall) /\
    (forall calls st0 b st1, ld_is_valid_plan L l calls st0 = Ok (b, st1) -> b = false) /\
    (forall n t, ld_add_object n t l = UB) /\
    (forall n, In n (map oname (ds_constants ds)) -> ld_remove_object n l = UB).
Proof. exact @without_problem. Qed.
Print Assumptions C73_domain_only.

(** Everything that does not ask for the goal is the same for all goals. *)
Theorem C73_goal_unused : forall (SH : StdHash) L g p,
  (forall c w, next_state L (with_goal g p) c w = next_state L p c w) /\
  (forall cs w, apply_actions L (with_goal g p) cs w = apply_actions L p cs w) /\
  (forall s c, is_valid_action (with_goal g p) s c = is_valid_action p s c) /\
  (forall w c s, is_valid_tuple L (with_goal g p) w c s = is_valid_tuple L p w c s) /\
  (forall s, list_valid_actions (with_goal g p) s = list_valid_actions p s).
Proof. exact @goalless. Qed.
Print Assumptions C73_goal_unused.

(** A Pddl made with apply_axioms and left as it is survives pickling ... *)
Theorem C73_pickle : forall (SH : StdHash) domain_in problem_in L d p l st,
  load domain_in problem_in L d p true = Ok (l, st) ->
  unpickle domain_in problem_in L (pickle l) = Ok (l, st).
Proof. exact @pickle_same. Qed.
Print Assumptions C73_pickle.

(** ... one made without gets the initial state that the axioms make of its own ... *)
Theorem C73_pickle_axioms : forall (SH : StdHash) domain_in problem_in L d p l st,
  load domain_in problem_in L d p false = Ok (l, st) ->
  unpickle domain_in problem_in L (pickle l) =
  let* ' (s, st') := consistent_state (pd_om (ld_pddl l)) (pd_axioms (ld_pddl l)) (l_cascade L) (l_rounds L)
                       (pd_init (ld_pddl l), no_store) in
  Ok (ld_set_initial s l, st').
Proof. exact @pickle_axioms. Qed.
Print Assumptions C73_pickle_axioms.

(** ... and all changes are lost. *)
Theorem C73_pickle_changes : forall (SH : StdHash) domain_in problem_in L d p l st cs l',
  load domain_in problem_in L d p true = Ok (l, st) -> do_changes cs l = Ok l' ->
  unpickle domain_in problem_in L (pickle l') = Ok (l, st).
Proof. exact @pickle_changes. Qed.
Print Assumptions C73_pickle_changes.

(** A Pddl made from the domain alone is pickled but never restored. *)
Theorem C73_pickle_domain_refuted : forall (SH : StdHash) domain_in problem_in L d l st cs l',
  load_domain domain_in problem_in L d = Ok (l, st) -> do_changes cs l = Ok l' ->
  unpickle domain_in problem_in L (pickle l') = UB.
Proof. exact @pickle_domain. Qed.
Print Assumptions C73_pickle_domain_refuted.

(** What Python prints evaluates to the pickled copy if neither argument has a
    quote, a backslash or an end of line ... *)
Theorem C73_repr : forall (SH : StdHash) domain_in problem_in L l,
  plain (ld_domain l) -> plain (ld_problem l) ->
  exists d p, read_call (ld_repr l) = Some (d, p) /\
    load domain_in problem_in L d p true = unpickle domain_in problem_in L (pickle l).
Proof. exact @repr_evaluates. Qed.
Print Assumptions C73_repr.

(** ... and is not an expression if the problem is text from problem.py. *)
Theorem C73_repr_refuted : forall l b, plain (ld_domain l) -> ld_problem l = problem_text b ->
  free_of "'" (problem_text b) -> read_call (ld_repr l) = None.
Proof. exact read_call_text. Qed.
Print Assumptions C73_repr_refuted.

(** *** Examples *)

Definition ex_domain : domain_syntax :=
  mkDomain (Some ex_types) (firstn 1 ex_objects) ex_domain_ops DerivedExamples.ex_rules.
Definition ex_problem : problem_syntax := mkProblemSyntax (skipn 1 ex_objects) ex_init ex_goal.
Definition ex_domain_in (name : string) : option domain_syntax :=
  if String.eqb name "domain.pddl" then Some ex_domain else None.
Definition ex_problem_in (ds : domain_syntax) (s : source) : option problem_syntax :=
  match s with
  | FromFile name => if String.eqb name "problem.pddl" then Some ex_problem else None
  | FromText _ => Some (mkProblemSyntax [] [] (GConj []))
  end.
Notation ex_load := (load (SH := collide) ex_domain_in ex_problem_in ex_limits).
Notation ex_load_domain := (load_domain (SH := collide) ex_domain_in ex_problem_in ex_limits).
Notation ex_unpickle := (unpickle (SH := collide) ex_domain_in ex_problem_in ex_limits).
Definition init_view (r : outcome (loaded * store)) : outcome (list atom) :=
  let* ' (l, _) := r in Ok (map prop_key (st_elements (pd_init (ld_pddl l)))).

(** Text with a comment behind it is opened as a file; a file whose name ends
    with a parenthesis is not opened. *)
Example C73_sources :
  problem_source "problem.pddl" = FromFile "problem.pddl" /\
  problem_source "(define (problem p))  " = FromText "(define (problem p))  " /\
  problem_source "(define (problem p)) ; end" = FromFile "(define (problem p)) ; end" /\
  problem_source "problem (1)" = FromText "problem (1)" /\
  problem_source " " = FromFile " ".
Proof. repeat split. Qed.

(** Loading works with and without the axioms and from text, pickling changes
    the initial state of the second, and unreadable files throw. *)
Definition is_ok {A} (r : outcome A) : bool := match r with Ok _ => true | _ => false end.
Example C73_example :
  is_ok (ex_load "domain.pddl" "problem.pddl" true) = true /\
  is_ok (ex_load "domain.pddl" "problem.pddl" false) = true /\
  is_ok (ex_load "domain.pddl" "()" true) = true /\
  is_ok (ex_load_domain "domain.pddl") = true /\
  ex_load "other.pddl" "problem.pddl" true = Throw ERuntime /\
  ex_load "domain.pddl" "other.pddl" true = Throw ERuntime /\
  ex_load "domain.pddl" "" true = UB.
Proof. vm_compute. repeat split. Qed.

(** Pickling does not preserve a Pddl made without the axioms, nor one whose
    initial state or objects were changed; constants() of a Pddl without a
    problem misses the constants of its domain. *)
Theorem C73_pickle_refuted : exists (SH : StdHash) domain_in problem_in L d p l st l' st' q,
  load domain_in problem_in L d p false = Ok (l, st) /\
  unpickle domain_in problem_in L (pickle l) = Ok (l', st') /\
  In q (map prop_key (st_elements (pd_init (ld_pddl l')))) /\
  ~ In q (map prop_key (st_elements (pd_init (ld_pddl l)))).
Proof.
  exists collide, ex_domain_in, ex_problem_in, ex_limits, "domain.pddl", "problem.pddl".
  do 4 eexists. exists ("reach", ["hook"]).
  split; [vm_compute; reflexivity|]. split; [vm_compute; reflexivity|].
  vm_compute. split; [tauto|intuition discriminate].
Qed.
Print Assumptions C73_pickle_refuted.

Theorem C73_changes_refuted : exists (SH : StdHash) domain_in problem_in L d p l st cs l' l'' st' o,
  load domain_in problem_in L d p true = Ok (l, st) /\ do_changes cs l = Ok l' /\
  unpickle domain_in problem_in L (pickle l') = Ok (l'', st') /\
  In o (pd_objects (ld_pddl l')) /\ ~ In o (pd_objects (ld_pddl l'')) /\
  st_elements (pd_init (ld_pddl l')) = [] /\ st_elements (pd_init (ld_pddl l'')) <> [].
Proof.
  pose (SH := collide).
  exists collide, ex_domain_in, ex_problem_in, ex_limits, "domain.pddl", "problem.pddl".
  do 2 eexists. exists [AddObj "cup" "thing"; SetInitial st_empty]. do 3 eexists.
  exists (mkObj "cup" ["thing"; "object"] KConst).
  split; [vm_compute; reflexivity|]. split; [vm_compute; reflexivity|].
  split; [vm_compute; reflexivity|]. vm_compute.
  split; [tauto|]. split; [intuition discriminate|]. split; [reflexivity|discriminate].
Qed.
Print Assumptions C73_changes_refuted.

Theorem C73_constants_refuted : exists (SH : StdHash) domain_in problem_in L d ds l st,
  domain_in d = Some ds /\ load_domain domain_in problem_in L d = Ok (l, st) /\
  ds_constants ds <> [] /\ pd_objects (ld_pddl l) = ds_constants ds /\ ld_constants l = [].
Proof.
  exists collide, ex_domain_in, ex_problem_in, ex_limits, "domain.pddl", ex_domain.
  do 2 eexists. split; [reflexivity|]. split; [vm_compute; reflexivity|].
  split; [discriminate|]. split; reflexivity.
Qed.
Print Assumptions C73_constants_refuted.

(** Printed forms. *)
Example C73_printed :
  (forall l st, ex_load "domain.pddl" "problem.pddl" true = Ok (l, st) ->
     ld_repr l = "symbolic.Pddl('domain.pddl', 'problem.pddl')") /\
  plain "domain.pddl" /\ plain "problem.pddl" /\
  read_call "symbolic.Pddl('domain.pddl', 'problem.pddl')" = Some ("domain.pddl", "problem.pddl") /\
  read_call "symbolic.Pddl('it's', 'problem.pddl')" = None /\
  free_of "'" (problem_text (pb_add_object "box" "" (new_problem "stack" "blocks"))).
Proof.
  split.
  - intros l st H. vm_compute in H. injection H as <- _. reflexivity.
  - split; [|split; [|split; [reflexivity|split; [reflexivity|]]]].
    + intros c I. cbn in I. intuition (subst; reflexivity).
    + intros c I. cbn in I. intuition (subst; reflexivity).
    + intros I. vm_compute in I. intuition discriminate.
Qed.
