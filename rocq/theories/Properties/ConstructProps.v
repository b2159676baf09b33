(** C78: which domains and problems a Pddl can be made of. *)
From Coq Require Import String List Bool NArith ZArith Arith Lia.
From Verif.Model Require Import Base Object Proposition State ParameterGenerator Syntax Formula
  Effects Derived Text NormalForm Consistency Construct Pddl Print.
From Verif.Spec Require Import SetSpec TypingSpec FormulaSpec EffectSpec DerivedSpec AxiomSpec PddlSpec ConstructSpec.
From Verif.Proofs Require Import EffectExamples AxiomExamples DerivedExamples PddlExamples ConstructTheorems.
From Verif.Properties Require Import StateProps ParameterProps FormulaProps.
Import ListNotations.
Local Open Scope string_scope.
Local Open Scope list_scope.

(** C78. With axioms made of literals of ordinary predicates, the constructor
    dereferences an empty optional if an axiom adds and deletes the same literal.
    Otherwise it throws if a formula is of an unknown kind, fails an assertion if
    the numbers of arguments of a literal and an axiom's context differ, and else
    only makes the initial state consistent. *)
Theorem C78_outcome : forall (SH : StdHash) L constants objects ops ds init g aa,
  Forall (fun o => wf_type (otype o)) (constants ++ objects) ->
  (forall o, In o ops -> op_is_axiom o = true -> simple_rule (constants ++ objects) o) ->
  let r := make_pddl L constants objects ops ds init g aa in
  ((exists o, In o ops /\ op_is_axiom o = true /\ contradictory o) -> r = UB) /\
  ((forall o, In o ops -> op_is_axiom o = true -> ~ contradictory o) ->
    (~ Forall understood (formulas ops ds g) -> fits (constants ++ objects) ops -> r = Throw ERuntime) /\
    (Forall understood (formulas ops ds g) -> ~ fits (constants ++ objects) ops -> r = AssertFail) /\
    (~ Forall understood (formulas ops ds g) -> ~ fits (constants ++ objects) ops -> r = Throw ERuntime \/ r = AssertFail) /\
    (Forall understood (formulas ops ds g) -> fits (constants ++ objects) ops ->
     exists axioms, Forall2 (fun o a => ax_op a = o /\ rule_for o (ax_pos a) (ax_name a) (ax_args a)) (filter op_is_axiom ops) axioms /\
       let p s := mkPddl constants objects (constants ++ objects) (create_object_map (constants ++ objects)) ops axioms ds s g in
       r = if aa then let* ' (s, st) := consistent_state (create_object_map (constants ++ objects)) axioms (l_cascade L) (l_rounds L)
                                          (initial_state init, no_store) in Ok (p s, st)
           else Ok (p (initial_state init), no_store))).
Proof. exact @C78_outcome_lemma. Qed.
Print Assumptions C78_outcome.

(** If a Pddl could be made, whatever its axioms, all its formulas are of known
    kinds, so that their closures can be made again for any parameters and both
    kinds of states; all contexts are literals; numbers of arguments agree;
    creating an Action again (as calls given as text do) cannot fail; and all
    axioms can be printed. *)
Theorem C78_made : forall (SH : StdHash) L constants objects ops ds init g aa p st,
  Forall (fun o => wf_type (otype o)) (constants ++ objects) ->
  make_pddl L constants objects ops ds init g aa = Ok (p, st) ->
  Forall understood (formulas ops ds g) /\ fits (constants ++ objects) ops /\
  (forall o, In o ops -> op_is_axiom o = true -> exists sign n xs, rule_for o sign n xs) /\
  (forall o, In o ops -> check_action (pd_om p) (pd_axioms p) o = Ok tt) /\
  (forall h params partial, In h (formulas ops ds g) -> exists c, compile partial (pd_om p) h params = Ok c) /\
  (forall o, In o ops -> op_is_axiom o = true -> exists text, axiom_text (pd_om p) o = Ok text).
Proof.
  intros SH L constants objects ops ds init g aa p st W E.
  destruct (C78_made_lemma L constants objects ops ds init g aa p st W E) as (H1 & H2 & H3 & H4 & H5).
  pose proof (C78_text_lemma L constants objects ops ds init g aa p st E) as H6.
  exact (conj H1 (conj H2 (conj H3 (conj H4 (conj H5 H6))))).
Qed.
Print Assumptions C78_made.

(** Every domain of the supported fragment can be made into a Pddl unless an
    axiom contradicts itself. *)
Theorem C78_good : forall (SH : StdHash) L p ar rank drank init, good_domain L p ar rank drank -> pd_objects p = pd_symbols p ->
  Forall2 (fun o a => ax_op a = o /\ extract_context o = Ok a) (filter op_is_axiom (pd_ops p)) (pd_axioms p) ->
  (forall o, In o (pd_ops p) -> op_is_axiom o = true -> simple_rule (pd_symbols p) o /\ ~ contradictory o) ->
  make_pddl L (pd_constants p) (pd_problem_objects p) (pd_ops p) (pd_derived p) init (pd_goal p) false =
  Ok (mkPddl (pd_constants p) (pd_problem_objects p) (pd_objects p) (pd_om p) (pd_ops p) (pd_axioms p) (pd_derived p)
        (initial_state init) (pd_goal p), no_store).
Proof. exact @C78_good_lemma. Qed.
Print Assumptions C78_good.

(** Exceptions while the text of an axiom is made are not passed on: with a
    condition that is always true contradictory effects are accepted, and the text
    says that nothing follows. *)
Theorem C78_caught : forall (SH : StdHash) L constants objects o sign n xs adds dels init g,
  let os := constants ++ objects in Forall (fun o => wf_type (otype o)) os ->
  rule_for o sign n xs -> ordinary os n -> (tuple_count os (op_params o) < 2 ^ 31)%Z ->
  op_effs o = Effs [] [] [] [(GConj [], Effs [] adds dels [])] -> (forall p, In p (adds ++ dels) -> ordinary os (pname p)) ->
  contradictory o -> fits os [o] -> understood g ->
  exists p, make_pddl L constants objects [o] [] init g false = Ok (p, no_store) /\
    exists ctx, axiom_text (pd_om p) o = Ok (print_call "axiom" (op_params o) ++ ": " ++ dnf_text ctx ++ " => false")%string.
Proof. exact @C78_caught_lemma. Qed.
Print Assumptions C78_caught.

(** reach ?u => broken ?u and not broken ?u *)
Definition torn : axiom :=
  rule "torn" [tv "u" 0] true (mkProp "reach" [tv "u" 0]) [mkProp "broken" [tv "u" 0]] [mkProp "broken" [tv "u" 0]].
Definition torn_pddl : pddl :=
  mkPddl [] ex_objects ex_objects (create_object_map ex_objects) [ax_op torn] [torn] []
    st_empty (GConj []).

(** Such an axiom is in the supported fragment, but no Pddl can be made of it. *)
Theorem C78_contradiction_refuted : exists (SH : StdHash) L p ar rank drank init, good_domain L p ar rank drank /\
  pd_objects p = pd_symbols p /\
  Forall2 (fun o a => ax_op a = o /\ extract_context o = Ok a) (filter op_is_axiom (pd_ops p)) (pd_axioms p) /\
  (forall o, In o (pd_ops p) -> op_is_axiom o = true -> simple_rule (pd_symbols p) o) /\
  make_pddl L (pd_constants p) (pd_problem_objects p) (pd_ops p) (pd_derived p) init (pd_goal p) false = UB.
Proof.
  exists collide, ex_limits, torn_pddl, (fun _ => 1), (fun _ => 0), (fun _ => 0), []. split; [|split; [|split; [|split]]].
  - constructor.
    + reflexivity.
    + exact ex_objects_wf.
    + apply C35_ex.
    + repeat apply Forall_cons; try apply Forall_nil. good_op_tac.
    + repeat apply Forall_cons; try apply Forall_nil. wf_tac.
    + repeat apply Forall_cons; try apply Forall_nil. constructor; [good_op_tac| |reflexivity]. split; [nodup_tac|].
      intros x [<-|[]]. exists [], (tv "u" 0), []. cbn. intuition discriminate.
    + intros [|i] a N j b Nb I; [|destruct i; discriminate]. injection N as <-. destruct j as [|j]; [|destruct j; discriminate].
      injection Nb as <-. cbn in I. intuition discriminate.
    + intros i I. cbn. lia.
    + intros d [].
    + constructor.
    + intros d e [].
    + cbn; lia.
    + split; [cbn; lia|]. intros d [].
    + cbn. exact Logic.I.
  - reflexivity.
  - repeat constructor.
  - intros o [<-|[]] _. constructor.
    + exists true, "reach", [tv "u" 0]. split; [split; reflexivity|]. split; [discriminate|not_type].
    + exists [mkProp "broken" [tv "u" 0]], [mkProp "broken" [tv "u" 0]]. split; [reflexivity|discriminate].
    + cbn. intros s q [E|[E|[]]]; injection E as _ <-; (split; [discriminate|not_type]).
    + reflexivity.
  - vm_compute. reflexivity.
Qed.
Print Assumptions C78_contradiction_refuted.

(** The sample domain with an unknown formula, and with an action that adds near
    to a single thing. *)
Definition ex_make_with (o : op) (g : goal) : outcome (pddl * store) :=
  make_pddl (SH := collide) ex_limits (firstn 1 ex_objects) (skipn 1 ex_objects) (ex_domain_ops ++ [o])
    DerivedExamples.ex_rules ex_init g true.
Definition odd_pre : op := mkOp "odd" false [tv "a" 0] (GForall [tv "b" 1] (GNeg GOther)) (Effs [] [] [] []).
Definition odd_cond : op :=
  mkOp "odd" false [tv "a" 0] (GConj []) (Effs [([tv "b" 1], Effs [] [] [] [(GOther, Effs [] [] [] [])])] [] [] []).
Definition odd_arity : op := mkOp "odd" false [tv "a" 0] (GConj []) (Effs [] [mkProp "near" [tv "a" 0]] [] []).
Definition odd_rule (g : goal) : op := mkOp "odd" true [tv "a" 0] g (Effs [] [mkProp "reach" [tv "a" 0]] [] []).
Example C78_example :
  (forall o, In o ex_domain_ops -> op_is_axiom o = true -> simple_rule ex_objects o /\ ~ contradictory o) /\
  length (filter op_is_axiom ex_domain_ops) = 2 /\
  Forall understood (formulas ex_domain_ops DerivedExamples.ex_rules PddlExamples.ex_goal) /\ fits ex_objects ex_domain_ops /\
  ex_make false = Ok (ex_pddl, no_store) /\
  ex_make_with odd_pre PddlExamples.ex_goal = Throw ERuntime /\ ex_make_with odd_cond PddlExamples.ex_goal = Throw ERuntime /\
  ex_make_with pd_wait (GDisj [GConj []; GOther]) = Throw ERuntime /\
  ex_make_with odd_arity PddlExamples.ex_goal = AssertFail /\
  ex_make_with (odd_rule (GSimple "near" [tv "a" 0])) PddlExamples.ex_goal = AssertFail /\
  ex_make_with (odd_rule (GConj [])) PddlExamples.ex_goal = Throw EDomain /\
  ex_make_with (odd_rule GOther) GOther = Throw ERuntime.
Proof.
  assert (R : forall o, In o ex_domain_ops -> op_is_axiom o = true -> simple_rule ex_objects o /\ ~ contradictory o).
  { intros o I A. cbn in I. destruct I as [<-|[<-|[<-|[<-|[]]]]]; try discriminate A; (split; [constructor|]).
    - exists true, "near", [tv "x" 0; tv "y" 1]. split; [split; reflexivity|]. split; [discriminate|not_type].
    - exists [mkProp "reach" [tv "x" 0]], []. split; [reflexivity|discriminate].
    - cbn. intros s q [E|[]]. injection E as _ <-. split; [discriminate|not_type].
    - reflexivity.
    - intros (x & y & I & J & _). cbn in J. intuition discriminate.
    - exists true, "reach", [tv "u" 0]. split; [split; reflexivity|]. split; [discriminate|not_type].
    - exists [], [mkProp "broken" [tv "u" 0]]. split; [reflexivity|discriminate].
    - cbn. intros s q [E|[]]. injection E as _ <-. split; [discriminate|not_type].
    - reflexivity.
    - intros (x & y & I & J & _). cbn in I. intuition discriminate. }
  pose proof ex_made as M. unfold ex_make in M. apply C78_made in M as (U & Ft & _); [|exact ex_objects_wf].
  split; [exact R|]. split; [reflexivity|]. split; [exact U|]. split; [exact Ft|]. split; [exact ex_made|].
  repeat split; vm_compute; reflexivity.
Qed.

Definition torn_when : op :=
  mkOp "torn" true [tv "u" 0] (GSimple "reach" [tv "u" 0])
    (Effs [] [] [] [(GConj [], Effs [] [mkProp "broken" [tv "u" 0]] [mkProp "broken" [tv "u" 0]] [])]).
Example C78_caught_example : rule_for torn_when true "reach" [tv "u" 0] /\ ordinary ex_objects "reach" /\
  (tuple_count ex_objects (op_params torn_when) < 2 ^ 31)%Z /\ contradictory torn_when /\ fits ex_objects [torn_when] /\
  (let* ' (p, _) := make_pddl (SH := collide) ex_limits [] ex_objects [torn_when] [] [] (GConj []) false in Ok (pd_axioms p)) =
    Ok [mkAxiom torn_when true "reach" [tv "u" 0]].
Proof.
  split; [split; reflexivity|]. split; [split; [discriminate|not_type]|]. split; [reflexivity|]. split; [|split].
  - exists (mkProp "broken" [tv "u" 0]), (mkProp "broken" [tv "u" 0]). cbn. auto.
  - intros r sign n xs o p [<-|[]] [_ R] [<-|[]] Il En _. cbn in R, Il. destruct sign; [|discriminate]. injection R as <- <-.
    destruct Il as [E|[E|[]]]; [|discriminate]. injection E as <-. discriminate.
  - vm_compute. reflexivity.
Qed.
