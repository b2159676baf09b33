(** C18-C21: formulas. *)
From Coq Require Import String List Bool NArith ZArith.
From Verif.Model Require Import Base Object Proposition HashSet State CombinationGenerator
  ParameterGenerator Syntax Formula.
From Verif.Spec Require Import SetSpec TypingSpec FormulaSpec.
From Verif.Proofs Require Import StateFacts FormulaFacts.
From Verif.Properties Require Import StateProps ParameterProps.
Import ListNotations.
Local Open Scope string_scope.
Local Open Scope list_scope.

(** C18. A Formula object, called after any earlier calls, returns the truth
    value of first-order semantics. [e] gives values to names that do not occur;
    it does not matter. *)
Theorem C18_semantics : forall (SH : StdHash) objects s g params args e calls,
  Forall (fun o => wf_type (otype o)) objects -> length params = length args ->
  wf_goal objects (map oname params) g ->
  exists f b0 b, compile false (create_object_map objects) g params = Ok (f, b0) /\
    fst (call_state f s args (after_calls f calls b0)) = Ok b /\
    (b = true <-> holds objects (atoms s) (bind_vars params args e) g).
Proof. exact @C18_lemma. Qed.
Print Assumptions C18_semantics.

(** Sample: forall ?b - thing. (exists ?a - tool. near ?a ?b and not ?a = ?b) or table ?b,
    the inner ?a shadowing the parameter ?a. *)
Definition var (n : string) (ty : pddl_type) (i : nat) : object := mkObj n ty (KVar i).
Definition ex_goal : goal :=
  GForall [var "b" ["thing"; "object"] 5]
    (GDisj [GExists [var "a" ["tool"; "thing"; "object"] 6]
              (GConj [GSimple "near" [var "a" ["tool"; "thing"; "object"] 6; var "b" ["thing"; "object"] 5];
                      GNeg (GSimple "=" [var "a" ["tool"; "thing"; "object"] 6; var "b" ["thing"; "object"] 5])]);
            GSimple "surface" [var "b" ["thing"; "object"] 5];
            GSimple "broken" [var "a" [] 7; mkObj "here" [] KConst]]).
Definition ex_near (a b : string) : prop :=
  mkProp "near" [mkObj a [] KConst; mkObj b [] KConst].
Definition ex_state (SH : StdHash) : state := run [Ins (ex_near "hook" "box"); Ins (ex_near "box" "hook")].

Lemma ex_goal_wf : wf_goal ex_objects (map oname [var "a" [] 7]) ex_goal.
Proof.
  assert (T1 : ~ is_type ex_objects "near") by (intros (o & I & H); cbn in I; unfold has_type in H;
    intuition; subst; cbn in *; intuition discriminate).
  assert (T2 : ~ is_type ex_objects "broken") by (intros (o & I & H); cbn in I; unfold has_type in H;
    intuition; subst; cbn in *; intuition discriminate).
  cbn. repeat split; try discriminate; try reflexivity; try tauto;
    repeat (apply Forall_cons || apply Forall_nil); unfold arg_ok; cbn; intuition (try discriminate).
Qed.

Example C18_example :
  Forall (fun o => wf_type (otype o)) ex_objects /\
  wf_goal ex_objects (map oname [var "a" [] 7]) ex_goal /\
  eval_state (SH := collide) (create_object_map ex_objects) (ex_state collide) ex_goal
    [var "a" [] 7] [mkObj "here" [] KConst] = Ok true /\
  eval_state (SH := collide) (create_object_map ex_objects)
    (snd (st_erase (SH := collide) (ex_near "hook" "box") (ex_state collide))) ex_goal
    [var "a" [] 7] [mkObj "here" [] KConst] = Ok false.
Proof. split; [exact ex_objects_wf|]. split; [exact ex_goal_wf|]. split; reflexivity. Qed.

(** Outside the fragment: a constant with the name of a variable in scope is
    replaced by the variable's value ... *)
Theorem C18_constant_capture_refuted : forall (SH : StdHash),
  exists objects s g params args e,
    Forall (fun o => wf_type (otype o)) objects /\ length params = length args /\
    eval_state (create_object_map objects) s g params args = Ok true /\
    ~ holds objects (atoms s) (bind_vars params args e) g.
Proof. exact @capture_lemma. Qed.
Print Assumptions C18_constant_capture_refuted.

(** ... and an existential quantifier without variables is false. *)
Theorem C18_empty_quantifier_refuted : forall (SH : StdHash),
  exists objects s g params args e,
    Forall (fun o => wf_type (otype o)) objects /\ length params = length args /\
    eval_state (create_object_map objects) s (GExists [] g) params args = Ok false /\
    holds objects (atoms s) (bind_vars params args e) (GExists [] g).
Proof. exact @empty_quantifier_lemma. Qed.
Print Assumptions C18_empty_quantifier_refuted.

(** C19. The value does not depend on earlier calls, nor on how the state was
    built. *)
Theorem C19_history : forall (SH : StdHash) om g params f b0 s s' args calls calls',
  compile false om g params = Ok (f, b0) -> same_contents s s' ->
  fst (call_state f s args (after_calls f calls b0)) =
  fst (call_state f s' args (after_calls f calls' b0)).
Proof. exact @C19_lemma. Qed.
Print Assumptions C19_history.

Theorem C19_history_partial_state : forall (SH : StdHash) om g params f b0 s s' args calls calls',
  compile true om g params = Ok (f, b0) ->
  same_contents (ps_pos s) (ps_pos s') -> same_contents (ps_neg s) (ps_neg s') ->
  fst (call_partial f s args (after_partial_calls f calls b0)) =
  fst (call_partial f s' args (after_partial_calls f calls' b0)).
Proof. exact @C19_partial_lemma. Qed.
Print Assumptions C19_history_partial_state.

(** C19. The closures compute the buffer-free evaluator used in the rest of the
    model. *)
Theorem C19_closures : forall (SH : StdHash) om g params f b0 s args calls,
  compile false om g params = Ok (f, b0) ->
  fst (call_state f s args (after_calls f calls b0)) = eval_state om s g params args.
Proof. exact @call_state_eval. Qed.
Print Assumptions C19_closures.

Theorem C19_closures_partial_state : forall (SH : StdHash) om g params f b0 s args calls,
  compile true om g params = Ok (f, b0) ->
  fst (call_partial f s args (after_partial_calls f calls b0)) = eval_partial om s g params args.
Proof. exact @call_partial_eval. Qed.
Print Assumptions C19_closures_partial_state.

Definition ex_calls (SH : StdHash) : list (state * list object) :=
  [(ex_state SH, [mkObj "box" [] KConst]); (st_empty, []); (ex_state SH, [mkObj "hook" [] KConst])].
Example C19_example :
  exists f b0, compile (SH := collide) false (create_object_map ex_objects) ex_goal [var "a" [] 7] = Ok (f, b0) /\
    after_calls (SH := collide) f (ex_calls collide) b0 <> b0 /\
    fst (call_state (SH := collide) f (ex_state collide) [mkObj "here" [] KConst]
           (after_calls (SH := collide) f (ex_calls collide) b0)) = Ok true.
Proof.
  eexists. eexists. split; [reflexivity|]. split; [vm_compute; discriminate|reflexivity].
Qed.

(** C20. A definite value on a partial state is the value on every completion. *)
Theorem C20_sound : forall (SH : StdHash) om ps s g params args v,
  completes s ps -> eval_optional om ps g params args = Ok (Some v) ->
  eval_state om s g params args = Ok v.
Proof. exact @C20_lemma. Qed.
Print Assumptions C20_sound.

Definition ex_partial (SH : StdHash) : partial_state :=
  prun [Del (ex_near "hook" "table"); Del (ex_near "box" "table"); Ins (ex_near "hook" "box"); Del (ex_near "box" "hook"); Del (ex_near "hook" "hook");
        Del (mkProp "broken" [mkObj "here" [] KConst; mkObj "here" [] KConst])].
Example C20_example :
  eval_optional (SH := collide) (create_object_map ex_objects) (ex_partial collide) ex_goal
    [var "a" [] 7] [mkObj "here" [] KConst] = Ok (Some false) /\
  eval_optional (SH := collide) (create_object_map ex_objects) (ex_partial collide) ex_goal
    [var "a" [] 7] [mkObj "box" [] KConst] = Ok None /\
  st_contains (SH := collide) (run (SH := collide) [Ins (ex_near "hook" "box"); Ins (ex_near "x" "y")]) (ex_near "box" "hook") = false.
Proof. repeat split. Qed.

(** C21. More information never changes a definite value. *)
Theorem C21_monotone : forall (SH : StdHash) om a b g params args v,
  extends a b -> pbuilt b -> eval_optional om a g params args = Ok (Some v) ->
  eval_optional om b g params args = Ok (Some v).
Proof. exact @C21_mono_lemma. Qed.
Print Assumptions C21_monotone.

(** C21. If every relevant atom is known the value is definite, and it is the
    truth value in the state of the positive propositions. *)
Theorem C21_definite : forall (SH : StdHash) objects s g params args e,
  Forall (fun o => wf_type (otype o)) objects -> length params = length args ->
  wf_goal objects (map oname params) g ->
  (forall a, relevant objects (bind_vars params args e) g a -> knows s a) ->
  exists v, eval_optional (create_object_map objects) s g params args = Ok (Some v) /\
    (v = true <-> holds objects (atoms (ps_pos s)) (bind_vars params args e) g).
Proof. exact @C21_definite_lemma. Qed.
Print Assumptions C21_definite.

(** Some atom is relevant, and it can be known. *)
Example C21_example : forall e,
  relevant ex_objects e (GNeg (GSimple "near" [mkObj "box" [] KConst; mkObj "hook" [] KConst]))
    ("near", ["box"; "hook"]) /\
  (forall a, relevant ex_objects e (GNeg (GSimple "near" [mkObj "box" [] KConst; mkObj "hook" [] KConst])) a ->
     knows (SH := collide) (ex_partial collide) a) /\
  pbuilt (SH := collide) (ex_partial collide).
Proof.
  assert (T1 : ~ is_type ex_objects "near") by (intros (o & I & H); cbn in I; unfold has_type in H;
    intuition; subst; cbn in *; intuition discriminate).
  intros e. split; [|split].
  - cbn. repeat split; auto. discriminate.
  - intros a (_ & _ & ->). right. exists (ex_near "box" "hook"). split; (vm_compute; reflexivity).
  - split; [exists [Ins (ex_near "hook" "box")]; (vm_compute; reflexivity)|]. split; [|(vm_compute; reflexivity)].
    exists [Ins (ex_near "hook" "table"); Ins (ex_near "box" "table"); Ins (ex_near "box" "hook"); Ins (ex_near "hook" "hook");
        Ins (mkProp "broken" [mkObj "here" [] KConst; mkObj "here" [] KConst])]. (vm_compute; reflexivity).
Qed.
