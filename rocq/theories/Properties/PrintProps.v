(** C67-C69: the text of formulas, states, normal forms, nodes and axioms. *)
From Coq Require Import Ascii String List Bool NArith ZArith Arith Lia.
From Verif.Model Require Import Base Object Proposition HashSet State CombinationGenerator
  ParameterGenerator Syntax Formula Text NormalForm Planner Print.
From Verif.Spec Require Import SetSpec TypingSpec FormulaSpec TextSpec ProblemSpec PrintSpec.
From Verif.Proofs Require Import StateFacts StateHistory FormulaFacts TextFacts ProblemFacts EffectExamples NormalFormExamples
  PrintFormula PrintState PrintAxiom.
From Verif.Spec Require Import EffectSpec.
From Verif.Properties Require Import StateProps ParameterProps FormulaProps.
Import ListNotations.
Local Open Scope string_scope.
Local Open Scope list_scope.

Ltac free_tac := let H := fresh in intros H; cbn in H; repeat (destruct H as [H|H]; [discriminate H|]); destruct H.
Ltac clean_tac := split; [split; [discriminate|
    let H := fresh in let K := fresh in intros ? H K; cbn in H; unfold separator in K;
    repeat (destruct H as [H|H]; [subst; cbn in K; repeat (destruct K as [K|K]; [discriminate K|]); destruct K|]); destruct H]
  |split; free_tac].

Ltac parts_tac := repeat first [assumption | exact Logic.I | apply Forall_nil | apply Forall_cons | match goal with |- _ /\ _ => split end].

(** C67. The text of a formula is a PDDL expression, and balanced, exactly when
    no quantifier occurs in the formula. *)
Theorem C67_readable : forall (SH : StdHash) om g params text,
  formula_to_string om g params = Ok text -> Forall clean_var params -> clean_goal g ->
  ((exists es, reads text es) <-> quantifier_free g) /\ (balanced text <-> quantifier_free g).
Proof. exact @C67_readable_lemma. Qed.
Print Assumptions C67_readable.

(** Without quantifiers it is the expression of the formula, except that the
    variables look like constants; ... *)
Theorem C67_forgets_variables : forall (SH : StdHash) om g params text,
  formula_to_string om g params = Ok text -> clean_goal g -> quantifier_free g ->
  reads text [goal_sexp (forget_variables g)].
Proof. exact @C67_forget_lemma. Qed.
Print Assumptions C67_forgets_variables.

(** ... so it is the expression of the formula exactly for ground formulas. *)
Theorem C67_pddl : forall (SH : StdHash) om g params text,
  formula_to_string om g params = Ok text -> Forall clean_var params -> clean_goal g ->
  (reads text [goal_sexp g] <-> ground g).
Proof. exact @C67_pddl_lemma. Qed.
Print Assumptions C67_pddl.

(** Quantifier-free formulas over objects and variables with different names
    are identified by their text. *)
Theorem C67_identifies : forall (SH : StdHash) om om' known params params' g g' text text',
  formula_to_string om g params = Ok text -> formula_to_string om' g' params' = Ok text' ->
  clean_goal g -> clean_goal g' -> quantifier_free g -> quantifier_free g' ->
  NoDup (map oname known) -> incl (goal_args g) known -> incl (goal_args g') known ->
  (text = text' <-> g = g').
Proof. exact @C67_identify_lemma. Qed.
Print Assumptions C67_identifies.

(** With quantifiers they are not: "forall" and "exists" are overwritten. *)
Definition ex_all : goal := GForall [mkObj "x" ["tool"; "thing"; "object"] (KVar 0)] (GSimple "near" [tv "x" 0; o_table]).
Definition ex_some : goal := GExists [mkObj "x" ["tool"; "thing"; "object"] (KVar 0)] (GSimple "near" [tv "x" 0; o_table]).
Theorem C67_quantifiers_refuted : exists (SH : StdHash) objects g g' text s,
  Forall (fun o => wf_type (otype o)) objects /\ NoDup (map oname objects) /\
  wf_goal objects [] g /\ wf_goal objects [] g' /\ clean_goal g /\ clean_goal g' /\ built s /\
  formula_to_string (create_object_map objects) g [] = Ok text /\
  formula_to_string (create_object_map objects) g' [] = Ok text /\
  eval_state (create_object_map objects) s g [] [] = Ok false /\
  eval_state (create_object_map objects) s g' [] [] = Ok true.
Proof.
  pose (SH := collide). exists SH, ex_objects, ex_all, ex_some.
  exists (String ")" (String "010" ("(near x table)" ++ String "010" ")")%string)).
  exists (run [Ins (pr "near" [o_hook; o_table])]).
  split; [exact ex_objects_wf|]. split; [exact ex_objects_nodup|].
  split; [wf_tac|]. split; [wf_tac|].
  assert (C : Forall clean_var [mkObj "x" ["tool"; "thing"; "object"] (KVar 0)] /\ clean_goal (GSimple "near" [tv "x" 0; o_table])).
  { split; [constructor; [split; cbn; clean_tac|constructor]|]. cbn. split; [clean_tac|]. split; [cbn; intuition discriminate|].
    constructor; [cbn; clean_tac|]. constructor; [cbn; clean_tac|constructor]. }
  split; [exact C|]. split; [exact C|]. split; [eexists; reflexivity|]. repeat split; vm_compute; reflexivity.
Qed.
Print Assumptions C67_quantifiers_refuted.

(** A variable and a constant may look the same. *)
Theorem C67_variables_refuted : exists (SH : StdHash) om g g' params text,
  formula_to_string om g params = Ok text /\ formula_to_string om g' [] = Ok text /\
  clean_goal g /\ clean_goal g' /\ quantifier_free g /\ ground g' /\ ~ ground g.
Proof.
  exists collide, (create_object_map ex_objects), (GSimple "broken" [tv "box" 0]), (GSimple "broken" [o_box]), [tv "box" 0], "(broken box)".
  assert (C : forall o, oname o = "box" -> clean_goal (GSimple "broken" [o])).
  { intros o E. cbn. split; [clean_tac|]. split; [cbn; intuition discriminate|]. constructor; [rewrite E; clean_tac|constructor]. }
  split; [vm_compute; reflexivity|]. split; [vm_compute; reflexivity|]. split; [apply C; reflexivity|]. split; [apply C; reflexivity|].
  split; [exact Logic.I|]. split; [split; [exact Logic.I|repeat constructor]|].
  intros [_ F]. inversion F as [|? ? H _]. discriminate H.
Qed.
Print Assumptions C67_variables_refuted.

Definition ex_ground : goal := GConj [GDisj [GSimple "near" [o_hook; o_table]; GSimple "broken" [o_box]]; GNeg (GSimple "broken" [o_hook])].
Example C67_example :
  formula_to_string (SH := collide) (create_object_map ex_objects) ex_ground [] =
    Ok "(and (or (near hook table) (broken box)) (not (broken hook)))" /\
  clean_goal ex_ground /\ ground ex_ground /\ incl (goal_args ex_ground) ex_objects /\ NoDup (map oname ex_objects) /\
  formula_to_string (SH := collide) (create_object_map ex_objects) ex_body [tv "x" 0] =
    Ok "(and (near x table) (not (broken x)))" /\ quantifier_free ex_body /\ ~ ground ex_body /\ ~ quantifier_free ex_all.
Proof.
  split; [vm_compute; reflexivity|].
  assert (N : clean "near") by clean_tac. assert (B : clean "broken") by clean_tac. assert (H : clean "hook") by clean_tac.
  assert (T : clean "table") by clean_tac. assert (X : clean "box") by clean_tac.
  assert (K : ~ In "near" keywords /\ ~ In "broken" keywords) by (split; cbn; intuition discriminate). destruct K as [K1 K2].
  split; [cbn; parts_tac|]. split; [split; [cbn; tauto|cbn; repeat constructor]|].
  split; [cbn; intros x I; cbn in I |- *; intuition|]. split; [exact ex_objects_nodup|].
  split; [vm_compute; reflexivity|]. split; [cbn; tauto|]. split; [|cbn; tauto].
  intros [_ F]. inversion F as [|? ? Q _]. discriminate Q.
Qed.

(** C68. A State prints the strings of its propositions in increasing order, ... *)
Theorem C68_state_text : forall (SH : StdHash) s, built s -> clean_state s -> exists l,
  state_text s = ("{ " ++ String.concat ", " l ++ " }")%string /\ increasing l /\
  forall t, In t l <-> exists p, st_contains s p = true /\
    t = (pname p ++ "(" ++ String.concat ", " (map oname (pargs p)) ++ ")")%string.
Proof. exact @C68_text_lemma. Qed.
Print Assumptions C68_state_text.

(** ... equal states print the same text, ... *)
Theorem C68_equal_states : forall (SH : StdHash) a b, st_eqb a b = true -> state_text a = state_text b.
Proof. exact @C68_equal_lemma. Qed.
Print Assumptions C68_equal_states.

(** ... and different ones different texts. *)
Theorem C68_states : forall (SH : StdHash) a b, built a -> built b -> clean_state a -> clean_state b ->
  (state_text a = state_text b <-> st_eqb a b = true).
Proof. exact @C68_state_lemma. Qed.
Print Assumptions C68_states.

(** The same for PartialStates, ... *)
Theorem C68_partial_states : forall (SH : StdHash) a b,
  built_partial a -> built_partial b -> clean_partial a -> clean_partial b ->
  (partial_text a = partial_text b <-> ps_eqb a b = true).
Proof. exact @C68_partial_lemma. Qed.
Print Assumptions C68_partial_states.

(** ... for the two normal forms, ... *)
Theorem C68_normal_forms : forall (SH : StdHash) d d',
  Forall built_partial d -> Forall built_partial d' -> Forall clean_partial d -> Forall clean_partial d' ->
  (dnf_text d = dnf_text d' <-> Forall2 (fun a b => ps_eqb a b = true) d d') /\
  (cnf_text d = cnf_text d' <-> Forall2 (fun a b => ps_eqb a b = true) d d') /\
  dnf_text d <> cnf_text d'.
Proof. exact @C68_dnf_lemma. Qed.
Print Assumptions C68_normal_forms.

(** The layout of these texts: one literal in each line. *)
Theorem C68_partial_text : forall (SH : StdHash) s, built_partial s -> clean_partial s -> exists pos neg,
  spells (ps_pos s) pos /\ spells (ps_neg s) neg /\
  partial_text s = unlines (["(and"] ++ block (String "009" "") pos neg ++ [")"]).
Proof. exact @C68_partial_text_lemma. Qed.
Print Assumptions C68_partial_text.

Theorem C68_dnf_text : forall (SH : StdHash) d, Forall built_partial d -> Forall clean_partial d -> exists ls,
  Forall2 (fun c l => spells (ps_pos c) (fst l) /\ spells (ps_neg c) (snd l)) d ls /\
  dnf_text d = unlines (["(or"] ++ flat_map (fun l => ["    (and"] ++ block "        " (fst l) (snd l) ++ ["    )"]) ls ++ [")"]).
Proof. exact @C68_dnf_text_lemma. Qed.
Print Assumptions C68_dnf_text.

Theorem C68_cnf_text : forall (SH : StdHash) d, Forall built_partial d -> Forall clean_partial d -> exists ls,
  Forall2 (fun c l => spells (ps_pos c) (fst l) /\ spells (ps_neg c) (snd l)) d ls /\
  cnf_text d = unlines (["(and"] ++ flat_map (fun l => ["    (or"] ++ block "        " (fst l) (snd l) ++ ["    )"]) ls ++ [")"]).
Proof. exact @C68_cnf_text_lemma. Qed.
Print Assumptions C68_cnf_text.

(** ... and for the nodes of the search. *)
Theorem C68_nodes : forall (SH : StdHash) a b, clean_node a -> clean_node b ->
  (node_text a = node_text b <->
   nd_depth a = nd_depth b /\ nd_action a = nd_action b /\ st_eqb (nd_state a) (nd_state b) = true).
Proof. exact @C68_node_lemma. Qed.
Print Assumptions C68_nodes.

(** Names with commas and parentheses are ambiguous. *)
Theorem C68_names_refuted : exists (SH : StdHash) a b, built a /\ built b /\
  state_text a = state_text b /\ st_eqb a b = false.
Proof.
  pose (SH := collide). exists SH, (run [Ins (pr "on" [ex_const "a"; ex_const "b"])]), (run [Ins (pr "on" [ex_const "a, b"])]).
  split; [eexists; reflexivity|]. split; [eexists; reflexivity|]. split; vm_compute; reflexivity.
Qed.
Print Assumptions C68_names_refuted.

Definition ex_shown (SH : StdHash) : state :=
  run [Ins (pr "near" [o_hook; o_table]); Ins (pr "broken" [o_box]); Ins (pr "idle" [])].
Definition ex_node (SH : StdHash) : node := mkNode (ex_shown SH) [] "push(hook)" 2.
Example C68_example :
  (forall SH : StdHash, built (ex_shown SH) /\ clean_state (ex_shown SH) /\ clean_node (ex_node SH) /\
    built_partial (mkPS (ex_shown SH) st_empty) /\ clean_partial (mkPS (ex_shown SH) st_empty)) /\
  state_text (ex_shown collide) = "{ broken(box), idle(), near(hook, table) }" /\
  state_text (ex_shown by_length) = "{ broken(box), idle(), near(hook, table) }" /\
  node_text (ex_node collide) =
    (String "027" "[1m-- push(hook) -> " ++ String "027" "[0m{ broken(box), idle(), near(hook, table) }")%string.
Proof.
  split; [|repeat split; vm_compute; reflexivity]. intros SH.
  assert (B : built (ex_shown SH)) by (eexists; reflexivity).
  assert (C : clean_state (ex_shown SH)).
  { intros p H. unfold ex_shown in H. apply run_contains in H.
    assert (N : clean "near") by clean_tac. assert (Br : clean "broken") by clean_tac. assert (Hk : clean "hook") by clean_tac.
    assert (T : clean "table") by clean_tac. assert (X : clean "box") by clean_tac. assert (Id : clean "idle") by clean_tac.
    destruct H as (l1 & q & l2 & E & K & _). assert (I : In (Ins q) (l1 ++ Ins q :: l2)) by (apply in_app_iff; cbn; auto).
    rewrite <- E in I. unfold prop_key in K. injection K as K1 K2. rewrite <- K1, <- K2.
    destruct I as [I|[I|[I|[]]]]; injection I as <-; cbn; parts_tac. }
  split; auto. split; auto. split; [|split; [split; [exact B|exists []; reflexivity]|split; [exact C|intros p H; exfalso; apply contains_mem in H; [destruct H|apply built_st_wf; exists []; reflexivity]]]].
  split; [auto|]. split; [auto|]. cbn. split; [free_tac|]. split; discriminate.
Qed.

(** C69. Constructing an axiom with a literal as context and a list of literals as
    effect writes both into the text of the axiom; with contradictory effects an
    empty optional is dereferenced. *)
Theorem C69_axiom_text : forall (SH : StdHash) objects, Forall (fun o => wf_type (otype o)) objects ->
  forall (o : op) (sign : bool) n xs adds dels,
  op_pre o = (if sign then GSimple n xs else GNeg (GSimple n xs)) -> op_effs o = Effs [] adds dels [] ->
  ordinary objects n -> adds ++ dels <> [] -> (forall p, In p (adds ++ dels) -> ordinary objects (pname p)) ->
  (axiom_text (create_object_map objects) o = UB <-> exists p q, In p adds /\ In q dels /\ prop_key p = prop_key q) /\
  ((~ exists p q, In p adds /\ In q dels /\ prop_key p = prop_key q) ->
   exists ctx c, built_partial ctx /\ built_partial c /\
     axiom_text (create_object_map objects) o =
       Ok ("axiom(" ++ String.concat ", " (map oname (op_params o)) ++ "): " ++ dnf_text [ctx] ++ " => " ++ dnf_text [c])%string /\
     (forall a, atoms (ps_pos ctx) a <-> sign = true /\ a = (n, map oname xs)) /\
     (forall a, atoms (ps_neg ctx) a <-> sign = false /\ a = (n, map oname xs)) /\
     (forall a, atoms (ps_pos c) a <-> exists p, In p adds /\ prop_key p = a) /\
     (forall a, atoms (ps_neg c) a <-> exists p, In p dels /\ prop_key p = a)).
Proof. exact @C69_lemma. Qed.
Print Assumptions C69_axiom_text.

(** A context with = may do the same. *)
Theorem C69_equality_refuted : exists (SH : StdHash) objects o,
  Forall (fun o => wf_type (otype o)) objects /\ NoDup (map oname objects) /\
  wf_goal objects (map oname (op_params o)) (op_pre o) /\ wf_effs objects (map oname (op_params o)) (op_effs o) /\
  axiom_text (create_object_map objects) o = UB.
Proof.
  exists collide, ex_objects, (mkOp "ax" true [tv "x" 0] (GNeg (GSimple "=" [tv "x" 0; tv "x" 0])) (Effs [] [pr "broken" [tv "x" 0]] [] [])).
  split; [exact ex_objects_wf|]. split; [exact ex_objects_nodup|]. split; [wf_tac|]. split; [wf_tac|]. vm_compute. reflexivity.
Qed.
Print Assumptions C69_equality_refuted.

Definition ex_axiom (dels : list prop) : op :=
  mkOp "ax" true [tv "x" 0] (GNeg (GSimple "near" [tv "x" 0; o_table])) (Effs [] [pr "broken" [tv "x" 0]] dels []).
Definition nl : string := String "010" "".
Example C69_example :
  Forall (fun o => wf_type (otype o)) ex_objects /\ ordinary ex_objects "near" /\ ordinary ex_objects "broken" /\
  axiom_text (SH := collide) (create_object_map ex_objects) (ex_axiom []) =
    Ok ("axiom(x): (or" ++ nl ++ "    (and" ++ nl ++ "        not near(x, table)" ++ nl ++ "    )" ++ nl ++ ")" ++ nl ++
        " => (or" ++ nl ++ "    (and" ++ nl ++ "        broken(x)" ++ nl ++ "    )" ++ nl ++ ")" ++ nl)%string /\
  axiom_text (SH := collide) (create_object_map ex_objects) (ex_axiom [pr "broken" [tv "x" 0]]) = UB.
Proof.
  split; [exact ex_objects_wf|]. split; [split; [discriminate|not_type]|]. split; [split; [discriminate|not_type]|].
  split; vm_compute; reflexivity.
Qed.
