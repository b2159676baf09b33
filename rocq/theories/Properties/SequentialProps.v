(** C25, C26: exactly what the code does for all effects of the supported
    fragment that trigger no axiom. *)
From Coq Require Import String List Bool NArith ZArith Lia.
From Verif.Model Require Import Base Object Proposition HashSet State CombinationGenerator
  ParameterGenerator Syntax Formula Effects.
From Verif.Spec Require Import SetSpec TypingSpec FormulaSpec EffectSpec SequentialSpec.
From Verif.Proofs Require Import StateFacts StateHistory FormulaFacts EffectLink EffectTheorems EffectExamples SequentialFacts.
From Verif.Properties Require Import StateProps ParameterProps FormulaProps.
Import ListNotations.
Local Open Scope string_scope.
Local Open Scope list_scope.

(** C26. Any nesting of forall and conditional effects is executed in sequence,
    with conditions seeing what has been done before. *)
Theorem C26_sequential : forall (SH : StdHash) objects axioms fuel ow o args s st,
  Forall (fun o => wf_type (otype o)) objects -> built s ->
  length (op_params o) = length args -> wf_effs objects (map oname (op_params o)) (op_effs o) ->
  quiet axioms (op_effs o) -> ordinary_effs objects (op_effs o) ->
  exists n s', apply_state fuel (create_object_map objects) axioms ow o args (s, st) = Ok (n, (s', st)) /\
    built s' /\
    forall a, atoms s' a <-> in_sequence objects (bind_vars (op_params o) args no_env) (op_effs o) (atoms s) a.
Proof. exact @sequential_lemma. Qed.
Print Assumptions C26_sequential.

(** Sample: the effect (q c), (when (q c) (r c)) adds (r c). *)
Example C26_sequential_example :
  wf_effs [ex_c] (map oname (op_params ex_cond_op)) (op_effs ex_cond_op) /\
  ordinary_effs [ex_c] (op_effs ex_cond_op) /\
  in_sequence [ex_c] no_env (op_effs ex_cond_op) (fun _ => False) ("r", ["c"]).
Proof.
  split; [wf_tac|]. split; [ord_tac|]. cbn [in_sequence ex_cond_op op_effs fold_left]. left.
  assert (O : ordinary [ex_c] "q") by (split; [discriminate|not_type]).
  split; [|left; reflexivity]. right. right. split; [discriminate|]. split; [apply O|]. left. reflexivity.
Qed.

(** C25. One forall effect with plain literals, overlapping or not: the last
    tuple of objects that mentions an atom decides. *)
Theorem C25_last_word : forall (SH : StdHash) objects axioms fuel ow o args s st vars adds dels,
  Forall (fun o => wf_type (otype o)) objects -> built s ->
  op_effs o = Effs [(vars, Effs [] adds dels [])] [] [] [] ->
  length (op_params o) = length args -> wf_effs objects (map oname (op_params o)) (op_effs o) ->
  quiet axioms (op_effs o) -> ordinary_effs objects (op_effs o) ->
  exists n s', apply_state fuel (create_object_map objects) axioms ow o args (s, st) = Ok (n, (s', st)) /\
    built s' /\ forall a, atoms s' a <-> last_word objects (bind_vars (op_params o) args no_env) vars adds dels (atoms s) a.
Proof. exact last_word_lemma. Qed.
Print Assumptions C25_last_word.

(** Sample: for objects c, d in this order, add (p c) and delete (p ?x): (p c) is
    deleted for c and added again for d. *)
Example C25_last_word_example :
  let c := ex_const "c" in let d := ex_const "d" in
  let e := Effs [([tv "x" 0], Effs [] [mkProp "p" [c]] [mkProp "p" [tv "x" 0]] [])] [] [] [] in
  wf_effs [c; d] [] e /\ ordinary_effs [c; d] e /\
  last_word [c; d] no_env [tv "x" 0] [mkProp "p" [c]] [mkProp "p" [tv "x" 0]] (fun _ => False) ("p", ["c"]) /\
  ~ last_word [d; c] no_env [tv "x" 0] [mkProp "p" [c]] [mkProp "p" [tv "x" 0]] (fun _ => True) ("p", ["c"]).
Proof.
  cbv zeta. split; [wf_tac|]. split; [ord_tac|]. split.
  - left. exists [[ex_const "c"]], [ex_const "d"], []. split; [reflexivity|].
    split; [exists (mkProp "p" [ex_const "c"]); split; [left; auto|reflexivity]|].
    split; [intros (p & [<-|[]] & E); discriminate|intros ? []].
  - intros [(l1 & objs & l2 & E & _ & N & F)|[_ F]].
    + destruct l1 as [|x [|y [|z l1]]]; injection E; intros; subst.
      * apply (F [ex_const "c"]); [left; auto|]. exists (mkProp "p" [tv "x" 0]). split; [left; auto|reflexivity].
      * apply N. exists (mkProp "p" [tv "x" 0]). split; [left; auto|reflexivity].
      * discriminate.
      * discriminate.
    + apply (F [ex_const "c"]); [right; left; auto|]. exists (mkProp "p" [tv "x" 0]). split; [left; auto|reflexivity].
Qed.
