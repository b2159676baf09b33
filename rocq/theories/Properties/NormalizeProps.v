(** C64: the normal forms of the conditions of an action and of the goal. *)
From Coq Require Import String List Bool NArith ZArith Lia.
From Verif.Model Require Import Base Object Proposition HashSet State CombinationGenerator
  ParameterGenerator Syntax Formula Effects NormalForm Consistency Text Pddl Normalize.
From Verif.Proofs Require Import StateFacts StateHistory EffectLink EffectExamples AxiomExamples DerivedExamples
  NormalFormExamples PddlTheorems PddlExamples NormalizeFacts NormalizeExamples.
From Verif.Properties Require Import StateProps ParameterProps FormulaProps.
From Verif.Spec Require Import SetSpec TypingSpec FormulaSpec EffectSpec NormalFormSpec AxiomSpec PddlSpec NormalizeSpec.
Import ListNotations.
Local Open Scope string_scope.
Local Open Scope list_scope.

(** A State satisfies NormalizePreconditions of a call exactly if IsValidAction
    accepts the call there. *)
Theorem C64_preconditions_partial : forall (SH : StdHash) L p ar rank drank,
  good_domain L p ar rank drank -> Forall (fun o => okind o = KConst) (pd_symbols p) ->
  forall call o args st, calls p call o args -> declared (pd_symbols p) (op_pre o) ->
  nondegenerate (pd_symbols p) (bind_vars (op_params o) args no_env) (op_pre o) ->
  normalize_preconditions L p call false st = OutOfFuel \/
  exists r, normalize_preconditions L p call false st = Ok (r, st) /\
    forall s, built s -> (result_sat (truth (pd_symbols p) (atoms s)) r <-> is_valid_action p s call = Ok true).
Proof. exact @C64_preconditions_lemma. Qed.
Print Assumptions C64_preconditions_partial.

(** NormalizeGoal is satisfied exactly where the goal test succeeds. *)
Theorem C64_goal_partial : forall (SH : StdHash) L p ar rank drank,
  good_domain L p ar rank drank -> Forall (fun o => okind o = KConst) (pd_symbols p) ->
  forall st, declared (pd_symbols p) (pd_goal p) -> nondegenerate (pd_symbols p) no_env (pd_goal p) ->
  normalize_goal L p false st = OutOfFuel \/
  exists r, normalize_goal L p false st = Ok (r, st) /\
    forall s, built s -> (result_sat (truth (pd_symbols p) (atoms s)) r <-> goal_holds p s = Ok true).
Proof. exact @C64_goal_lemma. Qed.
Print Assumptions C64_goal_partial.

(** NormalizePostconditions says what the effects ask of the state after the
    action ... *)
Theorem C64_postconditions_partial : forall (SH : StdHash) L p ar rank drank,
  good_domain L p ar rank drank -> Forall (fun o => okind o = KConst) (pd_symbols p) ->
  forall call o args st, calls p call o args -> declared_effs (pd_symbols p) (op_effs o) ->
  nondegenerate_effs (pd_symbols p) (bind_vars (op_params o) args no_env) (op_effs o) ->
  normalize_postconditions L p call false st = OutOfFuel \/
  exists r, normalize_postconditions L p call false st = Ok (r, st) /\
    forall S : atom -> bool, result_sat (truth (pd_symbols p) (NormalFormSpec.set_of S)) r <->
      post (pd_symbols p) (NormalFormSpec.set_of S) (bind_vars (op_params o) args no_env) (op_effs o).
Proof. exact @C64_postconditions_lemma. Qed.
Print Assumptions C64_postconditions_partial.

(** ... and NextState delivers it, if no effect changes what a condition reads or
    undoes another one. *)
Theorem C64_applied : forall (SH : StdHash) L p ar rank drank,
  good_domain L p ar rank drank -> Forall (fun o => okind o = KConst) (pd_symbols p) ->
  forall call o args st r st' s, calls p call o args -> declared_effs (pd_symbols p) (op_effs o) ->
  let env := bind_vars (op_params o) args no_env in
  nondegenerate_effs (pd_symbols p) env (op_effs o) ->
  pd_derived p = [] -> quiet (pd_axioms p) (op_effs o) -> ordinary_effs (pd_symbols p) (op_effs o) -> built s ->
  let Lit := eff_lit (pd_symbols p) (holds (pd_symbols p) (atoms s)) env (op_effs o) in
  (forall a pos, eff_reads (pd_symbols p) env (op_effs o) a -> ~ Lit pos a) ->
  (forall a, ~ (Lit true a /\ Lit false a)) ->
  normalize_postconditions L p call false st = Ok (r, st') ->
  forall st1, exists s' st2, next_state L p call (s, st1) = Ok (s', st2) /\ built s' /\
    result_sat (truth (pd_symbols p) (atoms s')) r.
Proof. exact @C64_applied_lemma. Qed.
Print Assumptions C64_applied.

(** NormalizeConditions is the pair of the two; there is none if one is missing. *)
Theorem C64_pair : forall (SH : StdHash) L p call st a b st',
  (normalize_conditions L p call false st = Ok (Some (a, b), st') <->
   normalize_preconditions L p call false st = Ok (Some a, st') /\
   normalize_postconditions L p call false st = Ok (Some b, st')) /\
  (normalize_conditions L p call true st = Ok (Some (a, b), st') <->
   exists st1, normalize_preconditions L p call true st = Ok (Some a, st1) /\
     normalize_postconditions L p call true st1 = Ok (Some b, st')) /\
  (forall ax, normalize_conditions L p call ax st = Ok (None, st') ->
     normalize_preconditions L p call false st = Ok (None, st') \/
     normalize_postconditions L p call false st = Ok (None, st')).
Proof. exact @C64_pair_lemma. Qed.
Print Assumptions C64_pair.

(** A text that calls nothing is rejected with an exception. *)
Theorem C64_rejects : forall (SH : StdHash) L p call b st, (forall o args, ~ calls p call o args) ->
  exists e, (e = ERuntime \/ e = EInvalidArgument) /\
    normalize_preconditions L p call b st = Throw e /\ normalize_postconditions L p call b st = Throw e /\
    normalize_conditions L p call b st = Throw e.
Proof. exact @C64_rejects_lemma. Qed.
Print Assumptions C64_rejects.

Example C64_example :
  good_domain ex_limits ex_pddl ex_rules_arity ex_rules_rank ex_rule_rank /\
  calls ex_pddl "move(hook, box, table)" pd_move [o_hook; o_box; surf] /\
  declared (pd_symbols ex_pddl) (op_pre pd_move) /\
  nondegenerate (pd_symbols ex_pddl) (bind_vars (op_params pd_move) [o_hook; o_box; surf] no_env) (op_pre pd_move) /\
  declared_effs (pd_symbols ex_pddl) (op_effs pd_move) /\
  nondegenerate_effs (pd_symbols ex_pddl) (bind_vars (op_params pd_move) [o_hook; o_box; surf] no_env) (op_effs pd_move) /\
  pair_show (normalize_preconditions (SH := collide) ex_limits ex_pddl "move(hook, box, table)" false no_store) =
    Some (Some [([("near", ["hook"; "box"])], [])]) /\
  pair_show (normalize_preconditions (SH := collide) ex_limits ex_pddl "move(hook, box, table)" true no_store) =
    Some (Some [([("near", ["hook"; "box"]); ("reach", ["hook"])], [("broken", ["hook"])])]) /\
  pair_show (normalize_postconditions (SH := collide) ex_limits ex_pddl "move(hook, box, table)" false no_store) =
    Some (Some [([("near", ["hook"; "table"])], [("near", ["hook"; "box"])])]).
Proof.
  split; [exact ex_pddl_good|]. split; [exact move_calls|]. destruct move_conditions as (A & B & C & D).
  split; [auto|]. split; [auto|]. split; [auto|]. split; [auto|]. split; [|split]; vm_compute; reflexivity.
Qed.

Example C64_applied_example :
  let s := run (SH := collide) [Ins (mkProp "near" [o_hook; o_box])] in
  let env := bind_vars (op_params pd_move) [o_hook; o_box; surf] no_env in
  let Lit := eff_lit (pd_symbols bare) (holds (pd_symbols bare) (atoms (SH := collide) s)) env (op_effs pd_move) in
  good_domain ex_limits bare ex_rules_arity ex_rules_rank ex_rule_rank /\ pd_derived bare = [] /\
  quiet (pd_axioms bare) (op_effs pd_move) /\ ordinary_effs (pd_symbols bare) (op_effs pd_move) /\
  (forall a pos, eff_reads (pd_symbols bare) env (op_effs pd_move) a -> ~ Lit pos a) /\
  (forall a, ~ (Lit true a /\ Lit false a)) /\ Lit true ("near", ["hook"; "table"]).
Proof.
  cbv zeta. split; [exact bare_good|]. split; [reflexivity|]. split; [intros a []|].
  assert (O : ordinary_effs (pd_symbols bare) (op_effs pd_move)) by ord_tac. split; [exact O|]. split; [|split].
  - intros a pos H. apply EffectTheorems.eff_reads_eq in H. destruct H as [(v & b & [] & _)|(g & b & [] & _)].
  - intros a [H1 H2]. apply eff_lit_eq in H1. apply eff_lit_eq in H2.
    destruct H1 as [(v & b & [] & _)|[(q & [<-|[]] & _ & ->)|(g & b & [] & _)]].
    destruct H2 as [(v & b & [] & _)|[(q & [<-|[]] & _ & E)|(g & b & [] & _)]]. discriminate.
  - apply eff_lit_eq. right. left. eexists. split; [left; reflexivity|]. split; [|reflexivity].
    apply (O (true, "near")). left. reflexivity.
Qed.

(** With apply_axioms every conjunction is replaced by a consistent partial state
    that is closed under the axioms and has the same accepted completions. *)
Theorem C64_preconditions_axioms : forall (SH : StdHash) L p ar rank drank,
  good_domain L p ar rank drank -> Forall (fun o => okind o = KConst) (pd_symbols p) ->
  forall sig, plain_axioms p sig ->
  forall call o args st r' st', calls p call o args -> declared (pd_symbols p) (op_pre o) ->
  nondegenerate (pd_symbols p) (bind_vars (op_params o) args no_env) (op_pre o) ->
  reachable_store (pd_symbols p) ar (pd_axioms p) st ->
  normalize_preconditions L p call true st = Ok (r', st') ->
  reachable_store (pd_symbols p) ar (pd_axioms p) st' /\
  exists r, normalize_preconditions L p call false st = Ok (r, st) /\ each (closure L p) r r'.
Proof. exact @C64_pre_axioms_lemma. Qed.
Print Assumptions C64_preconditions_axioms.

Theorem C64_postconditions_axioms : forall (SH : StdHash) L p ar rank drank,
  good_domain L p ar rank drank -> Forall (fun o => okind o = KConst) (pd_symbols p) ->
  forall sig, plain_axioms p sig ->
  forall call o args st r' st', calls p call o args -> declared_effs (pd_symbols p) (op_effs o) ->
  nondegenerate_effs (pd_symbols p) (bind_vars (op_params o) args no_env) (op_effs o) ->
  reachable_store (pd_symbols p) ar (pd_axioms p) st ->
  normalize_postconditions L p call true st = Ok (r', st') ->
  reachable_store (pd_symbols p) ar (pd_axioms p) st' /\
  exists r, normalize_postconditions L p call false st = Ok (r, st) /\ each (closure L p) r r'.
Proof. exact @C64_post_axioms_lemma. Qed.
Print Assumptions C64_postconditions_axioms.

Theorem C64_goal_axioms : forall (SH : StdHash) L p ar rank drank,
  good_domain L p ar rank drank -> Forall (fun o => okind o = KConst) (pd_symbols p) ->
  forall sig, plain_axioms p sig ->
  forall st r' st', declared (pd_symbols p) (pd_goal p) -> nondegenerate (pd_symbols p) no_env (pd_goal p) ->
  reachable_store (pd_symbols p) ar (pd_axioms p) st -> normalize_goal L p true st = Ok (r', st') ->
  reachable_store (pd_symbols p) ar (pd_axioms p) st' /\
  exists r, normalize_goal L p false st = Ok (r, st) /\ each (closure L p) r r'.
Proof. exact @C64_goal_axioms_lemma. Qed.
Print Assumptions C64_goal_axioms.

(** In states that satisfy the axioms, the new precondition is met where the
    action is valid, and only there if axioms do not trigger each other. *)
Theorem C64_applicable : forall (SH : StdHash) L p ar rank drank,
  good_domain L p ar rank drank -> Forall (fun o => okind o = KConst) (pd_symbols p) ->
  forall sig, plain_axioms p sig ->
  forall call o args st r st' s, calls p call o args -> declared (pd_symbols p) (op_pre o) ->
  nondegenerate (pd_symbols p) (bind_vars (op_params o) args no_env) (op_pre o) ->
  (forall n, In n (goal_preds (op_pre o)) -> ordinary (pd_symbols p) n) ->
  reachable_store (pd_symbols p) ar (pd_axioms p) st ->
  normalize_preconditions L p call true st = Ok (r, st') -> accepted p s ->
  (is_valid_action p s call = Ok true -> meets s r) /\
  ((forall a, In a (pd_axioms p) -> quiet (pd_axioms p) (op_effs (ax_op a))) ->
     meets s r -> is_valid_action p s call = Ok true).
Proof. exact @C64_applicable_lemma. Qed.
Print Assumptions C64_applicable.

Theorem C64_goal_met : forall (SH : StdHash) L p ar rank drank,
  good_domain L p ar rank drank -> Forall (fun o => okind o = KConst) (pd_symbols p) ->
  forall sig, plain_axioms p sig ->
  forall st r st' s, declared (pd_symbols p) (pd_goal p) -> nondegenerate (pd_symbols p) no_env (pd_goal p) ->
  (forall n, In n (goal_preds (pd_goal p)) -> ordinary (pd_symbols p) n) ->
  reachable_store (pd_symbols p) ar (pd_axioms p) st ->
  normalize_goal L p true st = Ok (r, st') -> accepted p s ->
  (goal_holds p s = Ok true -> meets s r) /\
  ((forall a, In a (pd_axioms p) -> quiet (pd_axioms p) (op_effs (ax_op a))) ->
     meets s r -> goal_holds p s = Ok true).
Proof. exact @C64_goal_met_lemma. Qed.
Print Assumptions C64_goal_met.

Example C64_axioms_example :
  let g := GSimple "near" [o_box; o_hook] in
  good_domain ex_limits (with_goal g) ex_rules_arity ex_rules_rank ex_rule_rank /\ plain_axioms (with_goal g) ex_rules_sig /\
  ordinary (pd_symbols ex_pddl) "near" /\
  reachable_store (SH := collide) (pd_symbols ex_pddl) ex_rules_arity (pd_axioms ex_pddl) no_store /\
  accepted (SH := collide) (with_goal g) near_state /\
  pair_show (normalize_goal (SH := collide) ex_limits (with_goal g) true no_store) =
    Some (Some [([("near", ["box"; "hook"]); ("reach", ["box"])], [("broken", ["box"])])]).
Proof.
  cbv zeta. split; [apply with_goal_good; wf_tac|]. split; [apply with_goal_plain|].
  split; [split; [discriminate|not_type]|]. split; [constructor|]. split; [apply near_accepted|]. vm_compute. reflexivity.
Qed.

(** Documented to return nothing for invalid conditions (normal_form.h 83-84),
    the functions throw as soon as one disjunct contradicts the axioms, even if
    another one is satisfied by a valid state. *)
Theorem C64_throws_refuted : exists (SH : StdHash) L p ar rank drank sig s d st,
  good_domain L p ar rank drank /\ plain_axioms p sig /\ declared (pd_symbols p) (pd_goal p) /\
  nondegenerate (pd_symbols p) no_env (pd_goal p) /\ accepted p s /\ goal_holds p s = Ok true /\
  normalize_goal L p false no_store = Ok (Some d, st) /\ normalize_goal L p true no_store = Throw ERuntime.
Proof. exact axioms_throw_refuted. Qed.
Print Assumptions C64_throws_refuted.
