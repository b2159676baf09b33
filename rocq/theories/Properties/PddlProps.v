(** C39-C42 and C61: executing calls, checking tuples and plans, listing calls,
    and the initial state.  [good_domain] is the supported fragment. *)
From Coq Require Import Ascii String List Bool NArith ZArith Arith.
From Verif.Model Require Import Base Object Proposition State ParameterGenerator Syntax Formula
  Effects Derived Consistency Text Pddl.
From Verif.Spec Require Import SetSpec TypingSpec FormulaSpec EffectSpec DerivedSpec TextSpec AxiomSpec PddlSpec.
From Verif.Proofs Require Import StateHistory EffectExamples AxiomExamples DerivedExamples PddlFacts PddlTheorems PddlListing
  PddlHistory PddlExamples.
From Verif.Properties Require Import StateProps ParameterProps FormulaProps.
Import ListNotations.
Local Open Scope string_scope.
Local Open Scope list_scope.

(** C39. ApplyActions is NextState for each call in order ... *)
Theorem C39_fold : forall (SH : StdHash) L p cs w,
  apply_actions L p cs w = foldM (fun w call => next_state L p call w) cs w.
Proof. exact @apply_actions_fold. Qed.
Print Assumptions C39_fold.

(** ... and splits over concatenation. *)
Theorem C39_split : forall (SH : StdHash) L p c1 c2 w,
  apply_actions L p (c1 ++ c2) w = (let* w' := apply_actions L p c1 w in apply_actions L p c2 w').
Proof. exact @apply_actions_app. Qed.
Print Assumptions C39_split.

(** It yields the set of atoms that executing the calls yields, and throws if
    there is none; it always ends. *)
Theorem C39_meaning : forall (SH : StdHash) L p ar rank drank, good_domain L p ar rank drank ->
  forall cs s st t, reachable_store (pd_symbols p) ar (pd_axioms p) st -> represents s t ->
  (forall s' st', apply_actions L p cs (s, st) = Ok (s', st') ->
     reachable_store (pd_symbols p) ar (pd_axioms p) st' /\ exists t', executes L p cs t t' /\ represents s' t') /\
  (forall t', executes L p cs t t' ->
     exists s' st', apply_actions L p cs (s, st) = Ok (s', st') /\ represents s' t') /\
  ((exists w, apply_actions L p cs (s, st) = Ok w) \/ apply_actions L p cs (s, st) = Throw ERuntime \/
   apply_actions L p cs (s, st) = Throw EInvalidArgument).
Proof. exact @C39_meaning_lemma. Qed.
Print Assumptions C39_meaning.

(** The resulting State does not depend on the calls made before. *)
Theorem C39_history : forall (SH : StdHash) L p ar rank drank, good_domain L p ar rank drank ->
  forall cs s st1 st2, reachable_store (pd_symbols p) ar (pd_axioms p) st1 ->
  reachable_store (pd_symbols p) ar (pd_axioms p) st2 -> forall s' st',
  apply_actions L p cs (s, st1) = Ok (s', st') -> exists st'', apply_actions L p cs (s, st2) = Ok (s', st'').
Proof. exact @history_lemma. Qed.
Print Assumptions C39_history.

Example C39_example :
  good_domain ex_limits ex_pddl ex_rules_arity ex_rules_rank ex_rule_rank /\
  state_keys (apply_actions (SH := collide) ex_limits ex_pddl ["move(hook, box, table)"; "wait()"]
    (pd_init ex_pddl, no_store)) =
  Ok [("near", ["hook"; "table"]); ("broken", ["box"]); ("close", ["hook"]); ("lonely", ["box"]);
      ("lonely", ["table"]); ("reach", ["hook"])] /\
  state_keys (apply_actions (SH := collide) ex_limits ex_pddl ["move(hook, box, here)"] (pd_init ex_pddl, no_store)) =
  Throw EInvalidArgument.
Proof. split; [exact ex_pddl_good|]. split; vm_compute; reflexivity. Qed.

(** C40. *)
Theorem C40_tuple : forall (SH : StdHash) L p ar rank drank, good_domain L p ar rank drank ->
  forall call s st t s2, reachable_store (pd_symbols p) ar (pd_axioms p) st -> represents s t -> built s2 ->
  ((exists st', is_valid_tuple L p (s, st) call s2 = Ok (true, st')) <->
   exists o args t', calls p call o args /\ precondition p o args t /\ results_in L p o args t t' /\
     represents s2 t') /\
  ((exists st', is_valid_tuple L p (s, st) call s2 = Ok (false, st')) <->
   exists o args, calls p call o args /\
     (~ precondition p o args t \/
      precondition p o args t /\ exists t', results_in L p o args t t' /\ ~ represents s2 t')) /\
  ((exists b st', is_valid_tuple L p (s, st) call s2 = Ok (b, st') /\
      reachable_store (pd_symbols p) ar (pd_axioms p) st') \/
   is_valid_tuple L p (s, st) call s2 = Throw ERuntime \/ is_valid_tuple L p (s, st) call s2 = Throw EInvalidArgument).
Proof. exact @C40_lemma. Qed.
Print Assumptions C40_tuple.

(** The same for sets of strings; malformed sets are rejected. *)
Theorem C40_text : forall (SH : StdHash) L p ar rank drank, good_domain L p ar rank drank ->
  forall strs call strs' st t t', reachable_store (pd_symbols p) ar (pd_axioms p) st ->
  spells (pd_symbols p) strs t -> spells (pd_symbols p) strs' t' ->
  ((exists st', is_valid_tuple_str L p strs call strs' st = Ok (true, st')) <->
   exists o args, calls p call o args /\ precondition p o args t /\ results_in L p o args t t') /\
  ((exists st', is_valid_tuple_str L p strs call strs' st = Ok (false, st')) <->
   exists o args, calls p call o args /\
     (~ precondition p o args t \/ precondition p o args t /\
        exists u, results_in L p o args t u /\ exists a, u a <> t' a)).
Proof. exact @C40_text_lemma. Qed.
Print Assumptions C40_text.

Theorem C40_malformed : forall (SH : StdHash) L p strs call strs' st,
  (forall t, ~ spells (pd_symbols p) strs t) \/ (forall t, ~ spells (pd_symbols p) strs' t) ->
  is_valid_tuple_str L p strs call strs' st = Throw ERuntime.
Proof. exact @C40_text_else_lemma. Qed.
Print Assumptions C40_malformed.

Example C40_example :
  drop_fst (is_valid_tuple_str (SH := collide) ex_limits ex_pddl ["near(hook, box)"; "near( hook box"]
    "move(hook, box, table)"
    ["near(hook, table)"; "reach(hook)"; "close(hook)"; "lonely(box)"; "lonely(table)"] no_store) = Ok true /\
  drop_fst (is_valid_tuple_str (SH := collide) ex_limits ex_pddl ["near(hook, box)"] "move(hook, box, table)"
    ["near(hook, table)"; "reach(hook)"] no_store) = Ok false /\
  drop_fst (is_valid_tuple_str (SH := collide) ex_limits ex_pddl ["near(hook, cup)"] "move(hook, box, table)"
    [] no_store) = Throw ERuntime.
Proof. split; [|split]; vm_compute; reflexivity. Qed.

(** C41. *)
Theorem C41_plan : forall (SH : StdHash) L p ar rank drank, good_domain L p ar rank drank ->
  forall cs st t, reachable_store (pd_symbols p) ar (pd_axioms p) st -> represents (pd_init p) t ->
  ((exists st', is_valid_plan L p cs st = Ok (true, st')) <-> plan_ok L p cs t) /\
  ((exists st', is_valid_plan L p cs st = Ok (false, st')) <-> plan_fails L p cs t) /\
  ((exists b st', is_valid_plan L p cs st = Ok (b, st') /\ reachable_store (pd_symbols p) ar (pd_axioms p) st') \/
   is_valid_plan L p cs st = Throw ERuntime \/ is_valid_plan L p cs st = Throw EInvalidArgument).
Proof. exact @C41_lemma. Qed.
Print Assumptions C41_plan.

(** IsGoalSatisfied. *)
Theorem C41_goal : forall (SH : StdHash) L p ar rank drank, good_domain L p ar rank drank ->
  forall strs t, spells (pd_symbols p) strs t ->
  exists b, is_goal_satisfied p strs = Ok b /\ (b = true <-> goal_true p t).
Proof. exact @goal_text_lemma. Qed.
Print Assumptions C41_goal.

Example C41_example :
  drop_fst (is_valid_plan (SH := collide) ex_limits ex_pddl ["move(hook, box, table)"] no_store) = Ok true /\
  drop_fst (is_valid_plan (SH := collide) ex_limits ex_pddl ["move(hook, table, box)"] no_store) = Ok false /\
  drop_fst (is_valid_plan (SH := collide) ex_limits ex_pddl ["wait()"] no_store) = Ok false /\
  drop_fst (is_valid_plan (SH := collide) ex_limits ex_pddl ["throw(hook)"] no_store) = Throw ERuntime /\
  is_goal_satisfied (SH := collide) ex_pddl ["near(hook, table)"; "lonely(box)"] = Ok true.
Proof. repeat split; vm_compute; reflexivity. Qed.

(** C42. The listed calls, in the order of declaration and of the objects. *)
Theorem C42_order : forall (SH : StdHash) L p ar rank drank, good_domain L p ar rank drank ->
  Forall (fun o => (tuple_count (pd_symbols p) (op_params o) < 2 ^ 31)%Z) (pd_ops p) ->
  forall s t, represents s t ->
  list_valid_actions p s = Ok (map (fun x => action_to_string (fst x) (snd x)) (applicable p t)).
Proof. exact @C42_order_lemma. Qed.
Print Assumptions C42_order.

Theorem C42_listed : forall (SH : StdHash) L p ar rank drank, good_domain L p ar rank drank ->
  Forall (fun o => (tuple_count (pd_symbols p) (op_params o) < 2 ^ 31)%Z) (pd_ops p) ->
  forall s t, represents s t -> exists l, list_valid_actions p s = Ok l /\
  forall x, In x l <-> exists o args,
    (In o (pd_ops p) /\ op_is_axiom o = false /\ op_params o <> [] /\
     well_typed (pd_symbols p) (op_params o) args /\ precondition p o args t) /\
    x = action_to_string o args.
Proof. exact @C42_listed_lemma. Qed.
Print Assumptions C42_listed.

Theorem C42_arguments : forall (SH : StdHash) L p ar rank drank, good_domain L p ar rank drank ->
  Forall (fun o => (tuple_count (pd_symbols p) (op_params o) < 2 ^ 31)%Z) (pd_ops p) ->
  forall s t o, represents s t -> In o (pd_ops p) ->
  exists l, list_valid_arguments p s o = Ok l /\ NoDup l /\
  forall args, In args l <-> op_params o <> [] /\ well_typed (pd_symbols p) (op_params o) args /\ precondition p o args t.
Proof. exact @C42_arguments_lemma. Qed.
Print Assumptions C42_arguments.

(** Each call is listed once and accepted, and what is accepted is listed. *)
Theorem C42_accepted : forall (SH : StdHash) L p ar rank drank, good_domain L p ar rank drank ->
  Forall (fun o => (tuple_count (pd_symbols p) (op_params o) < 2 ^ 31)%Z) (pd_ops p) ->
  Forall word (map oname (pd_symbols p)) -> Forall (fun o => free_of "("%char (op_name o)) (pd_ops p) ->
  NoDup (map op_name (pd_ops p)) ->
  forall s t l, represents s t -> list_valid_actions p s = Ok l ->
  NoDup l /\
  (forall x, In x l -> is_valid_action p s x = Ok true) /\
  (forall x, is_valid_action p s x = Ok true -> exists o args, calls p x o args /\
     (op_is_axiom o = false -> op_params o <> [] -> In (action_to_string o args) l)).
Proof. exact @C42_accepted_lemma. Qed.
Print Assumptions C42_accepted.

(** IsValidAction itself. *)
Theorem C42_valid : forall (SH : StdHash) L p ar rank drank, good_domain L p ar rank drank ->
  forall s t call, represents s t ->
  (is_valid_action p s call = Ok true <-> exists o args, calls p call o args /\ precondition p o args t) /\
  (is_valid_action p s call = Ok false <-> exists o args, calls p call o args /\ ~ precondition p o args t) /\
  (is_valid_action p s call = Ok true \/ is_valid_action p s call = Ok false \/
   is_valid_action p s call = Throw ERuntime \/ is_valid_action p s call = Throw EInvalidArgument).
Proof. exact @action_valid_spec. Qed.
Print Assumptions C42_valid.

(** The functions on strings. *)
Theorem C42_text : forall (SH : StdHash) L p ar rank drank, good_domain L p ar rank drank ->
  Forall (fun o => (tuple_count (pd_symbols p) (op_params o) < 2 ^ 31)%Z) (pd_ops p) ->
  forall strs t, spells (pd_symbols p) strs t ->
  list_valid_actions_str p strs = Ok (map (fun x => action_to_string (fst x) (snd x)) (applicable p t)) /\
  forall text name ws, call_text text name ws ->
    (forall o, first_named op_name (pd_ops p) name o ->
       list_valid_arguments_str p strs text =
       Ok (map (map oname) (filter (fun args => holdsb (pd_symbols p) t (bind_vars (op_params o) args no_env) (op_pre o))
             (match op_params o with [] => [] | _ => tuples (pd_symbols p) (op_params o) end)))) /\
    ((forall o, ~ first_named op_name (pd_ops p) name o) -> list_valid_arguments_str p strs text = Throw ERuntime).
Proof. exact @list_text_lemma. Qed.
Print Assumptions C42_text.

Theorem C42_malformed : forall (SH : StdHash) p strs name, (forall t, ~ spells (pd_symbols p) strs t) ->
  list_valid_actions_str p strs = Throw ERuntime /\ list_valid_arguments_str p strs name = Throw ERuntime.
Proof. exact @list_text_else. Qed.
Print Assumptions C42_malformed.

(** Actions without parameters are valid but never listed. *)
Theorem C42_nullary_refuted : exists (SH : StdHash) L p ar rank drank s call l,
  good_domain L p ar rank drank /\ built s /\ is_valid_action p s call = Ok true /\
  list_valid_actions p s = Ok l /\
  ~ exists x o args, In x l /\ calls p call o args /\ calls p x o args.
Proof. exact nullary_listed_refuted. Qed.
Print Assumptions C42_nullary_refuted.

Example C42_example :
  Forall word (map oname (pd_symbols ex_pddl)) /\
  Forall (fun o => free_of "("%char (op_name o)) (pd_ops ex_pddl) /\ NoDup (map op_name (pd_ops ex_pddl)) /\
  Forall (fun o => (tuple_count (pd_symbols ex_pddl) (op_params o) < 2 ^ 31)%Z) (pd_ops ex_pddl) /\
  list_valid_actions_str (SH := collide) ex_pddl ["near(hook, box)"; "near(table, hook)"] =
    Ok ["move(table, hook, box)"; "move(hook, box, table)"] /\
  list_valid_arguments_str (SH := collide) ex_pddl ["near(hook, box)"] "move" = Ok [["hook"; "box"; "table"]].
Proof.
  split; [apply ex_words|]. split; [apply ex_words|]. split; [apply ex_words|]. split; [apply ex_words|].
  split; vm_compute; reflexivity.
Qed.

(** C61. The initial state has exactly the facts of the problem; if the axioms
    are to be applied it is valid, and unchanged if it was valid. *)
Theorem C61_initial : forall (SH : StdHash) L constants objects ops ds init g aa p st,
  make_pddl L constants objects ops ds init g aa = Ok (p, st) ->
  built (pd_init p) /\
  (aa = false -> forall a, atoms (pd_init p) a <-> exists q, In q init /\ prop_key q = a) /\
  (aa = true -> forall st2, is_valid_state (pd_om p) (pd_axioms p) (l_cascade L) (pd_init p) st2 = Ok true) /\
  (aa = true ->
     is_valid_state (pd_om p) (pd_axioms p) (l_cascade L) (initial_state init) no_store = Ok true ->
     forall a, atoms (pd_init p) a <-> exists q, In q init /\ prop_key q = a).
Proof. exact @C61_lemma. Qed.
Print Assumptions C61_initial.

(** The members of a new Pddl: all constants and objects, all operators, and
    the axioms among them in order.  Its shared vectors are as C39-C41 assume. *)
Theorem C61_members : forall (SH : StdHash) L constants objects ops ds init g aa p st,
  make_pddl L constants objects ops ds init g aa = Ok (p, st) ->
  pd_symbols p = constants ++ objects /\ pd_om p = create_object_map (pd_symbols p) /\ pd_ops p = ops /\
  pd_derived p = ds /\ pd_goal p = g /\
  Forall2 (fun o a => ax_op a = o /\ extract_context o = Ok a) (filter op_is_axiom ops) (pd_axioms p).
Proof. exact @make_members. Qed.
Print Assumptions C61_members.

Theorem C61_store : forall (SH : StdHash) L constants objects ops ds init g aa p st ar,
  Forall (fun o => wf_type (otype o)) (constants ++ objects) ->
  Forall (fun o => okind o = KConst) (constants ++ objects) ->
  make_pddl L constants objects ops ds init g aa = Ok (p, st) ->
  (aa = true -> Forall (wf_axiom (pd_symbols p)) (pd_axioms p)) ->
  reachable_store (pd_symbols p) ar (pd_axioms p) st.
Proof. exact @make_reachable. Qed.
Print Assumptions C61_store.

Example C61_example :
  ex_make false = Ok (ex_pddl, no_store) /\
  map prop_key (st_elements (pd_init ex_pddl)) = [("near", ["hook"; "box"]); ("broken", ["box"])] /\
  state_keys (let* ' (p, st) := ex_make true in Ok (pd_init p, st)) =
    Ok [("near", ["hook"; "box"]); ("broken", ["box"]); ("reach", ["hook"])] /\
  Forall (wf_axiom (pd_symbols ex_pddl)) (pd_axioms ex_pddl).
Proof. split; [exact ex_made|]. split; [vm_compute; reflexivity|]. split; [vm_compute; reflexivity|exact ex_rules_wf]. Qed.
