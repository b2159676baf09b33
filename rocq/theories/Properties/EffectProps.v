(** C22-C28: effects. *)
From Coq Require Import String List Bool NArith ZArith Lia.
From Verif.Model Require Import Base Object Proposition HashSet State CombinationGenerator
  ParameterGenerator Syntax Formula Effects.
From Verif.Spec Require Import SetSpec TypingSpec FormulaSpec EffectSpec.
From Verif.Proofs Require Import StateFacts StateHistory FormulaFacts EffectLink EffectTheorems EffectExamples.
From Verif.Properties Require Import StateProps ParameterProps FormulaProps.
Import ListNotations.
Local Open Scope string_scope.
Local Open Scope list_scope.

(** C22. Plain effects, no axioms: exactly (S union Add) minus Del. *)
Theorem C22_plain : forall (SH : StdHash) objects axioms fuel ow o args s st adds dels,
  Forall (fun o => wf_type (otype o)) objects -> built s -> op_effs o = Effs [] adds dels [] ->
  length (op_params o) = length args -> wf_effs objects (map oname (op_params o)) (op_effs o) ->
  quiet axioms (op_effs o) -> ordinary_effs objects (op_effs o) ->
  let inst p := (pname p, map oname (map (denote (bind_vars (op_params o) args no_env)) (pargs p))) in
  let Add a := exists p, In p adds /\ a = inst p in
  let Dels a := exists p, In p dels /\ a = inst p in
  exists n s', apply_state fuel (create_object_map objects) axioms ow o args (s, st) = Ok (n, (s', st)) /\
    built s' /\ forall a, atoms s' a <-> (atoms s a \/ Add a) /\ ~ Dels a.
Proof. exact @plain_lemma. Qed.
Print Assumptions C22_plain.

(** C22. This is PDDL's (S minus Del) union Add exactly when nothing is both
    added and deleted. *)
Theorem C22_pddl : forall (S Add Dels : atom -> Prop),
  (forall a, (S a \/ Add a) /\ ~ Dels a <-> Add a \/ (S a /\ ~ Dels a)) <-> (forall a, ~ (Add a /\ Dels a)).
Proof. exact pddl_order. Qed.
Print Assumptions C22_pddl.

(** Sample: move ?a to ?b, with ?b possibly the same as the present place. *)
Example C22_example :
  wf_effs ex_objects (map oname (op_params ex_move)) (op_effs ex_move) /\
  quiet [] (op_effs ex_move) /\ ordinary_effs ex_objects (op_effs ex_move) /\
  keys_of (drop_store (apply_state (SH := collide) 0 (create_object_map ex_objects) [] (OAct "move") ex_move
    [ex_const "box"; ex_const "hook"; ex_const "table"]
    (run (SH := collide) [Ins (ex_near "box" "hook")], no_store))) =
  Some (1, [("near", ["box"; "table"])]) /\
  keys_of (drop_store (apply_state (SH := collide) 0 (create_object_map ex_objects) [] (OAct "move") ex_move
    [ex_const "box"; ex_const "hook"; ex_const "hook"]
    (run (SH := collide) [Ins (ex_near "box" "hook")], no_store))) =
  Some (1, []).
Proof.
  split; [exact ex_move_wf|]. split; [intros a []|]. split; [exact ex_move_ordinary|].
  split; vm_compute; reflexivity.
Qed.

(** C23. Only instances of effect literals change, with any nesting of forall and
    conditional effects. *)
Theorem C23_frame : forall (SH : StdHash) objects axioms fuel ow o args s st n s' st',
  Forall (fun o => wf_type (otype o)) objects -> built s ->
  length (op_params o) = length args -> wf_effs objects (map oname (op_params o)) (op_effs o) ->
  quiet axioms (op_effs o) ->
  apply_state fuel (create_object_map objects) axioms ow o args (s, st) = Ok (n, (s', st')) ->
  built s' /\
  (forall a, atoms s' a -> ~ atoms s a ->
     eff_lit objects (fun _ _ => True) (bind_vars (op_params o) args no_env) (op_effs o) true a) /\
  (forall a, atoms s a -> ~ atoms s' a ->
     eff_lit objects (fun _ _ => True) (bind_vars (op_params o) args no_env) (op_effs o) false a).
Proof. exact @C23_lemma. Qed.
Print Assumptions C23_frame.

(** Sample: clear everything near ?a; if ?a is broken, move it here. *)
Example C23_example :
  wf_effs ex_objects (map oname (op_params ex_clear)) (op_effs ex_clear) /\ quiet [] (op_effs ex_clear) /\
  keys_of (drop_store (apply_state (SH := collide) 0 (create_object_map ex_objects) [] (OAct "clear") ex_clear
    [ex_const "box"] (run (SH := collide) [Ins (ex_near "box" "hook"); Ins (ex_near "box" "table");
                       Ins (ex_near "hook" "box"); Ins (mkProp "broken" [ex_const "box"])], no_store))) =
  Some (1, [("near", ["box"; "here"]); ("near", ["hook"; "box"]); ("broken", ["box"])]).
Proof. split; [exact ex_clear_wf|]. split; [intros a []|]. vm_compute; reflexivity. Qed.

(** C24. Status 0 means the very same state, whatever axioms are triggered. *)
Theorem C24_unchanged : forall (SH : StdHash) fuel om axioms ow o args s st s' st',
  built s -> apply_state fuel om axioms ow o args (s, st) = Ok (0, (s', st')) -> s' = s.
Proof. exact @C24_state_lemma. Qed.
Print Assumptions C24_unchanged.

Theorem C24_unchanged_partial_state : forall (SH : StdHash) fuel om axioms ow o args s st s' st',
  pbuilt s -> apply_partial fuel om axioms ow o args (s, st) = Ok (0, (s', st')) -> s' = s.
Proof. exact @C24_partial_lemma. Qed.
Print Assumptions C24_unchanged_partial_state.

Example C24_example :
  let s := run (SH := collide) [Ins (ex_near "box" "table")] in
  exists st', apply_state (SH := collide) 0 (create_object_map ex_objects) [] (OAct "move") ex_move
    [ex_const "box"; ex_const "hook"; ex_const "table"] (s, no_store) = Ok (0, (s, st')).
Proof. eexists. vm_compute. reflexivity. Qed.

(** The converse fails: a nonzero status can come with the same state. *)
Theorem C24_converse_refuted : exists (SH : StdHash) o args s n s' st',
  built s /\ apply_state 0 (create_object_map ex_objects) [] (OAct "o") o args (s, no_store) = Ok (n, (s', st')) /\
  n <> 0 /\ s' = s.
Proof. exact converse_refuted. Qed.
Print Assumptions C24_converse_refuted.

(** C25. A forall effect reaches every tuple of declared objects of the types. *)
Theorem C25_forall_partial : forall (SH : StdHash) objects axioms fuel ow o args s st vars adds dels,
  Forall (fun o => wf_type (otype o)) objects -> built s ->
  op_effs o = Effs [(vars, Effs [] adds dels [])] [] [] [] ->
  length (op_params o) = length args -> wf_effs objects (map oname (op_params o)) (op_effs o) ->
  quiet axioms (op_effs o) -> ordinary_effs objects (op_effs o) ->
  let inst objs p := (pname p, map oname (map (denote (bind_vars vars objs (bind_vars (op_params o) args no_env))) (pargs p))) in
  let Add a := exists objs p, well_typed objects vars objs /\ In p adds /\ a = inst objs p in
  let Dels a := exists objs p, well_typed objects vars objs /\ In p dels /\ a = inst objs p in
  (forall a, ~ (Add a /\ Dels a)) ->
  exists n s', apply_state fuel (create_object_map objects) axioms ow o args (s, st) = Ok (n, (s', st)) /\
    built s' /\ forall a, atoms s' a <-> Add a \/ (atoms s a /\ ~ Dels a).
Proof. exact @forall_lemma. Qed.
Print Assumptions C25_forall_partial.

Example C25_example :
  exists o, op_effs o = Effs [([var "x" ["thing"; "object"] 1],
      Effs [] [mkProp "seen" [var "x" ["thing"; "object"] 1]]
              [mkProp "near" [var "a" ["thing"; "object"] 0; var "x" ["thing"; "object"] 1]] [])] [] [] [] /\
  op_params o = [var "a" ["thing"; "object"] 0] /\
  wf_effs ex_objects (map oname (op_params o)) (op_effs o) /\ ordinary_effs ex_objects (op_effs o) /\
  keys_of (drop_store (apply_state (SH := collide) 0 (create_object_map ex_objects) [] (OAct "look") o
    [ex_const "box"] (run (SH := collide) [Ins (ex_near "box" "hook"); Ins (ex_near "hook" "hook")], no_store))) =
  Some (1, [("near", ["hook"; "hook"]); ("seen", ["box"]); ("seen", ["hook"]); ("seen", ["table"])]).
Proof. exact forall_example. Qed.

(** With overlapping literals the outcome depends on the order in which the
    objects are declared. *)
Theorem C25_order_refuted : exists (SH : StdHash) objects objects' o s n n' s1 s2 st1 st2 a,
  Permutation.Permutation objects objects' /\
  apply_state 0 (create_object_map objects) [] (OAct "o") o [] (s, no_store) = Ok (n, (s1, st1)) /\
  apply_state 0 (create_object_map objects') [] (OAct "o") o [] (s, no_store) = Ok (n', (s2, st2)) /\
  st_contains s1 a = true /\ st_contains s2 a = false.
Proof. exact order_refuted. Qed.
Print Assumptions C25_order_refuted.

(** C26. If the conditions do not depend on anything the action changes and no
    proposition is both added and deleted, the result is PDDL's, with all
    conditions evaluated in the state before the action. *)
Theorem C26_stable_conditions_partial : forall (SH : StdHash) objects axioms fuel ow o args s st,
  Forall (fun o => wf_type (otype o)) objects -> built s ->
  length (op_params o) = length args -> wf_effs objects (map oname (op_params o)) (op_effs o) ->
  quiet axioms (op_effs o) -> ordinary_effs objects (op_effs o) ->
  let env := bind_vars (op_params o) args no_env in
  let Lit := eff_lit objects (holds objects (atoms s)) env (op_effs o) in
  (forall a pos, eff_reads objects env (op_effs o) a -> ~ Lit pos a) ->
  (forall a, ~ (Lit true a /\ Lit false a)) ->
  exists n s', apply_state fuel (create_object_map objects) axioms ow o args (s, st) = Ok (n, (s', st)) /\
    built s' /\ forall a, atoms s' a <-> Lit true a \/ (atoms s a /\ ~ Lit false a).
Proof. exact @stable_lemma. Qed.
Print Assumptions C26_stable_conditions_partial.

Example C26_example :
  let s := run (SH := collide) [Ins (mkProp "broken" [ex_const "box"]); Ins (ex_near "box" "hook")] in
  let env := bind_vars (op_params ex_repair) [ex_const "box"] no_env in
  let Lit := eff_lit ex_objects (holds ex_objects (atoms (SH := collide) s)) env (op_effs ex_repair) in
  wf_effs ex_objects (map oname (op_params ex_repair)) (op_effs ex_repair) /\
  ordinary_effs ex_objects (op_effs ex_repair) /\
  (exists a, eff_reads ex_objects env (op_effs ex_repair) a) /\
  (forall a pos, eff_reads ex_objects env (op_effs ex_repair) a -> ~ Lit pos a) /\
  (forall a, ~ (Lit true a /\ Lit false a)) /\ Lit true ("sent", ["box"]).
Proof. exact repair_example. Qed.

(** In general conditions see the effects already applied. *)
Theorem C26_refuted : exists (SH : StdHash) objects o s n s' st' a,
  Forall (fun o => wf_type (otype o)) objects /\ built s /\
  wf_effs objects (map oname (op_params o)) (op_effs o) /\ ordinary_effs objects (op_effs o) /\
  apply_state 0 (create_object_map objects) [] (OAct "o") o [] (s, no_store) = Ok (n, (s', st')) /\
  atoms s' a /\ ~ atoms s a /\
  (forall pos, ~ eff_lit objects (holds objects (atoms s)) (bind_vars (op_params o) [] no_env) (op_effs o) pos a).
Proof. exact cond_refuted. Qed.
Print Assumptions C26_refuted.

(** C27. Soundness on partial states when every condition met has a definite
    value and no axiom is triggered. *)
Theorem C27_known_conditions_partial : forall (SH : StdHash) objects axioms fuel ow o args ps s st n ps' st',
  Forall (fun o => wf_type (otype o)) objects -> built s -> pbuilt ps -> completes s ps ->
  length (op_params o) = length args -> wf_effs objects (map oname (op_params o)) (op_effs o) ->
  quiet axioms (op_effs o) ->
  apply_op ps_insert ps_erase (cond_known (create_object_map objects)) (create_object_map objects)
    axioms fuel ow o args (ps, st) = Ok (n, (ps', st')) ->
  (exists m, apply_partial fuel (create_object_map objects) axioms ow o args (ps, st) = Ok (m, (ps', st'))) /\
  exists m s', apply_state fuel (create_object_map objects) axioms ow o args (s, st) = Ok (m, (s', st')) /\
    completes s' ps'.
Proof. exact @C27_lemma. Qed.
Print Assumptions C27_known_conditions_partial.

Theorem C27_unconditional : forall (SH : StdHash) objects axioms fuel ow o args ps s st n ps' st',
  Forall (fun o => wf_type (otype o)) objects -> built s -> pbuilt ps -> completes s ps ->
  length (op_params o) = length args -> wf_effs objects (map oname (op_params o)) (op_effs o) ->
  quiet axioms (op_effs o) -> eff_conds (op_effs o) = [] ->
  apply_partial fuel (create_object_map objects) axioms ow o args (ps, st) = Ok (n, (ps', st')) ->
  exists m s', apply_state fuel (create_object_map objects) axioms ow o args (s, st) = Ok (m, (s', st')) /\
    completes s' ps'.
Proof. exact @C27_unconditional_lemma. Qed.
Print Assumptions C27_unconditional.

Example C27_example :
  let ps := prun (SH := collide) [Ins (mkProp "broken" [ex_const "box"]); Ins (ex_near "box" "hook")] in
  pkeys_of (drop_store (apply_op (SH := collide) (ps_insert (SH := collide)) (ps_erase (SH := collide))
     (cond_known (SH := collide) (create_object_map ex_objects))
     (create_object_map ex_objects) [] 0 (OAct "clear") ex_clear [ex_const "box"] (ps, no_store))) =
  Some (2, [("near", ["box"; "here"]); ("broken", ["box"])],
           [("near", ["box"; "box"]); ("near", ["box"; "hook"]); ("near", ["box"; "table"])]).
Proof. vm_compute; reflexivity. Qed.

(** An unknown condition is treated as false ... *)
Theorem C27_unknown_condition_refuted : exists (SH : StdHash) objects o ps s n ps' st' m s' st'',
  Forall (fun o => wf_type (otype o)) objects /\ built s /\ pbuilt ps /\ completes s ps /\
  wf_effs objects (map oname (op_params o)) (op_effs o) /\
  apply_partial 0 (create_object_map objects) [] (OAct "o") o [] (ps, no_store) = Ok (n, (ps', st')) /\
  apply_state 0 (create_object_map objects) [] (OAct "o") o [] (s, no_store) = Ok (m, (s', st'')) /\
  ~ completes s' ps'.
Proof. exact unknown_refuted. Qed.
Print Assumptions C27_unknown_condition_refuted.

(** ... and an axiom may be triggered on the partial state only. *)
Theorem C27_axiom_refuted : exists (SH : StdHash) objects axioms o ps s n ps' st' m s' st'',
  Forall (fun o => wf_type (otype o)) objects /\ built s /\ pbuilt ps /\ completes s ps /\
  wf_effs objects (map oname (op_params o)) (op_effs o) /\ eff_conds (op_effs o) = [] /\
  apply_partial 1 (create_object_map objects) axioms (OAct "o") o [] (ps, no_store) = Ok (n, (ps', st')) /\
  apply_state 1 (create_object_map objects) axioms (OAct "o") o [] (s, no_store) = Ok (m, (s', st'')) /\
  ~ completes s' ps'.
Proof. exact axiom_refuted. Qed.
Print Assumptions C27_axiom_refuted.

(** C28. Applying an action, or an axiom, with its cascades of axioms is
    substitution, whatever earlier calls left in the shared vectors, when the
    axioms cannot trigger each other in a cycle and every axiom parameter occurs
    exactly once in its context.  The cascade ends. *)
Theorem C28_substitution_partial : forall (SH : StdHash) objects ar rank axioms fuel ow o args s st,
  Forall (fun o => wf_type (otype o)) objects ->
  Forall (good_axiom objects ar) axioms -> ranked axioms rank -> good_op objects ar o ->
  match ow with OAct _ => True | OAx i => exists a, nth_error axioms i = Some a /\ ax_op a = o end ->
  length (op_params o) = length args -> reachable_store objects ar axioms st ->
  (forall i, i < length axioms -> rank i < fuel) ->
  let om := create_object_map objects in
  let sub := sub_effs st_ins st_del (cond_state om) objects axioms
               (sub_axiom st_ins st_del (cond_state om) objects axioms fuel)
               (op_params o) args (op_effs o) s in
  drop_store (apply_state fuel om axioms ow o args (s, st)) = sub /\ sub <> OutOfFuel.
Proof. exact @C28_lemma. Qed.
Print Assumptions C28_substitution_partial.

Theorem C28_substitution_partial_state : forall (SH : StdHash) objects ar rank axioms fuel ow o args s st,
  Forall (fun o => wf_type (otype o)) objects ->
  Forall (good_axiom objects ar) axioms -> ranked axioms rank -> good_op objects ar o ->
  match ow with OAct _ => True | OAx i => exists a, nth_error axioms i = Some a /\ ax_op a = o end ->
  length (op_params o) = length args -> reachable_store objects ar axioms st ->
  let om := create_object_map objects in
  drop_store (apply_partial fuel om axioms ow o args (s, st)) =
  sub_effs ps_insert ps_erase (cond_partial om) objects axioms
    (sub_axiom ps_insert ps_erase (cond_partial om) objects axioms fuel)
    (op_params o) args (op_effs o) s.
Proof. exact @C28_partial_lemma. Qed.
Print Assumptions C28_substitution_partial_state.

(** Sample: two axioms, near ?x ?y => not far ?y ?x and not far ?u here => broken ?u. *)
Example C28_example :
  Forall (good_axiom ex_objects ex_arity) ex_axioms /\ ranked ex_axioms ex_rank /\
  good_op ex_objects ex_arity ex_move /\
  keys_of (drop_store (apply_state (SH := collide) 2 (create_object_map ex_objects) ex_axioms (OAct "move") ex_move
    [ex_const "here"; ex_const "hook"; ex_const "box"]
    (run (SH := collide) [Ins (ex_near "here" "hook"); Ins (mkProp "far" [ex_const "box"; ex_const "here"])], no_store))) =
  Some (1, [("near", ["here"; "box"]); ("broken", ["box"])]).
Proof. exact cascade_example. Qed.

(** An axiom that triggers itself overwrites the arguments it is reading. *)
Theorem C28_aliasing_refuted : exists (SH : StdHash) objects axioms o args fuel s n m s1 s2 a,
  Forall (fun o => wf_type (otype o)) objects /\
  Forall (good_axiom objects (fun _ => length args)) axioms /\ good_op objects (fun _ => length args) o /\
  drop_store (apply_state fuel (create_object_map objects) axioms (OAct "o") o args (s, no_store)) = Ok (n, s1) /\
  sub_effs st_ins st_del (cond_state (create_object_map objects)) objects axioms
    (sub_axiom st_ins st_del (cond_state (create_object_map objects)) objects axioms fuel)
    (op_params o) args (op_effs o) s = Ok (m, s2) /\
  st_contains s1 a = true /\ st_contains s2 a = false.
Proof. exact aliasing_refuted. Qed.
Print Assumptions C28_aliasing_refuted.
