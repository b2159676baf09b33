(** C52, C59, C64: what normal forms mean for every formula over ordinary
    predicates (neither = nor types), degenerate ones included. *)
From Coq Require Import String List Bool NArith ZArith Lia.
From Verif.Model Require Import Base HashSet Object Proposition State CombinationGenerator
  ParameterGenerator Syntax Formula Effects NormalForm Consistency Text Pddl Normalize.
From Verif.Proofs Require Import StateFacts StateHistory EffectLink EffectExamples NormalFormGoal NormalFormTheorems
  PddlTheorems NormalizeFacts NormalizeExamples ReadingFacts.
From Verif.Properties Require Import StateProps ParameterProps FormulaProps.
From Verif.Spec Require Import SetSpec TypingSpec FormulaSpec EffectSpec AxiomSpec PddlSpec NormalFormSpec ReadingSpec.
From Verif.Proofs Require Import AxiomExamples DerivedExamples NormalFormExamples PddlExamples PlannerExamples ReadingTheorems.
From Verif.Spec Require Import EffectSpec.
Import ListNotations.
Local Open Scope string_scope.
Local Open Scope list_scope.

(** C52. The normal form of a goal is satisfied by the sets of atoms of its
    reading; there is none exactly if no set is read as satisfying it, and it is
    empty exactly if the reading is constant. *)
Theorem C52_exact : forall (SH : StdHash) objects,
  Forall (fun o => wf_type (otype o)) objects -> NoDup (map oname objects) ->
  Forall (fun o => okind o = KConst) objects ->
  forall g params args e, length params = length args ->
  Forall (fun o => In o objects) args -> wf_goal objects (map oname params) g -> declared objects g ->
  (forall n, In n (goal_preds g) -> ordinary objects n) ->
  let o := create_goal (create_object_map objects) None g params args in
  let q := reads objects (bind_vars params args e) g in
  o = OutOfFuel \/ exists r, o = Ok r /\
    (forall S : atom -> bool,
       result_sat (truth objects (NormalFormSpec.set_of S)) r <-> meaning q (NormalFormSpec.set_of S)) /\
    (r = None <-> never q) /\ (r = Some [] <-> constant q).
Proof. exact @C52_exact_lemma. Qed.
Print Assumptions C52_exact.

(** The reading is the formula itself if nothing constant is negated or a
    disjunct, and no disjunction is unsatisfiable throughout. *)
Theorem C52_regular : forall (SH : StdHash) objects,
  Forall (fun o => wf_type (otype o)) objects -> NoDup (map oname objects) ->
  Forall (fun o => okind o = KConst) objects ->
  forall g params args e, length params = length args ->
  Forall (fun o => In o objects) args -> wf_goal objects (map oname params) g -> declared objects g ->
  (forall n, In n (goal_preds g) -> ordinary objects n) -> regular objects (bind_vars params args e) g ->
  let o := create_goal (create_object_map objects) None g params args in
  o = OutOfFuel \/ exists r, o = Ok r /\
    forall S : atom -> bool,
      result_sat (truth objects (NormalFormSpec.set_of S)) r <->
      holds objects (NormalFormSpec.set_of S) (bind_vars params args e) g.
Proof. exact @C52_regular_lemma. Qed.
Print Assumptions C52_regular.

Example C52_exact_example :
  wf_goal ex_objects [] ex_true_or /\ declared ex_objects ex_true_or /\
  (forall n, In n (goal_preds ex_true_or) -> ordinary ex_objects n) /\
  (forall S, meaning (reads ex_objects no_env ex_true_or) (NormalFormSpec.set_of S) <->
             S ("near", ["box"; "table"]) = true) /\
  show (H := collide) (create_goal (SH := collide) (create_object_map ex_objects) None ex_true_or [] []) =
  Some (Some [([("near", ["box"; "table"])], [])]).
Proof.
  destruct ex_true_or_wf as (A & B & C). split; [exact A|]. split; [exact B|]. split; [exact C|].
  split; [exact ex_true_or_read|]. vm_compute. reflexivity.
Qed.

(** A disjunct that always holds does no harm if it is not constant. *)
Example C52_regular_example :
  wf_goal ex_objects [] ex_always_or /\ declared ex_objects ex_always_or /\
  (forall n, In n (goal_preds ex_always_or) -> ordinary ex_objects n) /\ regular ex_objects no_env ex_always_or /\
  show (H := collide) (create_goal (SH := collide) (create_object_map ex_objects) None ex_always_or [] []) =
  Some (Some [([], [("near", ["box"; "table"])]); ([("broken", ["box"])], []); ([("near", ["box"; "table"])], [])]).
Proof.
  destruct ex_always_or_wf as (A & B & C). split; [exact A|]. split; [exact B|]. split; [exact C|].
  split; [exact ex_always_or_regular|]. vm_compute. reflexivity.
Qed.

(** C59. Effects are read literal by literal; [askable] says that nothing
    unsatisfiable is asked for on a constant condition, which throws. *)
Theorem C59_exact : forall (SH : StdHash) objects,
  Forall (fun o => wf_type (otype o)) objects -> NoDup (map oname objects) ->
  Forall (fun o => okind o = KConst) objects ->
  forall ef params args e, length params = length args ->
  Forall (fun o => In o objects) args -> wf_effs objects (map oname params) ef -> declared_effs objects ef ->
  ordinary_effs objects ef -> (forall g, In g (eff_conds ef) -> forall n, In n (goal_preds g) -> ordinary objects n) ->
  askable objects (bind_vars params args e) ef ->
  let o := create_effs (create_object_map objects) None ef params args in
  let q := reads_effs objects (bind_vars params args e) ef in
  o = OutOfFuel \/ exists r, o = Ok r /\
    (forall S : atom -> bool,
       result_sat (truth objects (NormalFormSpec.set_of S)) r <-> meaning q (NormalFormSpec.set_of S)) /\
    (r = None <-> never q) /\ (r = Some [] <-> constant q).
Proof. exact @C59_exact_lemma. Qed.
Print Assumptions C59_exact.

Example C59_exact_example :
  wf_effs ex_objects [] ex_odd_effs /\ declared_effs ex_objects ex_odd_effs /\ ordinary_effs ex_objects ex_odd_effs /\
  (forall g, In g (eff_conds ex_odd_effs) -> forall n, In n (goal_preds g) -> ordinary ex_objects n) /\
  askable ex_objects no_env ex_odd_effs /\
  show (H := collide) (create_effs (SH := collide) (create_object_map ex_objects) None ex_odd_effs [] []) =
    Some (Some [([("sent", ["box"])], [("near", ["box"; "table"])])]) /\
  create_effs (SH := collide) (create_object_map ex_objects) None ex_clash [] [] = Throw ERuntime.
Proof.
  destruct ex_odd_effs_wf as (A & B & C & D & E). split; [exact A|]. split; [exact B|]. split; [exact C|].
  split; [exact D|]. split; [exact E|]. split; vm_compute; reflexivity.
Qed.

(** Without the condition [askable]: it throws exactly if [rejects], and otherwise
    the normal form is as in C59_exact; [askable] effects are not rejected. *)
Theorem C59_throws : forall (SH : StdHash) objects,
  Forall (fun o => wf_type (otype o)) objects -> NoDup (map oname objects) ->
  Forall (fun o => okind o = KConst) objects ->
  forall ef params args e, length params = length args ->
  Forall (fun o => In o objects) args -> wf_effs objects (map oname params) ef -> declared_effs objects ef ->
  ordinary_effs objects ef -> (forall g, In g (eff_conds ef) -> forall n, In n (goal_preds g) -> ordinary objects n) ->
  let o := create_effs (create_object_map objects) None ef params args in
  let env := bind_vars params args e in
  let q := reads_effs objects env ef in
  o = OutOfFuel \/ (rejects objects env ef /\ o = Throw ERuntime) \/
  (~ rejects objects env ef /\ exists r, o = Ok r /\
    (forall S : atom -> bool,
       result_sat (truth objects (NormalFormSpec.set_of S)) r <-> meaning q (NormalFormSpec.set_of S)) /\
    (r = None <-> never q) /\ (r = Some [] <-> constant q)).
Proof. exact @C59_throws_lemma. Qed.
Print Assumptions C59_throws.

Theorem C59_askable : forall objects ef env, askable objects env ef -> ~ rejects objects env ef.
Proof. exact askable_taken. Qed.
Print Assumptions C59_askable.

(** Two forall effects, one impossible and one that asks for the impossible on a
    constant condition: the order decides. *)
Example C59_throws_example :
  wf_effs ex_objects [] ex_early /\ declared_effs ex_objects ex_early /\ ordinary_effs ex_objects ex_early /\
  (forall g, In g (eff_conds ex_early) -> forall n, In n (goal_preds g) -> ordinary ex_objects n) /\
  rejects ex_objects no_env ex_early /\ ~ rejects ex_objects no_env ex_late /\
  create_effs (SH := collide) (create_object_map ex_objects) None ex_early [] [] = Throw ERuntime /\
  create_effs (SH := collide) (create_object_map ex_objects) None ex_late [] [] = Ok None.
Proof.
  destruct early_late.
  split; [wf_tac|]. split; [cbn; repeat split; repeat constructor; cbn; try discriminate; tauto|].
  split; [intros s Q; apply near_ordinary; cbn in *; repeat destruct Q as [<-|Q]; cbn; tauto|].
  split; [intros g Q n K; cbn in Q; destruct Q as [<-|[]]; destruct K|].
  split; [auto|]. split; [auto|]. split; vm_compute; reflexivity.
Qed.

(** C64. The same for the conditions of a call and for the goal. *)
Theorem C64_exact : forall (SH : StdHash) L p ar rank drank,
  good_domain L p ar rank drank -> Forall (fun o => okind o = KConst) (pd_symbols p) ->
  forall call o args st, calls p call o args ->
  let objs := pd_symbols p in
  let env := bind_vars (op_params o) args no_env in
  (declared objs (op_pre o) -> (forall n, In n (goal_preds (op_pre o)) -> ordinary objs n) ->
   normalize_preconditions L p call false st = OutOfFuel \/
   exists r, normalize_preconditions L p call false st = Ok (r, st) /\
     (forall S : atom -> bool, result_sat (truth objs (NormalFormSpec.set_of S)) r <->
        meaning (reads objs env (op_pre o)) (NormalFormSpec.set_of S)) /\
     (r = None <-> never (reads objs env (op_pre o))) /\ (r = Some [] <-> constant (reads objs env (op_pre o)))) /\
  (declared_effs objs (op_effs o) -> ordinary_effs objs (op_effs o) ->
   (forall g, In g (eff_conds (op_effs o)) -> forall n, In n (goal_preds g) -> ordinary objs n) ->
   normalize_postconditions L p call false st = OutOfFuel \/
   (rejects objs env (op_effs o) /\ normalize_postconditions L p call false st = Throw ERuntime) \/
   (~ rejects objs env (op_effs o) /\ exists r, normalize_postconditions L p call false st = Ok (r, st) /\
     (forall S : atom -> bool, result_sat (truth objs (NormalFormSpec.set_of S)) r <->
        meaning (reads_effs objs env (op_effs o)) (NormalFormSpec.set_of S)) /\
     (r = None <-> never (reads_effs objs env (op_effs o))) /\
     (r = Some [] <-> constant (reads_effs objs env (op_effs o))))).
Proof. exact @C64_exact_lemma. Qed.
Print Assumptions C64_exact.

Theorem C64_goal_exact : forall (SH : StdHash) L p ar rank drank,
  good_domain L p ar rank drank -> Forall (fun o => okind o = KConst) (pd_symbols p) ->
  forall st, declared (pd_symbols p) (pd_goal p) ->
  (forall n, In n (goal_preds (pd_goal p)) -> ordinary (pd_symbols p) n) ->
  normalize_goal L p false st = OutOfFuel \/
  exists r, normalize_goal L p false st = Ok (r, st) /\
    (forall S : atom -> bool, result_sat (truth (pd_symbols p) (NormalFormSpec.set_of S)) r <->
       meaning (reads (pd_symbols p) no_env (pd_goal p)) (NormalFormSpec.set_of S)) /\
    (r = None <-> never (reads (pd_symbols p) no_env (pd_goal p))) /\
    (r = Some [] <-> constant (reads (pd_symbols p) no_env (pd_goal p))).
Proof. exact @C64_goal_exact_lemma. Qed.
Print Assumptions C64_goal_exact.

Example C64_exact_example :
  good_domain ex_limits ex_pddl ex_rules_arity ex_rules_rank ex_rule_rank /\
  calls ex_pddl "wait()" pd_wait [] /\ declared (pd_symbols ex_pddl) (op_pre pd_wait) /\
  constant (reads (pd_symbols ex_pddl) no_env (op_pre pd_wait)) /\
  calls ex_pddl "move(hook, box, table)" pd_move [o_hook; o_box; surf] /\
  declared_effs (pd_symbols ex_pddl) (op_effs pd_move) /\ ordinary_effs (pd_symbols ex_pddl) (op_effs pd_move) /\
  askable (pd_symbols ex_pddl) (bind_vars (op_params pd_move) [o_hook; o_box; surf] no_env) (op_effs pd_move) /\
  pair_show (normalize_preconditions (SH := collide) ex_limits ex_pddl "wait()" false no_store) = Some (Some []).
Proof.
  split; [exact ex_pddl_good|]. split; [apply parse_calls; vm_compute; reflexivity|]. split; [exact Logic.I|].
  split; [intros r []|]. split; [exact move_calls|]. destruct move_conditions as (_ & _ & C & _).
  split; [exact C|]. split; [ord_tac|]. split; [split; exact Logic.I|]. vm_compute. reflexivity.
Qed.

Example C64_goal_exact_example :
  good_domain ex_limits (map_pddl true "d") map_arity (fun _ => 0) (fun _ => 0) /\
  declared (pd_symbols (map_pddl true "d")) (pd_goal (map_pddl true "d")) /\
  (forall n, In n (goal_preds (pd_goal (map_pddl true "d"))) -> ordinary (pd_symbols (map_pddl true "d")) n) /\
  pair_show (normalize_goal (SH := collide) ex_limits (map_pddl true "d") false no_store) =
    Some (Some [([("far", ["b"]); ("seen", ["d"])], [])]).
Proof.
  split; [apply map_good; cbn; tauto|].
  split; [cbn; repeat split; repeat apply Forall_cons; try apply Forall_nil; intros _; cbn; tauto|].
  split; [intros n [<-|[<-|[]]]; (split; [discriminate|not_type])|]. vm_compute. reflexivity.
Qed.
