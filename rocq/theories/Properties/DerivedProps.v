(** C33-C35: derived predicates. *)
From Coq Require Import String List Bool NArith ZArith.
From Verif.Model Require Import Base Object Proposition HashSet State CombinationGenerator
  ParameterGenerator Syntax Formula Effects Derived.
From Verif.Spec Require Import SetSpec TypingSpec FormulaSpec EffectSpec DerivedSpec.
From Verif.Proofs Require Import StateFacts StateHistory FormulaFacts EffectLink EffectTheorems
  EffectExamples DerivedFacts DerivedExamples.
From Verif.Properties Require Import StateProps ParameterProps FormulaProps.
Import ListNotations.
Local Open Scope string_scope.
Local Open Scope list_scope.

(** C33. When the update returns, every instance of every rule is an equivalence. *)
Theorem C33_fixpoint : forall (SH : StdHash) objects inner outer ds s b s',
  Forall (fun o => wf_type (otype o)) objects -> built s ->
  (forall d, In d ds -> good_derived objects d) ->
  derived_all (create_object_map objects) inner outer ds s = Ok (b, s') ->
  forall d args, In d ds -> well_typed objects (dp_params d) args ->
  (atoms s' (head d args) <-> body_holds objects (atoms s') d args).
Proof. exact @C33_lemma. Qed.
Print Assumptions C33_fixpoint.

(** Without recursion the atoms that are not derived determine the result: it is
    the only model of the rules, whatever derived atoms the state had before. *)
Theorem C33_unique : forall (SH : StdHash) objects inner outer ds rank s b s' (S : atom -> Prop),
  Forall (fun o => wf_type (otype o)) objects -> built s ->
  (forall d, In d ds -> good_derived objects d) -> stratified ds rank ->
  derived_all (create_object_map objects) inner outer ds s = Ok (b, s') ->
  (forall a, ~ any_defined objects ds a -> (S a <-> atoms s a)) ->
  (forall d args, In d ds -> well_typed objects (dp_params d) args ->
     (S (head d args) <-> body_holds objects S d args)) ->
  forall a, atoms s' a <-> S a.
Proof. exact @C33_unique_lemma. Qed.
Print Assumptions C33_unique.

(** Two rules, the second using the first under negation; a stale atom is removed. *)
Example C33_example :
  (forall d, In d ex_rules -> good_derived ex_objects d) /\
  stratified ex_rules ex_rule_rank /\
  derived_keys (derived_all (SH := collide) (create_object_map ex_objects) 2 3 ex_rules ex_derived_state)
  = Some (true, [("near", ["hook"; "box"]); ("close", ["hook"]); ("lonely", ["box"]); ("lonely", ["table"])]).
Proof. split; [exact ex_rules_good|]. split; [exact ex_rules_stratified|]. vm_compute. reflexivity. Qed.

(** With recursion the result need not be the least model: atoms that only
    support each other stay. *)
Theorem C33_least_refuted : exists (SH : StdHash) objects ds s s' a (S : atom -> Prop),
  Forall (fun o => wf_type (otype o)) objects /\ built s /\
  (forall d, In d ds -> good_derived objects d) /\ positive ds /\
  derived_all (create_object_map objects) 1 1 ds s = Ok (false, s') /\ atoms s' a /\
  (forall a, ~ any_defined objects ds a -> (S a <-> atoms s a)) /\
  (forall d args, In d ds -> well_typed objects (dp_params d) args ->
     (S (head d args) <-> body_holds objects S d args)) /\ ~ S a.
Proof. exact least_refuted. Qed.
Print Assumptions C33_least_refuted.

(** C34. Only defined atoms change; a false result means no change; a second run
    does nothing. *)
Theorem C34_local : forall (SH : StdHash) objects inner outer ds s b s',
  Forall (fun o => wf_type (otype o)) objects -> built s ->
  (forall d, In d ds -> good_derived objects d) ->
  derived_all (create_object_map objects) inner outer ds s = Ok (b, s') ->
  (forall a, ~ any_defined objects ds a -> (atoms s' a <-> atoms s a)) /\ (b = false -> s' = s).
Proof. exact @C34_local_lemma. Qed.
Print Assumptions C34_local.

Theorem C34_idempotent : forall (SH : StdHash) objects inner outer ds s b s',
  Forall (fun o => wf_type (otype o)) objects -> built s ->
  (forall d, In d ds -> good_derived objects d) ->
  derived_all (create_object_map objects) inner outer ds s = Ok (b, s') ->
  forall inner' outer', inner' <> 0 -> outer' <> 0 ->
  derived_all (create_object_map objects) inner' outer' ds s' = Ok (false, s').
Proof. exact @C34_idempotent_lemma. Qed.
Print Assumptions C34_idempotent.

(** C35. Rules without recursion and with different heads: the update returns,
    after at most two passes per rule and one round more than there are ranks.
    [rank] constant 0 is the case without derived predicates in bodies. *)
Theorem C35_terminates : forall (SH : StdHash) objects inner outer ds rank R s,
  Forall (fun o => wf_type (otype o)) objects -> NoDup (map oname objects) -> built s ->
  (forall d, In d ds -> good_derived objects d) ->
  NoDup (map dp_name ds) -> stratified ds rank -> (forall d, In d ds -> rank (dp_name d) < R) ->
  2 <= inner -> R < outer ->
  exists b s', derived_all (create_object_map objects) inner outer ds s = Ok (b, s').
Proof. exact @C35_terminates_lemma. Qed.
Print Assumptions C35_terminates.

Theorem C35_no_derived_in_bodies : forall (SH : StdHash) objects inner outer ds s,
  Forall (fun o => wf_type (otype o)) objects -> NoDup (map oname objects) -> built s ->
  (forall d, In d ds -> good_derived objects d) -> NoDup (map dp_name ds) ->
  (forall d d', In d ds -> In d' ds -> ~ In (dp_name d') (goal_preds (dp_body d))) ->
  2 <= inner -> 2 <= outer ->
  exists b s', derived_all (create_object_map objects) inner outer ds s = Ok (b, s').
Proof. exact @C35_flat_lemma. Qed.
Print Assumptions C35_no_derived_in_bodies.

Example C35_example : NoDup (map oname ex_objects) /\ NoDup (map dp_name ex_rules) /\
  (forall d, In d ex_rules -> ex_rule_rank (dp_name d) < 2) /\
  derived_all (SH := collide) (create_object_map ex_objects) 1 3 ex_rules ex_derived_state = OutOfFuel /\
  derived_all (SH := collide) (create_object_map ex_objects) 2 1 ex_rules ex_derived_state = OutOfFuel.
Proof. exact C35_ex. Qed.

(** Recursion through an even number of negations, started without derived
    atoms: the update returns the least model. *)
Theorem C35_positive : forall (SH : StdHash) objects ds s,
  Forall (fun o => wf_type (otype o)) objects -> NoDup (map oname objects) -> built s ->
  (forall d, In d ds -> good_derived objects d) -> NoDup (map dp_name ds) -> positive ds ->
  (forall a, any_defined objects ds a -> ~ atoms s a) ->
  exists N b s',
    (forall inner outer, N <= inner -> N <= outer ->
       derived_all (create_object_map objects) inner outer ds s = Ok (b, s')) /\
    (forall d, In d ds -> satisfied objects (atoms s') d) /\
    forall S : atom -> Prop, (forall a, ~ any_defined objects ds a -> (S a <-> atoms s a)) ->
      (forall d, In d ds -> closed objects S d) -> forall a, atoms s' a -> S a.
Proof. exact @C35_positive_lemma. Qed.
Print Assumptions C35_positive.

(** Transitive closure. *)
Example C35_positive_example :
  (forall d, In d ex_reach -> good_derived ring_objects d) /\ positive ex_reach /\
  derived_keys (derived_all (SH := collide) (create_object_map ring_objects) 4 4 ex_reach
    (run (SH := collide) (Ins (mkProp "base" [ex_const "c"]) :: ring_links)))
  = Some (true, [("link", ["a"; "b"]); ("link", ["b"; "c"]); ("link", ["c"; "a"]); ("base", ["c"]);
                 ("reach", ["a"]); ("reach", ["b"]); ("reach", ["c"])]).
Proof. split; [exact ex_reach_good|]. split; [exact ex_reach_positive|]. vm_compute. reflexivity. Qed.

(** Rules without a common model never terminate. *)
Theorem C35_no_model_diverges : forall (SH : StdHash) objects inner outer ds s,
  Forall (fun o => wf_type (otype o)) objects -> built s ->
  (forall d, In d ds -> good_derived objects d) ->
  (forall S : atom -> Prop, (forall a, ~ any_defined objects ds a -> (S a <-> atoms s a)) ->
     ~ (forall d, In d ds -> satisfied objects S d)) ->
  derived_all (create_object_map objects) inner outer ds s = OutOfFuel.
Proof. exact @C35_no_model_lemma. Qed.
Print Assumptions C35_no_model_diverges.

(** ... such as p(x) :- not p(x) ... *)
Theorem C35_negative_recursion_refuted : forall (SH : StdHash) inner outer s, built s ->
  derived_all (create_object_map ex_objects) inner outer [ex_liar] s = OutOfFuel.
Proof. exact @liar_diverges. Qed.
Print Assumptions C35_negative_recursion_refuted.

(** ... and two rules for one head of which one body is true and one false. *)
Theorem C35_two_rules_refuted : forall (SH : StdHash) inner outer,
  derived_all (create_object_map ex_objects) inner outer ex_two_rules
    (run [Ins (mkProp "q" [ex_const "box"])]) = OutOfFuel.
Proof. exact @two_rules_diverge. Qed.
Print Assumptions C35_two_rules_refuted.

(** Positive recursion, a model exists, but the state has derived atoms left from
    before: the truth values chase each other around a ring for ever. *)
Theorem C35_recursion_refuted : exists (SH : StdHash) objects ds s,
  Forall (fun o => wf_type (otype o)) objects /\ NoDup (map oname objects) /\ built s /\
  (forall d, In d ds -> good_derived objects d) /\ NoDup (map dp_name ds) /\ positive ds /\
  (exists S : atom -> Prop, (forall a, ~ any_defined objects ds a -> (S a <-> atoms s a)) /\
     forall d, In d ds -> satisfied objects S d) /\
  forall inner outer, derived_all (create_object_map objects) inner outer ds s = OutOfFuel.
Proof. exact ring_diverges. Qed.
Print Assumptions C35_recursion_refuted.
