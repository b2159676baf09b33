(** C52-C54, C59: disjunctive normal forms. *)
From Coq Require Import String List Bool NArith ZArith.
From Verif.Model Require Import Base HashSet Object Proposition State CombinationGenerator
  ParameterGenerator Syntax Formula NormalForm.
From Verif.Spec Require Import SetSpec TypingSpec FormulaSpec EffectSpec NormalFormSpec.
From Verif.Proofs Require Import StateFacts StateHistory EffectExamples NormalFormFacts NormalFormGoal NormalFormEffects
  NormalFormTheorems NormalFormExamples.
From Verif.Properties Require Import StateProps ParameterProps.
Import ListNotations.
Local Open Scope string_scope.
Local Open Scope list_scope.

(** C52. The normal form of a formula is satisfied by the same States as the
    formula.  OutOfFuel: 2^31 or more combinations in one Conjoin. *)
Theorem C52_equivalent_partial : forall (SH : StdHash) objects,
  Forall (fun o => wf_type (otype o)) objects -> NoDup (map oname objects) ->
  Forall (fun o => okind o = KConst) objects ->
  forall g params args e, length params = length args ->
  Forall (fun o => In o objects) args -> wf_goal objects (map oname params) g -> declared objects g ->
  nondegenerate objects (bind_vars params args e) g ->
  create_goal (create_object_map objects) None g params args = OutOfFuel \/
  exists r, create_goal (create_object_map objects) None g params args = Ok r /\
    forall s, built s ->
      (result_sat (truth objects (atoms s)) r <-> holds objects (atoms s) (bind_vars params args e) g).
Proof. exact @C52_lemma. Qed.
Print Assumptions C52_equivalent_partial.

(** No normal form means unsatisfiable, the empty one valid. *)
Theorem C52_constants : forall (SH : StdHash) objects,
  Forall (fun o => wf_type (otype o)) objects -> NoDup (map oname objects) ->
  Forall (fun o => okind o = KConst) objects ->
  forall g params args e, length params = length args ->
  Forall (fun o => In o objects) args -> wf_goal objects (map oname params) g -> declared objects g ->
  nondegenerate objects (bind_vars params args e) g ->
  (create_goal (create_object_map objects) None g params args = Ok None ->
     ~ satisfiable objects (bind_vars params args e) g) /\
  (create_goal (create_object_map objects) None g params args = Ok (Some []) ->
     valid objects (bind_vars params args e) g).
Proof. exact @C52_false_lemma. Qed.
Print Assumptions C52_constants.

(** Without = and type predicates it is exactly the unsatisfiable formulas that
    have no normal form. *)
Theorem C52_unsatisfiable : forall (SH : StdHash) objects,
  Forall (fun o => wf_type (otype o)) objects -> NoDup (map oname objects) ->
  Forall (fun o => okind o = KConst) objects ->
  forall g params args e, length params = length args ->
  Forall (fun o => In o objects) args -> wf_goal objects (map oname params) g -> declared objects g ->
  nondegenerate objects (bind_vars params args e) g ->
  (forall n, In n (goal_preds g) -> ordinary objects n) ->
  create_goal (create_object_map objects) None g params args <> OutOfFuel ->
  (create_goal (create_object_map objects) None g params args = Ok None <->
   ~ satisfiable objects (bind_vars params args e) g).
Proof. exact @C52_unsat_lemma. Qed.
Print Assumptions C52_unsatisfiable.

Example C52_example :
  Forall (fun o => wf_type (otype o)) ex_objects /\ NoDup (map oname ex_objects) /\
  Forall (fun o => okind o = KConst) ex_objects /\
  wf_goal ex_objects [] ex_goal /\ declared ex_objects ex_goal /\ nondegenerate ex_objects no_env ex_goal /\
  show (H := collide) (create_goal (SH := collide) (create_object_map ex_objects) None ex_goal [] []) =
  Some (Some [([("near", ["box"; "table"])], [("broken", ["box"])]);
              ([("near", ["hook"; "table"])], [("broken", ["hook"])])]).
Proof.
  split; [exact ex_objects_wf|]. split; [exact ex_objects_nodup|]. split; [exact ex_objects_const|].
  destruct ex_goal_wf. split; [auto|]. split; [auto|]. split; [exact ex_goal_nondegenerate|].
  vm_compute. reflexivity.
Qed.

(** Without [nondegenerate] the equivalence fails: a disjunct that is trivially
    true is dropped, ... *)
Theorem C52_true_disjunct_refuted : exists (SH : StdHash) objects g r s,
  Forall (fun o => wf_type (otype o)) objects /\ NoDup (map oname objects) /\
  Forall (fun o => okind o = KConst) objects /\ wf_goal objects [] g /\ declared objects g /\ built s /\
  create_goal (create_object_map objects) None g [] [] = Ok r /\
  holds objects (atoms s) no_env g /\ ~ result_sat (truth objects (atoms s)) r.
Proof. exact true_disjunct. Qed.
Print Assumptions C52_true_disjunct_refuted.

(** ... a disjunction whose disjuncts are all trivially false becomes true, ... *)
Theorem C52_false_disjunction_refuted : exists (SH : StdHash) objects g s,
  Forall (fun o => wf_type (otype o)) objects /\ NoDup (map oname objects) /\
  Forall (fun o => okind o = KConst) objects /\ wf_goal objects [] g /\ declared objects g /\ built s /\
  create_goal (create_object_map objects) None g [] [] = Ok (Some []) /\
  ~ satisfiable objects no_env g.
Proof. exact false_disjunction. Qed.
Print Assumptions C52_false_disjunction_refuted.

(** ... and so does the negation of a trivially true formula. *)
Theorem C52_negated_true_refuted : exists (SH : StdHash) objects g,
  Forall (fun o => wf_type (otype o)) objects /\ NoDup (map oname objects) /\
  Forall (fun o => okind o = KConst) objects /\ wf_goal objects [] g /\ declared objects g /\
  create_goal (create_object_map objects) None g [] [] = Ok (Some []) /\
  ~ satisfiable objects no_env g.
Proof. exact negated_true. Qed.
Print Assumptions C52_negated_true_refuted.

(** With = an unsatisfiable formula may have a normal form. *)
Theorem C52_equality_refuted : exists (SH : StdHash) objects g d,
  Forall (fun o => wf_type (otype o)) objects /\ NoDup (map oname objects) /\
  Forall (fun o => okind o = KConst) objects /\ wf_goal objects [] g /\ declared objects g /\
  nondegenerate objects no_env g /\
  create_goal (create_object_map objects) None g [] [] = Ok (Some d) /\ d <> [] /\
  ~ satisfiable objects no_env g.
Proof. exact false_equality. Qed.
Print Assumptions C52_equality_refuted.

(** C53. Simplification does not change the meaning. *)
Theorem C53_simplify : forall (SH : StdHash) objects,
  Forall (fun o => wf_type (otype o)) objects -> NoDup (map oname objects) ->
  Forall (fun o => okind o = KConst) objects ->
  forall d, Forall (ground_conj objects) d ->
  exists r, simplify (create_object_map objects) None d = Ok r /\
    forall S : atom -> bool,
      result_sat (truth objects (set_of S)) r <-> dnf_sat (truth objects (set_of S)) d.
Proof. exact @C53_lemma. Qed.
Print Assumptions C53_simplify.

(** With a consistency check it does not change which of the sets accepted by
    the check satisfy the formula. *)
Theorem C53_axioms : forall (SH : StdHash) objects,
  Forall (fun o => wf_type (otype o)) objects -> NoDup (map oname objects) ->
  Forall (fun o => okind o = KConst) objects ->
  forall f d, (forall c, ground_conj objects c -> exists b, f c = Ok b) ->
  Forall (ground_conj objects) d ->
  exists r, simplify (create_object_map objects) (Some f) d = Ok r /\
    forall S : atom -> bool,
      (forall c, ground_conj objects c -> f c = Ok false -> ~ conj_sat (truth objects (set_of S)) c) ->
      (result_sat (truth objects (set_of S)) r <-> dnf_sat (truth objects (set_of S)) d).
Proof. exact @C53_axioms_lemma. Qed.
Print Assumptions C53_axioms.

(** An equation between variables or constants is decided only if it has that
    truth value for every assignment of the variables. *)
Theorem C53_variables : forall (SH : StdHash) objects (c : partial_state) a b v,
  Forall (fun o => wf_type (otype o)) objects -> ~ is_type objects "=" ->
  built (ps_pos c) -> built (ps_neg c) ->
  (forall i, okind a = KVar i -> okind b = KVar i -> oname a = oname b) ->
  (st_elements (ps_pos c) = [mkProp "=" [a; b]] /\ st_elements (ps_neg c) = [] ->
   evaluate (create_object_map objects) None c = Ok (Some v) ->
   forall e, v = true <-> oname (denote e a) = oname (denote e b)) /\
  (st_elements (ps_pos c) = [] /\ st_elements (ps_neg c) = [mkProp "=" [a; b]] ->
   evaluate (create_object_map objects) None c = Ok (Some v) ->
   forall e, v = true <-> oname (denote e a) <> oname (denote e b)).
Proof. exact @variables_lemma. Qed.
Print Assumptions C53_variables.

Example C53_variables_example :
  evaluate (SH := collide) (create_object_map ex_objects) None (ps_of (H := collide) [pr "=" [tv "x" 0; tv "x" 0]] []) = Ok (Some true) /\
  evaluate (SH := collide) (create_object_map ex_objects) None (ps_of (H := collide) [] [pr "=" [o_box; o_hook]]) = Ok (Some true) /\
  evaluate (SH := collide) (create_object_map ex_objects) None (ps_of (H := collide) [pr "=" [tv "x" 0; tv "y" 1]] []) = Ok None.
Proof. vm_compute. auto. Qed.

(** Not so for type predicates. *)
Theorem C53_variable_type_refuted : exists (SH : StdHash) objects (c : partial_state) x ty e,
  Forall (fun o => wf_type (otype o)) objects /\ is_type objects ty /\
  built (ps_pos c) /\ built (ps_neg c) /\
  st_elements (ps_pos c) = [mkProp ty [x]] /\ st_elements (ps_neg c) = [] /\
  well_typed objects [x] [denote e x] /\
  evaluate (create_object_map objects) None c = Ok (Some false) /\ has_type (denote e x) ty.
Proof. exact variable_type. Qed.
Print Assumptions C53_variable_type_refuted.

(** C54. The conjunctions are sorted, distinct, and none contains another. *)
Theorem C54_irredundant : forall (SH : StdHash) objects ax d d',
  Forall (fun c => built (ps_pos c) /\ built (ps_neg c)) d ->
  simplify (create_object_map objects) ax d = Ok (Some d') -> increasing d' /\ irredundant d'.
Proof. exact @C54_lemma. Qed.
Print Assumptions C54_irredundant.

Example C53_example : (forall SH : StdHash, Forall (ground_conj ex_objects) ex_conjs) /\
  show (H := collide) (simplify (SH := collide) (create_object_map ex_objects) None (ex_conjs (H := collide))) =
  Some (Some [([], [("near", ["hook"; "table"])]); ([("broken", ["box"])], [])]).
Proof. split; [exact ex_conjs_ground|]. vm_compute. reflexivity. Qed.

(** C59. The normal form of effects is satisfied by the sets of atoms with the
    postcondition. *)
Theorem C59_effects_partial : forall (SH : StdHash) objects,
  Forall (fun o => wf_type (otype o)) objects -> NoDup (map oname objects) ->
  Forall (fun o => okind o = KConst) objects ->
  forall ef params args e, length params = length args ->
  Forall (fun o => In o objects) args -> wf_effs objects (map oname params) ef -> declared_effs objects ef ->
  nondegenerate_effs objects (bind_vars params args e) ef ->
  create_effs (create_object_map objects) None ef params args = OutOfFuel \/
  exists r, create_effs (create_object_map objects) None ef params args = Ok r /\
    forall S : atom -> bool,
      (result_sat (truth objects (set_of S)) r <-> post objects (set_of S) (bind_vars params args e) ef).
Proof. exact @C59_lemma. Qed.
Print Assumptions C59_effects_partial.

Example C59_example : wf_effs ex_objects [] ex_effs /\ declared_effs ex_objects ex_effs /\
  nondegenerate_effs ex_objects no_env ex_effs /\
  option_map (option_map (@length _)) (show (H := collide) (create_effs (SH := collide) (create_object_map ex_objects) None ex_effs [] [])) =
  Some (Some 4).
Proof. destruct ex_effs_wf. split; [auto|]. split; [auto|]. split; [exact ex_effs_nondegenerate|]. vm_compute. reflexivity. Qed.

Theorem C59_true_condition_refuted : exists (SH : StdHash) objects ef s,
  Forall (fun o => wf_type (otype o)) objects /\ NoDup (map oname objects) /\
  Forall (fun o => okind o = KConst) objects /\ wf_effs objects [] ef /\ declared_effs objects ef /\ built s /\
  create_effs (create_object_map objects) None ef [] [] = Ok (Some []) /\
  ~ post objects (atoms s) no_env ef.
Proof. exact true_condition. Qed.
Print Assumptions C59_true_condition_refuted.
