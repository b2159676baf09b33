(** Examples of adding and removing objects. *)
From Coq Require Import Ascii String List Bool NArith ZArith Arith Lia.
From Verif.Model Require Import Base Object Proposition State ParameterGenerator Syntax Formula
  Effects Derived Consistency Text Pddl Objects.
From Verif.Spec Require Import SetSpec TypingSpec FormulaSpec EffectSpec DerivedSpec TextSpec AxiomSpec PddlSpec
  ObjectsSpec.
From Verif.Proofs Require Import StateHistory EffectExamples AxiomExamples DerivedExamples PddlFacts PddlTheorems
  PddlListing PddlHistory PddlExamples TextFacts ObjectsFacts.
From Verif.Properties Require Import StateProps ParameterProps FormulaProps.
Import ListNotations.
Local Open Scope string_scope.
Local Open Scope list_scope.

Lemma round_trip types p name ty w : constructed p -> ~ In name (map oname (pd_symbols p)) ->
  add_object (Some types) name ty (unedited p) = Ok w ->
  ed_pddl (remove_object name w) = p.
Proof.
  intros (O & _) F [= <-]. destruct p as [C P Os om ops ax de init g]. unfold remove_object.
  cbn [unedited ed_pddl pd_constants pd_problem_objects pd_objects pd_om pd_ops pd_axioms pd_derived pd_init pd_goal].
  unfold pd_symbols in *. cbn in O, F. subst Os. rewrite existsb_app. cbn [existsb oname].
  rewrite String.eqb_refl, orb_true_r. cbn [ed_pddl].
  rewrite (erase_first_app name (C ++ P)) by auto. rewrite (erase_first_app name P).
  - cbn. rewrite String.eqb_refl, !app_nil_r. reflexivity.
  - intros I. apply F. rewrite map_app. apply in_app_iff. auto.
Qed.

Lemma constant_lemma p c1 c c2 : constructed p -> pd_constants p = c1 ++ c :: c2 ->
  forall x, ~ In x (map oname c1) -> ed_object (remove_object (oname c) (unedited p)) x = UB.
Proof.
  intros (O & N & _) E x I. unfold remove_object. cbn [unedited ed_pddl].
  assert (X : existsb (fun o => String.eqb (oname o) (oname c)) (pd_objects p) = true).
  { apply existsb_exists. exists c. split; [|apply String.eqb_refl]. rewrite O. unfold pd_symbols. rewrite E.
    apply in_app_iff. left. apply in_app_iff. right. left. auto. }
  rewrite X. unfold ed_object. cbn [ed_pddl pd_constants]. rewrite E.
  enough (Q : forall w, ed_dead w = [oname c] -> find_constant w (c1 ++ c :: c2) x = UB) by (rewrite Q; auto).
  intros w D. assert (N1 : ~ In (oname c) (map oname c1)).
  { unfold pd_symbols in N. rewrite E, <- app_assoc, map_app in N. cbn in N. apply NoDup_remove_2 in N.
    intros Q. apply N. apply in_app_iff. auto. }
  clear -D I N1. induction c1 as [|a c1 IH]; cbn.
  - replace (dead w c) with true; auto. symmetry. apply dead_In. rewrite D. left. auto.
  - cbn in I, N1. replace (dead w a) with false.
    2: { symmetry. apply dead_false. rewrite D. cbn. intros [Q|[]]. apply N1. left. auto. }
    destruct (String.eqb_spec (oname a) x); [tauto|]. apply IH; tauto.
Qed.

Definition ex_types : list pddl_type := [["thing"; "object"]; ["object"]].

Lemma ex_pddl_constructed : constructed ex_pddl.
Proof.
  split; [reflexivity|]. split; [apply C35_ex|]. intros q a I J.
  assert (E : forallb (fun q => forallb (fun a => existsb (String.eqb (oname a)) (map oname (pd_symbols ex_pddl)))
    (pargs q)) (st_elements (pd_init ex_pddl)) = true) by (vm_compute; reflexivity).
  rewrite forallb_forall in E. specialize (E q I). rewrite forallb_forall in E. specialize (E a J).
  apply existsb_exists in E as (x & K & E). apply String.eqb_eq in E. rewrite E. exact K.
Qed.

Definition with_cup : edited :=
  match add_object (Some ex_types) "cup" "thing" (unedited ex_pddl) with Ok w => w | _ => unedited ex_pddl end.
Definition cup_state : state := run (SH := collide) [Ins (mkProp "near" [ex_const "cup"; ex_const "box"])].

Lemma cup_added : add_object (Some ex_types) "cup" "thing" (unedited ex_pddl) = Ok with_cup.
Proof. reflexivity. Qed.

Lemma enumerated_refuted : exists (SH : StdHash) L p ar rank drank types w s o name ty call l,
  good_domain L p ar rank drank /\ constructed p /\ add_object (Some types) name ty (unedited p) = Ok w /\ built s /\
  ed_parse w call = Ok (o, l) /\ In name (map oname l) /\ ed_valid_action w s call = Ok true /\
  ~ In name (map oname (pd_symbols p)) /\
  ed_list_valid_actions w s = Ok [] /\ list_valid_arguments (ed_pddl w) s o = Ok [].
Proof.
  pose (SH := collide). exists collide, ex_limits, ex_pddl, ex_rules_arity, ex_rules_rank, ex_rule_rank, ex_types, with_cup, cup_state,
    pd_move, "cup", "thing", "move(cup, box, table)",
    [mkObj "cup" ["thing"; "object"] KConst; mkObj "box" ["tool"; "thing"; "object"] KConst;
     mkObj "table" ["surface"; "thing"; "object"] KConst].
  split; [exact ex_pddl_good|]. split; [exact ex_pddl_constructed|]. split; [exact cup_added|].
  split; [exists [Ins (mkProp "near" [ex_const "cup"; ex_const "box"])]; reflexivity|].
  split; [vm_compute; reflexivity|]. split; [left; reflexivity|]. split; [vm_compute; reflexivity|].
  split; [cbn; intuition discriminate|]. split; vm_compute; reflexivity.
Qed.

Lemma removed_refuted : exists (SH : StdHash) L p ar rank drank name,
  good_domain L p ar rank drank /\ constructed p /\ ~ In name (map oname (pd_constants p)) /\
  let w := remove_object name (unedited p) in
  not_found w name /\ ed_list_valid_actions w (pd_init p) = UB /\ ed_initial_state w = UB /\
  exists s o l, built s /\ list_valid_arguments (ed_pddl w) s o = Ok l /\ In name (map oname (concat l)).
Proof.
  pose (SH := collide). exists collide, ex_limits, ex_pddl, ex_rules_arity, ex_rules_rank, ex_rule_rank, "box".
  split; [exact ex_pddl_good|]. split; [exact ex_pddl_constructed|].
  split; [cbn; intuition discriminate|]. cbn zeta.
  split; [vm_compute; reflexivity|]. split; [vm_compute; reflexivity|]. split; [vm_compute; reflexivity|].
  exists (pd_init ex_pddl), pd_move, 
    [[mkObj "hook" ["tool"; "thing"; "object"] KConst; mkObj "box" ["tool"; "thing"; "object"] KConst;
      mkObj "table" ["surface"; "thing"; "object"] KConst]].
  split; [exists (map Ins ex_init); reflexivity|]. split; [vm_compute; reflexivity|]. cbn. auto.
Qed.
