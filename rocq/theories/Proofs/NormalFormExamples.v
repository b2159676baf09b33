(** Sample formulas and counterexamples for C52-C54 and C59. *)
From Coq Require Import String List Bool NArith ZArith Arith Lia.
From Verif.Model Require Import Base HashSet Object Proposition State CombinationGenerator
  ParameterGenerator Syntax Formula NormalForm.
From Verif.Spec Require Import SetSpec TypingSpec FormulaSpec EffectSpec NormalFormSpec.
From Verif.Proofs Require Import StateFacts StateHistory FormulaFacts EffectLink EffectTheorems EffectExamples
  DerivedFacts DerivedExamples NormalFormFacts NormalFormGoal NormalFormTheorems.
From Verif.Properties Require Import StateProps ParameterProps FormulaProps.
Import ListNotations.
Local Open Scope string_scope.
Local Open Scope list_scope.

Definition o_table : object := mkObj "table" ["surface"; "thing"; "object"] KConst.
Definition o_hook : object := mkObj "hook" ["tool"; "thing"; "object"] KConst.
Definition o_box : object := mkObj "box" ["tool"; "thing"; "object"] KConst.
Definition no_env : assignment := fun _ => null_object.

Definition lits_of `{StdHash} (c : partial_state) : list atom * list atom :=
  (map prop_key (st_elements (ps_pos c)), map prop_key (st_elements (ps_neg c))).
Definition show `{StdHash} (r : outcome (option dnf)) : option (option (list (list atom * list atom))) :=
  match r with Ok r => Some (option_map (map lits_of) r) | _ => None end.

Lemma ex_objects_nodup : NoDup (map oname ex_objects).
Proof. cbn. repeat constructor; cbn; intuition discriminate. Qed.
Lemma ex_objects_const : Forall (fun o => okind o = KConst) ex_objects.
Proof. repeat constructor. Qed.

(** Some tool is near the table and not broken. *)
Definition ex_body : goal := GConj [GSimple "near" [tv "x" 0; o_table]; GNeg (GSimple "broken" [tv "x" 0])].
Definition ex_goal : goal := GExists [mkObj "x" ["tool"; "thing"; "object"] (KVar 0)] ex_body.

Lemma ex_goal_wf : wf_goal ex_objects [] ex_goal /\ declared ex_objects ex_goal.
Proof. split; [wf_tac|]. cbn. repeat split; repeat constructor; cbn; try discriminate; tauto. Qed.

Lemma ex_body_holds S o : holds ex_objects S (bind_vars [mkObj "x" ["tool"; "thing"; "object"] (KVar 0)] [o] no_env) ex_body <->
  S ("near", [oname o; "table"]) /\ ~ S ("broken", [oname o]).
Proof.
  unfold ex_body. rewrite holds_conj. split.
  - intros H. pose proof (H _ (or_introl eq_refl)) as H1. pose proof (H _ (or_intror (or_introl eq_refl))) as H2.
    cbn [holds] in H1, H2. rewrite ordinary_holds in H1, H2 by (try discriminate; not_type). cbn in H1, H2. auto.
  - intros [H1 H2] g [<-|[<-|[]]]; cbn [holds]; rewrite ordinary_holds by (try discriminate; not_type); cbn; auto.
Qed.

Lemma ex_goal_nondegenerate : nondegenerate ex_objects no_env ex_goal.
Proof.
  unfold ex_goal. cbn [nondegenerate]. split.
  - intros objs T. split.
    + cbn. auto.
    + right. intros V. specialize (V (fun _ => false)). inversion T as [|o ? ? ? _ T']; subst. inversion T'; subst.
      apply ex_body_holds in V. destruct V as [V _]. discriminate.
  - exists [o_hook]. split.
    + constructor; [|constructor]. split; [cbn; tauto|]. right; cbn; auto.
    + right. exists (fun a => String.eqb (fst a) "near"). apply ex_body_holds. cbn. unfold set_of. cbn. split; congruence.
Qed.

(** A list with a contradiction, a duplicate and two subsumed conjunctions. *)
Definition pr (n : string) (args : list object) : prop := mkProp n args.
Definition ps_of `{StdHash} (pos neg : list prop) : partial_state := mkPS (run (map Ins pos)) (run (map Ins neg)).
Definition ex_conjs `{StdHash} : dnf :=
  [ps_of [pr "near" [o_box; o_table]; pr "broken" [o_box]] [];
   ps_of [pr "near" [o_box; o_table]] [pr "near" [o_box; o_table]];
   ps_of [pr "broken" [o_box]] [];
   ps_of [] [pr "near" [o_hook; o_table]];
   ps_of [pr "broken" [o_box]] [pr "near" [o_hook; o_table]];
   ps_of [] [pr "near" [o_hook; o_table]];
   ps_of [pr "=" [o_box; o_hook]] []].

Lemma ps_of_ground (SH : StdHash) pos neg :
  Forall (fun p => arity_ok ex_objects (pname p) (pargs p) /\ Forall (fun o => In o ex_objects) (pargs p)) (pos ++ neg) ->
  ground_conj ex_objects (ps_of pos neg).
Proof.
  intros F. split; [eexists; reflexivity|]. split; [eexists; reflexivity|].
  rewrite Forall_forall in F. intros p I. apply F, in_app_iff.
  assert (K : forall l, In p (st_elements (run (map Ins l))) -> In p l).
  { clear. induction l as [|q l IH] using rev_ind; intros I.
    - destruct I.
    - rewrite map_app in I. unfold run, run_from in I. rewrite fold_left_app in I. cbn [map fold_left] in I.
      fold (run_from st_empty (map Ins l)) in I. fold (run (map Ins l)) in I. cbn [exec_op snd] in I.
      apply in_app_iff. apply insert_elements in I; [|apply run_wf]. destruct I as [->|I]; cbn; auto. }
  destruct I as [I|I]; apply K in I; auto.
Qed.

Ltac atom_tac :=
  repeat (apply Forall_cons || apply Forall_nil); split;
  try (split; [intros; try reflexivity; try discriminate|
               intros N T; try reflexivity; exfalso; first [apply N; reflexivity|revert T; not_type]]);
  repeat (apply Forall_cons || apply Forall_nil); cbn; auto 6.

Lemma ex_conjs_ground (SH : StdHash) : Forall (ground_conj ex_objects) ex_conjs.
Proof. unfold ex_conjs. repeat (apply Forall_cons || apply Forall_nil); apply ps_of_ground; cbn [app]; atom_tac. Qed.

(** ** Refutations *)

Definition ex_near : goal := GSimple "near" [o_box; o_table].

Lemma ex_near_wf : wf_goal ex_objects [] ex_near /\ declared ex_objects ex_near.
Proof. split; [wf_tac|]. cbn. repeat constructor; tauto. Qed.

(** A true disjunct is dropped. *)
Lemma true_disjunct : exists (SH : StdHash) objects g r s,
  Forall (fun o => wf_type (otype o)) objects /\ NoDup (map oname objects) /\
  Forall (fun o => okind o = KConst) objects /\ wf_goal objects [] g /\ declared objects g /\ built s /\
  create_goal (create_object_map objects) None g [] [] = Ok r /\
  holds objects (atoms s) no_env g /\ ~ result_sat (truth objects (atoms s)) r.
Proof.
  exists collide, ex_objects, (GDisj [GConj []; ex_near]).
  eexists. exists (run (SH := collide) []).
  split; [exact ex_objects_wf|]. split; [exact ex_objects_nodup|]. split; [exact ex_objects_const|].
  split; [cbn; repeat split; apply ex_near_wf|]. split; [cbn; repeat split; apply ex_near_wf|].
  split; [eexists; reflexivity|]. split; [vm_compute; reflexivity|].
  split; [apply holds_disj; exists (GConj []); cbn; auto|].
  cbn [result_sat]. intros [Q|(c & I & P & _)]; [discriminate|].
  destruct I as [<-|[]]. specialize (P _ (or_introl eq_refl)). cbn in P.
  apply ordinary_truth in P; [|split; [discriminate|not_type]].
  apply atoms_mem in P; [|apply (run_wf (SH := collide) [])]. destruct P.
Qed.

(** A disjunction of nothing is "true". *)
Lemma false_disjunction : exists (SH : StdHash) objects g s,
  Forall (fun o => wf_type (otype o)) objects /\ NoDup (map oname objects) /\
  Forall (fun o => okind o = KConst) objects /\ wf_goal objects [] g /\ declared objects g /\ built s /\
  create_goal (create_object_map objects) None g [] [] = Ok (Some []) /\
  ~ satisfiable objects no_env g.
Proof.
  exists collide, ex_objects, (GDisj [GConj [ex_near; GNeg ex_near]]), (run (SH := collide) []).
  split; [exact ex_objects_wf|]. split; [exact ex_objects_nodup|]. split; [exact ex_objects_const|].
  split; [cbn; repeat split; apply ex_near_wf|]. split; [cbn; repeat split; apply ex_near_wf|].
  split; [eexists; reflexivity|]. split; [vm_compute; reflexivity|].
  intros [S H]. apply holds_disj in H. destruct H as (g & [<-|[]] & H).
  change (holds ex_objects (set_of S) no_env ex_near /\ ~ holds ex_objects (set_of S) no_env ex_near /\ True) in H. tauto.
Qed.

(** The negation of a true formula is "true". *)
Lemma negated_true : exists (SH : StdHash) objects g,
  Forall (fun o => wf_type (otype o)) objects /\ NoDup (map oname objects) /\
  Forall (fun o => okind o = KConst) objects /\ wf_goal objects [] g /\ declared objects g /\
  create_goal (create_object_map objects) None g [] [] = Ok (Some []) /\
  ~ satisfiable objects no_env g.
Proof.
  exists collide, ex_objects, (GNeg (GConj [])).
  split; [exact ex_objects_wf|]. split; [exact ex_objects_nodup|]. split; [exact ex_objects_const|].
  split; [exact I|]. split; [exact I|]. split; [vm_compute; reflexivity|].
  intros [S H]. apply H. exact I.
Qed.

(** A false equality inside a conjunction is not noticed. *)
Lemma false_equality : exists (SH : StdHash) objects g d,
  Forall (fun o => wf_type (otype o)) objects /\ NoDup (map oname objects) /\
  Forall (fun o => okind o = KConst) objects /\ wf_goal objects [] g /\ declared objects g /\
  nondegenerate objects no_env g /\
  create_goal (create_object_map objects) None g [] [] = Ok (Some d) /\ d <> [] /\
  ~ satisfiable objects no_env g.
Proof.
  exists collide, ex_objects, (GConj [GSimple "=" [o_box; o_hook]; ex_near]). eexists.
  split; [exact ex_objects_wf|]. split; [exact ex_objects_nodup|]. split; [exact ex_objects_const|].
  split; [split; [|split; [apply ex_near_wf|exact I]]; wf_tac|].
  split; [split; [|split; [apply ex_near_wf|exact I]]; cbn; repeat constructor; tauto|].
  split; [cbn; auto|].
  split; [vm_compute; reflexivity|]. split; [discriminate|].
  intros [S [H _]]. cbn [holds map denote] in H. destruct H as [(_ & a & b & E & Q)|[[Q _]|[Q _]]]; try congruence.
  injection E as <- <-. discriminate.
Qed.

(** ** Effects *)

(** Move the hook to the table; whatever tool is broken is sent. *)
Definition ex_effs : effs :=
  Effs [([mkObj "x" ["tool"; "thing"; "object"] (KVar 0)],
         Effs [] [] [] [(GSimple "broken" [tv "x" 0], Effs [] [pr "sent" [tv "x" 0]] [] [])])]
    [pr "near" [o_hook; o_table]] [pr "near" [o_hook; o_box]] [].

Lemma ex_effs_wf : wf_effs ex_objects [] ex_effs /\ declared_effs ex_objects ex_effs.
Proof. split; [wf_tac|]. cbn. repeat split; repeat constructor; cbn; try discriminate; tauto. Qed.

Lemma ex_effs_nondegenerate : nondegenerate_effs ex_objects no_env ex_effs.
Proof.
  unfold ex_effs. cbn [nondegenerate_effs]. split; [|exact I]. split; [|exact I].
  intros objs T. inversion T as [|o ? ? ? _ T']; subst. inversion T'; subst. clear T T'.
  split; [exact I|]. split; [|exact I].
  assert (B : forall S n, ordinary ex_objects n -> atom_holds ex_objects S n (map (denote (bind_vars [mkObj "x" ["tool"; "thing"; "object"] (KVar 0)] [o] no_env)) [tv "x" 0])
            <-> S (n, [oname o])).
  { intros S n [O1 O2]. rewrite ordinary_holds by auto. cbn. tauto. }
  split; [exact I|]. split; [|split; [|split]].
  - intros V. specialize (V (fun _ => false)). cbn [holds] in V. apply B in V; [discriminate|].
    split; [discriminate|not_type].
  - exists (fun _ => true). cbn [holds]. apply B; [split; [discriminate|not_type]|reflexivity].
  - split; exact I.
  - intros V. specialize (V (fun _ => false)). cbn [post] in V. destruct V as (_ & V & _).
    specialize (V _ (or_introl eq_refl)). cbn [pr pname pargs] in V. apply B in V; [discriminate|].
    split; [discriminate|not_type].
Qed.

(** A conditional effect whose condition is trivially true is lost. *)
Definition ex_when_true : effs :=
  Effs [] [] [] [(GSimple "=" [o_box; o_box], Effs [] [pr "sent" [o_box]] [] [])].
Lemma true_condition : exists (SH : StdHash) objects ef s,
  Forall (fun o => wf_type (otype o)) objects /\ NoDup (map oname objects) /\
  Forall (fun o => okind o = KConst) objects /\ wf_effs objects [] ef /\ declared_effs objects ef /\ built s /\
  create_effs (create_object_map objects) None ef [] [] = Ok (Some []) /\
  ~ post objects (atoms s) no_env ef.
Proof.
  exists collide, ex_objects, ex_when_true, (run (SH := collide) []).
  split; [exact ex_objects_wf|]. split; [exact ex_objects_nodup|]. split; [exact ex_objects_const|].
  split; [wf_tac|]. split; [cbn; repeat split; repeat constructor; cbn; try discriminate; tauto|].
  split; [eexists; reflexivity|]. split; [vm_compute; reflexivity|].
  intros (_ & _ & _ & H & _). cbn [holds] in H.
  assert (K : atom_holds ex_objects (atoms (SH := collide) (run (SH := collide) [])) "=" (map (denote no_env) [o_box; o_box])).
  { left. split; auto. exists o_box, o_box. auto. }
  specialize (H K). destruct H as (_ & H & _). specialize (H _ (or_introl eq_refl)).
  cbn [pr pname pargs] in H. rewrite ordinary_holds in H by (try discriminate; not_type).
  apply atoms_mem in H; [|apply (run_wf (SH := collide) [])]. destruct H.
Qed.

(** ** Variables *)

Lemma variables_lemma : forall (SH : StdHash) objects (c : partial_state) a b v,
  Forall (fun o => wf_type (otype o)) objects -> ~ is_type objects "=" -> built (ps_pos c) -> built (ps_neg c) ->
  (forall i, okind a = KVar i -> okind b = KVar i -> oname a = oname b) ->
  (st_elements (ps_pos c) = [mkProp "=" [a; b]] /\ st_elements (ps_neg c) = [] ->
   evaluate (create_object_map objects) None c = Ok (Some v) ->
   forall e, v = true <-> oname (denote e a) = oname (denote e b)) /\
  (st_elements (ps_pos c) = [] /\ st_elements (ps_neg c) = [mkProp "=" [a; b]] ->
   evaluate (create_object_map objects) None c = Ok (Some v) ->
   forall e, v = true <-> oname (denote e a) <> oname (denote e b)).
Proof.
  intros SH objects c a b v W T Bp Bn V. apply built_wf in Bp. apply built_wf in Bn.
  assert (O : om_find (create_object_map objects) "=" = None).
  { destruct (om_find _ _) eqn:O; auto. exfalso. apply T, (om_find_type objects "=" W). eauto. }
  assert (K : forall w, same_var a b = true -> w = obj_eqb a b ->
            forall e, w = true <-> oname (denote e a) = oname (denote e b)).
  { intros w Sv -> e. rewrite (obj_eqb_ok a b). unfold same_var in Sv. unfold denote.
    destruct (okind a) eqn:Ka, (okind b) eqn:Kb; try discriminate; [tauto|].
    apply Nat.eqb_eq in Sv. subst. rewrite (V _ eq_refl eq_refl). tauto. }
  split; intros [E1 E2] E e; unfold evaluate, ps_size, evaluate_single, st_is_empty in E;
    rewrite !st_size_elements, E1, E2 in E by auto; cbn [length Nat.add Nat.eqb evaluate_equals pname pargs String.eqb Ascii.eqb Bool.eqb bind] in E;
    unfold evaluate_type in E; cbn [pname] in E; rewrite O in E; destruct (same_var a b) eqn:Sv; cbn in E.
  - injection E as <-. apply K; auto.
  - unfold ps_is_consistent in E. rewrite E1 in E. cbn [forallb] in E.
    destruct (st_contains (ps_neg c) _) eqn:C; [|discriminate E].
    apply contains_mem in C; auto. unfold mem in C. rewrite E2 in C. destruct C.
  - injection E as <-. rewrite negb_true_iff, <- (K _ eq_refl eq_refl e). destruct (obj_eqb a b); intuition congruence.
  - unfold ps_is_consistent in E. rewrite E1 in E. discriminate E.
Qed.

(** A variable of type thing may stand for a tool, yet "is a tool" is found
    false of it. *)
Lemma variable_type : exists (SH : StdHash) objects (c : partial_state) x ty e,
  Forall (fun o => wf_type (otype o)) objects /\ is_type objects ty /\
  built (ps_pos c) /\ built (ps_neg c) /\
  st_elements (ps_pos c) = [mkProp ty [x]] /\ st_elements (ps_neg c) = [] /\
  well_typed objects [x] [denote e x] /\
  evaluate (create_object_map objects) None c = Ok (Some false) /\ has_type (denote e x) ty.
Proof.
  exists collide, ex_objects, (ps_of (H := collide) [pr "tool" [tv "x" 0]] []), (tv "x" 0), "tool", (fun _ => o_hook).
  split; [exact ex_objects_wf|]. split; [exists o_hook; split; [|right]; cbn; tauto|].
  split; [eexists; reflexivity|]. split; [exists []; reflexivity|].
  split; [vm_compute; reflexivity|]. split; [vm_compute; reflexivity|]. split; [|split; [vm_compute; reflexivity|right; cbn; tauto]].
  constructor; [|constructor]. split; [cbn; tauto|right; cbn; tauto].
Qed.
