(** Facts about the construction of a Pddl. *)
From Coq Require Import String List Bool NArith ZArith Arith Lia.
From Verif.Model Require Import Base Object Proposition State CombinationGenerator
  ParameterGenerator Syntax Formula Effects Derived NormalForm Consistency Construct.
From Verif.Proofs Require Import FormulaFacts.
Import ListNotations.
Local Open Scope string_scope.
Local Open Scope list_scope.

(** ** Loops *)
Lemma each_ok {A} (f : A -> outcome unit) l : each f l = Ok tt <-> Forall (fun a => f a = Ok tt) l.
Proof.
  induction l as [|a l IH]; cbn [each]; [split; auto|]. split.
  - intros H. destruct (f a) as [[]| | | |] eqn:E; try discriminate. constructor; auto. apply IH. exact H.
  - intros H. inversion H as [|? ? Ha Hl]; subst. rewrite Ha. cbn [bind]. apply IH. exact Hl.
Qed.

(** If nothing but [e] can go wrong, then that happens. *)
Lemma each_throws {A} (f : A -> outcome unit) e l : (forall a, In a l -> f a = Ok tt \/ f a = Throw e) ->
  each f l = Ok tt \/ each f l = Throw e.
Proof.
  induction l as [|a l IH]; intros H; cbn [each]; auto. destruct (H a) as [E|E]; [left; auto| |]; rewrite E; cbn [bind]; auto.
  apply IH. intros b I. apply H. right. auto.
Qed.

(** ** Generators *)
Definition full (m : object_map) : Prop := Forall (fun e : string * list object => snd e <> []) m.
Lemma push_full m ty o : full m -> full (om_push m ty o).
Proof.
  unfold full. induction m as [|(k, v) m IH]; intros F; cbn [om_push]; [constructor; [discriminate|auto]|].
  inversion F as [|? ? Hv Fm]; subst. destruct (String.eqb k ty); constructor; auto. cbn. destruct v; discriminate.
Qed.
Lemma create_full objects : full (create_object_map objects).
Proof.
  unfold create_object_map. assert (G : forall m, full m ->
    full (fold_left (fun m o => fold_left (fun m ty => om_push m ty o) (list_types (otype o)) m) objects m)).
  { induction objects as [|o os IH]; intros m F; cbn [fold_left]; auto. apply IH.
    generalize (list_types (otype o)). intros l. revert m F. induction l as [|ty l IHl]; intros m F; cbn [fold_left]; auto.
    apply IHl, push_full, F. }
  apply G. constructor.
Qed.
Lemma find_full m ty v : full m -> om_find m ty = Some v -> v <> [].
Proof.
  induction m as [|(k, w) m IH]; intros F E; [discriminate|]. inversion F as [|? ? Hw Fm]; subst. cbn [om_find] in E.
  destruct (String.eqb k ty); [injection E as <-; exact Hw|auto].
Qed.
Lemma param_gen_total m params : full m -> exists g, param_gen m params = Ok g.
Proof.
  intros F. unfold param_gen, make_gen.
  assert (X : existsb (fun o => match o with [] => true | _ => false end) (param_types m params) = false).
  { unfold param_types. assert (G : forall params types, Forall (fun o => o <> []) types ->
      Forall (fun o : list object => o <> []) (param_types_from m params types)).
    { clear params. induction params as [|p ps IH]; intros types T; cbn [param_types_from]; auto.
      destruct (om_find m _) as [v|] eqn:E; [|constructor]. apply IH. apply Forall_app. split; auto.
      constructor; auto. eapply find_full; eauto. }
    specialize (G params [] (Forall_nil _)). induction G as [|o l N _ IH]; auto. cbn [existsb]. destruct o; [congruence|auto]. }
  rewrite X. eauto.
Qed.

Section WithHash.
  Context `{SH : StdHash} (om : object_map).

  Lemma make_axiom_context axioms o a : make_axiom om axioms o = Ok a -> extract_context o = Ok a.
  Proof.
    unfold make_axiom. intros H. apply bind_Ok in H as (? & _ & H). apply bind_Ok in H as (? & _ & H).
    apply bind_Ok in H as (b & E & H). apply bind_Ok in H as (? & _ & H). injection H as <-. exact E.
  Qed.
  Lemma make_axioms_context axioms rules l : mapM (make_axiom om axioms) rules = Ok l -> mapM extract_context rules = Ok l.
  Proof.
    revert l. induction rules as [|o rules IH]; intros l H; cbn [mapM] in *; auto.
    apply bind_Ok in H as (a & Ea & H). apply bind_Ok in H as (l' & El & H). injection H as <-.
    rewrite (make_axiom_context _ _ _ Ea). cbn [bind]. rewrite (IH _ El). reflexivity.
  Qed.
  Lemma build_axioms ops ds g axioms : build om ops ds g = Ok axioms -> mapM extract_context (filter op_is_axiom ops) = Ok axioms.
  Proof.
    unfold build. intros H. apply bind_Ok in H as (l & El & H). apply bind_Ok in H as (? & _ & H). apply bind_Ok in H as (? & _ & H).
    apply bind_Ok in H as (l' & El' & H). apply bind_Ok in H as (? & _ & H). injection H as <-.
    eapply make_axioms_context; eauto.
  Qed.

  (** ** Formulas *)
  Context (F : full om).
  Lemma compile_supported partial g : forall params,
    (supported g = true -> exists r, compile partial om g params = Ok r) /\
    (supported g = false -> compile partial om g params = Throw ERuntime).
  Proof.
    induction g as [n l|gs IH|gs IH|g IH|vs g IH|vs g IH|] using goal_ind'; intros params.
    - split; [|discriminate]. cbn. eauto.
    - cbn [supported]. change (compile partial om (GConj gs) params) with (let* l := mapM (fun g => compile partial om g params) gs in
        Ok (CConj (map fst l), BNode (map snd l))).
      assert (M : (forallb supported gs = true -> exists l, mapM (fun g => compile partial om g params) gs = Ok l) /\
        (forallb supported gs = false -> mapM (fun g => compile partial om g params) gs = Throw ERuntime)).
      { induction IH as [|g gs Hg _ IHg]; cbn [forallb mapM]; [split; [eauto|discriminate]|]. destruct (Hg params) as [H1 H2].
        destruct (supported g); cbn [andb].
        - destruct (H1 eq_refl) as (r & ->). cbn [bind]. destruct IHg as [I1 I2]. split; intros H.
          + destruct (I1 H) as (l & ->). cbn. eauto.
          + rewrite (I2 H). reflexivity.
        - rewrite (H2 eq_refl). split; [discriminate|reflexivity]. }
      destruct M as [M1 M2]. split; intros H; [destruct (M1 H) as (l & ->); cbn; eauto|rewrite (M2 H); reflexivity].
    - cbn [supported]. change (compile partial om (GDisj gs) params) with (let* l := mapM (fun g => compile partial om g params) gs in
        Ok (CDisj (map fst l), BNode (map snd l))).
      assert (M : (forallb supported gs = true -> exists l, mapM (fun g => compile partial om g params) gs = Ok l) /\
        (forallb supported gs = false -> mapM (fun g => compile partial om g params) gs = Throw ERuntime)).
      { induction IH as [|g gs Hg _ IHg]; cbn [forallb mapM]; [split; [eauto|discriminate]|]. destruct (Hg params) as [H1 H2].
        destruct (supported g); cbn [andb].
        - destruct (H1 eq_refl) as (r & ->). cbn [bind]. destruct IHg as [I1 I2]. split; intros H.
          + destruct (I1 H) as (l & ->). cbn. eauto.
          + rewrite (I2 H). reflexivity.
        - rewrite (H2 eq_refl). split; [discriminate|reflexivity]. }
      destruct M as [M1 M2]. split; intros H; [destruct (M1 H) as (l & ->); cbn; eauto|rewrite (M2 H); reflexivity].
    - destruct (IH params) as [H1 H2]. cbn [supported].
      assert (X : (exists n l, g = GSimple n l) \/ compile partial om (GNeg g) params =
        let* ' (f, b) := compile partial om g params in Ok (CNeg f, BNode [b])) by (destruct g; cbn [compile]; eauto).
      destruct X as [(n & l & ->)|X].
      + split; [|discriminate]. intros _. cbn [compile]. destruct (partial && _ && _); [eauto|].
        destruct (if String.eqb n "=" then _ else _); eauto.
      + rewrite X. split; intros H; [destruct (H1 H) as ((f, b) & ->); cbn; eauto|rewrite (H2 H); reflexivity].
    - destruct (IH (params ++ vs)) as [H1 H2]. destruct (param_gen_total om vs F) as (gen & G). cbn [supported compile].
      split; intros H; [destruct (H1 H) as ((f, b) & ->); cbn [bind]; rewrite G; cbn; eauto|rewrite (H2 H); reflexivity].
    - destruct (IH (params ++ vs)) as [H1 H2]. destruct (param_gen_total om vs F) as (gen & G). cbn [supported compile].
      split; intros H; [destruct (H1 H) as ((f, b) & ->); cbn [bind]; rewrite G; cbn; eauto|rewrite (H2 H); reflexivity].
    - split; [discriminate|reflexivity].
  Qed.
  Lemma check_formula_spec g params : check_formula om g params = if supported g then Ok tt else Throw ERuntime.
  Proof.
    unfold check_formula. destruct (compile_supported false g params) as [H1 H2]. destruct (compile_supported true g params) as [H3 _].
    destruct (supported g); [|rewrite (H2 eq_refl); reflexivity].
    destruct (H1 eq_refl) as (? & ->). destruct (H3 eq_refl) as (? & ->). reflexivity.
  Qed.
  (** A goal more. *)
  Lemma build_goal ops ds g axioms : supported g = true -> build om ops ds None = Ok axioms -> build om ops ds (Some g) = Ok axioms.
  Proof. intros S. unfold build. rewrite check_formula_spec, S. auto. Qed.
  Lemma check_derived_spec d : check_derived om d = if supported (dp_body d) then Ok tt else Throw ERuntime.
  Proof.
    unfold check_derived. destruct (param_gen_total om (dp_params d) F) as (g & ->). cbn [bind]. apply check_formula_spec.
  Qed.
End WithHash.
