(** Lemmas behind C78: which domains and problems a Pddl can be made of. *)
From Coq Require Import String List Bool NArith ZArith Arith Lia.
From Verif.Model Require Import Base Object Proposition State CombinationGenerator
  ParameterGenerator Syntax Formula Effects Derived Text NormalForm Consistency Construct Pddl Print.
From Verif.Spec Require Import SetSpec TypingSpec FormulaSpec EffectSpec DerivedSpec AxiomSpec PddlSpec ConstructSpec.
From Verif.Proofs Require Import ParameterFacts FormulaFacts ConstructFacts EffectLink TextFacts AxiomMeaning PrintAxiom.
Import ListNotations.
Local Open Scope string_scope.
Local Open Scope list_scope.
Local Infix "+++" := String.append (at level 60, right associativity).

(** ** Formulas *)
Lemma supported_spec g : supported g = true <-> understood g.
Proof.
  unfold understood. induction g as [n l|gs IH|gs IH|g IH|vs g IH|vs g IH|] using goal_ind'; cbn [supported].
  - split; auto. intros _ H. inversion H.
  - rewrite forallb_forall. rewrite Forall_forall in IH. split.
    + intros H O. inversion O; subst. apply (IH g) in H2; auto.
    + intros H g I. apply IH; auto. intros O. apply H. eapply oc_conj; eauto.
  - rewrite forallb_forall. rewrite Forall_forall in IH. split.
    + intros H O. inversion O; subst. apply (IH g) in H2; auto.
    + intros H g I. apply IH; auto. intros O. apply H. eapply oc_disj; eauto.
  - rewrite IH. split; intros H O; apply H; [inversion O; auto|constructor; auto].
  - rewrite IH. split; intros H O; apply H; [inversion O; auto|constructor; auto].
  - rewrite IH. split; intros H O; apply H; [inversion O; auto|constructor; auto].
  - split; [discriminate|]. intros H. exfalso. apply H. constructor.
Qed.
Lemma wf_supported objects g : forall scope, wf_goal objects scope g -> supported g = true.
Proof.
  induction g as [n l|gs IH|gs IH|g IH|vs g IH|vs g IH|] using goal_ind'; intros scope W; cbn [supported].
  - reflexivity.
  - apply forallb_forall. intros g I. cbn in W. induction IH as [|h gs Hh _ IHg]; [destruct I|]. destruct W as [W1 W2].
    destruct I as [<-|I]; eauto.
  - apply forallb_forall. intros g I. cbn in W. induction IH as [|h gs Hh _ IHg]; [destruct I|]. destruct W as [W1 W2].
    destruct I as [<-|I]; eauto.
  - exact (IH scope W).
  - destruct W as (_ & _ & W). eapply IH; eauto.
  - destruct W as (_ & _ & W). eapply IH; eauto.
  - destruct W.
Qed.
Lemma supported_effs_spec e : supported_effs e = forallb supported (eff_conds e).
Proof.
  induction e as [fs adds dels cs IHf IHc] using effs_ind'. cbn [supported_effs eff_conds]. rewrite forallb_app. f_equal.
  - clear IHc. induction fs as [|(vs, b) fs IH]; cbn [forallb flat_map snd]; auto. rewrite forallb_app, (IHf vs b) by (left; auto).
    rewrite IH; auto. intros v x I. apply (IHf v). right. auto.
  - clear IHf. induction cs as [|(g, b) cs IH]; cbn [forallb flat_map fst snd]; auto. rewrite forallb_app, (IHc g b) by (left; auto).
    rewrite IH; auto. intros v x I. apply (IHc v). right. auto.
Qed.
Lemma wf_effs_supported objects e : forall scope, wf_effs objects scope e -> supported_effs e = true.
Proof.
  induction e as [fs adds dels cs IHf IHc] using effs_ind'. intros scope (Wf & _ & _ & Wc). cbn [supported_effs].
  apply andb_true_iff. split; apply forallb_forall.
  - clear Wc IHc. induction fs as [|(vs, b) fs IH]; intros x I; [destruct I|]. destruct Wf as [(_ & _ & W1) W2].
    destruct I as [<-|I]; [eapply IHf; [left; reflexivity|exact W1]|]. apply IH; auto. intros v y J. apply (IHf v). right. auto.
  - clear Wf IHf. induction cs as [|(g, b) cs IH]; intros x I; [destruct I|]. destruct Wc as [[W0 W1] W2].
    destruct I as [<-|I].
    + cbn [fst snd]. rewrite (wf_supported _ _ _ W0). eapply IHc; [left; reflexivity|exact W1].
    + apply IH; auto. intros v y J. apply (IHc v). right. auto.
Qed.

(** ** Verdicts *)

(** What comes of checks for unknown formulas and for numbers of arguments. *)
Definition verdict {A} (s f : bool) (r : outcome A) : Prop :=
  match s, f with
  | true, true => exists x, r = Ok x
  | false, true => r = Throw ERuntime
  | true, false => r = AssertFail
  | false, false => r = Throw ERuntime \/ r = AssertFail
  end.
Lemma verdict_seq {A B} s f s' f' (r : outcome A) (r' : A -> outcome B) :
  verdict s f r -> (forall x, r = Ok x -> verdict s' f' (r' x)) -> verdict (s && s') (f && f') (bind r r').
Proof.
  destruct s, f; cbn [verdict andb].
  - intros (x & ->) H. exact (H x eq_refl).
  - intros -> _. cbn [bind]. destruct s'; cbn; auto.
  - intros -> _. cbn [bind]. destruct f'; cbn; auto.
  - intros [->| ->] _; cbn; auto.
Qed.
Lemma verdict_ok {A} (r : outcome A) x : r = Ok x -> verdict true true r.
Proof. cbn. eauto. Qed.
Lemma verdict_each {A} (F : A -> outcome unit) (s f : A -> bool) l : (forall a, In a l -> verdict (s a) (f a) (F a)) ->
  verdict (forallb s l) (forallb f l) (each F l).
Proof.
  induction l as [|a l IH]; intros H; cbn [forallb each]; [cbn; eauto|].
  apply verdict_seq; [apply H; left; auto|]. intros _ _. apply IH. intros b I. apply H. right. auto.
Qed.
Lemma verdict_mapM {A B} (F : A -> outcome B) (s f : A -> bool) l : (forall a, In a l -> verdict (s a) (f a) (F a)) ->
  verdict (forallb s l) (forallb f l) (mapM F l).
Proof.
  induction l as [|a l IH]; intros H; cbn [forallb mapM]; [cbn; eauto|].
  apply verdict_seq; [apply H; left; auto|]. intros b _. rewrite <- (andb_true_r (forallb s l)), <- (andb_true_r (forallb f l)).
  apply verdict_seq; [apply IH; intros c I; apply H; right; auto|]. intros x _. cbn. eauto.
Qed.
Lemma verdict_all {A} (r : outcome A) : verdict true true r <-> exists x, r = Ok x.
Proof. reflexivity. Qed.
Lemma forallb_true {A} (l : list A) : forallb (fun _ => true) l = true.
Proof. induction l; auto. Qed.

Section WithHash.
  Context `{SH : StdHash} (om : object_map) (F : full om).

  (** The literal has as many arguments as the contexts of the axioms it triggers. *)
  Definition lit_fits (axioms : list axiom) (l : bool * prop) : bool :=
    if String.eqb (pname (snd l)) "=" then true
    else match om_find om (pname (snd l)) with
         | Some _ => true
         | None => forallb (fun ia : nat * axiom => Nat.eqb (length (pargs (snd l))) (length (ax_args (snd ia))))
                     (with_context axioms (fst l) (pname (snd l)))
         end.
  Lemma check_lit_spec axioms params pos p : verdict true (lit_fits axioms (pos, p)) (check_lit om axioms params pos p).
  Proof.
    unfold check_lit, lit_fits. cbn [fst snd]. destruct (String.eqb _ _); [cbn; eauto|].
    destruct (om_find om (pname p)); [cbn; eauto|].
    pose proof (verdict_each (fun ia : nat * axiom => let* _ := create_app params (pargs p) (op_params (ax_op (snd ia))) (ax_args (snd ia)) in Ok tt)
      (fun _ => true) (fun ia : nat * axiom => Nat.eqb (length (pargs p)) (length (ax_args (snd ia)))) (with_context axioms pos (pname p))) as V.
    rewrite forallb_true in V. apply V. intros a _. unfold create_app. destruct (Nat.eqb _ _); cbn; eauto.
  Qed.

  Lemma check_effs_spec axioms e : forall params,
    verdict (supported_effs e) (forallb (lit_fits axioms) (eff_literals e)) (check_effs om axioms params e).
  Proof.
    induction e as [fs adds dels cs IHf IHc] using effs_ind'. intros params.
    cbn [supported_effs eff_literals]. rewrite !forallb_app.
    replace (forallb (fun f : list object * effs => supported_effs (snd f)) fs && forallb (fun c : goal * effs => supported (fst c) && supported_effs (snd c)) cs)
      with (forallb (fun f : list object * effs => supported_effs (snd f)) fs && (true && (true && forallb (fun c : goal * effs => supported (fst c) && supported_effs (snd c)) cs))) by auto.
    assert (FM : forall {X Y} (g : X -> list Y) (h : Y -> bool) l, forallb h (flat_map g l) = forallb (fun x => forallb h (g x)) l).
    { clear. intros X Y g h. induction l as [|x l IH]; cbn [flat_map forallb]; auto. rewrite forallb_app, IH. reflexivity. }
    assert (FP : forall {X Y} (g : X -> Y) (h : Y -> bool) l, forallb h (map g l) = forallb (fun x => h (g x)) l).
    { clear. intros X Y g h. induction l as [|x l IH]; cbn [map forallb]; auto. rewrite IH. reflexivity. }
    rewrite !FM, !FP.
    cbn [check_effs]. apply verdict_seq; [|intros _ _; apply verdict_seq; [|intros _ _; apply verdict_seq; [|intros _ _]]].
    - apply (verdict_each (fun vb : list object * effs => let* _ := check_effs om axioms (params ++ fst vb) (snd vb) in
        let* _ := param_gen om (fst vb) in Ok tt) (fun vb => supported_effs (snd vb)) (fun vb => forallb (lit_fits axioms) (eff_literals (snd vb)))).
      intros (vs, b) I. cbn [fst snd]. rewrite <- (andb_true_r (supported_effs b)), <- (andb_true_r (forallb _ (eff_literals b))).
      apply verdict_seq; [eapply IHf; eauto|]. intros _ _. destruct (param_gen_total om vs F) as (g & ->). cbn. eauto.
    - rewrite <- (forallb_true adds). apply verdict_each. intros p _. apply check_lit_spec.
    - rewrite <- (forallb_true dels). apply verdict_each. intros p _. apply check_lit_spec.
    - apply (verdict_each (fun ce : goal * effs => let* _ := check_formula om (fst ce) params in check_effs om axioms params (snd ce))
        (fun ce => supported (fst ce) && supported_effs (snd ce)) (fun ce => forallb (lit_fits axioms) (eff_literals (snd ce)))).
      intros (g, b) I. cbn [fst snd]. rewrite <- (andb_true_l (forallb _ (eff_literals b))).
      apply verdict_seq; [|intros _ _; eapply IHc; eauto]. rewrite check_formula_spec by auto. destruct (supported g); cbn; eauto.
  Qed.

  Definition op_supported (o : op) : bool := supported (op_pre o) && supported_effs (op_effs o).
  Definition op_fits (axioms : list axiom) (o : op) : bool := forallb (lit_fits axioms) (eff_literals (op_effs o)).
  Lemma check_action_spec axioms o : verdict (op_supported o) (op_fits axioms o) (check_action om axioms o).
  Proof.
    unfold check_action, op_supported, op_fits. destruct (param_gen_total om (op_params o) F) as (g & ->). cbn [bind].
    rewrite <- (andb_true_l (forallb _ _)). apply verdict_seq; [|intros _ _; apply check_effs_spec].
    rewrite check_formula_spec by auto. destruct (supported (op_pre o)); cbn; eauto.
  Qed.
  Lemma fits_nothing o : op_fits [] o = true.
  Proof.
    unfold op_fits. apply forallb_forall. intros l _. unfold lit_fits. destruct (String.eqb _ _); auto. destruct (om_find _ _); auto.
  Qed.

  (** Without axioms only unknown formulas are a problem. *)
  Lemma build_plain ops ds g : filter op_is_axiom ops = [] ->
    Forall (fun o => op_supported o = true) ops -> Forall (fun d => supported (dp_body d) = true) ds -> supported g = true ->
    build om ops ds (Some g) = Ok [].
  Proof.
    intros N Ho Hd Hg. unfold build. rewrite N. cbn [mapM bind].
    assert (each (check_derived om) ds = Ok tt) as ->.
    { apply each_ok. eapply Forall_impl; [|exact Hd]. intros d E. rewrite check_derived_spec, E by auto. reflexivity. }
    cbn [bind]. rewrite check_formula_spec, Hg by auto. cbn [bind].
    assert (each (check_action om []) (filter (fun o => negb (op_is_axiom o)) ops) = Ok tt) as ->; [|reflexivity].
    apply each_ok. rewrite Forall_forall in *. intros o I. apply filter_In in I as [I _].
    pose proof (check_action_spec [] o) as V. rewrite (Ho o I), fits_nothing in V. destruct V as ([] & V). exact V.
  Qed.
End WithHash.

Lemma with_context_mem pos n : forall axs i a, (exists k, In (k, a) (with_context_from i axs pos n)) <-> In a axs /\ ax_pos a = pos /\ ax_name a = n.
Proof.
  induction axs as [|b axs IH]; intros i a; cbn [with_context_from].
  - split; [intros (k & [])|intros [[] _]].
  - destruct (Bool.eqb (ax_pos b) pos && String.eqb (ax_name b) n) eqn:E.
    + apply andb_true_iff in E as [E1 E2]. apply Bool.eqb_prop in E1. apply String.eqb_eq in E2. cbn [In]. split.
      * intros (k & [H|H]); [injection H as <- <-; auto|]. destruct (proj1 (IH (S i) a) (ex_intro _ k H)) as (H1 & H2); auto.
      * intros ([<-|I] & H); [eauto|]. destruct (proj2 (IH (S i) a) (conj I H)) as (k & K). eauto.
    + rewrite IH. cbn [In]. split; [tauto|]. intros ([<-|I] & H1 & H2); [|auto]. exfalso. subst.
      rewrite Bool.eqb_reflx, String.eqb_refl in E. discriminate.
Qed.

Section Rules.
  Context `{SH : StdHash} (objects : list object) (W : Forall (fun o => wf_type (otype o)) objects).
  Notation om := (create_object_map objects).

  Lemma plain_iff n : plain_name om n <-> ordinary objects n.
  Proof.
    split; [|apply plain_ordinary; auto]. intros [N E]. split; auto. intros T. apply (om_find_type objects n W) in T as (v & T). congruence.
  Qed.

  Definition contexts (rules : list op) (axioms : list axiom) : Prop :=
    Forall2 (fun o a => ax_op a = o /\ extract_context o = Ok a) rules axioms.
  Lemma context_rule o a : op_is_axiom o = true -> extract_context o = Ok a -> rule_for o (ax_pos a) (ax_name a) (ax_args a).
  Proof.
    intros A E. split; auto. unfold extract_context in E.
    destruct (op_pre o) as [n' xs'| | |[]| | |]; try discriminate; injection E as <-; reflexivity.
  Qed.
  Lemma rule_context o sign n xs : rule_for o sign n xs -> extract_context o = Ok (mkAxiom o sign n xs).
  Proof. intros [_ E]. unfold extract_context. rewrite E. destruct sign; reflexivity. Qed.

  Lemma fits_spec ops axioms : contexts (filter op_is_axiom ops) axioms ->
    forallb (op_fits om axioms) ops = true <-> fits objects ops.
  Proof.
    intros C. rewrite forallb_forall. unfold op_fits, fits. split.
    - intros H r sign n xs o p Ir R Io Il En On. specialize (H o Io). rewrite forallb_forall in H. specialize (H _ Il).
      unfold lit_fits in H. cbn [fst snd] in H. rewrite En in H. destruct (proj2 (plain_iff n) On) as [N E].
      apply String.eqb_neq in N. rewrite N, E, forallb_forall in H.
      assert (Ia : In (mkAxiom r sign n xs) axioms).
      { assert (Ir' : In r (filter op_is_axiom ops)) by (apply filter_In; split; [auto|apply R]). clear - C Ir' R.
        induction C as [|o a os axs [Ho Ha] _ IH]; [destruct Ir'|]. destruct Ir' as [->|I]; [|right; auto].
        left. rewrite (rule_context _ _ _ _ R) in Ha. congruence. }
      destruct (proj2 (with_context_mem sign n axioms 0 (mkAxiom r sign n xs))) as (k & K); [auto|].
      apply H in K. cbn in K. apply Nat.eqb_eq. exact K.
    - intros H o Io. apply forallb_forall. intros (sign, p) Il. unfold lit_fits. cbn [fst snd].
      destruct (String.eqb_spec (pname p) "=") as [|N]; auto. destruct (om_find om (pname p)) eqn:E; auto.
      apply forallb_forall. intros (k, a) K. cbn [snd]. apply Nat.eqb_eq.
      destruct (proj1 (with_context_mem sign (pname p) axioms 0 a) (ex_intro _ k K)) as (Ia & E1 & E2).
      assert (X : exists r, In r (filter op_is_axiom ops) /\ extract_context r = Ok a).
      { clear - C Ia. induction C as [|o b os axs [Ho Ha] _ IH]; [destruct Ia|]. destruct Ia as [->|I]; [exists o; cbn; auto|].
        destruct (IH I) as (r & Ir & Er). exists r. cbn. auto. }
      destruct X as (r & Ir & Er). apply filter_In in Ir as [Ir Ar].
      apply (H r sign (pname p) (ax_args a) o p); auto.
      + subst sign. rewrite <- E2. apply context_rule; auto.
      + apply plain_iff. split; auto.
  Qed.

  Lemma simple_text o : simple_rule objects o ->
    contradictory o /\ check_text om o = UB \/ ~ contradictory o /\ check_text om o = Ok tt.
  Proof.
    intros [(sign & n & xs & [_ R] & On) (adds & dels & Ee & NE) Ord _]. unfold check_text, contradictory.
    destruct (context_dnf om (op_params o) sign n xs (proj2 (plain_iff n) On)) as (c & Ec & _). rewrite R, Ec. cbn [shown bind].
    rewrite Ee in *. cbn [eff_literals flat_map] in Ord |- *. rewrite app_nil_r in *. cbn [app] in *.
    assert (M : forall b p, In (b, p) (map (pair true) adds ++ map (pair false) dels) <-> if b : bool then In p adds else In p dels).
    { intros b p. rewrite in_app_iff, !in_map_iff. split.
      - intros [(q & E & I)|(q & E & I)]; injection E as <- <-; auto.
      - destruct b; intros I; eauto. }
    destruct (effects_dnf om (op_params o) adds dels NE) as [[(p & q & Ip & Iq & K) E]|[N (c' & E & _)]].
    - intros p I. apply plain_iff. apply in_app_iff in I as [I|I]; [apply (Ord true p), M|apply (Ord false p), M]; auto.
    - left. split; [|rewrite E; reflexivity]. exists p, q. rewrite !M. auto.
    - right. split; [|rewrite E; reflexivity]. intros (p & q & H). rewrite !M in H. apply N. eauto.
  Qed.

  Lemma context_prepare o sign n xs : rule_for o sign n xs -> ordinary objects n -> (tuple_count objects (op_params o) < 2 ^ 31)%Z ->
    exists l, prepare_arguments om o = Ok l.
  Proof.
    intros [_ R] On Ct. unfold prepare_arguments.
    assert (T : exists ts, var_tuples om (op_params o) = Ok ts /\ forall t, In t ts -> length (op_params o) = length t).
    { destruct (op_params o) as [|v vs] eqn:Ep.
      - destruct (param_gen_none om) as (g & G & E). exists []. unfold var_tuples. rewrite G. split; auto. intros t [].
      - rewrite <- Ep in *. destruct (tuples_ok objects (op_params o) W) as (ts & E & I); auto; [congruence|].
        exists ts. split; auto. intros t It. apply I in It. eapply well_typed_length; eauto. }
    destruct T as (ts & -> & Hl). cbn [bind].
    assert (G : forall t, length (op_params o) = length t -> exists d, create_goal om None (op_pre o) (op_params o) t = Ok d).
    { intros t L. rewrite R. destruct sign; cbn [create_goal]; rewrite app_fun_lookup by lia; cbn [bind]; [eauto|].
      set (l := map _ xs). destruct (proj2 (plain_iff n) On) as [N E].
      rewrite negate_one. cbn [simplify simplify_loop]. destruct (merged_one (mkProp n l)) as [Wm Em]. rewrite (evaluate_one _ _ _ Wm Em).
      unfold evaluate_equals, evaluate_type. cbn [pname pargs]. apply String.eqb_neq in N. rewrite N, E. cbn. eauto. }
    clear R. induction ts as [|t ts IH]; cbn [keep_arguments]; [eauto|].
    destruct (G t) as (d & ->); [apply Hl; left; auto|]. cbn [bind]. destruct IH as (l & ->); [intros u I; apply Hl; right; auto|].
    cbn. eauto.
  Qed.

  Lemma simple_prepare o : simple_rule objects o -> exists l, prepare_arguments om o = Ok l.
  Proof. intros [(sign & n & xs & R & On) _ _ Ct]. eapply context_prepare; eauto. Qed.

  Lemma make_simple o : simple_rule objects o -> exists a, extract_context o = Ok a /\ ax_op a = o /\
    (contradictory o /\ make_axiom om [] o = UB \/
     ~ contradictory o /\ forall axioms, make_axiom om axioms o = let* _ := check_action om axioms o in Ok a).
  Proof.
    intros S. destruct (sr_context _ _ S) as (sign & n & xs & R & _). exists (mkAxiom o sign n xs). split; [apply rule_context; auto|].
    split; [reflexivity|]. unfold make_axiom. destruct (simple_prepare o S) as (l & ->). rewrite (rule_context _ _ _ _ R). cbn [bind].
    destruct (simple_text o S) as [[H E]|[H E]]; rewrite E; [left|right]; split; auto.
    cbn [bind]. pose proof (check_action_spec om (create_full _) [] o) as V.
    rewrite fits_nothing in V. assert (op_supported o = true) as Su.
    { unfold op_supported. destruct R as [_ R]. destruct (sr_effs _ _ S) as (adds & dels & Ee & _). rewrite R, Ee. destruct sign; reflexivity. }
    rewrite Su in V. destruct V as (x & ->). reflexivity.
  Qed.

  Lemma contexts_of rules : (forall o, In o rules -> simple_rule objects o) -> exists axioms, contexts rules axioms.
  Proof.
    induction rules as [|o rules IH]; intros H; [exists []; constructor|].
    destruct (make_simple o) as (a & E & Eo & _); [apply H; left; auto|]. destruct IH as (axs & C); [intros r I; apply H; right; auto|].
    exists (a :: axs). constructor; auto.
  Qed.
  Lemma first_pass rules axioms : (forall o, In o rules -> simple_rule objects o) -> contexts rules axioms ->
    ((exists o, In o rules /\ contradictory o) -> mapM (make_axiom om []) rules = UB) /\
    ((forall o, In o rules -> ~ contradictory o) -> mapM (make_axiom om []) rules = Ok axioms).
  Proof.
    intros H C. induction C as [|o a rules axs [Eo E] _ IH]; cbn [mapM]; [split; [intros (o & [] & _)|auto]|].
    destruct IH as [I1 I2]; [intros r I; apply H; right; auto|].
    destruct (make_simple o) as (b & Eb & _ & [[Y M]|[Y M]]); [apply H; left; auto| |].
    - rewrite M. split; [reflexivity|]. intros N. exfalso. apply (N o); [left; auto|auto].
    - assert (Eq : b = a) by congruence. subst b. rewrite M.
      pose proof (check_action_spec om (create_full _) [] o) as V. rewrite fits_nothing in V.
      assert (op_supported o = true) as Su.
      { destruct (H o (or_introl eq_refl)) as [(sign & n & xs & [_ R] & _) (adds & dels & Ee & _) _ _].
        unfold op_supported. rewrite R, Ee. destruct sign; reflexivity. }
      rewrite Su in V. destruct V as (x & ->). cbn [bind]. split.
      + intros (r & [<-|I] & Cr); [contradiction|]. rewrite I1 by eauto. reflexivity.
      + intros N. rewrite I2; [reflexivity|]. intros r I. apply N. right. auto.
  Qed.

  Definition all_supported (ops : list op) (ds : list derived) (g : goal) : bool :=
    forallb op_supported ops && forallb (fun d => supported (dp_body d)) ds && supported g.
  Lemma all_supported_spec ops ds g : all_supported ops ds g = true <-> Forall understood (formulas ops ds g).
  Proof.
    unfold all_supported, formulas. rewrite !Forall_app, !andb_true_iff, !forallb_forall, Forall_flat_map, Forall_map, !Forall_forall, supported_spec.
    assert (O : forall o, op_supported o = true <-> Forall understood (op_formulas o)).
    { intros o. unfold op_supported, op_formulas. rewrite andb_true_iff, supported_effs_spec, forallb_forall, supported_spec. split.
      - intros [H1 H2]. constructor; auto. apply Forall_forall. intros h I. apply supported_spec. auto.
      - intros H. inversion H as [|? ? H1 H2]; subst. split; auto. intros h I. apply supported_spec. rewrite Forall_forall in H2. auto. }
    split.
    - intros [[H1 H2] H3]. split; [|split].
      + intros o I. apply O. auto.
      + intros d I. apply supported_spec. auto.
      + intros x [<-|[]]; exact H3.
    - intros (H1 & H2 & H3). split; [split|apply H3; left; reflexivity].
      + intros o I. apply O. auto.
      + intros d I. apply supported_spec. auto.
  Qed.

  Lemma filter_split {A} (f p : A -> bool) l : forallb f l = forallb f (filter p l) && forallb f (filter (fun x => negb (p x)) l).
  Proof.
    induction l as [|x l IH]; auto. cbn [forallb filter]. destruct (p x); cbn [negb forallb]; rewrite IH.
    - rewrite andb_assoc. reflexivity.
    - rewrite andb_assoc, (andb_comm (f x)), <- andb_assoc. reflexivity.
  Qed.

  Lemma build_verdict ops ds g axioms : (forall o, In o ops -> op_is_axiom o = true -> simple_rule objects o) ->
    contexts (filter op_is_axiom ops) axioms ->
    ((exists o, In o ops /\ op_is_axiom o = true /\ contradictory o) -> build om ops ds (Some g) = UB) /\
    ((forall o, In o ops -> op_is_axiom o = true -> ~ contradictory o) ->
       verdict (all_supported ops ds g) (forallb (op_fits om axioms) ops) (build om ops ds (Some g)) /\
       forall x, build om ops ds (Some g) = Ok x -> x = axioms).
  Proof.
    intros H C.
    assert (H' : forall o, In o (filter op_is_axiom ops) -> simple_rule objects o).
    { intros o I. apply filter_In in I as [I A]. auto. }
    destruct (first_pass _ _ H' C) as [F1 F2]. split.
    - intros (o & I & A & Y). unfold build. rewrite F1; [reflexivity|]. exists o. split; auto. apply filter_In. auto.
    - intros N. assert (N' : forall o, In o (filter op_is_axiom ops) -> ~ contradictory o).
      { intros o I. apply filter_In in I as [I A]. auto. }
      split.
      + unfold build. rewrite F2 by auto. cbn [bind].
        assert (Es : all_supported ops ds g = forallb (fun d => supported (dp_body d)) ds && (supported g &&
          (forallb op_supported (filter op_is_axiom ops) && (forallb op_supported (filter (fun o => negb (op_is_axiom o)) ops) && true)))).
        { unfold all_supported. rewrite (filter_split op_supported op_is_axiom). rewrite andb_true_r.
          destruct (forallb op_supported _), (forallb op_supported _), (forallb _ ds), (supported g); reflexivity. }
        assert (Ef : forallb (op_fits om axioms) ops = true && (true && (forallb (op_fits om axioms) (filter op_is_axiom ops) &&
          (forallb (op_fits om axioms) (filter (fun o => negb (op_is_axiom o)) ops) && true)))).
        { rewrite (filter_split (op_fits om axioms) op_is_axiom), andb_true_r. reflexivity. }
        rewrite Es, Ef. clear Es Ef.
        apply verdict_seq; [|intros _ _; apply verdict_seq; [|intros _ _; apply verdict_seq; [|intros x Ex; apply verdict_seq; [|intros _ _; cbn; eauto]]]].
        * rewrite <- (forallb_true ds). apply verdict_each. intros d _. rewrite check_derived_spec by apply create_full.
          destruct (supported _); cbn; eauto.
        * rewrite check_formula_spec by apply create_full. destruct (supported g); cbn; eauto.
        * apply verdict_mapM. intros o I. destruct (make_simple o (H' o I)) as (a & _ & _ & [[Y _]|[_ M]]); [exfalso; eapply N'; eauto|].
          rewrite M, <- (andb_true_r (op_supported o)), <- (andb_true_r (op_fits om axioms o)).
          apply verdict_seq; [apply check_action_spec, create_full|]. intros _ _. cbn. eauto.
        * assert (x = axioms) as ->.
          { apply make_axioms_context, mapM_spec in Ex. clear - Ex C. revert x Ex.
            induction C as [|o a os axs [_ E] _ IH]; intros x Ex; inversion Ex as [|? b ? y E1 E2]; subst; auto. f_equal; auto. congruence. }
          apply verdict_each. intros o _. apply check_action_spec, create_full.
      + intros x Ex. apply build_axioms, mapM_spec in Ex. clear - Ex C. revert x Ex.
        induction C as [|o a os axs [_ E] _ IH]; intros x Ex; inversion Ex as [|? b ? y E1 E2]; subst; auto. f_equal; auto. congruence.
  Qed.
End Rules.

Section Make.
  Context `{SH : StdHash}.
  Notation bad r := (r = Throw ERuntime \/ r = AssertFail).

  Lemma C78_outcome_lemma L constants objects ops ds init g aa :
    Forall (fun o => wf_type (otype o)) (constants ++ objects) ->
    (forall o, In o ops -> op_is_axiom o = true -> simple_rule (constants ++ objects) o) ->
    let r := make_pddl L constants objects ops ds init g aa in
    ((exists o, In o ops /\ op_is_axiom o = true /\ contradictory o) -> r = UB) /\
    ((forall o, In o ops -> op_is_axiom o = true -> ~ contradictory o) ->
      (~ Forall understood (formulas ops ds g) -> fits (constants ++ objects) ops -> r = Throw ERuntime) /\
      (Forall understood (formulas ops ds g) -> ~ fits (constants ++ objects) ops -> r = AssertFail) /\
      (~ Forall understood (formulas ops ds g) -> ~ fits (constants ++ objects) ops -> bad r) /\
      (Forall understood (formulas ops ds g) -> fits (constants ++ objects) ops ->
       exists axioms, Forall2 (fun o a => ax_op a = o /\ rule_for o (ax_pos a) (ax_name a) (ax_args a)) (filter op_is_axiom ops) axioms /\
         let p s := mkPddl constants objects (constants ++ objects) (create_object_map (constants ++ objects)) ops axioms ds s g in
         r = if aa then let* ' (s, st) := consistent_state (create_object_map (constants ++ objects)) axioms (l_cascade L) (l_rounds L)
                                            (initial_state init, no_store) in Ok (p s, st)
             else Ok (p (initial_state init), no_store))).
  Proof.
    intros W H r. unfold make_pddl, make_from in r.
    destruct (contexts_of (constants ++ objects) W (filter op_is_axiom ops)) as (axioms & C).
    { intros o I. apply filter_In in I as [I A]. auto. }
    destruct (build_verdict (constants ++ objects) W ops ds g axioms H C) as [B1 B2].
    split; [intros X; unfold r; rewrite B1 by auto; reflexivity|]. intros N. destruct (B2 N) as [V Ex]. clear B1 B2.
    pose proof (all_supported_spec ops ds g) as Su. pose proof (fits_spec (constants ++ objects) W ops axioms C) as Fi.
    destruct (all_supported ops ds g), (forallb (op_fits _ axioms) ops);
      (first [assert (U : Forall understood (formulas ops ds g)) by (apply Su; reflexivity)
             |assert (U : ~ Forall understood (formulas ops ds g)) by (intros U; apply Su in U; discriminate)]);
      (first [assert (Ft : fits (constants ++ objects) ops) by (apply Fi; reflexivity)
             |assert (Ft : ~ fits (constants ++ objects) ops) by (intros U'; apply Fi in U'; discriminate)]);
      cbn [verdict] in V.
    - destruct V as (x & V). split; [tauto|]. split; [tauto|]. split; [tauto|]. intros _ _. exists axioms. split.
      + assert (A : forall o, In o (filter op_is_axiom ops) -> op_is_axiom o = true) by (intros o I; apply filter_In in I as [_ A]; exact A).
        clear - C A. induction C as [|o a os axs [Eo E] _ IH]; constructor; [|apply IH; intros; apply A; right; auto].
        split; auto. apply context_rule; auto. apply A. left. auto.
      + unfold r. rewrite V. rewrite (Ex x V). cbn [bind]. destruct aa; reflexivity.
    - split; [tauto|]. split; [|tauto]. intros _ _. unfold r. rewrite V. reflexivity.
    - split; [|tauto]. intros _ _. unfold r. rewrite V. reflexivity.
    - split; [tauto|]. split; [tauto|]. split; [|tauto]. intros _ _. unfold r. destruct V as [V|V]; rewrite V; auto.
  Qed.

  (** What a Pddl that was made is made of. *)
  Lemma C78_made_lemma L constants objects ops ds init g aa p st :
    Forall (fun o => wf_type (otype o)) (constants ++ objects) ->
    make_pddl L constants objects ops ds init g aa = Ok (p, st) ->
    Forall understood (formulas ops ds g) /\ fits (constants ++ objects) ops /\
    (forall o, In o ops -> op_is_axiom o = true -> exists sign n xs, rule_for o sign n xs) /\
    (forall o, In o ops -> check_action (pd_om p) (pd_axioms p) o = Ok tt) /\
    (forall h params partial, In h (formulas ops ds g) -> exists c, compile partial (pd_om p) h params = Ok c).
  Proof.
    intros W E. unfold make_pddl, make_from in E. apply bind_Ok in E as (axioms & B & E). apply bind_Ok in E as ((s, st') & _ & E).
    injection E as <- <-. cbn [pd_om pd_axioms].
    set (om := create_object_map (constants ++ objects)) in *. pose proof (create_full (constants ++ objects)) as Fu. fold om in Fu.
    pose proof (build_axioms _ _ _ _ _ B) as Ca. unfold build in B.
    apply bind_Ok in B as (l1 & B1 & B). apply bind_Ok in B as ([] & B2 & B). apply bind_Ok in B as ([] & B3 & B).
    apply bind_Ok in B as (l2 & B4 & B). apply bind_Ok in B as ([] & B5 & B). injection B as ->.
    assert (l1 = axioms) as -> by (apply make_axioms_context in B1; congruence).
    assert (Ck : forall o, In o ops -> check_action om axioms o = Ok tt).
    { intros o I. destruct (op_is_axiom o) eqn:A.
      - assert (J : In o (filter op_is_axiom ops)) by (apply filter_In; auto). apply mapM_spec in B4.
        assert (X : forall rs axs, Forall2 (fun o a => make_axiom om axioms o = Ok a) rs axs -> In o rs -> exists a, make_axiom om axioms o = Ok a).
        { clear. induction 1 as [|r a rs axs E _ IH]; intros J; [destruct J|]. destruct J as [->|J]; eauto. }
        destruct (X _ _ B4 J) as (a & E). unfold make_axiom in E. apply bind_Ok in E as ([] & E & _). exact E.
      - apply each_ok in B5. rewrite Forall_forall in B5. apply B5. apply filter_In. rewrite A. auto. }
    assert (V : forall o, In o ops -> op_supported o = true /\ op_fits om axioms o = true).
    { intros o I. pose proof (check_action_spec om Fu axioms o) as V. rewrite (Ck o I) in V.
      destruct (op_supported o), (op_fits om axioms o); cbn in V; auto; try discriminate. destruct V; discriminate. }
    assert (C : contexts (filter op_is_axiom ops) axioms).
    { apply mapM_spec in Ca. clear - Ca. unfold contexts. induction Ca as [|o a os axs H _ IH]; constructor; auto. split; auto.
      unfold extract_context in H. destruct (op_pre o) as [| | |[]| | |]; inversion H; reflexivity. }
    assert (U : Forall understood (formulas ops ds g)).
    { apply all_supported_spec. unfold all_supported. rewrite !andb_true_iff, !forallb_forall. split; [split|].
      - intros o I. apply V; auto.
      - intros d I. apply each_ok in B2. rewrite Forall_forall in B2. specialize (B2 d I). rewrite check_derived_spec in B2 by auto.
        destruct (supported _); [auto|discriminate].
      - rewrite check_formula_spec in B3 by auto. destruct (supported g); [auto|discriminate]. }
    split; [exact U|]. split.
    { apply (fits_spec (constants ++ objects) W ops axioms C). apply forallb_forall. intros o I. apply V; auto. }
    split; [|split; [exact Ck|]].
    - intros o I A. assert (J : In o (filter op_is_axiom ops)) by (apply filter_In; auto). clear - C J A.
      induction C as [|r a rs axs [_ E] _ IH]; [destruct J|]. destruct J as [->|J]; [|auto]. eauto using context_rule.
    - intros h params partial I. rewrite Forall_forall in U. apply compile_supported; auto. apply supported_spec. auto.
  Qed.

  Lemma lit_arity ar e : eff_arity ar e -> forall s p, In (s, p) (eff_literals e) -> length (pargs p) = ar (pname p).
  Proof.
    induction e as [fs adds dels cs IHf IHc] using effs_ind'. intros (Hf & Ha & Hd & Hc) s p I. cbn [eff_literals] in I.
    rewrite !in_app_iff, !in_map_iff in I. rewrite Forall_forall in Ha, Hd. destruct I as [I|[(q & Q & I)|[(q & Q & I)|I]]].
    - clear - IHf Hf I. induction fs as [|(v, b) fs IH]; [destruct I|]. destruct Hf as [H1 H2]. cbn [flat_map snd] in I.
      apply in_app_iff in I as [I|I]; [exact (IHf v b (or_introl eq_refl) H1 s p I)|]. apply IH; auto. intros w x J. apply (IHf w). right. auto.
    - injection Q as _ ->. auto.
    - injection Q as _ ->. auto.
    - clear - IHc Hc I. induction cs as [|(v, b) cs IH]; [destruct I|]. destruct Hc as [H1 H2]. cbn [flat_map snd] in I.
      apply in_app_iff in I as [I|I]; [exact (IHc v b (or_introl eq_refl) H1 s p I)|]. apply IH; auto. intros w x J. apply (IHc w). right. auto.
  Qed.

  Lemma C78_good_lemma L p ar rank drank init : good_domain L p ar rank drank -> pd_objects p = pd_symbols p ->
    Forall2 (fun o a => ax_op a = o /\ extract_context o = Ok a) (filter op_is_axiom (pd_ops p)) (pd_axioms p) ->
    (forall o, In o (pd_ops p) -> op_is_axiom o = true -> simple_rule (pd_symbols p) o /\ ~ contradictory o) ->
    make_pddl L (pd_constants p) (pd_problem_objects p) (pd_ops p) (pd_derived p) init (pd_goal p) false =
    Ok (mkPddl (pd_constants p) (pd_problem_objects p) (pd_objects p) (pd_om p) (pd_ops p) (pd_axioms p) (pd_derived p)
          (initial_state init) (pd_goal p), no_store).
  Proof.
    intros G Eo C H. unfold pd_symbols in *. destruct (C78_outcome_lemma L (pd_constants p) (pd_problem_objects p) (pd_ops p) (pd_derived p) init (pd_goal p) false)
      as (_ & X).
    - apply (gd_types _ _ _ _ _ G).
    - intros o I A. apply H; auto.
    - destruct X as (_ & _ & _ & X); [intros o I A; apply H; auto|]. destruct X as (axioms & Ca & X).
      + apply all_supported_spec. unfold all_supported. rewrite !andb_true_iff, !forallb_forall. split; [split|].
        * intros o I. unfold op_supported. pose proof (gd_pre _ _ _ _ _ G) as Hp. pose proof (gd_ops _ _ _ _ _ G) as Ho.
          rewrite Forall_forall in Hp, Ho. rewrite (wf_supported _ _ _ (Hp o I)). apply (wf_effs_supported _ _ _ (go_wf _ _ _ (Ho o I))).
        * intros d I. pose proof (gd_derived _ _ _ _ _ G d I) as Gd. eapply wf_supported. apply Gd.
        * apply (wf_supported _ _ _ (gd_goal _ _ _ _ _ G)).
      + intros r sign n xs o q Ir R Io Il En On.
        pose proof (gd_ops _ _ _ _ _ G) as Ho. rewrite Forall_forall in Ho.
        rewrite (lit_arity ar _ (go_arity _ _ _ (Ho o Io)) _ _ Il), En.
        assert (Ia : In (mkAxiom r sign n xs) (pd_axioms p)).
        { assert (Ir' : In r (filter op_is_axiom (pd_ops p))) by (apply filter_In; split; [auto|apply R]). clear - C Ir' R.
          induction C as [|o a os axs [Ho Ha] _ IH]; [destruct Ir'|]. destruct Ir' as [->|I]; [|right; auto].
          left. rewrite (rule_context _ _ _ _ R) in Ha. congruence. }
        pose proof (gd_axioms _ _ _ _ _ G) as Ga. rewrite Forall_forall in Ga. symmetry. exact (ga_arity _ _ _ (Ga _ Ia)).
      + cbv zeta iota in X. rewrite X. rewrite Eo, (gd_om _ _ _ _ _ G). unfold pd_symbols. do 3 f_equal.
        clear - C Ca. revert Ca. generalize axioms. induction C as [|o a os axs [Ho Ha] _ IH]; intros ax Ca; inversion Ca as [|? b ? y [E1 [EA E2]] E3]; subst; auto.
        f_equal; auto. rewrite (rule_context (ax_op a) (ax_pos b) (ax_name b) (ax_args b)) in Ha by (split; auto).
        injection Ha as Ha. rewrite <- Ha, <- E1. destruct b; reflexivity.
  Qed.

  (** Contradictory effects with a condition that is always true. *)
  Lemma C78_caught_lemma L constants objects o sign n xs adds dels init g :
    let os := constants ++ objects in Forall (fun o => wf_type (otype o)) os ->
    rule_for o sign n xs -> ordinary os n -> (tuple_count os (op_params o) < 2 ^ 31)%Z ->
    op_effs o = Effs [] [] [] [(GConj [], Effs [] adds dels [])] -> (forall p, In p (adds ++ dels) -> ordinary os (pname p)) ->
    contradictory o -> fits os [o] -> understood g ->
    exists p, make_pddl L constants objects [o] [] init g false = Ok (p, no_store) /\
      exists ctx, axiom_text (pd_om p) o = Ok (print_call "axiom" (op_params o) +++ ": " +++ dnf_text ctx +++ " => false").
  Proof.
    intros os W R On Ct Ee Ord (p & q & Ip & Iq & K) Ft Ug. set (om := create_object_map os).
    rewrite Ee in Ip, Iq. cbn in Ip, Iq. rewrite !app_nil_r in Ip, Iq. rewrite in_app_iff, !in_map_iff in Ip, Iq.
    assert (Jp : In p adds) by (destruct Ip as [(x & E & I)|(x & E & I)]; [injection E as <-; auto|discriminate]).
    assert (Jq : In q dels) by (destruct Iq as [(x & E & I)|(x & E & I)]; [discriminate|injection E as <-; auto]).
    clear Ip Iq.
    destruct (context_dnf om (op_params o) sign n xs (proj2 (plain_iff os W n) On)) as (c & Ec & _).
    assert (Et : create_effs om None (op_effs o) (op_params o) (op_params o) = Throw ERuntime).
    { destruct (effects_dnf om (op_params o) adds dels) as [[_ E]|[N _]].
      - destruct adds; [destruct Jp|discriminate].
      - intros x I. apply plain_iff; auto.
      - rewrite Ee. revert E. generalize (Effs [] adds dels []). intros inner E.
        cbn [create_effs collect and_then bind literals foldM mapM].
        change (create_goal om None (GConj []) (op_params o) (op_params o)) with (Ok (A := option dnf) (Some [])). cbn [bind].
        rewrite E. reflexivity.
      - exfalso. apply N. eauto. }
    assert (Ck : forall axioms, op_fits om axioms o = true -> make_axiom om axioms o = Ok (mkAxiom o sign n xs)).
    { intros axioms Fo. pose proof (check_action_spec om (create_full _) axioms o) as V. rewrite Fo in V.
      assert (Su : op_supported o = true) by (unfold op_supported; destruct R as [_ R]; rewrite R, Ee; destruct sign; reflexivity).
      rewrite Su in V. destruct V as ([] & V). unfold make_axiom. rewrite V. cbn [bind].
      destruct (context_prepare os W o sign n xs R On Ct) as (l & E). fold om in E. rewrite E, (rule_context _ _ _ _ R). cbn [bind].
      unfold check_text. rewrite Et. destruct R as [_ R]. rewrite R, Ec. reflexivity. }
    assert (Fo : op_fits om [mkAxiom o sign n xs] o = true).
    { assert (C : contexts (filter op_is_axiom [o]) [mkAxiom o sign n xs]).
      { cbn [filter]. rewrite (proj1 R). constructor; [|constructor]. split; [reflexivity|apply rule_context; auto]. }
      apply (fits_spec os W [o] _ C) in Ft. cbn [forallb] in Ft. fold om in Ft. apply andb_true_iff in Ft. apply Ft. }
    exists (mkPddl constants objects os om [o] [mkAxiom o sign n xs] [] (initial_state init) g). split.
    - unfold make_pddl, make_from, build. fold os om. cbn [filter]. rewrite (proj1 R). cbn [negb mapM bind].
      rewrite (Ck [] (fits_nothing om o)). cbn [bind each]. rewrite check_formula_spec by apply create_full.
      apply supported_spec in Ug. rewrite Ug. cbn [bind]. rewrite (Ck _ Fo). reflexivity.
    - cbn [pd_om]. exists [c]. unfold axiom_text. rewrite Et. destruct R as [_ R]. rewrite R, Ec. reflexivity.
  Qed.

  Lemma C78_text_lemma L constants objects ops ds init g aa p st :
    make_pddl L constants objects ops ds init g aa = Ok (p, st) ->
    forall o, In o ops -> op_is_axiom o = true -> exists text, axiom_text (pd_om p) o = Ok text.
  Proof.
    intros E o I A. unfold make_pddl, make_from in E. apply bind_Ok in E as (axioms & B & E). apply bind_Ok in E as ((s, st') & _ & E).
    injection E as <- <-. cbn [pd_om]. unfold build in B. apply bind_Ok in B as (l1 & B1 & _). apply mapM_spec in B1.
    assert (J : In o (filter op_is_axiom ops)) by (apply filter_In; auto). clear I A.
    induction B1 as [|r a rs axs E _ IH]; [destruct J|]. destruct J as [->|J]; [clear IH|auto].
    unfold make_axiom in E. apply bind_Ok in E as (? & _ & E). apply bind_Ok in E as (? & _ & E). apply bind_Ok in E as (? & _ & E).
    apply bind_Ok in E as ([] & E & _). unfold check_text in E. apply bind_Ok in E as ([] & E1 & E2). unfold axiom_text.
    destruct (create_goal _ _ _ _ _) as [[]| | | |]; cbn in E1; try discriminate; cbn [nf_or_false bind];
      (destruct (create_effs _ _ _ _ _) as [[]| | | |]; cbn in E2; try discriminate; cbn; eauto).
  Qed.
End Make.
