(** Statements for C52-C54 and C59 and sample data. *)
From Coq Require Import String List Bool NArith ZArith Arith Lia Permutation.
From Verif.Model Require Import Base Order HashSet Object Proposition State CombinationGenerator
  ParameterGenerator Syntax Formula NormalForm.
From Verif.Spec Require Import SetSpec CartesianSpec TypingSpec FormulaSpec EffectSpec NormalFormSpec.
From Verif.Proofs Require Import OrderFacts HashSetFacts StateFacts StateHistory CombinationFacts ParameterFacts
  FormulaFacts EffectLink EffectTheorems EffectExamples DerivedFacts DerivedExamples NormalFormFacts NormalFormGoal
  NormalFormEffects.
From Verif.Properties Require Import StateProps ParameterProps FormulaProps.
Import ListNotations.
Local Open Scope string_scope.
Local Open Scope list_scope.

Lemma truth_ext objects S S' a : (S a <-> S' a) -> truth objects S a <-> truth objects S' a.
Proof. unfold truth. tauto. Qed.

Section WithHash.
  Context `{SH : StdHash}.

  Lemma result_ext V V' r : (forall a, V a <-> V' a) -> result_sat V r <-> result_sat V' r.
  Proof.
    intros E. destruct r as [d|]; cbn; [|tauto]. unfold dnf_sat, list_sat, conj_sat.
    split; (intros [H|(c & I & P & N)]; [auto|right; exists c; split; auto]); split; intros p J.
    - apply E; auto.
    - intros Q. apply E in Q. exact (N p J Q).
    - apply E; auto.
    - intros Q. apply E in Q. exact (N p J Q).
  Qed.

  (** The characteristic function of a state. *)
  Definition char (s : state) (a : atom) : bool := if mem_dec s a then true else false.
  Lemma char_spec s a : st_wf s -> set_of (char s) a <-> atoms s a.
  Proof.
    intros W. rewrite atoms_mem by auto. unfold set_of, char.
    destruct (mem_dec s a); split; auto; discriminate.
  Qed.

  Section Objects.
    Variable objects : list object.
    Hypothesis W : Forall (fun o => wf_type (otype o)) objects.
    Hypothesis ND : NoDup (map oname objects).
    Hypothesis KC : Forall (fun o => okind o = KConst) objects.
    Let om := create_object_map objects.

    Lemma C52_lemma g params args e : length params = length args ->
      Forall (fun o => In o objects) args -> wf_goal objects (map oname params) g -> declared objects g ->
      nondegenerate objects (bind_vars params args e) g ->
      create_goal om None g params args = OutOfFuel \/
      exists r, create_goal om None g params args = Ok r /\
        forall s, built s ->
          result_sat (truth objects (atoms s)) r <-> holds objects (atoms s) (bind_vars params args e) g.
    Proof.
      intros L Ia Wf D Nd.
      destruct (create_ok objects W ND KC (fun _ => True) g params args e L Ia Wf D (fun _ _ => I) Nd)
        as [E|(r & E & _ & S)]; [left; exact E|right]. exists r. split; auto. intros s B.
      pose proof (built_wf s B) as Ws.
      rewrite (result_ext _ (truth objects (set_of (char s)))).
      - rewrite S. apply holds_names. intros a _. apply char_spec; auto.
      - intros a. apply truth_ext. symmetry. apply char_spec; auto.
    Qed.

    Lemma C52_false_lemma g params args e : length params = length args ->
      Forall (fun o => In o objects) args -> wf_goal objects (map oname params) g -> declared objects g ->
      nondegenerate objects (bind_vars params args e) g ->
      (create_goal om None g params args = Ok None -> ~ satisfiable objects (bind_vars params args e) g) /\
      (create_goal om None g params args = Ok (Some []) -> valid objects (bind_vars params args e) g).
    Proof.
      intros L Ia Wf D Nd.
      destruct (create_ok objects W ND KC (fun _ => True) g params args e L Ia Wf D (fun _ _ => I) Nd)
        as [E|(r & E & _ & S)]; split; intros Q; try congruence.
      - unfold om in Q. rewrite E in Q. discriminate.
      - unfold om in Q. rewrite E in Q. discriminate.
      - unfold om in Q. rewrite E in Q. injection Q as ->. intros [S0 H]. apply S in H. destruct H.
      - unfold om in Q. rewrite E in Q. injection Q as ->. intros S0. apply S. left; auto.
    Qed.

    Lemma ordinary_truth S n l : ordinary objects n -> truth objects S (n, l) <-> S (n, l).
    Proof. unfold ordinary, truth. cbn. intros [N T]. split; [intros [[Q _]|[[_ [Q _]]|[_ [_ Q]]]]; tauto|auto]. Qed.

    Lemma C52_unsat_lemma g params args e : length params = length args ->
      Forall (fun o => In o objects) args -> wf_goal objects (map oname params) g -> declared objects g ->
      nondegenerate objects (bind_vars params args e) g ->
      (forall n, In n (goal_preds g) -> ordinary objects n) ->
      create_goal om None g params args <> OutOfFuel ->
      (create_goal om None g params args = Ok None <-> ~ satisfiable objects (bind_vars params args e) g).
    Proof.
      intros L Ia Wf D Nd O F.
      destruct (create_ok objects W ND KC (ordinary objects) g params args e L Ia Wf D O Nd)
        as [E|(r & E & N & S)]; [destruct (F E)|]. fold om in E. rewrite E. split.
      - intros Q. injection Q as ->. intros [S0 H]. apply S in H. destruct H.
      - intros H. destruct r as [d|]; auto. exfalso. specialize (N d eq_refl). destruct N as [G So].
        destruct d as [|c d].
        + apply H. exists (fun _ => true). apply S. left; auto.
        + inversion G as [|? ? [[Wp Wn] Gc] _]; subst. inversion So as [|? ? [_ Cc] _]; subst.
          apply H. exists (char (ps_pos c)). apply S. right. exists c. split; [left; auto|].
          rewrite Forall_forall in Gc. unfold lits in Gc.
          apply ps_consistent_spec in Cc; [|split; auto]. split; intros p I.
          * assert (Gp : ground objects (ordinary objects) p) by (apply Gc, in_app_iff; auto).
            destruct Gp as (_ & _ & Op). unfold prop_key. apply ordinary_truth; auto.
            apply char_spec; auto. apply atoms_mem; auto. apply in_map_iff. exists p; auto.
          * assert (Gp : ground objects (ordinary objects) p) by (apply Gc, in_app_iff; auto).
            destruct Gp as (_ & _ & Op). unfold prop_key. rewrite ordinary_truth by auto.
            rewrite char_spec, atoms_mem by auto. intros M. apply (Cc _ M). apply in_map_iff. exists p; auto.
    Qed.

    Lemma ground_conj_good c : ground_conj objects c -> good (ground objects (fun _ => True)) c.
    Proof.
      intros (Bp & Bn & G). split; [split; apply built_wf; auto|]. unfold lits. rewrite Forall_forall. intros p I.
      apply in_app_iff in I. destruct (G p I). split; auto.
    Qed.

    Lemma evaluate_ax f c : evaluate om (Some f) c =
      let* v := evaluate om None c in
      match v with
      | Some b => Ok (Some b)
      | None => let* ok := f c in Ok (if ok : bool then None else Some false)
      end.
    Proof.
      unfold evaluate. destruct (if Nat.eqb (ps_size c) 1 then _ else _) as [[b|]| | | |]; cbn [bind]; auto.
      destruct (ps_is_consistent c); auto.
    Qed.

    Lemma C53_axioms_lemma f d : (forall c, ground_conj objects c -> exists b, f c = Ok b) ->
      Forall (ground_conj objects) d ->
      exists r, simplify om (Some f) d = Ok r /\
        forall S : atom -> bool,
          (forall c, ground_conj objects c -> f c = Ok false -> ~ conj_sat (truth objects (set_of S)) c) ->
          (result_sat (truth objects (set_of S)) r <-> dnf_sat (truth objects (set_of S)) d).
    Proof.
      intros Tf G.
      destruct (simplify_ok om (Some f) (ground_conj objects)
        (fun V => exists S : atom -> bool, V = truth objects (set_of S) /\
           forall c, ground_conj objects c -> f c = Ok false -> ~ conj_sat V c)) with (d := d) as (r & E & S & _); auto.
      - intros c H. apply (ground_conj_good c H).
      - intros c H. destruct (eval_total objects W ND KC (fun _ => True) c (ground_conj_good c H)) as (v & E).
        fold om in E. destruct (Tf c H) as (b & Eb). rewrite evaluate_ax, E. cbn [bind].
        destruct v as [b'|]; eauto. rewrite Eb. cbn. eauto.
      - intros c V b H (S & -> & K) E. rewrite evaluate_ax in E. apply bind_Ok in E. destruct E as (v & E0 & E).
        destruct v as [b'|].
        + injection E as <-.
          apply (eval_sound objects W ND KC (fun _ => True) c); [apply ground_conj_good; auto|exists S; auto|exact E0].
        + destruct (Tf c H) as (bf & Eb). rewrite Eb in E. cbn in E. destruct bf; [discriminate|]. injection E as <-.
          split; [discriminate|]. intros Q. destruct (K c H Eb Q).
      - exists r. split; auto. intros S0 K. apply S. exists S0. split; auto.
    Qed.

    Lemma C53_lemma d : Forall (ground_conj objects) d ->
      exists r, simplify om None d = Ok r /\
        forall S : atom -> bool, result_sat (truth objects (set_of S)) r <-> dnf_sat (truth objects (set_of S)) d.
    Proof.
      intros G.
      destruct (simplify_ok om None (good (ground objects (fun _ => True))) (Val objects)) with (d := d) as (r & E & S & _).
      - intros c H; apply H.
      - apply eval_total; auto.
      - apply eval_sound; auto.
      - eapply Forall_impl; [|exact G]. apply ground_conj_good.
      - exists r. split; auto. intros S0. apply S. exists S0. auto.
    Qed.

    Lemma C54_lemma ax d d' : Forall (fun c => built (ps_pos c) /\ built (ps_neg c)) d ->
      simplify om ax d = Ok (Some d') -> increasing d' /\ irredundant d'.
    Proof.
      intros B E.
      (* the evaluation only matters where it succeeds *)
      set (good0 := fun c => ps_wf c /\ exists v, evaluate om ax c = Ok v).
      assert (K : forall l ret ret', Forall ps_wf l -> Forall ps_wf ret -> antichain ret ->
                simplify_loop om ax l ret = Ok (Some ret') -> Forall ps_wf ret' /\ antichain ret').
      { clear. induction l as [|c l IH]; intros ret ret' Wl Wr A E.
        - cbn in E. injection E as <-. auto.
        - inversion Wl; subst. rewrite loop_step in E. apply bind_Ok in E. destruct E as (v & _ & E).
          destruct v as [[|]|]; [discriminate|eauto|].
          apply IH in E; auto.
          + rewrite Forall_forall in *. intros x I. apply inserted_In in I. destruct I as [->|I]; auto.
          + apply inserted_antichain; auto. }
      assert (WB : Forall ps_wf d).
      { eapply Forall_impl; [|exact B]. intros c [B1 B2]. split; apply built_wf; auto. }
      assert (R : sorted_by lt d' /\ antichain d' /\ Forall ps_wf d').
      { destruct d as [|c0 d0]; [cbn in E; injection E as <-; split; [constructor|]; split; [intros ? ? []|constructor]|].
        unfold simplify in E. apply bind_Ok in E. destruct E as (r & El & E). destruct r as [[|c ret]|]; try discriminate.
        - injection E as <-. apply K in El; auto; [|intros ? ? []]. destruct El as [Wr A].
          split; [apply sort_unique_sorted|]. split.
          + intros x y Ix Iy. apply A; apply sort_unique_In; auto.
          + rewrite Forall_forall in *. intros x I. apply Wr, sort_unique_In; auto.
        - injection E as <-. split; [constructor|]. split; [intros ? ? []|constructor]. }
      destruct R as (So & A & Wd). clear -So A Wd. induction So as [|c l F S IH]; [split; constructor|].
      inversion Wd as [|? ? Wc Wl]; subst.
      destruct IH as [I1 I2]; auto. { intros x y Ix Iy. apply A; right; auto. }
      split; (split; [|auto]); auto. rewrite Forall_forall in *. intros x Ix. specialize (F x Ix).
      pose proof (lt_neq _ _ F) as NEQ. specialize (Wl x Ix).
      assert (LI : forall c d, ps_wf c -> ps_wf d -> literals_in c d <-> lit_incl c d).
      { clear. intros c d [W1 W2] [W3 W4]. unfold literals_in, lit_incl.
        split; intros [P N]; split; intros a M.
        - apply atoms_mem; auto. apply P, atoms_mem; auto.
        - apply atoms_mem; auto. apply N, atoms_mem; auto.
        - apply atoms_mem; auto. apply P, atoms_mem; auto.
        - apply atoms_mem; auto. apply N, atoms_mem; auto. }
      rewrite !LI by auto. split; intros H.
      - specialize (A c x (or_introl eq_refl) (or_intror Ix) H). congruence.
      - specialize (A x c (or_intror Ix) (or_introl eq_refl) H). apply ps_eqb_sym in A. congruence.
    Qed.

    Lemma C59_lemma ef params args e : length params = length args ->
      Forall (fun o => In o objects) args -> wf_effs objects (map oname params) ef -> declared_effs objects ef ->
      nondegenerate_effs objects (bind_vars params args e) ef ->
      create_effs om None ef params args = OutOfFuel \/
      exists r, create_effs om None ef params args = Ok r /\
        forall S : atom -> bool,
          result_sat (truth objects (set_of S)) r <-> post objects (set_of S) (bind_vars params args e) ef.
    Proof.
      intros L Ia Wf D Nd.
      destruct (create_effs_ok objects W ND KC ef params args e L Ia Wf D Nd) as [E|(r & E & _ & S)]; [left; exact E|right].
      exists r. auto.
    Qed.
  End Objects.
End WithHash.
