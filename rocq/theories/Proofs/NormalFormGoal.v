(** Normal forms of goals (C52). *)
From Coq Require Import String List Bool NArith ZArith Arith Lia Permutation.
From Verif.Model Require Import Base Order HashSet Object Proposition State CombinationGenerator
  ParameterGenerator Syntax Formula NormalForm.
From Verif.Spec Require Import SetSpec CartesianSpec TypingSpec FormulaSpec EffectSpec NormalFormSpec.
From Verif.Proofs Require Import OrderFacts HashSetFacts StateFacts StateHistory CombinationFacts ParameterFacts
  FormulaFacts NormalFormFacts DerivedFacts.
Import ListNotations.
Local Open Scope string_scope.
Local Open Scope list_scope.

Section WithHash.
  Context `{SH : StdHash}.

  Definition nonempty (c : partial_state) : Prop := lits c <> [].
  Definition solid (c : partial_state) : Prop := nonempty c /\ ps_is_consistent c = true.

  Lemma eval_none_consistent om ax c : evaluate om ax c = Ok None -> ps_is_consistent c = true.
  Proof.
    unfold evaluate. intros E. apply bind_Ok in E. destruct E as ([b|] & _ & E); [discriminate|].
    destruct (ps_is_consistent c); auto. discriminate.
  Qed.

  (** ** Union of a combination *)
  Section Ops.
    Variable om : object_map.
    Variable ax : axiom_check.
    Variable F : prop -> Prop.
    Variable Val : (atom -> Prop) -> Prop.
    Definition good (c : partial_state) : Prop := ps_wf c /\ Forall F (lits c).
    Hypothesis eval_total : forall c, good c -> exists v, evaluate om ax c = Ok v.
    Hypothesis eval_sound : forall c V b, good c -> Val V -> evaluate om ax c = Ok (Some b) ->
      b = true <-> conj_sat V c.

    Definition merge_step (c t : partial_state) : partial_state :=
      mkPS (snd (st_insert_range (st_elements (ps_pos t)) (ps_pos c)))
           (snd (st_insert_range (st_elements (ps_neg t)) (ps_neg c))).

    Lemma merge_step_ok c t : good c -> good t ->
      good (merge_step c t) /\
      (forall a, mem (ps_pos (merge_step c t)) a <-> mem (ps_pos t) a \/ mem (ps_pos c) a) /\
      (forall a, mem (ps_neg (merge_step c t)) a <-> mem (ps_neg t) a \/ mem (ps_neg c) a).
    Proof.
      intros [[Wp Wn] Fc] [[Wp' Wn'] Ft]. unfold merge_step.
      destruct (insert_range_spec (st_elements (ps_pos t)) _ Wp) as (W1 & M1 & I1).
      destruct (insert_range_spec (st_elements (ps_neg t)) _ Wn) as (W2 & M2 & I2).
      split; [|split].
      - split; [split; auto|]. unfold lits in *. cbn [ps_pos ps_neg]. rewrite Forall_forall in *.
        intros q I. apply in_app_iff in I.
        destruct I as [I|I]; [apply I1 in I|apply I2 in I]; destruct I as [I|I];
          solve [apply Ft; apply in_app_iff; auto|apply Fc; apply in_app_iff; auto].
      - exact M1.
      - exact M2.
    Qed.

    Lemma good_empty : good ps_empty.
    Proof. split; [split; apply st_empty_wf|constructor]. Qed.

    Lemma merge_ok_from combo : forall c, good c -> Forall good combo ->
      good (fold_left merge_step combo c) /\
      (forall a, mem (ps_pos (fold_left merge_step combo c)) a <->
                 mem (ps_pos c) a \/ exists t, In t combo /\ mem (ps_pos t) a) /\
      (forall a, mem (ps_neg (fold_left merge_step combo c)) a <->
                 mem (ps_neg c) a \/ exists t, In t combo /\ mem (ps_neg t) a).
    Proof.
      induction combo as [|t combo IH]; intros c G Gs; cbn [fold_left].
      - split; auto. split; intros a; (split; [auto|intros [H|(t & [] & _)]; auto]).
      - inversion Gs as [|? ? Gt Gs']; subst. destruct (merge_step_ok c t G Gt) as (G' & P & N).
        destruct (IH _ G' Gs') as (G2 & P2 & N2). split; auto.
        split; intros a; [rewrite P2, P|rewrite N2, N]; cbn [In]; split.
        + intros [[H|H]|(t' & I & H)]; eauto.
        + intros [H|(t' & [<-|I] & H)]; eauto.
        + intros [[H|H]|(t' & I & H)]; eauto.
        + intros [H|(t' & [<-|I] & H)]; eauto.
    Qed.

    Lemma merge_ok combo : Forall good combo ->
      good (merge combo) /\
      (forall a, mem (ps_pos (merge combo)) a <-> exists t, In t combo /\ mem (ps_pos t) a) /\
      (forall a, mem (ps_neg (merge combo)) a <-> exists t, In t combo /\ mem (ps_neg t) a).
    Proof.
      intros G. destruct (merge_ok_from combo _ good_empty G) as (H & P & N). split; auto.
      split; intros a; [rewrite (P a)|rewrite (N a)]; split; auto; intros [[]|]; auto.
    Qed.

    Lemma merge_sat V combo : Forall good combo ->
      conj_sat V (merge combo) <-> forall t, In t combo -> conj_sat V t.
    Proof.
      intros G. destruct (merge_ok combo G) as (_ & P & N). rewrite conj_sat_mem. split.
      - intros [H K] t I. rewrite conj_sat_mem. split; intros a M; [apply H, P|apply K, N]; eauto.
      - intros H. split; intros a M; [apply P in M|apply N in M]; destruct M as (t & I & M);
          specialize (H t I); rewrite conj_sat_mem in H; destruct H; auto.
    Qed.

    Lemma nonempty_mem c : nonempty c <-> exists a, mem (ps_pos c) a \/ mem (ps_neg c) a.
    Proof.
      unfold nonempty, lits, mem. split.
      - intros H. destruct (st_elements (ps_pos c) ++ st_elements (ps_neg c)) as [|p l] eqn:E; [congruence|].
        assert (I : In p (st_elements (ps_pos c) ++ st_elements (ps_neg c))) by (rewrite E; left; auto).
        exists (prop_key p). apply in_app_iff in I. destruct I; [left|right]; apply in_map; auto.
      - intros (a & [I|I]) E; apply app_eq_nil in E; destruct E as [E1 E2]; rewrite ?E1, ?E2 in I; destruct I.
    Qed.

    Lemma merge_nonempty combo : Forall good combo -> combo <> [] -> Forall nonempty combo -> nonempty (merge combo).
    Proof.
      intros G NE H. destruct (merge_ok combo G) as (_ & P & N). destruct combo as [|t l]; [congruence|].
      inversion H as [|? ? Ht _]; subst. apply nonempty_mem in Ht. destruct Ht as (a & [M|M]);
        apply nonempty_mem; exists a; [left; apply P|right; apply N]; exists t; cbn; auto.
    Qed.

    (** ** Conjoin and Disjoin *)
    Definition norm (d : dnf) : Prop := Forall good d /\ Forall solid d.

    Lemma norm_nonempty d : norm d -> Forall nonempty d.
    Proof. intros [_ H]. eapply Forall_impl; [|exact H]. intros c [N _]; auto. Qed.

    Definition opts_of (ds : list dnf) : list dnf :=
      filter (fun d => match d with [] => false | _ => true end) ds.

    Lemma combo_count_product ds : combo_count ds = product ds.
    Proof.
      unfold combo_count, product. induction ds as [|d ds IH]; cbn [fold_right map]; auto.
    Qed.

    Lemma combos_ok ds : (combo_count (opts_of ds) < 2 ^ 31)%Z ->
      exists combos, (let* g := make_gen (opts_of ds) in gen_list ps_empty g) = Ok combos /\
        ((opts_of ds = [] /\ combos = []) \/ (opts_of ds <> [] /\ combos = cart (opts_of ds))).
    Proof.
      intros C. destruct (opts_of ds) as [|o os] eqn:E.
      - exists []. split; [reflexivity|auto].
      - rewrite <- E in *. assert (G : good_options (opts_of ds)).
        { split; [rewrite E; discriminate|]. split; [|rewrite <- combo_count_product; exact C].
          rewrite Forall_forall. intros d I. unfold opts_of in I. apply filter_In in I.
          destruct I as [_ I]. intros ->. discriminate. }
        destruct (C09_traverse_lemma ps_empty (opts_of ds) (Z.to_nat (product (opts_of ds))) G) as (g & Mk & Z & T).
        { lia. }
        exists (cart (opts_of ds)). rewrite Mk. cbn [bind]. unfold gen_list. rewrite Z. split; auto.
        right. split; auto. rewrite E; discriminate.
    Qed.

    Lemma cart_nonempty {A} (o : list (list A)) : Forall (fun x => x <> []) o -> cart o <> [].
    Proof.
      induction 1 as [|x o H _ IH]; cbn; [discriminate|]. destruct x as [|a x]; [congruence|].
      cbn. destruct (cart o); [congruence|]. discriminate.
    Qed.

    Lemma conjoin_ok ds : Forall (Forall good) ds ->
      conjoin om ax ds = OutOfFuel \/
      exists r, conjoin om ax ds = Ok r /\
        (forall V, Val V -> result_sat V r <-> forall d, In d ds -> dnf_sat V d) /\
        (forall d', r = Some d' -> Forall good d' /\ (Forall (Forall nonempty) ds -> Forall solid d') /\
           sorted_by lt d' /\ antichain d').
    Proof.
      intros G. unfold conjoin. fold (opts_of ds).
      destruct (combo_count (opts_of ds) <? 2 ^ 31)%Z eqn:C; [|left; reflexivity]. right.
      apply Z.ltb_lt in C. destruct (combos_ok ds C) as (combos & E & H).
      destruct (make_gen (opts_of ds)) as [g| | | |]; try discriminate. cbn [bind] in *. rewrite E. cbn [bind].
      assert (Gc : forall t, In t combos -> Forall good t).
      { intros t I. destruct H as [[_ ->]|[_ ->]]; [destruct I|]. apply In_cart in I.
        rewrite Forall_forall in *. intros c Ic.
        assert (Q : exists d, In d (opts_of ds) /\ In c d).
        { clear -I Ic. induction I; [destruct Ic|]. destruct Ic as [<-|Ic]; [exists y; cbn; auto|].
          destruct (IHI Ic) as (d & ? & ?). exists d; cbn; auto. }
        destruct Q as (d & Id & Q). unfold opts_of in Id. apply filter_In in Id. destruct Id as [Id _].
        specialize (G d Id). rewrite Forall_forall in G. auto. }
      assert (Gm : Forall good (map merge combos)).
      { rewrite Forall_forall. intros c I. apply in_map_iff in I. destruct I as (t & <- & I).
        apply merge_ok; auto. }
      destruct (simplify_ok om ax good Val (fun c => @proj1 _ _) eval_total eval_sound _ Gm) as (r & Er & Sr & Pr).
      exists r. split; auto. split.
      - intros V HV. rewrite (Sr V HV). unfold dnf_sat at 1.
        assert (D : forall d, In d ds -> d <> [] -> In d (opts_of ds)).
        { intros d I N. unfold opts_of. apply filter_In. split; auto. destruct d; congruence. }
        destruct H as [[O ->]|[O ->]].
        + split; auto. intros _ d I. left. destruct d as [|c d]; auto.
          specialize (D _ I ltac:(discriminate)). rewrite O in D. destruct D.
        + split.
          * intros [H|(c & I & S)].
            -- exfalso. apply map_eq_nil in H. revert H. apply cart_nonempty. rewrite Forall_forall.
               intros d I. unfold opts_of in I. apply filter_In in I. destruct I as [_ I] . intros ->; discriminate.
            -- intros d Id. destruct d as [|c0 d0]; [left; auto|]. right.
               apply in_map_iff in I. destruct I as (t & <- & I).
               rewrite merge_sat in S by auto. apply In_cart in I.
               specialize (D _ Id ltac:(discriminate)). clear -I S D.
               induction I as [|x o t os Hx I IH]; [destruct D|]. destruct D as [->|D].
               ++ exists x. split; auto. apply S; left; auto.
               ++ apply IH; auto. intros t' I'. apply S; right; auto.
          * intros H. right.
            assert (Q : exists t, In t (cart (opts_of ds)) /\ forall c, In c t -> conj_sat V c).
            { assert (K : Forall (list_sat V) (opts_of ds)).
              { rewrite Forall_forall. intros d I. unfold opts_of in I. apply filter_In in I.
                destruct I as [I N]. destruct (H d I) as [->|]; auto; discriminate. }
              clear -K. induction K as [|d o (c & I & S) _ (t & IH1 & IH2)].
              - exists []. split; [left; auto|intros c []].
              - exists (c :: t). split.
                + apply In_cart. constructor; auto. apply In_cart; auto.
                + intros x [<-|I']; auto. }
            destruct Q as (t & I & S). exists (merge t). split; [apply in_map; auto|].
            apply merge_sat; auto.
      - intros d' ->. destruct (Pr d' eq_refl) as (I & S & A & Ev). split; [|split; [|split; auto]].
        + rewrite Forall_forall in *. intros c Ic. auto.
        + intros NE. rewrite Forall_forall in *. intros c Ic.
          split; [|eapply eval_none_consistent; eauto]. apply I in Ic. apply in_map_iff in Ic.
          destruct Ic as (t & <- & It). apply merge_nonempty; auto.
          * intros ->. destruct H as [[_ ->]|[O ->]]; [destruct It|]. apply In_cart in It. apply O.
            inversion It; auto.
          * destruct H as [[_ ->]|[O ->]]; [destruct It|]. apply In_cart in It.
            rewrite Forall_forall. intros c Ic.
            assert (Q : exists d, In d (opts_of ds) /\ In c d).
            { clear -It Ic. induction It; [destruct Ic|]. destruct Ic as [<-|Ic]; [exists y; cbn; auto|].
              destruct (IHIt Ic) as (d & ? & ?). exists d; cbn; auto. }
            destruct Q as (d & Id & Q). unfold opts_of in Id. apply filter_In in Id. destruct Id as [Id _].
            specialize (NE d Id). rewrite Forall_forall in NE. apply NE; auto.
    Qed.

    Lemma disjoin_ok ds : Forall (Forall good) ds ->
      exists r, disjoin om ax ds = Ok r /\
        (forall V, Val V -> result_sat V r <-> concat ds = [] \/ exists d, In d ds /\ list_sat V d) /\
        (forall d', r = Some d' -> Forall good d' /\ (Forall (Forall nonempty) ds -> Forall solid d') /\
           sorted_by lt d' /\ antichain d').
    Proof.
      intros G. unfold disjoin.
      assert (Gc : Forall good (concat ds)).
      { rewrite Forall_forall in *. intros c I. apply in_concat in I. destruct I as (d & I & J).
        specialize (G d I). rewrite Forall_forall in G. auto. }
      destruct (simplify_ok om ax good Val (fun c => @proj1 _ _) eval_total eval_sound _ Gc) as (r & Er & Sr & Pr).
      exists r. split; auto. split.
      - intros V HV. rewrite (Sr V HV). unfold dnf_sat.
        assert (K : list_sat V (concat ds) <-> exists d, In d ds /\ list_sat V d).
        { split.
          - intros (c & I & S). apply in_concat in I. destruct I as (d & I & J). exists d. split; auto. exists c; auto.
          - intros (d & I & c & J & S). exists c. split; auto. apply in_concat; eauto. }
        rewrite K. tauto.
      - intros d' ->. destruct (Pr d' eq_refl) as (I & S & A & Ev). split; [|split; [|split; auto]].
        + rewrite Forall_forall in *. intros c Ic. auto.
        + intros NE. rewrite Forall_forall in *. intros c Ic. split; [|eapply eval_none_consistent; eauto].
          apply I in Ic. apply in_concat in Ic.
          destruct Ic as (d & I1 & I2). specialize (NE d I1). rewrite Forall_forall in NE. auto.
    Qed.

  End Ops.

  (** ** Convert and Negate *)
  Lemma solid_one p : solid (mkPS (st_of_list [p]) st_empty) /\ solid (mkPS st_empty (st_of_list [p])).
  Proof.
    destruct (of_list_one p) as [W1 E1]. unfold solid, nonempty, lits. cbn [ps_pos ps_neg]. rewrite E1.
    split; (split; [discriminate|]); unfold ps_is_consistent; cbn [ps_pos ps_neg]; auto.
    rewrite E1. cbn [forallb]. rewrite andb_true_r. apply negb_true_iff.
    apply contains_mem_false; [apply st_empty_wf|]. apply mem_empty.
  Qed.

  Lemma convert_norm F c : good F c -> norm F (convert c).
  Proof.
    intros [W G]. unfold norm, convert, lits in *. rewrite Forall_forall in G.
    split; apply Forall_app; split; rewrite Forall_forall; intros x I; apply in_map_iff in I;
      destruct I as (p & <- & I); destruct (of_list_one p) as [W1 E1].
    - split; [split; auto; apply st_empty_wf|]. unfold lits. cbn [ps_pos ps_neg]. rewrite E1.
      constructor; [|constructor]. apply G, in_app_iff; auto.
    - split; [split; auto; apply st_empty_wf|]. unfold lits. cbn [ps_pos ps_neg]. rewrite E1.
      constructor; [|constructor]. apply G, in_app_iff; auto.
    - apply (solid_one p).
    - apply (solid_one p).
  Qed.

  Lemma one_pos V p : conj_sat V (mkPS (st_of_list [p]) st_empty) <-> V (prop_key p).
  Proof.
    destruct (of_list_one p) as [_ E]. unfold conj_sat. cbn [ps_pos ps_neg]. rewrite E. split.
    - intros [H _]. apply H; left; auto.
    - intros H. split; [intros q [<-|[]]; auto|intros q []].
  Qed.
  Lemma one_neg V p : conj_sat V (mkPS st_empty (st_of_list [p])) <-> ~ V (prop_key p).
  Proof.
    destruct (of_list_one p) as [_ E]. unfold conj_sat. cbn [ps_pos ps_neg]. rewrite E. split.
    - intros [_ H]. apply H; left; auto.
    - intros H. split; [intros q []|intros q [<-|[]]; auto].
  Qed.

  Lemma convert_sat V c : list_sat V (convert c) <->
    (exists p, In p (st_elements (ps_pos c)) /\ V (prop_key p)) \/
    (exists p, In p (st_elements (ps_neg c)) /\ ~ V (prop_key p)).
  Proof.
    unfold list_sat, convert. split.
    - intros (x & I & S). apply in_app_iff in I. destruct I as [I|I]; apply in_map_iff in I;
        destruct I as (p & <- & I); [left|right]; exists p; split; auto.
      + apply one_pos; auto.
      + apply one_neg; auto.
    - intros [(p & I & S)|(p & I & S)].
      + exists (mkPS (st_of_list [p]) st_empty). split; [|apply one_pos; auto].
        apply in_app_iff. left. apply in_map_iff. eauto.
      + exists (mkPS st_empty (st_of_list [p])). split; [|apply one_neg; auto].
        apply in_app_iff. right. apply in_map_iff. eauto.
  Qed.

  (** De Morgan for one conjunction. *)
  Lemma flip_sat V c : (forall a, V a \/ ~ V a) -> nonempty c ->
    dnf_sat V (convert (mkPS (ps_neg c) (ps_pos c))) <-> ~ conj_sat V c.
  Proof.
    intros D NE. unfold dnf_sat. rewrite convert_sat. cbn [ps_pos ps_neg]. unfold conj_sat. split.
    - intros [E|[(p & I & S)|(p & I & S)]] [P N].
      + apply NE. unfold convert in E. cbn [ps_pos ps_neg] in E. apply app_eq_nil in E. destruct E as [E1 E2].
        apply map_eq_nil in E1. apply map_eq_nil in E2. unfold lits. rewrite E1, E2. auto.
      + exact (N p I S).
      + exact (S (P p I)).
    - intros H. right.
      assert (A : forall l, (forall p, In p l -> V (prop_key p)) \/ exists p, In p l /\ ~ V (prop_key p)).
      { induction l as [|p l IH]; [left; intros p []|]. destruct (D (prop_key p)) as [T|T].
        - destruct IH as [IH|(q & I & Q)]; [left|right; exists q; cbn; auto]. intros q [<-|I]; auto.
        - right. exists p; cbn; auto. }
      assert (B : forall l, (forall p, In p l -> ~ V (prop_key p)) \/ exists p, In p l /\ V (prop_key p)).
      { induction l as [|p l IH]; [left; intros p []|]. destruct (D (prop_key p)) as [T|T].
        - right. exists p; cbn; auto.
        - destruct IH as [IH|(q & I & Q)]; [left|right; exists q; cbn; auto]. intros q [<-|I]; auto. }
      destruct (A (st_elements (ps_pos c))) as [P|(p & I & Q)]; [|right; eauto].
      destruct (B (st_elements (ps_neg c))) as [N|(p & I & Q)]; [|left; eauto]. tauto.
  Qed.

  Lemma conj_dec V c : (forall a, V a \/ ~ V a) -> conj_sat V c \/ ~ conj_sat V c.
  Proof.
    intros D. unfold conj_sat.
    assert (A : forall (P : prop -> Prop) l, (forall p, P p \/ ~ P p) ->
              (forall p, In p l -> P p) \/ ~ (forall p, In p l -> P p)).
    { intros P l HP. induction l as [|p l [IH|IH]]; [left; intros p []| |].
      - destruct (HP p); [left; intros q [<-|I]; auto|right]. intros H'. apply H, H'. left; auto.
      - right. intros H. apply IH. intros q I. apply H; right; auto. }
    destruct (A (fun p => V (prop_key p)) (st_elements (ps_pos c))) as [P|P]; auto; [|tauto].
    destruct (A (fun p => ~ V (prop_key p)) (st_elements (ps_neg c))) as [N|N]; auto; [|tauto].
    intros p. destruct (D (prop_key p)); tauto.
  Qed.

  Section Negate.
    Variable om : object_map.
    Variable F : prop -> Prop.
    Variable Val : (atom -> Prop) -> Prop.
    Hypothesis eval_total : forall c, good F c -> exists v, evaluate om None c = Ok v.
    Hypothesis eval_sound : forall c V b, good F c -> Val V -> evaluate om None c = Ok (Some b) ->
      b = true <-> conj_sat V c.
    Hypothesis val_dec : forall V, Val V -> forall a, V a \/ ~ V a.

    Lemma negate_ok d : norm F d ->
      negate om d = OutOfFuel \/
      exists r, negate om d = Ok r /\
        (forall V, Val V -> result_sat V r <-> ~ list_sat V d) /\
        (forall d', r = Some d' -> norm F d' /\ sorted_by lt d' /\ antichain d').
    Proof.
      intros [G NE]. unfold negate. rewrite Forall_forall in *.
      assert (N : forall x, In x (map (fun c => convert (mkPS (ps_neg c) (ps_pos c))) d) -> norm F x).
      { intros x I. apply in_map_iff in I. destruct I as (c & <- & I). apply convert_norm.
        destruct (G c I) as [[W1 W2] Fc]. split; [split; auto|]. unfold lits in *. cbn [ps_pos ps_neg].
        rewrite Forall_forall in *. intros p Ip. apply Fc. apply in_app_iff in Ip. apply in_app_iff. tauto. }
      destruct (conjoin_ok om None F Val eval_total eval_sound
                  (map (fun c => convert (mkPS (ps_neg c) (ps_pos c))) d)) as [E|(r & E & S & P)].
      - rewrite Forall_forall. intros x I. apply (N x I).
      - left; auto.
      - right. exists r. split; auto. split.
        + intros V HV. rewrite (S V HV). split.
          * intros H (c & I & Q). revert Q. apply flip_sat; [apply val_dec; auto|apply (NE c I)|]. apply H.
            apply in_map_iff. eauto.
          * intros H x I. apply in_map_iff in I. destruct I as (c & <- & I).
            apply flip_sat; [apply val_dec; auto|apply (NE c I)|]. intros Q. apply H. exists c; auto.
        + intros d' ->. destruct (P d' eq_refl) as (G' & NE' & So & A). split; auto. split; auto.
          apply NE'. rewrite Forall_forall. intros x I. apply (norm_nonempty F), (N x I).
    Qed.
  End Negate.
  (** ** Evaluation *)
  Section Goal.
    Variable objects : list object.
    Hypothesis W : Forall (fun o => wf_type (otype o)) objects.
    Hypothesis ND : NoDup (map oname objects).
    Hypothesis KC : Forall (fun o => okind o = KConst) objects.
    Let om := create_object_map objects.

    (** [allowed] restricts the predicates that occur. *)
    Variable allowed : string -> Prop.
    Definition ground (p : prop) : Prop :=
      arity_ok objects (pname p) (pargs p) /\ Forall (fun o => In o objects) (pargs p) /\ allowed (pname p).

    Definition Val (V : atom -> Prop) : Prop := exists S : atom -> bool, V = truth objects (set_of S).

    Lemma type_dec n : is_type objects n \/ ~ is_type objects n.
    Proof.
      destruct (om_find om n) as [v|] eqn:O.
      - left. apply om_find_type; eauto.
      - right. intros T. apply om_find_type in T; auto. destruct T as [v E]. unfold om in O. congruence.
    Qed.

    Lemma truth_atom S n args : Forall (fun o => In o objects) args ->
      truth objects S (n, map oname args) <-> atom_holds objects S n args.
    Proof.
      intros I. unfold truth, atom_holds. cbn [fst snd].
      assert (E1 : (n = "=" /\ exists x, map oname args = [x; x]) <->
                   (n = "=" /\ exists a b, args = [a; b] /\ oname a = oname b)).
      { split; intros [-> H]; split; auto.
        - destruct H as (x & E). destruct args as [|a [|b [|]]]; inversion E. exists a, b. split; congruence.
        - destruct H as (a & b & -> & E). exists (oname a). cbn. congruence. }
      assert (E2 : (exists o, In o objects /\ map oname args = [oname o] /\ has_type o n) <->
                   (exists a, args = [a] /\ has_type a n)).
      { split.
        - intros (o & Io & E & H). destruct args as [|a [|]]; inversion E. exists a. split; auto.
          inversion I; subst. replace a with o; auto. apply (object_eq objects ND); auto.
        - intros (a & -> & H). exists a. inversion I; subst. auto. }
      tauto.
    Qed.

    Lemma truth_dec V : Val V -> forall a, V a \/ ~ V a.
    Proof.
      intros [S ->] [n l]. unfold truth, set_of. cbn [fst snd].
      destruct (string_dec n "=") as [->|N].
      - destruct l as [|x [|y [|]]]; try (right; intros [[_ [z Q]]|[[Q _]|[Q _]]]; congruence).
        destruct (string_dec x y) as [->|Q]; [left; left; eauto|].
        right. intros [[_ [z Q']]|[[Q' _]|[Q' _]]]; try congruence.
      - destruct (type_dec n) as [T|T].
        + destruct (existsb (fun o => list_eqb String.eqb l [oname o] && is_subtype (otype o) n) objects) eqn:E.
          * left. right. left. split; auto. split; auto. apply existsb_exists in E. destruct E as (o & I & E).
            apply andb_true_iff in E. destruct E as [E1 E2]. exists o. split; auto. split.
            -- apply (list_eqb_ok (fun x => x)) in E1; [rewrite !map_id in E1; auto|]. intros x y; apply String.eqb_eq.
            -- apply has_type_spec; auto.
          * right. intros [[Q _]|[(_ & _ & o & I & E1 & E2)|(_ & Q & _)]]; [congruence| |tauto].
            assert (X : existsb (fun o => list_eqb String.eqb l [oname o] && is_subtype (otype o) n) objects = true).
            { apply existsb_exists. exists o. split; auto. apply andb_true_iff. split; [|apply has_type_spec; auto].
              apply (list_eqb_ok (fun x => x)); [intros x y; apply String.eqb_eq|]. rewrite !map_id. auto. }
            congruence.
        + destruct (S (n, l)) eqn:E.
          * left. right. right. auto.
          * right. intros [[Q _]|[(_ & Q & _)|(_ & _ & Q)]]; congruence.
    Qed.

    Lemma equals_ok p : ground p ->
      (pname p = "=" /\ exists b, evaluate_equals p = Ok (Some b) /\
         forall S, b = true <-> truth objects S (prop_key p)) \/
      (pname p <> "=" /\ evaluate_equals p = Ok None).
    Proof.
      intros [[A1 A2] [I _]]. unfold evaluate_equals. destruct (String.eqb_spec (pname p) "=") as [E|N]; auto.
      left. split; auto. destruct p as [n l]. cbn in *. subst n.
      destruct l as [|a [|b [|]]]; try (specialize (A1 eq_refl); discriminate).
      inversion I as [|? ? Ia I']; subst. inversion I' as [|? ? Ib _]; subst.
      rewrite Forall_forall in KC. unfold same_var. rewrite (KC a Ia), (KC b Ib).
      exists (obj_eqb a b). split; auto. intros S. rewrite (obj_eqb_ok a b).
      unfold prop_key. cbn [pname pargs]. rewrite truth_atom by auto. unfold atom_holds. split.
      - intros E. left. split; auto. exists a, b; auto.
      - intros [(_ & x & y & E & H)|[[Q _]|[Q _]]]; try congruence.
    Qed.

    Lemma type_ok p : ground p -> pname p <> "=" ->
      exists v, evaluate_type om p = Ok v /\
        forall b, v = Some b -> forall S, b = true <-> truth objects S (prop_key p).
    Proof.
      intros [[A1 A2] [I _]] N. unfold evaluate_type. destruct (om_find om (pname p)) as [v|] eqn:O.
      - assert (T : is_type objects (pname p)) by (apply om_find_type; eauto).
        specialize (A2 N T). destruct p as [n l]. cbn in *. destruct l as [|a [|]]; try discriminate.
        exists (Some (is_subtype (otype a) n)). split; auto. intros b E S. injection E as <-.
        rewrite has_type_spec. unfold prop_key. cbn [pname pargs]. rewrite truth_atom by auto. unfold atom_holds. split.
        + intros H. right; left. split; auto. split; auto. exists a; auto.
        + intros [[Q _]|[(_ & _ & x & E & H)|(_ & Q & _)]]; [congruence| |tauto]. congruence.
      - exists None. split; auto. discriminate.
    Qed.

    Lemma single_lit c : ps_wf c -> ps_size c = 1 ->
      exists p, (st_is_empty (ps_neg c) = true /\ st_elements (ps_pos c) = [p] /\ st_elements (ps_neg c) = []) \/
                (st_is_empty (ps_neg c) = false /\ st_elements (ps_neg c) = [p] /\ st_elements (ps_pos c) = []).
    Proof.
      intros [Wp Wn] E. unfold ps_size in E. unfold st_is_empty. rewrite !st_size_elements in * by auto.
      destruct (st_elements (ps_pos c)) as [|p [|]], (st_elements (ps_neg c)) as [|q [|]]; cbn in *; try lia.
      - exists q. right. auto.
      - exists p. left. auto.
    Qed.

    Lemma eval_none c : good ground c -> exists v, evaluate om None c = Ok v /\
      forall b, v = Some b -> forall S, b = true <-> conj_sat (truth objects S) c.
    Proof.
      intros [Wc G]. unfold evaluate.
      assert (K : exists v, (if ps_is_consistent c then Ok None else Ok (Some false)) = Ok v /\
                forall b, v = Some b -> forall S, b = true <-> conj_sat (truth objects S) c).
      { destruct (ps_is_consistent c) eqn:C.
        - exists None. split; auto. discriminate.
        - exists (Some false). split; auto. intros b E S. injection E as <-. split; [discriminate|].
          intros H. exfalso. apply conj_sat_mem in H. destruct H as [P N].
          assert (ps_is_consistent c = true); [|congruence]. apply ps_consistent_spec; auto.
          intros a Mp Mn. exact (N a Mn (P a Mp)). }
      destruct (Nat.eqb_spec (ps_size c) 1) as [E|_]; [|exact K].
      destruct (single_lit c Wc E) as (p & [(Em & E1 & E2)|(Em & E1 & E2)]).
      - assert (Gp : ground p).
        { rewrite Forall_forall in G. apply G. unfold lits. rewrite E1. left; auto. }
        assert (Sp : forall S, conj_sat (truth objects S) c <-> truth objects S (prop_key p)).
        { intros S. unfold conj_sat. rewrite E1, E2. split.
          - intros [H _]. apply H; left; auto.
          - intros H. split; [intros q [<-|[]]; auto|intros q []]. }
        unfold evaluate_single. rewrite Em, E1.
        destruct (equals_ok p Gp) as [(En & b & -> & B)|(N & ->)]; cbn [bind].
        + exists (Some b). split; auto. intros b' Q S. injection Q as <-. rewrite Sp. auto.
        + destruct (type_ok p Gp N) as (v & -> & B). cbn [bind]. destruct v as [b|]; [|exact K].
          exists (Some b). split; auto. intros b' Q S. injection Q as <-. rewrite Sp. auto.
      - assert (Gp : ground p).
        { rewrite Forall_forall in G. apply G. unfold lits. rewrite E1, E2. left; auto. }
        assert (Sp : forall S, conj_sat (truth objects S) c <-> ~ truth objects S (prop_key p)).
        { intros S. unfold conj_sat. rewrite E1, E2. split.
          - intros [_ H]. apply H; left; auto.
          - intros H. split; [intros q []|intros q [<-|[]]; auto]. }
        unfold evaluate_single. rewrite Em, E1.
        destruct (equals_ok p Gp) as [(En & b & -> & B)|(N & ->)]; cbn [bind negate_opt option_map].
        + exists (Some (negb b)). split; auto. intros b' Q S. injection Q as <-. rewrite Sp, <- (B S).
          destruct b; cbn; intuition congruence.
        + destruct (type_ok p Gp N) as (v & -> & B). cbn [bind]. destruct v as [b|]; [|exact K].
          cbn [negate_opt option_map].
          exists (Some (negb b)). split; auto. intros b' Q S. injection Q as <-. rewrite Sp, <- (B b eq_refl S).
          destruct b; cbn; intuition congruence.
    Qed.

    Lemma eval_total c : good ground c -> exists v, evaluate om None c = Ok v.
    Proof. intros G. destruct (eval_none c G) as (v & E & _). eauto. Qed.
    Lemma eval_sound c V b : good ground c -> Val V -> evaluate om None c = Ok (Some b) ->
      b = true <-> conj_sat V c.
    Proof. intros G [S ->] E. destruct (eval_none c G) as (v & E' & H). apply H. congruence. Qed.

    (** ** Create *)

    Lemma holds_conj S e gs : holds objects S e (GConj gs) <-> forall g, In g gs -> holds objects S e g.
    Proof.
      induction gs as [|g gs IH]; cbn.
      - split; auto. intros _ g [].
      - change (holds objects S e g /\ holds objects S e (GConj gs) <-> (forall g0, g = g0 \/ In g0 gs -> holds objects S e g0)).
        rewrite IH. split.
        + intros [H1 H2] x [<-|I]; auto.
        + intros H. split; auto.
    Qed.
    Lemma holds_disj S e gs : holds objects S e (GDisj gs) <-> exists g, In g gs /\ holds objects S e g.
    Proof.
      induction gs as [|g gs IH]; cbn.
      - split; [tauto|]. intros (g & [] & _).
      - change (holds objects S e g \/ holds objects S e (GDisj gs) <-> (exists g0, (g = g0 \/ In g0 gs) /\ holds objects S e g0)).
        rewrite IH. split.
        + intros [H|(x & I & H)]; eauto.
        + intros (x & [<-|I] & H); eauto.
    Qed.
    Lemma wf_all scope gs : wf_goal objects scope (GConj gs) -> forall g, In g gs -> wf_goal objects scope g.
    Proof.
      induction gs as [|g gs IH]; intros H x I; [destruct I|]. destruct H as [H1 H2].
      destruct I as [<-|I]; auto.
    Qed.
    Lemma declared_all gs : declared objects (GConj gs) -> forall g, In g gs -> declared objects g.
    Proof.
      induction gs as [|g gs IH]; intros H x I; [destruct I|]. destruct H as [H1 H2].
      destruct I as [<-|I]; auto.
    Qed.
    Lemma nondeg_all e gs : nondegenerate objects e (GConj gs) -> forall g, In g gs -> nondegenerate objects e g.
    Proof.
      induction gs as [|g gs IH]; intros H x I; [destruct I|]. destruct H as [H1 H2].
      destruct I as [<-|I]; auto.
    Qed.
    Lemma nondeg_disj e gs : nondegenerate objects e (GDisj gs) ->
      (forall g, In g gs -> nondegenerate objects e g /\ (simple g \/ ~ valid objects e g)) /\
      exists g, In g gs /\ (simple g \/ satisfiable objects e g).
    Proof.
      intros [H E]. split; auto. clear E. induction gs as [|g gs IH]; intros x I; [destruct I|].
      destruct H as [H1 H2]. destruct I as [<-|I]; auto.
    Qed.

    Lemma bind_In : forall vars objs e n, length vars = length objs -> In n (map oname vars) ->
      Forall (fun o => In o objects) objs -> In (bind_vars vars objs e n) objects.
    Proof.
      intros vars. induction vars as [|v vars IH]; intros [|o objs] e n L I F; try discriminate; [destruct I|].
      inversion F as [|? ? Fo Fs]; subst. cbn in L. injection L as L.
      unfold bind_vars. cbn [combine fold_left fst snd].
      fold (bind_vars vars objs (fun n => if String.eqb n (oname v) then o else e n)).
      destruct (in_dec string_dec n (map oname vars)) as [J|J]; [apply IH; auto|].
      destruct I as [<-|I]; [|tauto].
      assert (K : forall vars objs e, ~ In (oname v) (map oname vars) -> bind_vars vars objs e (oname v) = e (oname v)).
      { clear. intros vars. induction vars as [|w vars IH]; intros [|x objs] e H; auto.
        unfold bind_vars. cbn [combine fold_left fst snd].
        fold (bind_vars vars objs (fun n => if String.eqb n (oname w) then x else e n)).
        rewrite IH by (cbn in H; tauto). cbn in H. destruct (String.eqb_spec (oname v) (oname w)); auto.
        exfalso; auto. }
      rewrite K by auto. rewrite String.eqb_refl. auto.
    Qed.

    Lemma well_typed_In vars t : well_typed objects vars t -> Forall (fun o => In o objects) t.
    Proof. unfold well_typed. induction 1; constructor; tauto. Qed.

    Definition res_ok (P : (atom -> bool) -> Prop) (o : outcome (option dnf)) : Prop :=
      o = OutOfFuel \/
      exists r, o = Ok r /\ (forall d, r = Some d -> norm ground d) /\
        forall S, result_sat (truth objects (set_of S)) r <-> P S.

    Lemma collect_all {A} (f : A -> outcome (option dnf)) (P : A -> (atom -> bool) -> Prop) l :
      (forall a, In a l -> res_ok (P a) (f a)) ->
      collect true (fun a => one (f a)) l = OutOfFuel \/
      (collect true (fun a => one (f a)) l = Ok None /\ exists a, In a l /\ forall S, ~ P a S) \/
      (exists ds, collect true (fun a => one (f a)) l = Ok (Some ds) /\ Forall (norm ground) ds /\
         forall S, (forall d, In d ds -> dnf_sat (truth objects (set_of S)) d) <-> (forall a, In a l -> P a S)).
    Proof.
      induction l as [|a l IH]; intros H; cbn [collect].
      - right; right. exists []. split; auto. split; [constructor|]. intros S; split; intros _ x [].
      - destruct (H a (or_introl eq_refl)) as [E|(r & E & N & S)].
        + left. unfold one. rewrite E. auto.
        + unfold one at 1 3 5. rewrite E. cbn [bind option_map]. destruct r as [d|]; cbn [option_map].
          * destruct (IH (fun x I => H x (or_intror I))) as [E'|[(E' & x & I & Q)|(ds & E' & Nd & Sd)]]; cbn [collect] in E'.
            -- left. rewrite E'. auto.
            -- right; left. rewrite E'. cbn. split; auto. exists x. split; [right|]; auto.
            -- right; right. exists (d :: ds). rewrite E'. split; auto. split; [constructor; auto|].
               intros S0. specialize (S S0). specialize (Sd S0). cbn [In result_sat] in *. split.
               ++ intros K x [<-|I]; [apply S; auto|]. apply Sd; auto.
               ++ intros K x [<-|I]; [apply S; auto|]. apply Sd; auto.
          * right; left. split; auto. exists a. split; [left; auto|]. intros S0 Q. apply S in Q. destruct Q.
    Qed.

    Lemma collect_cons {A} stop (f : A -> outcome (option dnf)) a l :
      collect stop (fun a => one (f a)) (a :: l) =
      let* r := f a in
      match r with
      | None => if stop then Ok None else collect stop (fun a => one (f a)) l
      | Some d => let* rest := collect stop (fun a => one (f a)) l in Ok (option_map (cons d) rest)
      end.
    Proof. cbn [collect]. unfold one at 1. destruct (f a) as [[d|]| | | |]; reflexivity. Qed.

    Lemma collect_some {A} (f : A -> outcome (option dnf)) (P : A -> (atom -> bool) -> Prop) l :
      (forall a, In a l -> res_ok (P a) (f a)) ->
      collect false (fun a => one (f a)) l = OutOfFuel \/
      (exists ds, collect false (fun a => one (f a)) l = Ok (Some ds) /\ Forall (norm ground) ds /\
         (forall d, In d ds -> exists a, In a l /\ f a = Ok (Some d) /\
            forall S, dnf_sat (truth objects (set_of S)) d <-> P a S) /\
         (forall a, In a l -> (exists d, In d ds /\ f a = Ok (Some d) /\
            forall S, dnf_sat (truth objects (set_of S)) d <-> P a S) \/
            (f a = Ok None /\ forall S, ~ P a S))).
    Proof.
      induction l as [|a l IH]; intros H.
      - right. exists []. split; auto. split; [constructor|]. split; intros x [].
      - destruct (H a (or_introl eq_refl)) as [E|(r & E & N & S)].
        + left. rewrite collect_cons, E. auto.
        + rewrite collect_cons, E. cbn [bind].
          destruct (IH (fun x I => H x (or_intror I))) as [E'|(ds & E' & Nd & Sd & Td)].
          * left. destruct r as [d|]; rewrite E'; auto.
          * right. destruct r as [d|]; rewrite E'.
            -- exists (d :: ds). split; auto. split; [constructor; auto|]. split.
               ++ intros x [<-|I].
                  ** exists a. split; [left; auto|]. split; auto.
                  ** destruct (Sd x I) as (y & J & Q). exists y. split; [right|]; auto.
               ++ intros x [<-|I].
                  ** left. exists d. split; [left; auto|]. split; auto.
                  ** destruct (Td x I) as [(y & J & Q)|Q]; auto. left. exists y. split; [right|]; auto.
            -- exists ds. split; auto. split; auto. split.
               ++ intros x I. destruct (Sd x I) as (y & J & Q). exists y. split; [right|]; auto.
               ++ intros x [<-|I].
                  ** right. split; auto. intros S0 Q. apply S in Q. destruct Q.
                  ** destruct (Td x I) as [(y & J & Q)|Q]; auto.
    Qed.

    Lemma conj_create {A} (f : A -> outcome (option dnf)) (P : A -> (atom -> bool) -> Prop) l :
      (forall a, In a l -> res_ok (P a) (f a)) ->
      res_ok (fun S => forall a, In a l -> P a S) (and_then (collect true (fun a => one (f a)) l) (conjoin om None)).
    Proof.
      intros H. destruct (collect_all f P l H) as [E|[(E & a & I & Q)|(ds & E & N & S)]]; unfold and_then; rewrite E; cbn [bind].
      - left; auto.
      - right. exists None. split; auto. split; [discriminate|]. intros S. cbn. split; [tauto|].
        intros K. exact (Q S (K a I)).
      - destruct (conjoin_ok om None ground Val eval_total eval_sound ds) as [E'|(r & E' & Sr & Pr)].
        + eapply Forall_impl; [|exact N]. intros d [G _]; auto.
        + left; auto.
        + right. exists r. split; auto. split.
          * intros d Q. destruct (Pr d Q) as (G & NE & _). split; auto. apply NE.
            eapply Forall_impl; [|exact N]. apply (norm_nonempty ground).
          * intros S0. rewrite (Sr _ (ex_intro _ S0 eq_refl)). apply S.
    Qed.

    Lemma disj_create {A} (f : A -> outcome (option dnf)) (P : A -> (atom -> bool) -> Prop) l :
      (forall a, In a l -> res_ok (P a) (f a)) ->
      (forall a, In a l -> (exists d, f a = Ok (Some d) /\ d <> []) \/ ~ (forall S, P a S)) ->
      (exists a, In a l /\ ((exists d, f a = Ok (Some d) /\ d <> []) \/ exists S, P a S)) ->
      res_ok (fun S => exists a, In a l /\ P a S) (and_then (collect false (fun a => one (f a)) l) (disjoin om None)).
    Proof.
      intros H NV EX. destruct (collect_some f P l H) as [E|(ds & E & N & Sd & Td)]; unfold and_then; rewrite E; cbn [bind].
      - left; auto.
      - destruct (disjoin_ok om None ground Val eval_total eval_sound ds) as (r & E' & Sr & Pr).
        { eapply Forall_impl; [|exact N]. intros d [G _]; auto. }
        assert (NEd : forall d, In d ds -> d <> []).
        { intros d I ->. destruct (Sd [] I) as (a & Ia & Ea & Q).
          destruct (NV a Ia) as [(d & Q' & NE)|NV']; [congruence|]. apply NV'. intros S. apply Q. left; auto. }
        right. exists r. split; auto. split.
        + intros d Q. destruct (Pr d Q) as (G & NE & _). split; auto. apply NE.
          eapply Forall_impl; [|exact N]. apply (norm_nonempty ground).
        + intros S0. rewrite (Sr _ (ex_intro _ S0 eq_refl)). split.
          * intros [C|(d & I & Q)].
            -- exfalso. destruct EX as (a & Ia & HA).
               assert (Q : exists d, In d ds).
               { destruct (Td a Ia) as [(d & I & _)|(Ea & Q)]; eauto. destruct HA as [(d & Q' & _)|(S & Q')]; [congruence|].
                 destruct (Q S Q'). }
               destruct Q as (d & I). destruct d as [|c d]; [destruct (NEd [] I eq_refl)|].
               assert (In c (concat ds)) by (apply in_concat; exists (c :: d); cbn; auto). rewrite C in *. tauto.
            -- destruct (Sd d I) as (a & Ia & _ & Qa). exists a. split; auto. apply Qa. right; auto.
          * intros (a & Ia & Q). right. destruct (Td a Ia) as [(d & I & _ & Qd)|(_ & Q')]; [|destruct (Q' _ Q)].
            exists d. split; auto. apply Qd in Q. destruct Q as [->|Q]; auto. destruct (NEd [] I eq_refl).
    Qed.

    Lemma res_ok_ext P Q o : (forall S, P S <-> Q S) -> res_ok P o -> res_ok Q o.
    Proof.
      intros E [H|(r & H & N & S)]; [left; auto|]. right. exists r. split; auto. split; auto.
      intros S0. rewrite S. auto.
    Qed.

    Lemma create_simple ax g params args : length params = length args ->
      wf_goal objects (map oname params) g -> simple g ->
      exists d, create_goal om ax g params args = Ok (Some d) /\ d <> [].
    Proof.
      intros L Wf Sm. destruct g; try destruct Sm. destruct Wf as [Fa _]. cbn [create_goal].
      rewrite (app_fun_denote _ _ _ (fun _ => null_object) L Fa). cbn. eexists. split; [reflexivity|discriminate].
    Qed.

    Theorem create_ok g : forall params args e, length params = length args ->
      Forall (fun o => In o objects) args ->
      wf_goal objects (map oname params) g -> declared objects g -> (forall n, In n (goal_preds g) -> allowed n) ->
      nondegenerate objects (bind_vars params args e) g ->
      res_ok (fun S => holds objects (set_of S) (bind_vars params args e) g) (create_goal om None g params args).
    Proof.
      induction g as [n l|gs IH|gs IH|g IH|vs g IH|vs g IH|] using goal_ind'; intros params args e L Ia Wf D Qg Nd.
      - destruct Wf as [Fa Ar]. cbn [create_goal holds]. rewrite (app_fun_denote _ _ _ e L Fa). cbn [bind].
        set (l' := map (denote (bind_vars params args e)) l).
        assert (Il : Forall (fun o => In o objects) l').
        { unfold l'. rewrite Forall_forall. intros o I. apply in_map_iff in I. destruct I as (x & <- & I).
          cbn in D. rewrite Forall_forall in D, Fa. specialize (Fa x I). unfold arg_ok in Fa. unfold denote.
          specialize (D x I). destruct (okind x); auto. apply bind_In; auto. }
        right. eexists. split; [reflexivity|]. split.
        + intros d Q. injection Q as <-. destruct (of_list_one (mkProp n l')) as [W1 E1]. split.
          * constructor; [|constructor]. split; [split; auto; apply st_empty_wf|].
            unfold lits. cbn [ps_pos ps_neg]. rewrite E1. constructor; [|constructor]. split; [|split; auto].
            -- cbn. unfold l'. unfold arity_ok in *. rewrite map_length. auto.
            -- apply Qg. cbn. auto.
          * constructor; [|constructor]. apply solid_one.
        + intros S. cbn [result_sat]. unfold dnf_sat, list_sat. rewrite <- truth_atom by auto. split.
          * intros [|(c & [<-|[]] & Q)]; [discriminate|]. apply one_pos in Q. exact Q.
          * intros H. right. eexists. split; [left; reflexivity|]. apply one_pos. exact H.
      - cbn [create_goal]. eapply res_ok_ext; [intros S; symmetry; apply holds_conj|].
        apply (conj_create (fun g => create_goal om None g params args) (fun g S => holds objects (set_of S) (bind_vars params args e) g)).
        intros g I. rewrite Forall_forall in IH. apply IH; auto.
        + apply (wf_all _ gs); auto.
        + apply (declared_all gs); auto.
        + intros n I'. apply Qg. cbn. apply in_flat_map. eauto.
        + apply (nondeg_all _ gs); auto.
      - cbn [create_goal]. eapply res_ok_ext; [intros S; symmetry; apply holds_disj|].
        apply nondeg_disj in Nd. destruct Nd as [Nd Ex].
        apply (disj_create (fun g => create_goal om None g params args) (fun g S => holds objects (set_of S) (bind_vars params args e) g)).
        + intros g I. rewrite Forall_forall in IH. apply IH; auto.
          * apply (wf_all _ gs); auto.
          * apply (declared_all gs); auto.
          * intros n I'. apply Qg. cbn. apply in_flat_map. eauto.
          * apply Nd; auto.
        + intros g I. destruct (Nd g I) as [_ [Sm|V]]; [left|right; auto].
          apply create_simple; auto. apply (wf_all _ gs); auto.
        + destruct Ex as (g & I & [Sm|V]); exists g; (split; [auto|]); [left|right; exact V].
          apply create_simple; auto. apply (wf_all _ gs); auto.
      - cbn [create_goal holds]. destruct Nd as [Nd NV]. cbn [wf_goal declared] in *.
        destruct (IH params args e L Ia Wf D Qg Nd) as [E|(r & E & N & S)]; rewrite E; cbn [bind]; [left; auto|].
        destruct r as [d|].
        + destruct (negate_ok om ground Val eval_total eval_sound truth_dec d (N d eq_refl)) as [E'|(r & E' & Sr & Pr)].
          * left; auto.
          * right. exists r. split; auto. split; [intros d' Q; apply (Pr d' Q)|].
            intros S0. rewrite (Sr _ (ex_intro _ S0 eq_refl)), <- (S S0). cbn [result_sat]. unfold dnf_sat.
            assert (NE : d <> []).
            { intros ->. destruct NV as [Sm|NV].
              - destruct (create_simple None g params args L Wf Sm) as (d & Q & NE). congruence.
              - apply NV. intros S'. apply S. left; auto. }
            tauto.
        + right. exists (Some []). split; auto. split; [intros d Q; injection Q as <-; split; constructor|].
          intros S0. rewrite <- (S S0). cbn. split; auto. intros _. left; auto.
      - destruct Wf as (Nv & C & Wf). cbn [create_goal holds].
        destruct (tuples_ok objects vs W Nv C) as (ts & T & I). fold om in T. rewrite T. cbn [bind].
        eapply res_ok_ext; [|apply (conj_create (fun t => create_goal om None g (params ++ vs) (args ++ t))
          (fun t S => holds objects (set_of S) (bind_vars (params ++ vs) (args ++ t) e) g))].
        + intros S. cbn beta. split; intros H t It; apply I in It; specialize (H t It); rewrite bind_vars_app in * by auto; auto.
        + intros t It. apply I in It. apply IH; auto.
          * rewrite !app_length. apply FormulaFacts.well_typed_length in It. lia.
          * apply Forall_app. split; auto. eapply well_typed_In; eauto.
          * rewrite map_app. auto.
          * rewrite bind_vars_app by auto. apply Nd; auto.
      - destruct Wf as (Nv & C & Wf). cbn [create_goal holds]. destruct Nd as [Nd Ex].
        destruct (tuples_ok objects vs W Nv C) as (ts & T & I). fold om in T. rewrite T. cbn [bind].
        assert (Ln : forall t, In t ts -> length (params ++ vs) = length (args ++ t)).
        { intros t It. rewrite !app_length. apply I, FormulaFacts.well_typed_length in It. lia. }
        eapply res_ok_ext; [|apply (disj_create (fun t => create_goal om None g (params ++ vs) (args ++ t))
          (fun t S => holds objects (set_of S) (bind_vars (params ++ vs) (args ++ t) e) g))].
        + intros S. cbn beta. split; intros (t & It & H); exists t; rewrite bind_vars_app in * by auto; split; auto; apply I; auto.
        + intros t It. pose proof (Ln t It). apply I in It. apply IH; auto.
          * apply Forall_app. split; auto. eapply well_typed_In; eauto.
          * rewrite map_app. auto.
          * rewrite bind_vars_app by auto. apply Nd; auto.
        + intros t It. pose proof (Ln t It). apply I in It. destruct (Nd t It) as [_ [Sm|V]]; [left|right].
          * apply create_simple; auto. rewrite map_app; auto.
          * rewrite bind_vars_app by auto. exact V.
        + destruct Ex as (t & It & H). exists t. apply I in It. split; auto. pose proof (Ln t It).
          destruct H as [Sm|[S V]]; [left|right].
          * apply create_simple; auto. rewrite map_app; auto.
          * exists S. rewrite bind_vars_app by auto. exact V.
      - destruct Wf.
    Qed.
  End Goal.
End WithHash.
