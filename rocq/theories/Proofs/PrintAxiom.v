(** Facts about the text of axioms. *)
From Coq Require Import Ascii String List Bool Arith ZArith Lia.
From Verif.Model Require Import Base Object Proposition HashSet State CombinationGenerator
  ParameterGenerator Syntax Formula Text NormalForm Planner Print.
From Verif.Spec Require Import SetSpec CartesianSpec TypingSpec FormulaSpec EffectSpec TextSpec ProblemSpec PrintSpec.
From Verif.Proofs Require Import OrderFacts HashSetFacts StateFacts StateHistory CombinationFacts FormulaFacts TextFacts NormalFormFacts NormalFormGoal EffectTheorems.
Import ListNotations.
Local Open Scope string_scope.
Local Open Scope list_scope.
Local Infix "+++" := String.append (at level 60, right associativity).

Section WithHash.
  Context `{SH : StdHash}.

  (** The parameters stand for themselves. *)
  Lemma lookup_self x : forall ps cur, oname cur = oname x -> oname (lookup_last x ps ps cur) = oname x.
  Proof.
    induction ps as [|p ps IH]; intros cur E; [exact E|]. unfold lookup_last. cbn [combine fold_left fst snd].
    destruct (obj_eqb x p) eqn:O; apply IH; auto. apply obj_eqb_ok in O. auto.
  Qed.
  Lemma self_app params xs : exists xs', app_fun params xs params = Ok xs' /\ map oname xs' = map oname xs.
  Proof.
    rewrite app_fun_lookup by auto. eexists. split; [reflexivity|]. rewrite map_map. apply map_ext. intros x. apply lookup_self; auto.
  Qed.

  Lemma insert_built p s : built s -> built (snd (st_insert p s)).
  Proof. intros B. exact (built_run_from s [Ins p] B). Qed.
  Lemma empty_built : built st_empty. Proof. exists []. reflexivity. Qed.
  Lemma range_built l s : built s -> built (snd (st_insert_range l s)).
  Proof.
    unfold st_insert_range. generalize false. revert s. induction l as [|p l IH]; intros s b B; cbn [fold_left]; auto.
    cbn [fst snd]. pose proof (insert_built p s B) as B'. destruct (st_insert p s) as [c s']. apply IH. exact B'.
  Qed.
  Lemma merge_built c : built_partial (merge [c]).
  Proof. unfold merge. cbn [fold_left]. split; apply range_built, empty_built. Qed.
  Lemma merge_mem c : (forall a, mem (ps_pos (merge [c])) a <-> mem (ps_pos c) a) /\ (forall a, mem (ps_neg (merge [c])) a <-> mem (ps_neg c) a).
  Proof.
    unfold merge. cbn [fold_left ps_pos ps_neg ps_empty]. pose proof st_empty_wf as W. split; intros a.
    - destruct (insert_range_spec (st_elements (ps_pos c)) st_empty W) as (_ & M & _). rewrite M. unfold mem at 1. cbn. tauto.
    - destruct (insert_range_spec (st_elements (ps_neg c)) st_empty W) as (_ & M & _). rewrite M. unfold mem at 1. cbn. tauto.
  Qed.

  Lemma literals_self params ps : exists s, literals ps params params = Ok s /\ built s /\
    forall a, mem s a <-> exists p, In p ps /\ prop_key p = a.
  Proof.
    unfold literals.
    assert (K : forall ps s0, built s0 -> exists s, foldM (fun s p => let* l := app_fun params (pargs p) params in
        Ok (snd (st_insert (mkProp (pname p) l) s))) ps s0 = Ok s /\ built s /\
        forall a, mem s a <-> mem s0 a \/ exists p, In p ps /\ prop_key p = a).
    { clear ps. induction ps as [|p ps IH]; intros s0 B; cbn [foldM].
      - exists s0. split; auto. split; auto. intros a. split; auto. intros [H|(p & [] & _)]; auto.
      - destruct (self_app params (pargs p)) as (l & -> & E). cbn [bind].
        destruct (IH _ (insert_built (mkProp (pname p) l) s0 B)) as (s & F & Bs & M). exists s. split; auto. split; auto.
        destruct (insert_spec (mkProp (pname p) l) s0 (built_wf s0 B)) as (_ & _ & Mi & _).
        intros a. rewrite M, Mi. replace (prop_key (mkProp (pname p) l)) with (prop_key p) by (unfold prop_key; cbn; rewrite E; reflexivity).
        cbn [In]. split.
        + intros [[->|H]|(q & I & H)]; eauto.
        + intros [H|(q & [<-|I] & H)]; eauto. }
    destruct (K ps st_empty empty_built) as (s & E & B & M). exists s. split; auto. split; auto.
    intros a. rewrite M. split; auto. intros [[]|]; auto.
  Qed.

  Section Conjoin.
    Variable om : object_map.
    Definition plain_name (n : string) : Prop := n <> "=" /\ om_find om n = None.

    Lemma evaluate_plain c : ps_wf c -> (forall a, mem (ps_pos c) a \/ mem (ps_neg c) a -> plain_name (fst a)) ->
      evaluate om None c = Ok (if ps_is_consistent c then None else Some false).
    Proof.
      intros [Wp Wn] P. unfold evaluate.
      assert (K : (if Nat.eqb (ps_size c) 1 then
                 let* e := evaluate_single evaluate_equals c in
                 match e with Some b => Ok (Some b) | None => evaluate_single (evaluate_type om) c end
               else Ok None) = Ok None).
      { destruct (Nat.eqb (ps_size c) 1) eqn:Z; [|reflexivity]. apply Nat.eqb_eq in Z.
        unfold ps_size in Z. rewrite !st_size_elements in Z by auto. unfold evaluate_single, st_is_empty. rewrite !st_size_elements by auto.
        assert (Q : forall p, In p (st_elements (ps_pos c)) \/ In p (st_elements (ps_neg c)) -> plain_name (pname p)).
        { intros p H. apply (P (prop_key p)). destruct H; [left|right]; apply in_map; auto. }
        assert (R : forall p, plain_name (pname p) -> evaluate_equals p = Ok None /\ evaluate_type om p = Ok None).
        { intros p [N F]. unfold evaluate_equals, evaluate_type. rewrite F. apply String.eqb_neq in N. rewrite N. auto. }
        destruct (st_elements (ps_neg c)) as [|q l]; cbn [length Nat.eqb].
        - destruct (st_elements (ps_pos c)) as [|p l]; [cbn in Z; lia|].
          destruct (R p) as [-> ->]; [apply Q; cbn; auto|]. reflexivity.
        - destruct (R q) as [-> ->]; [apply Q; cbn; auto|]. reflexivity. }
      rewrite K. cbn [bind]. destruct (ps_is_consistent c); reflexivity.
    Qed.

    Lemma conjoin_one c : built_partial c -> (forall a, mem (ps_pos c) a \/ mem (ps_neg c) a -> plain_name (fst a)) ->
      (exists a, mem (ps_pos c) a /\ mem (ps_neg c) a) /\ conjoin om None [[c]] = Ok None \/
      (forall a, mem (ps_pos c) a -> ~ mem (ps_neg c) a) /\ exists c', conjoin om None [[c]] = Ok (Some [c']) /\ built_partial c' /\
        (forall a, mem (ps_pos c') a <-> mem (ps_pos c) a) /\ (forall a, mem (ps_neg c') a <-> mem (ps_neg c) a).
    Proof.
      intros B P. destruct (merge_mem c) as [Mp Mn]. pose proof (merge_built c) as Bm.
      assert (W : ps_wf (merge [c])) by (split; apply built_wf, Bm).
      assert (E : conjoin om None [[c]] = simplify om None [merge [c]]).
      { unfold conjoin. change (filter _ [[c]]) with [[c]].
        destruct (combos_ok [[c]]) as (combos & E & H); [cbn; lia|]. change (opts_of [[c]]) with [[c]] in *.
        change (combo_count [[c]] <? 2 ^ 31)%Z with true. cbn iota.
        destruct (make_gen [[c]]) as [g| | | |]; try discriminate E. cbn [bind] in *. rewrite E. cbn [bind].
        destruct H as [[H _]|[_ ->]]; [discriminate H|]. reflexivity. }
      assert (V : evaluate om None (merge [c]) = Ok (if ps_is_consistent (merge [c]) then None else Some false)).
      { apply evaluate_plain; auto. intros a H. apply P. rewrite Mp, Mn in H. exact H. }
      rewrite E. unfold simplify. cbn [simplify_loop]. rewrite V. cbn [bind].
      destruct (ps_is_consistent (merge [c])) eqn:C.
      - right. apply ps_consistent_spec in C; auto. split.
        + intros a Ha Hb. apply (C a); [apply Mp|apply Mn]; auto.
        + cbn [bind try_insert_subset existsb app]. exists (merge [c]). split; [reflexivity|]. auto.
      - left. split; [|reflexivity].
        destruct (existsb (fun p => st_contains (ps_neg (merge [c])) p) (st_elements (ps_pos (merge [c])))) eqn:X.
        + apply existsb_exists in X as (p & I & X). exists (prop_key p). split; [apply Mp; apply in_map; exact I|].
          apply Mn. apply contains_mem; auto. apply W.
        + exfalso. unfold ps_is_consistent in C. apply not_true_iff_false in C. apply C. apply forallb_forall. intros p I.
          apply negb_true_iff. destruct (st_contains _ p) eqn:Y; auto. exfalso. apply not_true_iff_false in X. apply X. apply existsb_exists. eauto.
    Qed.
  End Conjoin.

  (** Context and effects of the usual axioms. *)
  Lemma context_dnf om params (sign : bool) n xs : plain_name om n ->
    exists c, create_goal om None (if sign then GSimple n xs else GNeg (GSimple n xs)) params params = Ok (Some [c]) /\ built_partial c /\
      (forall a, mem (ps_pos c) a <-> sign = true /\ a = (n, map oname xs)) /\
      (forall a, mem (ps_neg c) a <-> sign = false /\ a = (n, map oname xs)).
  Proof.
    intros P. destruct (self_app params xs) as (l & E & N).
    destruct (of_list_one (mkProp n l)) as [W L].
    assert (B : built (st_of_list [mkProp n l])) by exact (insert_built _ _ empty_built).
    assert (K : prop_key (mkProp n l) = (n, map oname xs)) by (unfold prop_key; cbn; rewrite N; reflexivity).
    assert (M1 : forall a, mem (st_of_list [mkProp n l]) a <-> a = (n, map oname xs)).
    { intros a. unfold mem. rewrite L. cbn [map In]. rewrite K. split; [intros [H|[]]; auto|auto]. }
    assert (M0 : forall a, mem st_empty a <-> False) by (intros a; split; [intros []|tauto]).
    destruct sign; cbn [create_goal].
    - rewrite E. cbn [bind]. eexists. split; [reflexivity|]. split; [split; [exact B|apply empty_built]|]. cbn [ps_pos ps_neg].
      split; intros a; rewrite ?M1, ?M0; intuition discriminate.
    - rewrite E. cbn [bind]. unfold negate. cbn [map ps_pos ps_neg]. unfold convert. cbn [ps_pos ps_neg]. rewrite L.
      change (st_elements st_empty) with (@nil prop). cbn [map app].
      destruct (conjoin_one om (mkPS st_empty (st_of_list [mkProp n l]))) as [[(a & A1 & _) _]|(_ & c & Ec & Bc & Mp & Mn)].
      + split; [apply empty_built|exact B].
      + cbn [ps_pos ps_neg]. intros a [H|H]; [destruct H|]. apply M1 in H. subst. exact P.
      + destruct A1.
      + exists c. split; auto. split; auto. cbn [ps_pos ps_neg] in *.
        split; intros a; [rewrite Mp|rewrite Mn]; rewrite ?M1, ?M0; intuition discriminate.
  Qed.
  Lemma effects_dnf om params adds dels : adds ++ dels <> [] -> (forall p, In p (adds ++ dels) -> plain_name om (pname p)) ->
    (exists p q, In p adds /\ In q dels /\ prop_key p = prop_key q) /\
      create_effs om None (Effs [] adds dels []) params params = Ok None \/
    (~ exists p q, In p adds /\ In q dels /\ prop_key p = prop_key q) /\
      exists c, create_effs om None (Effs [] adds dels []) params params = Ok (Some [c]) /\ built_partial c /\
      (forall a, mem (ps_pos c) a <-> exists p, In p adds /\ prop_key p = a) /\
      (forall a, mem (ps_neg c) a <-> exists p, In p dels /\ prop_key p = a).
  Proof.
    intros NE P. destruct (literals_self params adds) as (s & Es & Bs & Ms). destruct (literals_self params dels) as (t & Et & Bt & Mt).
    assert (D : create_effs om None (Effs [] adds dels []) params params = conjoin om None [[mkPS s t]]).
    { cbn [create_effs collect and_then bind]. rewrite Es, Et. cbn [bind mapM concat app].
      assert (X : st_is_empty s && st_is_empty t = false).
      { apply not_true_iff_false. intros H. apply andb_true_iff in H as [H1 H2]. unfold st_is_empty in *.
        apply Nat.eqb_eq in H1. apply Nat.eqb_eq in H2. rewrite st_size_elements in H1, H2 by (apply built_wf; auto).
        apply length_zero_iff_nil in H1. apply length_zero_iff_nil in H2. apply NE.
        destruct adds as [|p l]; [|exfalso; assert (Q : mem s (prop_key p)) by (apply Ms; exists p; cbn; auto); unfold mem in Q; rewrite H1 in Q; destruct Q].
        destruct dels as [|p l]; [reflexivity|exfalso; assert (Q : mem t (prop_key p)) by (apply Mt; exists p; cbn; auto); unfold mem in Q; rewrite H2 in Q; destruct Q]. }
      rewrite X. reflexivity. }
    rewrite D. destruct (conjoin_one om (mkPS s t)) as [[(a & A1 & A2) E]|(N & c & E & Bc & Mp & Mn)].
    - split; auto.
    - cbn [ps_pos ps_neg]. intros a [H|H]; [apply Ms in H|apply Mt in H]; destruct H as (p & I & <-); apply P; apply in_app_iff; auto.
    - left. split; auto. apply Ms in A1 as (p & I & Ep). apply Mt in A2 as (q & J & Eq). exists p, q. split; auto. split; auto. congruence.
    - right. split.
      + intros (p & q & I & J & K). cbn [ps_pos ps_neg] in N. apply (N (prop_key p)); [apply Ms; eauto|apply Mt; eauto].
      + exists c. split; auto. split; auto. cbn [ps_pos ps_neg] in *. split; intros a; [rewrite Mp; apply Ms|rewrite Mn; apply Mt].
  Qed.

  Lemma plain_ordinary objects n : Forall (fun o => wf_type (otype o)) objects -> ordinary objects n ->
    plain_name (create_object_map objects) n.
  Proof.
    intros W [N T]. split; auto. destruct (om_find (create_object_map objects) n) eqn:F; auto.
    exfalso. apply T. apply (om_find_type objects n W). eauto.
  Qed.

  Lemma C69_lemma objects : Forall (fun o => wf_type (otype o)) objects ->
    forall (o : op) (sign : bool) n xs adds dels,
    op_pre o = (if sign then GSimple n xs else GNeg (GSimple n xs)) -> op_effs o = Effs [] adds dels [] ->
    ordinary objects n -> adds ++ dels <> [] -> (forall p, In p (adds ++ dels) -> ordinary objects (pname p)) ->
    (axiom_text (create_object_map objects) o = UB <-> exists p q, In p adds /\ In q dels /\ prop_key p = prop_key q) /\
    ((~ exists p q, In p adds /\ In q dels /\ prop_key p = prop_key q) ->
     exists ctx c, built_partial ctx /\ built_partial c /\
       axiom_text (create_object_map objects) o =
         Ok ("axiom(" +++ String.concat ", " (map oname (op_params o)) +++ "): " +++ dnf_text [ctx] +++ " => " +++ dnf_text [c]) /\
       (forall a, atoms (ps_pos ctx) a <-> sign = true /\ a = (n, map oname xs)) /\
       (forall a, atoms (ps_neg ctx) a <-> sign = false /\ a = (n, map oname xs)) /\
       (forall a, atoms (ps_pos c) a <-> exists p, In p adds /\ prop_key p = a) /\
       (forall a, atoms (ps_neg c) a <-> exists p, In p dels /\ prop_key p = a)).
  Proof.
    intros W o sign n xs adds dels Eg Ee N NE P.
    destruct (context_dnf (create_object_map objects) (op_params o) sign n xs (plain_ordinary objects n W N)) as (ctx & Ec & Bc & Cp & Cn).
    unfold axiom_text. rewrite Eg, Ee, Ec. cbn [nf_or_false bind].
    destruct (effects_dnf (create_object_map objects) (op_params o) adds dels NE) as [[X E]|[X (c & E & B & Ep & En)]].
    { intros p I. apply plain_ordinary; auto. }
    - rewrite E. cbn [nf_or_false bind]. split; [tauto|]. intros Y. tauto.
    - rewrite E. cbn [nf_or_false bind]. split; [split; [discriminate|tauto]|]. intros _. exists ctx, c. split; auto. split; auto. split.
      + unfold print_call. cbn [String.append]. rewrite !app_assoc_s. reflexivity.
      + destruct Bc as [B1 B2], B as [B3 B4]. split; [|split; [|split]]; intros a; rewrite atoms_mem by (apply built_wf; auto);
          [apply Cp|apply Cn|apply Ep|apply En].
  Qed.
End WithHash.
