(** Normal forms of effects (C59). *)
From Coq Require Import String List Bool NArith ZArith Arith Lia Permutation.
From Verif.Model Require Import Base Order HashSet Object Proposition State CombinationGenerator
  ParameterGenerator Syntax Formula NormalForm.
From Verif.Spec Require Import SetSpec CartesianSpec TypingSpec FormulaSpec EffectSpec NormalFormSpec.
From Verif.Proofs Require Import OrderFacts HashSetFacts StateFacts StateHistory CombinationFacts ParameterFacts
  FormulaFacts EffectLink NormalFormFacts NormalFormGoal.
Import ListNotations.
Local Open Scope string_scope.
Local Open Scope list_scope.

Section WithHash.
  Context `{SH : StdHash}.
  Variable objects : list object.
  Hypothesis W : Forall (fun o => wf_type (otype o)) objects.
  Hypothesis ND : NoDup (map oname objects).
  Hypothesis KC : Forall (fun o => okind o = KConst) objects.
  Let om := create_object_map objects.
  Let any (n : string) : Prop := True.
  Let grd := ground objects any.
  Let V (S : atom -> bool) := truth objects (set_of S).

  Lemma literals_ok ps params args e : length params = length args ->
    Forall (fun o => In o objects) args ->
    Forall (fun p => Forall (arg_ok (map oname params)) (pargs p) /\ arity_ok objects (pname p) (pargs p)) ps ->
    Forall (fun p => Forall (fun x => okind x = KConst -> In x objects) (pargs p)) ps ->
    exists s, literals ps params args = Ok s /\ st_wf s /\ Forall grd (st_elements s) /\
      (forall a, mem s a <-> exists p, In p ps /\ a = (pname p, map oname (map (denote (bind_vars params args e)) (pargs p)))) /\
      (forall S a, mem s a -> exists p, In p ps /\ a = (pname p, map oname (map (denote (bind_vars params args e)) (pargs p))) /\
         (V S a <-> atom_holds objects (set_of S) (pname p) (map (denote (bind_vars params args e)) (pargs p)))).
  Proof.
    intros L Ia F D. unfold literals.
    assert (K : forall ps s0, st_wf s0 -> Forall grd (st_elements s0) ->
      Forall (fun p => Forall (arg_ok (map oname params)) (pargs p) /\ arity_ok objects (pname p) (pargs p)) ps ->
      Forall (fun p => Forall (fun x => okind x = KConst -> In x objects) (pargs p)) ps ->
      exists s, foldM (fun s p => let* l := app_fun params (pargs p) args in
                         Ok (snd (st_insert (mkProp (pname p) l) s))) ps s0 = Ok s /\ st_wf s /\ Forall grd (st_elements s) /\
        forall a, mem s a <-> mem s0 a \/ exists p, In p ps /\ a = (pname p, map oname (map (denote (bind_vars params args e)) (pargs p)))).
    { clear F D. intros l. induction l as [|p l IH]; intros s0 W0 G0 F D; cbn [foldM].
      - exists s0. split; auto. split; auto. split; auto. intros a. split; auto. intros [H|(p & [] & _)]; auto.
      - inversion F as [|? ? [Fa Ar] F']; subst. inversion D as [|? ? Da D']; subst.
        rewrite (app_fun_denote _ _ _ e L Fa). cbn [bind].
        set (l' := map (denote (bind_vars params args e)) (pargs p)).
        destruct (insert_spec (mkProp (pname p) l') s0 W0) as (W1 & _ & M & _).
        assert (Gp : grd (mkProp (pname p) l')).
        { split; [|split].
          - cbn. unfold l', arity_ok in *. rewrite map_length. auto.
          - cbn. unfold l'. rewrite Forall_forall in *. intros o I. apply in_map_iff in I. destruct I as (x & <- & I).
            specialize (Fa x I). unfold arg_ok in Fa. unfold denote. specialize (Da x I).
            destruct (okind x); auto. apply bind_In; auto. rewrite Forall_forall; auto.
          - exact I. }
        destruct (IH (snd (st_insert (mkProp (pname p) l') s0)) W1) as (s & E & Ws & Gs & Ms); auto.
        + rewrite Forall_forall in *. intros q I. apply insert_elements in I; auto. destruct I as [->|I]; auto.
        + exists s. split; auto. split; auto. split; auto. intros a. rewrite Ms, M. unfold prop_key. cbn [pname pargs].
          cbn [In]. split.
          * intros [[->|H]|(q & I & H)]; auto.
            -- right. exists p. auto.
            -- right. exists q. auto.
          * intros [H|(q & [<-|I] & H)]; auto. right. exists q; auto. }
    destruct (K ps st_empty st_empty_wf (Forall_nil _) F D) as (s & E & Ws & Gs & Ms).
    assert (Ms' : forall a, mem s a <-> exists p, In p ps /\ a = (pname p, map oname (map (denote (bind_vars params args e)) (pargs p)))).
    { intros a. rewrite Ms. split; auto. intros [[]|]; auto. }
    exists s. split; auto. split; auto. split; auto. split; auto.
    intros S a M. pose proof (proj1 (Ms' a) M) as (p & I & ->). exists p. split; auto. split; auto.
    unfold V. apply truth_atom; auto.
    rewrite Forall_forall in *. intros o Io. apply in_map_iff in Io. destruct Io as (x & <- & Ix).
    destruct (F p I) as [Fa _]. specialize (D p I). rewrite Forall_forall in *.
    specialize (Fa x Ix). unfold arg_ok in Fa. unfold denote. specialize (D x Ix).
    destruct (okind x); auto. apply bind_In; auto. rewrite Forall_forall; auto.
  Qed.

  Definition rok := res_ok objects any.

  (** A list of terms, all of them wanted. *)
  Definition lok (P : (atom -> bool) -> Prop) (o : outcome (option (list dnf))) : Prop :=
    o = OutOfFuel \/
    (o = Ok None /\ forall S, ~ P S) \/
    (exists ds, o = Ok (Some ds) /\ Forall (norm grd) ds /\
       forall S, (forall d, In d ds -> dnf_sat (V S) d) <-> P S).

  Lemma lok_ext P Q o : (forall S, P S <-> Q S) -> lok P o -> lok Q o.
  Proof.
    intros E [H|[[H N]|(ds & H & N & S)]]; [left; auto|right; left|right; right].
    - split; auto. intros S Q'. apply E in Q'. exact (N S Q').
    - exists ds. split; auto. split; auto. intros S0. rewrite (S S0). auto.
  Qed.

  Lemma collect_lok {A} (f : A -> outcome (option (list dnf))) (P : A -> (atom -> bool) -> Prop) l :
    (forall a, In a l -> lok (P a) (f a)) -> lok (fun S => forall a, In a l -> P a S) (collect true f l).
  Proof.
    induction l as [|a l IH]; intros H; cbn [collect].
    - right; right. exists []. split; auto. split; [constructor|]. intros S; split; intros _ x [].
    - destruct (H a (or_introl eq_refl)) as [E|[[E N]|(ds & E & N & S)]]; rewrite E; cbn [bind].
      + left; auto.
      + right; left. split; auto. intros S K. apply (N S). apply K. left; auto.
      + destruct (IH (fun x I => H x (or_intror I))) as [E'|[[E' N']|(ds' & E' & N' & S')]];
          cbn [collect] in E'; rewrite E'; cbn [bind option_map].
        * left; auto.
        * right; left. split; auto. intros S0 K. apply (N' S0). intros x I. apply K. right; auto.
        * right; right. exists (ds ++ ds'). split; auto. split; [apply Forall_app; auto|].
          intros S0. specialize (S S0). specialize (S' S0). split.
          -- intros K x [<-|I]; [apply S|apply S'; auto]; intros d Id; apply K, in_app_iff; auto.
          -- intros K d Id. apply in_app_iff in Id. destruct Id as [Id|Id].
             ++ apply S; auto. apply K; left; auto.
             ++ apply S'; auto. intros x I. apply K; right; auto.
  Qed.

  Lemma one_lok P o : rok P o -> lok P (one o).
  Proof.
    intros [E|(r & E & N & S)]; unfold one; rewrite E; cbn [bind]; [left; auto|].
    destruct r as [d|]; cbn [option_map].
    - right; right. exists [d]. split; auto. split; [constructor; auto; apply N; auto|].
      intros S0. rewrite <- (S S0). cbn [result_sat]. split.
      + intros K. apply K. left; auto.
      + intros K x [<-|[]]; auto.
    - right; left. split; auto. intros S0 K. apply S in K. destruct K.
  Qed.

  Lemma list_dec S d : list_sat (V S) d \/ ~ list_sat (V S) d.
  Proof.
    induction d as [|c d IH]; [right; intros (x & [] & _)|].
    destruct (conj_dec (V S) c (truth_dec objects W any (V S) (ex_intro _ S eq_refl))) as [H|H].
    - left. exists c. split; [left|]; auto.
    - destruct IH as [(x & I & K)|IH]; [left; exists x; split; [right|]; auto|].
      right. intros (x & [<-|I] & K); [auto|]. apply IH. exists x; auto.
  Qed.

  Theorem create_effs_ok ef : forall params args e, length params = length args ->
    Forall (fun o => In o objects) args ->
    wf_effs objects (map oname params) ef -> declared_effs objects ef ->
    nondegenerate_effs objects (bind_vars params args e) ef ->
    rok (fun S => post objects (set_of S) (bind_vars params args e) ef) (create_effs om None ef params args).
  Proof.
    pose proof (eval_total objects W ND KC any) as ET.
    pose proof (eval_sound objects W ND KC any) as ES.
    assert (Vv : forall S, Val objects (V S)) by (intros S; exists S; auto).
    induction ef as [fs adds dels cs IHf IHc] using effs_ind'. intros params args e L Ia Wf D Nd.
    destruct Wf as (Wfs & Wa & Wd & Wc). destruct D as (Df & Da & Dd & Dc). destruct Nd as [Nf Nc].
    rewrite (all_pairs (fun vars b => vars <> [] /\ (tuple_count objects vars < 2 ^ 31)%Z /\
                 wf_effs objects (map oname params ++ map oname vars) b)) in Wfs.
    rewrite (all_pairs (fun g b => wf_goal objects (map oname params) g /\ wf_effs objects (map oname params) b)) in Wc.
    rewrite (all_pairs (fun (_ : list object) b => declared_effs objects b)) in Df.
    rewrite (all_pairs (fun g b => declared objects g /\ declared_effs objects b)) in Dc.
    rewrite (all_pairs (fun vars b => forall objs, well_typed objects vars objs ->
                 nondegenerate_effs objects (bind_vars vars objs (bind_vars params args e)) b)) in Nf.
    rewrite (all_pairs (fun g b => nondegenerate objects (bind_vars params args e) g /\
                 ~ valid objects (bind_vars params args e) g /\ satisfiable objects (bind_vars params args e) g /\
                 nondegenerate_effs objects (bind_vars params args e) b /\
                 ~ (forall S, post objects (set_of S) (bind_vars params args e) b))) in Nc.
    cbn [create_effs].
    assert (HF : lok (fun S => forall f, In f fs -> forall objs, well_typed objects (fst f) objs ->
                        post objects (set_of S) (bind_vars (fst f) objs (bind_vars params args e)) (snd f))
      (collect true (fun f : list object * effs => let (vars, b) := f in
             let* ts := var_tuples om vars in
             collect true (fun t => one (create_effs om None b (params ++ vars) (args ++ t))) ts) fs)).
    { apply (collect_lok (fun f : list object * effs => let (vars, b) := f in
             let* ts := var_tuples om vars in
             collect true (fun t => one (create_effs om None b (params ++ vars) (args ++ t))) ts)
             (fun f S => forall objs, well_typed objects (fst f) objs ->
                        post objects (set_of S) (bind_vars (fst f) objs (bind_vars params args e)) (snd f))).
      intros [vars b] I. cbn [fst snd]. destruct (Wfs _ _ I) as (Nv & C & Wb).
      destruct (tuples_ok objects vars W Nv C) as (ts & T & It). fold om in T. rewrite T. cbn [bind].
      eapply lok_ext; [|apply (collect_lok (fun t => one (create_effs om None b (params ++ vars) (args ++ t)))
        (fun t S => post objects (set_of S) (bind_vars (params ++ vars) (args ++ t) e) b))].
      - intros S. cbn beta. split; intros H t Ht; apply It in Ht; specialize (H t Ht); rewrite bind_vars_app in * by auto; auto.
      - intros t Ht. apply It in Ht. apply one_lok. apply (IHf vars b I).
        + rewrite !app_length. apply FormulaFacts.well_typed_length in Ht. lia.
        + apply Forall_app. split; auto. eapply well_typed_In; eauto.
        + rewrite map_app. auto.
        + apply (Df _ _ I).
        + rewrite bind_vars_app by auto. apply (Nf _ _ I); auto. }
    assert (HP : forall S, post objects (set_of S) (bind_vars params args e) (Effs fs adds dels cs) <->
      (forall f, In f fs -> forall objs, well_typed objects (fst f) objs ->
          post objects (set_of S) (bind_vars (fst f) objs (bind_vars params args e)) (snd f)) /\
      (forall p, In p adds -> atom_holds objects (set_of S) (pname p) (map (denote (bind_vars params args e)) (pargs p))) /\
      (forall p, In p dels -> ~ atom_holds objects (set_of S) (pname p) (map (denote (bind_vars params args e)) (pargs p))) /\
      (forall c, In c cs -> holds objects (set_of S) (bind_vars params args e) (fst c) ->
          post objects (set_of S) (bind_vars params args e) (snd c))).
    { intros S. cbn [post].
      rewrite (all_pairs (fun vars b => forall objs, well_typed objects vars objs -> post objects (set_of S) (bind_vars vars objs (bind_vars params args e)) b)).
      rewrite (all_pairs (fun g b => holds objects (set_of S) (bind_vars params args e) g -> post objects (set_of S) (bind_vars params args e) b)).
      split; intros (H1 & H2 & H3 & H4); (split; [|split; [auto|split; [auto|]]]).
      - intros [v b] I. apply (H1 v b I).
      - intros [g b] I. apply (H4 g b I).
      - intros v b I. apply (H1 _ I).
      - intros g b I. apply (H4 _ I). }
    destruct HF as [E|[[E N]|(foralls & E & Nfs & Sfs)]]; unfold and_then; rewrite E; cbn [bind].
    { left; auto. }
    { right. exists None. split; auto. split; [discriminate|]. intros S. cbn [result_sat]. split; [tauto|].
      intros H. apply HP in H. destruct H as [H _]. exact (N S H). }
    destruct (literals_ok adds params args e L Ia Wa Da) as (pos & Ep & Wp & Gp & Mp & Tp).
    destruct (literals_ok dels params args e L Ia Wd Dd) as (neg & En & Wn & Gn & Mn & Tn).
    rewrite Ep, En. cbn [bind].
    set (lit := if st_is_empty pos && st_is_empty neg then [] else [[mkPS pos neg]]).
    assert (Gl : good grd (mkPS pos neg)).
    { split; [split; auto|]. unfold lits. cbn [ps_pos ps_neg]. apply Forall_app; auto. }
    assert (HL : forall S, conj_sat (V S) (mkPS pos neg) <->
      (forall p, In p adds -> atom_holds objects (set_of S) (pname p) (map (denote (bind_vars params args e)) (pargs p))) /\
      (forall p, In p dels -> ~ atom_holds objects (set_of S) (pname p) (map (denote (bind_vars params args e)) (pargs p)))).
    { assert (GG : forall ps p S, Forall (fun p => Forall (arg_ok (map oname params)) (pargs p) /\ arity_ok objects (pname p) (pargs p)) ps ->
        Forall (fun p => Forall (fun x => okind x = KConst -> In x objects) (pargs p)) ps -> In p ps ->
        V S (pname p, map oname (map (denote (bind_vars params args e)) (pargs p))) <->
        atom_holds objects (set_of S) (pname p) (map (denote (bind_vars params args e)) (pargs p))).
      { intros ps p S Fp Dp I. unfold V. apply truth_atom; auto.
        rewrite Forall_forall in *. intros o Io. apply in_map_iff in Io. destruct Io as (x & <- & Ix).
        destruct (Fp p I) as [Fa _]. specialize (Dp p I). rewrite Forall_forall in *.
        specialize (Fa x Ix). unfold arg_ok in Fa. unfold denote. specialize (Dp x Ix).
        destruct (okind x); auto. apply bind_In; auto. rewrite Forall_forall; auto. }
      intros S. rewrite conj_sat_mem. cbn [ps_pos ps_neg]. split.
      - intros [P N]. split; intros p I.
        + apply (GG adds p S Wa Da I), P, Mp. eauto.
        + intros H. apply (GG dels p S Wd Dd I) in H. revert H. apply N, Mn. eauto.
      - intros [P N]. split; intros a M.
        + apply Mp in M. destruct M as (p & I & ->). apply (GG adds p S Wa Da I); auto.
        + apply Mn in M. destruct M as (p & I & ->). intros H. apply (GG dels p S Wd Dd I) in H. exact (N p I H). }
    assert (HLn : Forall (Forall nonempty) lit /\ Forall (Forall (good grd)) lit /\
      forall S, (forall d, In d lit -> dnf_sat (V S) d) <-> conj_sat (V S) (mkPS pos neg)).
    { unfold lit. destruct (st_is_empty pos && st_is_empty neg) eqn:Em.
      - split; [constructor|]. split; [constructor|]. intros S. split; [|intros _ d []]. intros _.
        apply andb_true_iff in Em. destruct Em as [E1 E2]. unfold st_is_empty in *.
        apply Nat.eqb_eq in E1. apply Nat.eqb_eq in E2. rewrite st_size_elements in * by auto.
        apply length_zero_iff_nil in E1. apply length_zero_iff_nil in E2.
        unfold conj_sat. cbn [ps_pos ps_neg]. rewrite E1, E2. split; intros p [].
      - split; [|split].
        + constructor; [|constructor]. constructor; [|constructor]. unfold nonempty, lits. cbn [ps_pos ps_neg].
          intros H. apply app_eq_nil in H. destruct H as [E1 E2]. unfold st_is_empty in Em.
          rewrite !st_size_elements, E1, E2 in Em by auto. discriminate.
        + constructor; [|constructor]. constructor; [|constructor]. auto.
        + intros S. split.
          * intros H. destruct (H _ (or_introl eq_refl)) as [Q|(x & [<-|[]] & Q)]; [discriminate|auto].
          * intros H d [<-|[]]. right. eexists. split; [left; reflexivity|auto]. }
    destruct HLn as (HL1 & HL2 & HL3).
    match goal with |- context [mapM ?f cs] => set (cf := f) end.
    assert (HC : forall cb, In cb cs -> cf cb = OutOfFuel \/ exists ds, cf cb = Ok ds /\ Forall (norm grd) ds /\
        forall S, (forall d, In d ds -> dnf_sat (V S) d) <->
          (holds objects (set_of S) (bind_vars params args e) (fst cb) -> post objects (set_of S) (bind_vars params args e) (snd cb))).
    { intros [g b] I. cbn [fst snd]. unfold cf.
      destruct (Wc _ _ I) as [Wg Wb]. destruct (Dc _ _ I) as [Dg Db].
      destruct (Nc _ _ I) as (Ng & NV & Sa & Nb & NVb).
      destruct (create_ok objects W ND KC any g params args e L Ia Wg Dg (fun _ _ => Logic.I) Ng)
        as [Eg|(r & Eg & Rn & Rs)]; fold om in Eg; rewrite Eg; cbn [bind]; [left; auto|].
      destruct r as [cond|].
      2:{ right. exists []. split; auto. split; [constructor|]. intros S. split; [|intros _ d []].
          intros _ H. apply (Rs S) in H. destruct H. }
      specialize (Rn cond eq_refl).
      destruct (IHc g b I params args e L Ia Wb Db Nb) as [Eb|(rb & Eb & Bn & Bs)]; rewrite Eb; cbn [bind]; [left; auto|].
      assert (NE : cond <> []).
      { intros ->. apply NV. intros S. apply Rs. left; auto. }
      destruct cond as [|c0 cond0]; [congruence|]. remember (c0 :: cond0) as cond.
      destruct (negate_ok om grd (Val objects) ET ES (truth_dec objects W any) cond Rn) as [En'|(nc & En' & Ns & Nn)];
        rewrite En'; cbn [bind]; [left; auto|].
      assert (Rs' : forall S, list_sat (V S) cond <-> holds objects (set_of S) (bind_vars params args e) g).
      { intros S. rewrite <- Rs. cbn [result_sat]. unfold dnf_sat. tauto. }
      destruct nc as [n|].
      2:{ exfalso. apply NV. intros S. apply Rs'. destruct (list_dec S cond) as [H|H]; auto.
          apply (Ns _ (Vv S)) in H. destruct H. }
      assert (NEn : n <> []).
      { intros ->. destruct Sa as [S H]. apply Rs' in H. revert H. apply (Ns _ (Vv S)). left; auto. }
      destruct (Nn n eq_refl) as [Nn1 _].
      destruct rb as [r|].
      - assert (NEr : r <> []).
        { intros ->. apply NVb. intros S. apply Bs. left; auto. }
        destruct (disjoin_ok om None grd (Val objects) ET ES [n; r]) as (d & Ed & Ds & Dn).
        { constructor; [apply Nn1|constructor; [apply (Bn r eq_refl)|constructor]]. }
        rewrite Ed. cbn [bind].
        assert (Ds' : forall S, result_sat (V S) d <-> list_sat (V S) n \/ list_sat (V S) r).
        { intros S. rewrite (Ds _ (Vv S)). split.
          - intros [H|(x & [<-|[<-|[]]] & H)]; auto. destruct n; [congruence|discriminate].
          - intros [H|H]; right; [exists n|exists r]; cbn; auto. }
        destruct d as [d|].
        + right. exists [d]. split; auto. destruct (Dn d eq_refl) as (Dg' & Dne & _).
          split; [constructor; [|constructor]; split; auto; apply Dne|].
          * constructor; [apply (norm_nonempty grd); auto|constructor; [apply (norm_nonempty grd); apply Bn; auto|constructor]].
          * intros S. specialize (Ds' S). cbn [result_sat] in Ds'. split.
            -- intros H Hg. specialize (H d (or_introl eq_refl)). apply Ds' in H. apply Bs. right.
               destruct H as [H|H]; auto. exfalso.
               assert (K : result_sat (V S) (Some n)) by (right; auto). apply (Ns _ (Vv S)) in K. apply K, Rs', Hg.
            -- intros H x [<-|[]]. apply Ds'. destruct (list_dec S cond) as [Hc|Hc].
               ++ right. apply Rs' in Hc. specialize (H Hc). apply Bs in H. destruct H; congruence || auto.
               ++ left. apply (Ns _ (Vv S)) in Hc. destruct Hc; congruence || auto.
        + exfalso. apply NV. intros S. apply Rs'. destruct (list_dec S cond) as [H|H]; auto.
          apply (Ns _ (Vv S)) in H. destruct H as [H|H]; [congruence|]. destruct (proj2 (Ds' S) (or_introl H)).
      - right. exists [n]. split; auto. split; [constructor; auto|]. intros S. split.
        + intros H Hg. specialize (H n (or_introl eq_refl)). exfalso.
          assert (K : result_sat (V S) (Some n)) by exact H. apply (Ns _ (Vv S)) in K. apply K, Rs', Hg.
        + intros H x [<-|[]]. change (result_sat (V S) (Some n)). apply (Ns _ (Vv S)). intros Hc.
          apply Rs' in Hc. specialize (H Hc). apply Bs in H. destruct H. }
    assert (HM : mapM cf cs = OutOfFuel \/ exists dss, mapM cf cs = Ok dss /\ Forall (norm grd) (concat dss) /\
        forall S, (forall d, In d (concat dss) -> dnf_sat (V S) d) <->
          forall c, In c cs -> holds objects (set_of S) (bind_vars params args e) (fst c) ->
             post objects (set_of S) (bind_vars params args e) (snd c)).
    { clear -HC. clearbody cf. induction cs as [|c cs IH]; cbn [mapM].
      - right. exists []. split; auto. split; [constructor|]. intros S. split; intros _ x [].
      - destruct (HC c (or_introl eq_refl)) as [E|(ds & E & N & S)]; rewrite E; cbn [bind]; [left; auto|].
        destruct IH as [E'|(dss & E' & N' & S')]; [intros x I; apply HC; right; auto| |]; rewrite E'; cbn [bind]; [left; auto|].
        right. exists (ds :: dss). split; auto. cbn [concat]. split; [apply Forall_app; auto|].
        intros S0. specialize (S S0). specialize (S' S0). split.
        + intros K x [<-|I]; [apply S|apply S'; auto]; intros d Id; apply K, in_app_iff; auto.
        + intros K d Id. apply in_app_iff in Id. destruct Id as [Id|Id].
          * apply S; auto. apply K; left; auto.
          * apply S'; auto. intros x I. apply K; right; auto. }
    destruct HM as [E'|(dss & E' & Nds & Sds)]; rewrite E'; cbn [bind]; [left; auto|].
    destruct (conjoin_ok om None grd (Val objects) ET ES (foralls ++ lit ++ concat dss)) as [Ec|(r & Ec & Sr & Pr)].
    { apply Forall_app. split; [|apply Forall_app; split; auto].
      - eapply Forall_impl; [|exact Nfs]. intros d [G _]; auto.
      - eapply Forall_impl; [|exact Nds]. intros d [G _]; auto. }
    { left; auto. }
    right. exists r. split; auto. split.
    - intros d Q. destruct (Pr d Q) as (G & Ne & _). split; auto. apply Ne.
      apply Forall_app. split; [|apply Forall_app; split; auto].
      + eapply Forall_impl; [|exact Nfs]. apply (norm_nonempty grd).
      + eapply Forall_impl; [|exact Nds]. apply (norm_nonempty grd).
    - intros S. change (truth objects (set_of S)) with (V S).
      rewrite (Sr _ (Vv S)), HP, <- (Sfs S), <- (Sds S).
      pose proof (HL S) as HL'. rewrite <- (HL3 S) in HL'. split.
      + intros H.
        assert (K : forall d, In d lit -> dnf_sat (V S) d) by (intros d I; apply H; rewrite !in_app_iff; auto).
        apply HL' in K. destruct K as [K1 K2].
        split; [|split; [auto|split; [auto|]]]; intros d I; apply H; rewrite !in_app_iff; auto.
      + intros (H1 & H2 & H2' & H3) d I. rewrite !in_app_iff in I. destruct I as [I|[I|I]]; auto.
        apply HL'; auto.
  Qed.
End WithHash.
