(** Lemmas behind C33-C35. *)
From Coq Require Import String List Bool ZArith Arith Lia.
From Verif.Model Require Import Base Object Proposition HashSet State CombinationGenerator
  ParameterGenerator Syntax Formula Effects Derived.
From Verif.Spec Require Import SetSpec TypingSpec FormulaSpec EffectSpec DerivedSpec.
From Verif.Proofs Require Import OrderFacts StateFacts StateHistory ParameterFacts FormulaFacts EffectLink EffectTheorems.
Import ListNotations.
Local Open Scope list_scope.

(** ** Dependence of formulas on atoms *)

Lemma relevant_preds objects g : forall e a, relevant objects e g a -> In (fst a) (goal_preds g).
Proof.
  induction g as [n l|gs IH|gs IH|g IH|vs g IH|vs g IH|] using goal_ind'; intros e a R; cbn in *.
  - destruct R as (_ & _ & ->). left; auto.
  - induction IH as [|g gs Hg Hgs IHgs]; [destruct R|]. cbn. apply in_app_iff.
    destruct R as [R|R]; [left; eauto|right; auto].
  - induction IH as [|g gs Hg Hgs IHgs]; [destruct R|]. cbn. apply in_app_iff.
    destruct R as [R|R]; [left; eauto|right; auto].
  - eauto.
  - destruct R as (objs & _ & R). eauto.
  - destruct R as (objs & _ & R). eauto.
  - destruct R.
Qed.

Lemma holds_relevant objects (S S' : atom -> Prop) g : forall e,
  (forall a, relevant objects e g a -> (S a <-> S' a)) -> holds objects S e g <-> holds objects S' e g.
Proof.
  induction g as [n l|gs IH|gs IH|g IH|vs g IH|vs g IH|] using goal_ind'; intros e R; cbn in *.
  - unfold atom_holds.
    split; (intros [H|[H|(N & T & H)]]; [left; auto|right; left; auto|right; right]);
      (split; [auto|split; [auto|]]); apply (R (n, map oname (map (denote e) l))); auto.
  - induction IH as [|g gs Hg Hgs IHgs]; [tauto|]. rewrite (Hg e) by auto. rewrite IHgs by auto. tauto.
  - induction IH as [|g gs Hg Hgs IHgs]; [tauto|]. rewrite (Hg e) by auto. rewrite IHgs by auto. tauto.
  - rewrite (IH e) by auto. tauto.
  - split; intros H objs T; apply (IH (bind_vars vs objs e)); auto; intros a Ra; apply R; eauto.
  - split; intros (objs & T & H); exists objs; (split; [auto|]); apply (IH (bind_vars vs objs e)); auto;
      intros a Ra; apply R; eauto.
  - tauto.
Qed.

Lemma holds_names objects (S S' : atom -> Prop) g e :
  (forall a, In (fst a) (goal_preds g) -> (S a <-> S' a)) -> holds objects S e g <-> holds objects S' e g.
Proof. intros H. apply holds_relevant. intros a R. apply H. eapply relevant_preds; eauto. Qed.

Section WithHash.
  Context `{SH : StdHash} (objects : list object).
  Hypothesis W : Forall (fun o => wf_type (otype o)) objects.
  Notation om := (create_object_map objects).

  Lemma well_typed_length vars t : well_typed objects vars t -> length vars = length t.
  Proof. intros H. unfold well_typed in H. induction H; cbn; auto. Qed.

  (** The effect of one step. *)
  Lemma derived_step_ok d acc args : good_derived objects d -> well_typed objects (dp_params d) args ->
    st_wf (snd acc) ->
    exists c s', derived_step om d acc args = Ok (fst acc || c, s') /\ st_wf s' /\
      (c = false -> s' = snd acc /\ (atoms (snd acc) (head d args) <-> body_holds objects (atoms (snd acc)) d args)) /\
      (c = true -> ~ (atoms (snd acc) (head d args) <-> body_holds objects (atoms (snd acc)) d args)) /\
      (atoms s' (head d args) <-> body_holds objects (atoms (snd acc)) d args) /\
      (forall a, a <> head d args -> (atoms s' a <-> atoms (snd acc) a)).
  Proof.
    intros (P & C & Wf) T St. destruct acc as [b s]. cbn [fst snd] in *. unfold derived_step. cbn [fst snd].
    destruct (eval_state_semantics objects s (dp_body d) (dp_params d) args no_env W (well_typed_length _ _ T) Wf)
      as (v & E & V). rewrite E. cbn [bind].
    set (p := mkProp (dp_name d) args).
    assert (K : prop_key p = head d args) by reflexivity.
    fold (body_holds objects (atoms s) d args) in V.
    destruct v.
    - destruct (insert_spec p s St) as (W' & I & M & U).
      destruct (st_insert p s) as [c s'] eqn:Q. cbn [fst snd] in *.
      exists c, s'. split; [reflexivity|]. split; [auto|].
      assert (A : atoms s (head d args) <-> st_contains s p = true)
        by (rewrite <- K; symmetry; rewrite contains_mem, atoms_mem by auto; tauto).
      split; [|split; [|split]].
      + intros ->. split; [auto|]. rewrite A, <- V. symmetry in I. apply negb_false_iff in I. tauto.
      + intros ->. rewrite A, <- V. symmetry in I. apply negb_true_iff in I. rewrite I. intuition congruence.
      + rewrite atoms_mem, M, K by auto. tauto.
      + intros a N. rewrite !atoms_mem, M, K by auto. tauto.
    - destruct (erase_spec p s St) as (W' & I & M & U).
      destruct (st_erase p s) as [c s'] eqn:Q. cbn [fst snd] in *.
      exists c, s'. split; [reflexivity|]. split; [auto|].
      assert (A : atoms s (head d args) <-> st_contains s p = true)
        by (rewrite <- K; symmetry; rewrite contains_mem, atoms_mem by auto; tauto).
      assert (NB : ~ body_holds objects (atoms s) d args) by (intros H; apply V in H; discriminate).
      split; [|split; [|split]].
      + intros ->. split; [auto|]. rewrite A, <- I. intuition congruence.
      + intros ->. rewrite A, <- I. tauto.
      + rewrite atoms_mem, M, K by auto. tauto.
      + intros a N. rewrite !atoms_mem, M, K by auto. tauto.
  Qed.

  (** A pass, seen as a loop over any tuples of arguments. *)
  Lemma derived_fold d ts : good_derived objects d ->
    (forall t, In t ts -> well_typed objects (dp_params d) t) -> forall b s, st_wf s ->
    exists c s', foldM (derived_step om d) ts (b, s) = Ok (b || c, s') /\ st_wf s' /\
      (c = false -> s' = s /\ forall t, In t ts -> (atoms s (head d t) <-> body_holds objects (atoms s) d t)) /\
      (c = true -> exists t s0, In t ts /\ st_wf s0 /\
         ~ (atoms s0 (head d t) <-> body_holds objects (atoms s0) d t) /\
         (forall a, ~ defined_by objects d a -> (atoms s0 a <-> atoms s a))) /\
      (forall a, ~ defined_by objects d a -> (atoms s' a <-> atoms s a)).
  Proof.
    intros G. induction ts as [|t ts IH]; intros T b s St; cbn.
    - exists false, s. rewrite orb_false_r. split; [auto|]. split; [auto|]. split; [|split; [discriminate|tauto]].
      split; auto. intros t [].
    - destruct (derived_step_ok d (b, s) t G (T t (or_introl eq_refl)) St) as (c & s1 & E & W1 & U & N & V & F).
      cbn [fst snd] in *. rewrite E. cbn [bind].
      destruct (IH (fun x I => T x (or_intror I)) (b || c) s1 W1) as (c' & s' & E' & W' & U' & N' & F').
      rewrite E'. exists (c || c'), s'. rewrite orb_assoc. split; [auto|]. split; [auto|].
      assert (F1 : forall a, ~ defined_by objects d a -> (atoms s1 a <-> atoms s a)).
      { intros a Na. apply F. intros ->. apply Na. exists t. split; [apply T; left|]; auto. }
      split; [|split].
      + intros O. apply orb_false_iff in O as [-> ->]. destruct (U eq_refl) as [-> Hs].
        destruct (U' eq_refl) as [-> H']. split; auto. intros x [<-|I]; auto.
      + intros O. destruct c.
        * exists t, s. split; [left; auto|]. split; [auto|]. split; [auto|tauto].
        * destruct (U eq_refl) as [-> _]. cbn in O. destruct (N' O) as (t' & s0 & I & H). exists t', s0. split; [right|]; auto.
      + intros a Na. rewrite F' by auto. auto.
  Qed.

  Lemma derived_pass_ok d s : good_derived objects d -> st_wf s ->
    exists c s', derived_pass om d s = Ok (c, s') /\ st_wf s' /\
      (c = false -> s' = s /\ satisfied objects (atoms s) d) /\
      (c = true -> ~ satisfied objects (atoms s) d \/ In (dp_name d) (goal_preds (dp_body d)) \/
                   exists t, well_typed objects (dp_params d) t) /\
      (forall a, ~ defined_by objects d a -> (atoms s' a <-> atoms s a)).
  Proof.
    intros G St. destruct G as (P & C & Wf) eqn:EG. clear EG.
    destruct (tuples_ok objects (dp_params d) W P C) as (ts & E & I).
    unfold derived_pass. rewrite E. cbn [bind].
    destruct (derived_fold d ts (conj P (conj C Wf)) (fun t It => proj1 (I t) It) false s St) as (c & s' & E' & W' & U & N & F).
    rewrite E'. exists c, s'. split; [auto|]. split; [auto|]. split; [|split].
    - intros H. destruct (U H) as [-> Hs]. split; auto. intros t T. apply Hs, I; auto.
    - intros H. destruct (N H) as (t & s0 & It & _). right. right. exists t. apply I; auto.
    - auto.
  Qed.

  Lemma derived_apply_ok d n : good_derived objects d -> forall s b s', st_wf s ->
    derived_apply om n d s = Ok (b, s') ->
    st_wf s' /\ satisfied objects (atoms s') d /\ (b = false -> s' = s) /\
    (forall a, ~ defined_by objects d a -> (atoms s' a <-> atoms s a)).
  Proof.
    intros G. induction n as [|n IH]; intros s b s' St E; [discriminate|]. cbn in E.
    destruct (derived_pass_ok d s G St) as (c & s1 & E1 & W1 & U & _ & F). rewrite E1 in E. cbn in E.
    destruct c.
    - apply bind_Ok in E as ([b2 s2] & E2 & E). inversion E; subst.
      destruct (IH _ _ _ W1 E2) as (W2 & S2 & _ & F2). split; [auto|]. split; [auto|]. split; [discriminate|].
      intros a Na. rewrite F2 by auto. auto.
    - inversion E; subst. destruct (U eq_refl) as [-> S']. split; [auto|]. split; [auto|]. split; [auto|]. tauto.
  Qed.

  Lemma derived_round_fold n ds : (forall d, In d ds -> good_derived objects d) -> forall b s r s', st_wf s ->
    foldM (fun acc d => let* ' (c, s') := derived_apply om n d (snd acc) in Ok (fst acc || c, s')) ds (b, s) = Ok (r, s') ->
    st_wf s' /\ (r = false -> b = false /\ s' = s /\ forall d, In d ds -> satisfied objects (atoms s) d) /\
    (forall a, ~ any_defined objects ds a -> (atoms s' a <-> atoms s a)).
  Proof.
    induction ds as [|d ds IH]; intros G b s r s' St E; cbn in E.
    - inversion E; subst. split; [auto|]. split; [|tauto]. intros ->. split; [auto|]. split; [auto|]. intros d [].
    - apply bind_Ok in E as ([b1 s1] & E1 & E). apply bind_Ok in E1 as ([c s1'] & E1 & Q). inversion Q; subst b1 s1'. clear Q.
      destruct (derived_apply_ok d n (G d (or_introl eq_refl)) _ _ _ St E1) as (W1 & S1 & U & F).
      destruct (IH (fun x I => G x (or_intror I)) _ _ _ _ W1 E) as (W' & U' & F'). split; [auto|]. split.
      + intros R. destruct (U' R) as (O & -> & H). apply orb_false_iff in O as [-> ->]. rewrite (U eq_refl) in *.
        split; [auto|]. split; [auto|]. intros x [<-|I]; auto.
      + intros a Na. rewrite F' by (intros (x & I & D); apply Na; exists x; split; [right|]; auto).
        apply F. intros D. apply Na. exists d. split; [left|]; auto.
  Qed.

  Lemma derived_all_ok inner outer ds : (forall d, In d ds -> good_derived objects d) -> forall s b s', st_wf s ->
    derived_all om inner outer ds s = Ok (b, s') ->
    st_wf s' /\ (forall d, In d ds -> satisfied objects (atoms s') d) /\ (b = false -> s' = s) /\
    (forall a, ~ any_defined objects ds a -> (atoms s' a <-> atoms s a)).
  Proof.
    intros G. induction outer as [|n IH]; intros s b s' St E; [discriminate|]. cbn in E.
    apply bind_Ok in E as ([c s1] & E1 & E).
    destruct (derived_round_fold inner ds G _ _ _ _ St E1) as (W1 & U & F).
    destruct c.
    - apply bind_Ok in E as ([b2 s2] & E2 & E). inversion E; subst.
      destruct (IH _ _ _ W1 E2) as (W2 & S2 & _ & F2). split; [auto|]. split; [auto|]. split; [discriminate|].
      intros a Na. rewrite F2 by auto. auto.
    - inversion E; subst. destruct (U eq_refl) as (_ & -> & H). split; [auto|]. split; [auto|]. split; [auto|]. tauto.
  Qed.

  (** A satisfied rule is left alone at once. *)
  Lemma derived_apply_satisfied d n s : good_derived objects d -> st_wf s -> satisfied objects (atoms s) d ->
    derived_apply om (S n) d s = Ok (false, s).
  Proof.
    intros G St Sat. cbn. destruct G as (P & C & Wf) eqn:EG. clear EG.
    destruct (tuples_ok objects (dp_params d) W P C) as (ts & E & I).
    assert (D : derived_pass om d s = Ok (false, s)).
    { unfold derived_pass. rewrite E. cbn [bind].
      assert (T : forall t, In t ts -> well_typed objects (dp_params d) t) by (intros t It; apply I; auto).
      clear E I. induction ts as [|t ts IH]; [reflexivity|]. cbn [foldM].
      destruct (derived_step_ok d (false, s) t (conj P (conj C Wf)) (T t (or_introl eq_refl)) St) as (c & s1 & E1 & _ & U & N & _).
      cbn [fst snd] in *. fold (foldM (derived_step om d)). rewrite E1. cbn [bind orb]. destruct c.
      - exfalso. apply (N eq_refl). apply Sat. apply T. left; auto.
      - destruct (U eq_refl) as [-> _]. apply IH. intros x Ix. apply T. right; auto. }
    rewrite D. reflexivity.
  Qed.

  Lemma derived_round_satisfied n ds s : (forall d, In d ds -> good_derived objects d) -> st_wf s ->
    (forall d, In d ds -> satisfied objects (atoms s) d) -> derived_round om (S n) ds s = Ok (false, s).
  Proof.
    intros G St Sat. unfold derived_round. induction ds as [|d ds IH]; [reflexivity|]. cbn [foldM snd].
    rewrite derived_apply_satisfied by (auto using in_eq). cbn [bind fst orb].
    apply IH; intros x I; [apply G|apply Sat]; right; auto.
  Qed.

  Lemma derived_all_satisfied n m ds s : (forall d, In d ds -> good_derived objects d) -> st_wf s ->
    (forall d, In d ds -> satisfied objects (atoms s) d) -> derived_all om (S n) (S m) ds s = Ok (false, s).
  Proof. intros G St Sat. cbn. rewrite derived_round_satisfied by auto. reflexivity. Qed.

  (** ** Termination *)

  Lemma foldM_app {A B} (f : A -> B -> outcome A) l1 l2 : forall a,
    foldM f (l1 ++ l2) a = (let* b := foldM f l1 a in foldM f l2 b).
  Proof.
    induction l1 as [|x l1 IH]; intros a; [reflexivity|]. cbn.
    destruct (f a x); cbn; auto.
  Qed.

  Hypothesis ND : NoDup (map oname objects).

  Lemma object_eq o o' : In o objects -> In o' objects -> oname o = oname o' -> o = o'.
  Proof.
    clear W. intros I I' E. induction objects as [|x l IH]; [destruct I|]. cbn in ND. inversion ND; subst.
    destruct I as [->|I], I' as [->|I']; auto.
    - exfalso. apply H1. rewrite E. apply in_map; auto.
    - exfalso. apply H1. rewrite <- E. apply in_map; auto.
  Qed.

  Lemma tuple_eq vars t : forall t', well_typed objects vars t -> well_typed objects vars t' ->
    map oname t = map oname t' -> t = t'.
  Proof.
    unfold well_typed. revert vars. induction t as [|o t IH]; intros vars [|o' t'] T T' E; try discriminate; auto.
    inversion T; subst. inversion T'; subst. inversion E. f_equal; [apply object_eq; tauto|eauto].
  Qed.

  (** A rule that does not mention its own head is satisfied after one pass. *)
  Lemma derived_fold_sets d ts : good_derived objects d -> ~ In (dp_name d) (goal_preds (dp_body d)) ->
    (forall t, In t ts -> well_typed objects (dp_params d) t) -> forall b s r s', st_wf s ->
    foldM (derived_step om d) ts (b, s) = Ok (r, s') ->
    forall t, In t ts -> (atoms s' (head d t) <-> body_holds objects (atoms s') d t).
  Proof.
    intros G NR. induction ts as [|t ts IH] using rev_ind; intros T b s r s' St E; [intros t []|].
    assert (T1 : forall x, In x ts -> well_typed objects (dp_params d) x) by (intros; apply T, in_app_iff; auto).
    assert (Tt : well_typed objects (dp_params d) t) by (apply T, in_app_iff; right; left; auto).
    rewrite foldM_app in E. apply bind_Ok in E as ([b1 s1] & E1 & E).
    cbn in E. apply bind_Ok in E as ([b2 s2] & E2 & E). inversion E; subst b2 s2. clear E.
    assert (W1 : st_wf s1).
    { destruct (derived_fold d ts G T1 b s St) as (c1 & s1' & E1' & W1 & _). rewrite E1 in E1'. inversion E1'; subst; auto. }
    pose proof (IH T1 _ _ _ _ St E1) as H1.
    destruct (derived_step_ok d (b1, s1) t G Tt W1) as (c & s2 & E3 & W2 & _ & _ & V & F).
    rewrite E2 in E3. inversion E3; subst s2. cbn [fst snd] in *.
    assert (B : forall x, body_holds objects (atoms s') d x <-> body_holds objects (atoms s1) d x).
    { intros x. unfold body_holds. apply holds_names. intros a Ia. apply F. intros ->. apply NR. exact Ia. }
    intros x I. rewrite B. destruct (list_eq_dec string_dec (map oname x) (map oname t)) as [e|ne].
    - rewrite (tuple_eq (dp_params d) x t) by auto. exact V.
    - apply in_app_iff in I as [I|[<-|[]]]; [|congruence]. rewrite F by (unfold head; congruence). auto.
  Qed.

  Lemma derived_apply_terminates d n s : good_derived objects d -> ~ In (dp_name d) (goal_preds (dp_body d)) ->
    st_wf s -> exists b s', derived_apply om (S (S n)) d s = Ok (b, s').
  Proof.
    intros G NR St. destruct (derived_pass_ok d s G St) as (c & s1 & E1 & W1 & _).
    change (derived_apply om (S (S n)) d s) with
      (let* ' (c, s1) := derived_pass om d s in
       if c : bool then let* ' (_, s2) := derived_apply om (S n) d s1 in Ok (true, s2) else Ok (false, s1)).
    rewrite E1. cbn [bind]. destruct c; [|eauto].
    rewrite derived_apply_satisfied; auto; [cbn; eauto|].
    destruct G as (P & C & Wf). destruct (tuples_ok objects (dp_params d) W P C) as (ts & E & I).
    unfold derived_pass in E1. rewrite E in E1. cbn [bind] in E1.
    intros t T. apply (derived_fold_sets d ts (conj P (conj C Wf)) NR (fun t It => proj1 (I t) It) _ _ _ _ St E1).
    apply I; auto.
  Qed.

  (** Applying a rule keeps another one satisfied if the body does not mention its head. *)
  Lemma satisfied_frame d d' (S S' : atom -> Prop) : dp_name d' <> dp_name d -> ~ In (dp_name d') (goal_preds (dp_body d)) ->
    (forall a, ~ defined_by objects d' a -> (S' a <-> S a)) -> satisfied objects S d -> satisfied objects S' d.
  Proof.
    intros N M F H t T. rewrite F by (intros (x & _ & Q); apply N; inversion Q; auto).
    rewrite (H t T). unfold body_holds. apply holds_names. intros a I. symmetry. apply F.
    intros (x & _ & ->). auto.
  Qed.

  Lemma derived_round_terminates n ds : (forall d, In d ds -> good_derived objects d) ->
    (forall d, In d ds -> ~ In (dp_name d) (goal_preds (dp_body d))) -> forall b s, st_wf s ->
    exists r s', foldM (fun acc d => let* ' (c, s') := derived_apply om (S (S n)) d (snd acc) in Ok (fst acc || c, s')) ds (b, s)
      = Ok (r, s') /\ st_wf s'.
  Proof.
    induction ds as [|d ds IH]; intros G NR b s St; cbn [foldM]; [eauto|].
    destruct (derived_apply_terminates d n s (G d (or_introl eq_refl)) (NR d (or_introl eq_refl)) St) as (c & s1 & E).
    cbn [snd fst]. rewrite E. cbn [bind].
    apply (IH (fun x I => G x (or_intror I)) (fun x I => NR x (or_intror I))).
    eapply (derived_apply_ok d); eauto. apply G. left; auto.
  Qed.

  (** A round settles the rules of the next rank. *)
  Lemma derived_round_rank n all rank k : stratified all rank -> NoDup (map dp_name all) ->
    (forall d, In d all -> good_derived objects d) ->
    forall ds done, all = done ++ ds -> forall b s r s', st_wf s ->
    (forall d, In d all -> rank (dp_name d) < k -> satisfied objects (atoms s) d) ->
    (forall d, In d done -> rank (dp_name d) <= k -> satisfied objects (atoms s) d) ->
    foldM (fun acc d => let* ' (c, s') := derived_apply om (S n) d (snd acc) in Ok (fst acc || c, s')) ds (b, s) = Ok (r, s') ->
    forall d, In d all -> rank (dp_name d) <= k -> satisfied objects (atoms s') d.
  Proof.
    intros St N G. induction ds as [|d' ds IH]; intros done Q b s r s' Ws L D E d I R.
    - cbn in E. inversion E; subst. rewrite app_nil_r in I. auto.
    - cbn [foldM] in E. apply bind_Ok in E as ([b1 s1] & E1 & E). cbn [snd fst] in E1.
      apply bind_Ok in E1 as ([c s1'] & E1 & Q1). inversion Q1; subst b1 s1'. clear Q1.
      assert (I' : In d' all) by (rewrite Q; apply in_app_iff; right; left; auto).
      destruct (derived_apply_ok d' (S n) (G d' I') _ _ _ Ws E1) as (W1 & S1 & U & F).
      assert (Keep : forall x, In x all -> x <> d' -> rank (dp_name x) <= k -> satisfied objects (atoms s) x -> satisfied objects (atoms s1) x).
      { intros x Ix Nx Rx Sx. destruct (Nat.lt_ge_cases (rank (dp_name d')) k) as [Lt|Ge].
        - rewrite derived_apply_satisfied in E1 by auto. inversion E1; subst; auto.
        - eapply satisfied_frame; [| |exact F|exact Sx].
          + intros En. apply Nx. clear -N I' Ix En. induction all as [|y l IHl]; [destruct Ix|]. cbn in N. inversion N; subst.
            destruct Ix as [->|Ix], I' as [->|I']; auto.
            * exfalso. apply H1. rewrite <- En. apply in_map; auto.
            * exfalso. apply H1. rewrite En. apply in_map; auto.
          + intros M. pose proof (St x d' Ix I' M). lia. }
      assert (Dec : forall x : derived, In x all -> x = d' \/ x <> d').
      { intros x Ix. destruct (string_dec (dp_name x) (dp_name d')) as [e|ne]; [|right; congruence]. left.
        clear -N I' Ix e. induction all as [|y l IHl]; [destruct Ix|]. cbn in N. inversion N; subst.
        destruct Ix as [->|Ix], I' as [->|I']; auto.
        * exfalso. apply H1. rewrite e. apply in_map; auto.
        * exfalso. apply H1. rewrite <- e. apply in_map; auto. }
      apply (IH (done ++ [d'])) with (5 := E); auto.
      + rewrite <- app_assoc. auto.
      + intros x Ix Rx. destruct (Dec x Ix) as [->|Nx]; auto. apply Keep; auto. lia.
      + intros x Ix Rx. apply in_app_iff in Ix as [Ix|[<-|[]]]; auto.
        assert (Ia : In x all) by (rewrite Q; apply in_app_iff; auto).
        destruct (Dec x Ia) as [->|Nx]; auto.
  Qed.

  Lemma derived_all_terminates n ds rank : stratified ds rank -> NoDup (map dp_name ds) ->
    (forall d, In d ds -> good_derived objects d) ->
    forall m k s, st_wf s -> (forall d, In d ds -> rank (dp_name d) < k -> satisfied objects (atoms s) d) ->
    (forall d, In d ds -> rank (dp_name d) < k + m) ->
    exists b s', derived_all om (S (S n)) (S m) ds s = Ok (b, s').
  Proof.
    intros St N G. assert (NR : forall d, In d ds -> ~ In (dp_name d) (goal_preds (dp_body d))).
    { intros d I M. pose proof (St d d I I M). lia. }
    induction m as [|m IH]; intros k s Ws L B.
    - rewrite derived_all_satisfied; eauto. intros d I. apply L; auto. rewrite <- (Nat.add_0_r k). auto.
    - change (derived_all om (S (S n)) (S (S m)) ds s) with
        (let* ' (c, s1) := derived_round om (S (S n)) ds s in
         if c : bool then let* ' (_, s2) := derived_all om (S (S n)) (S m) ds s1 in Ok (true, s2) else Ok (false, s1)).
      destruct (derived_round_terminates n ds G NR false s Ws) as (c & s1 & E & W1).
      unfold derived_round. rewrite E. cbn [bind]. destruct c; [|eauto].
      destruct (IH (S k) s1 W1) as (b & s2 & E2); [| |rewrite E2; cbn; eauto].
      + intros d I R. refine (derived_round_rank (S n) ds rank k St N G ds [] eq_refl _ _ _ _ Ws L _ E d I _); [intros x []|lia].
      + intros d I. pose proof (B d I). lia.
  Qed.
End WithHash.

(** Being defined by a rule is decidable, as the tuples can be listed. *)
Lemma defined_dec objects ds : Forall (fun o => wf_type (otype o)) objects ->
  (forall d, In d ds -> good_derived objects d) -> forall a,
  any_defined objects ds a \/ ~ any_defined objects ds a.
Proof.
  intros W G a. induction ds as [|d ds IH].
  - right. intros (d & [] & _).
  - destruct (IH (fun x I => G x (or_intror I))) as [(x & I & D)|N]; [left; exists x; split; [right|]; auto|].
    destruct (G d (or_introl eq_refl)) as (P & C & _).
    destruct (tuples_ok objects (dp_params d) W P C) as (ts & _ & I).
    assert (Dec : (exists t, In t ts /\ a = head d t) \/ ~ exists t, In t ts /\ a = head d t).
    { clear. induction ts as [|t ts IH]; [right; intros (t & [] & _)|].
      destruct IH as [(x & I & E)|N]; [left; exists x; split; [right|]; auto|].
      destruct a as [n l]. unfold head. destruct (string_dec n (dp_name d)) as [->|Nn].
      - destruct (list_eq_dec string_dec l (map oname t)) as [->|Nl].
        + left. exists t. split; [left|]; auto.
        + right. intros (x & [<-|I] & E); [congruence|]. apply N. exists x. auto.
      - right. intros (x & _ & E). congruence. }
    destruct Dec as [(t & It & E)|N'].
    + left. exists d. split; [left; auto|]. exists t. split; [apply I|]; auto.
    + right. intros (x & [<-|Ix] & D).
      * destruct D as (t & T & E). apply N'. exists t. split; [apply I|]; auto.
      * apply N. exists x. auto.
Qed.

(** Atoms of non-derived predicates determine the model of stratified rules. *)
Lemma stratified_unique objects ds rank (S S' : atom -> Prop) :
  Forall (fun o => wf_type (otype o)) objects -> (forall d, In d ds -> good_derived objects d) ->
  stratified ds rank ->
  (forall d, In d ds -> satisfied objects S d) -> (forall d, In d ds -> satisfied objects S' d) ->
  (forall a, ~ any_defined objects ds a -> (S a <-> S' a)) ->
  forall a, S a <-> S' a.
Proof.
  intros W G St H H' F. pose proof (defined_dec objects ds W G) as Dec.
  assert (K : forall k d, In d ds -> rank (dp_name d) < k -> forall a, defined_by objects d a -> (S a <-> S' a)).
  { induction k as [|k IH]; intros d I R a D; [lia|].
    destruct D as (t & T & ->). rewrite (H d I t T), (H' d I t T). unfold body_holds.
    apply holds_names. intros a Ia.
    destruct (Dec a) as [(x & Ix & Dx)|ND']; [|auto].
    assert (Ex : fst a = dp_name x) by (destruct Dx as (? & _ & ->); reflexivity).
    apply (IH x Ix); auto. rewrite Ex in Ia. pose proof (St d x I Ix Ia). lia. }
  intros a. destruct (Dec a) as [(d & I & D)|N]; [|auto]. eapply (K (Datatypes.S (rank (dp_name d))) d I); auto.
Qed.

(** ** Divergence *)
Section Divergence.
  Context `{SH : StdHash} (objects : list object).
  Hypothesis W : Forall (fun o => wf_type (otype o)) objects.
  Notation om := (create_object_map objects).

  Lemma derived_apply_total d n : good_derived objects d -> forall s, st_wf s ->
    derived_apply om n d s = OutOfFuel \/ exists b s', derived_apply om n d s = Ok (b, s').
  Proof.
    intros G. induction n as [|n IH]; intros s St; [left; reflexivity|]. cbn.
    destruct (derived_pass_ok objects W d s G St) as (c & s1 & E & W1 & _). rewrite E. cbn.
    destruct c; [|eauto]. destruct (IH s1 W1) as [-> |(b & s2 & ->)]; cbn; eauto.
  Qed.

  Lemma derived_round_total n ds : (forall d, In d ds -> good_derived objects d) -> forall b s, st_wf s ->
    let r := foldM (fun acc d => let* ' (c, s') := derived_apply om n d (snd acc) in Ok (fst acc || c, s')) ds (b, s) in
    r = OutOfFuel \/ exists b s', r = Ok (b, s').
  Proof.
    induction ds as [|d ds IH]; intros G b s St r; subst r; cbn [foldM]; [eauto|]. cbn [snd fst].
    destruct (derived_apply_total d n (G d (or_introl eq_refl)) s St) as [-> |(c & s1 & E)]; [left; reflexivity|].
    rewrite E. cbn [bind]. apply (IH (fun x I => G x (or_intror I))).
    eapply (derived_apply_ok objects W d); eauto. apply G. left; auto.
  Qed.

  Lemma derived_all_total inner outer ds : (forall d, In d ds -> good_derived objects d) -> forall s, st_wf s ->
    derived_all om inner outer ds s = OutOfFuel \/ exists b s', derived_all om inner outer ds s = Ok (b, s').
  Proof.
    intros G. induction outer as [|n IH]; intros s St; [left; reflexivity|]. cbn.
    destruct (derived_round_total inner ds G false s St) as [E|(c & s1 & E)]; unfold derived_round; rewrite E; cbn; [auto|].
    destruct c; [|eauto].
    destruct (derived_round_fold objects W inner ds G _ _ _ _ St E) as (W1 & _).
    destruct (IH s1 W1) as [-> |(b & s2 & ->)]; cbn; eauto.
  Qed.

  Lemma derived_diverges inner outer ds s : (forall d, In d ds -> good_derived objects d) -> st_wf s ->
    (forall S, (forall a, ~ any_defined objects ds a -> (S a <-> atoms s a)) -> ~ (forall d, In d ds -> satisfied objects S d)) ->
    derived_all om inner outer ds s = OutOfFuel.
  Proof.
    intros G St N. destruct (derived_all_total inner outer ds G s St) as [E|(b & s' & E)]; [auto|exfalso].
    destruct (derived_all_ok objects W inner outer ds G s b s' St E) as (_ & Sat & _ & F).
    apply (N (atoms s')); auto.
  Qed.
End Divergence.

(** More fuel does not change a result. *)
Section Fuel.
  Context `{SH : StdHash} (om : object_map).
  Lemma derived_apply_mono d n : forall m s r, n <= m -> derived_apply om n d s = Ok r -> derived_apply om m d s = Ok r.
  Proof.
    induction n as [|n IH]; intros [|m] s r L E; try discriminate; [lia|]. cbn [derived_apply] in *.
    apply bind_Ok in E as ([c s1] & E1 & E). rewrite E1. cbn [bind]. destruct c; [|auto].
    apply bind_Ok in E as ([c2 s2] & E2 & E). rewrite (IH m s1 _ ltac:(lia) E2). exact E.
  Qed.
  Lemma derived_round_mono n m ds : n <= m -> forall a r,
    foldM (fun acc d => let* ' (c, s') := derived_apply om n d (snd acc) in Ok (fst acc || c, s')) ds a = Ok r ->
    foldM (fun acc d => let* ' (c, s') := derived_apply om m d (snd acc) in Ok (fst acc || c, s')) ds a = Ok r.
  Proof.
    intros L. induction ds as [|d ds IH]; intros a r E; [auto|]. cbn [foldM] in *.
    apply bind_Ok in E as (a1 & E1 & E). apply bind_Ok in E1 as ([c s1] & E1 & Q).
    rewrite (derived_apply_mono d n m _ _ L E1). cbn [bind]. inversion Q; subst. cbn [bind]. apply IH; auto.
  Qed.
  Lemma derived_all_mono ds i i' n : i <= i' -> forall m s r, n <= m ->
    derived_all om i n ds s = Ok r -> derived_all om i' m ds s = Ok r.
  Proof.
    intros Li. induction n as [|n IH]; intros [|m] s r L E; try discriminate; [lia|]. cbn [derived_all] in *.
    apply bind_Ok in E as ([c s1] & E1 & E). unfold derived_round in *. rewrite (derived_round_mono i i' ds Li _ _ E1).
    cbn [bind]. destruct c; [|auto].
    apply bind_Ok in E as ([c2 s2] & E2 & E). rewrite (IH m s1 _ ltac:(lia) E2). exact E.
  Qed.
End Fuel.

(** ** Positive recursion *)
Lemma polarity_mono objects (D : string -> Prop) (S S' : atom -> Prop) g :
  (forall a, S a -> S' a) -> (forall a, ~ D (fst a) -> (S a <-> S' a)) -> forall b e, polarity D b g ->
  if b : bool then holds objects S e g -> holds objects S' e g else holds objects S' e g -> holds objects S e g.
Proof.
  intros M F.
  induction g as [n l|gs IH|gs IH|g IH|vs g IH|vs g IH|] using goal_ind'; intros b e P; cbn in *.
  - unfold atom_holds. destruct b.
    + intros [H|[H|(N & T & H)]]; [left; auto|right; left; auto|right; right]. auto.
    + destruct P as [P|P]; [discriminate|]. intros [H|[H|(N & T & H)]]; [left; auto|right; left; auto|right; right].
      split; [auto|split; [auto|]]. apply F; auto.
  - induction IH as [|g gs Hg Hgs IHgs]; [destruct b; auto|]. destruct P as [P1 P2].
    specialize (Hg b e P1). specialize (IHgs P2). destruct b; cbv iota in *; intros [H1 H2]; (split; [auto|exact (IHgs H2)]).
  - induction IH as [|g gs Hg Hgs IHgs]; [destruct b; auto|]. destruct P as [P1 P2].
    specialize (Hg b e P1). specialize (IHgs P2). destruct b; cbv iota in *; (intros [H|H]; [left; auto|right; exact (IHgs H)]).
  - specialize (IH (negb b) e P). destruct b; cbn in *; auto.
  - destruct b; intros H objs T.
    + exact (IH true (bind_vars vs objs e) P (H objs T)).
    + exact (IH false (bind_vars vs objs e) P (H objs T)).
  - destruct b; intros (objs & T & H); exists objs; (split; [auto|]).
    + exact (IH true (bind_vars vs objs e) P H).
    + exact (IH false (bind_vars vs objs e) P H).
  - destruct b; auto.
Qed.

Definition prod_dec (a b : atom) : {a = b} + {a <> b}.
Proof. decide equality; [apply (list_eq_dec string_dec)|apply string_dec]. Defined.

Lemma filter_lt {A} (f f' : A -> bool) l x : (forall y, f' y = true -> f y = true) -> In x l ->
  f x = true -> f' x = false -> length (filter f' l) < length (filter f l).
Proof.
  intros M I Fx Fx'. assert (L : forall l, length (filter f' l) <= length (filter f l)).
  { clear -M. induction l as [|y l IH]; cbn; [lia|]. destruct (f' y) eqn:E; [rewrite (M y E); cbn; lia|].
    destruct (f y); cbn; lia. }
  induction l as [|y l IH]; [destruct I|]. cbn. destruct I as [->|I].
  - rewrite Fx, Fx'. cbn. pose proof (L l). lia.
  - specialize (IH I). destruct (f' y) eqn:E; [rewrite (M y E); cbn; lia|]. destruct (f y); cbn; lia.
Qed.

Section Positive.
  Context `{SH : StdHash} (objects : list object).
  Hypothesis W : Forall (fun o => wf_type (otype o)) objects.
  Hypothesis ND : NoDup (map oname objects).
  Notation om := (create_object_map objects).
  Variable ds : list derived.
  Hypothesis G : forall d, In d ds -> good_derived objects d.
  Hypothesis P : positive ds.
  Hypothesis NN : NoDup (map dp_name ds).

  (** All derived atoms, with repetitions. *)
  Lemma all_heads : exists H : list prop, forall d t, In d ds -> well_typed objects (dp_params d) t -> In (mkProp (dp_name d) t) H.
  Proof.
    clear P NN. induction ds as [|d l IH]; [exists []; intros d t []|].
    destruct (IH (fun x I => G x (or_intror I))) as (H & HH).
    destruct (G d (or_introl eq_refl)) as (Pn & C & _).
    destruct (tuples_ok objects (dp_params d) W Pn C) as (ts & _ & I).
    exists (map (mkProp (dp_name d)) ts ++ H). intros x t [<-|Ix] T; apply in_app_iff.
    - left. apply in_map, I; auto.
    - right. auto.
  Qed.

  Lemma name_inj d d' : In d ds -> In d' ds -> dp_name d = dp_name d' -> d = d'.
  Proof.
    clear G P. intros I I' E. induction ds as [|x l IH]; [destruct I|]. cbn in NN. inversion NN; subst.
    destruct I as [->|I], I' as [->|I']; auto.
    - exfalso. apply H1. rewrite E. apply in_map; auto.
    - exfalso. apply H1. rewrite <- E. apply in_map; auto.
  Qed.

  Section Measure.
  Variable H : list prop.
  Hypothesis HH : forall d t, In d ds -> well_typed objects (dp_params d) t -> In (mkProp (dp_name d) t) H.

  Definition missing (s : state) : nat := length (filter (fun p => negb (st_contains s p)) H).
  (** Every derived atom present has a true body. *)
  Definition supported (s : state) : Prop :=
    forall d t, In d ds -> well_typed objects (dp_params d) t -> atoms s (head d t) -> body_holds objects (atoms s) d t.
  (** Grown from [s] to [s'], changed iff [c]. *)
  Definition grown (c : bool) (s s' : state) : Prop :=
    st_wf s' /\ supported s' /\ (if c then missing s' < missing s else s' = s) /\
    (forall Sx, (forall a, ~ any_defined objects ds a -> (Sx a <-> atoms s a)) -> (forall d, In d ds -> closed objects Sx d) ->
       (forall a, atoms s a -> Sx a) -> forall a, atoms s' a -> Sx a) /\
    (forall a, ~ any_defined objects ds a -> (atoms s' a <-> atoms s a)).

  Lemma grown_refl s : st_wf s -> supported s -> grown false s s.
  Proof. intros A B. split; [auto|]. split; [auto|]. split; [reflexivity|]. split; [auto|tauto]. Qed.

  Lemma grown_trans c c' s s1 s' : grown c s s1 -> grown c' s1 s' -> grown (c || c') s s'.
  Proof.
    intros (W1 & S1 & M1 & L1 & F1) (W2 & S2 & M2 & L2 & F2). split; [auto|]. split; [auto|]. split; [|split].
    - destruct c, c'; cbn in *; subst; auto. lia.
    - intros Sx Hx Cx Ix. apply L2; [intros a N; rewrite (Hx a N); symmetry; auto|exact Cx|].
      exact (L1 Sx Hx Cx Ix).
    - intros a N. rewrite F2, F1 by auto. tauto.
  Qed.

  Lemma mono_body (S S' : atom -> Prop) d t : In d ds -> (forall a, S a -> S' a) ->
    (forall a, ~ any_defined objects ds a -> (S a <-> S' a)) -> body_holds objects S d t -> body_holds objects S' d t.
  Proof.
    intros I M F. apply (polarity_mono objects _ S S' (dp_body d) M) with (b := true) (2 := P d I).
    intros a N. apply F. intros (d' & I' & (t' & _ & ->)). apply N. cbn. eauto.
  Qed.

  Lemma grown_step d b s t : In d ds -> well_typed objects (dp_params d) t -> st_wf s -> supported s ->
    exists c s', derived_step om d (b, s) t = Ok (b || c, s') /\ grown c s s'.
  Proof.
    intros I T St Su. destruct (derived_step_ok objects W d (b, s) t (G d I) T St) as (c & s' & E & W' & U & N & V & F).
    cbn [fst snd] in *. exists c, s'. split; [auto|]. destruct c.
    - specialize (N eq_refl). assert (NA : ~ atoms s (head d t)).
      { intros A. apply N. split; auto. }
      assert (B : body_holds objects (atoms s) d t).
      { (* otherwise nothing would have changed *)
        destruct (eval_state_semantics objects s (dp_body d) (dp_params d) t no_env W (well_typed_length _ _ _ T) (proj2 (proj2 (G d I))))
          as ([|] & _ & VV); [apply VV; auto|].
        exfalso. apply N. split; [tauto|]. intros B. apply VV in B. discriminate. }
      assert (Sub : forall a, atoms s a -> atoms s' a).
      { intros a A. destruct (prod_dec a (head d t)) as [->|Na]; [tauto|apply F; auto]. }
      assert (Fr : forall a, ~ any_defined objects ds a -> (atoms s' a <-> atoms s a)).
      { intros a Na. apply F. intros ->. apply Na. exists d. split; [auto|]. exists t. auto. }
      split; [auto|]. split; [|split; [|split; [|auto]]].
      + intros d' t' I' T' A. apply (mono_body (atoms s)); auto; [intros a Na; symmetry; auto|].
        destruct (prod_dec (head d' t') (head d t)) as [Q|Q].
        * inversion Q. apply name_inj in H1; auto. subst d'. rewrite (tuple_eq objects ND (dp_params d) t' t); auto.
        * apply Su; auto. apply F; auto.
      + unfold missing. apply filter_lt with (x := mkProp (dp_name d) t).
        * intros y Hy. apply negb_true_iff in Hy. apply negb_true_iff.
          destruct (st_contains s y) eqn:Cy; [|auto]. apply atoms_contains, Sub, atoms_contains in Cy; auto. congruence.
        * auto.
        * apply negb_true_iff. destruct (st_contains s (mkProp (dp_name d) t)) eqn:Cy; [|auto].
          apply atoms_contains in Cy; auto. contradiction.
        * apply negb_false_iff. apply atoms_contains; auto. apply V; auto.
      + intros Sx Hx Cx Ix a A. destruct (prod_dec a (head d t)) as [->|Na]; [|apply Ix, F; auto].
        apply (Cx d I t T). apply (mono_body (atoms s)); auto. intros a' N'. symmetry. auto.
    - destruct (U eq_refl) as [-> _]. apply grown_refl; auto.
  Qed.

  Lemma grown_fold d ts : In d ds -> (forall t, In t ts -> well_typed objects (dp_params d) t) ->
    forall b s, st_wf s -> supported s -> exists c s', foldM (derived_step om d) ts (b, s) = Ok (b || c, s') /\ grown c s s'.
  Proof.
    intros I. induction ts as [|t ts IH]; intros T b s St Su.
    - exists false, s. rewrite orb_false_r. split; [reflexivity|]. apply grown_refl; auto.
    - cbn [foldM]. destruct (grown_step d b s t I (T t (or_introl eq_refl)) St Su) as (c & s1 & E & Gr).
      rewrite E. cbn [bind]. destruct (IH (fun x Ix => T x (or_intror Ix)) (b || c) s1 (proj1 Gr) (proj1 (proj2 Gr))) as (c' & s' & E' & Gr').
      exists (c || c'), s'. rewrite orb_assoc. split; [auto|]. eapply grown_trans; eauto.
  Qed.

  Lemma grown_apply d : In d ds -> forall n s, st_wf s -> supported s -> missing s < n ->
    exists c s', derived_apply om n d s = Ok (c, s') /\ grown c s s'.
  Proof.
    intros I. induction n as [|n IH]; intros s St Su L; [lia|]. cbn [derived_apply].
    destruct (G d I) as (Pn & C & _). destruct (tuples_ok objects (dp_params d) W Pn C) as (ts & E & Its).
    destruct (grown_fold d ts I (fun t It => proj1 (Its t) It) false s St Su) as (c & s1 & E1 & Gr).
    unfold derived_pass at 1. rewrite E. cbn [bind]. rewrite E1. cbn [bind orb]. destruct c; [|eauto].
    destruct (IH s1 (proj1 Gr) (proj1 (proj2 Gr))) as (c2 & s2 & E2 & Gr2).
    { destruct Gr as (_ & _ & M & _). lia. }
    rewrite E2. cbn. exists true, s2. split; [auto|]. exact (grown_trans true c2 s s1 s2 Gr Gr2).
  Qed.

  Lemma grown_round l : incl l ds -> forall n b s, st_wf s -> supported s -> missing s < n ->
    exists c s', foldM (fun acc d => let* ' (c, s') := derived_apply om n d (snd acc) in Ok (fst acc || c, s')) l (b, s)
      = Ok (b || c, s') /\ grown c s s'.
  Proof.
    induction l as [|d l IH]; intros Inc n b s St Su L.
    - exists false, s. rewrite orb_false_r. split; [reflexivity|]. apply grown_refl; auto.
    - cbn [foldM snd fst]. destruct (grown_apply d (Inc d (or_introl eq_refl)) n s St Su L) as (c & s1 & E & Gr).
      rewrite E. cbn [bind].
      destruct (IH (fun x Ix => Inc x (or_intror Ix)) n (b || c) s1 (proj1 Gr) (proj1 (proj2 Gr))) as (c' & s' & E' & Gr').
      { destruct Gr as (_ & _ & M & _). destruct c; [lia|subst; auto]. }
      exists (c || c'), s'. rewrite orb_assoc. split; [auto|]. eapply grown_trans; eauto.
  Qed.

  Lemma grown_all inner : forall n s, st_wf s -> supported s -> missing s < n -> missing s < inner ->
    exists c s', derived_all om inner n ds s = Ok (c, s') /\ grown c s s'.
  Proof.
    induction n as [|n IH]; intros s St Su L L'; [lia|]. cbn [derived_all].
    destruct (grown_round ds (fun x Ix => Ix) inner false s St Su L') as (c & s1 & E1 & Gr).
    unfold derived_round at 1. rewrite E1. cbn [bind orb]. destruct c; [|eauto].
    pose proof Gr as (_ & _ & M & _).
    destruct (IH s1 (proj1 Gr) (proj1 (proj2 Gr))) as (c2 & s2 & E2 & Gr2); [lia|lia|].
    rewrite E2. cbn. exists true, s2. split; [auto|]. exact (grown_trans true c2 s s1 s2 Gr Gr2).
  Qed.
  End Measure.

  Lemma derived_positive s : st_wf s -> (forall a, any_defined objects ds a -> ~ atoms s a) ->
    exists N b s', (forall inner outer, N <= inner -> N <= outer -> derived_all om inner outer ds s = Ok (b, s')) /\
      (forall d, In d ds -> satisfied objects (atoms s') d) /\
      forall Sx, (forall a, ~ any_defined objects ds a -> (Sx a <-> atoms s a)) -> (forall d, In d ds -> closed objects Sx d) ->
        forall a, atoms s' a -> Sx a.
  Proof.
    intros St Em. destruct all_heads as (H & HH).
    assert (Su : supported s).
    { intros d t I T A. exfalso. apply (Em (head d t)); auto. exists d. split; [auto|]. exists t; auto. }
    pose (N := Datatypes.S (missing H s)).
    destruct (grown_all H HH N N s St Su) as (b & s' & E & Gr); [unfold N; lia|unfold N; lia|].
    exists N, b, s'. split; [|split].
    - intros inner outer L1 L2. eapply derived_all_mono; eauto.
    - apply (derived_all_ok objects W N N ds G s b s' St E).
    - intros Sx Hx Cx. apply Gr; auto. intros a A. destruct (defined_dec objects ds W G a) as [D|D]; [destruct (Em a D A)|].
      apply Hx; auto.
  Qed.
End Positive.
