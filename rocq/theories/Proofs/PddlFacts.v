(** Effects on States and on sets of atoms, side by side. *)
From Coq Require Import String List Bool NArith ZArith Arith Lia.
From Verif.Model Require Import Base Object Proposition State ParameterGenerator Syntax Formula
  Effects Derived Consistency Text Pddl.
From Verif.Spec Require Import SetSpec TypingSpec FormulaSpec EffectSpec DerivedSpec TextSpec PddlSpec.
From Verif.Proofs Require Import StateFacts StateHistory FormulaFacts EffectFacts EffectLink EffectTheorems
  DerivedFacts TextFacts.
Import ListNotations.
Local Open Scope string_scope.
Local Open Scope list_scope.

(** ** Truth, computed *)
Lemma has_typeb_spec o ty : existsb (String.eqb ty) (default_type :: otype o) = true <-> has_type o ty.
Proof.
  unfold has_type. rewrite existsb_exists. split.
  - intros (x & [<-|I] & E); apply String.eqb_eq in E; subst; auto.
  - intros [->|I].
    + exists default_type. split; [left; auto|apply String.eqb_refl].
    + exists ty. split; [right; auto|apply String.eqb_refl].
Qed.

Lemma holdsb_spec objects t g : forall e, holdsb objects t e g = true <-> holds objects (set_of t) e g.
Proof.
  induction g as [n l|gs IH|gs IH|g IH|vs g IH|vs g IH|] using goal_ind'; intros e; cbn [holdsb holds].
  - unfold atom_holds. set (xs := map (denote e) l). destruct (String.eqb_spec n "=") as [->|N].
    + split.
      * destruct xs as [|a [|b [|]]]; try discriminate. intros E. apply String.eqb_eq in E. left. eauto.
      * intros [(_ & a & b & -> & E)|[(N & _)|(N & _)]]; try congruence. apply String.eqb_eq; auto.
    + destruct (is_typeb objects n) eqn:Et.
      * apply is_typeb_spec in Et. split.
        -- destruct xs as [|a [|]]; try discriminate. intros E. apply has_typeb_spec in E. right; left. eauto.
        -- intros [(-> & _)|[(_ & _ & a & -> & E)|(_ & X & _)]]; try tauto. apply has_typeb_spec; auto.
      * assert (Nt : ~ is_type objects n) by (intros I; apply is_typeb_spec in I; congruence).
        unfold set_of. tauto.
  - induction IH as [|g gs Hg _ IHg]; cbn; [tauto|]. rewrite andb_true_iff, Hg, IHg. tauto.
  - induction IH as [|g gs Hg _ IHg]; cbn; [split; [discriminate|tauto]|]. rewrite orb_true_iff, Hg, IHg. tauto.
  - rewrite <- IH, negb_true_iff. destruct (holdsb objects t e g); split; congruence.
  - rewrite forallb_forall. split.
    + intros H objs Wt. apply IH. apply H. apply tuples_In; auto.
    + intros H objs I. apply IH. apply H. apply tuples_In; auto.
  - rewrite existsb_exists. split.
    + intros (objs & I & H). exists objs. split; [apply tuples_In; auto|apply IH; auto].
    + intros (objs & I & H). exists objs. split; [apply tuples_In; auto|apply IH; auto].
  - split; [discriminate|tauto].
Qed.

(** ** Two runs of effects that agree *)
Section Agree.
  Context {T1 T2 : Type} (ins1 del1 : prop -> T1 -> nat * T1) (ins2 del2 : prop -> T2 -> nat * T2)
          (cond1 : T1 -> goal -> list object -> list object -> outcome bool)
          (cond2 : T2 -> goal -> list object -> list object -> outcome bool)
          (objects : list object) (axioms : list axiom) (Rel : T1 -> T2 -> Prop).
  Definition both (x : nat * T1) (y : nat * T2) : Prop := fst x = fst y /\ Rel (snd x) (snd y).
  Context (Hins : forall p a b, Rel a b -> both (ins1 p a) (ins2 p b))
          (Hdel : forall p a b, Rel a b -> both (del1 p a) (del2 p b))
          (Hcond : forall a b g params vals, Rel a b -> length params = length vals ->
             wf_goal objects (map oname params) g ->
             orel eq (cond1 a g params vals) (cond2 b g params vals)).

  Lemma in_turn_agree {A} (f : A -> T1 -> outcome (nat * T1)) (g : A -> T2 -> outcome (nat * T2)) l :
    (forall x a b, In x l -> Rel a b -> orel both (f x a) (g x b)) ->
    forall n a b, Rel a b -> orel both (in_turn f l n a) (in_turn g l n b).
  Proof.
    induction l as [|x l IH]; intros H n a b R; cbn [in_turn]; [split; auto|].
    apply (orel_bind both); [apply H; auto; left; auto|].
    intros [m a'] [m' b'] [E R']. cbn in E, R'. subst m'. apply IH; auto. intros; apply H; auto; right; auto.
  Qed.

  Section Body.
    Context (rec1 : nat -> list object -> T1 -> outcome (nat * T1))
            (rec2 : nat -> list object -> T2 -> outcome (nat * T2)).
    Context (Hrec : forall i x vals a b, nth_error axioms i = Some x ->
               length vals = length (op_params (ax_op x)) -> Rel a b ->
               orel both (rec1 i vals a) (rec2 i vals b)).

    Lemma sub_fire_agree pos name l : forall axs pre, axioms = pre ++ axs -> forall a b, Rel a b ->
      orel Rel (sub_fire rec1 (length pre) axs pos name l a) (sub_fire rec2 (length pre) axs pos name l b).
    Proof.
      induction axs as [|x axs IH]; intros pre E a b R; cbn [sub_fire]; [exact R|].
      assert (N : nth_error axioms (length pre) = Some x).
      { rewrite E, nth_error_app2, Nat.sub_diag by lia. reflexivity. }
      assert (E' : axioms = (pre ++ [x]) ++ axs) by (rewrite <- app_assoc; exact E).
      specialize (IH _ E'). rewrite app_length in IH. cbn in IH. rewrite Nat.add_1_r in IH.
      apply (orel_bind Rel); [|intros; apply IH; auto].
      destruct (Bool.eqb (ax_pos x) pos && String.eqb (ax_name x) name); [|exact R].
      unfold context_values. destruct (consts_match _ _ l); [|exact R].
      apply (orel_bind both).
      - apply (Hrec _ x); auto. apply map_length.
      - intros [m a'] [m' b'] [_ R']. exact R'.
    Qed.

    Lemma sub_lit_agree params vals pos p a b : Rel a b ->
      orel both (sub_lit ins1 del1 objects axioms rec1 params vals pos p a)
                (sub_lit ins2 del2 objects axioms rec2 params vals pos p b).
    Proof.
      intros R. unfold sub_lit. set (l := sub_args params vals (pargs p)).
      destruct (String.eqb (pname p) "=").
      { destruct l as [|x [|y [|]]]; try exact I. destruct (Bool.eqb _ pos); [split; auto|reflexivity]. }
      destruct (is_typeb objects (pname p)).
      { destruct l as [|x [|]]; try exact I. destruct (Bool.eqb _ pos); [split; auto|reflexivity]. }
      assert (Hs : both ((if pos then ins1 else del1) (mkProp (pname p) l) a)
                        ((if pos then ins2 else del2) (mkProp (pname p) l) b)) by (destruct pos; auto).
      destruct ((if pos then ins1 else del1) _ a) as [s a1], ((if pos then ins2 else del2) _ b) as [s' b1].
      destruct Hs as [E Rs]. cbn in E, Rs. subst s'. destruct (Nat.eqb s 0); [split; auto|].
      apply (orel_bind Rel); [exact (sub_fire_agree pos (pname p) l axioms [] eq_refl a1 b1 Rs)|].
      intros a2 b2 R2. split; auto.
    Qed.

    Lemma sub_effs_agree e : forall params vals a b, length params = length vals ->
      wf_effs objects (map oname params) e -> Rel a b ->
      orel both (sub_effs ins1 del1 cond1 objects axioms rec1 params vals e a)
                (sub_effs ins2 del2 cond2 objects axioms rec2 params vals e b).
    Proof.
      induction e as [fs adds dels cs IHf IHc] using effs_ind'.
      intros params vals a b L Wf R. apply wf_effs_eq in Wf. destruct Wf as (Wf & Wa & Wd & Wc).
      cbn [sub_effs]. apply (orel_bind both).
      { apply in_turn_agree; auto. intros [vars e] x y If Rx. cbn [fst snd]. apply in_turn_agree; auto.
        intros objs x' y' Io R'. apply tuples_In in Io. pose proof (well_typed_length _ _ _ Io) as Lo.
        destruct (Wf vars e If) as (_ & _ & We). apply (IHf vars e If); auto.
        - rewrite !app_length; lia.
        - rewrite map_app; auto. }
      intros [n1 a1] [m1 b1] [E1 R1]. cbn in E1, R1. subst m1. apply (orel_bind both).
      { apply in_turn_agree; auto. intros; apply sub_lit_agree; auto. }
      intros [n2 a2] [m2 b2] [E2 R2]. cbn in E2, R2. subst m2. apply (orel_bind both).
      { apply in_turn_agree; auto. intros; apply sub_lit_agree; auto. }
      intros [n3 a3] [m3 b3] [E3 R3]. cbn in E3, R3. subst m3. apply in_turn_agree; auto.
      intros [g e] x y Ic Rx. cbn [fst snd]. destruct (Wc g e Ic) as [Wg We]. apply (orel_bind eq).
      { apply Hcond; auto. }
      intros v v' <-. destruct v; [apply (IHc g e Ic); auto|split; auto].
    Qed.
  End Body.

  Lemma sub_axiom_agree ar : Forall (good_axiom objects ar) axioms ->
    forall fuel i x vals a b, nth_error axioms i = Some x -> length vals = length (op_params (ax_op x)) -> Rel a b ->
    orel both (sub_axiom ins1 del1 cond1 objects axioms fuel i vals a)
              (sub_axiom ins2 del2 cond2 objects axioms fuel i vals b).
  Proof.
    intros Ha. induction fuel as [|fuel IH]; intros i x vals a b N Lv R; [exact I|]. cbn [sub_axiom]. rewrite N.
    destruct (good_axiom_nth _ _ _ _ _ Ha N) as [[G1 G2 G3 G4] _ _].
    apply sub_effs_agree; auto.
  Qed.

  Lemma sub_op_agree ar fuel o vals a b : Forall (good_axiom objects ar) axioms -> good_op objects ar o ->
    length (op_params o) = length vals -> Rel a b ->
    orel both
      (sub_effs ins1 del1 cond1 objects axioms (sub_axiom ins1 del1 cond1 objects axioms fuel) (op_params o) vals (op_effs o) a)
      (sub_effs ins2 del2 cond2 objects axioms (sub_axiom ins2 del2 cond2 objects axioms fuel) (op_params o) vals (op_effs o) b).
  Proof.
    intros Ha [G1 G2 G3 G4] Lv R. apply sub_effs_agree; auto. intros. eapply sub_axiom_agree; eauto.
  Qed.
End Agree.

(** ** Effects return or throw std::runtime_error *)
Definition fair {A} (x : outcome A) : Prop :=
  match x with Ok _ => True | Throw e => e = ERuntime | _ => False end.
Lemma fair_bind {A B} (x : outcome A) (f : A -> outcome B) :
  fair x -> (forall a, x = Ok a -> fair (f a)) -> fair (bind x f).
Proof. destruct x; cbn; auto. Qed.

Section Fair.
  Context {T : Type} (ins del : prop -> T -> nat * T)
          (cond : T -> goal -> list object -> list object -> outcome bool)
          (objects : list object) (axioms : list axiom).
  Context (Hc : forall t g params vals, length params = length vals -> wf_goal objects (map oname params) g ->
                  fair (cond t g params vals)).

  Lemma in_turn_fair {A} (f : A -> T -> outcome (nat * T)) l :
    (forall a t, In a l -> fair (f a t)) -> forall n t, fair (in_turn f l n t).
  Proof.
    induction l as [|a l IH]; intros H n t; cbn [in_turn]; [exact I|].
    apply fair_bind; [apply H; left; auto|]. intros [m t'] _. apply IH. intros; apply H; right; auto.
  Qed.

  Section Body.
    Context (rec : nat -> list object -> T -> outcome (nat * T)) (sigs : list (bool * string)).
    Context (Hrec : forall i a vals t, nth_error axioms i = Some a -> In (ax_pos a, ax_name a) sigs ->
               length vals = length (op_params (ax_op a)) -> fair (rec i vals t)).

    Lemma sub_fire_fair pos name l : In (pos, name) sigs -> forall axs pre, axioms = pre ++ axs -> forall t,
      fair (sub_fire rec (length pre) axs pos name l t).
    Proof.
      intros Is. induction axs as [|a axs IH]; intros pre E t; cbn [sub_fire]; [exact I|].
      assert (N : nth_error axioms (length pre) = Some a).
      { rewrite E, nth_error_app2, Nat.sub_diag by lia. reflexivity. }
      assert (E' : axioms = (pre ++ [a]) ++ axs) by (rewrite <- app_assoc; exact E).
      specialize (IH _ E'). rewrite app_length in IH. cbn in IH. rewrite Nat.add_1_r in IH.
      apply fair_bind; [|intros; apply IH].
      destruct (Bool.eqb (ax_pos a) pos && String.eqb (ax_name a) name) eqn:Em; [|exact I].
      apply andb_true_iff in Em. destruct Em as [E1 E2]. apply Bool.eqb_prop in E1. apply String.eqb_eq in E2.
      subst pos name. unfold context_values. destruct (consts_match _ _ l); [|exact I].
      apply fair_bind; [|intros [? ?] _; exact I].
      apply (Hrec _ a); auto. apply map_length.
    Qed.

    Lemma sub_effs_fair e : forall params vals t, incl (eff_sigs e) sigs -> length params = length vals ->
      wf_effs objects (map oname params) e ->
      fair (sub_effs ins del cond objects axioms rec params vals e t).
    Proof.
      assert (HL : forall params vals pos p t, In (pos, pname p) sigs -> arity_ok objects (pname p) (pargs p) ->
                 fair (sub_lit ins del objects axioms rec params vals pos p t)).
      { intros params vals pos p t Is [A1 A2]. unfold sub_lit.
        assert (Ll : length (sub_args params vals (pargs p)) = length (pargs p)) by apply map_length.
        rewrite <- Ll in A1, A2. destruct (String.eqb_spec (pname p) "=") as [Eq|Ne].
        { specialize (A1 Eq). destruct (sub_args _ _ _) as [|x [|y [|]]]; try discriminate.
          destruct (Bool.eqb _ pos); cbn; auto. }
        destruct (is_typeb objects (pname p)) eqn:Et.
        { apply is_typeb_spec in Et. specialize (A2 Ne Et). destruct (sub_args _ _ _) as [|x [|]]; try discriminate.
          destruct (Bool.eqb _ pos); cbn; auto. }
        destruct ((if pos then ins else del) _ t) as [s t1]. destruct (Nat.eqb s 0); [exact I|].
        apply fair_bind; [|intros; exact I]. exact (sub_fire_fair pos (pname p) _ Is axioms [] eq_refl t1). }
      induction e as [fs adds dels cs IHf IHc] using effs_ind'.
      intros params vals t Is L Wf. apply wf_effs_eq in Wf. destruct Wf as (Wf & Wa & Wd & Wc).
      rewrite Forall_forall in Wa, Wd. cbn [sub_effs]. apply fair_bind.
      { apply in_turn_fair. intros [vars b] t1 If. cbn [fst snd]. apply in_turn_fair.
        intros objs t2 Io. apply tuples_In in Io. pose proof (well_typed_length _ _ _ Io) as Lo.
        destruct (Wf vars b If) as (_ & _ & Wb). apply (IHf vars b If).
        - intros s Hs. apply Is. eapply sigs_forall; eauto.
        - rewrite !app_length; lia.
        - rewrite map_app; auto. }
      intros [n1 t1] _. apply fair_bind.
      { apply in_turn_fair. intros p t2 Ip. apply HL; [apply Is, sigs_add; auto|]. apply Wa; auto. }
      intros [n2 t2] _. apply fair_bind.
      { apply in_turn_fair. intros p t3 Ip. apply HL; [apply Is, sigs_del; auto|]. apply Wd; auto. }
      intros [n3 t3] _. apply in_turn_fair. intros [g b] t4 Ic. cbn [fst snd]. destruct (Wc g b Ic) as [Wg Wb].
      apply fair_bind; [apply Hc; auto|]. intros [|] _; [|exact I].
      apply (IHc g b Ic); auto. intros s Hs. apply Is. eapply sigs_cond; eauto.
    Qed.
  End Body.

  Lemma sub_axiom_fair ar rank : Forall (good_axiom objects ar) axioms -> ranked axioms rank ->
    forall fuel i a vals t, nth_error axioms i = Some a -> rank i < fuel ->
    length vals = length (op_params (ax_op a)) ->
    fair (sub_axiom ins del cond objects axioms fuel i vals t).
  Proof.
    intros Ha Hr. induction fuel as [|fuel IH]; intros i a vals t N Lf Lv; [lia|]. cbn [sub_axiom]. rewrite N.
    destruct (good_axiom_nth _ _ _ _ _ Ha N) as [[G1 G2 G3 G4] _ _].
    apply (sub_effs_fair _ (eff_sigs (op_effs (ax_op a)))); auto.
    - intros j b vals' t' Nb Ib Lb. eapply IH; eauto. pose proof (Hr i a N j b Nb Ib). lia.
    - intros s Hs; auto.
  Qed.

  Lemma sub_op_fair ar rank fuel o vals t : Forall (good_axiom objects ar) axioms -> ranked axioms rank ->
    good_op objects ar o -> (forall i, i < length axioms -> rank i < fuel) -> length (op_params o) = length vals ->
    fair (sub_effs ins del cond objects axioms (sub_axiom ins del cond objects axioms fuel)
       (op_params o) vals (op_effs o) t).
  Proof.
    intros Ha Hr [G1 G2 G3 G4] Hf L. apply (sub_effs_fair _ (eff_sigs (op_effs o))); auto.
    - intros i a vals' t' N _ Lv. eapply sub_axiom_fair; eauto. apply Hf. apply nth_error_Some. congruence.
    - intros s Hs; auto.
  Qed.
End Fair.

(** ** States represent sets *)
Section WithHash.
  Context `{SH : StdHash}.

  Lemma represents_wf s t : represents s t -> st_wf s.
  Proof. intros [B _]. apply built_wf; auto. Qed.

  Lemma represents_contains s t p : represents s t -> st_contains s p = t (prop_key p).
  Proof.
    intros [B H]. specialize (H (prop_key p)).
    rewrite atoms_contains in H. destruct (st_contains s p), (t (prop_key p)); intuition congruence.
  Qed.

  Lemma represents_ins p s t : represents s t -> both represents (st_ins p s) (a_ins p t).
  Proof.
    intros R. pose proof (represents_wf s t R) as W. pose proof (represents_contains s t p R) as Cp.
    destruct R as [B H]. rewrite st_ins_eq. unfold a_ins. split; cbn [fst snd].
    - destruct (insert_spec p s W) as (_ & -> & _). rewrite Cp. destruct (t (prop_key p)); auto.
    - split; [exact (built_run_from s [Ins p] B)|]. intros a.
      rewrite atoms_mem by (apply insert_wf; auto). rewrite insert_mem by auto.
      destruct (atom_eq_dec a (prop_key p)) as [->|N]; [tauto|]. rewrite <- H, atoms_mem by auto. tauto.
  Qed.
  Lemma represents_del p s t : represents s t -> both represents (st_del p s) (a_del p t).
  Proof.
    intros R. pose proof (represents_wf s t R) as W. pose proof (represents_contains s t p R) as Cp.
    destruct R as [B H]. rewrite st_del_eq. unfold a_del. split; cbn [fst snd].
    - destruct (erase_spec p s W) as (_ & -> & _). rewrite Cp. destruct (t (prop_key p)); auto.
    - split; [exact (built_run_from s [Del p] B)|]. intros a.
      rewrite atoms_mem by (apply erase_wf; auto). rewrite erase_mem by auto.
      destruct (atom_eq_dec a (prop_key p)) as [->|N]; [split; [tauto|discriminate]|].
      rewrite <- H, atoms_mem by auto. tauto.
  Qed.

  Lemma holds_same objects (S S' : atom -> Prop) g : (forall a, S a <-> S' a) ->
    forall e, holds objects S e g <-> holds objects S' e g.
  Proof.
    intros H. induction g as [n l|gs IH|gs IH|g IH|vs g IH|vs g IH|] using goal_ind'; intros e; cbn [holds].
    - unfold atom_holds. rewrite H. tauto.
    - induction IH as [|g gs Hg _ IHg]; [tauto|]. rewrite Hg, IHg. tauto.
    - induction IH as [|g gs Hg _ IHg]; [tauto|]. rewrite Hg, IHg. tauto.
    - rewrite IH. tauto.
    - split; intros K objs Wt; apply IH, K, Wt.
    - split; intros (objs & Wt & K); exists objs; split; auto; apply IH, K.
    - tauto.
  Qed.

  (** Formulas, on a State and on its set. *)
  Lemma eval_agree objects s t g params args : Forall (fun o => wf_type (otype o)) objects ->
    represents s t -> length params = length args -> wf_goal objects (map oname params) g ->
    eval_state (create_object_map objects) s g params args =
    Ok (holdsb objects t (bind_vars params args no_env) g).
  Proof.
    intros W [_ H] L Wf. destruct (eval_state_semantics objects s g params args no_env W L Wf) as (b & -> & Hb).
    f_equal. rewrite (holds_same objects (atoms s) (set_of t) g H), <- holdsb_spec in Hb.
    destruct b, (holdsb objects t (bind_vars params args no_env) g); intuition congruence.
  Qed.

  (** A set for every State. *)
  Definition set_in (s : state) : aset := fun a => if in_dec atom_eq_dec a (map prop_key (st_elements s)) then true else false.
  Lemma set_in_represents s : built s -> represents s (set_in s).
  Proof.
    intros B. split; auto. intros a. rewrite atoms_mem by (apply built_wf; auto). unfold set_in, mem.
    destruct (in_dec _ _ _); split; auto; discriminate.
  Qed.
  Lemma same_set s s' t : represents s t -> represents s' t -> st_eqb s s' = true.
  Proof.
    intros [B H] [B' H']. pose proof (built_wf _ B) as W. pose proof (built_wf _ B') as W'.
    apply st_eqb_spec; auto. intros a. rewrite <- !atoms_mem by auto. rewrite H, H'. tauto.
  Qed.
  Lemma eqb_represents s s' t : represents s t -> built s' ->
    st_eqb s s' = true <-> forall a, atoms s' a <-> t a = true.
  Proof.
    intros [B H] B'. pose proof (built_wf _ B) as W. pose proof (built_wf _ B') as W'. rewrite st_eqb_spec by auto.
    split; intros K a; specialize (K a); rewrite <- ?atoms_mem in * by auto; rewrite ?H in *; tauto.
  Qed.
End WithHash.
