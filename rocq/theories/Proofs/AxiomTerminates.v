(** The loops over partial states end: every iteration but the last adds a known atom. *)
From Coq Require Import String List Bool NArith ZArith Arith Lia.
From Verif.Model Require Import Base HashSet Object Proposition State CombinationGenerator
  ParameterGenerator Syntax Formula Effects NormalForm Consistency.
From Verif.Spec Require Import SetSpec TypingSpec FormulaSpec EffectSpec NormalFormSpec AxiomSpec.
From Verif.Proofs Require Import OrderFacts HashSetFacts StateFacts StateHistory ParameterFacts FormulaFacts EffectFacts
  EffectLink EffectTheorems NormalFormFacts NormalFormGoal AxiomZero AxiomLoops AxiomMeaning AxiomPartial AxiomExtend
  AxiomReject.
Import ListNotations.
Local Open Scope string_scope.
Local Open Scope list_scope.

Fixpoint eff_lits (e : effs) : list prop :=
  match e with
  | Effs fs adds dels cs =>
      flat_map (fun vb => eff_lits (snd vb)) fs ++ adds ++ dels ++ flat_map (fun gb => eff_lits (snd gb)) cs
  end.

(** ** The literals an application reaches *)
Section Invariant.
  Context {T : Type} (ins del : prop -> T -> nat * T)
          (cond : T -> goal -> list object -> list object -> outcome bool)
          (objects : list object) (axioms : list axiom) (ar : string -> nat) (I : T -> Prop)
          (D : list object) (HD : incl objects D) (N : string -> Prop).
  Definition okd (q : prop) : Prop :=
    N (pname q) /\ length (pargs q) = ar (pname q) /\ Forall (fun o => In o D) (pargs q).
  Definition named (e : effs) : Prop :=
    forall q, In q (eff_lits e) -> N (pname q) /\ Forall (fun x => okind x = KConst -> In x D) (pargs q).
  Context (Hins : forall q t, okd q -> I t -> I (snd (ins q t)))
          (Hdel : forall q t, okd q -> I t -> I (snd (del q t)))
          (Hcond : forall t g params vals, length params = length vals -> wf_goal objects (map oname params) g ->
             match cond t g params vals with Ok _ | Throw _ => True | _ => False end)
          (Hgood : Forall (good_axiom objects ar) axioms)
          (Hname : Forall (fun a => named (op_effs (ax_op a))) axioms).
  Notation fine := (fine I (fun _ => True) True).

  Definition reached (params vals : list object) (e : effs) : Prop :=
    length params = length vals /\ Forall (fun o => In o D) vals /\
    wf_effs objects (map oname params) e /\ eff_arity ar e /\ named e.

  Definition rec_inv (rec : nat -> list object -> T -> outcome (nat * T)) : Prop :=
    forall i a vals t, nth_error axioms i = Some a -> length (op_params (ax_op a)) = length vals ->
      Forall (fun o => In o D) vals -> I t -> fine (rec i vals t).

  Lemma args_within params vals xs : length params = length vals -> Forall (fun o => In o D) vals ->
    Forall (arg_ok (map oname params)) xs -> Forall (fun x => okind x = KConst -> In x D) xs ->
    Forall (fun o => In o D) (sub_args params vals xs).
  Proof.
    intros Ll Fv Fa Fd. unfold sub_args. rewrite Forall_map. rewrite Forall_forall in *. intros x Ix.
    specialize (Fa x Ix). specialize (Fd x Ix). unfold arg_ok in Fa. unfold denote. destruct (okind x); auto.
    destruct (bind_pick params vals (fun _ => null_object) (oname x) Ll Fa) as (i & v & o & _ & Nt & _ & ->).
    apply Fv. eapply nth_error_In; eauto.
  Qed.

  Lemma context_within a l vals : linear_context a -> length (ax_args a) = length l -> Forall (fun o => In o D) l ->
    context_values a l = Some vals ->
    length (op_params (ax_op a)) = length vals /\ Forall (fun o => In o D) vals.
  Proof.
    intros Lc Ll Fl E. unfold context_values in E. destruct (consts_match _ _ l); [|discriminate]. injection E as <-.
    split; [rewrite map_length; auto|]. rewrite Forall_map. rewrite Forall_forall in Fl |- *. intros p Ip.
    destruct (linear_at a p Lc Ip) as (i & c & Ni & Ec & U).
    assert (No : exists o, nth_error l i = Some o).
    { destruct (nth_error l i) eqn:E; eauto. apply nth_error_None in E. rewrite <- Ll in E.
      apply nth_error_None in E. congruence. }
    destruct No as (o & No). rewrite (value_of_at p _ _ i c o Ni No Ec).
    - apply Fl. eapply nth_error_In; eauto.
    - intros j d Lj Nj Ed. rewrite (U j d Nj Ed) in Lj. lia.
  Qed.

  Lemma lit_inv rec params vals (pos : bool) q t : rec_inv rec -> length params = length vals ->
    Forall (fun o => In o D) vals -> Forall (arg_ok (map oname params)) (pargs q) ->
    arity_ok objects (pname q) (pargs q) -> length (pargs q) = ar (pname q) ->
    Forall (fun x => okind x = KConst -> In x D) (pargs q) -> N (pname q) -> I t ->
    fine (sub_lit ins del objects axioms rec params vals pos q t).
  Proof.
    intros Hrec Ll Fv Fa [A1 A2] Ar Fd Fn It. unfold sub_lit.
    pose proof (args_within params vals (pargs q) Ll Fv Fa Fd) as Fl.
    assert (Lg : length (sub_args params vals (pargs q)) = length (pargs q)) by apply map_length.
    set (l := sub_args params vals (pargs q)) in *. clearbody l. rewrite <- Lg in A1, A2.
    destruct (String.eqb_spec (pname q) "=") as [Eq|Ne].
    { specialize (A1 Eq). destruct l as [|a [|b [|]]]; try discriminate. destruct (Bool.eqb _ pos); cbn; auto. }
    destruct (is_typeb objects (pname q)) eqn:Et.
    { apply is_typeb_spec in Et. specialize (A2 Ne Et). destruct l as [|a [|]]; try discriminate.
      destruct (Bool.eqb _ pos); cbn; auto. }
    assert (O : okd (mkProp (pname q) l)) by (split; [|split]; cbn [pname pargs]; auto; congruence).
    assert (Hst : I (snd ((if pos then ins else del) (mkProp (pname q) l) t))) by (destruct pos; auto).
    destruct ((if pos then ins else del) (mkProp (pname q) l) t) as [n t']. cbn [snd] in Hst.
    destruct (Nat.eqb n 0); [cbn; auto|].
    pose proof (sub_fire_fine axioms I (fun _ => True) True rec pos (pname q) l) as F.
    assert (Hfire : forall i a vals0 t0, nth_error axioms i = Some a -> ax_pos a = pos -> ax_name a = pname q ->
      context_values a l = Some vals0 -> I t0 -> fine (rec i vals0 t0)).
    { intros i a vals0 t0 Ni Ep En Ev I0. destruct (good_axiom_nth _ _ _ _ _ Hgood Ni) as [_ Lc Ga].
      destruct (context_within a l vals0 Lc ltac:(congruence) Fl Ev). apply (Hrec i a); auto. }
    specialize (F Hfire axioms [] t' eq_refl Hst). cbn [length] in F.
    destruct (sub_fire rec 0 axioms pos (pname q) l t'); cbn [bind]; auto. cbn. auto.
  Qed.

  Lemma effs_inv rec : rec_inv rec -> forall e params vals t, reached params vals e -> I t ->
    fine (sub_effs ins del cond objects axioms rec params vals e t).
  Proof.
    intros Hrec. apply (sub_effs_fine ins del cond objects axioms I (fun _ => True) True); auto.
    intros params vals fs adds dels cs (Ll & Fv & Wf & Ar & Nm).
    apply wf_effs_eq in Wf. destruct Wf as (Wf & Wa & Wd & Wc).
    apply eff_arity_eq in Ar. destruct Ar as (Af & Aa & Ad & Ac).
    rewrite Forall_forall in Wa, Wd, Aa, Ad. unfold named in Nm. cbn [eff_lits] in Nm.
    split; [|split; [|split]].
    - intros vars b objs J Wo. destruct (Wf vars b J) as (Nv & Cv & Wb).
      split; [rewrite !app_length, (well_typed_length _ _ _ Wo); auto|].
      split; [apply Forall_app; split; auto; eapply Forall_impl; [|eapply well_typed_In; eauto]; auto|].
      split; [rewrite map_app; auto|]. split; [eapply Af; eauto|].
      intros q Iq. apply Nm. rewrite !in_app_iff, in_flat_map. left. exists (vars, b). auto.
    - intros q t J It. destruct (Wa q J). destruct (Nm q); [rewrite !in_app_iff; auto|]. apply lit_inv; auto.
    - intros q t J It. destruct (Wd q J). destruct (Nm q); [rewrite !in_app_iff; auto|]. apply lit_inv; auto.
    - intros g b t J It. destruct (Wc g b J) as [Wg Wb]. pose proof (Hcond t g params vals Ll Wg) as C.
      destruct (cond t g params vals) as [[|]| | | |]; auto.
      split; auto. split; auto. split; auto. split; [eapply Ac; eauto|].
      intros q Iq. apply Nm. rewrite !in_app_iff, !in_flat_map. right. right. right. exists (g, b). auto.
  Qed.

  Lemma axiom_inv fuel : rec_inv (sub_axiom ins del cond objects axioms fuel).
  Proof.
    induction fuel as [|fuel IH]; intros i a vals t Ni Ll Fv It; cbn [sub_axiom]; [cbn; auto|].
    rewrite Ni. apply effs_inv; auto. destruct (good_axiom_nth _ _ _ _ _ Hgood Ni) as [[G1 G2 G3 G4] _ _].
    rewrite Forall_forall in Hname. pose proof (Hname a (nth_error_In _ _ Ni)). repeat (split; auto); tauto.
  Qed.
End Invariant.

Lemma well_typed_within objects D vars objs : incl objects D -> well_typed objects vars objs -> Forall (fun o => In o D) objs.
Proof. intros HD Wt. eapply Forall_impl; [|eapply well_typed_In; eauto]. auto. Qed.

Section WithHash.
  Context `{SH : StdHash}.
  Context (objects : list object) (W : Forall (fun o => wf_type (otype o)) objects).
  Context (Kc : Forall (fun o => okind o = KConst) objects).
  Notation om := (create_object_map objects).
  Context (ar : string -> nat) (rank : nat -> nat) (axioms : list axiom).
  Context (Hwf : Forall (wf_axiom objects) axioms).
  Context (Hgood : Forall (good_axiom objects ar) axioms) (Hrank : ranked axioms rank).
  Context (D : list object) (HD : incl objects D) (N : string -> Prop)
          (Hname : Forall (fun a => named D N (op_effs (ax_op a))) axioms).
  Context (fuel : nat) (Hf : forall i, i < length axioms -> rank i < fuel).

  Definition eatom (a : atom) : Prop := N (fst a) /\ length (snd a) = ar (fst a) /\ incl (snd a) (map oname D).

  Lemma okd_eatom q : okd ar D N q -> eatom (prop_key q).
  Proof.
    intros (Nq & Lq & Fq). unfold eatom, prop_key. cbn [fst snd]. rewrite map_length. split; auto. split; auto.
    intros x Ix. apply in_map_iff in Ix as (o & <- & Io). apply in_map. rewrite Forall_forall in Fq. auto.
  Qed.

  (** ** Status 1 on disjoint partial states adds a known atom *)
  Definition grows (n : nat) (t t' : partial_state) : Prop :=
    pok t -> pok t' /\ (forall a, knows t a -> knows t' a) /\
      (n = 1 -> exists a, knows t' a /\ ~ knows t a).

  Lemma grows_refl t : grows 0 t t.
  Proof. intros K. split; auto. split; auto. discriminate. Qed.
  Lemma grows_trans n m a b c : grows n a b -> grows m b c -> grows (Nat.max n m) a c.
  Proof.
    intros H1 H2 K. destruct (H1 K) as (Kb & M1 & E1). destruct (H2 Kb) as (Kc' & M2 & E2).
    split; auto. split; auto. intros Q. assert (Q' : n = 1 \/ m = 1) by lia. destruct Q' as [Q'|Q'].
    - destruct (E1 Q') as (x & X1 & X2). exists x. auto.
    - destruct (E2 Q') as (x & X1 & X2). exists x. auto.
  Qed.

  Lemma grows_lit (pos : bool) p t n t' : (if pos then ps_insert else ps_erase) p t = (n, t') -> grows n t t'.
  Proof.
    intros E K. destruct (pok_lit pos p t n t' E K) as (K' & M & _). split; auto. split; auto. intros ->.
    destruct K as (Bp & Bn & Dj). pose proof (built_wf _ Bp) as Wp. pose proof (built_wf _ Bn) as Wn.
    exists (prop_key p). unfold knows. destruct pos.
    - rewrite ps_insert_eq in E. injection E as En <-.
      destruct (insert_spec p (ps_pos t) Wp) as (Wi & Ei & Mi & _).
      destruct (erase_spec p (ps_neg t) Wn) as (We & Ee & Me & _). cbn [ps_pos ps_neg]. split.
      + left. apply atoms_mem; auto. apply Mi. auto.
      + rewrite !atoms_mem by auto. rewrite Ei, Ee in En.
        destruct (st_contains (ps_neg t) p) eqn:Cn, (st_contains (ps_pos t) p) eqn:Cp; try discriminate.
        * exfalso. apply (Dj (prop_key p)); apply contains_mem; auto.
        * apply contains_mem_false in Cn, Cp; auto. tauto.
    - rewrite ps_erase_eq in E. injection E as En <-.
      destruct (insert_spec p (ps_neg t) Wn) as (Wi & Ei & Mi & _).
      destruct (erase_spec p (ps_pos t) Wp) as (We & Ee & Me & _). cbn [ps_pos ps_neg]. split.
      + right. apply atoms_mem; auto. apply Mi. auto.
      + rewrite !atoms_mem by auto. rewrite Ei, Ee in En.
        destruct (st_contains (ps_neg t) p) eqn:Cn, (st_contains (ps_pos t) p) eqn:Cp; try discriminate.
        * exfalso. apply (Dj (prop_key p)); apply contains_mem; auto.
        * apply contains_mem_false in Cn, Cp; auto. tauto.
  Qed.

  Lemma apply_grows i a args t st n t' st' : nth_error axioms i = Some a ->
    apply_partial fuel om axioms (OAx i) (ax_op a) args (t, st) = Ok (n, (t', st')) -> grows n t t'.
  Proof.
    intros Na E. unfold apply_partial, apply_op in E.
    refine (run_effs_grows ps_insert ps_erase _ om axioms _ grows grows_refl grows_trans (fun _ => True) _
              (op_effs (ax_op a)) _ _ (OAx i) [] (op_params (ax_op a)) (Effects.Val args) (t, st) n (t', st') Logic.I E).
    - auto.
    - intros pos p u m u' _ _. apply grows_lit.
    - intros j b r w m w' _ _ Q K.
      set (R := fun t t' : partial_state => pok t -> pok t' /\ forall a, knows t a -> knows t' a).
      assert (X : R (fst w) (fst w')).
      { refine (apply_axiom_keeps ps_insert ps_erase _ om axioms R _ _ (fun _ => True) _ _ fuel j r w m w' Logic.I Q).
        - intros u Ku. auto.
        - intros u v z H1 H2 Ku. destruct (H1 Ku) as [Kv M1]. destruct (H2 Kv) as [Kz M2]. split; auto.
        - auto.
        - intros i1 a1 pos p u k u' _ _ _ Ql Ku. destruct (pok_lit pos p u k u' Ql Ku) as (Ku' & M & _). auto. }
      destruct (X K) as [K' M]. split; auto. split; auto. discriminate.
  Qed.

  (** ** One application *)
  Definition adv (c : bool) (t t' : partial_state) : Prop :=
    pok t' /\ (forall a, knows t a -> knows t' a) /\ (forall a, knows t' a -> knows t a \/ eatom a) /\
    (c = true -> exists a, knows t' a /\ ~ knows t a).
  Lemma adv_refl t : pok t -> adv false t t.
  Proof. intros K. split; auto. split; auto. split; auto. discriminate. Qed.
  Lemma adv_trans c c' a b d : adv c a b -> adv c' b d -> adv (c || c') a d.
  Proof.
    intros (K1 & M1 & U1 & E1) (K2 & M2 & U2 & E2). split; auto. split; auto. split.
    - intros x X. apply U2 in X as [X|X]; auto.
    - intros Q. apply orb_true_iff in Q as [Q|Q].
      + destruct (E1 Q) as (x & X1 & X2). exists x. auto.
      + destruct (E2 Q) as (x & X1 & X2). exists x. auto.
  Qed.

  Definition inv (t0 t : partial_state) : Prop := ps_wf t /\ forall a, knows t a -> knows t0 a \/ eatom a.

  Lemma inv_insert t0 q t : okd ar D N q -> inv t0 t -> inv t0 (snd (ps_insert q t)).
  Proof.
    intros O [[Wp Wn] H]. pose proof (okd_eatom q O) as Eq. rewrite ps_insert_eq.
    destruct (insert_spec q (ps_pos t) Wp) as (Wi & Ei & Mi & _).
    destruct (erase_spec q (ps_neg t) Wn) as (We & Ee & Me & _).
    split; [split; auto|]. unfold knows in *. cbn [snd ps_pos ps_neg]. intros a. specialize (H a).
    rewrite !atoms_mem in * by auto. rewrite Mi, Me. intros [[->|M]|[_ M]]; auto.
  Qed.
  Lemma inv_erase t0 q t : okd ar D N q -> inv t0 t -> inv t0 (snd (ps_erase q t)).
  Proof.
    intros O [[Wp Wn] H]. pose proof (okd_eatom q O) as Eq. rewrite ps_erase_eq.
    destruct (insert_spec q (ps_neg t) Wn) as (Wi & Ei & Mi & _).
    destruct (erase_spec q (ps_pos t) Wp) as (We & Ee & Me & _).
    split; [split; auto|]. unfold knows in *. cbn [snd ps_pos ps_neg]. intros a. specialize (H a).
    rewrite !(atoms_mem (ps_pos t)), !(atoms_mem (ps_neg t)) in H by auto.
    rewrite !atoms_mem by auto. rewrite Mi, Me. intros [[_ M]|[->|M]]; auto.
  Qed.

  Lemma cond_total (t : partial_state) g params vals : length params = length vals ->
    wf_goal objects (map oname params) g ->
    match cond_partial om t g params vals with Ok _ | Throw _ => True | _ => False end.
  Proof.
    intros Ll Wg. unfold cond_partial. destruct (eval_optional_total objects t g W params vals Ll Wg) as (r & ->).
    cbn. destruct r as [[|]|]; auto.
  Qed.

  Lemma apply_step i a args t st : nth_error axioms i = Some a -> well_typed objects (op_params (ax_op a)) args ->
    pok t -> store_ok st ->
    match apply_partial fuel om axioms (OAx i) (ax_op a) args (t, st) with
    | Ok (n, (t', st')) => n <= 2 /\ store_ok st' /\ adv (Nat.eqb n 1) t t'
    | Throw _ => True
    | _ => False
    end.
  Proof.
    intros Ni Wt K So. destruct (good_axiom_nth _ _ _ _ _ Hgood Ni) as [G _ _].
    pose proof (well_typed_length _ _ _ Wt) as Ll.
    pose proof (apply_op_link ps_insert ps_erase (cond_partial om) objects axioms ar rank fuel (OAx i) (ax_op a) args t st
                  W Hgood Hrank G Ll So (ex_intro _ a (conj Ni eq_refl))) as Lk.
    pose proof (effs_inv ps_insert ps_erase (cond_partial om) objects axioms ar (inv t) D HD N
      (inv_insert t) (inv_erase t) cond_total Hgood _
      (axiom_inv ps_insert ps_erase (cond_partial om) objects axioms ar (inv t) D HD N
         (inv_insert t) (inv_erase t) cond_total Hgood Hname fuel) (op_effs (ax_op a)) (op_params (ax_op a)) args t) as F.
    assert (Re : reached objects ar D N (op_params (ax_op a)) args (op_effs (ax_op a))).
    { destruct G as [G1 G2 G3 G4]. rewrite Forall_forall in Hname. split; auto. split; [eapply well_typed_within; eauto|].
      split; auto. split; auto. apply Hname. eapply nth_error_In; eauto. }
    assert (It : inv t t).
    { destruct K as (Bp & Bn & _). split; [split; apply built_wf; auto|]. auto. }
    specialize (F Re It).
    pose proof (sub_op_fuel ps_insert ps_erase (cond_partial om) objects axioms) as Nf.
    assert (N' : sub_effs ps_insert ps_erase (cond_partial om) objects axioms
         (sub_axiom ps_insert ps_erase (cond_partial om) objects axioms fuel) (op_params (ax_op a)) args
         (op_effs (ax_op a)) t <> OutOfFuel).
    { eapply Nf; eauto. intros u g ps vs L' Wg. pose proof (cond_total u g ps vs L' Wg).
      destruct (cond_partial om u g ps vs); try discriminate. tauto. }
    clear Nf. pose proof (fun n t' st' => apply_grows i a args t st n t' st' Ni) as Gr.
    pose proof (fun n w' => partial_bound om axioms fuel (OAx i) (ax_op a) args (t, st) n w') as Bd.
    unfold apply_partial in *. set (x := apply_op _ _ _ _ _ _ _ _ _ _) in *. clearbody x.
    destruct (sub_effs _ _ _ _ _ _ _ _ _ t) as [[m u]| | | |]; cbn in F;
      destruct x as [[n [t' st']]| | | |]; cbn in Lk; try tauto; try congruence.
    destruct Lk as (-> & -> & So'). destruct F as [_ [_ F]]. pose proof (Bd _ _ eq_refl). split; auto. split; auto.
    destruct (Gr _ _ _ eq_refl K) as (K' & M & E). split; auto. split; auto. split; auto.
    intros Q. apply E. apply Nat.eqb_eq in Q. auto.
  Qed.

  (** ** IsConsistent *)
  Lemma pre_total i a args (t : partial_state) : nth_error axioms i = Some a -> well_typed objects (op_params (ax_op a)) args ->
    exists r, op_valid_partial om t (ax_op a) args = Ok r.
  Proof.
    intros Ni Wt. unfold op_valid_partial. apply eval_optional_total; auto; [apply (well_typed_length _ _ _ Wt)|].
    rewrite Forall_forall in Hwf. destruct (Hwf a (nth_error_In _ _ Ni)). auto.
  Qed.

  Lemma args_adv i a l : nth_error axioms i = Some a ->
    (forall args, In args l -> well_typed objects (op_params (ax_op a)) args) ->
    forall c t st, pok t -> store_ok st ->
    match consistent_args_partial om axioms fuel i (ax_op a) l (c, (t, st)) with
    | Ok None => True
    | Ok (Some (c', (t', st'))) => exists d, c' = c || d /\ adv d t t' /\ store_ok st'
    | _ => False
    end.
  Proof.
    intros Ni. induction l as [|args l IH]; intros Hl c t st K So; cbn [consistent_args_partial].
    { exists false. rewrite orb_false_r. split; auto. split; auto. apply adv_refl; auto. }
    assert (Hl' : forall x, In x l -> well_typed objects (op_params (ax_op a)) x) by (intros; apply Hl; right; auto).
    pose proof (Hl args (or_introl eq_refl)) as Wt. cbn [fst snd].
    destruct (pre_total i a args t Ni Wt) as (r & ->). cbn [bind].
    destruct r as [[|]|]; try (apply IH; auto; fail).
    pose proof (apply_step i a args t st Ni Wt K So) as F.
    destruct (apply_partial fuel om axioms (OAx i) (ax_op a) args (t, st)) as [[n [t' st']]| | | |]; auto.
    destruct F as (Ln & So' & A). destruct (Nat.ltb_spec 1 n); auto.
    assert (Q : Nat.eqb n 1 = Nat.ltb 0 n) by (destruct n as [|[|n]]; auto; lia). rewrite Q in A. pose proof A as (K' & _).
    specialize (IH Hl' (c || Nat.ltb 0 n) t' st' K' So').
    destruct (consistent_args_partial om axioms fuel i (ax_op a) l (c || Nat.ltb 0 n, (t', st')))
      as [[[c' [t2 st2]]|]| | | |]; auto.
    destruct IH as (d & -> & A2 & So2). exists (Nat.ltb 0 n || d). rewrite orb_assoc. split; auto. split; auto.
    eapply adv_trans; eauto.
  Qed.

  Lemma axioms_adv : forall axs pre, axioms = pre ++ axs -> forall c t st, pok t -> store_ok st ->
    match consistent_axioms_partial om axioms fuel (length pre) axs (c, (t, st)) with
    | Ok None => True
    | Ok (Some (c', (t', st'))) => exists d, c' = c || d /\ adv d t t' /\ store_ok st'
    | _ => False
    end.
  Proof.
    induction axs as [|a axs IH]; intros pre E c t st K So; cbn [consistent_axioms_partial].
    { exists false. rewrite orb_false_r. split; auto. split; auto. apply adv_refl; auto. }
    assert (Na : nth_error axioms (length pre) = Some a).
    { rewrite E, nth_error_app2, Nat.sub_diag by lia. reflexivity. }
    assert (E' : axioms = (pre ++ [a]) ++ axs) by (rewrite <- app_assoc; exact E).
    specialize (IH (pre ++ [a]) E'). rewrite app_length in IH. cbn in IH. rewrite Nat.add_1_r in IH.
    destruct (prepare_ok objects W Kc a) as (l & -> & Hl & _).
    { rewrite Forall_forall in Hwf. apply Hwf. eapply nth_error_In; eauto. }
    cbn [bind]. pose proof (args_adv _ a l Na Hl c t st K So) as F.
    destruct (consistent_args_partial om axioms fuel (length pre) (ax_op a) l (c, (t, st)))
      as [[[c' [t' st']]|]| | | |]; cbn [bind]; auto.
    destruct F as (d & -> & A & So'). pose proof A as (K' & _). specialize (IH (c || d) t' st' K' So').
    destruct (consistent_axioms_partial _ _ _ _ _ _) as [[[c2 [t2 st2]]|]| | | |]; auto.
    destruct IH as (d2 & -> & A2 & So2). exists (d || d2). rewrite orb_assoc. split; auto. split; auto.
    eapply adv_trans; eauto.
  Qed.

  (** ** Counting *)
  Definition known_dec (t : partial_state) (a : atom) : {mem (ps_pos t) a \/ mem (ps_neg t) a} + {~ (mem (ps_pos t) a \/ mem (ps_neg t) a)}.
  Proof.
    destruct (in_dec atom_dec a (map prop_key (st_elements (ps_pos t)))) as [i|n]; [left; left; exact i|].
    destruct (in_dec atom_dec a (map prop_key (st_elements (ps_neg t)))) as [i|m]; [left; right; exact i|].
    right. intros [i|i]; auto.
  Defined.
  Definition unknown (U : list atom) (t : partial_state) : nat :=
    length (filter (fun a => if known_dec t a then false else true) U).

  Lemma unknown_length U t : unknown U t <= length U.
  Proof.
    unfold unknown. induction U as [|a U IH]; cbn [filter length]; [lia|].
    destruct (known_dec t a); cbn [length]; lia.
  Qed.
  Lemma knows_mem t a : pok t -> knows t a <-> mem (ps_pos t) a \/ mem (ps_neg t) a.
  Proof. intros (Bp & Bn & _). unfold knows. rewrite !atoms_mem by (apply built_wf; auto). tauto. Qed.

  Lemma unknown_less U t t' : pok t -> pok t' -> (forall a, knows t a -> knows t' a) ->
    unknown U t' <= unknown U t /\ (forall a, In a U -> knows t' a -> ~ knows t a -> unknown U t' < unknown U t).
  Proof.
    intros K K' M. unfold unknown. induction U as [|a U [IH1 IH2]]; cbn [filter length]; [split; [lia|intros a []]|].
    assert (Ma : mem (ps_pos t) a \/ mem (ps_neg t) a -> mem (ps_pos t') a \/ mem (ps_neg t') a).
    { rewrite <- !knows_mem by auto. auto. }
    split.
    - destruct (known_dec t a), (known_dec t' a); cbn [length]; try lia. tauto.
    - intros x [->|I] X Y.
      + rewrite knows_mem in X, Y by auto.
        destruct (known_dec t x), (known_dec t' x); cbn [length]; try tauto. lia.
      + specialize (IH2 x I X Y). destruct (known_dec t a), (known_dec t' a); cbn [length]; try lia. tauto.
  Qed.

  Section Count.
    Context (ps : partial_state) (U : list atom) (HU : forall a, eatom a -> knows ps a \/ In a U).

    Lemma adv_count t t' : pok t -> (forall a, knows ps a -> knows t a) -> adv true t t' ->
      unknown U t' < unknown U t /\ pok t' /\ (forall a, knows ps a -> knows t' a).
    Proof.
      intros K P (K' & M & Ua & E). destruct (E eq_refl) as (a & A1 & A2). split; [|auto].
      destruct (unknown_less U t t' K K' M) as [_ L]. apply (L a); auto.
      destruct (Ua a A1) as [X|X]; [tauto|]. destruct (HU a X) as [Y|Y]; auto. destruct A2. auto.
    Qed.

    Lemma valid_ends k : forall t st, pok t -> store_ok st -> (forall a, knows ps a -> knows t a) -> unknown U t <= k ->
      exists b, forall rounds, k < rounds -> is_valid_partial om axioms fuel rounds (t, st) = Ok b.
    Proof.
      induction k as [|k IH]; intros t st K So P L.
      - exists (match consistent_axioms_partial om axioms fuel 0 axioms (false, (t, st)) with Ok None => false | _ => true end).
        intros [|n] Ln; [lia|]. cbn [is_valid_partial].
        pose proof (axioms_adv axioms [] eq_refl false t st K So) as F. cbn [length] in F.
        destruct (consistent_axioms_partial om axioms fuel 0 axioms (false, (t, st))) as [[[c [t' st']]|]| | | |];
          cbn [bind]; try tauto; auto.
        destruct F as (d & -> & A & So'). cbn [orb]. destruct d; auto.
        destruct (adv_count t t' K P A) as (X & _). lia.
      - pose proof (axioms_adv axioms [] eq_refl false t st K So) as F. cbn [length] in F.
        destruct (consistent_axioms_partial om axioms fuel 0 axioms (false, (t, st))) as [[[c [t' st']]|]| | | |] eqn:E; try tauto.
        + destruct F as (d & -> & A & So'). cbn [orb] in E. destruct d.
          * destruct (adv_count t t' K P A) as (X & K' & P'). destruct (IH t' st' K' So' P' ltac:(lia)) as (b & Hb).
            exists b. intros [|n] Ln; [lia|]. cbn [is_valid_partial]. rewrite E. cbn [bind]. apply Hb. lia.
          * exists true. intros [|n] Ln; [lia|]. cbn [is_valid_partial]. rewrite E. reflexivity.
        + exists false. intros [|n] Ln; [lia|]. cbn [is_valid_partial]. rewrite E. reflexivity.
    Qed.
  End Count.

  (** ** Apply *)
  Lemma steps_adv i a l : nth_error axioms i = Some a ->
    (forall args, In args l -> well_typed objects (op_params (ax_op a)) args) ->
    forall m t st, m <= 2 -> pok t -> store_ok st ->
    match foldM (axiom_step_partial om axioms fuel i (ax_op a)) l (m, (t, st)) with
    | Ok (n, (t', st')) => n <= 2 /\ m <= n /\ adv (Nat.eqb n 1 && Nat.eqb m 0) t t' /\ store_ok st'
    | Throw _ => True
    | _ => False
    end.
  Proof.
    intros Ni. induction l as [|args l IH]; intros Hl m t st Lm K So; cbn [foldM].
    { split; auto. split; auto. split; auto. destruct m as [|[|m]]; apply adv_refl; auto. }
    assert (Hl' : forall x, In x l -> well_typed objects (op_params (ax_op a)) x) by (intros; apply Hl; right; auto).
    pose proof (Hl args (or_introl eq_refl)) as Wt. unfold axiom_step_partial at 1. cbn [fst snd].
    destruct (pre_total i a args t Ni Wt) as (r & ->). cbn [bind].
    destruct r as [[|]|]; cbn [bind]; try (apply IH; auto; fail).
    pose proof (apply_step i a args t st Ni Wt K So) as F.
    destruct (apply_partial fuel om axioms (OAx i) (ax_op a) args (t, st)) as [[n [t' st']]| | | |]; auto.
    cbn [bind]. destruct F as (Ln & So' & A). pose proof A as (K' & _).
    specialize (IH Hl' (Nat.max m n) t' st' ltac:(lia) K' So').
    destruct (foldM (axiom_step_partial om axioms fuel i (ax_op a)) l (Nat.max m n, (t', st')))
      as [[n2 [t2 st2]]| | | |]; auto.
    destruct IH as (L2 & M2 & A2 & So2). split; auto. split; [lia|]. split; auto.
    pose proof (adv_trans _ _ _ _ _ A A2) as (K2 & Mo & Ua & Ne). split; auto. split; auto. split; auto.
    intros Q. apply Ne. apply andb_true_iff in Q as [Q1 Q2]. apply Nat.eqb_eq in Q1, Q2. subst.
    destruct n as [|[|n]]; auto; lia.
  Qed.

  Lemma pass_adv : forall axs pre, axioms = pre ++ axs -> forall c t st, pok t -> store_ok st ->
    match foldMi (fun i acc a =>
      let* ' (n, w') := axiom_apply_partial om axioms fuel i a (snd acc) in
      if Nat.eqb n 2 then Throw ERuntime else Ok (fst acc || Nat.ltb 0 n, w')) (length pre) axs (c, (t, st)) with
    | Ok (c', (t', st')) => exists d, c' = c || d /\ adv d t t' /\ store_ok st'
    | Throw _ => True
    | _ => False
    end.
  Proof.
    induction axs as [|a axs IH]; intros pre E c t st K So; cbn [foldMi].
    { exists false. rewrite orb_false_r. split; auto. split; auto. apply adv_refl; auto. }
    assert (Na : nth_error axioms (length pre) = Some a).
    { rewrite E, nth_error_app2, Nat.sub_diag by lia. reflexivity. }
    assert (E' : axioms = (pre ++ [a]) ++ axs) by (rewrite <- app_assoc; exact E).
    specialize (IH (pre ++ [a]) E'). rewrite app_length in IH. cbn [length] in IH. rewrite Nat.add_1_r in IH.
    unfold axiom_apply_partial at 1. cbn [fst snd].
    destruct (prepare_ok objects W Kc a) as (l & -> & Hl & _).
    { rewrite Forall_forall in Hwf. apply Hwf. eapply nth_error_In; eauto. }
    cbn [bind]. pose proof (steps_adv _ a l Na Hl 0 t st ltac:(lia) K So) as F.
    destruct (foldM _ l (0, (t, st))) as [[n [t' st']]| | | |]; cbn [bind]; auto.
    destruct F as (Ln & _ & A & So'). destruct (Nat.eqb_spec n 2); cbn [bind]; auto.
    rewrite andb_true_r in A. assert (Q : Nat.eqb n 1 = Nat.ltb 0 n) by (destruct n as [|[|n]]; auto; lia).
    rewrite Q in A. pose proof A as (K' & _). specialize (IH (c || Nat.ltb 0 n) t' st' K' So').
    destruct (foldMi _ _ axs _) as [[c2 [t2 st2]]| | | |]; auto.
    destruct IH as (d2 & -> & A2 & So2). exists (Nat.ltb 0 n || d2). rewrite orb_assoc. split; auto. split; auto.
    eapply adv_trans; eauto.
  Qed.

  Lemma rounds_answer left : forall t st, pok t -> store_ok st ->
    match consistent_rounds om axioms fuel left (t, st) with
    | Ok (t', st') => adv false t t' /\ store_ok st' | Throw _ => True | _ => False
    end.
  Proof.
    induction left as [|n IH]; intros t st K So; cbn [consistent_rounds]; unfold consistent_pass_partial;
      pose proof (pass_adv axioms [] eq_refl false t st K So) as F; cbn [length] in F;
      destruct (foldMi _ 0 axioms (false, (t, st))) as [[c [t' st']]| | | |]; cbn [bind]; auto.
    destruct F as (d & -> & A & So'). pose proof A as (K' & _). cbn [orb].
    assert (A' : adv false t t').
    { destruct A as (? & ? & ? & _). split; auto. split; auto. split; auto. discriminate. }
    destruct d; auto. specialize (IH t' st' K' So').
    destruct (consistent_rounds om axioms fuel n (t', st')) as [[t2 st2]| | | |]; auto.
    destruct IH. split; auto. apply (adv_trans false false _ t'); auto.
  Qed.

  Section Completion.
    Context (sig : string -> list string) (Htyped : Forall (typed_axiom objects sig) axioms).
    Context (s : state) (Ws : st_wf s) (Hs : Forall (respects objects (atoms s)) axioms).
    Context (ps : partial_state) (U : list atom) (HU : forall a, eatom a -> knows ps a \/ In a U).

    Lemma rounds_end left : forall t st, pok t -> store_ok st -> below s t -> (forall a, knows ps a -> knows t a) ->
      unknown U t < left -> exists w, consistent_rounds om axioms fuel left (t, st) = Ok w.
    Proof.
      induction left as [|n IH]; intros t st K So Bt P L; [lia|]. cbn [consistent_rounds]. unfold consistent_pass_partial.
      pose proof (pass_adv axioms [] eq_refl false t st K So) as F. cbn [length] in F.
      pose proof (pass_below objects W Kc ar rank axioms Hwf Hgood Hrank sig Htyped s Hs fuel axioms [] eq_refl
                    (false, (t, st)) Bt So) as G. cbn [length] in G.
      destruct (foldMi _ 0 axioms (false, (t, st))) as [[c [t' st']]| | | |]; cbn [bind]; try tauto.
      destruct F as (d & -> & A & So'). destruct G as [Bt' _]. cbn [orb fst snd] in *. destruct d; eauto.
      destruct (adv_count ps U HU t t' K P A) as (X & K' & P'). apply IH; auto. lia.
    Qed.
  End Completion.
End WithHash.

(** ** Names of effects *)
Lemma lits_sigs e : forall q, In q (eff_lits e) -> exists pos, In (pos, pname q) (eff_sigs e).
Proof.
  induction e as [fs adds dels cs IHf IHc] using effs_ind'. intros q. cbn [eff_lits].
  rewrite !in_app_iff, !in_flat_map. intros [([vars b] & I & J)|[I|[I|([g b] & I & J)]]].
  - destruct (IHf vars b I q J) as (pos & K). exists pos. eapply sigs_forall; eauto.
  - exists true. apply sigs_add; auto.
  - exists false. apply sigs_del; auto.
  - destruct (IHc g b I q J) as (pos & K). exists pos. eapply sigs_cond; eauto.
Qed.

Lemma typed_lits objects sig e : forall scope, typed_effs objects sig scope e ->
  forall q, In q (eff_lits e) -> Forall (fun x => okind x = KConst -> In x objects) (pargs q).
Proof.
  assert (A : forall scope q, Forall2 (arg_typed objects scope) (pargs q) (sig (pname q)) ->
     Forall (fun x => okind x = KConst -> In x objects) (pargs q)).
  { intros scope q F. induction F as [|x ty l l' A F IH]; constructor; auto. intros K. unfold arg_typed in A.
    rewrite K in A. apply A. }
  induction e as [fs adds dels cs IHf IHc] using effs_ind'. intros scope (Tf & Ta & Td & Tc) q. cbn [eff_lits].
  rewrite Forall_forall in Ta, Td.
  rewrite !in_app_iff, !in_flat_map. intros [([vars b] & I & J)|[I|[I|([g b] & I & J)]]].
  - refine (IHf vars b I (scope ++ vars) _ q J). clear -Tf I. induction fs as [|[v e] fs IH]; [destruct I|].
    destruct Tf as [T1 T2]. destruct I as [[= -> ->]|I]; auto.
  - eapply A; apply Ta; auto.
  - eapply A; apply Td; auto.
  - refine (IHc g b I scope _ q J). clear -Tc I. induction cs as [|[v e] cs IH]; [destruct I|].
    destruct Tc as [T1 T2]. destruct I as [[= -> ->]|I]; auto.
Qed.

Lemma declared_lits objects e : declared_effs objects e ->
  forall q, In q (eff_lits e) -> Forall (fun x => okind x = KConst -> In x objects) (pargs q).
Proof.
  induction e as [fs adds dels cs IHf IHc] using effs_ind'. intros (Tf & Ta & Td & Tc) q. cbn [eff_lits].
  rewrite Forall_forall in Ta, Td.
  rewrite !in_app_iff, !in_flat_map. intros [([vars b] & I & J)|[I|[I|([g b] & I & J)]]]; auto.
  - refine (IHf vars b I _ q J). clear -Tf I. induction fs as [|[v e] fs IH]; [destruct I|].
    destruct Tf as [T1 T2]. destruct I as [[= -> ->]|I]; auto.
  - refine (IHc g b I _ q J). clear -Tc I. induction cs as [|[v e] cs IH]; [destruct I|].
    destruct Tc as [[_ T1] T2]. destruct I as [[= -> ->]|I]; auto.
Qed.

Fixpoint lists_of (k : nat) (l : list string) : list (list string) :=
  match k with
  | O => [[]]
  | S k' => flat_map (fun x => map (cons x) (lists_of k' l)) l
  end.
Lemma lists_of_In l xs : incl xs l -> In xs (lists_of (length xs) l).
Proof.
  induction xs as [|x xs IH]; intros H; cbn [length lists_of]; [left; auto|].
  apply in_flat_map. exists x. split; [apply H; left; auto|]. apply in_map. apply IH. intros y I. apply H. right; auto.
Qed.

Section Theorems.
  Context `{SH : StdHash}.
  Context (objects : list object) (W : Forall (fun o => wf_type (otype o)) objects).
  Context (Kc : Forall (fun o => okind o = KConst) objects).
  Notation om := (create_object_map objects).
  Context (ar : string -> nat) (rank : nat -> nat) (axioms : list axiom).
  Context (Hwf : Forall (wf_axiom objects) axioms).
  Context (Hgood : Forall (good_axiom objects ar) axioms) (Hrank : ranked axioms rank).
  Context (fuel : nat) (Hf : forall i, i < length axioms -> rank i < fuel).

  Definition effect_name (n : string) : Prop := exists x pos, In x axioms /\ In (pos, n) (eff_sigs (op_effs (ax_op x))).

  Lemma named_axioms D : (forall a, In a axioms -> forall q, In q (eff_lits (op_effs (ax_op a))) ->
      Forall (fun x => okind x = KConst -> In x D) (pargs q)) ->
    Forall (fun a => named D effect_name (op_effs (ax_op a))) axioms.
  Proof.
    intros H. apply Forall_forall. intros a Ia q Iq. split; [|eapply H; eauto].
    destruct (lits_sigs _ _ Iq) as (pos & K). exists a, pos. auto.
  Qed.

  Lemma C31_rounds_lemma ps st U : Forall (fun a => declared_effs objects (op_effs (ax_op a))) axioms ->
    pbuilt ps -> reachable_store objects ar axioms st -> lists_unknown objects ar axioms ps U ->
    exists b, forall rounds, length U < rounds -> is_valid_partial om axioms fuel rounds (ps, st) = Ok b.
  Proof.
    intros Hd B R HU. apply pok_pbuilt in B.
    apply (valid_ends objects W Kc ar rank axioms Hwf Hgood Hrank objects (incl_refl _) effect_name)
      with (ps := ps) (U := U); auto.
    - apply named_axioms. intros a Ia. apply declared_lits. rewrite Forall_forall in Hd. auto.
    - eapply reachable_ok; eauto.
    - apply unknown_length.
  Qed.

  Lemma C31_terminates_lemma : exists n, forall ps st, pbuilt ps -> reachable_store objects ar axioms st ->
    exists b, forall rounds, n <= rounds -> is_valid_partial om axioms fuel rounds (ps, st) = Ok b.
  Proof.
    set (lits := flat_map (fun a => eff_lits (op_effs (ax_op a))) axioms).
    set (D := objects ++ flat_map pargs lits).
    set (names := flat_map (fun a => map snd (eff_sigs (op_effs (ax_op a)))) axioms).
    set (U := flat_map (fun n => map (pair n) (lists_of (ar n) (map oname D))) names).
    exists (S (length U)). intros ps st B R. apply pok_pbuilt in B.
    assert (HU : forall a, eatom ar D effect_name a -> knows ps a \/ In a U).
    { intros [n l] ((x & pos & Ix & In1) & Ll & Li). right. cbn [fst snd] in *. apply in_flat_map. exists n. split.
      - apply in_flat_map. exists x. split; auto. apply in_map_iff. exists (pos, n). auto.
      - apply in_map. rewrite <- Ll. apply lists_of_In. auto. }
    destruct (valid_ends objects W Kc ar rank axioms Hwf Hgood Hrank D (incl_appl _ (incl_refl _)) effect_name)
      with (fuel := fuel) (ps := ps) (U := U) (k := length U) (t := ps) (st := st) as (b & Hb); auto.
    - apply named_axioms. intros a Ia q Iq. apply Forall_forall. intros x Ix _. unfold D. apply in_or_app. right.
      apply in_flat_map. exists q. split; auto. apply in_flat_map. exists a. auto.
    - eapply reachable_ok; eauto.
    - apply unknown_length.
    - exists b. intros rounds L. apply Hb. lia.
  Qed.

  Lemma C32_outcome_lemma ps st : pbuilt ps -> reachable_store objects ar axioms st ->
    match consistent_partial om axioms fuel (ps, st) with Ok _ | Throw _ => True | _ => False end.
  Proof.
    intros B R. apply pok_pbuilt in B. set (D := objects ++ flat_map pargs (flat_map (fun a => eff_lits (op_effs (ax_op a))) axioms)).
    pose proof (rounds_answer objects W Kc ar rank axioms Hwf Hgood Hrank D (incl_appl _ (incl_refl _)) effect_name) as X.
    specialize (X ltac:(apply named_axioms; intros a Ia q Iq; apply Forall_forall; intros x Ix _; unfold D; apply in_or_app;
      right; apply in_flat_map; exists q; split; auto; apply in_flat_map; exists a; auto) fuel Hf 51 ps st B
      (reachable_ok objects ar rank _ _ W Hgood Hrank R)).
    unfold consistent_partial. destruct (consistent_rounds om axioms fuel 51 (ps, st)) as [[t' st']| | | |]; auto.
  Qed.

  Lemma C32_answers_lemma sig ps st U s fuel' st2 : Forall (typed_axiom objects sig) axioms ->
    pbuilt ps -> reachable_store objects ar axioms st -> lists_unknown objects ar axioms ps U -> length U <= 50 ->
    built s -> completes s ps -> is_valid_state om axioms fuel' s st2 = Ok true ->
    exists ps' st', consistent_partial om axioms fuel (ps, st) = Ok (ps', st').
  Proof.
    intros Ht B R HU L Bs C V. pose proof B as (Bp & Bn & _). apply pok_pbuilt in B.
    apply (valid_iff om axioms fuel' s st2 (built_wf s Bs)) in V.
    apply (stuck_respects objects W Kc axioms s Hwf (built_wf s Bs)) in V.
    unfold consistent_partial.
    destruct (rounds_end objects W Kc ar rank axioms Hwf Hgood Hrank objects (incl_refl _) effect_name) with
      (fuel := fuel) (sig := sig) (s := s) (ps := ps) (U := U) (left := 51) (t := ps) (st := st) as ([ps' st'] & E); auto.
    - apply named_axioms. intros a Ia. rewrite Forall_forall in Ht. destruct (Ht a Ia) as [Te _].
      exact (typed_lits objects sig _ _ Te).
    - eapply reachable_ok; eauto.
    - split; auto. split; apply built_wf; auto.
    - pose proof (unknown_length U ps). lia.
    - eauto.
  Qed.
End Theorems.
