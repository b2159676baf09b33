(** States written as text and read back (C65): facts. *)
From Coq Require Import Ascii String List Bool NArith ZArith Arith Lia Permutation.
From Verif.Model Require Import Base Order HashSet Object Proposition State CombinationGenerator
  ParameterGenerator Syntax Formula Effects Derived NormalForm Consistency Text Pddl Python.
From Verif.Spec Require Import SetSpec CartesianSpec TypingSpec FormulaSpec EffectSpec NormalFormSpec AxiomSpec DerivedSpec
  TextSpec PddlSpec PythonSpec.
From Verif.Proofs Require Import OrderFacts HashSetFacts StateFacts StateHistory CombinationFacts ParameterFacts
  FormulaFacts EffectFacts EffectLink EffectTheorems DerivedFacts NormalFormFacts NormalFormGoal AxiomPartial AxiomLoops
  AxiomMeaning AxiomExtend AxiomSound TextFacts PddlFacts PddlTheorems PddlListing PddlHistory NormalizeFacts.
Import ListNotations.
Local Open Scope string_scope.
Local Open Scope list_scope.

(** ** States over declared objects *)
Section Over.
  Context `{SH : StdHash} (objects : list object).
  Definition okp (q : prop) : Prop := free_of "("%char (pname q) /\ Forall (fun o => In o objects) (pargs q).

  Lemma over_empty : over objects st_empty.
  Proof. split; [exists []; reflexivity|]. intros q []. Qed.

  Lemma over_insert q s : over objects s -> okp q -> over objects (snd (st_insert q s)).
  Proof.
    intros [B H] O. split; [exact (built_run_from s [Ins q] B)|]. intros x I.
    apply insert_elements in I; [|apply built_wf; auto]. destruct I as [->|I]; auto.
  Qed.

  Lemma over_erase q s : over objects s -> over objects (snd (st_erase q s)).
  Proof.
    intros [B H]. split; [exact (built_run_from s [Del q] B)|]. intros x I. apply H.
    destruct (hs_erase_spec prop_key atom_dec _ _ _ prop_ltb_ok prop_eqb_ok prop_hash_key q s (built_wf _ B))
      as [[C E]|(C & y & s' & E & W' & Ky & P)].
    - unfold st_erase in I. rewrite E in I. auto.
    - unfold st_erase in I. rewrite E in I. cbn in I. apply (Permutation_in x (Permutation_sym P)). right. exact I.
  Qed.

  Lemma over_ins q s : over objects s -> okp q -> over objects (snd (st_ins q s)).
  Proof. rewrite st_ins_eq. apply over_insert. Qed.
  Lemma over_del q s : over objects s -> over objects (snd (st_del q s)).
  Proof. rewrite st_del_eq. apply over_erase. Qed.

  Lemma over_ps_insert q s : over_partial objects s -> okp q -> over_partial objects (snd (ps_insert q s)).
  Proof.
    intros [A B] O. unfold ps_insert. pose proof (over_erase q _ B) as B'. pose proof (over_insert q _ A O) as A'.
    destruct (st_erase q (ps_neg s)), (st_insert q (ps_pos s)). split; auto.
  Qed.
  Lemma over_ps_erase q s : over_partial objects s -> okp q -> over_partial objects (snd (ps_erase q s)).
  Proof.
    intros [A B] O. unfold ps_erase. pose proof (over_erase q _ A) as A'. pose proof (over_insert q _ B O) as B'.
    destruct (st_erase q (ps_pos s)), (st_insert q (ps_neg s)). split; auto.
  Qed.

  Lemma names_inj (ND : NoDup (map oname objects)) (x y : object) :
    In x objects -> In y objects -> oname x = oname y -> x = y.
  Proof.
    intros Ix Iy E. induction objects as [|o l IH]; [destruct Ix|]. inversion ND as [|? ? N N']; subst.
    destruct Ix as [->|Ix], Iy as [->|Iy]; auto.
    - destruct N. rewrite E. apply in_map; auto.
    - destruct N. rewrite <- E. apply in_map; auto.
  Qed.
  Lemma args_inj (ND : NoDup (map oname objects)) : forall l l', Forall (fun o => In o objects) l ->
    Forall (fun o => In o objects) l' -> map oname l = map oname l' -> l = l'.
  Proof.
    induction l as [|x l IH]; intros [|y l'] F F' E; try discriminate; auto.
    inversion F; inversion F'; subst. cbn in E. injection E as E1 E2. f_equal; auto. apply names_inj; auto.
  Qed.

  (** Such a State is determined by its atoms. *)
  Lemma over_unique s s' : NoDup (map oname objects) -> over objects s -> over objects s' ->
    (forall a, atoms s a <-> atoms s' a) -> s = s'.
  Proof.
    intros ND [B H] [B' H'] A.
    pose proof (built_wf _ B) as W. pose proof (built_wf _ B') as W'.
    assert (E : buckets s = buckets s').
    { apply map_keys_eq.
      - apply (hs_canonical prop_key atom_dec _ _ _ prop_ltb_ok prop_eqb_ok prop_hash_key); auto.
        intros x. apply eq_true_iff_eq. change (st_contains s x = true <-> st_contains s' x = true).
        rewrite !contains_mem by auto. rewrite <- !atoms_mem by auto. apply A.
      - intros x y Ix Iy. destruct (H x Ix) as [_ Fx], (H' y Iy) as [_ Fy]. unfold prop_key. intros [= E1 E2].
        destruct x as [n l], y as [n' l']. cbn in *. subst n'. f_equal. apply args_inj; auto. }
    assert (Z : hsize s = hsize s').
    { rewrite (hw_size _ _ _ W), (hw_size _ _ _ W'). unfold hs_elements. rewrite E. auto. }
    destruct s, s'. cbn in *. congruence.
  Qed.

  Lemma call_text_free x name ws : call_text x name ws -> free_of "("%char name.
  Proof. destruct 1; auto. Qed.

  Lemma named_In ws : forall args, Forall2 (first_named oname objects) ws args -> Forall (fun o => In o objects) args.
  Proof. induction 1 as [|w o ws args N F IH]; constructor; auto. apply (first_named_In oname) in N. tauto. Qed.

  Lemma parse_over strs s : parse_state objects strs = Ok s -> over objects s.
  Proof.
    unfold parse_state. generalize over_empty. generalize st_empty.
    induction strs as [|x l IH]; intros s0 O E; cbn [foldM] in E; [injection E as <-; auto|].
    apply bind_Ok in E as (s1 & E & F). apply bind_Ok in E as (q & E & Q). injection Q as <-.
    refine (IH _ (over_insert q s0 O _) F).
    apply parse_prop_spec in E as (name & ws & args & T & N & ->). split; cbn.
    - eapply call_text_free; eauto.
    - eapply named_In; eauto.
  Qed.

  Lemma over_printable s : Forall word (map oname objects) -> over objects s -> printable objects s.
  Proof.
    intros Wd [B H] q C. apply contains_mem in C; [|apply built_wf; auto].
    destruct (mem_exists _ _ C) as (x & I & K). destruct (H x I) as [F A].
    unfold prop_key in K. injection K as K1 K2. rewrite <- K1. split; auto.
    assert (X : forall n, In n (map oname (pargs q)) -> exists o, In o objects /\ oname o = n).
    { intros n In_. rewrite <- K2 in In_. apply in_map_iff in In_ as (o & <- & Io). rewrite Forall_forall in A. eauto. }
    split.
    - rewrite Forall_forall in Wd |- *. intros n In_. destruct (X n In_) as (o & Io & <-). apply Wd, in_map; auto.
    - intros o Io. destruct (X (oname o) (in_map _ _ _ Io)) as (o' & ? & ?). eauto.
  Qed.

  (** Reading back what was written, in any order. *)
  Lemma stringify_In s x : built s -> In x (stringify s) <-> exists p, st_contains s p = true /\ x = prop_to_string p.
  Proof.
    intros B. unfold stringify. rewrite in_map_iff. split.
    - intros (p & <- & I). exists p. split; auto. apply contains_mem; [apply built_wf; auto|]. apply in_map. exact I.
    - intros (p & C & ->). apply contains_mem in C; [|apply built_wf; auto].
      destruct (mem_exists _ _ C) as (q & I & K). exists q. split; auto. apply to_string_key; auto.
  Qed.

  Lemma parse_back strs s : NoDup (map oname objects) -> Forall word (map oname objects) -> over objects s ->
    same_strings strs (stringify s) -> parse_state objects strs = Ok s.
  Proof.
    intros ND Wd O Sm. pose proof O as [B _].
    destruct (C16_lemma objects s strs B (over_printable s Wd O)) as (s' & E & B' & Q).
    { intros x. rewrite (Sm x). apply stringify_In; auto. }
    rewrite E. f_equal. apply over_unique; auto; [eapply parse_over; eauto|].
    intros a. rewrite !atoms_mem by (apply built_wf; auto). revert a. apply st_eqb_spec; auto using built_wf.
  Qed.

  Lemma same_refl_s l : same_strings l l. Proof. intros x. tauto. Qed.

  (** What is written spells the atoms. *)
  Lemma stringify_spells s t : Forall word (map oname objects) -> over objects s -> represents s t ->
    spells objects (stringify s) t.
  Proof.
    intros Wd O [B A]. pose proof (over_printable s Wd O) as P.
    assert (X : forall q, st_contains s q = true -> call_text (prop_to_string q) (pname q) (map oname (pargs q))).
    { intros q C. destruct (P q C) as (F & Fw & _). destruct (C15_lemma (pname q) (pargs q) F Fw) as [Eh Et].
      apply call_text_iff. unfold prop_to_string. auto. }
    split.
    - intros x I. apply stringify_In in I as (q & C & ->); auto. destruct (P q C) as (_ & _ & D).
      exists (pname q), (map oname (pargs q)). split; auto. intros w Iw. apply in_map_iff in Iw as (o & <- & Io).
      destruct (D o Io) as (o' & ? & ?). eauto.
    - intros a. rewrite <- A. split.
      + intros (q & <- & C). exists (prop_to_string q). split; [apply stringify_In; eauto|]. apply (X q C).
      + intros (x & I & T). apply stringify_In in I as (q & C & ->); auto. exists q. split; auto.
        pose proof (X q C) as T'. apply call_text_iff in T as [E1 E2]. apply call_text_iff in T' as [E3 E4].
        destruct a. cbn in *. unfold prop_key. congruence.
  Qed.

  Lemma stringify_nodup s : NoDup (map oname objects) -> Forall word (map oname objects) -> over objects s ->
    NoDup (stringify s).
  Proof.
    intros ND Wd O. pose proof O as [B _]. pose proof (over_printable s Wd O) as P. unfold stringify.
    pose proof (st_nodup s (built_wf _ B)) as N.
    assert (Q : forall q, In q (st_elements s) -> st_contains s q = true).
    { intros q I. apply contains_mem; [apply built_wf; auto|]. apply in_map; auto. }
    assert (X : forall q q', In q (st_elements s) -> In q' (st_elements s) -> prop_to_string q = prop_to_string q' -> q = q').
    { intros q q' I I' E. apply (nodup_key (st_elements s)); auto.
      destruct (P q (Q q I)) as (F & Fw & _), (P q' (Q q' I')) as (F' & Fw' & _).
      destruct (C15_lemma _ _ F Fw) as [E1 E2], (C15_lemma _ _ F' Fw') as [E3 E4].
      unfold prop_to_string in E. rewrite E in *. unfold prop_key. congruence. }
    apply NoDup_map_inv in N. revert X. generalize (st_elements s) N. clear.
    induction l as [|q l IH]; intros N X; cbn; constructor.
    - intros I. apply in_map_iff in I as (q' & E & I). inversion N; subst. apply H1.
      rewrite <- (X q' q); auto; [right; auto|left; auto].
    - inversion N; subst. apply IH; auto. intros; apply X; auto; right; auto.
  Qed.
End Over.

(** ** Effects stay over declared objects *)
Lemma declared_effs_parts objects fs adds dels cs : declared_effs objects (Effs fs adds dels cs) ->
  (forall vars b, In (vars, b) fs -> declared_effs objects b) /\
  (forall q, In q adds \/ In q dels -> Forall (fun x => okind x = KConst -> In x objects) (pargs q)) /\
  (forall g b, In (g, b) cs -> declared_effs objects b).
Proof.
  cbn [declared_effs]. intros (F & A & D & C). rewrite Forall_forall in A, D. split; [|split].
  - clear -F. induction fs as [|[v e] fs IH]; intros vars b I; [destruct I|]. destruct F as [F1 F2].
    destruct I as [[= <- <-]|I]; eauto.
  - intros q [I|I]; auto.
  - clear -C. induction cs as [|[g e] cs IH]; intros g' b I; [destruct I|]. destruct C as [[_ C1] C2].
    destruct I as [[= <- <-]|I]; eauto.
Qed.

Section Invariant.
  Context {T : Type} (ins del : prop -> T -> nat * T)
          (cond : T -> goal -> list object -> list object -> outcome bool)
          (objects : list object) (axioms : list axiom) (ar : string -> nat) (I : T -> Prop).
  Context (Hins : forall q t, okp objects q -> I t -> I (snd (ins q t)))
          (Hdel : forall q t, okp objects q -> I t -> I (snd (del q t)))
          (Hcond : forall t g params vals, length params = length vals -> wf_goal objects (map oname params) g ->
             match cond t g params vals with Ok _ | Throw _ => True | _ => False end)
          (Hgood : Forall (good_axiom objects ar) axioms)
          (Htext : Forall (fun a => text_effs objects (op_effs (ax_op a))) axioms).
  Notation fine := (fine I (fun _ => True) True).

  Definition ready (params vals : list object) (e : effs) : Prop :=
    length params = length vals /\ Forall (fun o => In o objects) vals /\
    wf_effs objects (map oname params) e /\ eff_arity ar e /\ text_effs objects e.

  Definition rec_over (rec : nat -> list object -> T -> outcome (nat * T)) : Prop :=
    forall i a vals t, nth_error axioms i = Some a -> length (op_params (ax_op a)) = length vals ->
      Forall (fun o => In o objects) vals -> I t -> fine (rec i vals t).

  Lemma sub_args_In params vals xs : length params = length vals -> Forall (fun o => In o objects) vals ->
    Forall (arg_ok (map oname params)) xs -> Forall (fun x => okind x = KConst -> In x objects) xs ->
    Forall (fun o => In o objects) (sub_args params vals xs).
  Proof.
    intros Ll Fv Fa Fd. unfold sub_args. rewrite Forall_map. rewrite Forall_forall in *. intros x Ix.
    specialize (Fa x Ix). specialize (Fd x Ix). unfold arg_ok in Fa. unfold denote. destruct (okind x); auto.
    destruct (bind_pick params vals (fun _ => null_object) (oname x) Ll Fa) as (i & v & o & _ & N & _ & ->).
    apply Fv. eapply nth_error_In; eauto.
  Qed.

  Lemma context_In a l vals : linear_context a -> length (ax_args a) = length l -> Forall (fun o => In o objects) l ->
    context_values a l = Some vals ->
    length (op_params (ax_op a)) = length vals /\ Forall (fun o => In o objects) vals.
  Proof.
    intros Lc Ll Fl E. unfold context_values in E. destruct (consts_match _ _ l); [|discriminate]. injection E as <-.
    split; [rewrite map_length; auto|]. rewrite Forall_map. rewrite Forall_forall in Fl |- *. intros p Ip.
    destruct (linear_at a p Lc Ip) as (i & c & Ni & Ec & U).
    assert (No : exists o, nth_error l i = Some o).
    { destruct (nth_error l i) eqn:E; eauto. apply nth_error_None in E. rewrite <- Ll in E.
      apply nth_error_None in E. congruence. }
    destruct No as (o & No). rewrite (value_of_at p _ _ i c o Ni No Ec).
    - apply Fl. eapply nth_error_In; eauto.
    - intros j d Lj Nj Ed. rewrite (U j d Nj Ed) in Lj. lia.
  Qed.

  Lemma lit_over rec params vals (pos : bool) q t : rec_over rec -> length params = length vals ->
    Forall (fun o => In o objects) vals -> Forall (arg_ok (map oname params)) (pargs q) ->
    arity_ok objects (pname q) (pargs q) -> length (pargs q) = ar (pname q) ->
    Forall (fun x => okind x = KConst -> In x objects) (pargs q) -> free_of "("%char (pname q) -> I t ->
    fine (sub_lit ins del objects axioms rec params vals pos q t).
  Proof.
    intros Hrec Ll Fv Fa [A1 A2] Ar Fd Fn It. unfold sub_lit.
    pose proof (sub_args_In params vals (pargs q) Ll Fv Fa Fd) as Fl.
    assert (Lg : length (sub_args params vals (pargs q)) = length (pargs q)) by apply map_length.
    set (l := sub_args params vals (pargs q)) in *. clearbody l. rewrite <- Lg in A1, A2.
    destruct (String.eqb_spec (pname q) "=") as [Eq|Ne].
    { specialize (A1 Eq). destruct l as [|a [|b [|]]]; try discriminate. destruct (Bool.eqb _ pos); cbn; auto. }
    destruct (is_typeb objects (pname q)) eqn:Et.
    { apply is_typeb_spec in Et. specialize (A2 Ne Et). destruct l as [|a [|]]; try discriminate.
      destruct (Bool.eqb _ pos); cbn; auto. }
    assert (O : okp objects (mkProp (pname q) l)) by (split; auto).
    assert (Hst : I (snd ((if pos then ins else del) (mkProp (pname q) l) t))) by (destruct pos; auto).
    destruct ((if pos then ins else del) (mkProp (pname q) l) t) as [n t']. cbn [snd] in Hst.
    destruct (Nat.eqb n 0); [cbn; auto|].
    pose proof (sub_fire_fine axioms I (fun _ => True) True rec pos (pname q) l) as F.
    assert (Hfire : forall i a vals0 t0, nth_error axioms i = Some a -> ax_pos a = pos -> ax_name a = pname q ->
      context_values a l = Some vals0 -> I t0 -> fine (rec i vals0 t0)).
    { intros i a vals0 t0 Ni Ep En Ev I0. destruct (good_axiom_nth _ _ _ _ _ Hgood Ni) as [_ Lc Ga].
      destruct (context_In a l vals0 Lc ltac:(congruence) Fl Ev). apply (Hrec i a); auto. }
    specialize (F Hfire axioms [] t' eq_refl Hst). cbn [length] in F.
    destruct (sub_fire rec 0 axioms pos (pname q) l t'); cbn [bind]; auto. cbn. auto.
  Qed.

  Lemma effs_over rec : rec_over rec -> forall e params vals t, ready params vals e -> I t ->
    fine (sub_effs ins del cond objects axioms rec params vals e t).
  Proof.
    intros Hrec. apply (sub_effs_fine ins del cond objects axioms I (fun _ => True) True); auto.
    intros params vals fs adds dels cs (Ll & Fv & Wf & Ar & Dc & Nm).
    apply wf_effs_eq in Wf. destruct Wf as (Wf & Wa & Wd & Wc).
    apply eff_arity_eq in Ar. destruct Ar as (Af & Aa & Ad & Ac).
    apply declared_effs_parts in Dc. destruct Dc as (Df & Dl & Dc).
    rewrite Forall_forall in Wa, Wd, Aa, Ad. split; [|split; [|split]].
    - intros vars b objs J Wo. destruct (Wf vars b J) as (Nv & Cv & Wb).
      split; [rewrite !app_length, (well_typed_length _ _ _ Wo); auto|].
      split; [apply Forall_app; split; auto; eapply well_typed_In; eauto|].
      split; [rewrite map_app; auto|]. split; [eapply Af; eauto|]. split; [eapply Df; eauto|].
      intros x Ix. apply Nm. apply (sigs_forall _ _ _ _ vars b J x Ix).
    - intros q t J It. destruct (Wa q J). apply lit_over; auto.
      apply (Nm (true, pname q)). apply sigs_add; auto.
    - intros q t J It. destruct (Wd q J). apply lit_over; auto.
      apply (Nm (false, pname q)). apply sigs_del; auto.
    - intros g b t J It. destruct (Wc g b J) as [Wg Wb]. pose proof (Hcond t g params vals Ll Wg) as C.
      destruct (cond t g params vals) as [[|]| | | |]; auto.
      split; auto. split; auto. split; auto. split; [eapply Ac; eauto|]. split; [eapply Dc; eauto|].
      intros x Ix. apply Nm. apply (sigs_cond _ _ _ _ g b J x Ix).
  Qed.

  Lemma axiom_ready i a vals : nth_error axioms i = Some a -> length (op_params (ax_op a)) = length vals ->
    Forall (fun o => In o objects) vals -> ready (op_params (ax_op a)) vals (op_effs (ax_op a)).
  Proof.
    intros Ni Ll Fv. destruct (good_axiom_nth _ _ _ _ _ Hgood Ni) as [[G1 G2 G3 G4] _ _].
    rewrite Forall_forall in Htext. pose proof (Htext a (nth_error_In _ _ Ni)). repeat (split; auto); tauto.
  Qed.

  Lemma axiom_over fuel : rec_over (sub_axiom ins del cond objects axioms fuel).
  Proof.
    induction fuel as [|fuel IH]; intros i a vals t Ni Ll Fv It; cbn [sub_axiom]; [cbn; auto|].
    rewrite Ni. apply effs_over; auto. eapply axiom_ready; eauto.
  Qed.
End Invariant.

Section Link.
  Context `{SH : StdHash}.
  Context (objects : list object) (axioms : list axiom) (ar : string -> nat) (rank : nat -> nat).
  Context (W : Forall (fun o => wf_type (otype o)) objects)
          (Hgood : Forall (good_axiom objects ar) axioms) (Hrank : ranked axioms rank)
          (Htext : Forall (fun a => text_effs objects (op_effs (ax_op a))) axioms).
  Notation om := (create_object_map objects).
  Notation reachable := (reachable_store objects ar axioms).

  Lemma apply_over {T} ins del cond (I : T -> Prop) fuel ow o args t st n t' st' :
    (forall q t, okp objects q -> I t -> I (snd (ins q t))) ->
    (forall q t, okp objects q -> I t -> I (snd (del q t))) ->
    (forall t g params vals, length params = length vals -> wf_goal objects (map oname params) g ->
       match cond t g params vals with Ok _ | Throw _ => True | _ => False end) ->
    good_op objects ar o -> text_effs objects (op_effs o) -> length (op_params o) = length args ->
    Forall (fun x => In x objects) args -> store_ok st ->
    match ow with OAct _ => True | OAx i => exists a, nth_error axioms i = Some a /\ ax_op a = o end ->
    I t -> apply_op ins del cond om axioms fuel ow o args (t, st) = Ok (n, (t', st')) -> I t'.
  Proof.
    intros Hi Hd Hc G Tx Ll Fa So Ho It E.
    pose proof (apply_op_link ins del cond objects axioms ar rank fuel ow o args t st W Hgood Hrank G Ll So Ho) as K.
    rewrite E in K. destruct G as [G1 G2 G3 G4].
    pose proof (effs_over ins del cond objects axioms ar I Hi Hd Hc Hgood _
      (axiom_over ins del cond objects axioms ar I Hi Hd Hc Hgood Htext fuel) (op_effs o) (op_params o) args t) as F.
    destruct (sub_effs _ _ _ _ _ _ _ _ _ t) as [[m u]| | | |]; cbn in K; try tauto. destruct K as (-> & -> & _).
    apply F; auto. repeat (split; auto); apply Tx.
  Qed.

  Lemma cond_state_total (t : state) g params vals : length params = length vals -> wf_goal objects (map oname params) g ->
    match cond_state om t g params vals with Ok _ | Throw _ => True | _ => False end.
  Proof.
    intros Ll Wg. unfold cond_state. destruct (eval_state_semantics objects t g params vals no_env W Ll Wg) as (b & -> & _). auto.
  Qed.
  Lemma cond_partial_total (t : partial_state) g params vals : length params = length vals ->
    wf_goal objects (map oname params) g ->
    match cond_partial om t g params vals with Ok _ | Throw _ => True | _ => False end.
  Proof.
    intros Ll Wg. unfold cond_partial. destruct (eval_optional_total objects t g W params vals Ll Wg) as (r & ->).
    cbn. destruct r as [[|]|]; auto.
  Qed.

  Lemma state_over fuel ow o args s st n s' st' :
    good_op objects ar o -> text_effs objects (op_effs o) -> length (op_params o) = length args ->
    Forall (fun x => In x objects) args -> reachable st ->
    match ow with OAct _ => True | OAx i => exists a, nth_error axioms i = Some a /\ ax_op a = o end ->
    over objects s -> apply_state fuel om axioms ow o args (s, st) = Ok (n, (s', st')) -> over objects s'.
  Proof.
    intros G Tx Ll Fa R Ho O E. unfold apply_state in E.
    refine (apply_over st_ins st_del (cond_state om) (over objects) fuel ow o args s st n s' st' _ _ _ G Tx Ll Fa _ Ho O E).
    - intros q t Q Ot. apply over_ins; auto.
    - intros q t Q Ot. apply over_del; auto.
    - apply cond_state_total.
    - exact (reachable_ok objects ar rank _ _ W Hgood Hrank R).
  Qed.
  Lemma partial_over fuel ow o args s st n s' st' :
    good_op objects ar o -> text_effs objects (op_effs o) -> length (op_params o) = length args ->
    Forall (fun x => In x objects) args -> reachable st ->
    match ow with OAct _ => True | OAx i => exists a, nth_error axioms i = Some a /\ ax_op a = o end ->
    over_partial objects s -> apply_partial fuel om axioms ow o args (s, st) = Ok (n, (s', st')) -> over_partial objects s'.
  Proof.
    intros G Tx Ll Fa R Ho O E. unfold apply_partial in E.
    refine (apply_over ps_insert ps_erase (cond_partial om) (over_partial objects) fuel ow o args s st n s' st' _ _ _ G Tx Ll Fa _ Ho O E).
    - intros q t Q Ot. apply over_ps_insert; auto.
    - intros q t Q Ot. apply over_ps_erase; auto.
    - apply cond_partial_total.
    - exact (reachable_ok objects ar rank _ _ W Hgood Hrank R).
  Qed.
End Link.
