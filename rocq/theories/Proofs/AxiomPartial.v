(** Consistency of partial states: rejection is sound. *)
From Coq Require Import String List Bool NArith ZArith Lia.
From Verif.Model Require Import Base HashSet Object Proposition State CombinationGenerator
  ParameterGenerator Syntax Formula Effects NormalForm Consistency.
From Verif.Spec Require Import SetSpec TypingSpec FormulaSpec EffectSpec NormalFormSpec AxiomSpec.
From Verif.Proofs Require Import OrderFacts HashSetFacts StateFacts StateHistory ParameterFacts FormulaFacts EffectFacts
  EffectLink EffectTheorems NormalFormFacts NormalFormGoal AxiomZero AxiomLoops AxiomMeaning.
Import ListNotations.
Local Open Scope string_scope.
Local Open Scope list_scope.

(** ** What effects by substitution can return *)
Lemma Forall2_length' {A B} {R : A -> B -> Prop} {l m} : Forall2 R l m -> length l = length m.
Proof. induction 1; cbn; auto. Qed.

Section Fine.
  Context {T : Type} (ins del : prop -> T -> nat * T)
          (cond : T -> goal -> list object -> list object -> outcome bool)
          (objects : list object) (axioms : list axiom).
  Context (I : T -> Prop) (small : nat -> Prop) (thr : Prop).
  Hypothesis small_0 : small 0.
  Hypothesis small_max : forall n m, small n -> small m -> small (Nat.max n m).

  Definition fine (o : outcome (nat * T)) : Prop :=
    match o with Ok (n, t) => small n /\ I t | Throw _ => thr | OutOfFuel => True | _ => False end.

  Lemma in_turn_fine {A} (f : A -> T -> outcome (nat * T)) l :
    (forall a t, In a l -> I t -> fine (f a t)) ->
    forall n t, small n -> I t -> fine (in_turn f l n t).
  Proof.
    induction l as [|a l IH]; intros H n t Sn It; cbn [in_turn]; [cbn; auto|].
    pose proof (H a t (or_introl eq_refl) It) as F.
    destruct (f a t) as [[m t']| | | |] eqn:E; cbn [bind] in *; auto.
    destruct F as [Sm It']. apply IH; auto. intros; apply H; auto. right; auto.
  Qed.

  Lemma fine_bind o (g : nat * T -> outcome (nat * T)) :
    fine o -> (forall n t, small n -> I t -> fine (g (n, t))) -> fine (let* x := o in g x).
  Proof. destruct o as [[n t]| | | |]; cbn; auto. intros [S It] H. apply H; auto. Qed.

  Lemma sub_effs_fine rec (P : list object -> list object -> effs -> Prop) :
    (forall params vals fs adds dels cs, P params vals (Effs fs adds dels cs) ->
       (forall vars b objs, In (vars, b) fs -> well_typed objects vars objs -> P (params ++ vars) (vals ++ objs) b) /\
       (forall p t, In p adds -> I t -> fine (sub_lit ins del objects axioms rec params vals true p t)) /\
       (forall p t, In p dels -> I t -> fine (sub_lit ins del objects axioms rec params vals false p t)) /\
       (forall g b t, In (g, b) cs -> I t ->
          match cond t g params vals with
          | Ok false => True | Ok true => P params vals b | Throw _ => thr | OutOfFuel => True | _ => False
          end)) ->
    forall e params vals t, P params vals e -> I t ->
      fine (sub_effs ins del cond objects axioms rec params vals e t).
  Proof.
    intros HP. induction e as [fs adds dels cs IHf IHc] using effs_ind'. intros params vals t Pe It.
    destruct (HP _ _ _ _ _ _ Pe) as (Hf & Ha & Hd & Hc). cbn [sub_effs].
    apply fine_bind.
    { apply in_turn_fine; auto. intros [vars b] t0 If It0. cbn [fst snd].
      apply in_turn_fine; auto. intros objs t1 Io It1. apply (IHf vars b If); auto.
      apply (Hf vars b); auto. apply tuples_In in Io; auto. }
    intros n1 t1 S1 I1. apply fine_bind; [apply in_turn_fine; auto|].
    intros n2 t2 S2 I2. apply fine_bind; [apply in_turn_fine; auto|].
    intros n3 t3 S3 I3. apply in_turn_fine; auto. intros [g b] t4 Ic I4. cbn [fst snd].
    pose proof (Hc g b t4 Ic I4) as C. destruct (cond t4 g params vals) as [[|]| | | |]; cbn [bind]; auto.
    - apply (IHc g b Ic); auto.
    - cbn. auto.
  Qed.

  Lemma sub_fire_fine rec pos name l :
    (forall i a vals t, nth_error axioms i = Some a -> ax_pos a = pos -> ax_name a = name ->
       context_values a l = Some vals -> I t -> fine (rec i vals t)) ->
    forall axs pre t, axioms = pre ++ axs -> I t ->
    match sub_fire rec (length pre) axs pos name l t with
    | Ok t' => I t' | Throw _ => thr | OutOfFuel => True | _ => False
    end.
  Proof.
    intros H. induction axs as [|a axs IH]; intros pre t E It; cbn [sub_fire]; auto.
    assert (N : nth_error axioms (length pre) = Some a).
    { rewrite E, nth_error_app2, Nat.sub_diag by lia. reflexivity. }
    assert (E' : axioms = (pre ++ [a]) ++ axs) by (rewrite <- app_assoc; exact E).
    specialize (fun t => IH (pre ++ [a]) t E'). rewrite app_length in IH. cbn in IH. rewrite Nat.add_1_r in IH.
    destruct (Bool.eqb (ax_pos a) pos && String.eqb (ax_name a) name) eqn:Em; [|apply IH; auto].
    apply andb_prop in Em. destruct Em as [E1 E2]. apply eqb_prop in E1. apply String.eqb_eq in E2.
    destruct (context_values a l) as [vals|] eqn:Ev; [|apply IH; auto].
    pose proof (H _ a vals t N E1 E2 Ev It) as F.
    destruct (rec (length pre) vals t) as [[n t']| | | |]; cbn [bind]; auto. apply IH. apply F.
  Qed.
End Fine.

Section WithHash.
  Context `{SH : StdHash}.

  (** ** Evaluating formulas of the fragment on a partial state never fails *)
  Lemma eval_optional_total objects s g : Forall (fun o => wf_type (otype o)) objects ->
    forall params args, length params = length args -> wf_goal objects (map oname params) g ->
    exists r, eval_optional (create_object_map objects) s g params args = Ok r.
  Proof.
    intros W params args L Wf.
    assert (K : match eval_partial (create_object_map objects) s g params args with
                | Ok _ | Throw EUnknown => True | _ => False end).
    2:{ unfold eval_optional. destruct (eval_partial _ s g params args) as [|[]| | |]; try destruct K; eauto. }
    unfold eval_partial. revert params args L Wf.
    assert (Hc : forall p, match ps_contains s p with Ok _ | Throw EUnknown => True | _ => False end).
    { intros p. unfold ps_contains. destruct (st_contains (ps_pos s) p); auto. destruct (st_contains (ps_neg s) p); auto. }
    assert (Hd : forall p, match ps_does_not_contain s p with Ok _ | Throw EUnknown => True | _ => False end).
    { intros p. unfold ps_does_not_contain. destruct (st_contains (ps_pos s) p); auto. destruct (st_contains (ps_neg s) p); auto. }
    induction g as [n l|gs IH|gs IH|g IH|vs g IH|vs g IH|] using goal_ind'; intros params args L Wf.
    - destruct Wf as [F [A1 A2]]. cbn [eval]. unfold eval_atom. rewrite (app_fun_denote _ _ _ no_env L F). cbn [bind].
      set (d := map (denote (bind_vars params args no_env)) l).
      assert (Ll : length d = length l) by apply map_length. rewrite <- Ll in A1, A2.
      destruct (String.eqb_spec n "=") as [->|Nn].
      + specialize (A1 eq_refl). destruct d as [|a [|b [|]]]; try discriminate. cbn. auto.
      + destruct (om_find (create_object_map objects) n) as [v|] eqn:O; [|apply Hc].
        assert (T : is_type objects n) by (apply om_find_type; eauto).
        specialize (A2 Nn T). destruct d as [|a [|]]; try discriminate. cbn. auto.
    - cbn [eval]. induction IH as [|g gs Hg _ IHg]; auto. destruct Wf as [W1 W2].
      specialize (Hg params args L W1). specialize (IHg W2).
      destruct (eval _ _ true _ g params args) as [[|]|[]| | |]; cbn [bind]; auto.
    - cbn [eval]. induction IH as [|g gs Hg _ IHg]; auto. destruct Wf as [W1 W2].
      specialize (Hg params args L W1). specialize (IHg W2).
      destruct (eval _ _ true _ g params args) as [[|]|[]| | |]; cbn [bind]; auto.
    - cbn [eval]. destruct (special_neg true (create_object_map objects) g) as [[n xs]|] eqn:SN.
      + assert (Eg : g = GSimple n xs).
        { destruct g; try discriminate. cbn in SN. destruct (negb (String.eqb name "=")); cbn in SN; [|discriminate].
          destruct (om_find _ name); [discriminate|]. injection SN as -> ->. auto. }
        subst g. destruct Wf as [F A].
        rewrite (app_fun_denote _ _ _ no_env L F). cbn [bind]. apply Hd.
      + specialize (IH params args L Wf). destruct (eval _ _ true _ g params args) as [|[]| | |]; cbn [bind]; auto.
    - destruct Wf as (N & C & Wf). cbn [eval]. destruct (tuples_ok objects vs W N C) as (ts & Et & It). rewrite Et. cbn [bind].
      assert (Hts : forall t, In t ts -> match eval (ps_contains s) (ps_does_not_contain s) true (create_object_map objects) g (params ++ vs) (args ++ t)
                with Ok _ | Throw EUnknown => True | _ => False end).
      { intros t I. apply It in I. apply IH; [rewrite !app_length, (well_typed_length _ _ _ I); lia|rewrite map_app; auto]. }
      clear It Et. induction ts as [|t ts IHt]; cbn [forM_all]; auto. pose proof (Hts t (or_introl eq_refl)) as H.
      destruct (eval _ _ true _ g (params ++ vs) (args ++ t)) as [[|]|[]| | |]; cbn [bind]; auto. apply IHt. intros; apply Hts; right; auto.
    - destruct Wf as (N & C & Wf). cbn [eval]. destruct (tuples_ok objects vs W N C) as (ts & Et & It). rewrite Et. cbn [bind].
      assert (Hts : forall t, In t ts -> match eval (ps_contains s) (ps_does_not_contain s) true (create_object_map objects) g (params ++ vs) (args ++ t)
                with Ok _ | Throw EUnknown => True | _ => False end).
      { intros t I. apply It in I. apply IH; [rewrite !app_length, (well_typed_length _ _ _ I); lia|rewrite map_app; auto]. }
      clear It Et. induction ts as [|t ts IHt]; cbn [forM_ex]; auto. pose proof (Hts t (or_introl eq_refl)) as H.
      destruct (eval _ _ true _ g (params ++ vs) (args ++ t)) as [[|]|[]| | |]; cbn [bind]; auto. apply IHt. intros; apply Hts; right; auto.
    - destruct Wf.
  Qed.

  (** ** Binding the context of an axiom *)
  Lemma bind_skip vars : forall objs e n, ~ In n (map oname vars) -> bind_vars vars objs e n = e n.
  Proof.
    induction vars as [|w vars IH]; intros [|x objs] e n H; auto.
    unfold bind_vars. cbn [combine fold_left fst snd].
    fold (bind_vars vars objs (fun n => if String.eqb n (oname w) then x else e n)).
    rewrite IH by (cbn in H; tauto). cbn in H. destruct (String.eqb_spec n (oname w)); auto.
    exfalso; auto.
  Qed.

  Lemma bind_pick vars : forall objs e n, length vars = length objs -> In n (map oname vars) ->
    exists i v o, nth_error vars i = Some v /\ nth_error objs i = Some o /\ oname v = n /\ bind_vars vars objs e n = o.
  Proof.
    induction vars as [|v vars IH]; intros [|o objs] e n L I; try discriminate; [destruct I|].
    unfold bind_vars. cbn [combine fold_left fst snd].
    fold (bind_vars vars objs (fun n => if String.eqb n (oname v) then o else e n)).
    destruct (in_dec string_dec n (map oname vars)) as [J|J].
    - destruct (IH objs (fun n => if String.eqb n (oname v) then o else e n) n) as (i & w & x & H); auto.
      exists (S i), w, x. exact H.
    - destruct I as [<-|I]; [|tauto]. exists 0, v, o. rewrite bind_skip by auto. rewrite String.eqb_refl. cbn. auto.
  Qed.

  Lemma env_typed objects scope vals e n : well_typed objects scope vals -> In n (map oname scope) ->
    exists v, In v scope /\ oname v = n /\ In (bind_vars scope vals e n) objects /\
      has_type (bind_vars scope vals e n) (type_name (otype v)).
  Proof.
    intros Wt I. destruct (bind_pick scope vals e n (well_typed_length _ _ _ Wt) I) as (i & v & o & N1 & N2 & E & ->).
    exists v. split; [eapply nth_error_In; eauto|]. split; auto.
    clear -Wt N1 N2. revert i N1 N2. unfold well_typed in Wt. induction Wt as [|x y l m H F IH]; intros [|i] N1 N2; try discriminate.
    - cbn in N1, N2. injection N1 as ->. injection N2 as ->. auto.
    - eauto.
  Qed.

  Lemma map_pointwise {A B C} (f : A -> C) (g : B -> C) : forall l m, length l = length m ->
    (forall i a b, nth_error l i = Some a -> nth_error m i = Some b -> f a = g b) -> map f l = map g m.
  Proof.
    induction l as [|a l IH]; intros [|b m] L H; try discriminate; auto. cbn. f_equal.
    - apply (H 0); auto.
    - apply IH; [auto|]. intros i. apply (H (S i)).
  Qed.

  Lemma value_of_at p : forall ctx l i c o, nth_error ctx i = Some c -> nth_error l i = Some o ->
    oname c = oname p -> (forall j d, j < i -> nth_error ctx j = Some d -> oname d <> oname p) ->
    value_of p ctx l = o.
  Proof.
    induction ctx as [|c' ctx IH]; intros [|o' l] [|i] c o N1 N2 E H; try discriminate; cbn [value_of].
    - injection N1 as ->. injection N2 as ->. rewrite (proj2 (String.eqb_eq _ _) E). auto.
    - destruct (String.eqb_spec (oname c') (oname p)) as [Q|Q].
      + destruct (H 0 c'); auto. lia.
      + eapply IH; eauto. intros j d Lj Nj. apply (H (S j)); auto. lia.
  Qed.

  (** The position of a parameter in a linear context. *)
  Lemma linear_at a p : linear_context a -> In p (op_params (ax_op a)) ->
    exists i c, nth_error (ax_args a) i = Some c /\ oname c = oname p /\
      forall j d, nth_error (ax_args a) j = Some d -> oname d = oname p -> j = i.
  Proof.
    intros [_ H] I. destruct (H p I) as (l1 & x & l2 & E & Ex & N1 & N2). exists (length l1), x. rewrite E.
    split; [rewrite nth_error_app2, Nat.sub_diag by lia; auto|]. split; auto.
    intros j d Nj Ed. destruct (Nat.lt_trichotomy j (length l1)) as [Lj|[?|Lj]]; auto.
    - rewrite nth_error_app1 in Nj by auto. destruct N1. rewrite <- Ed. apply in_map. eapply nth_error_In; eauto.
    - rewrite nth_error_app2 in Nj by lia. destruct (j - length l1) as [|k] eqn:K; [lia|]. cbn in Nj.
      destruct N2. rewrite <- Ed. apply in_map. eapply nth_error_In; eauto.
  Qed.

  Definition typed_objs (objects : list object) (l : list object) (tys : list string) : Prop :=
    Forall2 (fun o ty => In o objects /\ has_type o ty) l tys.

  Lemma nth_Forall2 {A B} (R : A -> B -> Prop) l m i a : Forall2 R l m -> nth_error l i = Some a ->
    exists b, nth_error m i = Some b /\ R a b.
  Proof.
    intros F. revert i. induction F as [|x y l m H F IH]; intros [|i] N; try discriminate.
    - cbn in N. injection N as ->. exists y. auto.
    - apply IH; auto.
  Qed.

  Lemma context_typed objects sig a l vals : linear_context a -> general_context objects sig a ->
    typed_objs objects l (sig (ax_name a)) -> context_values a l = Some vals ->
    well_typed objects (op_params (ax_op a)) vals.
  Proof.
    intros Lc Gc Tl E. unfold context_values in E. destruct (consts_match _ _ l); [|discriminate]. injection E as <-.
    unfold well_typed. assert (K : forall p, In p (op_params (ax_op a)) ->
      In (value_of p (ax_args a) l) objects /\ has_type (value_of p (ax_args a) l) (type_name (otype p))).
    { intros p I. destruct (linear_at a p Lc I) as (i & c & Ni & Ec & U).
      destruct (nth_Forall2 _ _ _ _ _ Gc Ni) as (ty & Nt & G).
      assert (No : exists o, nth_error l i = Some o /\ In o objects /\ has_type o ty).
      { clear -Tl Nt. revert i Nt. unfold typed_objs in Tl. induction Tl as [|x y l m H F IH]; intros [|i] Nt; try discriminate; eauto.
        cbn in Nt. injection Nt as ->. exists x. cbn. tauto. }
      destruct No as (o & No & Io & Ho).
      rewrite (value_of_at p _ _ i c o Ni No Ec); eauto.
      intros j d Lj Nj Ed. rewrite (U j d Nj Ed) in Lj. lia. }
    induction (op_params (ax_op a)) as [|p ps IH]; constructor; [apply K; left; auto|]. apply IH. intros q I; apply K; right; auto.
  Qed.

  Lemma context_names a l vals : linear_context a ->
    Forall (arg_ok (map oname (op_params (ax_op a)))) (ax_args a) -> length (ax_args a) = length l ->
    context_values a l = Some vals ->
    map oname (map (denote (bind_vars (op_params (ax_op a)) vals no_env)) (ax_args a)) = map oname l.
  Proof.
    intros Lc Fa Ll E. unfold context_values in E. destruct (consts_match _ _ l) eqn:Cm; [|discriminate]. injection E as <-.
    rewrite map_map. apply map_pointwise; auto. intros i c o Ni No.
    rewrite Forall_forall in Fa. pose proof (Fa c (nth_error_In _ _ Ni)) as Ac. unfold arg_ok in Ac. unfold denote.
    destruct (okind c).
    - unfold consts_match in Cm. rewrite forallb_forall in Cm.
      assert (Ic : In (c, o) (combine (ax_args a) l)).
      { clear -Ni No. revert l i Ni No. induction (ax_args a) as [|x xs IH]; intros [|y l] [|i] Ni No; try discriminate.
        - cbn in *. left. congruence.
        - right. eapply IH; eauto. }
      specialize (Cm _ Ic). cbn [fst snd] in Cm. apply orb_true_iff in Cm. destruct Cm as [Cm|Cm]; [|apply String.eqb_eq; auto].
      apply existsb_exists in Cm. destruct Cm as (p & Ip & Ep). apply String.eqb_eq in Ep. destruct Ac. rewrite <- Ep. apply in_map; auto.
    - destruct (bind_pick (op_params (ax_op a)) (map (fun p => value_of p (ax_args a) l) (op_params (ax_op a))) no_env (oname c))
        as (j & p & x & Np & Nx & Ep & ->); auto; [rewrite map_length; auto|].
      rewrite (map_nth_error _ _ _ Np) in Nx. injection Nx as <-. f_equal.
      destruct (linear_at a p Lc (nth_error_In _ _ Np)) as (k & d & Nk & Ed & U).
      assert (i = k) by (apply (U i c); auto). subst k.
      apply (value_of_at p _ _ i c o); auto. intros j' d' Lj Nj Ej. rewrite (U j' d' Nj Ej) in Lj. lia.
  Qed.

  Lemma args_typed objects scope vals xs tys : well_typed objects scope vals ->
    Forall (arg_ok (map oname scope)) xs -> Forall2 (arg_typed objects scope) xs tys ->
    typed_objs objects (map (denote (bind_vars scope vals no_env)) xs) tys.
  Proof.
    intros Wt Fa F. unfold typed_objs. induction F as [|x ty xs tys H F IH]; cbn [map]; constructor.
    - inversion Fa as [|? ? Fx Fxs]; subst. unfold arg_typed in H. unfold arg_ok in Fx. unfold denote.
      destruct (okind x); auto. destruct (env_typed objects scope vals no_env (oname x) Wt Fx) as (v & Iv & Ev & Io & Ht).
      split; eauto.
    - apply IH. inversion Fa; auto.
  Qed.

  Lemma typed_effs_eq objects sig scope fs adds dels cs : typed_effs objects sig scope (Effs fs adds dels cs) <->
    (forall vars b, In (vars, b) fs -> typed_effs objects sig (scope ++ vars) b) /\
    Forall (fun p => Forall2 (arg_typed objects scope) (pargs p) (sig (pname p))) adds /\
    Forall (fun p => Forall2 (arg_typed objects scope) (pargs p) (sig (pname p))) dels /\
    (forall g b, In (g, b) cs -> typed_effs objects sig scope b).
  Proof.
    cbn [typed_effs].
    rewrite (all_pairs (fun vars b => typed_effs objects sig (scope ++ vars) b)).
    rewrite (all_pairs (fun (_ : goal) b => typed_effs objects sig scope b)). reflexivity.
  Qed.
End WithHash.
