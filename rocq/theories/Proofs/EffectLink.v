(** Running effects with shared vectors gives the same results as substitution,
    when axioms trigger each other only downwards and their contexts are linear. *)
From Coq Require Import String List Bool ZArith Arith Lia.
From Verif.Model Require Import Base Object Proposition HashSet State CombinationGenerator
  ParameterGenerator Syntax Formula Effects.
From Verif.Spec Require Import SetSpec CartesianSpec TypingSpec FormulaSpec EffectSpec.
From Verif.Proofs Require Import OrderFacts HashSetFacts StateFacts StateHistory
  CombinationFacts ParameterFacts FormulaFacts EffectFacts.
Import ListNotations.
Local Open Scope string_scope.
Local Open Scope list_scope.

(** ** Effects: induction and access to the parts *)

Section EffsInd.
  Variable P : effs -> Prop.
  Hypothesis H : forall fs adds dels cs,
    (forall vars b, In (vars, b) fs -> P b) -> (forall g b, In (g, b) cs -> P b) ->
    P (Effs fs adds dels cs).
  Fixpoint effs_ind' (e : effs) : P e :=
    match e with
    | Effs fs adds dels cs =>
        H fs adds dels cs
          ((fix go fs : forall vars b, In (vars, b) fs -> P b :=
              match fs with
              | [] => fun _ _ i => match i with end
              | (v, x) :: fs' => fun vars b i =>
                  match i with
                  | or_introl q => eq_ind x P (effs_ind' x) b (f_equal snd q)
                  | or_intror i' => go fs' vars b i'
                  end
              end) fs)
          ((fix go cs : forall g b, In (g, b) cs -> P b :=
              match cs with
              | [] => fun _ _ i => match i with end
              | (v, x) :: cs' => fun g b i =>
                  match i with
                  | or_introl q => eq_ind x P (effs_ind' x) b (f_equal snd q)
                  | or_intror i' => go cs' g b i'
                  end
              end) cs)
    end.
End EffsInd.

Lemma all_pairs {A B} (P : A -> B -> Prop) l :
  (fix all l := match l with [] => True | (a, b) :: l' => P a b /\ all l' end) l <->
  forall a b, In (a, b) l -> P a b.
Proof.
  induction l as [|[a b] l IH]; cbn.
  - split; [intros _ ? ? []|auto].
  - rewrite IH. split.
    + intros [H1 H2] a' b' [Q|I]; [inversion Q; subst; auto|auto].
    + intros H. split; auto.
Qed.

Lemma any_pairs {A B} (P : A -> B -> Prop) l :
  (fix any l := match l with [] => False | (a, b) :: l' => P a b \/ any l' end) l <->
  exists a b, In (a, b) l /\ P a b.
Proof.
  induction l as [|[a b] l IH]; cbn.
  - split; [tauto|intros (? & ? & [] & _)].
  - rewrite IH. split.
    + intros [H|(a' & b' & I & H)]; eauto 6.
    + intros (a' & b' & [Q|I] & H); [inversion Q; subst; auto|right; eauto].
Qed.

Lemma wf_effs_eq objects scope fs adds dels cs :
  wf_effs objects scope (Effs fs adds dels cs) <->
  (forall vars b, In (vars, b) fs -> vars <> [] /\ (tuple_count objects vars < 2 ^ 31)%Z /\
     wf_effs objects (scope ++ map oname vars) b) /\
  Forall (fun p => Forall (arg_ok scope) (pargs p) /\ arity_ok objects (pname p) (pargs p)) adds /\
  Forall (fun p => Forall (arg_ok scope) (pargs p) /\ arity_ok objects (pname p) (pargs p)) dels /\
  (forall g b, In (g, b) cs -> wf_goal objects scope g /\ wf_effs objects scope b).
Proof.
  cbn [wf_effs].
  rewrite (all_pairs (fun vars b => vars <> [] /\ (tuple_count objects vars < 2 ^ 31)%Z /\
     wf_effs objects (scope ++ map oname vars) b) fs).
  rewrite (all_pairs (fun g b => wf_goal objects scope g /\ wf_effs objects scope b) cs). tauto.
Qed.

Lemma fresh_effs_eq scope fs adds dels cs :
  fresh_effs scope (Effs fs adds dels cs) <->
  (forall vars b, In (vars, b) fs -> NoDup (scope ++ map oname vars) /\
     fresh_effs (scope ++ map oname vars) b) /\
  (forall g b, In (g, b) cs -> fresh_effs scope b).
Proof.
  cbn [fresh_effs].
  rewrite (all_pairs (fun vars b => NoDup (scope ++ map oname vars) /\
     fresh_effs (scope ++ map oname vars) b) fs).
  rewrite (all_pairs (fun (g : goal) b => fresh_effs scope b) cs). tauto.
Qed.

Lemma eff_arity_eq ar fs adds dels cs :
  eff_arity ar (Effs fs adds dels cs) <->
  (forall vars b, In (vars, b) fs -> eff_arity ar b) /\
  Forall (fun p => length (pargs p) = ar (pname p)) adds /\
  Forall (fun p => length (pargs p) = ar (pname p)) dels /\
  (forall g b, In (g, b) cs -> eff_arity ar b).
Proof.
  cbn [eff_arity].
  rewrite (all_pairs (fun (vars : list object) b => eff_arity ar b) fs).
  rewrite (all_pairs (fun (g : goal) b => eff_arity ar b) cs). tauto.
Qed.

Lemma eff_lit_eq objects C env fs adds dels cs pos a :
  eff_lit objects C env (Effs fs adds dels cs) pos a <->
  (exists vars b, In (vars, b) fs /\ exists objs, well_typed objects vars objs /\
     eff_lit objects C (bind_vars vars objs env) b pos a) \/
  (exists p, In p (if pos then adds else dels) /\ ordinary objects (pname p) /\
     a = (pname p, map oname (map (denote env) (pargs p)))) \/
  (exists g b, In (g, b) cs /\ C env g /\ eff_lit objects C env b pos a).
Proof.
  cbn [eff_lit].
  rewrite (any_pairs (fun vars b => exists objs, well_typed objects vars objs /\
     eff_lit objects C (bind_vars vars objs env) b pos a) fs).
  rewrite (any_pairs (fun g b => C env g /\ eff_lit objects C env b pos a) cs). tauto.
Qed.

Lemma sigs_forall fs adds dels cs vars b : In (vars, b) fs ->
  incl (eff_sigs b) (eff_sigs (Effs fs adds dels cs)).
Proof.
  intros I s Hs. cbn [eff_sigs]. apply in_or_app. left. apply in_flat_map. exists (vars, b). auto.
Qed.
Lemma sigs_add fs adds dels cs p : In p adds -> In (true, pname p) (eff_sigs (Effs fs adds dels cs)).
Proof.
  intros I. cbn [eff_sigs]. rewrite !in_app_iff. right. left. apply in_map_iff. eauto.
Qed.
Lemma sigs_del fs adds dels cs p : In p dels -> In (false, pname p) (eff_sigs (Effs fs adds dels cs)).
Proof.
  intros I. cbn [eff_sigs]. rewrite !in_app_iff. right. right. left. apply in_map_iff. eauto.
Qed.
Lemma sigs_cond fs adds dels cs g b : In (g, b) cs ->
  incl (eff_sigs b) (eff_sigs (Effs fs adds dels cs)).
Proof.
  intros I s Hs. cbn [eff_sigs]. rewrite !in_app_iff. right. right. right. apply in_flat_map. exists (g, b). auto.
Qed.

(** ** Outcomes related pointwise *)

Definition orel {A B} (R : A -> B -> Prop) (x : outcome A) (y : outcome B) : Prop :=
  match x, y with
  | Ok a, Ok b => R a b
  | Throw e, Throw e' => e = e'
  | UB, UB | AssertFail, AssertFail | OutOfFuel, OutOfFuel => True
  | _, _ => False
  end.

Lemma orel_bind {A B A' B'} (R : A -> B -> Prop) (S : A' -> B' -> Prop) x y f g :
  orel R x y -> (forall a b, R a b -> orel S (f a) (g b)) -> orel S (bind x f) (bind y g).
Proof. intros H K. destruct x, y; cbn in *; try tauto; auto. Qed.

Lemma orel_same {A B} (S : A -> B -> Prop) {C} (x : outcome C) f g :
  (forall c, x = Ok c -> orel S (f c) (g c)) -> orel S (bind x f) (bind x g).
Proof. intros H. destruct x; cbn; auto. Qed.

Lemma orel_impl {A B} (R S : A -> B -> Prop) x y : (forall a b, R a b -> S a b) -> orel R x y -> orel S x y.
Proof. intros H. destruct x, y; cbn; auto. Qed.

Section WithHash.
  Context `{SH : StdHash}.

  Lemma run_effs_eq {T} ins del cond om axioms rec ow path params fs adds dels cs r (w : world (T := T)) :
    run_effs ins del cond om axioms rec ow path params (Effs fs adds dels cs) r w =
    let step (acc : nat * world) (x : outcome (nat * world)) : outcome (nat * world) :=
        let* ' (s, w') := x in Ok (Nat.max (fst acc) s, w') in
    let* a1 := foldMi (fun i acc vb =>
              step acc
                (let* ts := var_tuples om (fst vb) in
                 foldM (fun acc t =>
                     step acc (run_effs ins del cond om axioms rec ow (path ++ [0; i]) (params ++ fst vb) (snd vb)
                                 (Val (deref (snd (snd acc)) r ++ t)) (snd acc)))
                   ts (0, snd acc))) 0 fs (0, w) in
    let* a2 := foldMi (fun i acc p =>
              step acc (run_lit ins del om axioms rec ow (path ++ [1; i]) params true p r (snd acc))) 0 adds a1 in
    let* a3 := foldMi (fun i acc p =>
              step acc (run_lit ins del om axioms rec ow (path ++ [2; i]) params false p r (snd acc))) 0 dels a2 in
    foldMi (fun i acc ce =>
              step acc
                (let* b := cond (fst (snd acc)) (fst ce) params (deref (snd (snd acc)) r) in
                 if b : bool then run_effs ins del cond om axioms rec ow (path ++ [3; i]) params (snd ce) r (snd acc)
                 else Ok (0, snd acc))) 0 cs a3.
  Proof. reflexivity. Qed.

  Section Loops.
    Context {T : Type}.
    Notation world := (world (T := T)).
    Definition RnG (R : world -> T -> Prop) (x : nat * world) (y : nat * T) : Prop :=
      fst x = fst y /\ R (snd x) (snd y).

    Lemma foldMi_sim {A} (R : world -> T -> Prop) (F : nat -> world -> A -> outcome (nat * world)) (G : A -> T -> outcome (nat * T)) l :
      (forall i a w t, In a l -> R w t -> orel (RnG R) (F i w a) (G a t)) ->
      forall i x n t, RnG R x (n, t) ->
      orel (RnG R) (foldMi (fun i acc a => let* ' (s, w') := F i (snd acc) a in
                                             Ok (Nat.max (fst acc) s, w')) i l x)
                     (in_turn G l n t).
    Proof.
      induction l as [|a l IH]; intros H i [n' w] n t Rx; cbn [foldMi in_turn].
      - exact Rx.
      - destruct Rx as [E Rx]; cbn in E, Rx; subst n'.
        assert (H' := H i a w t (or_introl eq_refl) Rx). cbn [fst snd].
        destruct (F i w a) as [[s w']| | | |], (G a t) as [[m t']| | | |]; cbn in H'; try tauto; cbn [bind].
        destruct H' as [E' R']; cbn in E', R'; subst m. apply IH.
        + intros. apply H; auto. right; auto.
        + split; auto.
    Qed.

    Lemma foldM_sim {A} (R : world -> T -> Prop) (F : world -> A -> outcome (nat * world)) (G : A -> T -> outcome (nat * T)) l :
      (forall a w t, In a l -> R w t -> orel (RnG R) (F w a) (G a t)) ->
      forall x n t, RnG R x (n, t) ->
      orel (RnG R) (foldM (fun acc a => let* ' (s, w') := F (snd acc) a in
                                             Ok (Nat.max (fst acc) s, w')) l x)
                     (in_turn G l n t).
    Proof.
      induction l as [|a l IH]; intros H [n' w] n t Rx; cbn [foldM in_turn].
      - exact Rx.
      - destruct Rx as [E Rx]; cbn in E, Rx; subst n'.
        assert (H' := H a w t (or_introl eq_refl) Rx). cbn [fst snd].
        destruct (F w a) as [[s w']| | | |], (G a t) as [[m t']| | | |]; cbn in H'; try tauto; cbn [bind].
        destruct H' as [E' R']; cbn in E', R'; subst m. apply IH.
        + intros. apply H; auto. right; auto.
        + split; auto.
    Qed.
  End Loops.

  Section Link.
    Context {T : Type} (ins del : prop -> T -> nat * T)
            (cond : T -> goal -> list object -> list object -> outcome bool)
            (objects : list object) (axioms : list axiom).
    Context (W : Forall (fun o => wf_type (otype o)) objects).
    Context (ar : string -> nat) (rank : nat -> nat) (top : nat).
    Context (Hax : Forall (good_axiom objects ar) axioms).
    Notation om := (create_object_map objects).
    Notation world := (world (T := T)).

    Definition rko (o : owner) : nat := match o with OAct _ => top | OAx i => rank i end.

    Definition Rw (b : nat) (st : store) (w : world) (t : T) : Prop :=
      fst w = t /\ store_ok (snd w) /\ forall k, b <= rko (k_owner k) -> snd w k = st k.
    Notation Rn b st := (RnG (Rw b st)).

    Definition stable (b : nat) (r : argref) : Prop :=
      match r with Val _ => True | Ref k => b <= rko (k_owner k) end.

    Lemma stable_deref b st r w t : stable b r -> Rw b st w t -> deref (snd w) r = deref st r.
    Proof.
      destruct r as [l|k]; cbn; auto. intros S (_ & _ & K). rewrite K; auto.
    Qed.

    Lemma tuples_exact vars : vars <> [] -> (tuple_count objects vars < 2 ^ 31)%Z ->
      var_tuples om vars = Ok (tuples objects vars).
    Proof.
      intros N C. destruct (param_gen_list objects vars W N C) as (g & G & _ & L).
      unfold var_tuples. rewrite G. cbn. exact L.
    Qed.

    Lemma tuples_In vars t : In t (tuples objects vars) <-> well_typed objects vars t.
    Proof.
      unfold tuples, well_typed. revert t. induction vars as [|v vars IH]; intros t; cbn.
      - split; [intros [<-|[]]; constructor|]. inversion 1; auto.
      - rewrite in_flat_map. split.
        + intros (x & I & J). apply in_map_iff in J. destruct J as (t' & <- & J).
          apply objects_of_In in I. constructor; auto. apply IH; auto.
        + inversion 1; subst. exists x. split; [apply objects_of_In; auto|].
          apply in_map. apply IH; auto.
    Qed.

    Lemma is_typeb_find name : is_typeb objects name = match om_find om name with Some _ => true | None => false end.
    Proof.
      unfold is_typeb. rewrite create_find, filter_objects_of by auto.
      destruct (objects_of objects name); auto.
    Qed.

    Section Body.
      Context (rec : nat -> argref -> world -> outcome (nat * world))
              (recp : nat -> list object -> T -> outcome (nat * T))
              (ow : owner) (sigs : list (bool * string)).
      Context (Hlow : forall i a, nth_error axioms i = Some a -> In (ax_pos a, ax_name a) sigs ->
                        rank i < rko ow).
      Context (Hrec : forall i a k w vals, nth_error axioms i = Some a ->
                 In (ax_pos a, ax_name a) sigs -> k_owner k = ow ->
                 store_ok (snd w) -> deref (snd w) (Ref k) = vals ->
                 length vals = length (op_params (ax_op a)) ->
                 orel (Rn (S (rank i)) (snd w)) (rec i (Ref k) w) (recp i vals (fst w))).
      Notation B := (S (rko ow)).

      Lemma fire_sim path params prop_params r st vals l pos name :
        NoDup (map oname params) -> length params = length vals ->
        Forall (arg_ok (map oname params)) prop_params ->
        stable B r -> deref st r = vals -> l = sub_args params vals prop_params ->
        length prop_params = ar name -> In (pos, name) sigs ->
        forall axs pre, axioms = pre ++ axs -> forall w t, Rw B st w t ->
        orel (Rw B st)
          (foldM (fire rec ow path params prop_params r)
             (with_context_from (length pre) axs pos name) w)
          (sub_fire recp (length pre) axs pos name l t).
      Proof.
        intros ND Lp Fp Sr Dr El La Is. induction axs as [|a axs IH]; intros pre Ea w t R.
        { exact R. }
        assert (Na : nth_error axioms (length pre) = Some a).
        { rewrite Ea, nth_error_app2, Nat.sub_diag by lia. reflexivity. }
        assert (Ea' : axioms = (pre ++ [a]) ++ axs) by (rewrite <- app_assoc; exact Ea).
        assert (Lq : length (pre ++ [a]) = S (length pre)) by (rewrite app_length; cbn; lia).
        specialize (IH _ Ea'). rewrite Lq in IH.
        cbn [with_context_from sub_fire].
        destruct (Bool.eqb (ax_pos a) pos && String.eqb (ax_name a) name) eqn:Em; [|apply IH; auto].
        apply andb_true_iff in Em. destruct Em as [E1 E2].
        apply Bool.eqb_prop in E1. apply String.eqb_eq in E2. subst pos name.
        assert (Ga : good_axiom objects ar a).
        { rewrite Forall_forall in Hax. apply Hax. eapply nth_error_In; eauto. }
        destruct Ga as [Go [Gn Gc] Gar].
        cbn [foldM]. apply orel_bind with (R := Rw B st); [|intros; apply IH; auto].
        assert (Hl : l = map (fun y => lookup_last y params vals y) prop_params).
        { rewrite El. unfold sub_args. apply map_ext_in. intros y Iy. symmetry. apply lookup_denote; auto.
          rewrite Forall_forall in Fp; auto. }
        assert (Ll : length l = length (ax_args a)) by (rewrite Hl, map_length; congruence).
        assert (Dw : deref (snd w) r = vals) by (rewrite (stable_deref B st r w t); auto).
        unfold fire, create_app. rewrite La, <- Gar, Nat.eqb_refl. cbn [bind].
        pose proof (match_check params (op_params (ax_op a)) vals ND ltac:(lia) prop_params (ax_args a)
                      (mkCl (op_params (ax_op a)) [] []) true ltac:(congruence) eq_refl) as MC.
        pose proof (match_buffer params (op_params (ax_op a)) vals ND ltac:(lia) prop_params (ax_args a)
                      (mkCl (op_params (ax_op a)) [] [])) as MB.
        rewrite <- Hl in MC, MB. cbn [andb] in MC. unfold context_values.
        destruct (match_context params (op_params (ax_op a)) prop_params (ax_args a) _) as [cl|].
        2:{ rewrite MC. exact R. }
        specialize (MB cl (op_params (ax_op a)) ltac:(congruence) ltac:(apply matched_NoDup; auto)
                      ltac:(intros ? _ []) eq_refl eq_refl).
        rewrite assign_values in MB by (auto; split; auto).
        set (k := mkKey ow path (length pre) cl).
        assert (Nr : r <> Ref k).
        { intros ->. cbn in Sr. lia. }
        destruct R as (Et & Ok' & Kp).
        destruct (call_closure_spec k r (snd w) vals _ _ Nr Ok' Dw MC MB) as (st' & Ec & So & Sb & Sk).
        rewrite Ec. cbn [bind].
        assert (Kst : forall k', B <= rko (k_owner k') -> st' k' = st k').
        { intros k' L'. rewrite Sk; auto. intros ->. cbn in L'. lia. }
        destruct (consts_match (op_params (ax_op a)) (ax_args a) l).
        2:{ cbn. subst t. unfold Rw. auto. }
        specialize (Sb eq_refl).
        apply orel_bind with (R := Rn (S (rank (length pre))) st').
        - subst t. apply (Hrec (length pre) a k (fst w, st')); auto.
          + cbn. rewrite Sb. reflexivity.
          + apply map_length.
        - intros [s w'] [s' t'] (_ & Et' & So' & Sk'). cbn in Et', So', Sk'. cbn. split; [auto|]. split; [auto|].
          intros k' L'. pose proof (Hlow _ _ Na Is). rewrite Sk' by lia. apply Kst; auto.
      Qed.

      Lemma run_lit_sim path params vals pos p r st w t :
        NoDup (map oname params) -> length params = length vals ->
        Forall (arg_ok (map oname params)) (pargs p) ->
        length (pargs p) = ar (pname p) -> In (pos, pname p) sigs ->
        stable B r -> deref st r = vals -> Rw B st w t ->
        orel (Rn B st) (run_lit ins del om axioms rec ow path params pos p r w)
                       (sub_lit ins del objects axioms recp params vals pos p t).
      Proof.
        intros ND Lp Fp La Is Sr Dr R. unfold run_lit, sub_lit.
        rewrite (stable_deref B st r w t), Dr by auto.
        rewrite (app_fun_denote params (pargs p) vals (fun _ => null_object)) by auto. cbn [bind].
        fold (sub_args params vals (pargs p)). set (l := sub_args params vals (pargs p)).
        rewrite is_typeb_find. destruct R as (Et & So & Kp).
        assert (R0 : Rn B st (0, w) (0, t)) by (split; [auto|split; auto]).
        destruct (String.eqb (pname p) "=").
        - destruct l as [|a [|b [|]]]; cbn; auto. rewrite obj_eqb_spec.
          destruct (Bool.eqb _ pos); cbn; auto.
        - destruct (om_find om (pname p)).
          + destruct l as [|a [|]]; try exact I. cbn [eval_type bind].
            replace (existsb (String.eqb (pname p)) (default_type :: otype a)) with (is_subtype (otype a) (pname p)).
            { destruct (Bool.eqb _ pos); cbn; auto. }
            apply eq_true_iff_eq. rewrite is_subtype_spec, existsb_exists. split.
            * intros [->|I]; [exists default_type|exists (pname p)]; rewrite String.eqb_refl; cbn; auto.
            * intros (x & [<-|I] & E); apply String.eqb_eq in E; rewrite E; auto.
          + rewrite Et. destruct ((if pos then ins else del) (mkProp (pname p) l) t) as [s t'].
            destruct (Nat.eqb s 0); [cbn; split; [auto|split; auto]|].
            apply orel_bind with (R := Rw B st).
            * apply (fire_sim path params (pargs p) r st vals l pos (pname p) ND Lp Fp Sr Dr eq_refl La Is
                       axioms [] eq_refl). split; auto.
            * intros w' t'' R'. split; auto.
      Qed.

      Lemma run_effs_sim e : forall path params vals r st w t,
        incl (eff_sigs e) sigs ->
        NoDup (map oname params) -> length params = length vals ->
        wf_effs objects (map oname params) e -> fresh_effs (map oname params) e -> eff_arity ar e ->
        stable B r -> deref st r = vals -> Rw B st w t ->
        orel (Rn B st) (run_effs ins del cond om axioms rec ow path params e r w)
                       (sub_effs ins del cond objects axioms recp params vals e t).
      Proof.
        induction e as [fs adds dels cs IHf IHc] using effs_ind'.
        intros path params vals r st w t Is ND Lp Wf Fr Ar Sr Dr R.
        rewrite run_effs_eq. cbn zeta. cbn [sub_effs].
        apply wf_effs_eq in Wf. destruct Wf as (Wf & Wa & Wd & Wc).
        apply fresh_effs_eq in Fr. destruct Fr as (Ff & Fc).
        apply eff_arity_eq in Ar. destruct Ar as (Af & Aa & Ad & Ac).
        rewrite Forall_forall in Wa, Wd, Aa, Ad.
        apply orel_bind with (R := Rn B st).
        { apply (foldMi_sim (Rw B st) (fun i w vb =>
                let* ts := var_tuples om (fst vb) in
                 foldM (fun acc t =>
                     let* ' (s, w') := run_effs ins del cond om axioms rec ow (path ++ [0; i]) (params ++ fst vb) (snd vb)
                                 (Val (deref (snd (snd acc)) r ++ t)) (snd acc) in
                     Ok (Nat.max (fst acc) s, w'))
                   ts (0, w))).
          2:{ split; auto. }
          intros i [vars b] w1 t1 I R1. cbn [fst snd].
          destruct (Wf vars b I) as (Nv & Cv & Wb). destruct (Ff vars b I) as [Nb Fb].
          rewrite tuples_exact by auto. cbn [bind].
          apply (foldM_sim (Rw B st) (fun w t => run_effs ins del cond om axioms rec ow (path ++ [0; i]) (params ++ vars) b
                                 (Val (deref (snd w) r ++ t)) w)).
          2:{ split; auto. }
          intros objs w2 t2 Io R2. apply tuples_In in Io. pose proof (well_typed_length _ _ _ Io) as Lo.
          rewrite (stable_deref B st r w2 t2), Dr by auto.
          apply (IHf vars b I); auto.
          - intros s Hs. apply Is. eapply sigs_forall; eauto.
          - rewrite map_app. auto.
          - rewrite !app_length. lia.
          - rewrite map_app. auto.
          - rewrite map_app. auto.
          - eauto.
          - cbn; auto. }
        intros x1 [n1 t1] R1. apply orel_bind with (R := Rn B st).
        { apply (foldMi_sim (Rw B st) (fun i w p =>
              run_lit ins del om axioms rec ow (path ++ [1; i]) params true p r w)); auto.
          intros i p w2 t2 I R2. apply run_lit_sim; auto.
          - apply Wa; auto.
          - apply Is. apply sigs_add; auto. }
        intros x2 [n2 t2] R2. apply orel_bind with (R := Rn B st).
        { apply (foldMi_sim (Rw B st) (fun i w p =>
              run_lit ins del om axioms rec ow (path ++ [2; i]) params false p r w)); auto.
          intros i p w3 t3 I R3. apply run_lit_sim; auto.
          - apply Wd; auto.
          - apply Is. apply sigs_del; auto. }
        intros x3 [n3 t3] R3.
        apply (foldMi_sim (Rw B st) (fun i w ce =>
                let* b := cond (fst w) (fst ce) params (deref (snd w) r) in
                 if b : bool then run_effs ins del cond om axioms rec ow (path ++ [3; i]) params (snd ce) r w
                 else Ok (0, w))); auto.
        intros i [g b] w4 t4 I R4. cbn [fst snd].
        rewrite (stable_deref B st r w4 t4), Dr by auto. destruct (Wc g b I) as [_ Wb].
        assert (E4 : fst w4 = t4) by apply R4. rewrite E4. apply orel_same. intros [|] _.
        - apply (IHc g b I); auto.
          + intros s Hs. apply Is. eapply sigs_cond; eauto.
          + eauto.
          + eauto.
        - split; auto.
      Qed.
    End Body.

    Context (Hrank : ranked axioms rank).

    Lemma apply_axiom_sim fuel : forall i a k w vals,
      nth_error axioms i = Some a -> rank i < rko (k_owner k) ->
      store_ok (snd w) -> deref (snd w) (Ref k) = vals ->
      length vals = length (op_params (ax_op a)) ->
      orel (Rn (S (rank i)) (snd w))
        (apply_axiom ins del cond om axioms fuel i (Ref k) w)
        (sub_axiom ins del cond objects axioms fuel i vals (fst w)).
    Proof.
      induction fuel as [|fuel IH]; intros i a k w vals Na Lk So D Lv; [exact I|].
      cbn [apply_axiom sub_axiom]. rewrite Na.
      assert (Ga : good_axiom objects ar a).
      { rewrite Forall_forall in Hax. apply Hax. eapply nth_error_In; eauto. }
      destruct Ga as [[G1 G2 G3 G4] _ _].
      apply (run_effs_sim (apply_axiom ins del cond om axioms fuel)
               (sub_axiom ins del cond objects axioms fuel) (OAx i) (eff_sigs (op_effs (ax_op a)))); auto.
      - intros j b Nb Ib. exact (Hrank i a Na j b Nb Ib).
      - intros j b k' w' vals' Nb Ib Ek So' D' Lv'. eapply IH; eauto.
        rewrite Ek. exact (Hrank i a Na j b Nb Ib).
      - intros s Hs; auto.
      - split; auto.
    Qed.
  End Link.

  (** Top level: an action (or an axiom run as one) with its own closures. *)
  Lemma apply_op_link {T} ins del cond objects axioms ar rank fuel ow o args (t : T) st :
    Forall (fun o => wf_type (otype o)) objects ->
    Forall (good_axiom objects ar) axioms -> ranked axioms rank -> good_op objects ar o ->
    length (op_params o) = length args -> store_ok st ->
    match ow with OAct _ => True | OAx i => exists a, nth_error axioms i = Some a /\ ax_op a = o end ->
    orel (fun x y => fst x = fst y /\ fst (snd x) = snd y /\ store_ok (snd (snd x)))
      (apply_op ins del cond (create_object_map objects) axioms fuel ow o args (t, st))
      (sub_effs ins del cond objects axioms (sub_axiom ins del cond objects axioms fuel)
         (op_params o) args (op_effs o) t).
  Proof.
    intros W Hax Hr [G1 G2 G3 G4] L So Ho.
    set (top := S (list_max (map rank (seq 0 (length axioms))))).
    assert (Htop : forall i a, nth_error axioms i = Some a -> rank i < top).
    { intros i a Na. unfold top. apply Nat.lt_succ_r.
      assert (Il : i < length axioms) by (apply nth_error_Some; congruence).
      pose proof (proj1 (list_max_le (map rank (seq 0 (length axioms))) _) (le_n _)) as F.
      rewrite Forall_forall in F. apply F. apply in_map. apply in_seq. lia. }
    assert (Hlow : forall i a, nth_error axioms i = Some a -> In (ax_pos a, ax_name a) (eff_sigs (op_effs o)) ->
                     rank i < rko rank top ow).
    { intros i a Na Ia. destruct ow as [n|j]; cbn.
      - eapply Htop; eauto.
      - destruct Ho as (b & Nb & <-). exact (Hr j b Nb i a Na Ia). }
    unfold apply_op. eapply orel_impl.
    2:{ apply (run_effs_sim ins del cond objects axioms W ar rank top Hax
                 (apply_axiom ins del cond (create_object_map objects) axioms fuel)
                 (sub_axiom ins del cond objects axioms fuel) ow (eff_sigs (op_effs o)) Hlow)
          with (st := st) (vals := args); auto.
        - intros i a k w vals Na Ia Ek So' D' L'. eapply apply_axiom_sim; eauto. rewrite Ek. eapply Hlow; eauto.
        - intros s Hs; auto.
        - exact I.
        - split; auto. }
    intros [n w] [m t'] (E & Et & So' & _). cbn in *. auto.
  Qed.

  Lemma no_store_ok : store_ok no_store.
  Proof. intros k l Q. discriminate. Qed.
End WithHash.
