(** Applications with status 0: they depend on the state only. *)
From Coq Require Import String List Bool NArith ZArith Lia.
From Verif.Model Require Import Base HashSet Object Proposition State CombinationGenerator
  ParameterGenerator Syntax Formula Effects NormalForm Consistency.
From Verif.Spec Require Import SetSpec TypingSpec FormulaSpec EffectSpec AxiomSpec.
From Verif.Proofs Require Import StateFacts StateHistory FormulaFacts EffectFacts EffectLink EffectTheorems.
Import ListNotations.
Local Open Scope string_scope.
Local Open Scope list_scope.

Lemma bind_intro {A B} (x : outcome A) (f : A -> outcome B) a b : x = Ok a -> f a = Ok b -> bind x f = Ok b.
Proof. intros -> E. exact E. Qed.

Section WithHash.
  Context `{SH : StdHash}.

  Section Zero.
    Context {T : Type} (ins del : prop -> T -> nat * T)
            (cond : T -> goal -> list object -> list object -> outcome bool)
            (om : object_map) (axioms : list axiom)
            (rec : nat -> argref -> world (T := T) -> outcome (nat * world (T := T))).
    Context (t : T).
    Context (Hi : forall p t', ins p t = (0, t') -> t' = t)
            (Hd : forall p t', del p t = (0, t') -> t' = t).

    Definition zero_lit (params args : list object) (pos : bool) (p : prop) : Prop :=
      exists l, app_fun params (pargs p) args = Ok l /\
        if String.eqb (pname p) "=" then eval_eq l = Ok pos
        else match om_find om (pname p) with
             | Some _ => eval_type (pname p) l = Ok pos
             | None => fst ((if pos then ins else del) (mkProp (pname p) l) t) = 0
             end.

    Fixpoint zero (params args : list object) (e : effs) : Prop :=
      match e with
      | Effs fs adds dels cs =>
          (fix all fs := match fs with
                         | [] => True
                         | (vars, b) :: fs' =>
                             (exists ts, var_tuples om vars = Ok ts /\
                                forall x, In x ts -> zero (params ++ vars) (args ++ x) b) /\ all fs'
                         end) fs /\
          (forall p, In p adds -> zero_lit params args true p) /\
          (forall p, In p dels -> zero_lit params args false p) /\
          (fix all cs := match cs with
                         | [] => True
                         | (g, b) :: cs' =>
                             (exists v, cond t g params args = Ok v /\ (v = true -> zero params args b)) /\ all cs'
                         end) cs
      end.

    Lemma zero_eq params args fs adds dels cs : zero params args (Effs fs adds dels cs) <->
      (forall vars b, In (vars, b) fs -> exists ts, var_tuples om vars = Ok ts /\
         forall x, In x ts -> zero (params ++ vars) (args ++ x) b) /\
      (forall p, In p adds -> zero_lit params args true p) /\
      (forall p, In p dels -> zero_lit params args false p) /\
      (forall g b, In (g, b) cs -> exists v, cond t g params args = Ok v /\ (v = true -> zero params args b)).
    Proof.
      cbn [zero].
      rewrite (all_pairs (fun vars b => exists ts, var_tuples om vars = Ok ts /\
         forall x, In x ts -> zero (params ++ vars) (args ++ x) b)).
      rewrite (all_pairs (fun g b => exists v, cond t g params args = Ok v /\ (v = true -> zero params args b))).
      reflexivity.
    Qed.

    (** Loops *)
    Lemma foldMi_zero_iff {A} (F : nat -> world (T := T) -> A -> outcome (nat * world (T := T)))
        (P : A -> Prop) l :
      (forall i a st w', In a l -> F i (t, st) a = Ok (0, w') <-> w' = (t, st) /\ P a) ->
      forall i n w w' st, w = (t, st) \/ n <> 0 ->
      foldMi (fun i acc a => let* ' (s, w') := F i (snd acc) a in Ok (Nat.max (fst acc) s, w')) i l (n, w) =
        Ok (0, w') <-> n = 0 /\ w' = (t, st) /\ forall a, In a l -> P a.
    Proof.
      induction l as [|a l IH]; intros H i n w w' st Hx; cbn [foldMi fst snd].
      - split.
        + intros Q; inversion Q; subst. destruct Hx; [|congruence]. split; auto. split; auto. intros a [].
        + intros (-> & -> & _). destruct Hx; [subst; auto|congruence].
      - assert (Hl : forall i b st w', In b l -> F i (t, st) b = Ok (0, w') <-> w' = (t, st) /\ P b)
          by (intros; apply H; right; auto).
        destruct (F i w a) as [[s w1]| | | |] eqn:E; cbn [bind].
        + destruct (Nat.eq_dec (Nat.max n s) 0) as [Z|Z].
          * assert (n = 0) by lia. assert (s = 0) by lia. subst n s.
            destruct Hx as [->|]; [|congruence].
            apply H in E; [|left; auto]. destruct E as [-> Pa].
            rewrite (IH Hl (S i) (Nat.max 0 0) (t, st) w' st (or_introl eq_refl)).
            split; [intros (_ & -> & K)|intros (_ & -> & K)]; (split; [auto|split; [auto|]]).
            -- intros b [<-|Ib]; auto.
            -- intros b Ib. apply K. right; auto.
          * rewrite (IH Hl (S i) (Nat.max n s) w1 w' st (or_intror Z)).
            split; [intros (Q & _); congruence|]. intros (-> & -> & K). exfalso.
            destruct Hx as [->|]; [|congruence].
            pose proof (proj2 (H i a st (t, st) (or_introl eq_refl)) (conj eq_refl (K a (or_introl eq_refl)))) as Q.
            rewrite E in Q. inversion Q; subst. cbn in Z. congruence.
        + split; [discriminate|]. intros (-> & -> & K). destruct Hx as [->|]; [|congruence].
          pose proof (proj2 (H i a st (t, st) (or_introl eq_refl)) (conj eq_refl (K a (or_introl eq_refl)))). congruence.
        + split; [discriminate|]. intros (-> & -> & K). destruct Hx as [->|]; [|congruence].
          pose proof (proj2 (H i a st (t, st) (or_introl eq_refl)) (conj eq_refl (K a (or_introl eq_refl)))). congruence.
        + split; [discriminate|]. intros (-> & -> & K). destruct Hx as [->|]; [|congruence].
          pose proof (proj2 (H i a st (t, st) (or_introl eq_refl)) (conj eq_refl (K a (or_introl eq_refl)))). congruence.
        + split; [discriminate|]. intros (-> & -> & K). destruct Hx as [->|]; [|congruence].
          pose proof (proj2 (H i a st (t, st) (or_introl eq_refl)) (conj eq_refl (K a (or_introl eq_refl)))). congruence.
    Qed.

    Lemma foldM_foldMi {A B} (f : B -> A -> outcome B) l : forall i b,
      foldM f l b = foldMi (fun _ => f) i l b.
    Proof.
      induction l as [|a l IH]; intros i b; cbn; auto. destruct (f b a); cbn; auto.
    Qed.

    Lemma run_lit_zero_iff ow path params args pos p st w' :
      run_lit ins del om axioms rec ow path params pos p (Val args) (t, st) = Ok (0, w') <->
      w' = (t, st) /\ zero_lit params args pos p.
    Proof.
      unfold run_lit, zero_lit. cbn [deref snd fst].
      destruct (app_fun params (pargs p) args) as [l| | | |]; cbn [bind];
        try (split; [discriminate|intros (_ & ? & Q & _); discriminate]).
      assert (S : forall X : list object -> Prop, (exists l', @Ok (list object) l = Ok l' /\ X l') <-> X l).
      { intros X. split; [intros (? & Q & K); inversion Q; subst; auto|eauto]. }
      rewrite S.
      destruct (String.eqb (pname p) "=").
      { destruct (eval_eq l) as [b| | | |]; cbn [bind]; try (split; [discriminate|intros [_ Q]; discriminate]).
        destruct (Bool.eqb b pos) eqn:E.
        - apply Bool.eqb_prop in E. subst. split; [intros Q; inversion Q; auto|intros [-> _]; auto].
        - split; [discriminate|]. intros [_ Q]. inversion Q; subst. rewrite Bool.eqb_reflx in E. discriminate. }
      destruct (om_find om (pname p)).
      { destruct (eval_type (pname p) l) as [b| | | |]; cbn [bind]; try (split; [discriminate|intros [_ Q]; discriminate]).
        destruct (Bool.eqb b pos) eqn:E.
        - apply Bool.eqb_prop in E. subst. split; [intros Q; inversion Q; auto|intros [-> _]; auto].
        - split; [discriminate|]. intros [_ Q]. inversion Q; subst. rewrite Bool.eqb_reflx in E. discriminate. }
      destruct ((if pos then ins else del) (mkProp (pname p) l) t) as [n t'] eqn:E. cbn [fst].
      destruct (Nat.eqb_spec n 0) as [->|N].
      - assert (t' = t) by (destruct pos; eauto). subst. split; [intros Q; inversion Q; auto|intros [-> _]; auto].
      - split; [|intros [_ Q]; congruence]. intros Q. apply bind_Ok in Q as (w1 & _ & Q). inversion Q. congruence.
    Qed.

    Lemma run_effs_zero_iff e : forall ow path params args st w',
      run_effs ins del cond om axioms rec ow path params e (Val args) (t, st) = Ok (0, w') <->
      w' = (t, st) /\ zero params args e.
    Proof.
      induction e as [fs adds dels cs IHf IHc] using effs_ind'. intros ow path params args st w'.
      rewrite run_effs_eq, zero_eq. cbn zeta. cbn [deref].
      pose proof (foldMi_zero_iff (fun i w vb =>
                let* ts := var_tuples om (fst vb) in
                 foldM (fun acc x =>
                     let* ' (s, w') := run_effs ins del cond om axioms rec ow (path ++ [0; i]) (params ++ fst vb) (snd vb)
                                 (Val (args ++ x)) (snd acc) in
                     Ok (Nat.max (fst acc) s, w'))
                   ts (0, w))
                (fun vb => exists ts, var_tuples om (fst vb) = Ok ts /\
                   forall x, In x ts -> zero (params ++ fst vb) (args ++ x) (snd vb)) fs) as L1.
      pose proof (foldMi_zero_iff (fun i w p =>
              run_lit ins del om axioms rec ow (path ++ [1; i]) params true p (Val args) w)
              (zero_lit params args true) adds) as L2.
      pose proof (foldMi_zero_iff (fun i w p =>
              run_lit ins del om axioms rec ow (path ++ [2; i]) params false p (Val args) w)
              (zero_lit params args false) dels) as L3.
      pose proof (foldMi_zero_iff (fun i w ce =>
                let* b := cond (fst w) (fst ce) params args in
                 if b : bool then run_effs ins del cond om axioms rec ow (path ++ [3; i]) params (snd ce) (Val args) w
                 else Ok (0, w))
              (fun gb => exists v, cond t (fst gb) params args = Ok v /\ (v = true -> zero params args (snd gb))) cs) as L4.
      match type of L1 with ?P -> _ => assert (K1 : P) end.
      { intros i [vars b] st1 w1 Ib. cbn [fst snd].
        destruct (var_tuples om vars) as [ts| | | |]; cbn [bind];
          try (split; [discriminate|intros (_ & ? & Q & _); discriminate]).
        rewrite (foldM_foldMi _ ts 0).
        rewrite (foldMi_zero_iff (fun _ w x => run_effs ins del cond om axioms rec ow (path ++ [0; i]) (params ++ vars) b
                                 (Val (args ++ x)) w) (fun x => zero (params ++ vars) (args ++ x) b) ts) with (st := st1); auto.
        - split; [intros (_ & -> & K); eauto|]. intros (-> & ts' & Q & K). inversion Q; subst. auto.
        - intros _ x st2 w2 _. apply (IHf vars b Ib). }
      specialize (L1 K1).
      match type of L2 with ?P -> _ => assert (K2 : P) by (intros; apply run_lit_zero_iff) end. specialize (L2 K2).
      match type of L3 with ?P -> _ => assert (K3 : P) by (intros; apply run_lit_zero_iff) end. specialize (L3 K3).
      match type of L4 with ?P -> _ => assert (K4 : P) end.
      { intros i [g b] st1 w1 Ib. cbn [fst snd].
        destruct (cond t g params args) as [[|]| | | |]; cbn [bind];
          try (split; [discriminate|intros (_ & ? & Q & _); discriminate]).
        - rewrite (IHc g b Ib). split; [intros [-> Z]; eauto|]. intros (-> & v & Q & Z). inversion Q; subst. auto.
        - split; [intros Q; inversion Q; subst; split; auto; exists false; split; auto; discriminate|].
          intros (-> & _). auto. }
      specialize (L4 K4). split.
      - intros E4. apply bind_Ok in E4 as ([n1 w1] & E1 & E4).
        apply bind_Ok in E4 as ([n2 w2] & E2 & E4). apply bind_Ok in E4 as ([n3 w3] & E3 & E4).
        assert (H1 : w1 = (t, st) \/ n1 <> 0).
        { destruct (Nat.eq_dec n1 0) as [->|]; auto. left. apply (L1 0 0 (t, st) w1 st) in E1; auto. apply E1. }
        assert (H2 : w2 = (t, st) \/ n2 <> 0).
        { destruct (Nat.eq_dec n2 0) as [->|]; auto. left. apply (L2 0 n1 w1 w2 st) in E2; auto. apply E2. }
        assert (H3 : w3 = (t, st) \/ n3 <> 0).
        { destruct (Nat.eq_dec n3 0) as [->|]; auto. left. apply (L3 0 n2 w2 w3 st) in E3; auto. apply E3. }
        apply (L4 0 n3 w3 w' st H3) in E4. destruct E4 as (-> & -> & Z4).
        apply (L3 0 n2 w2 w3 st H2) in E3. destruct E3 as (-> & -> & Z3).
        apply (L2 0 n1 w1 w2 st H1) in E2. destruct E2 as (-> & -> & Z2).
        apply (L1 0 0 (t, st) w1 st (or_introl eq_refl)) in E1. destruct E1 as (_ & -> & Z1).
        split; auto. split; [intros vars b I; exact (Z1 (vars, b) I)|]. split; auto. split; auto.
        intros g b I; exact (Z4 (g, b) I).
      - intros (-> & Z1 & Z2 & Z3 & Z4).
        assert (Z1' : forall vb, In vb fs -> exists ts, var_tuples om (fst vb) = Ok ts /\
                   forall x, In x ts -> zero (params ++ fst vb) (args ++ x) (snd vb)) by (intros [vars b]; apply Z1).
        assert (Z4' : forall gb, In gb cs -> exists v, cond t (fst gb) params args = Ok v /\
                   (v = true -> zero params args (snd gb))) by (intros [g b]; apply Z4).
        pose proof (proj2 (L1 0 0 (t, st) (t, st) st (or_introl eq_refl)) (conj eq_refl (conj eq_refl Z1'))) as E1.
        pose proof (proj2 (L2 0 0 (t, st) (t, st) st (or_introl eq_refl)) (conj eq_refl (conj eq_refl Z2))) as E2.
        pose proof (proj2 (L3 0 0 (t, st) (t, st) st (or_introl eq_refl)) (conj eq_refl (conj eq_refl Z3))) as E3.
        pose proof (proj2 (L4 0 0 (t, st) (t, st) st (or_introl eq_refl)) (conj eq_refl (conj eq_refl Z4'))) as E4.
        refine (bind_intro _ _ _ _ E1 _). refine (bind_intro _ _ _ _ E2 _). refine (bind_intro _ _ _ _ E3 _). exact E4.
    Qed.
  End Zero.

  (** ** Relations kept by every application

      [R n] is kept by applications of status [n]; a cascade does not count. *)
  Section Keeps.
    Context {T : Type} (ins del : prop -> T -> nat * T)
            (cond : T -> goal -> list object -> list object -> outcome bool)
            (om : object_map) (axioms : list axiom)
            (rec : nat -> argref -> world (T := T) -> outcome (nat * world (T := T))).
    Context (R : nat -> T -> T -> Prop) (Rrefl : forall t, R 0 t t)
            (Rtrans : forall n m a b c, R n a b -> R m b c -> R (Nat.max n m) a c).
    (** Only applications whose status is [small] count. *)
    Context (small : nat -> Prop) (small0 : small 0) (small_max : forall n m, small (Nat.max n m) -> small n /\ small m).
    Context (sigs : list (bool * string)).
    Context (Hlit : forall pos p t n t', In (pos, pname p) sigs -> small n ->
               (if pos then ins else del) p t = (n, t') -> R n t t').
    Context (Hrec : forall i a r w n w', nth_error axioms i = Some a -> In (ax_pos a, ax_name a) sigs ->
               rec i r w = Ok (n, w') -> R 0 (fst w) (fst w')).

    Lemma with_context_In pos name : forall axs i0 i a,
      In (i, a) (with_context_from i0 axs pos name) ->
      i0 <= i /\ nth_error axs (i - i0) = Some a /\ ax_pos a = pos /\ ax_name a = name.
    Proof.
      induction axs as [|b axs IH]; intros i0 i a; cbn; [intros []|].
      destruct (Bool.eqb (ax_pos b) pos && String.eqb (ax_name b) name) eqn:E.
      - intros [Q|I].
        + inversion Q; subst. rewrite Nat.sub_diag. cbn. apply andb_true_iff in E. destruct E as [E1 E2].
          apply Bool.eqb_prop in E1. apply String.eqb_eq in E2. auto.
        + apply IH in I. destruct I as (L & N & X). split; [lia|]. split; auto.
          replace (i - i0) with (S (i - S i0)) by lia. exact N.
      - intros I. apply IH in I. destruct I as (L & N & X). split; [lia|]. split; auto.
        replace (i - i0) with (S (i - S i0)) by lia. exact N.
    Qed.

    Lemma fire_keeps ow path params prop_params r pos name : In (pos, name) sigs ->
      forall w w', foldM (fire rec ow path params prop_params r) (with_context axioms pos name) w = Ok w' ->
      R 0 (fst w) (fst w').
    Proof.
      intros Is. assert (H : forall i a, In (i, a) (with_context axioms pos name) ->
                   nth_error axioms i = Some a /\ In (ax_pos a, ax_name a) sigs).
      { intros i a I. apply with_context_In in I. destruct I as (_ & N & <- & <-).
        rewrite Nat.sub_0_r in N. auto. }
      revert H. induction (with_context axioms pos name) as [|[i a] l IH]; intros H w w'; cbn [foldM].
      - intros Q; inversion Q; subst. apply Rrefl.
      - intros Q. apply bind_Ok in Q as (w1 & E & Q).
        apply (Rtrans 0 0) with (fst w1); [|apply IH; auto; intros; apply H; right; auto].
        destruct (H i a (or_introl eq_refl)) as [Na Ia]. unfold fire in E.
        apply bind_Ok in E as ([cl|] & _ & E); [|inversion E; subst; apply Rrefl].
        apply bind_Ok in E as ([ok st] & _ & E). destruct ok.
        + apply bind_Ok in E as ([n w2] & E & E'). inversion E'; subst. apply (Hrec _ _ _ _ _ _ Na Ia E).
        + inversion E; subst. apply Rrefl.
    Qed.

    Lemma run_lit_keeps ow path params pos p r w n w' : In (pos, pname p) sigs -> small n ->
      run_lit ins del om axioms rec ow path params pos p r w = Ok (n, w') -> R n (fst w) (fst w').
    Proof.
      intros Is Sn E. unfold run_lit in E. apply bind_Ok in E as (l & _ & E).
      destruct (String.eqb (pname p) "=").
      { apply bind_Ok in E as (b & _ & E). destruct (Bool.eqb b pos); inversion E; subst. apply Rrefl. }
      destruct (om_find om (pname p)).
      { apply bind_Ok in E as (b & _ & E). destruct (Bool.eqb b pos); inversion E; subst. apply Rrefl. }
      destruct ((if pos then ins else del) (mkProp (pname p) l) (fst w)) as [m t'] eqn:Ei.
      destruct (Nat.eqb_spec m 0) as [->|N].
      - inversion E; subst. cbn [fst]. apply (Hlit pos (mkProp (pname p) l) _ 0); auto.
      - apply bind_Ok in E as (w1 & E & E'). inversion E'; subst.
        rewrite <- (Nat.max_0_r n). apply Rtrans with t'; [apply (Hlit pos (mkProp (pname p) l) _ n); auto|].
        apply fire_keeps in E; auto.
    Qed.

    Lemma foldMi_keeps {A} (F : nat -> world (T := T) -> A -> outcome (nat * world (T := T))) l :
      (forall i a w n w', In a l -> small n -> F i w a = Ok (n, w') -> R n (fst w) (fst w')) ->
      forall i x n w', small n ->
      foldMi (fun i acc a => let* ' (s, w') := F i (snd acc) a in Ok (Nat.max (fst acc) s, w')) i l x = Ok (n, w') ->
      small (fst x) /\ exists k, n = Nat.max (fst x) k /\ R k (fst (snd x)) (fst w').
    Proof.
      induction l as [|a l IH]; intros H i [m w] n w' Sn; cbn [foldMi fst snd].
      - intros Q; inversion Q; subst. split; auto. exists 0. rewrite Nat.max_0_r. auto.
      - intros Q. apply bind_Ok in Q as ([k w1] & E & Q). apply bind_Ok in E as ([k' w1'] & E & E').
        inversion E'; subst. apply IH in Q; auto; [|intros; eapply H; eauto; right; auto].
        destruct Q as (Sk & j & -> & Rk). cbn [fst snd] in *. apply small_max in Sk. destruct Sk as [Sm Sk].
        split; auto. exists (Nat.max k' j). rewrite Nat.max_assoc. split; auto.
        apply Rtrans with (fst w1); auto. eapply H; eauto. left; auto.
    Qed.
  End Keeps.

  Section KeepsEffs.
    Context {T : Type} (ins del : prop -> T -> nat * T)
            (cond : T -> goal -> list object -> list object -> outcome bool)
            (om : object_map) (axioms : list axiom)
            (rec : nat -> argref -> world (T := T) -> outcome (nat * world (T := T))).
    Context (R : nat -> T -> T -> Prop) (Rrefl : forall t, R 0 t t)
            (Rtrans : forall n m a b c, R n a b -> R m b c -> R (Nat.max n m) a c).
    Context (small : nat -> Prop) (small_max : forall n m, small (Nat.max n m) -> small n /\ small m).

    Lemma run_effs_grows e :
      (forall pos p t n t', In (pos, pname p) (eff_sigs e) -> small n ->
               (if pos then ins else del) p t = (n, t') -> R n t t') ->
      (forall i a r w n w', nth_error axioms i = Some a -> In (ax_pos a, ax_name a) (eff_sigs e) ->
               rec i r w = Ok (n, w') -> R 0 (fst w) (fst w')) ->
      forall ow path params r w n w', small n ->
      run_effs ins del cond om axioms rec ow path params e r w = Ok (n, w') -> R n (fst w) (fst w').
    Proof.
      induction e as [fs adds dels cs IHf IHc] using effs_ind'. intros Hlit Hrec ow path params r w n w' Sn.
      rewrite run_effs_eq. cbn zeta.
      intros E4. apply bind_Ok in E4 as ([n1 w1] & E1 & E4).
      apply bind_Ok in E4 as ([n2 w2] & E2 & E4). apply bind_Ok in E4 as ([n3 w3] & E3 & E4).
      apply (foldMi_keeps R Rrefl Rtrans small small_max (fun i w ce =>
                let* b := cond (fst w) (fst ce) params (deref (snd w) r) in
                 if b : bool then run_effs ins del cond om axioms rec ow (path ++ [3; i]) params (snd ce) r w
                 else Ok (0, w)) cs) in E4; auto.
      2:{ intros i [g b] w4 n4 w5 Ib S4 Q. cbn [fst snd] in Q. apply bind_Ok in Q as ([|] & _ & Q).
          - refine (IHc g b Ib _ _ _ _ _ _ _ _ _ S4 Q).
            + intros pos p t m t' Ip. apply Hlit. eapply sigs_cond; eauto.
            + intros j a r' w6 m w7 Na Ia. apply Hrec with (a := a); auto. eapply sigs_cond; eauto.
          - inversion Q; subst. apply Rrefl. }
      destruct E4 as (S3 & k4 & -> & R4). cbn [fst snd] in S3, R4.
      apply (foldMi_keeps R Rrefl Rtrans small small_max (fun i w p =>
              run_lit ins del om axioms rec ow (path ++ [2; i]) params false p r w) dels) in E3; auto.
      2:{ intros i p w4 n4 w5 Ip S4 Q.
          refine (run_lit_keeps ins del om axioms rec R Rrefl Rtrans small (eff_sigs (Effs fs adds dels cs))
                    Hlit Hrec _ _ _ _ _ _ _ _ _ _ S4 Q).
          apply sigs_del; auto. }
      destruct E3 as (S2 & k3 & -> & R3). cbn [fst snd] in S2, R3.
      apply (foldMi_keeps R Rrefl Rtrans small small_max (fun i w p =>
              run_lit ins del om axioms rec ow (path ++ [1; i]) params true p r w) adds) in E2; auto.
      2:{ intros i p w4 n4 w5 Ip S4 Q.
          refine (run_lit_keeps ins del om axioms rec R Rrefl Rtrans small (eff_sigs (Effs fs adds dels cs))
                    Hlit Hrec _ _ _ _ _ _ _ _ _ _ S4 Q).
          apply sigs_add; auto. }
      destruct E2 as (S1 & k2 & -> & R2). cbn [fst snd] in S1, R2.
      apply (foldMi_keeps R Rrefl Rtrans small small_max (fun i w vb =>
                let* ts := var_tuples om (fst vb) in
                 foldM (fun acc t =>
                     let* ' (s, w') := run_effs ins del cond om axioms rec ow (path ++ [0; i]) (params ++ fst vb) (snd vb)
                                 (Val (deref (snd (snd acc)) r ++ t)) (snd acc) in
                     Ok (Nat.max (fst acc) s, w'))
                   ts (0, w)) fs) in E1; auto.
      2:{ intros i [vars b] w4 n4 w5 Ib S4 Q. cbn [fst snd] in Q. apply bind_Ok in Q as (ts & _ & Q).
          rewrite (foldM_foldMi _ ts 0) in Q.
          apply (foldMi_keeps R Rrefl Rtrans small small_max (fun _ w t =>
              run_effs ins del cond om axioms rec ow (path ++ [0; i]) (params ++ vars) b
                                 (Val (deref (snd w) r ++ t)) w) ts) in Q; auto; [destruct Q as (_ & k & -> & Q); exact Q|].
          intros _ t w6 n6 w7 _ S6 Q6.
          refine (IHf vars b Ib _ _ _ _ _ _ _ _ _ S6 Q6).
          - intros pos p u m t' Ip. apply Hlit. eapply sigs_forall; eauto.
          - intros j a r' w8 m w9 Na Ia. apply Hrec with (a := a); auto. eapply sigs_forall; eauto. }
      destruct E1 as (_ & k1 & -> & R1). cbn [fst snd] in R1 |- *.
      apply Rtrans with (fst w3); auto. apply Rtrans with (fst w2); auto. apply Rtrans with (fst w1); auto.
    Qed.

  End KeepsEffs.

  Lemma run_effs_keeps {T : Type} (ins del : prop -> T -> nat * T)
      (cond : T -> goal -> list object -> list object -> outcome bool) (om : object_map) (axioms : list axiom)
      (rec : nat -> argref -> world (T := T) -> outcome (nat * world (T := T)))
      (R : T -> T -> Prop) (Rrefl : forall t, R t t) (Rtrans : forall a b c, R a b -> R b c -> R a c)
      (small : nat -> Prop) (small_max : forall n m, small (Nat.max n m) -> small n /\ small m) e :
    (forall pos p t n t', In (pos, pname p) (eff_sigs e) -> small n ->
             (if pos then ins else del) p t = (n, t') -> R t t') ->
    (forall i a r w n w', nth_error axioms i = Some a -> In (ax_pos a, ax_name a) (eff_sigs e) ->
             rec i r w = Ok (n, w') -> R (fst w) (fst w')) ->
    forall ow path params r w n w', small n ->
    run_effs ins del cond om axioms rec ow path params e r w = Ok (n, w') -> R (fst w) (fst w').
  Proof.
    intros Hlit Hrec ow path params r w n w'.
    apply (run_effs_grows ins del cond om axioms rec (fun _ => R)) with (small := small); eauto.
  Qed.

  Section KeepsAxiom.
    Context {T : Type} (ins del : prop -> T -> nat * T)
            (cond : T -> goal -> list object -> list object -> outcome bool)
            (om : object_map) (axioms : list axiom).
    Context (R : T -> T -> Prop) (Rrefl : forall t, R t t) (Rtrans : forall a b c, R a b -> R b c -> R a c).
    (** A set of axioms closed under triggering. *)
    Context (Q : nat -> Prop).
    Context (Hclosed : forall i a j b, Q i -> nth_error axioms i = Some a -> nth_error axioms j = Some b ->
               In (ax_pos b, ax_name b) (eff_sigs (op_effs (ax_op a))) -> Q j).
    Context (Hlit : forall i a pos p t n t', Q i -> nth_error axioms i = Some a ->
               In (pos, pname p) (eff_sigs (op_effs (ax_op a))) ->
               (if pos then ins else del) p t = (n, t') -> R t t').

    Lemma apply_axiom_keeps fuel : forall i r w n w', Q i ->
      apply_axiom ins del cond om axioms fuel i r w = Ok (n, w') -> R (fst w) (fst w').
    Proof.
      induction fuel as [|fuel IH]; intros i r w n w' Qi; cbn [apply_axiom]; [discriminate|].
      destruct (nth_error axioms i) as [a|] eqn:Na; [|discriminate].
      apply (run_effs_keeps ins del cond om axioms _ R Rrefl Rtrans (fun _ => True)); auto.
      - intros pos p t m t' Ip _. eapply Hlit; eauto.
      - intros j b r' w1 m w2 Nb Ib E. apply (IH j r' w1 m w2); auto. eapply Hclosed; eauto.
    Qed.
  End KeepsAxiom.
End WithHash.
