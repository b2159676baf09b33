(** Iterators over state indexes are positions (C82). *)
From Coq Require Import String Ascii List Bool ZArith Lia.
From Verif.Model Require Import Base Object Proposition State CombinationGenerator
  ParameterGenerator Text StateIndex IndexIter.
From Verif.Spec Require Import TypingSpec EffectSpec SetSpec IndexSpec IndexIterSpec.
From Verif.Proofs Require Import CombinationFacts FormulaFacts IndexFacts IndexTheorems IndexRound.
Import ListNotations.
Local Open Scope list_scope.
Local Open Scope Z_scope.

Lemma f2_nth {A B} (R : A -> B -> Prop) la lb i b : Forall2 R la lb -> nth_error lb i = Some b ->
  exists a, nth_error la i = Some a /\ R a b.
Proof.
  intros F. revert i. induction F as [|a b' la lb H F IH]; intros [|i] E; try discriminate; cbn in *; eauto.
  injection E as <-. eauto.
Qed.
Lemma f2_nth_l {A B} (R : A -> B -> Prop) la lb i a : Forall2 R la lb -> nth_error la i = Some a ->
  exists b, nth_error lb i = Some b /\ R a b.
Proof.
  intros F. revert i. induction F as [|a' b la lb H F IH]; intros [|i] E; try discriminate; cbn in *; eauto.
  injection E as <-. eauto.
Qed.
Lemma f2_set {A B} (R : A -> B -> Prop) la lb i a b : Forall2 R la lb -> R a b -> Forall2 R (set_nth i a la) (set_nth i b lb).
Proof.
  intros F H. revert i. induction F as [|a' b' la lb H' F IH]; intros [|i]; cbn; constructor; auto.
Qed.
Lemma f2_set_r {A B} (R : A -> B -> Prop) la lb i a b : Forall2 R la lb -> nth_error la i = Some a -> R a b ->
  Forall2 R la (set_nth i b lb).
Proof.
  intros F. revert i. induction F as [|a' b' la lb H' F IH]; intros [|i] E H; try discriminate; cbn in *; constructor; auto.
  congruence.
Qed.
Lemma f2_len {A B} (R : A -> B -> Prop) la lb : Forall2 R la lb -> length la = length lb.
Proof. induction 1; cbn; auto. Qed.

Section Programs.
  Context `{SH : StdHash}.
  (** Indexes that number lists of propositions. *)
  Record numbers (si : state_index) (l : list prop) : Prop := {
    nu_size : si_size si = Z.of_nat (length l);
    nu_small : Z.of_nat (length l) < 2 ^ 31;
    nu_prop : forall j p, nth_error l j = Some p -> lookup_prop si (Z.of_nat j) = Ok p
  }.

  Context (indexes : list state_index) (lists : list (list prop)).
  Context (HN : Forall2 numbers indexes lists).
  Notation T := (fun k => nth_error lists k).

  (** Positions stay between begin and end. *)
  Definition it_rel (a : x_iter) (b : p_iter) : Prop :=
    x_of a = p_of b /\ x_idx a = p_pos b /\
    (exists l, T (p_of b) = Some l /\ 0 <= p_pos b <= Z.of_nat (length l)) /\
    forall p, p_shown b = Some p -> x_prop a = p.
  Definition w_rel (w : x_world) (its : list p_iter) : Prop :=
    Forall2 cache_ok indexes (x_caches w) /\ Forall2 it_rel (x_iters w) its.

  Lemma index_of_list k l : T k = Some l -> exists si, x_index indexes k = Ok si /\ nth_error indexes k = Some si /\ numbers si l.
  Proof. intros E. destruct (f2_nth _ _ _ _ _ HN E) as (si & Es & N). exists si. unfold x_index. rewrite Es. auto. Qed.
  Lemma iter_rel w its i b : w_rel w its -> nth_error its i = Some b -> exists a, x_iter_at w i = Ok a /\ it_rel a b.
  Proof. intros [_ F] E. destruct (f2_nth _ _ _ _ _ F E) as (a & Ea & R). exists a. unfold x_iter_at. rewrite Ea. auto. Qed.
  Lemma new_rel w its a b : w_rel w its -> it_rel a b ->
    exists w', x_new w a = (XIter (length its), w') /\ w_rel w' (its ++ [b]).
  Proof.
    intros [C F] R. unfold x_new. rewrite (f2_len _ _ _ F). eexists. split; [reflexivity|]. split; auto.
    cbn [x_iters]. apply Forall2_app; auto.
  Qed.
  Lemma set_rel w its i a b : w_rel w its -> it_rel a b -> w_rel (mkXWorld (x_caches w) (set_nth i a (x_iters w))) (set_nth i b its).
  Proof. intros [C F] R. split; auto. cbn [x_iters]. apply f2_set; auto. Qed.

  Lemma plus_rel a b n b' : it_rel a b -> p_plus T n b = Some b' -> exists a', x_plus n a = Ok a' /\ it_rel a' b'.
  Proof.
    intros (E1 & E2 & (l & El & B) & S) H. unfold p_plus in H. rewrite El in H.
    destruct ((0 <=? p_pos b + n) && (p_pos b + n <=? Z.of_nat (length l))) eqn:Q; [|discriminate]. injection H as <-.
    apply andb_true_iff in Q as [Q1 Q2]. apply Z.leb_le in Q1, Q2.
    destruct (index_of_list _ _ El) as (si & _ & _ & N). pose proof (nu_small _ _ N).
    unfold x_plus. rewrite E2. cbn zeta. rewrite (proj2 (Z.leb_le _ _)), (proj2 (Z.ltb_lt _ _)) by lia. cbn [andb].
    eexists. split; [reflexivity|]. rewrite to_int_id by lia. split; [|split; [|split]]; auto. cbn. eauto.
  Qed.

  Lemma get_rel w its a b p : w_rel w its -> it_rel a b -> p_get T b = Some p ->
    exists cs, x_get indexes w a = Ok (p, cs) /\ Forall2 cache_ok indexes cs.
  Proof.
    intros [C F] (E1 & E2 & (l & El & B) & S) H. unfold p_get in H. rewrite El in H.
    destruct (0 <=? p_pos b) eqn:Q; [|discriminate]. apply Z.leb_le in Q.
    destruct (index_of_list _ _ El) as (si & Ex & Es & N). pose proof (nu_small _ _ N).
    unfold x_get. rewrite E1, E2, Ex. cbn [bind]. destruct (f2_nth_l _ _ _ _ _ C Es) as (c & -> & OK).
    rewrite to_size_t_id by lia. destruct (get_proposition_pure si (p_pos b) c OK) as [G OK'].
    pose proof (nu_prop _ _ N _ _ H) as L. rewrite Z2Nat.id in L by auto. rewrite L in G.
    destruct (get_proposition si (p_pos b) c) as [r c']. cbn [fst snd] in *. subst r.
    eexists. split; [reflexivity|]. eapply f2_set_r; eauto.
  Qed.

  Lemma compare_rel w its i j r its' (fx : x_iter -> x_iter -> bool) (f : Z -> Z -> bool) apart : w_rel w its ->
    (forall a b a' b', x_of a = p_of a' -> x_of b = p_of b' -> x_idx a = p_pos a' -> x_idx b = p_pos b' ->
       fx a b = p_compare f apart a' b') ->
    opt_bind (nth_error its i) (fun a => opt_bind (nth_error its j) (fun b => Some (XBool (p_compare f apart a b), its))) = Some (r, its') ->
    exists w', (let* a := x_iter_at w i in let* b := x_iter_at w j in Ok (XBool (fx a b), w)) = Ok (r, w') /\ w_rel w' its'.
  Proof.
    intros R Hf H. destruct (nth_error its i) as [a'|] eqn:Ea; [|discriminate].
    destruct (nth_error its j) as [b'|] eqn:Eb; [|discriminate]. cbn in H. injection H as <- <-.
    destruct (iter_rel _ _ _ _ R Ea) as (a & -> & A1 & A2 & _). destruct (iter_rel _ _ _ _ R Eb) as (b & -> & B1 & B2 & _).
    cbn [bind]. rewrite (Hf a b a' b'); eauto.
  Qed.

  Ltac cmp := intros a b a' b' H1 H2 H3 H4; unfold x_eqb, x_ltb, x_leb, p_compare; rewrite ?H1, ?H2, ?H3, ?H4;
    destruct (Nat.eq_dec (p_of a') (p_of b')) as [Q|Q];
    [rewrite ?(proj2 (Nat.eqb_eq _ _) Q), ?(proj2 (Nat.eqb_eq _ _) (eq_sym Q))
    |rewrite ?(proj2 (Nat.eqb_neq _ _) Q), ?(proj2 (Nat.eqb_neq _ _) (not_eq_sym Q))]; cbn [andb negb]; auto.

  Lemma iter_step o w its r its' : w_rel w its -> p_step T o its = Some (r, its') ->
    exists w', x_step indexes o w = Ok (r, w') /\ w_rel w' its'.
  Proof.
    intros R H. destruct o; cbn [p_step x_step] in *; try discriminate;
      try (eapply compare_rel; [exact R| |exact H]; cmp; fail).
    - destruct (nth_error lists k) as [l|] eqn:El; [|discriminate]. cbn [opt_bind] in H. injection H as <- <-.
      destruct (index_of_list _ _ El) as (si & -> & _ & N). cbn [bind].
      destruct (new_rel w its (mkXIter k 0 no_prop) (mkPIter k 0 None) R) as (w' & -> & R'); eauto.
      split; [|split; [|split]]; cbn; auto; [exists l; split; auto; lia|discriminate].
    - destruct (nth_error lists k) as [l|] eqn:El; [|discriminate]. cbn [opt_bind] in H. injection H as <- <-.
      destruct (index_of_list _ _ El) as (si & -> & _ & N). cbn [bind]. rewrite (nu_size _ _ N).
      pose proof (nu_small _ _ N). rewrite to_int_id by lia.
      destruct (new_rel w its (mkXIter k (Z.of_nat (length l)) no_prop) (mkPIter k (Z.of_nat (length l)) None) R) as (w' & -> & R'); eauto.
      split; [|split; [|split]]; cbn; auto; [exists l; split; auto; lia|discriminate].
    - destruct (nth_error its i) as [b|] eqn:Eb; [|discriminate]. cbn [opt_bind] in H. injection H as <- <-.
      destruct (iter_rel _ _ _ _ R Eb) as (a & -> & A). cbn [bind]. destruct (new_rel w its a b R A) as (w' & -> & R'). eauto.
    - destruct (nth_error its i) as [b|] eqn:Eb; [|discriminate]. cbn [opt_bind] in H.
      destruct (p_plus T n b) as [b'|] eqn:Ep; [|discriminate]. cbn [opt_bind] in H. injection H as <- <-.
      destruct (iter_rel _ _ _ _ R Eb) as (a & -> & A). cbn [bind]. destruct (plus_rel _ _ _ _ A Ep) as (a' & -> & A').
      cbn [bind]. eexists. split; [reflexivity|]. apply set_rel; auto.
    - destruct (nth_error its i) as [b|] eqn:Eb; [|discriminate]. cbn [opt_bind] in H.
      destruct (p_plus T (- n) b) as [b'|] eqn:Ep; [|discriminate]. cbn [opt_bind] in H. injection H as <- <-.
      destruct (iter_rel _ _ _ _ R Eb) as (a & -> & A). cbn [bind]. destruct (plus_rel _ _ _ _ A Ep) as (a' & E & A').
      destruct (Z.eqb_spec n (- 2 ^ 63)) as [->|_].
      { exfalso. unfold p_plus in Ep. destruct A as (_ & _ & (l & El & B) & _). rewrite El in Ep.
        destruct (index_of_list _ _ El) as (si & _ & _ & N). pose proof (nu_small _ _ N).
        rewrite (proj2 (Z.leb_gt _ (Z.of_nat (length l)))), andb_false_r in Ep by lia. discriminate. }
      rewrite E. cbn [bind]. eexists. split; [reflexivity|]. apply set_rel; auto.
    - destruct (nth_error its i) as [b|] eqn:Eb; [|discriminate]. cbn [opt_bind] in H.
      destruct (p_plus T n b) as [b'|] eqn:Ep; [|discriminate]. cbn [opt_bind] in H. injection H as <- <-.
      destruct (iter_rel _ _ _ _ R Eb) as (a & -> & A). cbn [bind]. destruct (plus_rel _ _ _ _ A Ep) as (a' & -> & A').
      cbn [bind]. destruct (new_rel w its a' b' R A') as (w' & -> & R'). eauto.
    - destruct (nth_error its i) as [b|] eqn:Eb; [|discriminate]. cbn [opt_bind] in H.
      destruct (p_plus T n b) as [b'|] eqn:Ep; [|discriminate]. cbn [opt_bind] in H. injection H as <- <-.
      destruct (iter_rel _ _ _ _ R Eb) as (a & -> & A). cbn [bind]. destruct (plus_rel _ _ _ _ A Ep) as (a' & -> & A').
      cbn [bind]. pose proof (set_rel w its i a' b' R A') as R1.
      destruct (new_rel _ _ a b R1 A) as (w' & E & R'). rewrite E. rewrite IndexRound.set_nth_length. eauto.
    - destruct (nth_error its i) as [b|] eqn:Eb; [|discriminate]. cbn [opt_bind] in H.
      destruct (p_get T b) as [p|] eqn:Ep; [|discriminate]. cbn [opt_bind] in H. injection H as <- <-.
      destruct (iter_rel _ _ _ _ R Eb) as (a & -> & A). cbn [bind]. destruct (get_rel _ _ _ _ _ R A Ep) as (cs & -> & C).
      cbn [bind]. eexists. split; [reflexivity|]. destruct R as [_ F]. destruct A as (A1 & A2 & A3 & _). split; auto.
      cbn [x_iters]. apply f2_set; auto. split; [|split; [|split]]; auto. cbn. congruence.
    - destruct r0 as [i|]; [|discriminate].
      destruct (nth_error its i) as [b|] eqn:Eb; [|discriminate]. cbn [opt_bind] in H.
      destruct (p_shown b) as [p|] eqn:Ep; [|discriminate]. cbn [opt_bind] in H. injection H as <- <-.
      destruct (iter_rel _ _ _ _ R Eb) as (a & -> & A). cbn [bind]. destruct A as (_ & _ & _ & A). rewrite (A p Ep). eauto.
    - destruct (nth_error its i) as [b|] eqn:Eb; [|discriminate]. cbn [opt_bind] in H.
      destruct (p_plus T n b) as [b'|] eqn:Ep; [|discriminate]. cbn [opt_bind] in H.
      destruct (p_get T b') as [p|] eqn:Eg; [|discriminate]. cbn [opt_bind] in H. injection H as <- <-.
      destruct (iter_rel _ _ _ _ R Eb) as (a & -> & A). cbn [bind]. destruct (plus_rel _ _ _ _ A Ep) as (a' & -> & A').
      cbn [bind]. destruct (get_rel _ _ _ _ _ R A' Eg) as (cs & -> & C).
      cbn [bind]. eexists. split; [reflexivity|]. destruct R as [_ F]. split; auto.
    - destruct (nth_error its i) as [a'|] eqn:Ea; [|discriminate].
      destruct (nth_error its j) as [b'|] eqn:Eb; [|discriminate]. cbn [opt_bind] in H.
      destruct (Nat.eq_dec (p_of a') (p_of b')) as [Q|]; [|discriminate]. injection H as <- <-.
      destruct (iter_rel _ _ _ _ R Ea) as (a & -> & A1 & A2 & (l & El & A3) & _).
      destruct (iter_rel _ _ _ _ R Eb) as (b & -> & B1 & B2 & (l' & El' & B3) & _).
      cbn [bind]. rewrite A2, B2. rewrite <- Q, El in El'. injection El' as <-.
      destruct (index_of_list _ _ El) as (si & _ & _ & N). pose proof (nu_small _ _ N). cbn zeta.
      rewrite (proj2 (Z.leb_le _ _)), (proj2 (Z.ltb_lt _ _)) by lia. cbn [andb]. eauto.
    - eapply compare_rel; [exact R| |exact H]; cmp. symmetry. apply Z.gtb_ltb.
    - eapply compare_rel; [exact R| |exact H]; cmp. symmetry. apply Z.geb_leb.
  Qed.

  Lemma iter_run ops : forall w its rs, w_rel w its -> p_run T ops its = Some rs ->
    exists w', x_run indexes ops w = Ok (rs, w').
  Proof.
    induction ops as [|o ops IH]; intros w its rs R H; cbn [p_run x_run] in *.
    - injection H as <-. eauto.
    - destruct (p_step T o its) as [[r its']|] eqn:E; [|discriminate]. cbn [opt_bind] in H.
      destruct (iter_step _ _ _ _ _ R E) as (w1 & -> & R1). cbn [bind].
      destruct (p_run T ops its') as [rs'|] eqn:Er; [|discriminate]. cbn in H. injection H as <-.
      destruct (IH _ _ _ R1 Er) as (w2 & ->). cbn [bind]. eauto.
  Qed.
End Programs.

Section Theorems.
  Context `{SH : StdHash}.

  Lemma index_numbers objects decls use si : indexable objects decls -> ground_count objects decls < 2 ^ 31 ->
    index_of objects decls use = Ok si -> numbers si (numbering objects decls).
  Proof.
    intros IX C E. pose proof (built_of _ _ _ _ IX E) as B. constructor.
    - apply (built_size _ _ _ _ IX B).
    - rewrite numbering_length. auto.
    - intros j p N. apply (lookup_prop_ok _ _ _ _ IX B _ _ N).
  Qed.

  Lemma C82_programs_lemma doms sis qss :
    Forall2 (fun d si => indexable (fst d) (snd d) /\ ground_count (fst d) (snd d) < 2 ^ 31 /\
                         exists use, index_of (fst d) (snd d) use = Ok si) doms sis ->
    Forall (Forall plain_query) qss -> length qss = length sis ->
    forall ops rs, p_run (nth_error (map (fun d => numbering (fst d) (snd d)) doms)) ops [] = Some rs ->
    exists w, x_run sis ops (mkXWorld (map (fun sq => caches_after (fst sq) (snd sq)) (combine sis qss)) []) = Ok (rs, w).
  Proof.
    intros F Q L ops rs H.
    eapply (iter_run sis (map (fun d => numbering (fst d) (snd d)) doms)); [|split; [|constructor]|exact H].
    - clear -F SH. induction F as [|d si doms sis (IX & C & use & E) F IH]; cbn [map]; constructor; auto.
      eapply index_numbers; eauto.
    - cbn [x_caches]. clear -Q L SH. revert qss Q L. induction sis as [|si sis IH]; intros [|qs qss] Q L; try discriminate; cbn.
      + constructor.
      + inversion Q; subst. constructor; [apply caches_after_ok; auto|]. apply IH; auto.
  Qed.

  (** ** Loops *)
  Lemma walk_up T k ops2 rs2 l2 : forall l1 sh, T k = Some (l1 ++ l2) ->
    (forall sh', p_run T ops2 [mkPIter k (Z.of_nat (length (l1 ++ l2))) sh'] = Some rs2) ->
    p_run T (concat (repeat [XDeref 0; XRead (Some 0%nat); XMove 0 1] (length l2)) ++ ops2) [mkPIter k (Z.of_nat (length l1)) sh] =
    Some (flat_map (fun p => [XRef (Some 0%nat); XProp p; XDone]) l2 ++ rs2).
  Proof.
    induction l2 as [|p l2 IH]; intros l1 sh Tk H.
    - cbn. rewrite app_nil_r in H. apply H.
    - cbn [length repeat concat List.app p_run p_step nth_error opt_bind flat_map].
      unfold p_get. cbn [p_of p_pos]. rewrite Tk, (proj2 (Z.leb_le _ _)), Nat2Z.id by lia.
      rewrite nth_error_app2, Nat.sub_diag by lia. cbn [nth_error opt_bind set_nth p_shown option_map].
      unfold p_plus. cbn [p_of p_pos]. rewrite Tk.
      rewrite (proj2 (Z.leb_le _ _)) by lia. rewrite (proj2 (Z.leb_le _ _)) by (rewrite app_length; cbn [length]; lia).
      cbn [andb opt_bind p_shown set_nth].
      replace (Z.of_nat (length l1) + 1) with (Z.of_nat (length (l1 ++ [p]))) by (rewrite app_length; cbn [length]; lia).
      specialize (IH (l1 ++ [p]) (Some p)). rewrite <- app_assoc in IH. cbn [List.app] in IH.
      rewrite IH; auto.
  Qed.

  Lemma walk_down T k ops2 rs2 l1 : forall l2 sh, T k = Some (l1 ++ l2) ->
    (forall sh', p_run T ops2 [mkPIter k 0 sh'] = Some rs2) ->
    p_run T (concat (repeat [XMove 0 (-1); XDeref 0; XRead (Some 0%nat)] (length l1)) ++ ops2) [mkPIter k (Z.of_nat (length l1)) sh] =
    Some (flat_map (fun p => [XDone; XRef (Some 0%nat); XProp p]) (rev l1) ++ rs2).
  Proof.
    induction l1 as [|p l1 IH] using rev_ind; intros l2 sh Tk H.
    - cbn. apply H.
    - rewrite rev_app_distr, app_length, Nat.add_1_r. rewrite <- app_assoc in Tk. cbn [List.app] in Tk.
      cbn [repeat concat List.app p_run p_step nth_error opt_bind flat_map rev].
      unfold p_plus. cbn [p_of p_pos]. rewrite Tk.
      rewrite (proj2 (Z.leb_le _ _)) by lia. rewrite (proj2 (Z.leb_le _ _)) by (rewrite app_length; cbn [length]; lia).
      cbn [andb opt_bind p_shown set_nth nth_error].
      replace (Z.of_nat (S (length l1)) + -1) with (Z.of_nat (length l1)) by lia.
      unfold p_get. cbn [p_of p_pos]. rewrite Tk, (proj2 (Z.leb_le _ _)), Nat2Z.id by lia.
      rewrite nth_error_app2, Nat.sub_diag by lia. cbn [nth_error opt_bind set_nth p_shown option_map].
      rewrite (IH (p :: l2)); auto.
  Qed.

  Lemma all_at T k l : T k = Some l -> forall ns sh its, Forall (fun n => n < length l)%nat ns ->
    exists ps, map (nth_error l) ns = map Some ps /\
    p_run T (map (fun n => XAt 0 (Z.of_nat n)) ns) (mkPIter k 0 sh :: its) = Some (map XProp ps).
  Proof.
    intros Tk ns sh its F. induction F as [|n ns B F (ps & E & H)].
    - exists []. auto.
    - destruct (nth_error l n) as [p|] eqn:En; [|apply nth_error_None in En; lia].
      exists (p :: ps). cbn [map]. rewrite En, E. split; auto.
      cbn [p_run p_step nth_error opt_bind]. unfold p_plus. cbn [p_of p_pos]. rewrite Tk, Z.add_0_l.
      rewrite (proj2 (Z.leb_le _ _)), (proj2 (Z.leb_le _ _)) by lia. cbn [andb opt_bind].
      unfold p_get. cbn [p_of p_pos]. rewrite Tk, (proj2 (Z.leb_le _ _)), Nat2Z.id by lia. rewrite En. cbn [opt_bind].
      rewrite H. auto.
  Qed.

  Lemma all_seq {A} (l ps : list A) : map (nth_error l) (seq 0 (length l)) = map Some ps -> ps = l.
  Proof.
    assert (G : forall l pre, map (nth_error (pre ++ l)) (seq (length pre) (length l)) = map (@Some A) l).
    { clear. induction l as [|a l IH]; intros pre; cbn [length seq map]; auto. f_equal.
      - rewrite nth_error_app2, Nat.sub_diag by lia. reflexivity.
      - specialize (IH (pre ++ [a])). rewrite <- app_assoc, app_length in IH. cbn [List.app length] in IH.
        rewrite Nat.add_1_r in IH. exact IH. }
    pose proof (G l []) as E. cbn [List.app length] in E. rewrite E. clear.
    revert ps. induction l as [|a l IH]; intros [|b ps] H; try discriminate; auto. injection H as <- H. f_equal; auto.
  Qed.

  Lemma C82_loops_lemma objects decls use si qs : indexable objects decls -> ground_count objects decls < 2 ^ 31 ->
    index_of objects decls use = Ok si -> Forall plain_query qs ->
    let l := numbering objects decls in
    let run ops rs := exists w, x_run [si] ops (mkXWorld [caches_after si qs] []) = Ok (rs, w) in
    run (XBegin 0 :: concat (repeat [XDeref 0; XRead (Some 0%nat); XMove 0 1] (length l)) ++ [XEnd 0; XEq 0 1])
        (XIter 0 :: flat_map (fun p => [XRef (Some 0%nat); XProp p; XDone]) l ++ [XIter 1; XBool true]) /\
    run (XEnd 0 :: concat (repeat [XMove 0 (-1); XDeref 0; XRead (Some 0%nat)] (length l)) ++ [XBegin 0; XEq 0 1])
        (XIter 0 :: flat_map (fun p => [XDone; XRef (Some 0%nat); XProp p]) (rev l) ++ [XIter 1; XBool true]) /\
    run (XBegin 0 :: XEnd 0 :: XDiff 1 0 :: map (fun n => XAt 0 (Z.of_nat n)) (seq 0 (length l)))
        (XIter 0 :: XIter 1 :: XNumber (Z.of_nat (length l)) :: map XProp l).
  Proof.
    intros IX C E Q l run.
    assert (P : forall ops rs, p_run (nth_error [l]) ops [] = Some rs -> run ops rs).
    { intros ops rs H. apply (C82_programs_lemma [(objects, decls)] [si] [qs]); auto.
      constructor; [|constructor]. cbn. eauto. }
    assert (T0 : nth_error [l] 0%nat = Some ([] ++ l)) by reflexivity.
    assert (T1 : nth_error [l] 0%nat = Some (l ++ [])) by (rewrite app_nil_r; reflexivity).
    split; [|split]; apply P.
    - cbn [p_run p_step]. change (nth_error [l] 0) with (Some l). cbn [opt_bind List.app length].
      pose proof (walk_up (nth_error [l]) 0 [XEnd 0; XEq 0 1] [XIter 1; XBool true] l [] None T0) as U.
      cbn [length Z.of_nat] in U. rewrite U; [reflexivity|].
      intros sh. cbn [p_run p_step]. change (nth_error [l] 0) with (Some l).
      cbn [opt_bind List.app length nth_error option_map]. unfold p_compare. cbn [p_of p_pos].
      destruct (Nat.eq_dec 0 0) as [_|]; [|congruence]. rewrite Z.eqb_refl. reflexivity.
    - cbn [p_run p_step]. change (nth_error [l] 0) with (Some l). cbn [opt_bind List.app length].
      rewrite (walk_down (nth_error [l]) 0 [XBegin 0; XEq 0 1] [XIter 1; XBool true] l [] None T1); reflexivity.
    - cbn [p_run p_step]. change (nth_error [l] 0) with (Some l).
      cbn [opt_bind List.app length nth_error p_of p_pos].
      destruct (all_at (nth_error [l]) 0 l eq_refl (seq 0 (length l)) None [mkPIter 0 (Z.of_nat (length l)) None]) as (ps & Ep & Er).
      { apply Forall_forall. intros n I. apply in_seq in I. lia. }
      apply all_seq in Ep. subst ps. destruct (Nat.eq_dec 0 0) as [_|]; [|congruence]. cbn [opt_bind]. rewrite Er.
      cbn [option_map]. rewrite Z.sub_0_r. reflexivity.
  Qed.

  Lemma C82_reverse_lemma objects decls use si qs n : indexable objects decls -> ground_count objects decls < 2 ^ 31 ->
    index_of objects decls use = Ok si -> Forall plain_query qs -> 1 <= n <= ground_count objects decls ->
    let w := mkXWorld [caches_after si qs] [] in
    (exists w', x_run [si] [XBegin 0; XMove 0 n; XReverse 0] w = Ok ([XIter 0; XDone; XRef None], w')) /\
    x_run [si] [XBegin 0; XMove 0 n; XReverse 0; XRead None] w = UB.
  Proof.
    intros IX C E Q B w. pose proof (index_numbers _ _ _ _ IX C E) as N. rewrite <- numbering_length in B.
    set (l := numbering objects decls) in *. pose proof (nu_small _ _ N) as Sm.
    assert (P1 : x_plus n (mkXIter 0 0 no_prop) = Ok (mkXIter 0 n no_prop)).
    { unfold x_plus. cbn [x_idx x_of x_prop]. rewrite Z.add_0_l. rewrite (proj2 (Z.leb_le _ _)), (proj2 (Z.ltb_lt _ _)) by lia.
      cbn [andb]. rewrite to_int_id by lia. reflexivity. }
    assert (P2 : x_plus (-1) (mkXIter 0 n no_prop) = Ok (mkXIter 0 (n - 1) no_prop)).
    { unfold x_plus. cbn [x_idx x_of x_prop]. cbn zeta. rewrite (proj2 (Z.leb_le _ _)), (proj2 (Z.ltb_lt _ _)) by lia.
      cbn [andb]. rewrite to_int_id by lia. reflexivity. }
    assert (G : exists p c, x_get [si] (mkXWorld [caches_after si qs] [mkXIter 0 n no_prop]) (mkXIter 0 (n - 1) no_prop) = Ok (p, c)).
    { unfold x_get. cbn [x_of x_index nth_error bind x_caches x_idx]. rewrite to_size_t_id by lia.
      destruct (get_proposition_pure si (n - 1) _ (caches_after_ok si qs Q)) as [G _].
      destruct (nth_error l (Z.to_nat (n - 1))) as [p|] eqn:En; [|apply nth_error_None in En; lia].
      pose proof (nu_prop _ _ N _ _ En) as L. rewrite Z2Nat.id in L by lia. rewrite L in G.
      destruct (get_proposition si (n - 1) (caches_after si qs)) as [r c']. cbn [fst] in G. subst r. eauto. }
    destruct G as (p & c & G).
    split; [eexists|]; unfold w; cbn [x_run x_step x_index nth_error bind x_new x_iters x_caches List.app length x_iter_at];
      rewrite P1; cbn [bind x_iters set_nth x_iter_at nth_error x_caches x_run x_step]; rewrite P2; cbn [bind]; rewrite G;
      cbn [bind x_run x_step]; reflexivity.
  Qed.
End Theorems.
