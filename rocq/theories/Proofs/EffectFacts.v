(** Lemmas about effects: closures, and running by reference against running by
    substitution. *)
From Coq Require Import String List Bool ZArith Arith Lia.
From Verif.Model Require Import Base Object Proposition HashSet State CombinationGenerator
  ParameterGenerator Syntax Formula Effects.
From Verif.Spec Require Import SetSpec CartesianSpec TypingSpec FormulaSpec EffectSpec.
From Verif.Proofs Require Import OrderFacts HashSetFacts StateFacts StateHistory
  CombinationFacts ParameterFacts FormulaFacts.
Import ListNotations.
Local Open Scope string_scope.
Local Open Scope list_scope.

Section WithHash.
  Context `{SH : StdHash}.

  (** ** Closures *)

  Lemma obj_eqb_spec a b : obj_eqb a b = String.eqb (oname a) (oname b).
  Proof.
    apply eq_true_iff_eq. rewrite (obj_eqb_ok a b), String.eqb_eq. tauto.
  Qed.

  Lemma first_index_le x ps : first_index x ps <= length ps.
  Proof. induction ps; cbn; [lia|]. destruct (obj_eqb a x); lia. Qed.

  Lemma first_index_none x ps : first_index x ps = length ps <-> ~ In (oname x) (map oname ps).
  Proof.
    induction ps as [|p ps IH]; cbn; [tauto|]. rewrite obj_eqb_spec.
    destruct (String.eqb_spec (oname p) (oname x)) as [E|E].
    - split; [lia|]. intros N. exfalso; auto.
    - rewrite Nat.succ_inj_wd, IH. tauto.
  Qed.

  Lemma first_index_some x ps : first_index x ps < length ps ->
    exists p, nth_error ps (first_index x ps) = Some p /\ oname p = oname x.
  Proof.
    induction ps as [|p ps IH]; cbn; [lia|]. rewrite obj_eqb_spec.
    destruct (String.eqb_spec (oname p) (oname x)) as [E|E]; intros L.
    - exists p. auto.
    - apply IH. lia.
  Qed.

  Lemma first_index_nth x ps i p : NoDup (map oname ps) -> nth_error ps i = Some p -> oname p = oname x ->
    first_index x ps = i.
  Proof.
    revert i. induction ps as [|q ps IH]; intros i N E Q; [destruct i; discriminate|].
    inversion N; subst. cbn. rewrite obj_eqb_spec. destruct i as [|i]; cbn in E.
    - inversion E; subst. rewrite Q, String.eqb_refl. auto.
    - destruct (String.eqb_spec (oname q) (oname x)) as [E'|E'].
      + exfalso. apply H1. rewrite E', <- Q. apply in_map. eapply nth_error_In; eauto.
      + f_equal. apply IH; auto.
  Qed.

  Lemma lookup_first_index y ps vs cur : NoDup (map oname ps) -> length ps <= length vs ->
    first_index y ps < length ps ->
    nth_error vs (first_index y ps) = Some (lookup_last y ps vs cur).
  Proof.
    revert vs cur. induction ps as [|p ps IH]; intros [|v vs] cur N L; cbn [length] in *; try lia.
    cbn [first_index]. inversion N; subst. unfold lookup_last. cbn [combine fold_left fst snd].
    rewrite !obj_eqb_spec. rewrite (String.eqb_sym (oname y)).
    destruct (String.eqb_spec (oname p) (oname y)) as [E|E]; intros F.
    - cbn. f_equal. symmetry. apply (lookup_last_none y ps vs v). rewrite <- E. auto.
    - cbn. apply (IH vs cur); auto; lia.
  Qed.

  Fixpoint assign (axp xs l buf : list object) : list object :=
    match xs, l with
    | x :: xs', o :: l' =>
        let i := first_index x axp in
        assign axp xs' l' (if Nat.eqb i (length axp) then buf else set_nth i o buf)
    | _, _ => buf
    end.

  Definition matched (axp xs : list object) : list nat :=
    filter (fun i => negb (Nat.eqb i (length axp))) (map (fun x => first_index x axp) xs).

  Lemma app_call_snoc idx ij buf args :
    app_call (idx ++ [ij]) buf args =
    let* b := app_call idx buf args in
    let* a := index args (snd ij) in Ok (set_nth (fst ij) a b).
  Proof.
    unfold app_call. rewrite foldM_app. destruct (foldM _ idx buf); cbn; auto.
    destruct (index args (snd ij)); auto.
  Qed.

  Lemma set_nth_comm {A} i j (a b : A) l : i <> j ->
    set_nth i a (set_nth j b l) = set_nth j b (set_nth i a l).
  Proof. revert i j. induction l; destruct i, j; cbn; intros; try congruence; auto. f_equal; auto. Qed.

  Lemma app_call_set idx i y args : ~ In i (map fst idx) -> forall buf b,
    app_call idx buf args = Ok b -> app_call idx (set_nth i y buf) args = Ok (set_nth i y b).
  Proof.
    induction idx as [|[i' j] idx IH]; intros N buf b; unfold app_call; cbn.
    - intros Q; inversion Q; auto.
    - cbn in N. destruct (index args j) as [a| | | |]; cbn; try discriminate. intros Q.
      rewrite set_nth_comm by auto. apply IH; auto.
  Qed.

  Lemma check_future_app f1 f2 args :
    check_future (f1 ++ f2) args =
    let* b := check_future f1 args in if b : bool then check_future f2 args else Ok false.
  Proof.
    induction f1 as [|[j x] f1 IH]; cbn; auto. destruct (index args j); cbn; auto.
    destruct (obj_eqb a x); auto.
  Qed.

  Lemma consts_match_cons axp x xs o l :
    consts_match axp (x :: xs) (o :: l) =
    (existsb (fun p => String.eqb (oname p) (oname x)) axp || String.eqb (oname x) (oname o)) &&
    consts_match axp xs l.
  Proof. reflexivity. Qed.

  Lemma existsb_param axp x :
    existsb (fun p => String.eqb (oname p) (oname x)) axp = negb (Nat.eqb (first_index x axp) (length axp)).
  Proof.
    induction axp as [|p axp IH]; cbn [existsb first_index]; auto. rewrite obj_eqb_spec.
    destruct (String.eqb (oname p) (oname x)); auto.
  Qed.

  Section Match.
    Context (ap axp args : list object) (N : NoDup (map oname ap)) (L : length ap <= length args).
    Notation look := (fun y => lookup_last y ap args y).

    Lemma match_check : forall ys xs cl b, length ys = length xs ->
      check_future (cl_future cl) args = Ok b ->
      match match_context ap axp ys xs cl with
      | None => b && consts_match axp xs (map look ys) = false
      | Some cl' => check_future (cl_future cl') args = Ok (b && consts_match axp xs (map look ys))
      end.
    Proof.
      induction ys as [|y ys IH]; intros [|x xs] cl b Q C; try discriminate.
      - cbn. rewrite andb_true_r. auto.
      - cbn [match_context map]. rewrite consts_match_cons, existsb_param.
        destruct (Nat.eqb_spec (first_index x axp) (length axp)) as [I|I];
          destruct (Nat.eqb_spec (first_index y ap) (length ap)) as [J|J]; cbn [andb orb negb].
        + rewrite lookup_last_none by (apply first_index_none; auto). rewrite obj_eqb_spec.
          destruct (String.eqb (oname x) (oname y)); cbn [andb].
          * apply IH; auto.
          * apply andb_false_r.
        + assert (F : first_index y ap < length ap) by (pose proof (first_index_le y ap); lia).
          pose proof (lookup_first_index y ap args y N L F) as E.
          set (o := lookup_last y ap args y) in *.
          assert (C' : check_future (cl_future cl ++ [(first_index y ap, x)]) args =
                       Ok (b && String.eqb (oname x) (oname o))).
          { rewrite check_future_app, C. cbn. unfold index. rewrite E. cbn.
            rewrite obj_eqb_spec, (String.eqb_sym (oname o)).
            destruct b, (String.eqb (oname x) (oname o)); auto. }
          rewrite andb_assoc. apply (IH xs (mkCl _ _ _)); auto.
        + apply (IH xs (mkCl _ _ _)); auto.
        + apply (IH xs (mkCl _ _ _)); auto.
    Qed.

    Lemma match_buffer : forall ys xs cl cl' buf, length ys = length xs ->
      NoDup (matched axp xs) -> (forall i, In i (matched axp xs) -> ~ In i (map fst (cl_idx cl))) ->
      match_context ap axp ys xs cl = Some cl' ->
      app_call (cl_idx cl) (cl_init cl) args = Ok buf ->
      app_call (cl_idx cl') (cl_init cl') args = Ok (assign axp xs (map look ys) buf).
    Proof.
      induction ys as [|y ys IH]; intros [|x xs] cl cl' buf Q D O M C; try discriminate.
      - cbn in *. inversion M; subst. auto.
      - cbn [match_context map assign] in *. unfold matched in D, O. cbn [map filter] in D, O.
        destruct (Nat.eqb_spec (first_index x axp) (length axp)) as [I|I];
          destruct (Nat.eqb_spec (first_index y ap) (length ap)) as [J|J]; cbn [andb orb negb] in *.
        + destruct (obj_eqb x y); [|discriminate]. eapply IH; eauto.
        + eapply IH in M; eauto.
        + inversion D; subst.
          refine (IH xs (mkCl (set_nth (first_index x axp) y (cl_init cl)) (cl_idx cl) (cl_future cl))
                    cl' _ _ _ _ M _); auto.
          { intros i Hi; apply O; right; auto. }
          cbn [cl_idx cl_init]. rewrite lookup_last_none by (apply first_index_none; auto).
          apply app_call_set; auto. apply O. left; auto.
        + inversion D; subst.
          refine (IH xs (mkCl (cl_init cl) (cl_idx cl ++ [(first_index x axp, first_index y ap)])
                           (cl_future cl)) cl' _ _ _ _ M _); auto.
          * cbn [cl_idx]. rewrite map_app. intros i Hi Hf. apply in_app_iff in Hf. destruct Hf as [Hf|[<-|[]]].
            -- apply (O i); auto. right; auto.
            -- auto.
          * cbn [cl_idx cl_init]. rewrite app_call_snoc, C. cbn.
            assert (F : first_index y ap < length ap) by (pose proof (first_index_le y ap); lia).
            unfold index. rewrite (lookup_first_index y ap args y N L F). reflexivity.
    Qed.
  End Match.

  (** *** The buffer is the vector of context values *)

  Lemma assign_length axp : forall xs l buf, length (assign axp xs l buf) = length buf.
  Proof.
    induction xs as [|x xs IH]; intros [|o l] buf; cbn; auto. rewrite IH.
    destruct (Nat.eqb _ _); auto. apply set_nth_length'.
  Qed.

  Lemma assign_nth_none axp p i : NoDup (map oname axp) -> nth_error axp i = Some p -> forall xs l buf,
    ~ In (oname p) (map oname xs) -> nth_error (assign axp xs l buf) i = nth_error buf i.
  Proof.
    intros N E. induction xs as [|x xs IH]; intros [|o l] buf H; cbn; auto. cbn in H.
    rewrite IH by auto. destruct (Nat.eqb_spec (first_index x axp) (length axp)) as [I|I]; auto.
    apply set_nth_other. intros Q.
    assert (F : first_index x axp < length axp) by (pose proof (first_index_le x axp); lia).
    destruct (first_index_some x axp F) as (p' & E' & K). rewrite Q in E'. rewrite E in E'.
    inversion E'; subst. apply H. left; auto.
  Qed.

  Lemma assign_value axp p i : NoDup (map oname axp) -> nth_error axp i = Some p -> forall l1 x l2 l buf,
    oname x = oname p -> ~ In (oname p) (map oname l1) -> ~ In (oname p) (map oname l2) ->
    length l = length (l1 ++ x :: l2) -> length buf = length axp ->
    nth_error (assign axp (l1 ++ x :: l2) l buf) i = Some (value_of p (l1 ++ x :: l2) l).
  Proof.
    intros N E. induction l1 as [|y l1 IH]; intros x l2 [|o l] buf K N1 N2 Q B; try discriminate.
    - cbn. rewrite K, String.eqb_refl. rewrite assign_nth_none with (p := p) by auto.
      rewrite (first_index_nth x axp i p N E) by auto.
      assert (i < length axp) by (apply nth_error_Some; congruence).
      destruct (Nat.eqb_spec i (length axp)); [lia|]. apply set_nth_same. lia.
    - cbn in *. destruct (String.eqb_spec (oname y) (oname p)) as [E'|E']; [exfalso; auto|].
      apply IH; auto. destruct (Nat.eqb _ _); auto. rewrite set_nth_length'. auto.
  Qed.

  Lemma nth_error_ext' {A} (l1 l2 : list A) : length l1 = length l2 ->
    (forall i a, nth_error l2 i = Some a -> nth_error l1 i = Some a) -> l1 = l2.
  Proof.
    intros L H. apply nth_error_ext_eq; auto. intros i. destruct (nth_error l2 i) eqn:E.
    - auto.
    - apply nth_error_None. apply nth_error_None in E. lia.
  Qed.

  Lemma assign_values a l : linear_context a -> length l = length (ax_args a) ->
    assign (op_params (ax_op a)) (ax_args a) l (op_params (ax_op a)) =
    map (fun p => value_of p (ax_args a) l) (op_params (ax_op a)).
  Proof.
    intros [N C] L. apply nth_error_ext'; [rewrite assign_length, map_length; auto|].
    intros i v E. rewrite nth_error_map in E. destruct (nth_error (op_params (ax_op a)) i) as [p|] eqn:Ep; [|discriminate].
    inversion E; subst. destruct (C p) as (l1 & x & l2 & Q & K & N1 & N2); [eapply nth_error_In; eauto|].
    rewrite Q in *. apply assign_value; auto.
  Qed.

  Lemma matched_In axp xs i : In i (matched axp xs) ->
    exists x, In x xs /\ first_index x axp = i /\ i < length axp.
  Proof.
    unfold matched. rewrite filter_In, in_map_iff. intros [(x & E & I) F].
    exists x. repeat split; auto. destruct (Nat.eqb_spec i (length axp)); [discriminate|].
    pose proof (first_index_le x axp). lia.
  Qed.

  Lemma matched_NoDup axp xs : NoDup (map oname axp) ->
    (forall p, In p axp -> exists l1 x l2, xs = l1 ++ x :: l2 /\ oname x = oname p /\
       ~ In (oname p) (map oname l1) /\ ~ In (oname p) (map oname l2)) ->
    NoDup (matched axp xs).
  Proof.
    intros N C.
    assert (G : forall pre ys, xs = pre ++ ys -> NoDup (matched axp ys)).
    { intros pre ys. revert pre. induction ys as [|y ys IH]; intros pre E; [constructor|].
      assert (Hr : NoDup (matched axp ys)).
      { apply (IH (pre ++ [y])). rewrite <- app_assoc. auto. }
      unfold matched. cbn [map filter].
      destruct (Nat.eqb_spec (first_index y axp) (length axp)) as [I|I]; auto.
      constructor; auto. intros H. apply matched_In in H. destruct H as (x & Ix & Ex & Lx).
      assert (F : first_index y axp < length axp) by (pose proof (first_index_le y axp); lia).
      destruct (first_index_some y axp F) as (p & Ep & Kp).
      rewrite <- Ex in F, Ep. destruct (first_index_some x axp F) as (p' & Ep' & Kp').
      rewrite Ep in Ep'. inversion Ep'; subst p'. clear Ep'.
      destruct (C p) as (l1 & z & l2 & Q & Kz & N1 & N2); [eapply nth_error_In; eauto|].
      rewrite E in Q. apply in_split in Ix. destruct Ix as (m1 & m2 & ->).
      (* the two occurrences y and x in pre ++ y :: m1 ++ x :: m2 *)
      apply (f_equal (map oname)) in Q. rewrite !map_app in Q. cbn [map] in Q. rewrite map_app in Q. cbn [map] in Q.
      rewrite <- Kp, <- Kp', Kz in Q. clear - Q N1 N2.
      set (n := oname p) in *. clearbody n. revert Q N1 N2.
      generalize (map oname pre) (map oname m1) (map oname m2) (map oname l1) (map oname l2).
      intros A B D E' G. revert E'. induction A as [|a A IH]; intros [|e E'] Q N1 N2; cbn in Q.
      - inversion Q; subst. apply N2. apply in_or_app. right; left; auto.
      - inversion Q; subst. apply N1. left; auto.
      - inversion Q; subst. apply N2. apply in_or_app. right; left; auto.
      - inversion Q; subst. eapply IH; eauto. intros H; apply N1; right; auto. }
    apply (G [] xs eq_refl).
  Qed.

  (** ** Calling a closure through a reference to something else *)

  Definition store_ok (st : store) : Prop := forall k l, st k = Some l ->
    agree_off (cl_idx (k_cl k)) (cl_init (k_cl k)) l.

  Lemma upd_same st k l : upd st k l k = Some l.
  Proof. unfold upd. destruct (key_dec k k); congruence. Qed.
  Lemma upd_other st k l k' : k' <> k -> upd st k l k' = st k'.
  Proof. unfold upd. destruct (key_dec k' k); congruence. Qed.

  Lemma upd_ok st k l : store_ok st -> agree_off (cl_idx (k_cl k)) (cl_init (k_cl k)) l ->
    store_ok (upd st k l).
  Proof.
    intros S A k' l'. unfold upd. destruct (key_dec k' k) as [->|].
    - intros Q; inversion Q; subst; auto.
    - apply S.
  Qed.

  Lemma call_fold k r : r <> Ref k -> forall idx st buf args,
    deref st r = args -> st k = Some buf ->
    match app_call idx buf args with
    | Ok b => exists st', foldM (fun st ij =>
          let* a := index (deref st r) (snd ij) in
          Ok (upd st k (set_nth (fst ij) a (deref st (Ref k))))) idx st = Ok st' /\
        st' k = Some b /\ forall k', k' <> k -> st' k' = st k'
    | Throw e => foldM (fun st ij =>
          let* a := index (deref st r) (snd ij) in
          Ok (upd st k (set_nth (fst ij) a (deref st (Ref k))))) idx st = Throw e
    | UB => foldM (fun st ij =>
          let* a := index (deref st r) (snd ij) in
          Ok (upd st k (set_nth (fst ij) a (deref st (Ref k))))) idx st = UB
    | AssertFail => foldM (fun st ij =>
          let* a := index (deref st r) (snd ij) in
          Ok (upd st k (set_nth (fst ij) a (deref st (Ref k))))) idx st = AssertFail
    | OutOfFuel => foldM (fun st ij =>
          let* a := index (deref st r) (snd ij) in
          Ok (upd st k (set_nth (fst ij) a (deref st (Ref k))))) idx st = OutOfFuel
    end.
  Proof.
    intros NR. induction idx as [|[i j] idx IH]; intros st buf args D K; unfold app_call; cbn [foldM].
    - exists st. auto.
    - cbn [fst snd]. rewrite D. destruct (index args j) as [a|e| | |]; cbn [bind]; auto.
      assert (D' : deref (upd st k (set_nth i a (deref st (Ref k)))) r = args).
      { destruct r as [l|k']; [exact D|]. cbn. rewrite upd_other by congruence. exact D. }
      assert (K' : upd st k (set_nth i a (deref st (Ref k))) k = Some (set_nth i a buf)).
      { rewrite upd_same. cbn. rewrite K. auto. }
      specialize (IH _ _ _ D' K'). unfold app_call in IH.
      destruct (foldM _ idx (set_nth i a buf)) as [b|e| | |]; auto.
      destruct IH as (st' & E & Kb & O). exists st'. repeat split; auto.
      intros k' N'. rewrite O, upd_other by auto. auto.
  Qed.

  (** Any call leaves the other positions as they were. *)
  Lemma call_closure_ok k r st b st' : store_ok st -> call_closure k r st = Ok (b, st') -> store_ok st'.
  Proof.
    intros S0. unfold call_closure. destruct (check_future _ _) as [ok| | | |]; cbn [bind]; try discriminate.
    destruct ok; [|intros [= _ <-]; auto].
    set (st0 := match st k with Some _ => st | None => upd st k (cl_init (k_cl k)) end).
    assert (S1 : store_ok st0 /\ exists l, st0 k = Some l).
    { unfold st0. destruct (st k) as [l|] eqn:E; [eauto|]. split; [|eexists; apply upd_same].
      apply upd_ok; auto. apply agree_off_refl. }
    clearbody st0. destruct S1 as [S1 K1].
    assert (G : forall idx st1 st2, incl idx (cl_idx (k_cl k)) -> store_ok st1 -> (exists l, st1 k = Some l) ->
      foldM (fun st ij => let* a := index (deref st r) (snd ij) in
        Ok (upd st k (set_nth (fst ij) a (deref st (Ref k))))) idx st1 = Ok st2 -> store_ok st2).
    { induction idx as [|[i j] idx IH]; intros st1 st2 In1 S2 [l K2]; cbn [foldM]; [intros [= <-]; auto|].
      cbn [fst snd]. destruct (index (deref st1 r) j) as [a| | | |]; cbn [bind]; try discriminate.
      apply IH; [intros x Hx; apply In1; right; auto| |eexists; apply upd_same].
      apply upd_ok; auto. cbn [deref]. rewrite K2. eapply agree_off_trans; [apply S2; exact K2|].
      split; [rewrite set_nth_length'; auto|]. intros n Hn. rewrite set_nth_other; auto. intros <-. apply Hn.
      change i with (fst (i, j)). apply in_map. apply In1. left. auto. }
    destruct (foldM _ _ _) as [st2| | | |] eqn:E; cbn [bind]; try discriminate. intros [= _ <-].
    eapply G; [apply incl_refl|exact S1|exact K1|exact E].
  Qed.

  Lemma call_closure_spec k r st args buf b :
    r <> Ref k -> store_ok st -> deref st r = args ->
    check_future (cl_future (k_cl k)) args = Ok b ->
    app_call (cl_idx (k_cl k)) (cl_init (k_cl k)) args = Ok buf ->
    exists st', call_closure k r st = Ok (b, st') /\ store_ok st' /\
      (b = true -> st' k = Some buf) /\ (forall k', k' <> k -> st' k' = st k').
  Proof.
    intros NR S D C B. unfold call_closure. rewrite D, C. cbn [bind]. destruct b.
    2:{ exists st. split; [auto|]. split; [auto|]. split; [discriminate|auto]. }
    set (st0 := match st k with Some _ => st | None => upd st k (cl_init (k_cl k)) end).
    assert (H : exists buf0, st0 k = Some buf0 /\ agree_off (cl_idx (k_cl k)) (cl_init (k_cl k)) buf0 /\
                  store_ok st0 /\ forall k', k' <> k -> st0 k' = st k').
    { unfold st0. destruct (st k) as [l|] eqn:E.
      - exists l. split; [auto|]. split; [apply S; auto|]. auto.
      - exists (cl_init (k_cl k)). split; [apply upd_same|]. split; [apply agree_off_refl|].
        split; [apply upd_ok; auto; apply agree_off_refl|]. intros; apply upd_other; auto. }
    destruct H as (buf0 & K0 & A0 & S0 & O0).
    assert (D0 : deref st0 r = args).
    { destruct r as [l|k']; [exact D|]. cbn in *. rewrite O0 by congruence. exact D. }
    pose proof (call_fold k r NR (cl_idx (k_cl k)) st0 buf0 args D0 K0) as H.
    rewrite <- (app_call_agree _ _ _ args A0), B in H. destruct H as (st' & E & Kb & O).
    rewrite E. cbn [bind]. exists st'. split; auto. split; [|split; auto].
    - intros k' l' Q. destruct (key_dec k' k) as [->|Nk].
      + rewrite Kb in Q. inversion Q; subst. eapply app_call_keeps; eauto.
      + rewrite O in Q by auto. apply S0; auto.
    - intros k' Nk. rewrite O, O0; auto.
  Qed.
End WithHash.
