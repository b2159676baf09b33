(** Lemmas about formula evaluation. *)
From Coq Require Import String List Bool ZArith Lia.
From Verif.Model Require Import Base Object Proposition HashSet State CombinationGenerator
  ParameterGenerator Syntax Formula.
From Verif.Spec Require Import SetSpec CartesianSpec TypingSpec FormulaSpec.
From Verif.Proofs Require Import OrderFacts HashSetFacts StateFacts StateHistory
  CombinationFacts ParameterFacts.
Import ListNotations.
Local Open Scope string_scope.
Local Open Scope list_scope.

Lemma bind_Ok {A B} (x : outcome A) (f : A -> outcome B) b :
  bind x f = Ok b -> exists a, x = Ok a /\ f a = Ok b.
Proof. destruct x; cbn; try discriminate. eauto. Qed.

Section GoalInd.
  Variable P : goal -> Prop.
  Hypothesis Hs : forall n l, P (GSimple n l).
  Hypothesis Hc : forall gs, Forall P gs -> P (GConj gs).
  Hypothesis Hd : forall gs, Forall P gs -> P (GDisj gs).
  Hypothesis Hn : forall g, P g -> P (GNeg g).
  Hypothesis Hf : forall vs g, P g -> P (GForall vs g).
  Hypothesis He : forall vs g, P g -> P (GExists vs g).
  Hypothesis Ho : P GOther.
  Fixpoint goal_ind' (g : goal) : P g :=
    match g with
    | GSimple n l => Hs n l
    | GConj gs => Hc gs ((fix go gs : Forall P gs :=
        match gs with [] => Forall_nil _ | g :: gs' => Forall_cons _ (goal_ind' g) (go gs') end) gs)
    | GDisj gs => Hd gs ((fix go gs : Forall P gs :=
        match gs with [] => Forall_nil _ | g :: gs' => Forall_cons _ (goal_ind' g) (go gs') end) gs)
    | GNeg g => Hn g (goal_ind' g)
    | GForall vs g => Hf vs g (goal_ind' g)
    | GExists vs g => He vs g (goal_ind' g)
    | GOther => Ho
    end.
End GoalInd.

Section WithHash.
  Context `{SH : StdHash}.

  (** ** Buffers *)

  Definition agree_off (idx : list (nat * nat)) (b1 b2 : list object) : Prop :=
    length b1 = length b2 /\
    forall i, ~ In i (map fst idx) -> nth_error b1 i = nth_error b2 i.

  Lemma set_nth_length' {A} i (a : A) l : length (set_nth i a l) = length l.
  Proof. revert i. induction l; destruct i; cbn; auto. Qed.
  Lemma set_nth_same {A} i (a : A) l : i < length l -> nth_error (set_nth i a l) i = Some a.
  Proof. revert i. induction l; destruct i; cbn; intros; try lia; auto. apply IHl. lia. Qed.
  Lemma set_nth_other {A} i j (a : A) l : i <> j -> nth_error (set_nth i a l) j = nth_error l j.
  Proof. revert i j. induction l; destruct i, j; cbn; intros; try congruence; auto. Qed.
  Lemma set_nth_beyond {A} i (a : A) l : length l <= i -> set_nth i a l = l.
  Proof. revert i. induction l; destruct i; cbn; intros; auto; try lia. f_equal. apply IHl. lia. Qed.

  Lemma nth_error_ext_eq {A} (l1 l2 : list A) : length l1 = length l2 ->
    (forall i, nth_error l1 i = nth_error l2 i) -> l1 = l2.
  Proof.
    revert l2. induction l1; destruct l2; cbn; intros L E; try discriminate; auto.
    pose proof (E 0) as E0. cbn in E0. inversion E0; subst. f_equal. apply IHl1; [lia|].
    intros i. apply (E (S i)).
  Qed.

  Lemma app_call_agree idx : forall b1 b2 args, agree_off idx b1 b2 ->
    app_call idx b1 args = app_call idx b2 args.
  Proof.
    induction idx as [|[i j] idx IH]; intros b1 b2 args [L A]; unfold app_call; cbn.
    - f_equal. apply nth_error_ext_eq; auto.
    - unfold index. destruct (nth_error args j); cbn; auto. apply IH. split.
      + rewrite !set_nth_length'. auto.
      + intros k N. destruct (Nat.eq_dec i k) as [->|D].
        * destruct (Nat.lt_ge_cases k (length b1)).
          -- rewrite !set_nth_same by (auto; lia). auto.
          -- rewrite !set_nth_beyond by lia.
             rewrite (proj2 (nth_error_None _ _)), (proj2 (nth_error_None _ _)) by lia. auto.
        * rewrite !set_nth_other by auto. apply A. cbn. intuition.
  Qed.

  Lemma app_call_keeps idx : forall b args b', app_call idx b args = Ok b' -> agree_off idx b b'.
  Proof.
    induction idx as [|[i j] idx IH]; intros b args b'; unfold app_call; cbn.
    - intros Q; inversion Q; split; auto.
    - unfold index. destruct (nth_error args j); cbn; [|discriminate]. intros Q.
      apply IH in Q. destruct Q as [L A]. rewrite set_nth_length' in L. split; auto.
      intros k N. rewrite <- A by (intros I; apply N; right; auto).
      rewrite set_nth_other; auto. intros ->. apply N. left; auto.
  Qed.

  Lemma agree_off_trans idx a b c : agree_off idx a b -> agree_off idx b c -> agree_off idx a c.
  Proof.
    intros [L1 A1] [L2 A2]. split; [congruence|]. intros i N. rewrite A1, A2; auto.
  Qed.
  Lemma agree_off_refl idx a : agree_off idx a a.
  Proof. split; auto. Qed.

  (** Buffers reachable from the initial ones. *)
  Fixpoint bt_ok (f : cform) (b0 b : btree) {struct f} : Prop :=
    match f with
    | CEq idx | CType _ idx | CAtom _ idx | CNotAtom _ idx =>
        match b0, b with
        | BLeaf l0, BLeaf l => agree_off idx l0 l
        | _, _ => False
        end
    | CConj fs | CDisj fs =>
        match b0, b with
        | BNode bs0, BNode bs =>
            (fix go fs bs0 bs := match fs, bs0, bs with
                                 | [], [], [] => True
                                 | f :: fs', b0 :: bs0', b :: bs' => bt_ok f b0 b /\ go fs' bs0' bs'
                                 | _, _, _ => False
                                 end) fs bs0 bs
        | _, _ => False
        end
    | CNeg f' | CForall _ f' | CExists _ f' =>
        match b0, b with
        | BNode [b0'], BNode [b'] => bt_ok f' b0' b'
        | _, _ => False
        end
    end.

  Section Eval.
    Context (contains does_not_contain : prop -> outcome bool) (partial : bool) (om : object_map).
    Notation run := (run_cform contains does_not_contain).
    Notation ev := (eval contains does_not_contain partial om).

    Definition run_spec (g : goal) : Prop := forall params f b0,
      compile partial om g params = Ok (f, b0) ->
      bt_ok f b0 b0 /\
      forall b args, bt_ok f b0 b ->
        exists b', run f b args = (ev g params args, b') /\ bt_ok f b0 b'.

    Lemma leaf_run idx (k : list object -> outcome bool) (xs : list object) buf args :
      agree_off idx xs buf ->
      exists b', 
        (match app_call idx buf args with
         | Ok buf' => (k buf', BLeaf buf')
         | Throw e => (Throw e, BLeaf buf) | UB => (UB, BLeaf buf)
         | AssertFail => (AssertFail, BLeaf buf)
         | OutOfFuel => (OutOfFuel, BLeaf buf)
         end) = ((let* l := app_call idx xs args in k l), b') /\
        match b' with BLeaf l => agree_off idx xs l | BNode _ => False end.
    Proof.
      intros A. rewrite <- (app_call_agree idx _ _ args A).
      destruct (app_call idx xs args) as [l|e| | |] eqn:E; cbn; eexists; split; try reflexivity; auto.
      eapply app_call_keeps; eauto.
    Qed.

    Lemma compile_atom_ok n xs params :
      let idx := idx_params params xs in
      let '(f, b0) :=
        (if String.eqb n "=" then (CEq idx, BLeaf xs)
         else match om_find om n with
              | Some _ => (CType n idx, BLeaf xs)
              | None => (CAtom n idx, BLeaf xs)
              end) in
      bt_ok f b0 b0 /\
      forall b args, bt_ok f b0 b ->
        exists b', run f b args = (eval_atom contains om n params xs args, b') /\ bt_ok f b0 b'.
    Proof.
      intros idx. unfold eval_atom, app_fun. fold idx.
      destruct (String.eqb n "="); [|destruct (om_find om n) as [w|]];
        (split; [apply agree_off_refl|]); intros b args A; (destruct b as [l|]; [|destruct A]).
      all: cbn [run_cform bt_ok] in *.
      - destruct (leaf_run idx eval_eq _ _ args A) as (b' & E & K); exists b'; split; auto.
      - destruct (leaf_run idx (eval_type n) _ _ args A) as (b' & E & K); exists b'; split; auto.
      - destruct (leaf_run idx (fun l => contains (mkProp n l)) _ _ args A) as (b' & E & K); exists b'; split; auto.
    Qed.

    Lemma run_eval g : run_spec g.
    Proof.
      induction g as [n l|gs IH|gs IH|g IH|vs g IH|vs g IH|] using goal_ind'; intros params f b0 C.
      - cbn in C. inversion C as [Q]. pose proof (compile_atom_ok n l params) as H. cbn zeta in H.
        rewrite Q in H. exact H.
      - cbn in C. apply bind_Ok in C. destruct C as (cs & M & Q). inversion Q; subst f b0. clear Q.
        assert (G : bt_ok (CConj (map fst cs)) (BNode (map snd cs)) (BNode (map snd cs)) /\
          forall bs args, bt_ok (CConj (map fst cs)) (BNode (map snd cs)) (BNode bs) ->
            exists bs', run (CConj (map fst cs)) (BNode bs) args = (ev (GConj gs) params args, BNode bs') /\
              bt_ok (CConj (map fst cs)) (BNode (map snd cs)) (BNode bs')).
        { revert cs M. induction IH as [|g gs Hg _ IHg]; intros cs M.
          - cbn in M. inversion M; subst. split; cbn; auto. intros bs args B.
            destruct bs; [|destruct B]. exists []. auto.
          - cbn in M. apply bind_Ok in M. destruct M as ([f b0] & Cf & M).
            apply bind_Ok in M. destruct M as (cs' & M & Q). inversion Q; subst cs. clear Q.
            destruct (Hg _ _ _ Cf) as [R0 R]. destruct (IHg _ M) as [S0 S]. clear IHg Hg.
            split; [split; [exact R0|exact S0]|]. intros bs args B.
            destruct bs as [|b bs]; [destruct B|]. destruct B as [B1 B2].
            destruct (R b args B1) as (b' & E & K). cbn. rewrite E.
            destruct (ev g params args) as [[|]|e| | |]; cbn [bind].
            + destruct (S bs args B2) as (bs' & E' & K'). cbn in E'.
              match type of E' with (let (_, _) := ?X in _) = _ => destruct X as [r bs''] eqn:GG end.
              inversion E'; subst. exists (b' :: bs'). repeat split; auto.
            + exists (b' :: bs). repeat split; auto.
            + exists (b' :: bs). repeat split; auto.
            + exists (b' :: bs). repeat split; auto.
            + exists (b' :: bs). repeat split; auto.
            + exists (b' :: bs). repeat split; auto. }
        destruct G as [G0 G]. split; auto. intros b args B. destruct b as [|bs]; [destruct B|].
        destruct (G bs args B) as (bs' & E & K). exists (BNode bs'). auto.
      - cbn in C. apply bind_Ok in C. destruct C as (cs & M & Q). inversion Q; subst f b0. clear Q.
        assert (G : bt_ok (CDisj (map fst cs)) (BNode (map snd cs)) (BNode (map snd cs)) /\
          forall bs args, bt_ok (CDisj (map fst cs)) (BNode (map snd cs)) (BNode bs) ->
            exists bs', run (CDisj (map fst cs)) (BNode bs) args = (ev (GDisj gs) params args, BNode bs') /\
              bt_ok (CDisj (map fst cs)) (BNode (map snd cs)) (BNode bs')).
        { revert cs M. induction IH as [|g gs Hg _ IHg]; intros cs M.
          - cbn in M. inversion M; subst. split; cbn; auto. intros bs args B.
            destruct bs; [|destruct B]. exists []. auto.
          - cbn in M. apply bind_Ok in M. destruct M as ([f b0] & Cf & M).
            apply bind_Ok in M. destruct M as (cs' & M & Q). inversion Q; subst cs. clear Q.
            destruct (Hg _ _ _ Cf) as [R0 R]. destruct (IHg _ M) as [S0 S]. clear IHg Hg.
            split; [split; [exact R0|exact S0]|]. intros bs args B.
            destruct bs as [|b bs]; [destruct B|]. destruct B as [B1 B2].
            destruct (R b args B1) as (b' & E & K). cbn. rewrite E.
            destruct (ev g params args) as [[|]|e| | |]; cbn [bind].
            2:{ destruct (S bs args B2) as (bs' & E' & K'). cbn in E'.
              match type of E' with (let (_, _) := ?X in _) = _ => destruct X as [r bs''] eqn:GG end.
              inversion E'; subst. exists (b' :: bs'). repeat split; auto. }
            all: exists (b' :: bs); split; auto; split; auto. }
        destruct G as [G0 G]. split; auto. intros b args B. destruct b as [|bs]; [destruct B|].
        destruct (G bs args B) as (bs' & E & K). exists (BNode bs'). auto.
      - assert (CN : (exists n xs, special_neg partial om g = Some (n, xs) /\
                        f = CNotAtom n (idx_params params xs) /\ b0 = BLeaf xs) \/
                     (special_neg partial om g = None /\
                      exists f' b0', compile partial om g params = Ok (f', b0') /\ f = CNeg f' /\ b0 = BNode [b0'])).
        { assert (GEN : special_neg partial om g = None ->
                   (let* ' (f, b) := compile partial om g params in Ok (CNeg f, BNode [b])) = Ok (f, b0) ->
                   exists f' b0', compile partial om g params = Ok (f', b0') /\ f = CNeg f' /\ b0 = BNode [b0']).
          { intros _ Q. apply bind_Ok in Q. destruct Q as ([f' b0'] & E & Q). inversion Q; subst. eauto. }
          destruct g as [n xs| | | | | |]; try (right; split; [reflexivity|apply GEN; [reflexivity|exact C]]).
          cbn [special_neg]. cbn in C.
          destruct partial; cbn [andb] in *.
          - destruct (String.eqb n "=") eqn:En; cbn [negb andb] in *.
            + right. split; [reflexivity|]. apply GEN; [cbn; rewrite En; reflexivity|]. cbn. rewrite En. exact C.
            + destruct (om_find om n) eqn:Eo; cbn in *.
              * right. split; [reflexivity|]. apply GEN; [cbn; rewrite En, Eo; reflexivity|]. cbn. rewrite En, Eo. exact C.
              * left. exists n, xs. inversion C. auto.
          - right. split; [reflexivity|]. apply GEN; [reflexivity|]. cbn.
            destruct (String.eqb n "="); [exact C|]. destruct (om_find om n); exact C. }
        destruct CN as [(n & xs & SN & -> & ->)|(SN & f' & b0' & Cf & -> & ->)].
        + split; [apply agree_off_refl|]. intros b args A. destruct b as [l|]; [|destruct A].
          cbn [run_cform bt_ok eval] in *. rewrite SN.
          destruct (leaf_run _ (fun l => does_not_contain (mkProp n l)) _ _ args A) as (b' & E & K).
          exists b'. split; auto.
        + destruct (IH _ _ _ Cf) as [R0 R]. split; [exact R0|]. intros b args B.
          destruct b as [|[|b [|]]]; try (destruct B; fail).
          destruct (R b args B) as (b' & E & K). exists (BNode [b']). split; [|exact K].
          cbn [run_cform eval]. rewrite SN, E. reflexivity.
      - cbn in C. apply bind_Ok in C. destruct C as ([f' b0'] & Cf & C). apply bind_Ok in C.
        destruct C as (gen & Gn & Q). inversion Q; subst f b0. clear Q.
        destruct (IH _ _ _ Cf) as [R0 R]. split; [exact R0|]. intros b args B.
        destruct b as [|[|b [|]]]; try (destruct B; fail). cbn [run_cform eval].
        unfold var_tuples. rewrite Gn. cbn [bind].
        destruct (gen_list null_object gen) as [ts|e| | |] eqn:GL; cbn [bind];
          try (eexists; split; [reflexivity|exact B]).
        clear GL. change (bt_ok f' b0' b) in B. revert b B.
        induction ts as [|t ts IHt]; intros b B; cbn [forM_all].
        + exists (BNode [b]). auto.
        + destruct (R b (args ++ t) B) as (b' & E & K). rewrite E.
          destruct (ev g (params ++ vs) (args ++ t)) as [[|]|e| | |]; cbn [bind];
            try (exists (BNode [b']); split; [reflexivity|exact K]).
          apply IHt. exact K.
      - cbn in C. apply bind_Ok in C. destruct C as ([f' b0'] & Cf & C). apply bind_Ok in C.
        destruct C as (gen & Gn & Q). inversion Q; subst f b0. clear Q.
        destruct (IH _ _ _ Cf) as [R0 R]. split; [exact R0|]. intros b args B.
        destruct b as [|[|b [|]]]; try (destruct B; fail). cbn [run_cform eval].
        unfold var_tuples. rewrite Gn. cbn [bind].
        destruct (gen_list null_object gen) as [ts|e| | |] eqn:GL; cbn [bind];
          try (eexists; split; [reflexivity|exact B]).
        clear GL. change (bt_ok f' b0' b) in B. revert b B.
        induction ts as [|t ts IHt]; intros b B; cbn [forM_ex].
        + exists (BNode [b]). auto.
        + destruct (R b (args ++ t) B) as (b' & E & K). rewrite E.
          destruct (ev g (params ++ vs) (args ++ t)) as [[|]|e| | |]; cbn [bind];
            try (exists (BNode [b']); split; [reflexivity|exact K]).
          apply IHt. exact K.
      - discriminate.
    Qed.
  End Eval.

  (** ** Substitution *)

  Definition lookup_last (x : object) (ps vs : list object) (cur : object) : object :=
    fold_left (fun cur pv => if obj_eqb x (fst pv) then snd pv else cur) (combine ps vs) cur.

  Lemma set_nth_app {A} (pre : list A) a c rest :
    set_nth (length pre) a (pre ++ c :: rest) = pre ++ a :: rest.
  Proof. induction pre; cbn; congruence. Qed.

  Lemma skipn_S {A} j : forall l : list A, skipn (S j) l = tl (skipn j l).
  Proof. induction j; destruct l; auto. apply IHj. Qed.

  Lemma app_call_match x : forall ps j args pre c rest, j + length ps <= length args ->
    app_call (match_params (length pre) j x ps) (pre ++ c :: rest) args =
    Ok (pre ++ lookup_last x ps (skipn j args) c :: rest).
  Proof.
    induction ps as [|p ps IH]; intros j args pre c rest L; cbn [match_params].
    - reflexivity.
    - cbn in L. destruct (skipn j args) as [|a r] eqn:S.
      { pose proof (skipn_length j args) as Q. rewrite S in Q. cbn in Q. lia. }
      assert (S' : skipn (Datatypes.S j) args = r).
      { rewrite skipn_S, S. reflexivity. }
      assert (N : nth_error args j = Some a).
      { rewrite <- (firstn_skipn j args), S, nth_error_app2 by (rewrite firstn_length; lia).
        rewrite firstn_length, Nat.min_l, Nat.sub_diag by lia. reflexivity. }
      unfold lookup_last. cbn [combine fold_left fst snd].
      destruct (obj_eqb x p).
      + unfold app_call. cbn [foldM]. unfold index. cbn [fst snd]. rewrite N. cbn [bind].
        rewrite set_nth_app. change (app_call (match_params (length pre) (Datatypes.S j) x ps) (pre ++ a :: rest) args =
          Ok (pre ++ lookup_last x ps r a :: rest)). rewrite IH by lia. rewrite S'. reflexivity.
      + rewrite IH by lia. rewrite S'. reflexivity.
  Qed.

  Lemma foldM_app {A B} (f : B -> A -> outcome B) l1 l2 b :
    foldM f (l1 ++ l2) b = let* b' := foldM f l1 b in foldM f l2 b'.
  Proof. revert b. induction l1 as [|a l1 IH]; intros b; cbn; auto. destruct (f b a); cbn; auto. Qed.

  Lemma app_call_idx params args : length params <= length args -> forall xs pre,
    app_call (idx_params_from (length pre) xs params) (pre ++ xs) args =
    Ok (pre ++ map (fun x => lookup_last x params args x) xs).
  Proof.
    intros L. induction xs as [|x xs IH]; intros pre; cbn [idx_params_from map].
    - reflexivity.
    - unfold app_call. rewrite foldM_app.
      change (foldM (fun buf ij => let* a := index args (snd ij) in Ok (set_nth (fst ij) a buf))
                (match_params (length pre) 0 x params) (pre ++ x :: xs))
        with (app_call (match_params (length pre) 0 x params) (pre ++ x :: xs) args).
      rewrite app_call_match by (cbn; lia). cbn [bind skipn].
      specialize (IH (pre ++ [lookup_last x params args x])).
      rewrite app_length in IH. cbn in IH. rewrite Nat.add_1_r in IH.
      rewrite <- !app_assoc in IH. exact IH.
  Qed.

  Lemma app_fun_lookup params xs args : length params <= length args ->
    app_fun params xs args = Ok (map (fun x => lookup_last x params args x) xs).
  Proof. intros L. exact (app_call_idx params args L xs []). Qed.

  Lemma lookup_last_bind x : forall ps vs cur e, length ps = length vs ->
    (In (oname x) (map oname ps) \/ cur = e (oname x)) ->
    lookup_last x ps vs cur = bind_vars ps vs e (oname x).
  Proof.
    induction ps as [|p ps IH]; intros [|v vs] cur e L H; try discriminate.
    - destruct H as [[]|H]. exact H.
    - unfold lookup_last, bind_vars. cbn [combine fold_left fst snd].
      apply (IH vs _ (fun n => if String.eqb n (oname p) then v else e n)); [cbn in L; lia|].
      destruct (obj_eqb x p) eqn:E.
      + apply obj_eqb_ok in E. right. rewrite E, String.eqb_refl. reflexivity.
      + destruct H as [[H|H]|H]; auto.
        * assert (obj_eqb x p = true) by (apply obj_eqb_ok; auto). congruence.
        * right. destruct (String.eqb_spec (oname x) (oname p)) as [Q|Q]; auto.
          assert (obj_eqb x p = true) by (apply obj_eqb_ok; auto). congruence.
  Qed.

  Lemma lookup_last_none x : forall ps vs cur, ~ In (oname x) (map oname ps) ->
    lookup_last x ps vs cur = cur.
  Proof.
    induction ps as [|p ps IH]; intros [|v vs] cur N; try reflexivity.
    unfold lookup_last. cbn [combine fold_left fst snd]. cbn in N.
    destruct (obj_eqb x p) eqn:E.
    - apply obj_eqb_ok in E. exfalso; auto.
    - apply IH. auto.
  Qed.

  Lemma lookup_denote x ps vs e : length ps = length vs -> arg_ok (map oname ps) x ->
    lookup_last x ps vs x = denote (bind_vars ps vs e) x.
  Proof.
    unfold arg_ok, denote. intros L A. destruct (okind x).
    - apply lookup_last_none; auto.
    - apply lookup_last_bind; auto.
  Qed.

  Lemma app_fun_denote params xs args e : length params = length args ->
    Forall (arg_ok (map oname params)) xs ->
    app_fun params xs args = Ok (map (denote (bind_vars params args e)) xs).
  Proof.
    intros L F. rewrite app_fun_lookup by lia. f_equal. apply map_ext_in. intros x I.
    apply lookup_denote; auto. rewrite Forall_forall in F. auto.
  Qed.

  Lemma combine_app {A B} (l1 l2 : list A) (m1 m2 : list B) : length l1 = length m1 ->
    combine (l1 ++ l2) (m1 ++ m2) = combine l1 m1 ++ combine l2 m2.
  Proof. revert m1. induction l1; destruct m1; cbn; intros; try discriminate; auto. f_equal. auto. Qed.

  Lemma bind_vars_app ps vs qs ws e : length ps = length vs ->
    bind_vars (ps ++ qs) (vs ++ ws) e = bind_vars qs ws (bind_vars ps vs e).
  Proof. intros L. unfold bind_vars. rewrite combine_app, fold_left_app by auto. reflexivity. Qed.

  (** ** Types *)

  Lemma om_find_type objects name : Forall (fun o => wf_type (otype o)) objects ->
    (exists v, om_find (create_object_map objects) name = Some v) <-> is_type objects name.
  Proof.
    intros W. rewrite create_find, filter_objects_of by auto. unfold is_type. split.
    - intros [v E]. destruct (objects_of objects name) as [|o l] eqn:O; [discriminate|].
      exists o. apply objects_of_In. rewrite O. left; auto.
    - intros (o & I). apply objects_of_In in I. destruct (objects_of objects name); [destruct I|eauto].
  Qed.

  Lemma tuples_ok objects vars : Forall (fun o => wf_type (otype o)) objects -> vars <> [] ->
    (tuple_count objects vars < 2 ^ 31)%Z ->
    exists l, var_tuples (create_object_map objects) vars = Ok l /\
      forall t, In t l <-> well_typed objects vars t.
  Proof.
    intros W N C. destruct (C13_lemma objects vars W N C) as (g & l & G & L & _ & _ & I).
    exists l. unfold var_tuples. rewrite G. cbn. auto.
  Qed.

  Lemma well_typed_length objects vars t : well_typed objects vars t -> length vars = length t.
  Proof. induction 1; cbn; auto. Qed.

  (** ** Loops *)

  Lemma forM_all_spec f (P : list object -> Prop) ts :
    (forall t, In t ts -> exists b, f t = Ok b /\ (b = true <-> P t)) ->
    exists b, forM_all f ts = Ok b /\ (b = true <-> forall t, In t ts -> P t).
  Proof.
    induction ts as [|t ts IH]; intros H; cbn.
    - exists true. split; auto. split; auto. intros _ t [].
    - destruct (H t) as (b & E & B); [left; auto|]. rewrite E. cbn.
      destruct IH as (b' & E' & B'); [intros; apply H; right; auto|].
      destruct b.
      + exists b'. split; auto. rewrite B'. split; [|auto]. intros A u [<-|I]; [tauto|auto].
      + exists false. split; auto. split; [discriminate|]. intros A. apply B. auto.
  Qed.

  Lemma forM_ex_spec f (P : list object -> Prop) ts :
    (forall t, In t ts -> exists b, f t = Ok b /\ (b = true <-> P t)) ->
    exists b, forM_ex f ts = Ok b /\ (b = true <-> exists t, In t ts /\ P t).
  Proof.
    induction ts as [|t ts IH]; intros H; cbn.
    - exists false. split; auto. split; [discriminate|]. intros (t & [] & _).
    - destruct (H t) as (b & E & B); [left; auto|]. rewrite E. cbn.
      destruct IH as (b' & E' & B'); [intros; apply H; right; auto|].
      destruct b.
      + exists true. split; auto. split; auto. intros _. exists t. tauto.
      + exists b'. split; auto. rewrite B'. split.
        * intros (u & I & Q); eauto.
        * intros (u & [<-|I] & Q); [|eauto]. apply B in Q. discriminate.
  Qed.

  (** ** Evaluation against the semantics

      [K] says which atoms can be evaluated; [S] gives their values. *)
  Section Semantics.
    Context (contains does_not_contain : prop -> outcome bool) (partial : bool).
    Context (objects : list object) (W : Forall (fun o => wf_type (otype o)) objects).
    Context (K S : atom -> Prop).
    Context (Hc : forall p, K (prop_key p) ->
               exists b, contains p = Ok b /\ (b = true <-> S (prop_key p))).
    Context (Hd : partial = true -> forall p, K (prop_key p) ->
               exists b, does_not_contain p = Ok b /\ (b = true <-> ~ S (prop_key p))).
    Notation om := (create_object_map objects).
    Notation ev := (eval contains does_not_contain partial om).

    Definition ev_ok (g : goal) : Prop := forall params args e,
      length params = length args -> wf_goal objects (map oname params) g ->
      (forall a, relevant objects (bind_vars params args e) g a -> K a) ->
      exists b, ev g params args = Ok b /\
        (b = true <-> holds objects S (bind_vars params args e) g).

    Lemma map_denote_length e xs : length (map (denote e) xs) = length xs.
    Proof. apply map_length. Qed.

    Lemma eval_atom_ok n xs params args e :
      length params = length args -> Forall (arg_ok (map oname params)) xs -> arity_ok objects n xs ->
      (n <> "=" -> ~ is_type objects n -> K (n, map oname (map (denote (bind_vars params args e)) xs))) ->
      exists b, eval_atom contains om n params xs args = Ok b /\
        (b = true <-> atom_holds objects S n (map (denote (bind_vars params args e)) xs)).
    Proof.
      intros L F [A1 A2] Kn. unfold eval_atom. rewrite (app_fun_denote _ _ _ e L F). cbn [bind].
      unfold atom_holds. set (l := map (denote (bind_vars params args e)) xs) in *.
      assert (Ll : length l = length xs) by apply map_length.
      destruct (String.eqb_spec n "=") as [->|Nn].
      - specialize (A1 eq_refl). rewrite <- Ll in A1. clearbody l.
        destruct l as [|a [|b [|]]]; try discriminate. exists (obj_eqb a b). split; auto.
        rewrite (obj_eqb_ok a b). split.
        + intros E. left. split; auto. exists a, b. auto.
        + intros [(_ & a' & b' & Q & E)|[(Q & _)|(Q & _)]]; [inversion Q; subst; auto|congruence|congruence].
      - destruct (om_find om n) as [v|] eqn:O.
        + assert (T : is_type objects n) by (apply om_find_type; eauto).
          specialize (A2 Nn T). rewrite <- Ll in A2. clearbody l.
          destruct l as [|a [|]]; try discriminate. cbn. exists (is_subtype (otype a) n). split; auto.
          rewrite has_type_spec. split.
          * intros H. right. left. eauto 6.
          * intros [(Q & _)|[(_ & _ & a' & Q & H)|(_ & Q & _)]]; [congruence| |tauto].
            inversion Q; subst; auto.
        + assert (T : ~ is_type objects n).
          { intros T. apply om_find_type in T; auto. destruct T as [v Q]. congruence. }
          destruct (Hc (mkProp n l)) as (b & E & B); [apply Kn; auto|].
          exists b. split; auto. rewrite B. unfold prop_key; cbn. split.
          * intros H. right. right. auto.
          * intros [(Q & _)|[(_ & Q & _)|(_ & _ & H)]]; [congruence|tauto|auto].
    Qed.

    Lemma special_neg_spec g n xs : special_neg partial om g = Some (n, xs) ->
      partial = true /\ g = GSimple n xs /\ n <> "=" /\ ~ is_type objects n.
    Proof.
      destruct g; cbn; try discriminate.
      destruct partial; cbn [andb]; [|discriminate].
      destruct (String.eqb_spec name "="); cbn [negb andb]; [discriminate|].
      destruct (om_find om name) eqn:O; [discriminate|]. intros Q; inversion Q; subst.
      repeat split; auto. intros T. apply om_find_type in T; auto. destruct T as [v E]. congruence.
    Qed.

    Lemma ev_semantics g : ev_ok g.
    Proof.
      induction g as [n l|gs IH|gs IH|g IH|vs g IH|vs g IH|] using goal_ind'; intros params args e L Wf Kn.
      - destruct Wf as [F A]. cbn [eval holds]. apply eval_atom_ok; auto.
        intros. apply Kn. cbn. auto.
      - cbn [eval holds]. induction IH as [|g gs Hg _ IHg].
        + exists true. tauto.
        + destruct Wf as [W1 W2]. destruct (Hg params args e) as (b & E & B); auto.
          { intros a R. apply Kn. left; auto. }
          destruct IHg as (b' & E' & B'); auto. { intros a R. apply Kn. right; auto. }
          rewrite E. cbn [bind]. destruct b.
          * exists b'. split; auto. rewrite B'. tauto.
          * exists false. split; auto. rewrite <- B. split; [discriminate|tauto].
      - cbn [eval holds]. induction IH as [|g gs Hg _ IHg].
        + exists false. split; auto. split; [discriminate|tauto].
        + destruct Wf as [W1 W2]. destruct (Hg params args e) as (b & E & B); auto.
          { intros a R. apply Kn. left; auto. }
          destruct IHg as (b' & E' & B'); auto. { intros a R. apply Kn. right; auto. }
          rewrite E. cbn [bind]. destruct b.
          * exists true. tauto.
          * exists b'. split; auto. rewrite B', <- B. intuition congruence.
      - cbn [eval holds]. destruct (special_neg partial om g) as [[n xs]|] eqn:SN.
        + apply special_neg_spec in SN. destruct SN as (P & -> & N1 & N2).
          destruct Wf as [F A]. rewrite (app_fun_denote _ _ _ e L F). cbn [bind].
          set (l := map (denote (bind_vars params args e)) xs) in *.
          destruct (Hd P (mkProp n l)) as (b & E & B). { apply Kn. cbn. auto. }
          exists b. split; auto. rewrite B. unfold prop_key. cbn [pname pargs holds].
          unfold atom_holds. fold l. split.
          * intros H [(Q & _)|[(_ & Q & _)|(_ & _ & Q)]]; [congruence|tauto|auto].
          * intros H Q. apply H. right. right. auto.
        + destruct (IH params args e L Wf Kn) as (b & E & B). rewrite E. cbn [bind].
          exists (negb b). split; auto. rewrite <- B. destruct b; cbn; intuition congruence.
      - destruct Wf as (N & C & Wf). cbn [eval holds].
        destruct (tuples_ok objects vs W N C) as (ts & T & I). rewrite T. cbn [bind].
        destruct (forM_all_spec (fun t => ev g (params ++ vs) (args ++ t))
                   (fun t => holds objects S (bind_vars vs t (bind_vars params args e)) g) ts) as (b & E & B).
        { intros t It. apply I in It. pose proof (well_typed_length _ _ _ It) as Lt.
          rewrite <- bind_vars_app by auto. apply IH.
          - rewrite !app_length. lia.
          - rewrite map_app. exact Wf.
          - intros a R. apply Kn. cbn. exists t. rewrite <- bind_vars_app by auto. auto. }
        exists b. split; auto. rewrite B. split; intros H t It; apply H; apply I; auto.
      - destruct Wf as (N & C & Wf). cbn [eval holds].
        destruct (tuples_ok objects vs W N C) as (ts & T & I). rewrite T. cbn [bind].
        destruct (forM_ex_spec (fun t => ev g (params ++ vs) (args ++ t))
                   (fun t => holds objects S (bind_vars vs t (bind_vars params args e)) g) ts) as (b & E & B).
        { intros t It. apply I in It. pose proof (well_typed_length _ _ _ It) as Lt.
          rewrite <- bind_vars_app by auto. apply IH.
          - rewrite !app_length. lia.
          - rewrite map_app. exact Wf.
          - intros a R. apply Kn. cbn. exists t. rewrite <- bind_vars_app by auto. auto. }
        exists b. split; auto. rewrite B. split; intros (t & It & H); exists t; split; auto; apply I; auto.
      - destruct Wf.
    Qed.

    Lemma compile_total g : forall params, wf_goal objects (map oname params) g ->
      exists f b0, compile partial om g params = Ok (f, b0).
    Proof.
      assert (GEN : forall vs, vs <> [] -> (tuple_count objects vs < 2 ^ 31)%Z ->
                exists gen, param_gen om vs = Ok gen).
      { intros vs N C. destruct (C13_lemma objects vs W N C) as (gen & l & G & _). eauto. }
      induction g as [n l|gs IH|gs IH|g IH|vs g IH|vs g IH|] using goal_ind'; intros params Wf.
      - cbn. destruct (if String.eqb n "=" then _ else _); eauto.
      - cbn. assert (M : exists l, mapM (fun g => compile partial om g params) gs = Ok l).
        { induction IH as [|g gs Hg _ IHg]; cbn; [eauto|]. destruct Wf as [W1 W2].
          destruct (Hg params W1) as (f & b & ->). destruct (IHg W2) as (l & ->). cbn. eauto. }
        destruct M as [l ->]. cbn. eauto.
      - cbn. assert (M : exists l, mapM (fun g => compile partial om g params) gs = Ok l).
        { induction IH as [|g gs Hg _ IHg]; cbn; [eauto|]. destruct Wf as [W1 W2].
          destruct (Hg params W1) as (f & b & ->). destruct (IHg W2) as (l & ->). cbn. eauto. }
        destruct M as [l ->]. cbn. eauto.
      - destruct (IH params Wf) as (f & b & E). cbn [compile]. destruct g; try (rewrite E; cbn; eauto).
        clear. destruct (partial && _ && _); destruct (if String.eqb name "=" then _ else _); eauto.
      - destruct Wf as (N & C & Wf). rewrite <- map_app in Wf. destruct (IH _ Wf) as (f & b & E).
        destruct (GEN vs N C) as [gen G]. cbn. rewrite E. cbn. rewrite G. cbn. eauto.
      - destruct Wf as (N & C & Wf). rewrite <- map_app in Wf. destruct (IH _ Wf) as (f & b & E).
        destruct (GEN vs N C) as [gen G]. cbn. rewrite E. cbn. rewrite G. cbn. eauto.
      - destruct Wf.
    Qed.
  End Semantics.

  (** ** Information order *)
  Section Mono.
    Context (c1 d1 c2 d2 : prop -> outcome bool) (p1 p2 : bool) (om : object_map).
    Context (Hc : forall p v, c1 p = Ok v -> c2 p = Ok v).
    Context (Hp : p2 = true -> p1 = true).
    Context (Hd : p1 = true -> forall p v, d1 p = Ok v ->
               if p2 then d2 p = Ok v else c2 p = Ok (negb v)).

    Lemma eval_atom_mono n params xs args v :
      eval_atom c1 om n params xs args = Ok v -> eval_atom c2 om n params xs args = Ok v.
    Proof.
      unfold eval_atom. intros E. apply bind_Ok in E. destruct E as (l & -> & E). cbn [bind].
      destruct (String.eqb n "="); auto. destruct (om_find om n); auto.
    Qed.

    Lemma eval_mono g : forall params args v,
      eval c1 d1 p1 om g params args = Ok v -> eval c2 d2 p2 om g params args = Ok v.
    Proof.
      induction g as [n l|gs IH|gs IH|g IH|vs g IH|vs g IH|] using goal_ind'; intros params args v E.
      - cbn [eval] in *. apply eval_atom_mono; auto.
      - cbn [eval] in *. induction IH as [|g gs Hg _ IHg]; auto.
        apply bind_Ok in E. destruct E as (b & E1 & E). rewrite (Hg _ _ _ E1). cbn [bind].
        destruct b; auto.
      - cbn [eval] in *. induction IH as [|g gs Hg _ IHg]; auto.
        apply bind_Ok in E. destruct E as (b & E1 & E). rewrite (Hg _ _ _ E1). cbn [bind].
        destruct b; auto.
      - cbn [eval] in *.
        assert (GEN : special_neg p2 om g = None -> special_neg p1 om g = None ->
                 match special_neg p2 om g with
                 | Some (n, xs) => let* l := app_fun params xs args in d2 (mkProp n l)
                 | None => let* w := eval c2 d2 p2 om g params args in Ok (negb w)
                 end = Ok v).
        { intros -> N1. rewrite N1 in E. apply bind_Ok in E. destruct E as (w & E & Q).
          rewrite (IH _ _ _ E). exact Q. }
        destruct g as [n xs| | | | | |]; try (apply GEN; reflexivity).
        cbn [special_neg] in *. destruct p1; cbn [andb] in *.
        2:{ destruct p2; [specialize (Hp eq_refl); discriminate|]. cbn [andb] in *. apply GEN; auto. }
        destruct (String.eqb n "=") eqn:En; cbn [negb andb] in *.
        { destruct p2; cbn [andb] in *; apply GEN; auto. }
        destruct (om_find om n) eqn:O.
        { destruct p2; cbn [andb] in *; apply GEN; auto. }
        apply bind_Ok in E. destruct E as (l & El & E). specialize (Hd eq_refl _ _ E).
        destruct p2; cbn [andb].
        + rewrite El. exact Hd.
        + cbn [eval]. unfold eval_atom. rewrite El, En, O. cbn [bind]. rewrite Hd. cbn.
          rewrite negb_involutive. reflexivity.
      - cbn [eval] in *. apply bind_Ok in E. destruct E as (ts & T & E). rewrite T. cbn [bind].
        clear T. induction ts as [|t ts IHt]; auto. cbn [forM_all] in *.
        apply bind_Ok in E. destruct E as (b & E1 & E). rewrite (IH _ _ _ E1). cbn [bind].
        destruct b; auto.
      - cbn [eval] in *. apply bind_Ok in E. destruct E as (ts & T & E). rewrite T. cbn [bind].
        clear T. induction ts as [|t ts IHt]; auto. cbn [forM_ex] in *.
        apply bind_Ok in E. destruct E as (b & E1 & E). rewrite (IH _ _ _ E1). cbn [bind].
        destruct b; auto.
      - discriminate.
    Qed.
  End Mono.

  (** ** Extensionality *)
  Lemma eval_ext c1 d1 c2 d2 partial om :
    (forall p, c1 p = c2 p) -> (forall p, d1 p = d2 p) -> forall g params args,
    eval c1 d1 partial om g params args = eval c2 d2 partial om g params args.
  Proof.
    intros Hc Hd.
    induction g as [n l|gs IH|gs IH|g IH|vs g IH|vs g IH|] using goal_ind'; intros params args;
      cbn [eval].
    - unfold eval_atom. destruct (app_fun params l args); cbn; auto.
      destruct (String.eqb n "="); auto. destruct (om_find om n); auto.
    - induction IH as [|g gs Hg _ IHg]; auto. rewrite Hg.
      destruct (eval c2 d2 partial om g params args) as [[|]| | | |]; cbn; auto.
    - induction IH as [|g gs Hg _ IHg]; auto. rewrite Hg.
      destruct (eval c2 d2 partial om g params args) as [[|]| | | |]; cbn; auto.
    - destruct (special_neg partial om g) as [[n xs]|].
      + destruct (app_fun params xs args); cbn; auto.
      + rewrite IH. auto.
    - destruct (var_tuples om vs) as [ts| | | |]; cbn; auto.
      induction ts as [|t ts IHt]; cbn; auto. rewrite IH.
      destruct (eval c2 d2 partial om g _ _) as [[|]| | | |]; cbn; auto.
    - destruct (var_tuples om vs) as [ts| | | |]; cbn; auto.
      induction ts as [|t ts IHt]; cbn; auto. rewrite IH.
      destruct (eval c2 d2 partial om g _ _) as [[|]| | | |]; cbn; auto.
    - auto.
  Qed.

  Lemma atoms_contains s p : atoms s (prop_key p) <-> st_contains s p = true.
  Proof.
    split; [|exists p; auto]. intros (q & K & C). rewrite <- (contains_key s q p K). auto.
  Qed.

  (** ** The theorems *)

  Lemma call_state_eval om g params f b0 s args calls :
    compile false om g params = Ok (f, b0) ->
    fst (call_state f s args (after_calls f calls b0)) = eval_state om s g params args.
  Proof.
    intros C. assert (B : bt_ok f b0 (after_calls f calls b0)).
    { assert (G : forall b, bt_ok f b0 b -> bt_ok f b0 (after_calls f calls b)).
      { induction calls as [|[t a] calls IH]; intros b B; cbn; auto. apply IH.
        destruct (run_eval (fun p => Ok (st_contains t p)) (fun p => Ok (negb (st_contains t p)))
                    false om g params f b0 C) as [_ R].
        destruct (R b a B) as (b' & E & K). unfold call_state. rewrite E. exact K. }
      apply G. apply (run_eval (fun _ => UB) (fun _ => UB) false om g params f b0 C). }
    destruct (run_eval (fun p => Ok (st_contains s p)) (fun p => Ok (negb (st_contains s p)))
                false om g params f b0 C) as [_ R].
    destruct (R _ args B) as (b' & E & K). unfold call_state. rewrite E. reflexivity.
  Qed.

  Lemma call_partial_eval om g params f b0 s args calls :
    compile true om g params = Ok (f, b0) ->
    fst (call_partial f s args (after_partial_calls f calls b0)) = eval_partial om s g params args.
  Proof.
    intros C. assert (B : bt_ok f b0 (after_partial_calls f calls b0)).
    { assert (G : forall b, bt_ok f b0 b -> bt_ok f b0 (after_partial_calls f calls b)).
      { induction calls as [|[t a] calls IH]; intros b B; cbn; auto. apply IH.
        destruct (run_eval (ps_contains t) (ps_does_not_contain t) true om g params f b0 C) as [_ R].
        destruct (R b a B) as (b' & E & K). unfold call_partial. rewrite E. exact K. }
      apply G. apply (run_eval (fun _ => UB) (fun _ => UB) true om g params f b0 C). }
    destruct (run_eval (ps_contains s) (ps_does_not_contain s) true om g params f b0 C) as [_ R].
    destruct (R _ args B) as (b' & E & K). unfold call_partial. rewrite E. reflexivity.
  Qed.

  Lemma eval_state_semantics objects s g params args e :
    Forall (fun o => wf_type (otype o)) objects -> length params = length args ->
    wf_goal objects (map oname params) g ->
    exists b, eval_state (create_object_map objects) s g params args = Ok b /\
      (b = true <-> holds objects (atoms s) (bind_vars params args e) g).
  Proof.
    intros W L Wf. unfold eval_state.
    apply (ev_semantics _ _ false objects W (fun _ => True) (atoms s)); auto; try discriminate.
    intros p _. eexists; split; [reflexivity|]. rewrite atoms_contains. tauto.
  Qed.

  Lemma C18_lemma objects s g params args e calls :
    Forall (fun o => wf_type (otype o)) objects -> length params = length args ->
    wf_goal objects (map oname params) g ->
    exists f b0 b, compile false (create_object_map objects) g params = Ok (f, b0) /\
      fst (call_state f s args (after_calls f calls b0)) = Ok b /\
      (b = true <-> holds objects (atoms s) (bind_vars params args e) g).
  Proof.
    intros W L Wf. destruct (compile_total false objects W g params Wf) as (f & b0 & C).
    destruct (eval_state_semantics objects s g params args e W L Wf) as (b & E & B).
    exists f, b0, b. rewrite (call_state_eval _ _ _ _ _ _ _ _ C). auto.
  Qed.

  Lemma C19_lemma om g params f b0 s s' args calls calls' :
    compile false om g params = Ok (f, b0) -> same_contents s s' ->
    fst (call_state f s args (after_calls f calls b0)) =
    fst (call_state f s' args (after_calls f calls' b0)).
  Proof.
    intros C S. rewrite !(call_state_eval _ _ _ _ _ _ _ _ C). unfold eval_state.
    apply eval_ext; intros p; rewrite (S p); auto.
  Qed.

  Lemma C19_partial_lemma om g params f b0 s s' args calls calls' :
    compile true om g params = Ok (f, b0) ->
    same_contents (ps_pos s) (ps_pos s') -> same_contents (ps_neg s) (ps_neg s') ->
    fst (call_partial f s args (after_partial_calls f calls b0)) =
    fst (call_partial f s' args (after_partial_calls f calls' b0)).
  Proof.
    intros C S N. rewrite !(call_partial_eval _ _ _ _ _ _ _ _ C). unfold eval_partial.
    apply eval_ext; intros p; unfold ps_contains, ps_does_not_contain; rewrite (S p), (N p); auto.
  Qed.

  Lemma eval_optional_Some om s g params args v :
    eval_optional om s g params args = Ok (Some v) <-> eval_partial om s g params args = Ok v.
  Proof.
    unfold eval_optional. destruct (eval_partial om s g params args) as [b|[]| | |];
      split; intros Q; inversion Q; auto.
  Qed.

  Lemma C20_lemma om ps s g params args v :
    completes s ps -> eval_optional om ps g params args = Ok (Some v) ->
    eval_state om s g params args = Ok v.
  Proof.
    rewrite eval_optional_Some. intros [Cp Cn]. unfold eval_partial, eval_state. apply eval_mono.
    - intros p w. unfold ps_contains. destruct (st_contains (ps_pos ps) p) eqn:P.
      + intros Q; inversion Q. rewrite Cp; auto.
      + destruct (st_contains (ps_neg ps) p) eqn:N; [|discriminate].
        intros Q; inversion Q. rewrite Cn; auto.
    - discriminate.
    - intros _ p w. unfold ps_does_not_contain. destruct (st_contains (ps_pos ps) p) eqn:P.
      + intros Q; inversion Q. rewrite Cp; auto.
      + destruct (st_contains (ps_neg ps) p) eqn:N; [|discriminate].
        intros Q; inversion Q. rewrite Cn; auto.
  Qed.

  Lemma C21_mono_lemma om a b g params args v :
    extends a b -> pbuilt b -> eval_optional om a g params args = Ok (Some v) ->
    eval_optional om b g params args = Ok (Some v).
  Proof.
    rewrite !eval_optional_Some. intros [Cp Cn] (Bp & Bn & Cons). unfold eval_partial.
    assert (D : forall p, st_contains (ps_neg b) p = true -> st_contains (ps_pos b) p = false).
    { destruct Bp as [o1 E1], Bn as [o2 E2].
      assert (Wp : st_wf (ps_pos b)) by (rewrite E1; apply run_wf).
      assert (Wn : st_wf (ps_neg b)) by (rewrite E2; apply run_wf).
      apply ps_consistent_spec in Cons; [|split; auto]. intros p N.
      apply contains_mem_false; auto. intros M. apply contains_mem in N; auto. apply (Cons _ M N). }
    apply eval_mono; auto.
    - intros p w. unfold ps_contains. destruct (st_contains (ps_pos a) p) eqn:P.
      + intros Q; inversion Q. rewrite Cp; auto.
      + destruct (st_contains (ps_neg a) p) eqn:N; [|discriminate].
        intros Q; inversion Q. rewrite (D p), (Cn p) by auto. auto.
    - intros _ p w. unfold ps_does_not_contain. destruct (st_contains (ps_pos a) p) eqn:P.
      + intros Q; inversion Q. rewrite Cp; auto.
      + destruct (st_contains (ps_neg a) p) eqn:N; [|discriminate].
        intros Q; inversion Q. rewrite (D p), (Cn p) by auto. auto.
  Qed.

  Lemma C21_definite_lemma objects s g params args e :
    Forall (fun o => wf_type (otype o)) objects -> length params = length args ->
    wf_goal objects (map oname params) g ->
    (forall a, relevant objects (bind_vars params args e) g a -> knows s a) ->
    exists v, eval_optional (create_object_map objects) s g params args = Ok (Some v) /\
      (v = true <-> holds objects (atoms (ps_pos s)) (bind_vars params args e) g).
  Proof.
    intros W L Wf Kn.
    destruct (ev_semantics (ps_contains s) (ps_does_not_contain s) true objects W (knows s)
      (atoms (ps_pos s))) with (g := g) (params := params) (args := args) (e := e) as (b & E & B); auto.
    - intros p Kp. unfold ps_contains. unfold knows in Kp. rewrite !atoms_contains in Kp.
      assert (Q : exists b, (if st_contains (ps_pos s) p then Ok true
        else if st_contains (ps_neg s) p then Ok false else Throw EUnknown) = Ok b /\
        (b = true <-> st_contains (ps_pos s) p = true)).
      { destruct (st_contains (ps_pos s) p); [exists true; tauto|].
        destruct Kp as [Q|Q]; [discriminate|]. rewrite Q. exists false. tauto. }
      destruct Q as (b & Q1 & Q2). exists b. rewrite atoms_contains. auto.
    - intros _ p Kp. unfold ps_does_not_contain. unfold knows in Kp. rewrite !atoms_contains in Kp.
      assert (Q : exists b, (if st_contains (ps_pos s) p then Ok false
        else if st_contains (ps_neg s) p then Ok true else Throw EUnknown) = Ok b /\
        (b = true <-> ~ st_contains (ps_pos s) p = true)).
      { destruct (st_contains (ps_pos s) p); [exists false; intuition congruence|].
        destruct Kp as [Q|Q]; [discriminate|]. rewrite Q. exists true. intuition congruence. }
      destruct Q as (b & Q1 & Q2). exists b. rewrite atoms_contains. auto.
    - exists b. split; auto. apply eval_optional_Some. exact E.
  Qed.

  (** ** Outside the fragment *)
  Lemma capture_lemma : exists objects s g params args e,
    Forall (fun o => wf_type (otype o)) objects /\ length params = length args /\
    eval_state (create_object_map objects) s g params args = Ok true /\
    ~ holds objects (atoms s) (bind_vars params args e) g.
  Proof.
    pose (a := mkObj "a" [] KConst). pose (b := mkObj "b" [] KConst).
    exists [a; b], (run [Ins (mkProp "p" [b])]), (GSimple "p" [a]), [mkObj "a" [] (KVar 0)], [b], (fun _ => a).
    split; [|split; [reflexivity|split]].
    - repeat constructor; cbn; tauto.
    - unfold eval_state, eval, eval_atom. rewrite app_fun_lookup by (cbn; lia).
      cbn [map bind]. unfold lookup_last. cbn [combine fold_left fst snd].
      assert (E : obj_eqb a (mkObj "a" [] (KVar 0)) = true) by (apply obj_eqb_ok; reflexivity).
      rewrite E. change (Ok (st_contains (run [Ins (mkProp "p" [b])]) (mkProp "p" [b])) = Ok true). f_equal. apply contains_mem; [apply run_wf|]. apply run_mem.
      exists [], (mkProp "p" [b]), []. repeat split; auto; intros o [].
    - intros H. cbn [holds] in H. destruct H as [(Q & _)|[(_ & T & _)|(_ & _ & H)]]; [discriminate| |].
      + destruct T as (o & I & [Q|Q]); [discriminate|]. destruct I as [<-|[<-|[]]]; destruct Q.
      + destruct H as (q & K & C). apply contains_mem in C; [|apply run_wf]. apply run_mem in C.
        destruct C as (pre & r & aft & E & K' & _).
        destruct pre as [|o pre]; [inversion E; subst; rewrite K in K'; discriminate|].
        destruct pre; discriminate.
  Qed.

  Lemma empty_quantifier_lemma : exists objects s g params args e,
    Forall (fun o => wf_type (otype o)) objects /\ length params = length args /\
    eval_state (create_object_map objects) s (GExists [] g) params args = Ok false /\
    holds objects (atoms s) (bind_vars params args e) (GExists [] g).
  Proof.
    exists [], st_empty, (GConj []), [], [], (fun _ => null_object).
    split; [constructor|]. split; [reflexivity|]. split; [reflexivity|].
    cbn. exists []. split; [constructor|exact I].
  Qed.
End WithHash.
