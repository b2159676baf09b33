(** Lemmas about the state index. *)
From Coq Require Import String Ascii List Bool ZArith Lia.
From Verif.Model Require Import Base Object Proposition State CombinationGenerator
  ParameterGenerator Text StateIndex.
From Verif.Spec Require Import CartesianSpec TypingSpec TextSpec EffectSpec SetSpec IndexSpec.
From Verif.Proofs Require Import CombinationFacts ParameterFacts HashSetFacts StateFacts TextFacts.
Import ListNotations.
Local Open Scope list_scope.
Local Open Scope Z_scope.

Lemma P64 : 2 ^ 31 < 2 ^ 63 /\ 2 ^ 63 < 2 ^ 64. Proof. split; reflexivity. Qed.

(** ** The generator of one predicate *)
Section Generators.
  Context `{SH : StdHash}.

  Record pred_ok (objects : list object) (d : string * list object) (pr : predicate) : Prop := {
    po_name : pr_name pr = fst d;
    po_pddl : pr_has_pddl pr = false;
    po_size : g_size (pr_gen pr) = Z.of_nat (length (tuples objects (snd d)));
    po_small : Z.of_nat (length (tuples objects (snd d))) < 2 ^ 31;
    po_index : forall j c, nth_error (tuples objects (snd d)) j = Some c ->
      gen_index null_object (pr_gen pr) (Z.of_nat j) = Ok c;
    po_find : forall args, length args = length (snd d) ->
      (exists j c, gen_find obj_eqb (pr_gen pr) args = Ok (Z.of_nat j) /\
         nth_error (tuples objects (snd d)) j = Some c /\ map oname c = map oname args) \/
      ((forall c, In c (tuples objects (snd d)) -> map oname c <> map oname args) /\
       (gen_find obj_eqb (pr_gen pr) args = Throw EOutOfRange \/
        gen_find obj_eqb (pr_gen pr) args = AssertFail))
  }.

  Lemma tuples_length objects params :
    Z.of_nat (length (tuples objects params)) = tuple_count objects params.
  Proof. apply cart_length. Qed.

  Lemma In_names_options (opts : list (list object)) args :
    (exists c, In c (cart opts) /\ map oname c = map oname args) ->
    Forall2 (fun x o => In (oname x) (map oname o)) args opts.
  Proof.
    intros (c & I & E). apply In_cart in I. revert args E.
    induction I as [|x o c opts Ix I IH]; intros [|a args] E; try discriminate; constructor.
    - cbn in E. injection E as E1 E2. rewrite <- E1. apply in_map. auto.
    - apply IH. cbn in E. congruence.
  Qed.

  Lemma make_predicate_ok objects name params :
    Forall (fun o => wf_type (otype o)) objects -> params <> [] ->
    tuple_count objects params < 2 ^ 31 ->
    exists pr, make_predicate (create_object_map objects) name params = Ok pr /\
      pred_ok objects (name, params) pr.
  Proof.
    intros W N L. unfold make_predicate, param_gen, param_types. rewrite param_types_spec by auto.
    cbn zeta. unfold tuple_count in L. set (opts := map _ params) in *.
    assert (TU : tuples objects params = cart opts) by reflexivity.
    pose proof (cart_length opts) as CL.
    destruct (existsb _ opts) eqn:E.
    - pose proof (existsb_empty_product _ E) as Z0.
      eexists. split; [reflexivity|]. split; cbn [fst snd pr_name pr_has_pddl pr_gen]; auto;
        rewrite ?TU, ?Z0; cbn [length]; auto; try reflexivity.
      + intros [|j] c C; discriminate.
      + intros args LA. right. split; [intros c []|]. right. unfold gen_find. cbn [g_options].
        destruct params; [congruence|]. destruct args; [discriminate|]. reflexivity.
    - cbn [app]. assert (G : good_options opts).
      { split; [|split; auto]. - subst opts. destruct params; [congruence|discriminate].
        - apply existsb_empty_false; auto. }
      rewrite make_gen_ok by auto. cbn [bind]. eexists. split; [reflexivity|].
      split; cbn [fst snd pr_name pr_has_pddl pr_gen]; auto; rewrite ?TU.
      + cbn [g_size]. rewrite ?TU. lia.
      + intros j c C. apply (index_ok null_object opts G). unfold combination_at.
        destruct (Z.ltb_spec (Z.of_nat j) 0); [lia|]. rewrite Nat2Z.id. auto.
      + intros args LA.
        assert (LA' : length args = length opts) by (subst opts; rewrite map_length; auto).
        destruct (find_ok obj_eqb oname obj_eqb_ok opts G args LA') as [(F & j & c' & Fd & C & K & _)|(NF & Fd)].
        * left. unfold combination_at in C. destruct (Z.ltb_spec j 0); [discriminate|].
          exists (Z.to_nat j), c'. rewrite Z2Nat.id by lia. auto.
        * right. split; auto. intros c I K. apply NF. apply In_names_options. eauto.
  Qed.

  Lemma get_predicates_ok objects decls :
    Forall (fun o => wf_type (otype o)) objects ->
    Forall (fun d => snd d <> []) decls ->
    Forall (fun d => tuple_count objects (snd d) < 2 ^ 31) decls ->
    exists preds, get_predicates (create_object_map objects) decls = Ok preds /\
      Forall2 (pred_ok objects) decls preds.
  Proof.
    intros W P C. induction decls as [|[n ps] decls IH].
    - exists []. split; [reflexivity|constructor].
    - inversion P; inversion C; subst. destruct IH as (preds & E & F); auto.
      cbn [snd] in *. destruct (make_predicate_ok objects n ps) as (pr & E' & O); auto.
      exists (pr :: preds). split; [|constructor; auto].
      unfold get_predicates in *. cbn [mapM fst snd]. rewrite E'. cbn [bind]. rewrite E. reflexivity.
  Qed.
End Generators.

(** ** The numbering *)
Lemma atoms_length objects d : length (atoms_of objects d) = length (tuples objects (snd d)).
Proof. apply map_length. Qed.

Lemma numbering_length objects decls :
  Z.of_nat (length (numbering objects decls)) = ground_count objects decls.
Proof.
  induction decls as [|d decls IH]; [reflexivity|]. cbn [numbering flat_map ground_count fold_right].
  rewrite app_length, Nat2Z.inj_add. unfold atoms_of at 1. rewrite map_length, tuples_length.
  f_equal. exact IH.
Qed.

Lemma tuples_well_typed objects params args :
  In args (tuples objects params) <-> well_typed objects params args.
Proof.
  unfold tuples. rewrite In_cart, Forall2_map_r. unfold well_typed.
  split; intros F; (eapply Forall2_impl; [|exact F]); intros a p; cbn; rewrite objects_of_In; auto.
Qed.

Lemma numbering_In objects decls p :
  In p (numbering objects decls) <-> ground objects decls p.
Proof.
  unfold numbering. rewrite in_flat_map. split.
  - intros ([n ps] & I & J). unfold atoms_of in J. apply in_map_iff in J. destruct J as (c & <- & J).
    exists ps. split; auto. apply tuples_well_typed; auto.
  - intros (ps & I & J). exists (pname p, ps). split; auto. apply in_map_iff. exists (pargs p).
    split; [destruct p; auto|]. apply tuples_well_typed; auto.
Qed.

Lemma map_oname_filter (f : object -> bool) objects :
  NoDup (map oname objects) -> NoDup (map oname (filter f objects)).
Proof.
  induction objects as [|o os IH]; cbn; auto. intros N. inversion N as [|? ? N1 N2]; subst.
  destruct (f o); cbn; auto. constructor; auto. intros I. apply N1.
  apply in_map_iff in I. destruct I as (x & <- & I). apply in_map. apply filter_In in I. tauto.
Qed.

Lemma tuples_nodup objects params : NoDup (map oname objects) ->
  NoDup (map (map oname) (tuples objects params)).
Proof.
  intros N. unfold tuples. rewrite map_cart. apply NoDup_cart. apply Forall_forall.
  intros o I. apply in_map_iff in I. destruct I as (l & <- & I).
  apply in_map_iff in I. destruct I as (p & <- & I). apply map_oname_filter; auto.
Qed.

Lemma numbering_keys objects decls : NoDup (map oname objects) -> NoDup (map fst decls) ->
  NoDup (map prop_key (numbering objects decls)).
Proof.
  intros N. induction decls as [|d decls IH]; intros ND; [constructor|].
  cbn [map] in ND. inversion ND as [|? ? N1 N2]; subst.
  cbn [numbering flat_map]. rewrite map_app. apply NoDup_app_intro.
  - unfold atoms_of. rewrite map_map. unfold prop_key. cbn [pname pargs].
    rewrite <- (map_map (map oname) (fun l => (fst d, l))).
    apply FinFun.Injective_map_NoDup; [intros a b E; congruence|]. apply tuples_nodup; auto.
  - apply IH; auto.
  - intros a I J. apply in_map_iff in I. destruct I as (p & <- & I).
    unfold atoms_of in I. apply in_map_iff in I. destruct I as (c & <- & I).
    apply in_map_iff in J. destruct J as (q & E & J). unfold prop_key in E. cbn in E.
    injection E as E1 _. apply numbering_In in J. destruct J as (ps & J & _). apply N1.
    rewrite <- E1. change (pname q) with (fst (pname q, ps)). apply in_map. auto.
Qed.

(** ** Cumulative sums and bisection *)
Section Sums.
  Context `{SH : StdHash} (objects : list object).

  Lemma cum_ge a decls preds : Forall2 (pred_ok objects) decls preds -> 0 <= a ->
    a + ground_count objects decls < 2 ^ 63 -> Forall (fun x => a <= x) (cum_sum_from a preds).
  Proof.
    intros F. revert a. induction F as [|d pr decls preds O F IH]; intros a A B; cbn [cum_sum_from].
    - repeat constructor. lia.
    - constructor; [lia|]. cbn [ground_count fold_right] in B. fold (ground_count objects decls) in B.
      rewrite <- tuples_length in B. pose proof P64.
      assert (0 <= ground_count objects decls) by (rewrite <- numbering_length; lia).
      rewrite (po_size _ _ _ O). rewrite to_size_t_id by lia.
      eapply Forall_impl; [|apply IH; lia]. cbn. intros. lia.
  Qed.

  Lemma cum_last a decls preds : Forall2 (pred_ok objects) decls preds -> 0 <= a ->
    a + ground_count objects decls < 2 ^ 63 ->
    last (cum_sum_from a preds) 0 = a + ground_count objects decls.
  Proof.
    intros F. revert a. induction F as [|d pr decls preds O F IH]; intros a A B; cbn [cum_sum_from].
    - cbn. lia.
    - cbn [ground_count fold_right] in B |- *. fold (ground_count objects decls) in *.
      rewrite <- tuples_length in *. pose proof P64.
      assert (0 <= ground_count objects decls) by (rewrite <- numbering_length; lia).
      rewrite (po_size _ _ _ O). rewrite to_size_t_id by lia.
      change (last (a :: cum_sum_from (a + Z.of_nat (length (tuples objects (snd d)))) preds) 0)
        with (match cum_sum_from (a + Z.of_nat (length (tuples objects (snd d)))) preds with
              | [] => a | _ => last (cum_sum_from (a + Z.of_nat (length (tuples objects (snd d)))) preds) 0 end).
      assert (NN : forall b, cum_sum_from b preds <> []) by (intros b; destruct preds; discriminate).
      destruct (cum_sum_from _ preds) eqn:E; [destruct (NN _ E)|]. rewrite <- E, IH; lia.
  Qed.

  Lemma cum_length a preds : length (cum_sum_from a preds) = S (length preds).
  Proof. revert a. induction preds as [|pr preds IH]; intros a; cbn; auto. Qed.

  (** Bisection finds the predicate whose range contains the number. *)
  Lemma bisect a decls preds i : Forall2 (pred_ok objects) decls preds -> 0 <= a ->
    a + ground_count objects decls < 2 ^ 63 -> a <= i < a + ground_count objects decls ->
    exists k pr d st, nth_error preds k = Some pr /\ nth_error decls k = Some d /\ pred_ok objects d pr /\
      nth_error (cum_sum_from a preds) k = Some st /\
      st <= i < st + Z.of_nat (length (tuples objects (snd d))) /\
      lower_bound (cum_sum_from a preds) (i + 1) = Ok (S k) /\
      nth_error (numbering objects decls) (Z.to_nat (i - a)) =
        option_map (mkProp (fst d)) (nth_error (tuples objects (snd d)) (Z.to_nat (i - st))).
  Proof.
    intros F. revert a. induction F as [|d pr decls preds O F IH]; intros a A B I.
    - cbn in I. lia.
    - cbn [ground_count fold_right] in B, I. fold (ground_count objects decls) in *.
      rewrite <- tuples_length in *. pose proof P64.
      assert (G0 : 0 <= ground_count objects decls) by (rewrite <- numbering_length; lia).
      set (n := Z.of_nat (length (tuples objects (snd d)))) in *.
      assert (CS : cum_sum_from a (pr :: preds) = a :: cum_sum_from (a + n) preds).
      { cbn [cum_sum_from]. rewrite (po_size _ _ _ O). fold n. rewrite to_size_t_id by lia. reflexivity. }
      rewrite CS. destruct (Z_lt_ge_dec i (a + n)) as [Lt|Ge].
      + exists 0%nat, pr, d, a. repeat (split; [solve [auto|lia]|]). split.
        * unfold lower_bound. cbn [lower_pos]. destruct (Z.ltb_spec a (i + 1)); [|lia].
          pose proof (cum_ge (a + n) decls preds F ltac:(lia) ltac:(lia)) as GE.
          assert (L0 : lower_pos (cum_sum_from (a + n) preds) (i + 1) = 0%nat).
          { destruct (cum_sum_from (a + n) preds) as [|x l]; auto. inversion GE; subst.
            cbn [lower_pos]. destruct (Z.ltb_spec x (i + 1)); [lia|auto]. }
          rewrite L0. cbn [skipn]. replace (forallb _ _) with true; auto.
          symmetry. apply forallb_forall. intros x Ix. rewrite Forall_forall in GE.
          apply Z.leb_le. specialize (GE x Ix). lia.
        * cbn [numbering flat_map]. rewrite nth_error_app1.
          -- unfold atoms_of. rewrite nth_error_map. reflexivity.
          -- unfold atoms_of. rewrite map_length. lia.
      + destruct (IH (a + n)) as (k & pr' & d' & st & N1 & N2 & O' & N3 & I' & LB & NT); [lia|lia|lia|].
        exists (S k), pr', d', st. repeat (split; [solve [auto|lia]|]). split.
        * unfold lower_bound in *. cbn [lower_pos]. destruct (Z.ltb_spec a (i + 1)); [|lia].
          cbn [skipn]. destruct (forallb _ _); [|discriminate]. congruence.
        * cbn [numbering flat_map]. rewrite nth_error_app2; rewrite atoms_length; [|lia].
          replace (Z.to_nat (i - a) - length (tuples objects (snd d)))%nat with (Z.to_nat (i - (a + n))) by lia.
          exact NT.
  Qed.

  (** Beyond the last range it finds the end. *)
  Lemma bisect_beyond a decls preds i : Forall2 (pred_ok objects) decls preds -> 0 <= a ->
    a + ground_count objects decls < 2 ^ 63 -> a + ground_count objects decls <= i ->
    lower_bound (cum_sum_from a preds) (i + 1) = Ok (S (length preds)).
  Proof.
    intros F. revert a. induction F as [|d pr decls preds O F IH]; intros a A B I.
    - cbn in *. unfold lower_bound. cbn [lower_pos]. destruct (Z.ltb_spec a (i + 1)); [reflexivity|lia].
    - cbn [ground_count fold_right] in B, I. fold (ground_count objects decls) in *.
      rewrite <- tuples_length in *. pose proof P64.
      assert (G0 : 0 <= ground_count objects decls) by (rewrite <- numbering_length; lia).
      cbn [cum_sum_from]. rewrite (po_size _ _ _ O). rewrite to_size_t_id by lia.
      specialize (IH (a + Z.of_nat (length (tuples objects (snd d)))) ltac:(lia) ltac:(lia) ltac:(lia)).
      unfold lower_bound in *. cbn [lower_pos length]. destruct (Z.ltb_spec a (i + 1)); [|lia].
      cbn [skipn]. destruct (forallb _ _); [|discriminate]. congruence.
  Qed.

  (** Where the range of a predicate starts. *)
  Lemma start_of a decls preds k pr d : Forall2 (pred_ok objects) decls preds -> 0 <= a ->
    a + ground_count objects decls < 2 ^ 63 ->
    nth_error preds k = Some pr -> nth_error decls k = Some d ->
    exists st, nth_error (cum_sum_from a preds) k = Some st /\ pred_ok objects d pr /\
      a <= st /\ st + Z.of_nat (length (tuples objects (snd d))) <= a + ground_count objects decls /\
      forall j, (j < length (tuples objects (snd d)))%nat ->
        nth_error (numbering objects decls) (Z.to_nat (st - a) + j) =
        option_map (mkProp (fst d)) (nth_error (tuples objects (snd d)) j).
  Proof.
    intros F. revert a k. induction F as [|d0 pr0 decls preds O F IH]; intros a k A B N1 N2.
    - destruct k; discriminate.
    - cbn [ground_count fold_right] in B |- *. fold (ground_count objects decls) in *.
      rewrite <- tuples_length in *. pose proof P64.
      assert (G0 : 0 <= ground_count objects decls) by (rewrite <- numbering_length; lia).
      cbn [cum_sum_from]. rewrite (po_size _ _ _ O). rewrite to_size_t_id by lia.
      destruct k as [|k]; cbn [nth_error] in *.
      + injection N1 as ->. injection N2 as ->. exists a. repeat (split; [solve [auto|lia]|]).
        intros j J. rewrite Z.sub_diag. cbn [numbering flat_map Z.to_nat Nat.add].
        rewrite nth_error_app1 by (unfold atoms_of; rewrite map_length; auto).
        unfold atoms_of. rewrite nth_error_map. reflexivity.
      + destruct (IH (a + Z.of_nat (length (tuples objects (snd d0)))) k) as (st & N3 & O' & G1 & G2 & NT);
          [lia|lia|auto|auto|].
        exists st. repeat (split; [solve [auto|lia]|]). intros j J. rewrite <- NT by auto.
        cbn [numbering flat_map]. rewrite nth_error_app2; rewrite atoms_length; [|lia].
        f_equal. lia.
  Qed.
End Sums.

(** ** Positions of the names *)
Lemma um_indices preds : forall i m n,
  um_find String.eqb (predicate_indices_from i preds m) n =
  match um_find String.eqb (predicate_indices_from i preds []) n with
  | Some k => Some k
  | None => um_find String.eqb m n
  end.
Proof.
  induction preds as [|pr preds IH]; intros i m n; cbn [predicate_indices_from]; auto.
  rewrite IH. rewrite (IH (S i) (um_set [] _ _)).
  destruct (um_find _ (predicate_indices_from (S i) preds []) n); auto.
  cbn. destruct (String.eqb (pr_name pr) n); reflexivity.
Qed.

Lemma indices_some preds : NoDup (map pr_name preds) -> forall i k pr,
  nth_error preds k = Some pr ->
  um_find String.eqb (predicate_indices_from i preds []) (pr_name pr) = Some (i + k)%nat.
Proof.
  induction preds as [|p preds IH]; intros ND i k pr N; [destruct k; discriminate|].
  cbn [map] in ND. inversion ND as [|? ? N1 N2]; subst. cbn [predicate_indices_from].
  rewrite um_indices. destruct k as [|k]; cbn [nth_error] in N.
  - injection N as ->. replace (um_find _ _ _) with (@None nat).
    + cbn. rewrite String.eqb_refl. f_equal. lia.
    + symmetry. revert N1. generalize (S i). clear. induction preds as [|q preds IH]; intros i N; auto.
      cbn [predicate_indices_from]. rewrite um_indices. rewrite IH by (intros I; apply N; right; auto).
      cbn. destruct (String.eqb_spec (pr_name q) (pr_name pr)) as [E|]; auto. destruct N. left. auto.
  - rewrite (IH N2 (S i) k pr N). f_equal. lia.
Qed.

Lemma indices_none preds n : ~ In n (map pr_name preds) -> forall i,
  um_find String.eqb (predicate_indices_from i preds []) n = None.
Proof.
  induction preds as [|q preds IH]; intros N i; auto.
  cbn [predicate_indices_from]. rewrite um_indices. rewrite IH by (intros I; apply N; right; auto).
  cbn. destruct (String.eqb_spec (pr_name q) n) as [E|]; auto. destruct N. left. auto.
Qed.
