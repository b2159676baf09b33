(** IsValidState accepts exactly the states satisfying the axioms. *)
From Coq Require Import String List Bool NArith ZArith Lia.
From Verif.Model Require Import Base HashSet Object Proposition State CombinationGenerator
  ParameterGenerator Syntax Formula Effects NormalForm Consistency.
From Verif.Spec Require Import SetSpec TypingSpec FormulaSpec EffectSpec NormalFormSpec AxiomSpec.
From Verif.Proofs Require Import OrderFacts HashSetFacts StateFacts StateHistory ParameterFacts FormulaFacts EffectFacts
  EffectLink EffectTheorems NormalFormFacts NormalFormGoal AxiomZero AxiomLoops.
Import ListNotations.
Local Open Scope string_scope.
Local Open Scope list_scope.

Lemma post_eq objects S env fs adds dels cs : post objects S env (Effs fs adds dels cs) <->
  (forall vars b, In (vars, b) fs -> forall objs, well_typed objects vars objs ->
     post objects S (bind_vars vars objs env) b) /\
  (forall p, In p adds -> holds objects S env (GSimple (pname p) (pargs p))) /\
  (forall p, In p dels -> ~ holds objects S env (GSimple (pname p) (pargs p))) /\
  (forall g b, In (g, b) cs -> holds objects S env g -> post objects S env b).
Proof.
  cbn [post holds].
  rewrite (all_pairs (fun vars b => forall objs, well_typed objects vars objs -> post objects S (bind_vars vars objs env) b)).
  rewrite (all_pairs (fun g b => holds objects S env g -> post objects S env b)). reflexivity.
Qed.

Section WithHash.
  Context `{SH : StdHash}.
  Context (objects : list object) (W : Forall (fun o => wf_type (otype o)) objects).
  Notation om := (create_object_map objects).

  (** ** Effects *)
  Section Effects.
    Context (s : state) (Ws : st_wf s).

    Lemma zero_lit_holds params args pos p : length params = length args ->
      Forall (arg_ok (map oname params)) (pargs p) -> arity_ok objects (pname p) (pargs p) ->
      zero_lit st_ins st_del om s params args pos p <->
      (let h := holds objects (atoms s) (bind_vars params args no_env) (GSimple (pname p) (pargs p)) in
       if pos then h else ~ h).
    Proof.
      intros L Fa Ar.
      destruct (eval_state_semantics objects s (GSimple (pname p) (pargs p)) params args no_env W L (conj Fa Ar))
        as (b & E & H).
      cbv zeta. set (h := holds _ _ _ _) in *.
      assert (Z : zero_lit st_ins st_del om s params args pos p <-> b = pos).
      { unfold zero_lit, eval_state in *. cbn [eval] in E. unfold eval_atom in E.
        apply bind_Ok in E as (l & El & E). rewrite El.
        assert (S : forall X : list object -> Prop, (exists l', @Ok (list object) l = Ok l' /\ X l') <-> X l).
        { intros X. split; [intros (? & Q & K); inversion Q; subst; auto|eauto]. }
        rewrite S. destruct (String.eqb (pname p) "="); [rewrite E; split; congruence|].
        destruct (om_find om (pname p)); [rewrite E; split; congruence|]. injection E as <-.
        destruct pos.
        - rewrite st_ins_eq. cbn [fst]. destruct (insert_spec (mkProp (pname p) l) s Ws) as (_ & -> & _).
          destruct (st_contains s _); cbn; split; congruence.
        - rewrite st_del_eq. cbn [fst]. destruct (erase_spec (mkProp (pname p) l) s Ws) as (_ & -> & _).
          destruct (st_contains s _); cbn; split; congruence. }
      rewrite Z. destruct pos; [exact H|]. rewrite <- H. destruct b; split; congruence.
    Qed.

    Lemma zero_post e : forall params args, length params = length args ->
      wf_effs objects (map oname params) e ->
      zero st_ins st_del (cond_state om) om s params args e <->
      post objects (atoms s) (bind_vars params args no_env) e.
    Proof.
      induction e as [fs adds dels cs IHf IHc] using effs_ind'. intros params args L Wf.
      apply wf_effs_eq in Wf. destruct Wf as (Wf & Wa & Wd & Wc). rewrite Forall_forall in Wa, Wd.
      rewrite zero_eq, post_eq.
      assert (H1 : (forall vars b, In (vars, b) fs -> exists ts, var_tuples om vars = Ok ts /\
         forall x, In x ts -> zero st_ins st_del (cond_state om) om s (params ++ vars) (args ++ x) b) <->
        (forall vars b, In (vars, b) fs -> forall objs, well_typed objects vars objs ->
           post objects (atoms s) (bind_vars vars objs (bind_vars params args no_env)) b)).
      { assert (K : forall vars b, In (vars, b) fs ->
          ((exists ts, var_tuples om vars = Ok ts /\
             forall x, In x ts -> zero st_ins st_del (cond_state om) om s (params ++ vars) (args ++ x) b) <->
           forall objs, well_typed objects vars objs ->
             post objects (atoms s) (bind_vars vars objs (bind_vars params args no_env)) b)).
        { intros vars b I. destruct (Wf vars b I) as (Nv & Cv & Wb).
          destruct (tuples_ok objects vars W Nv Cv) as (ts & -> & It).
          assert (Kx : forall x, well_typed objects vars x ->
             (zero st_ins st_del (cond_state om) om s (params ++ vars) (args ++ x) b <->
              post objects (atoms s) (bind_vars vars x (bind_vars params args no_env)) b)).
          { intros x Hx. rewrite <- (bind_vars_app params args vars x no_env L). apply (IHf vars b I).
            - rewrite !app_length, (well_typed_length _ _ _ Hx). lia.
            - rewrite map_app. exact Wb. }
          split.
          - intros (ts' & Q & H) x Hx. inversion Q; subst. apply Kx; auto. apply H, It; auto.
          - intros H. exists ts. split; auto. intros x Ix. apply It in Ix. apply Kx; auto. }
        split; intros H vars b I; apply (K vars b I); apply H; auto. }
      assert (H2 : (forall p, In p adds -> zero_lit st_ins st_del om s params args true p) <->
        (forall p, In p adds -> holds objects (atoms s) (bind_vars params args no_env) (GSimple (pname p) (pargs p)))).
      { split; intros H p I; destruct (Wa p I) as [Fa Ar];
          apply (zero_lit_holds params args true p L Fa Ar); apply H; auto. }
      assert (H3 : (forall p, In p dels -> zero_lit st_ins st_del om s params args false p) <->
        (forall p, In p dels -> ~ holds objects (atoms s) (bind_vars params args no_env) (GSimple (pname p) (pargs p)))).
      { split; intros H p I; destruct (Wd p I) as [Fa Ar];
          apply (zero_lit_holds params args false p L Fa Ar); apply H; auto. }
      assert (H4 : (forall g b, In (g, b) cs -> exists v, cond_state om s g params args = Ok v /\
             (v = true -> zero st_ins st_del (cond_state om) om s params args b)) <->
        (forall g b, In (g, b) cs -> holds objects (atoms s) (bind_vars params args no_env) g ->
             post objects (atoms s) (bind_vars params args no_env) b)).
      { split; intros H g b I; destruct (Wc g b I) as [Wg Wb];
          destruct (eval_state_semantics objects s g params args no_env W L Wg) as (v & E & Hv);
          pose proof (IHc g b I params args L Wb) as K.
        - intros Hg. apply K. destruct (H g b I) as (v' & Q & Z). apply Z.
          unfold cond_state in Q. rewrite E in Q. inversion Q; subst. apply Hv; auto.
        - exists v. split; auto. intros ->. apply K. apply (H g b I). apply Hv; auto. }
      rewrite H1, H2, H3, H4. reflexivity.
    Qed.
  End Effects.

  (** ** Arguments *)
  Context (Kc : Forall (fun o => okind o = KConst) objects).

  Lemma gen_one {A} (d x : A) : (let* g := make_gen [[x]] in gen_list d g) = Ok [[x]].
  Proof. vm_compute. reflexivity. Qed.

  Lemma merged_one p : let N := snd (st_insert_range [p] st_empty) in st_wf N /\ st_elements N = [p].
  Proof.
    cbv zeta. replace (snd (st_insert_range [p] st_empty)) with (st_of_list [p]); [apply of_list_one|].
    unfold st_insert_range. cbn [fold_left snd]. change (st_of_list [p]) with (snd (st_insert p st_empty)).
    destruct (st_insert p st_empty). reflexivity.
  Qed.

  Lemma negate_one p : negate om [mkPS (st_of_list [p]) st_empty] =
    simplify om None [mkPS st_empty (snd (st_insert_range [p] st_empty))].
  Proof.
    unfold negate. cbn [map ps_neg ps_pos]. unfold convert. cbn [ps_neg ps_pos].
    destruct (of_list_one p) as [W1 E1]. rewrite E1.
    change (st_elements st_empty) with (@nil prop). cbn [map app].
    unfold conjoin. cbn [filter]. set (c := mkPS st_empty (st_of_list [p])).
    change (combo_count [[c]] <? 2 ^ 31)%Z with true. cbv iota.
    pose proof (gen_one ps_empty c) as G. destruct (make_gen [[c]]) as [g| | | |]; try discriminate.
    cbn [bind] in *. rewrite G. cbn [bind map]. f_equal. f_equal. unfold merge, c. cbn [fold_left ps_pos ps_neg ps_empty].
    rewrite E1. reflexivity.
  Qed.

  Lemma evaluate_one p N : st_wf N -> st_elements N = [p] -> evaluate om None (mkPS st_empty N) =
    let* e := evaluate_equals p in
    match e with
    | Some b => Ok (Some (negb b))
    | None => let* t := evaluate_type om p in Ok (option_map negb t)
    end.
  Proof.
    intros W1 E1. unfold evaluate.
    assert (Sz : st_size N = 1) by (rewrite st_size_elements by auto; rewrite E1; auto).
    unfold ps_size. cbn [ps_pos ps_neg]. rewrite Sz. change (st_size st_empty) with 0. cbn [Nat.add Nat.eqb].
    unfold evaluate_single. cbn [ps_pos ps_neg]. unfold st_is_empty. rewrite Sz. cbn [Nat.eqb]. rewrite E1.
    assert (C : ps_is_consistent (mkPS st_empty N) = true) by reflexivity.
    rewrite C.
    destruct (evaluate_equals p) as [[b|]| | | |]; cbn; auto.
    destruct (evaluate_type om p) as [[b|]| | | |]; cbn; auto.
  Qed.

  (** A tuple is dropped only if the context is false for it. *)
  Lemma context_dropped o args e n xs : length (op_params o) = length args -> Forall (fun x => In x objects) args ->
    op_pre o = GSimple n xs \/ op_pre o = GNeg (GSimple n xs) ->
    wf_goal objects (map oname (op_params o)) (op_pre o) ->
    exists r, create_goal om None (op_pre o) (op_params o) args = Ok r /\
      (r = None -> forall S, ~ holds objects S (bind_vars (op_params o) args e) (op_pre o)).
  Proof.
    intros L Ia C Wf.
    assert (Wx : wf_goal objects (map oname (op_params o)) (GSimple n xs))
      by (destruct C as [C|C]; rewrite C in Wf; exact Wf).
    destruct Wx as [Fa Ar].
    destruct C as [->|C]; [|rewrite C]; cbn [create_goal]; rewrite (app_fun_denote _ _ _ e L Fa); cbn [bind].
    - eexists. split; [reflexivity|]. discriminate.
    - set (l := map (denote (bind_vars (op_params o) args e)) xs). rewrite negate_one. cbn [simplify simplify_loop].
      destruct (merged_one (mkProp n l)) as [Wm Em]. rewrite (evaluate_one _ _ Wm Em). cbn [holds]. fold l.
      assert (Ic : forall x, In x l -> okind x = KConst).
      { intros x I. unfold l in I. apply in_map_iff in I. destruct I as (y & <- & I).
        rewrite Forall_forall in Fa, Kc. specialize (Fa y I). unfold arg_ok in Fa. unfold denote.
        destruct (okind y) eqn:Ey; auto. apply Kc.
        apply (bind_In objects (fun _ => True)); auto. }
      unfold evaluate_equals, evaluate_type. cbn [pname pargs].
      destruct Ar as [A1 A2].
      destruct (String.eqb_spec n "=") as [->|Ne].
      + specialize (A1 eq_refl). assert (Ll : length l = 2) by (unfold l; rewrite map_length; auto).
        destruct l as [|a [|b [|]]] eqn:El; try discriminate. unfold same_var.
        rewrite (Ic a), (Ic b) by (cbn; auto). cbn [bind].
        destruct (obj_eqb a b) eqn:Eab; cbn [negb bind].
        * eexists. split; [reflexivity|]. intros _ S H. apply H. left. split; auto. exists a, b. split; auto.
          apply obj_eqb_ok; auto.
        * eexists. split; [reflexivity|]. discriminate.
      + cbn [bind]. destruct (om_find om n) eqn:Ef.
        * assert (T : is_type objects n) by (apply om_find_type; eauto).
          specialize (A2 Ne T). assert (Ll : length l = 1) by (unfold l; rewrite map_length; auto).
          destruct l as [|a [|]] eqn:El; try discriminate. cbn [bind option_map].
          destruct (is_subtype (otype a) n) eqn:Ea; cbn [negb].
          -- eexists. split; [reflexivity|]. intros _ S H. apply H. right. left. split; auto. split; auto.
             exists a. split; auto. apply has_type_spec; auto.
          -- eexists. split; [reflexivity|]. discriminate.
        * cbn [bind option_map]. cbn. eexists. split; [reflexivity|]. discriminate.
  Qed.

  Lemma keep_ok o ts (P : list object -> Prop) :
    (forall t, In t ts -> exists r, create_goal om None (op_pre o) (op_params o) t = Ok r /\ (r = None -> P t)) ->
    exists l, keep_arguments om o ts = Ok l /\ (forall t, In t l -> In t ts) /\ (forall t, In t ts -> In t l \/ P t).
  Proof.
    induction ts as [|t ts IH]; intros H; cbn [keep_arguments].
    - exists []. auto.
    - destruct (H t (or_introl eq_refl)) as (r & -> & Hr). cbn [bind].
      destruct IH as (l & -> & Hl1 & Hl2); [intros; apply H; right; auto|]. cbn [bind].
      destruct r as [d|].
      + exists (t :: l). split; auto. split.
        * intros x [<-|I]; [left; auto|right; auto].
        * intros x [<-|I]; [left; left; auto|]. destruct (Hl2 x I); [left; right; auto|auto].
      + exists l. split; auto. split; [intros x I; right; auto|]. intros x [<-|I]; auto.
  Qed.

  Lemma context_cases a : extract_context (ax_op a) = Ok a ->
    op_pre (ax_op a) = (if ax_pos a then GSimple (ax_name a) (ax_args a) else GNeg (GSimple (ax_name a) (ax_args a))).
  Proof.
    destruct a as [o pos n xs]. cbn. unfold extract_context.
    destruct (op_pre o) as [n' xs'| | |[]| | |]; intros Q; try discriminate; inversion Q; subst; auto.
  Qed.

  Lemma prepare_ok a : wf_axiom objects a ->
    exists l, prepare_arguments om (ax_op a) = Ok l /\
      (forall args, In args l -> well_typed objects (op_params (ax_op a)) args) /\
      (forall args, well_typed objects (op_params (ax_op a)) args -> In args l \/
         forall S, ~ holds objects S (bind_vars (op_params (ax_op a)) args no_env) (op_pre (ax_op a))).
  Proof.
    intros [C N Ct Wp We]. unfold prepare_arguments.
    destruct (tuples_ok objects (op_params (ax_op a)) W N Ct) as (ts & -> & It). cbn [bind].
    destruct (keep_ok (ax_op a) ts (fun args => forall S, ~ holds objects S
        (bind_vars (op_params (ax_op a)) args no_env) (op_pre (ax_op a)))) as (l & E & H1 & H2).
    - intros t I. apply It in I.
      apply (context_dropped (ax_op a) t no_env (ax_name a) (ax_args a)); auto.
      + eapply well_typed_length; eauto.
      + eapply well_typed_In; eauto.
      + rewrite (context_cases a C). destruct (ax_pos a); auto.
    - exists l. split; auto. split; intros; [apply It, H1|apply H2, It]; auto.
  Qed.

  (** ** States *)
  Lemma stuck_respects axioms s : Forall (wf_axiom objects) axioms -> st_wf s ->
    stuck om axioms s <-> Forall (respects objects (atoms s)) axioms.
  Proof.
    intros Wa Ws. unfold stuck. rewrite Forall_forall in Wa |- *.
    assert (K : forall a, In a axioms ->
      ((exists l, prepare_arguments om (ax_op a) = Ok l /\ forall args, In args l -> quiet_at om s (ax_op a) args) <->
       respects objects (atoms s) a)).
    { intros a Ia. destruct (prepare_ok a (Wa a Ia)) as (l & -> & H1 & H2).
      destruct (Wa a Ia) as [_ N Ct Wp We].
      assert (Kx : forall args, well_typed objects (op_params (ax_op a)) args ->
        (quiet_at om s (ax_op a) args <->
         (holds objects (atoms s) (bind_vars (op_params (ax_op a)) args no_env) (op_pre (ax_op a)) ->
          post objects (atoms s) (bind_vars (op_params (ax_op a)) args no_env) (op_effs (ax_op a))))).
      { intros args Ht. pose proof (well_typed_length _ _ _ Ht) as L.
        destruct (eval_state_semantics objects s (op_pre (ax_op a)) (op_params (ax_op a)) args no_env W L Wp) as (v & E & Hv).
        pose proof (zero_post s Ws _ _ _ L We) as Z. unfold quiet_at, op_valid. rewrite E. split.
        - intros (v' & Q & H) Hh. inversion Q; subst. apply Z, H, Hv; auto.
        - intros H. exists v. split; auto. intros ->. apply Z, H, Hv; auto. }
      split.
      - intros (l' & Q & H) args Ht. inversion Q; subst. cbv zeta. intros Hh.
        destruct (H2 args Ht) as [I|F]; [|destruct (F _ Hh)]. apply Kx; auto.
      - intros R. exists l. split; auto. intros args I. refine (proj2 (Kx args (H1 args I)) _). exact (R args (H1 args I)). }
    split; intros H a Ia; apply K; auto.
  Qed.

  Lemma C30_meaning_lemma axioms fuel s st b : Forall (wf_axiom objects) axioms -> built s ->
    is_valid_state om axioms fuel s st = Ok b ->
    (b = true <-> Forall (respects objects (atoms s)) axioms).
  Proof.
    intros Wa B E. rewrite <- (stuck_respects axioms s Wa (built_wf s B)).
    rewrite <- (valid_iff om axioms fuel s st (built_wf s B)). rewrite E. split; congruence.
  Qed.

  Lemma C29_meaning_lemma axioms fuel rounds s st s' st' : Forall (wf_axiom objects) axioms -> built s ->
    consistent_state om axioms fuel rounds (s, st) = Ok (s', st') ->
    built s' /\ Forall (respects objects (atoms s')) axioms.
  Proof.
    intros Wa B E. apply rounds_stuck in E; auto. destruct E as [B' K]. split; auto.
    apply stuck_respects; auto. apply built_wf; auto.
  Qed.
End WithHash.
