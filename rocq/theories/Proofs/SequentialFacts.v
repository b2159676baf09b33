(** Effects executed one after another. *)
From Coq Require Import String List Bool ZArith Arith Lia.
From Verif.Model Require Import Base Object Proposition HashSet State CombinationGenerator
  ParameterGenerator Syntax Formula Effects.
From Verif.Spec Require Import SetSpec CartesianSpec TypingSpec FormulaSpec EffectSpec SequentialSpec.
From Verif.Proofs Require Import OrderFacts HashSetFacts StateFacts StateHistory
  CombinationFacts ParameterFacts FormulaFacts EffectFacts EffectLink EffectTheorems PddlFacts EffectExamples.
Import ListNotations.
Local Open Scope string_scope.
Local Open Scope list_scope.

Definition same (S S' : atom -> Prop) : Prop := forall a, S a <-> S' a.
Lemma same_refl S : same S S. Proof. intros a. tauto. Qed.
Lemma same_trans S T U : same S T -> same T U -> same S U.
Proof. intros H G a. rewrite (H a). apply G. Qed.

Lemma fold_same {A} (f : (atom -> Prop) -> A -> atom -> Prop) l :
  (forall x S S', In x l -> same S S' -> same (f S x) (f S' x)) ->
  forall S S', same S S' -> same (fold_left f l S) (fold_left f l S').
Proof.
  induction l as [|x l IH]; intros H S S' E; auto. cbn. apply IH; [intros; apply H; auto; right; auto|].
  apply H; auto. left. auto.
Qed.

Lemma put_same a S S' : same S S' -> same (put a S) (put a S').
Proof. intros E x. unfold put. rewrite (E x). tauto. Qed.
Lemma take_same a S S' : same S S' -> same (take a S) (take a S').
Proof. intros E x. unfold take. rewrite (E x). tauto. Qed.

Lemma sequence_same objects e : forall env S S', same S S' ->
  same (in_sequence objects env e S) (in_sequence objects env e S').
Proof.
  induction e as [fs adds dels cs IHf IHc] using effs_ind'. intros env S S' E. cbn [in_sequence].
  apply fold_same.
  { intros [g b] T T' I ET a. cbn [fst snd]. rewrite (holds_same objects T T' g ET env), (ET a).
    rewrite (IHc g b I env T T' ET a). tauto. }
  apply fold_same; [intros p T T' _; apply take_same|]. apply fold_same; [intros p T T' _; apply put_same|].
  apply fold_same; auto. intros [vars b] T T' I ET. cbn [fst snd]. apply fold_same; auto.
  intros objs U U' _ EU. apply (IHf vars b I). auto.
Qed.

Section WithHash.
  Context `{SH : StdHash}.
  Section Seq.
    Context (objects : list object) (W : Forall (fun o => wf_type (otype o)) objects).
    Context (axioms : list axiom) (recp : nat -> list object -> state -> outcome (nat * state)).
    Notation om := (create_object_map objects).

    (** The run succeeds with the atoms that [F] makes of those of [t]. *)
    Definition makes (r : outcome (nat * state)) (t : state) (F : (atom -> Prop) -> atom -> Prop) : Prop :=
      exists n tr, r = Ok (n, run_from t tr) /\ same (atoms (run_from t tr)) (F (atoms t)).

    Lemma run_app t a b : run_from (run_from t a) b = run_from t (a ++ b).
    Proof. unfold run_from. rewrite fold_left_app. reflexivity. Qed.

    Lemma in_turn_makes {A} (f : A -> state -> outcome (nat * state)) (F : (atom -> Prop) -> A -> atom -> Prop) l :
      (forall x t, In x l -> st_wf t -> makes (f x t) t (fun S => F S x)) ->
      (forall x S S', In x l -> same S S' -> same (F S x) (F S' x)) ->
      forall n t, st_wf t -> makes (in_turn f l n t) t (fold_left F l).
    Proof.
      induction l as [|x l IH]; intros H E n t Wt; cbn [in_turn fold_left].
      - exists n, []. split; auto. apply same_refl.
      - destruct (H x t (or_introl eq_refl) Wt) as (m & tr & -> & S1). cbn [bind].
        destruct (IH ltac:(intros; apply H; auto; right; auto) ltac:(intros; apply E; auto; right; auto)
                    (Nat.max n m) (run_from t tr) (run_from_wf _ _ Wt)) as (k & tr2 & -> & S2).
        exists k, (tr ++ tr2). rewrite run_app in *. split; auto.
        eapply same_trans; [exact S2|]. apply fold_same; auto. intros; apply E; auto. right. auto.
    Qed.

    Lemma lit_makes params vals (pos : bool) p t :
      (forall a, In a axioms -> (ax_pos a, ax_name a) <> (pos, pname p)) -> ordinary objects (pname p) -> st_wf t ->
      makes (sub_lit st_ins st_del objects axioms recp params vals pos p t) t
        (if pos then put (inst (bind_vars params vals no_env) p) else take (inst (bind_vars params vals no_env) p)).
    Proof.
      intros Q O Wt. destruct O as [N1 N2]. unfold sub_lit. set (l := sub_args params vals (pargs p)).
      destruct (String.eqb_spec (pname p) "="); [congruence|].
      destruct (is_typeb objects (pname p)) eqn:Et; [exfalso; apply N2, is_typeb_spec; auto|].
      set (o := if pos then Ins (mkProp (pname p) l) else Del (mkProp (pname p) l)).
      destruct ((if pos then st_ins else st_del) (mkProp (pname p) l) t) as [s t1] eqn:E1.
      assert (R : t1 = run_from t [o]).
      { unfold o. destruct pos; cbn; [rewrite st_ins_eq in E1|rewrite st_del_eq in E1]; inversion E1; auto. }
      assert (A : same (atoms (run_from t [o]))
         ((if pos then put (inst (bind_vars params vals no_env) p) else take (inst (bind_vars params vals no_env) p)) (atoms t))).
      { intros a. change (run_from t [o]) with (snd (exec_op o t)). rewrite atoms_exec by auto. unfold o. destruct pos; reflexivity. }
      destruct (Nat.eqb_spec s 0).
      - exists 0, [o]. rewrite <- R. rewrite <- R in A. auto.
      - rewrite (proj2 (quiet_context axioms recp pos (pname p) Q axioms 0 ltac:(intros x Hx; exact Hx))).
        exists s, [o]. cbn [bind]. rewrite R. auto.
    Qed.

    Lemma cond_makes t g params vals : st_wf t -> length params = length vals ->
      wf_goal objects (map oname params) g ->
      exists b, cond_state om t g params vals = Ok b /\ (b = true <-> holds objects (atoms t) (bind_vars params vals no_env) g).
    Proof.
      intros Wt Lp Wf. apply (cond_stable objects W t (fun _ _ => False) t g params vals); auto.
      split; auto. tauto.
    Qed.

    Lemma effs_make e : forall params vals t,
      quiet axioms e -> ordinary_effs objects e -> length params = length vals ->
      wf_effs objects (map oname params) e -> st_wf t ->
      makes (sub_effs st_ins st_del (cond_state om) objects axioms recp params vals e t) t
        (in_sequence objects (bind_vars params vals no_env) e).
    Proof.
      induction e as [fs adds dels cs IHf IHc] using effs_ind'.
      intros params vals t Q O Lp Wf Wt. cbn [sub_effs in_sequence].
      set (env := bind_vars params vals no_env) in *.
      apply wf_effs_eq in Wf. destruct Wf as (Wf & Wa & Wd & Wc).
      set (F1 := fun S f => fold_left (fun S objs => in_sequence objects (bind_vars (fst f) objs env) (snd f) S)
                    (tuples objects (fst f)) S).
      assert (E1 : forall (f : list object * effs) S S', In f fs -> same S S' -> same (F1 S f) (F1 S' f)).
      { intros f S S' _ E. apply fold_same; auto. intros. apply sequence_same; auto. }
      destruct (in_turn_makes (fun f t =>
            in_turn (fun objs t => sub_effs st_ins st_del (cond_state om) objects axioms recp
                                     (params ++ fst f) (vals ++ objs) (snd f) t)
              (tuples objects (fst f)) 0 t) F1 fs) with (n := 0) (t := t) as (n1 & r1 & -> & S1); auto.
      { intros [vars b] t1 I W1. cbn [fst snd]. destruct (Wf vars b I) as (Nv & Cv & Wb).
        apply (in_turn_makes _ (fun S objs => in_sequence objects (bind_vars vars objs env) b S)); auto.
        - intros objs t2 Io W2. apply tuples_In in Io. pose proof (well_typed_length _ _ _ Io) as Lo.
          unfold env. rewrite <- bind_vars_app by auto. apply (IHf vars b I); auto.
          + eapply quiet_forall; eauto.
          + intros x Hx. apply O. eapply sigs_forall; eauto.
          + rewrite !app_length; lia.
          + rewrite map_app; auto.
        - intros. apply sequence_same; auto. }
      cbn [bind]. assert (W1 : st_wf (run_from t r1)) by (apply run_from_wf; auto).
      destruct (in_turn_makes (sub_lit st_ins st_del objects axioms recp params vals true)
         (fun S p => put (inst env p) S) adds) with (n := n1) (t := run_from t r1) as (n2 & r2 & -> & S2); auto.
      { intros p t1 I Wt1. apply (lit_makes params vals true p t1); auto.
        - intros a Ia Ea. apply (Q a Ia). rewrite Ea. apply sigs_add; auto.
        - apply (O (true, pname p)). apply sigs_add; auto. }
      { intros. apply put_same; auto. }
      cbn [bind]. rewrite run_app in *. assert (W2 : st_wf (run_from t (r1 ++ r2))) by (apply run_from_wf; auto).
      destruct (in_turn_makes (sub_lit st_ins st_del objects axioms recp params vals false)
         (fun S p => take (inst env p) S) dels) with (n := n2) (t := run_from t (r1 ++ r2)) as (n3 & r3 & -> & S3); auto.
      { intros p t1 I Wt1. apply (lit_makes params vals false p t1); auto.
        - intros a Ia Ea. apply (Q a Ia). rewrite Ea. apply sigs_del; auto.
        - apply (O (false, pname p)). apply sigs_del; auto. }
      { intros. apply take_same; auto. }
      cbn [bind]. rewrite run_app in *. assert (W3 : st_wf (run_from t ((r1 ++ r2) ++ r3))) by (apply run_from_wf; auto).
      set (F4 := fun S c => fun a => (holds objects S env (fst c) /\ in_sequence objects env (snd c) S a) \/
                   (~ holds objects S env (fst c) /\ S a)).
      assert (E4 : forall (c : goal * effs) S S', In c cs -> same S S' -> same (F4 S c) (F4 S' c)).
      { intros [g b] S S' _ E a. unfold F4. cbn [fst snd]. rewrite (holds_same objects S S' g E env), (E a).
        rewrite (sequence_same objects b env S S' E a). tauto. }
      destruct (in_turn_makes (fun c t => let* b := cond_state om t (fst c) params vals in
            if b : bool then sub_effs st_ins st_del (cond_state om) objects axioms recp params vals (snd c) t
            else Ok (0, t)) F4 cs) with (n := n3) (t := run_from t ((r1 ++ r2) ++ r3)) as (n4 & r4 & -> & S4); auto.
      { intros [g b] t1 I Wt1. cbn [fst snd]. destruct (Wc g b I) as [Wg Wb].
        destruct (cond_makes t1 g params vals Wt1 Lp Wg) as (v & Ev & Hv). rewrite Ev. cbn [bind]. destruct v.
        - destruct (IHc g b I params vals t1) as (n5 & r5 & E5 & S5); auto.
          + eapply quiet_cond; eauto.
          + intros x Hx. apply O. eapply sigs_cond; eauto.
          + exists n5, r5. split; auto. intros a. rewrite (S5 a). unfold F4. cbn [fst snd]. fold env. fold env in Hv. tauto.
        - exists 0, []. split; auto. intros a. unfold F4. cbn [fst snd run_from fold_left]. fold env in Hv.
          assert (~ holds objects (atoms t1) env g) by (intros G; apply Hv in G; discriminate). tauto. }
      exists n4, (((r1 ++ r2) ++ r3) ++ r4). rewrite run_app in *. split; auto.
      eapply same_trans; [exact S4|]. apply fold_same; auto.
      eapply same_trans; [exact S3|]. apply fold_same; [intros; apply take_same; auto|].
      eapply same_trans; [exact S2|]. apply fold_same; [intros; apply put_same; auto|]. exact S1.
    Qed.
  End Seq.

  Lemma sequential_lemma objects axioms fuel ow o args s st :
    Forall (fun o => wf_type (otype o)) objects -> built s ->
    length (op_params o) = length args -> wf_effs objects (map oname (op_params o)) (op_effs o) ->
    quiet axioms (op_effs o) -> ordinary_effs objects (op_effs o) ->
    exists n s', apply_state fuel (create_object_map objects) axioms ow o args (s, st) = Ok (n, (s', st)) /\
      built s' /\
      forall a, atoms s' a <-> in_sequence objects (bind_vars (op_params o) args no_env) (op_effs o) (atoms s) a.
  Proof.
    intros W B L Wf Q O. unfold apply_state.
    rewrite (apply_op_quiet st_ins st_del (cond_state (create_object_map objects)) objects axioms fuel ow o args s st
               (fun _ _ _ => UB)) by auto.
    destruct (effs_make objects W axioms (fun _ _ _ => UB) (op_effs o) (op_params o) args s)
      as (n & tr & E & T); auto using built_wf.
    rewrite E. cbn. exists n, (run_from s tr). split; auto. split; [apply built_run_from; auto|]. exact T.
  Qed.
End WithHash.

(** *** The last word *)
Lemma puts_spec env adds S a : fold_left (fun S p => put (inst env p) S) adds S a <->
  (exists p, In p adds /\ a = inst env p) \/ S a.
Proof.
  revert S. induction adds as [|p adds IH]; intros S; cbn.
  - split; auto. intros [(p & [] & _)|H]; auto.
  - rewrite IH. unfold put. split.
    + intros [(q & I & E)|[E|H]]; eauto.
    + intros [(q & [<-|I] & E)|H]; eauto.
Qed.
Lemma takes_spec env dels S a : fold_left (fun S p => take (inst env p) S) dels S a <->
  S a /\ ~ exists p, In p dels /\ a = inst env p.
Proof.
  revert S. induction dels as [|p dels IH]; intros S; cbn.
  - split; [|tauto]. intros H. split; auto. intros (p & [] & _).
  - rewrite IH. unfold take. split.
    + intros [[N H] D]. split; auto. intros (q & [<-|I] & E); eauto.
    + intros [H D]. split; [split; auto|]; intros E; apply D; [eauto|]. destruct E as (q & I & E). eauto.
Qed.
Lemma last_word_iff objects env vars adds dels S a :
  in_sequence objects env (Effs [(vars, Effs [] adds dels [])] [] [] []) S a <->
  last_word objects env vars adds dels S a.
Proof.
  cbn [in_sequence fold_left fst snd]. unfold last_word.
  assert (In1 : forall S objs, in_sequence objects (bind_vars vars objs env) (Effs [] adds dels []) S a <->
     ((exists p, In p adds /\ a = inst (bind_vars vars objs env) p) \/ S a) /\
     ~ exists p, In p dels /\ a = inst (bind_vars vars objs env) p).
  { intros T objs. cbn [in_sequence fold_left]. rewrite takes_spec, puts_spec. tauto. }
  cbn [in_sequence fold_left] in In1.
  set (A := fun objs => exists p, In p adds /\ a = inst (bind_vars vars objs env) p) in *.
  set (D := fun objs => exists p, In p dels /\ a = inst (bind_vars vars objs env) p) in *.
  revert S. induction (tuples objects vars) as [|objs l IH]; intros S; cbn [fold_left].
  - split; [intros H; right; split; auto; intros ? []|]. intros [(l1 & o & l2 & E & _)|[H _]]; auto. destruct l1; discriminate.
  - rewrite IH. rewrite In1. split.
    + intros [(l1 & o & l2 & -> & H)|[[[H|H] N] F]].
      * left. exists (objs :: l1), o, l2. auto.
      * left. exists [], objs, l. auto.
      * right. split; auto. intros o [<-|I]; auto.
    + intros [(l1 & o & l2 & E & H1 & H2 & H3)|[H F]].
      * destruct l1 as [|x l1]; injection E as <- E.
        -- right. subst l2. auto.
        -- left. exists l1, o, l2. auto.
      * right. split; [split; auto|]; [|intros o I]; apply F; [left|right]; auto.
Qed.

Lemma last_word_lemma : forall (SH : StdHash) objects axioms fuel ow o args s st vars adds dels,
  Forall (fun o => wf_type (otype o)) objects -> built s ->
  op_effs o = Effs [(vars, Effs [] adds dels [])] [] [] [] ->
  length (op_params o) = length args -> wf_effs objects (map oname (op_params o)) (op_effs o) ->
  quiet axioms (op_effs o) -> ordinary_effs objects (op_effs o) ->
  exists n s', apply_state fuel (create_object_map objects) axioms ow o args (s, st) = Ok (n, (s', st)) /\
    built s' /\ forall a, atoms s' a <-> last_word objects (bind_vars (op_params o) args no_env) vars adds dels (atoms s) a.
Proof.
  intros SH objects axioms fuel ow o args s st vars adds dels W B E L Wf Q O.
  destruct (sequential_lemma objects axioms fuel ow o args s st W B L Wf Q O) as (n & s' & R & B' & A).
  exists n, s'. split; auto. split; auto. intros a. rewrite (A a), E. apply last_word_iff.
Qed.
