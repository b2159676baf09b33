(** Normal forms of conditions and goals (C64). *)
From Coq Require Import String List Bool NArith ZArith Arith Lia Permutation.
From Verif.Model Require Import Base Order HashSet Object Proposition State CombinationGenerator
  ParameterGenerator Syntax Formula Effects Derived NormalForm Consistency Text Pddl Normalize.
From Verif.Spec Require Import SetSpec CartesianSpec TypingSpec FormulaSpec EffectSpec NormalFormSpec AxiomSpec DerivedSpec
  TextSpec PddlSpec NormalizeSpec.
From Verif.Proofs Require Import OrderFacts HashSetFacts StateFacts StateHistory CombinationFacts ParameterFacts
  FormulaFacts EffectLink EffectTheorems DerivedFacts NormalFormFacts NormalFormGoal
  NormalFormEffects NormalFormTheorems AxiomMeaning AxiomReject AxiomExtend AxiomSound TextFacts PddlFacts PddlTheorems
  PddlListing PddlHistory.
From Verif.Properties Require Import StateProps ParameterProps FormulaProps.
Import ListNotations.
Local Open Scope string_scope.
Local Open Scope list_scope.

(** ** Every well-formed State is built *)
Section Built.
  Context `{SH : StdHash}.

  Lemma map_key_eq (l1 l2 : list prop) : map prop_key l1 = map prop_key l2 ->
    (forall x y, In x l1 -> In y l2 -> prop_key x = prop_key y -> x = y) -> l1 = l2.
  Proof.
    revert l2. induction l1 as [|a l1 IH]; intros [|b l2] E H; try discriminate; auto.
    cbn in E. injection E as Ea El. f_equal.
    - apply H; [left; auto|left; auto|auto]. unfold prop_key. congruence.
    - apply IH; auto. intros x y Ix Iy. apply H; right; auto.
  Qed.
  Lemma map_keys_eq (b1 b2 : list (list prop)) : map (map prop_key) b1 = map (map prop_key) b2 ->
    (forall x y, In x (concat b1) -> In y (concat b2) -> prop_key x = prop_key y -> x = y) -> b1 = b2.
  Proof.
    revert b2. induction b1 as [|a b1 IH]; intros [|b b2] E H; try discriminate; auto.
    cbn [map] in E. injection E as Ea Eb. f_equal.
    - apply map_key_eq; auto. intros x y Ix Iy. apply H; cbn; apply in_or_app; left; auto.
    - apply IH; auto. intros x y Ix Iy. apply H; cbn; apply in_or_app; right; auto.
  Qed.

  Lemma run_ins_elements l : forall s, st_wf s ->
    (forall q, In q (st_elements (run_from s (map Ins l))) -> In q (st_elements s) \/ In q l) /\
    (forall a, mem (run_from s (map Ins l)) a <-> mem s a \/ In a (map prop_key l)).
  Proof.
    induction l as [|p l IH]; intros s Ws; [cbn; tauto|].
    assert (Ws' : st_wf (snd (st_insert p s))) by apply (insert_spec p s Ws).
    destruct (IH _ Ws') as [A B]. change (run_from s (map Ins (p :: l))) with (run_from (snd (st_insert p s)) (map Ins l)).
    split.
    - intros q I. destruct (A q I) as [J|J]; [|right; right; auto]. destruct (insert_elements p s q Ws J) as [->|K]; auto.
      right; left; auto.
    - intros a. rewrite B. cbn [map In].
      assert (M : mem (snd (st_insert p s)) a <-> a = prop_key p \/ mem s a) by apply (insert_spec p s Ws).
      rewrite M. intuition.
  Qed.

  Lemma nodup_key l (x y : prop) : NoDup (map prop_key l) -> In x l -> In y l -> prop_key x = prop_key y -> x = y.
  Proof.
    induction l as [|a l IH]; intros N Ix Iy E; [destruct Ix|]. inversion N as [|? ? Na Nl]; subst.
    destruct Ix as [->|Ix], Iy as [->|Iy]; auto.
    - destruct Na. rewrite E. apply in_map; auto.
    - destruct Na. rewrite <- E. apply in_map; auto.
  Qed.

  Lemma wf_built s : st_wf s -> built s.
  Proof.
    intros W. exists (map Ins (st_elements s)). unfold run.
    destruct (run_ins_elements (st_elements s) st_empty st_empty_wf) as [A B].
    set (s' := run_from st_empty (map Ins (st_elements s))) in *.
    assert (W' : st_wf s') by apply run_wf.
    assert (E : buckets s = buckets s').
    { apply map_keys_eq.
      - apply (hs_canonical prop_key atom_dec _ _ _ prop_ltb_ok prop_eqb_ok prop_hash_key); auto.
        intros x. fold st_contains. apply eq_true_iff_eq.
        change (st_contains s x = true <-> st_contains s' x = true).
        rewrite !contains_mem by auto. rewrite B. unfold mem at 2. cbn. tauto.
      - intros x y Ix Iy. apply (nodup_key (st_elements s)); auto using st_nodup.
        destruct (A y Iy) as [[]|]; auto. }
    assert (Z : hsize s = hsize s').
    { rewrite (hw_size _ _ _ W), (hw_size _ _ _ W'). unfold hs_elements. rewrite E. auto. }
    destruct s, s'. cbn in *. congruence.
  Qed.
End Built.

(** ** Stores *)
Section Stores.
  Context `{SH : StdHash}.
  Context (objects : list object) (ar : string -> nat) (axioms : list axiom) (fuel : nat).
  Hypothesis W : Forall (fun o => wf_type (otype o)) objects.
  Hypothesis K : Forall (fun o => okind o = KConst) objects.
  Hypothesis Hwf : Forall (wf_axiom objects) axioms.
  Notation om := (create_object_map objects).
  Notation reachable := (reachable_store objects ar axioms).

  Lemma axiom_partial_reachable i a w c w' : nth_error axioms i = Some a -> reachable (snd w) ->
    axiom_apply_partial om axioms fuel i a w = Ok (c, w') -> reachable (snd w').
  Proof.
    intros N R E. unfold axiom_apply_partial in E.
    destruct (prepare_ok objects W K a) as (l & El & Hl & _).
    { rewrite Forall_forall in Hwf. apply Hwf. eapply nth_error_In; eauto. }
    rewrite El in E. cbn [bind] in E.
    assert (X : forall l, (forall args, In args l -> well_typed objects (op_params (ax_op a)) args) -> forall x y,
      reachable (snd (snd x)) -> foldM (axiom_step_partial om axioms fuel i (ax_op a)) l x = Ok y -> reachable (snd (snd y))).
    { clear -N. induction l as [|args l IH]; intros Hl x y R E; cbn [foldM] in E; [injection E as <-; auto|].
      apply bind_Ok in E as (z & E & F). apply (IH (fun t I => Hl t (or_intror I)) z y); auto. unfold axiom_step_partial in E.
      apply bind_Ok in E as (v & _ & E). destruct v as [[|]|]; [|injection E as <-; auto|injection E as <-; auto].
      apply bind_Ok in E as ([n [s1 st1]] & E & Q). injection Q as <-. cbn [snd].
      destruct x as [b [s st]]. cbn [snd] in *. eapply rs_axiom_partial; [exact R|exact N| |exact E].
      apply (well_typed_length objects). apply Hl. left; auto. }
    apply (X l Hl (0, w) (c, w') R E).
  Qed.

  Lemma rounds_reachable rounds : forall w w', reachable (snd w) ->
    consistent_rounds om axioms fuel rounds w = Ok w' -> reachable (snd w').
  Proof.
    assert (P : forall w c w', reachable (snd w) -> consistent_pass_partial om axioms fuel w = Ok (c, w') -> reachable (snd w')).
    { intros w c w1 R E. unfold consistent_pass_partial in E.
      assert (X : forall axs pre, axioms = pre ++ axs -> forall x y, reachable (snd (snd x)) ->
        foldMi (fun i acc a =>
          let* ' (n, w') := axiom_apply_partial om axioms fuel i a (snd acc) in
          if Nat.eqb n 2 then Throw ERuntime else Ok (fst acc || Nat.ltb 0 n, w'))
          (length pre) axs x = Ok y -> reachable (snd (snd y))).
      { clear - W K Hwf. induction axs as [|a axs IH]; intros pre Ea x y R E; cbn [foldMi] in E; [injection E as <-; auto|].
        apply bind_Ok in E as (z & E & F). apply bind_Ok in E as ([c w] & E & Q).
        destruct (Nat.eqb c 2); [discriminate|]. injection Q as <-.
        assert (N : nth_error axioms (length pre) = Some a).
        { rewrite Ea, nth_error_app2, Nat.sub_diag by lia. reflexivity. }
        pose proof (axiom_partial_reachable _ _ _ _ _ N R E) as R'.
        apply (IH (pre ++ [a]) ltac:(rewrite <- app_assoc; exact Ea) (fst x || Nat.ltb 0 c, w) y R').
        rewrite app_length. cbn. rewrite Nat.add_1_r. exact F. }
      apply (X axioms [] eq_refl (false, w) (c, w1) R E). }
    induction rounds as [|n IH]; intros w w' R E; cbn [consistent_rounds] in E;
      apply bind_Ok in E as ([c w1] & E & F); [discriminate|].
    pose proof (P _ _ _ R E) as R1. destruct c; [eapply IH; eauto|]. injection F as <-. auto.
  Qed.

  Lemma partial_reachable w w' : reachable (snd w) ->
    consistent_partial om axioms fuel w = Ok w' -> reachable (snd w').
  Proof. apply rounds_reachable. Qed.
End Stores.

(** ** Effects fulfil their postcondition *)
Lemma post_applied objects (S S' : atom -> Prop) e : forall env,
  ordinary_effs objects e ->
  (forall a, eff_lit objects (holds objects S) env e true a -> S' a) ->
  (forall a, eff_lit objects (holds objects S) env e false a -> ~ S' a) ->
  (forall a, eff_reads objects env e a -> (S a <-> S' a)) ->
  post objects S' env e.
Proof.
  induction e as [fs adds dels cs IHf IHc] using effs_ind'. intros env O T F R. apply post_eq.
  split; [|split; [|split]].
  - intros vars b I objs To. apply (IHf vars b I).
    + intros x J. apply O. eapply sigs_forall; eauto.
    + intros a H. apply T. apply eff_lit_eq. left. exists vars, b. eauto.
    + intros a H. apply F. apply eff_lit_eq. left. exists vars, b. eauto.
    + intros a H. apply R. apply eff_reads_eq. left. exists vars, b. eauto.
  - intros p I. assert (Op : ordinary objects (pname p)) by (apply (O (true, pname p)); apply sigs_add; auto).
    right; right. split; [apply Op|]. split; [apply Op|]. apply T. apply eff_lit_eq. right; left. exists p. auto.
  - intros p I H. assert (Op : ordinary objects (pname p)) by (apply (O (false, pname p)); apply sigs_del; auto).
    destruct Op as [N1 N2]. destruct H as [[H _]|[(_ & H & _)|(_ & _ & H)]]; [auto|auto|].
    revert H. apply F. apply eff_lit_eq. right; left. exists p. split; [auto|]. split; [split|]; auto.
  - intros g b I H.
    assert (Hg : holds objects S env g).
    { apply (holds_relevant objects S S' g env); auto. intros a Ra. apply R. apply eff_reads_eq. right.
      exists g, b. auto. }
    apply (IHc g b I).
    + intros x J. apply O. eapply sigs_cond; eauto.
    + intros a Ha. apply T. apply eff_lit_eq. right; right. exists g, b. auto.
    + intros a Ha. apply F. apply eff_lit_eq. right; right. exists g, b. auto.
    + intros a Ha. apply R. apply eff_reads_eq. right. exists g, b. auto.
Qed.

(** ** C64 *)
Section Domain.
  Context `{SH : StdHash}.
  Context (L : limits) (p : pddl) (ar : string -> nat) (rank : nat -> nat) (drank : string -> nat).
  Context (G : good_domain L p ar rank drank).
  Notation objs := (pd_symbols p).
  Notation reachable := (reachable_store objs ar (pd_axioms p)).

  Lemma calls_op call o args : calls p call o args ->
    pd_parse p call = Ok (o, args) /\ length (op_params o) = length args /\ Forall (fun o => In o objs) args /\
    good_op objs ar o /\ wf_goal objs (map oname (op_params o)) (op_pre o).
  Proof.
    intros C. destruct (calls_typed _ _ _ _ C) as [I T]. split; [apply parse_calls; auto|].
    split; [apply (well_typed_length objs); auto|]. split; [eapply well_typed_In; eauto|].
    apply (op_good L p ar rank drank G); auto.
  Qed.

  Lemma no_call call : (forall o args, ~ calls p call o args) ->
    pd_parse p call = Throw ERuntime \/ pd_parse p call = Throw EInvalidArgument.
  Proof.
    intros N. destruct (parse_total p call) as [(o & args & E)|E]; auto.
    apply parse_calls in E. destruct (N _ _ E).
  Qed.

  Lemma C64_rejects_lemma call b st : (forall o args, ~ calls p call o args) ->
    (exists e, (e = ERuntime \/ e = EInvalidArgument) /\
      normalize_preconditions L p call b st = Throw e /\ normalize_postconditions L p call b st = Throw e /\
      normalize_conditions L p call b st = Throw e).
  Proof.
    intros N. unfold normalize_preconditions, normalize_postconditions, normalize_conditions.
    destruct (no_call call N) as [-> | ->]; eexists; cbn; eauto.
  Qed.

  Hypothesis KC : Forall (fun o => okind o = KConst) objs.

  Lemma char_represents s : built s -> represents s (char s).
  Proof.
    intros B. split; auto. intros a. symmetry. apply (char_spec s a). apply built_wf; auto.
  Qed.

  Lemma pre_ok (al : string -> Prop) o args : good_op objs ar o -> wf_goal objs (map oname (op_params o)) (op_pre o) ->
    length (op_params o) = length args -> Forall (fun o => In o objs) args ->
    declared objs (op_pre o) -> (forall n, In n (goal_preds (op_pre o)) -> al n) ->
    nondegenerate objs (bind_vars (op_params o) args no_env) (op_pre o) ->
    res_ok objs al (fun S => holds objs (set_of S) (bind_vars (op_params o) args no_env) (op_pre o))
      (create_pre p o args).
  Proof.
    intros Go Wf Ln Ia D A N. unfold create_pre. rewrite (gd_om _ _ _ _ _ G).
    apply create_ok; auto; apply G.
  Qed.

  Lemma sat_char s r : built s ->
    result_sat (truth objs (atoms s)) r <-> result_sat (truth objs (set_of (char s))) r.
  Proof.
    intros B. apply result_ext. intros a. apply truth_ext. symmetry. apply char_spec. apply built_wf; auto.
  Qed.

  Lemma action_holds s call o args : built s -> calls p call o args ->
    is_valid_action p s call = Ok true <->
    holds objs (set_of (char s)) (bind_vars (op_params o) args no_env) (op_pre o).
  Proof.
    intros B C. destruct (calls_typed _ _ _ _ C) as [I T]. unfold is_valid_action.
    rewrite (proj2 (parse_calls _ _ _ _) C). cbn [bind].
    rewrite (valid_agree L p ar rank drank G o args s (char s) I (well_typed_length _ _ _ T) (char_represents s B)).
    pose proof (precondition_b p o args (char s)) as Q. unfold precondition in Q.
    change (PddlSpec.set_of (char s)) with (NormalFormSpec.set_of (char s)) in Q |- *. rewrite Q.
    split; [intros [= <-]|]; auto. intros ->; auto.
  Qed.

  Lemma C64_preconditions_lemma call o args st : calls p call o args -> declared objs (op_pre o) ->
    nondegenerate objs (bind_vars (op_params o) args no_env) (op_pre o) ->
    normalize_preconditions L p call false st = OutOfFuel \/
    exists r, normalize_preconditions L p call false st = Ok (r, st) /\
      forall s, built s -> (result_sat (truth objs (atoms s)) r <-> is_valid_action p s call = Ok true).
  Proof.
    intros C D N. destruct (calls_op _ _ _ C) as (Ep & Ln & Ia & Go & Wf).
    unfold normalize_preconditions. rewrite Ep. cbn [bind].
    destruct (pre_ok (fun _ => True) o args Go Wf Ln Ia D (fun _ _ => Logic.I) N) as [->|(r & -> & _ & Sat)]; auto.
    right. exists r. cbn [bind]. split; [destruct r; reflexivity|]. intros s B.
    rewrite (action_holds s call o args B C), (sat_char s r B). apply Sat.
  Qed.

  Lemma goal_ok (al : string -> Prop) : declared objs (pd_goal p) -> (forall n, In n (goal_preds (pd_goal p)) -> al n) ->
    nondegenerate objs no_env (pd_goal p) ->
    res_ok objs al (fun S => holds objs (set_of S) no_env (pd_goal p)) (create_goal (pd_om p) None (pd_goal p) [] []).
  Proof.
    intros D A N. rewrite (gd_om _ _ _ _ _ G).
    apply (create_ok objs (gd_types _ _ _ _ _ G) (gd_names _ _ _ _ _ G) KC al (pd_goal p) [] [] no_env); auto.
    apply (gd_goal _ _ _ _ _ G).
  Qed.
  Lemma goal_iff s : built s -> goal_holds p s = Ok true <-> holds objs (set_of (char s)) no_env (pd_goal p).
  Proof.
    intros B. rewrite (goal_agree L p ar rank drank G s (char s) (char_represents s B)).
    pose proof (goal_b p (char s)) as Q. unfold goal_true in Q.
    change (PddlSpec.set_of (char s)) with (NormalFormSpec.set_of (char s)) in Q. rewrite Q.
    split; [intros [= <-]|]; auto. intros ->; auto.
  Qed.

  Lemma C64_goal_lemma st : declared objs (pd_goal p) -> nondegenerate objs no_env (pd_goal p) ->
    normalize_goal L p false st = OutOfFuel \/
    exists r, normalize_goal L p false st = Ok (r, st) /\
      forall s, built s -> (result_sat (truth objs (atoms s)) r <-> goal_holds p s = Ok true).
  Proof.
    intros D N. unfold normalize_goal.
    destruct (goal_ok (fun _ => True) D (fun _ _ => Logic.I) N) as [->|(r & -> & _ & Sat)]; auto.
    right. exists r. cbn [bind]. split; [destruct r; reflexivity|]. intros s B.
    rewrite (goal_iff s B), (sat_char s r B). apply Sat.
  Qed.

  Lemma post_ok o args : good_op objs ar o -> length (op_params o) = length args -> Forall (fun o => In o objs) args ->
    declared_effs objs (op_effs o) ->
    nondegenerate_effs objs (bind_vars (op_params o) args no_env) (op_effs o) ->
    res_ok objs (fun _ => True) (fun S => post objs (set_of S) (bind_vars (op_params o) args no_env) (op_effs o))
      (create_post p o args).
  Proof.
    intros Go Ln Ia D N. unfold create_post. rewrite (gd_om _ _ _ _ _ G).
    apply (create_effs_ok objs (gd_types _ _ _ _ _ G) (gd_names _ _ _ _ _ G) KC (op_effs o)); auto. apply Go.
  Qed.

  Lemma C64_postconditions_lemma call o args st : calls p call o args -> declared_effs objs (op_effs o) ->
    nondegenerate_effs objs (bind_vars (op_params o) args no_env) (op_effs o) ->
    normalize_postconditions L p call false st = OutOfFuel \/
    exists r, normalize_postconditions L p call false st = Ok (r, st) /\
      forall S : atom -> bool, result_sat (truth objs (set_of S)) r <->
        post objs (set_of S) (bind_vars (op_params o) args no_env) (op_effs o).
  Proof.
    intros C D N. destruct (calls_op _ _ _ C) as (Ep & Ln & Ia & Go & Wf).
    unfold normalize_postconditions. rewrite Ep. cbn [bind].
    destruct (post_ok o args Go Ln Ia D N) as [->|(r & -> & _ & Sat)]; auto.
    right. exists r. cbn [bind]. split; [destruct r; reflexivity|]. auto.
  Qed.

  Lemma no_derived s : pd_derived p = [] -> pd_derive L p s = Ok (false, s).
  Proof.
    intros E. unfold pd_derive. rewrite E. destruct (gd_outer _ _ _ _ _ G) as [O _].
    destruct (l_outer L); [lia|]. reflexivity.
  Qed.

  Lemma C64_applied_lemma call o args st r st' s : calls p call o args -> declared_effs objs (op_effs o) ->
    let env := bind_vars (op_params o) args no_env in
    nondegenerate_effs objs env (op_effs o) ->
    pd_derived p = [] -> quiet (pd_axioms p) (op_effs o) -> ordinary_effs objs (op_effs o) -> built s ->
    let Lit := eff_lit objs (holds objs (atoms s)) env (op_effs o) in
    (forall a pos, eff_reads objs env (op_effs o) a -> ~ Lit pos a) ->
    (forall a, ~ (Lit true a /\ Lit false a)) ->
    normalize_postconditions L p call false st = Ok (r, st') ->
    forall st1, exists s' st2, next_state L p call (s, st1) = Ok (s', st2) /\ built s' /\
      result_sat (truth objs (atoms s')) r.
  Proof.
    intros C D env N Nd Q O B Lit R F E st1. destruct (calls_op _ _ _ C) as (Ep & Ln & Ia & Go & Wf).
    destruct (C64_postconditions_lemma call o args st C D N) as [E'|(r' & E' & Sat)]; [congruence|].
    rewrite E in E'. injection E' as <- <-.
    destruct (stable_lemma objs (pd_axioms p) (l_cascade L) (OAct (op_name o)) o args s (forget_actions st1)
      (gd_types _ _ _ _ _ G) B Ln ltac:(apply Go) Q O R F) as (n & s' & A & B' & Hs).
    exists s', (restore_actions st1 (forget_actions st1)). split; [|split; auto].
    - unfold next_state, apply_copy, temp_apply. rewrite Ep. cbn [bind fst snd]. rewrite (gd_om _ _ _ _ _ G), A.
      cbn [bind]. rewrite no_derived by auto. reflexivity.
    - rewrite (sat_char s' r B'). apply Sat.
      assert (Hc : forall a, set_of (char s') a <-> Lit true a \/ (atoms s a /\ ~ Lit false a)).
      { intros a. eapply iff_trans; [|apply Hs]. apply char_spec. apply built_wf; auto. }
      apply (post_applied objs (atoms s)); auto.
      + intros a H. apply Hc. auto.
      + intros a H K. apply Hc in K as [K|[_ K]]; [apply (F a)|]; auto.
      + intros a H. rewrite Hc. split; [|intros [K|[K _]]; auto; destruct (R _ _ H K)].
        intros K. right. split; auto.
  Qed.

  Lemma C64_pair_lemma call st a b st' :
    (normalize_conditions L p call false st = Ok (Some (a, b), st') <->
     normalize_preconditions L p call false st = Ok (Some a, st') /\
     normalize_postconditions L p call false st = Ok (Some b, st')) /\
    (normalize_conditions L p call true st = Ok (Some (a, b), st') <->
     exists st1, normalize_preconditions L p call true st = Ok (Some a, st1) /\
       normalize_postconditions L p call true st1 = Ok (Some b, st')) /\
    (forall ax, normalize_conditions L p call ax st = Ok (None, st') ->
       normalize_preconditions L p call false st = Ok (None, st') \/
       normalize_postconditions L p call false st = Ok (None, st')).
  Proof.
    unfold normalize_conditions, normalize_preconditions, normalize_postconditions.
    destruct (pd_parse p call) as [[o args]| | | |]; cbn [bind];
      try (split; [|split]; [split; [discriminate|intros [? ?]; discriminate]|
        split; [discriminate|intros (? & ? & ?); discriminate]|discriminate]).
    destruct (create_pre p o args) as [[pre|]| | | |]; cbn [bind finish];
      try (split; [|split]; [split; [discriminate|intros [? ?]; discriminate]|
        split; [discriminate|intros (? & ? & ?); discriminate]|auto; discriminate]).
    destruct (create_post p o args) as [[post|]| | | |]; cbn [bind finish];
      try (split; [|split]; [split; [discriminate|intros [? ?]; discriminate]|
        split; [discriminate|intros (? & ? & ?); discriminate]|auto; discriminate]).
    - split; [|split].
      + split; [intros [= <- <- <-]; auto|intros [[= <- <-] [= <-]]; auto].
      + destruct (consistent_all L p pre st) as [[pre' st1]| | | |]; cbn [bind];
          try (split; [discriminate|intros (? & ? & ?); discriminate]).
        split.
        * intros E. apply bind_Ok in E as ([post' st2] & E & [= <- <- <-]). exists st1. rewrite E. auto.
        * intros (st1' & [= <- <-] & E). apply bind_Ok in E as ([post' st2] & E & [= <- <-]). rewrite E. auto.
      + intros [|]; [|discriminate]. intros E. apply bind_Ok in E as ([pre' st1] & _ & E).
        apply bind_Ok in E as ([post' st2] & _ & E). discriminate.
    - split; [split; [discriminate|intros [_ ?]; discriminate]|]. split; [|intros _ [= <-]; auto].
      split; [discriminate|intros (st1 & _ & ?); discriminate].
    - split; [split; [discriminate|intros [? _]; discriminate]|]. split; [|intros _ [= <-]; auto].
      split; [discriminate|intros (st1 & ? & _); discriminate].
  Qed.

  (** *** With axioms *)
  Context (sig : string -> list string) (PA : plain_axioms p sig).

  Lemma norm_pbuilt al d : norm (ground objs al) d -> Forall pbuilt d.
  Proof.
    intros [Hg Hs]. rewrite Forall_forall in *. intros c I. destruct (Hg c I) as [[Wp Wn] _], (Hs c I) as [_ Cc].
    split; [apply wf_built; auto|]. split; [apply wf_built; auto|auto].
  Qed.

  Lemma consistent_closure c st c' st' : pbuilt c -> reachable st ->
    consistent_partial (pd_om p) (pd_axioms p) (l_cascade L) (c, st) = Ok (c', st') ->
    closure L p c c' /\ reachable st'.
  Proof.
    intros B R E. destruct PA as [_ Pw Pt].
    destruct (C32_stable_lemma _ _ _ _ _ _ _ B E) as (B' & St & Va).
    assert (R' : reachable st').
    { rewrite (gd_om _ _ _ _ _ G) in E.
      apply (partial_reachable objs ar (pd_axioms p) (l_cascade L) (gd_types _ _ _ _ _ G) KC Pw (c, st) (c', st')); auto. }
    split; auto. constructor; auto.
    - intros s [Bs (fuel & st2 & V)] C. rewrite (gd_om _ _ _ _ _ G) in E, V.
      exact (C32_sound_lemma objs ar rank sig (pd_axioms p) (l_cascade L) c st c' st' s fuel st2
        (gd_types _ _ _ _ _ G) KC Pw (gd_axioms _ _ _ _ _ G) (gd_ranked _ _ _ _ _ G) Pt B R Bs C V E).
    - intros Q. eapply C32_extends_lemma; eauto.
  Qed.

  Lemma all_from d : forall acc st d' st', Forall pbuilt d -> reachable st ->
    foldM (fun acc c =>
             let* ' (c', st') := consistent_partial (pd_om p) (pd_axioms p) (l_cascade L) (c, snd acc) in
             Ok (fst acc ++ [c'], st')) d (acc, st) = Ok (d', st') ->
    reachable st' /\ exists l, d' = acc ++ l /\ Forall2 (closure L p) d l.
  Proof.
    induction d as [|c d IH]; intros acc st d' st' F R E; cbn [foldM] in E.
    - injection E as <- <-. split; auto. exists []. rewrite app_nil_r. auto.
    - inversion F as [|? ? Fc Fd]; subst. apply bind_Ok in E as ([acc1 st1] & E & E2).
      cbn [fst snd] in E. apply bind_Ok in E as ([c' st1'] & E & [= <- <-]).
      destruct (consistent_closure _ _ _ _ Fc R E) as [Cl R1].
      destruct (IH _ _ _ _ Fd R1 E2) as (R2 & l & -> & Fl). split; auto.
      exists (c' :: l). rewrite <- app_assoc. split; auto.
  Qed.

  Lemma finish_closure r st r' st' : (forall d, r = Some d -> Forall pbuilt d) -> reachable st ->
    finish L p true r st = Ok (r', st') -> reachable st' /\ each (closure L p) r r'.
  Proof.
    intros F R. destruct r as [d|]; cbn [finish].
    - intros E. apply bind_Ok in E as ([d' st1] & E & [= <- <-]).
      destruct (all_from d [] st d' st1 (F d eq_refl) R E) as (R1 & l & -> & Fl). auto.
    - intros [= <- <-]. cbn. auto.
  Qed.

  Lemma C64_pre_axioms_lemma call o args st r' st' : calls p call o args -> declared objs (op_pre o) ->
    nondegenerate objs (bind_vars (op_params o) args no_env) (op_pre o) -> reachable st ->
    normalize_preconditions L p call true st = Ok (r', st') ->
    reachable st' /\ exists r, normalize_preconditions L p call false st = Ok (r, st) /\ each (closure L p) r r'.
  Proof.
    intros C D N R. destruct (calls_op _ _ _ C) as (Ep & Ln & Ia & Go & Wf).
    unfold normalize_preconditions. rewrite Ep. cbn [bind].
    destruct (pre_ok (fun _ => True) o args Go Wf Ln Ia D (fun _ _ => Logic.I) N) as [->|(r & -> & Nr & _)];
      cbn [bind]; [discriminate|]. intros E.
    destruct (finish_closure r st r' st') as [R' Cl]; auto.
    { intros d Ed. eapply norm_pbuilt; eauto. }
    split; auto. exists r. split; auto. destruct r; reflexivity.
  Qed.

  Lemma C64_post_axioms_lemma call o args st r' st' : calls p call o args -> declared_effs objs (op_effs o) ->
    nondegenerate_effs objs (bind_vars (op_params o) args no_env) (op_effs o) -> reachable st ->
    normalize_postconditions L p call true st = Ok (r', st') ->
    reachable st' /\ exists r, normalize_postconditions L p call false st = Ok (r, st) /\ each (closure L p) r r'.
  Proof.
    intros C D N R. destruct (calls_op _ _ _ C) as (Ep & Ln & Ia & Go & Wf).
    unfold normalize_postconditions. rewrite Ep. cbn [bind].
    destruct (post_ok o args Go Ln Ia D N) as [->|(r & -> & Nr & _)]; cbn [bind]; [discriminate|]. intros E.
    destruct (finish_closure r st r' st') as [R' Cl]; auto.
    { intros d Ed. eapply norm_pbuilt; eauto. }
    split; auto. exists r. split; auto. destruct r; reflexivity.
  Qed.

  Lemma C64_goal_axioms_lemma st r' st' : declared objs (pd_goal p) -> nondegenerate objs no_env (pd_goal p) ->
    reachable st -> normalize_goal L p true st = Ok (r', st') ->
    reachable st' /\ exists r, normalize_goal L p false st = Ok (r, st) /\ each (closure L p) r r'.
  Proof.
    intros D N R. unfold normalize_goal.
    destruct (goal_ok (fun _ => True) D (fun _ _ => Logic.I) N) as [->|(r & -> & Nr & _)]; cbn [bind]; [discriminate|].
    intros E. destruct (finish_closure r st r' st') as [R' Cl]; auto.
    { intros d Ed. eapply norm_pbuilt; eauto. }
    split; auto. exists r. split; auto. destruct r; reflexivity.
  Qed.

  (** Ordinary literals are looked up in the State. *)
  Lemma ordinary_conj s c : built s -> good (ground objs (ordinary objs)) c ->
    conj_sat (truth objs (atoms s)) c <-> completes s c.
  Proof.
    intros B [[Wp Wn] Gd]. rewrite Forall_forall in Gd. pose proof (built_wf s B) as Ws.
    assert (T : forall q, In q (st_elements (ps_pos c)) \/ In q (st_elements (ps_neg c)) ->
      truth objs (atoms s) (prop_key q) <-> st_contains s q = true).
    { intros q I. destruct (Gd q) as (_ & _ & O).
      { unfold lits. apply in_or_app. auto. }
      unfold prop_key at 1. rewrite ordinary_truth by auto. change (pname q, map oname (pargs q)) with (prop_key q).
      rewrite atoms_mem by auto. symmetry. apply contains_mem; auto. }
    unfold conj_sat, completes. split; intros [P N]; split; intros q I.
    - apply contains_mem in I; auto. unfold mem in I. apply in_map_iff in I as (q' & Eq & I).
      specialize (P q' I). rewrite (T q' (or_introl I)) in P. rewrite <- (contains_key s q' q Eq). auto.
    - apply contains_mem in I; auto. unfold mem in I. apply in_map_iff in I as (q' & Eq & I).
      specialize (N q' I). rewrite (T q' (or_intror I)) in N. rewrite <- (contains_key s q' q Eq).
      apply not_true_is_false; auto.
    - apply (T q (or_introl I)). apply P. apply contains_mem; auto. apply in_map; auto.
    - rewrite (T q (or_intror I)). rewrite N; [discriminate|]. apply contains_mem; auto. apply in_map; auto.
  Qed.

  Lemma ordinary_meets s r : built s -> (forall d, r = Some d -> norm (ground objs (ordinary objs)) d) ->
    result_sat (truth objs (atoms s)) r <-> meets s r.
  Proof.
    intros B N. destruct r as [d|]; cbn; [|tauto]. destruct (N d eq_refl) as [Gd _]. rewrite Forall_forall in Gd.
    unfold dnf_sat, list_sat. split; (intros [->|(c & I & H)]; [auto|right; exists c; split; auto]);
      apply (ordinary_conj s c B); auto.
  Qed.

  Lemma each_meets s r r' : accepted p s -> each (closure L p) r r' ->
    (meets s r -> meets s r') /\
    ((forall a, In a (pd_axioms p) -> quiet (pd_axioms p) (op_effs (ax_op a))) -> meets s r' -> meets s r).
  Proof.
    intros A E. destruct r as [d|], r' as [d'|]; cbn in *; try tauto. split.
    - intros [->|(c & I & C)]; [inversion E; auto|]. right. clear -A E I C. induction E as [|x y d d' H E IH]; [destruct I|].
      destruct I as [->|I].
      + exists y. split; [left; auto|]. apply (cl_keeps _ _ _ _ H s A C).
      + destruct (IH I) as (c' & I' & C'). exists c'. split; [right; auto|auto].
    - intros Q [->|(c & I & C)]; [inversion E; auto|]. right. clear -A E I C Q. induction E as [|x y d d' H E IH]; [destruct I|].
      destruct I as [->|I].
      + exists x. split; [left; auto|]. destruct (cl_extends _ _ _ _ H Q) as [X Y], C as [C1 C2].
        split; intros q K; auto.
      + destruct (IH I) as (c' & I' & C'). exists c'. split; [right; auto|auto].
  Qed.

  Lemma C64_applicable_lemma call o args st r st' s : calls p call o args -> declared objs (op_pre o) ->
    nondegenerate objs (bind_vars (op_params o) args no_env) (op_pre o) ->
    (forall n, In n (goal_preds (op_pre o)) -> ordinary objs n) -> reachable st ->
    normalize_preconditions L p call true st = Ok (r, st') -> accepted p s ->
    (is_valid_action p s call = Ok true -> meets s r) /\
    ((forall a, In a (pd_axioms p) -> quiet (pd_axioms p) (op_effs (ax_op a))) ->
       meets s r -> is_valid_action p s call = Ok true).
  Proof.
    intros C D N O R E A.
    destruct (C64_pre_axioms_lemma _ _ _ _ _ _ C D N R E) as (_ & r0 & E0 & Cl).
    destruct (calls_op _ _ _ C) as (Ep & Ln & Ia & Go & Wf). destruct A as [B A].
    unfold normalize_preconditions in E0. rewrite Ep in E0. cbn [bind] in E0.
    destruct (pre_ok (ordinary objs) o args Go Wf Ln Ia D O N) as [X|(r1 & X & Nr & Sat)]; rewrite X in E0; [discriminate|].
    cbn [bind] in E0. assert (r1 = r0) as -> by (destruct r1; cbn in E0; congruence).
    rewrite (action_holds s call o args B C), <- Sat, <- (sat_char s r0 B), (ordinary_meets s r0 B Nr).
    apply each_meets; auto. split; auto.
  Qed.

  Lemma C64_goal_met_lemma st r st' s : declared objs (pd_goal p) -> nondegenerate objs no_env (pd_goal p) ->
    (forall n, In n (goal_preds (pd_goal p)) -> ordinary objs n) -> reachable st ->
    normalize_goal L p true st = Ok (r, st') -> accepted p s ->
    (goal_holds p s = Ok true -> meets s r) /\
    ((forall a, In a (pd_axioms p) -> quiet (pd_axioms p) (op_effs (ax_op a))) ->
       meets s r -> goal_holds p s = Ok true).
  Proof.
    intros D N O R E A.
    destruct (C64_goal_axioms_lemma _ _ _ D N R E) as (_ & r0 & E0 & Cl). destruct A as [B A].
    unfold normalize_goal in E0.
    destruct (goal_ok (ordinary objs) D O N) as [X|(r1 & X & Nr & Sat)]; rewrite X in E0; [discriminate|].
    cbn [bind] in E0. assert (r1 = r0) as -> by (destruct r1; cbn in E0; congruence).
    rewrite (goal_iff s B), <- Sat, <- (sat_char s r0 B), (ordinary_meets s r0 B Nr).
    apply each_meets; auto. split; auto.
  Qed.
End Domain.
