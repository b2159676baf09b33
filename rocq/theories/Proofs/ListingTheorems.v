(** C79, printing a Pddl. *)
From Coq Require Import Ascii String List Bool Arith Lia.
From Verif.Model Require Import Base Object Proposition State ParameterGenerator Syntax Effects Derived Text Pddl Print Listing.
From Verif.Spec Require Import TypingSpec TextSpec EffectSpec ConstructSpec ListingSpec.
From Verif.Proofs Require Import FormulaFacts EffectLink TextFacts PrintState ConstructTheorems ListingFacts.
Import ListNotations.
Local Open Scope string_scope.
Local Open Scope list_scope.
Local Infix "+++" := String.append (at level 60, right associativity).

(** ** Nothing else is shown *)
Lemma print_all_map {A B} (f : address -> A -> outcome string) (g : address -> B -> outcome string) (h : A -> B) l :
  (forall x ad, In x l -> f ad x = g ad (h x)) -> forall ad, print_all f ad l = print_all g ad (map h l).
Proof.
  induction l as [|x l IH]; intros H ad; cbn [print_all map]; auto.
  rewrite (H x) by (left; auto). destruct (g (here ad) (h x)); cbn [bind]; auto.
  rewrite IH by (intros; apply H; right; auto). reflexivity.
Qed.
Lemma type_shown t : type_of (firstn 1 t) = type_of t.
Proof. destruct t; reflexivity. Qed.
Lemma args_shown l : forall ad sep, print_args_loop ad sep l = print_args_loop ad sep (map shown_symbol l).
Proof.
  induction l as [|x l IH]; intros ad sep; cbn [print_args_loop map]; auto.
  cbn [shown_symbol otype oname]. rewrite type_shown. destruct (type_of (otype x)); cbn [bind]; auto. rewrite IH. reflexivity.
Qed.
Lemma print_args_shown ad l : print_args ad l = print_args ad (map shown_symbol l).
Proof. unfold print_args. rewrite args_shown. reflexivity. Qed.
Lemma goal_shown g : forall d ad, print_goal d ad g = print_goal d ad (shown_goal g).
Proof.
  unfold shown_goal.
  induction g as [n l|gs IH|gs IH|g IH|vs g IH|vs g IH|] using goal_ind'; intros d ad; cbn [print_goal map_goal]; auto.
  - rewrite print_args_shown. reflexivity.
  - rewrite Forall_forall in IH. rewrite (print_all_map _ (print_goal (S d)) (map_goal shown_symbol)); auto.
  - rewrite Forall_forall in IH. rewrite (print_all_map _ (print_goal (S d)) (map_goal shown_symbol)); auto.
  - rewrite IH. reflexivity.
  - rewrite print_args_shown. destruct (print_args (here ad) (map shown_symbol vs)); cbn [bind]; auto. rewrite IH. reflexivity.
  - rewrite print_args_shown. destruct (print_args (here ad) (map shown_symbol vs)); cbn [bind]; auto. rewrite IH. reflexivity.
Qed.
Lemma literal_shown d s ad p : print_literal d s ad p = print_literal d s ad (mkProp (pname p) (map shown_symbol (pargs p))).
Proof. unfold print_literal. cbn [pname pargs]. rewrite print_args_shown. reflexivity. Qed.
Lemma effs_shown e : forall d ad, print_effs d ad e = print_effs d ad (shown_effs e).
Proof.
  unfold shown_effs. induction e as [fs adds dels cs IHf IHc] using effs_ind'. intros d ad. cbn [map_effs]. rewrite !print_effs_eq.
  rewrite (print_all_map _ (print_literal d "(+)") (fun p => mkProp (pname p) (map shown_symbol (pargs p))) adds)
    by (intros; apply literal_shown).
  rewrite (print_all_map _ (print_literal d "(-)") (fun p => mkProp (pname p) (map shown_symbol (pargs p))) dels)
    by (intros; apply literal_shown).
  rewrite (print_all_map _ (forall_text d) (fun x => (map shown_symbol (fst x), map_effs shown_symbol (snd x))) fs).
  2:{ intros [vs b] ad' I. cbn [fst snd]. unfold forall_text. rewrite print_args_shown.
      destruct (print_args (here ad') (map shown_symbol vs)); cbn [bind]; auto. rewrite (IHf vs b I). reflexivity. }
  rewrite (print_all_map _ (when_text d) (fun c => (map_goal shown_symbol (fst c), map_effs shown_symbol (snd c))) cs).
  2:{ intros [g b] ad' I. cbn [fst snd]. unfold when_text. rewrite goal_shown. unfold shown_goal.
      destruct (print_goal (S d) (here ad') (map_goal shown_symbol g)); cbn [bind]; auto. rewrite (IHc g b I). reflexivity. }
  reflexivity.
Qed.
Lemma domain_shown ad d : print_domain ad d = print_domain ad (shown_domain d).
Proof.
  unfold print_domain, shown_domain. cbn [vd_name vd_reqs vd_types vd_constants vd_predicates vd_ops].
  rewrite (print_all_map _ print_type (firstn 2) (vd_types d)) by (intros [|n [|m t]] ? _; reflexivity).
  rewrite (print_all_map _ print_constant shown_symbol (vd_constants d))
    by (intros x ? _; unfold print_constant; cbn [shown_symbol otype oname]; rewrite type_shown; reflexivity).
  rewrite (print_all_map _ print_predicate (fun p => (fst p, map shown_symbol (snd p))) (vd_predicates d))
    by (intros [n l] ? _; unfold print_predicate; cbn [fst snd]; rewrite print_args_shown; reflexivity).
  rewrite (print_all_map _ print_op shown_op (vd_ops d)); [reflexivity|].
  intros o ad' _. unfold print_op. cbn [shown_op op_name op_params op_pre op_effs].
  rewrite print_args_shown, goal_shown, effs_shown. reflexivity.
Qed.
Lemma problem_shown ad p : print_problem ad p = print_problem ad (shown_problem p).
Proof.
  unfold print_problem, shown_problem. cbn [vp_name vp_domain vp_reqs vp_objects vp_init vp_goal].
  rewrite (print_all_map _ print_constant shown_symbol (vp_objects p))
    by (intros x ? _; unfold print_constant; cbn [shown_symbol otype oname]; rewrite type_shown; reflexivity).
  rewrite goal_shown, effs_shown. reflexivity.
Qed.

(** ** C79 *)
Lemma C79_outcome_lemma ad d p :
  ((exists t, print_pddl ad d p = Ok t) <-> typed_domain d /\ Forall understood (domain_goals d)) /\
  (print_pddl ad d p = UB -> ~ typed_domain d) /\
  (print_pddl ad d p = Throw ERuntime -> ~ Forall understood (domain_goals d)) /\
  ((exists t, print_pddl ad d p = Ok t) \/ print_pddl ad d p = UB \/ print_pddl ad d p = Throw ERuntime).
Proof.
  unfold print_pddl. rewrite Forall_forall.
  destruct (domain_verdict ad d) as [(t & E & A & B)|[(E & A)|(E & A)]]; unfold all_understood in *; rewrite E; cbn [bind].
  - split; [|split; [|split]]; try discriminate; [split; auto; eauto|left; eauto].
  - split; [|split; [|split]]; try discriminate; auto. split; [intros [t Q]; discriminate|tauto].
  - split; [|split; [|split]]; try discriminate; auto. split; [intros [t Q]; discriminate|tauto].
Qed.
Lemma C79_problem_outcome_lemma ad p :
  ((exists t, print_problem ad p = Ok t) <-> typed (problem_symbols p) /\ Forall understood (problem_goals p)) /\
  (print_problem ad p = UB -> ~ typed (problem_symbols p)) /\
  (print_problem ad p = Throw ERuntime -> ~ Forall understood (problem_goals p)) /\
  ((exists t, print_problem ad p = Ok t) \/ print_problem ad p = UB \/ print_problem ad p = Throw ERuntime).
Proof.
  rewrite Forall_forall.
  destruct (problem_verdict ad p) as [(t & E & A & B)|[(E & A)|(E & A)]]; unfold all_understood in *; rewrite E.
  - split; [|split; [|split]]; try discriminate; [split; auto; eauto|left; eauto].
  - split; [|split; [|split]]; try discriminate; auto. split; [intros [t Q]; discriminate|tauto].
  - split; [|split; [|split]]; try discriminate; auto. split; [intros [t Q]; discriminate|tauto].
Qed.

Lemma C79_readable_lemma d d' p p' ad ad' t t' : plain_domain d -> plain_domain d' ->
  plain_addresses ad -> plain_addresses ad' -> print_pddl ad d p = Ok t -> print_pddl ad' d' p' = Ok t' ->
  t = t' -> shown_domain d = shown_domain d'.
Proof.
  intros P P' A A' E E' Q. unfold print_pddl in E, E'.
  destruct (print_domain ad d) as [u| | | |] eqn:X; cbn [bind] in E; try discriminate. apply Ok_inj in E. subst t.
  destruct (print_domain ad' d') as [u'| | | |] eqn:X'; cbn [bind] in E'; try discriminate. apply Ok_inj in E'. subst t'.
  eapply (domain_reads d d' ad ad' u u'); [..|exact Q]; auto; reflexivity.
Qed.
Lemma C79_hidden_lemma d d' p p' ad : shown_domain d = shown_domain d' -> print_pddl ad d p = print_pddl ad d' p'.
Proof. intros E. unfold print_pddl. rewrite (domain_shown ad d), (domain_shown ad d'), E. reflexivity. Qed.

Lemma C79_problem_lemma p p' ad ad' t t' : plain_problem p -> plain_problem p' ->
  plain_addresses ad -> plain_addresses ad' -> print_problem ad p = Ok t -> print_problem ad' p' = Ok t' ->
  t = t' -> shown_problem p = shown_problem p'.
Proof. apply problem_reads. Qed.
Lemma C79_problem_hidden_lemma p p' ad : shown_problem p = shown_problem p' -> print_problem ad p = print_problem ad p'.
Proof. intros E. rewrite (problem_shown ad p), (problem_shown ad p'), E. reflexivity. Qed.

(** ** Whatever could be made into a Pddl *)
Lemma understood_map f g : understood (map_goal f g) -> understood g.
Proof.
  intros H O. apply H. clear H. remember GOther as h eqn:Eh. induction O; subst; cbn [map_goal]; try (econstructor; eauto; fail).
  - eapply oc_conj; [apply in_map; eauto|auto].
  - eapply oc_disj; [apply in_map; eauto|auto].
Qed.
Lemma conds_map f e : forall g, In g (eff_conds e) -> In (map_goal f g) (eff_conds (map_effs f e)).
Proof.
  induction e as [fs adds dels cs IHf IHc] using effs_ind'. intros g. cbn [eff_conds map_effs]. rewrite !in_app_iff, !in_flat_map.
  intros [([vs b] & I & K)|([h b] & I & K)].
  - left. exists (map f vs, map_effs f b). split; [apply in_map_iff; exists (vs, b); auto|]. apply (IHf vs b I). exact K.
  - right. exists (map_goal f h, map_effs f b). split; [apply in_map_iff; exists (h, b); auto|]. cbn [fst snd] in *.
    destruct K as [-> |K]; [left; auto|right]. apply (IHc h b I). exact K.
Qed.
Section WithHash.
  Context `{SH : StdHash}.
  Lemma C79_made_lemma L constants objects f d p ds init g aa q st ad :
    Forall (fun o => wf_type (otype o)) (constants ++ objects) ->
    make_pddl L constants objects (map (map_op f) (vd_ops d)) ds init g aa = Ok (q, st) ->
    (typed_domain d -> exists t, print_pddl ad d p = Ok t) /\ (~ typed_domain d -> print_pddl ad d p = UB).
  Proof.
    intros W M. destruct (C78_made_lemma L _ _ _ _ _ _ _ _ _ W M) as (U & _).
    assert (K : Forall understood (domain_goals d)).
    { rewrite Forall_forall in *. intros h I. unfold domain_goals in I. apply in_flat_map in I. destruct I as (o & Io & I).
      apply (understood_map f), U. unfold formulas. apply in_app_iff. left. apply in_flat_map. exists (map_op f o).
      split; [apply in_map; auto|]. unfold op_formulas in *. cbn [map_op op_pre op_effs]. destruct I as [<-|I]; [left; auto|right].
      apply conds_map; auto. }
    destruct (C79_outcome_lemma ad d p) as (O1 & O2 & O3 & O4). split.
    - intros T. apply O1. auto.
    - intros T. destruct O4 as [X|[X|X]]; auto; [apply O1 in X; tauto|]. apply O3 in X. tauto.
  Qed.
End WithHash.
