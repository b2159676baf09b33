(** Operators without parameters. *)
From Coq Require Import Ascii String List Bool NArith ZArith Arith Lia.
From Verif.Model Require Import Base Object Proposition State ParameterGenerator Syntax Formula
  Effects Derived Consistency Text Pddl Planner.
From Verif.Spec Require Import SetSpec TypingSpec FormulaSpec EffectSpec DerivedSpec TextSpec AxiomSpec PddlSpec
  PlannerSpec.
From Verif.Proofs Require Import StateFacts StateHistory ParameterFacts TextFacts EffectTheorems DerivedFacts PddlFacts
  PddlTheorems PddlListing PlannerFacts PlannerTheorems.
Import ListNotations.
Local Open Scope string_scope.
Local Open Scope list_scope.

Lemma tuples_none om : var_tuples om [] = Ok [].
Proof. destruct (param_gen_none om) as (g & E & L). unfold var_tuples. rewrite E. exact L. Qed.

Section WithHash.
  Context `{SH : StdHash}.

  (** *** Calls *)
  Section Domain.
    Context (L : limits) (p : pddl) (ar : string -> nat) (rank : nat -> nat) (drank : string -> nat).
    Context (G : good_domain L p ar rank drank).
    Context (o : op) (Io : In o (pd_ops p)) (No : NoDup (map op_name (pd_ops p)))
      (Fo : free_of "("%char (op_name o)) (Po : op_params o = []).
    Notation call := (op_name o ++ "()")%string.

    Lemma null_calls o' args : calls p call o' args <-> o' = o /\ args = [].
    Proof.
      assert (E : pd_parse p call = Ok (o, [])).
      { unfold pd_parse. change call with (action_to_string o []). apply C17_print_lemma; auto.
        - constructor.
        - apply first_named_unique; auto.
        - intros a [].
        - rewrite Po. constructor. }
      rewrite <- parse_calls, E. split; [intros [= <- <-]; auto|intros [-> ->]; auto].
    Qed.

    Lemma null_called s st t : reachable_store (pd_symbols p) ar (pd_axioms p) st -> represents s t ->
      (is_valid_action p s call = Ok true <-> precondition p o [] t) /\
      (is_valid_action p s call = Ok false <-> ~ precondition p o [] t) /\
      (forall t', results_in L p o [] t t' ->
         exists s' st', next_state L p call (s, st) = Ok (s', st') /\ represents s' t') /\
      (forall s' st', next_state L p call (s, st) = Ok (s', st') ->
         exists t', results_in L p o [] t t' /\ represents s' t').
    Proof.
      intros Rs R. pose proof null_calls as NC. split; [|split; [|split]].
      - rewrite (proj1 (action_valid_spec L p ar rank drank G s t call R)). split.
        + intros (o' & args & C & H). apply NC in C as [-> ->]. auto.
        + intros H. exists o, []. split; auto. apply NC. auto.
      - rewrite (proj1 (proj2 (action_valid_spec L p ar rank drank G s t call R))). split.
        + intros (o' & args & C & H). apply NC in C as [-> ->]. auto.
        + intros H. exists o, []. split; auto. apply NC. auto.
      - intros t' H. assert (C : calls p call o []) by (apply NC; auto).
        destruct (next_ok L p ar rank drank G call s st t Rs R) as [(o' & a' & s' & st' & E & C' & _ & _ & _ & U)|[_ N]].
        + exists s', st'. split; auto. apply (U o [] t' C H).
        + destruct (N _ _ _ C H).
      - intros s' st' E.
        destruct (next_ok L p ar rank drank G call s st t Rs R) as [(o' & a' & s1 & st1 & E' & C' & _ & B & Re & _)|[[N|N] _]];
          try congruence. rewrite E in E'. injection E' as <- <-. apply NC in C' as [-> ->].
        exists (set_in s'). split; auto. apply set_in_represents; auto.
    Qed.
  End Domain.

  (** *** Never listed *)
  Lemma null_arguments p s o : op_params o = [] -> list_valid_arguments p s o = Ok [].
  Proof. intros E. unfold list_valid_arguments. rewrite E, tuples_none. reflexivity. Qed.

  Lemma null_list p s l : list_valid_actions p s = Ok l -> forall x, In x l ->
    exists o args, In o (pd_actions p) /\ op_params o <> [] /\ x = action_to_string o args.
  Proof.
    unfold list_valid_actions. enough (H : forall os acc l, (forall o, In o os -> In o (pd_actions p)) ->
      foldM (fun acc o => let* l := list_valid_arguments p s o in Ok (acc ++ map (action_to_string o) l)) os acc = Ok l ->
      forall x, In x l -> In x acc \/ exists o args, In o (pd_actions p) /\ op_params o <> [] /\ x = action_to_string o args).
    { intros E x I. destruct (H _ _ _ (fun o I => I) E x I) as [[]|Q]; auto. }
    clear. induction os as [|o os IH]; intros acc l S E x I.
    - injection E as <-. auto.
    - cbn [foldM] in E. destruct (list_valid_arguments p s o) as [m| | | |] eqn:M; try discriminate. cbn [bind] in E.
      destruct (IH _ _ (fun o' I' => S o' (or_intror I')) E x I) as [J|J]; auto.
      apply in_app_iff in J as [J|J]; auto. apply in_map_iff in J as (args & <- & J). right. exists o, args.
      split; [apply S; left; auto|]. split; auto. intros N. rewrite (null_arguments p s o N) in M.
      injection M as <-. destruct J.
  Qed.

  (** *** Never planned with *)
  Lemma null_children L p ar rank drank : good_domain L p ar rank drank ->
    Forall (fun o => (tuple_count (pd_symbols p) (op_params o) < 2 ^ 31)%Z) (pd_ops p) -> pd_actions p <> [] ->
    exists K0, forall K n st cs st', K0 <= K -> built (nd_state n) -> Forall built (nd_ancestors n) ->
    reachable_store (pd_symbols p) ar (pd_axioms p) st -> node_children L p K n st = Ok (cs, st') ->
    forall c, In c cs -> exists o args, In o (pd_ops p) /\ op_params o <> [] /\ nd_action c = action_to_string o args.
  Proof.
    intros G H N. destruct (C43_lemma L p ar rank drank G H N) as (K0 & X). exists K0.
    intros K n st cs st' LK B Ba Rs E c I. pose proof (set_in_represents _ B) as R.
    destruct (X K n st _ LK B Ba R Rs) as [(cs' & st2 & E' & _ & S)|[E' _]]; [|congruence].
    rewrite E in E'. injection E' as <- <-.
    enough (Q : exists o args, In (o, args) (applicable p (set_in (nd_state n))) /\ nd_action c = action_to_string o args).
    { destruct Q as (o & args & J & A). exists o, args. apply applicable_In in J as (J1 & _ & J2 & _). auto. }
    clear -S I. induction S as [|o args r t' cs Re Kn S IH|o args r t' d cs Re Kn Rd A D F S IH].
    - destruct I.
    - destruct (IH I) as (o' & a' & J & Q). exists o', a'. split; auto. right. auto.
    - destruct I as [<-|I].
      + exists o, args. split; auto. left. auto.
      + destruct (IH I) as (o' & a' & J & Q). exists o', a'. split; auto. right. auto.
  Qed.

  (** *** Never derived *)
  Section Derived.
    Context (om : object_map) (x : string).
    Definition same (s s' : state) : Prop := st_wf s' /\ (atoms s' (x, []) <-> atoms s (x, [])).

    Lemma step_same d b s args acc : st_wf s -> dp_name d <> x ->
      derived_step om d (b, s) args = Ok acc -> same s (snd acc).
    Proof.
      intros W N E. unfold derived_step in E. cbn [fst snd] in E.
      destruct (eval_state om s (dp_body d) (dp_params d) args) as [v| | | |]; try discriminate. cbn [bind] in E.
      destruct v.
      - pose proof (atoms_exec s (Ins (mkProp (dp_name d) args)) (x, []) W) as A.
        destruct (insert_spec (mkProp (dp_name d) args) s W) as (W' & _).
        cbn in A. destruct (st_insert (mkProp (dp_name d) args) s) as [c s'] eqn:Q. cbn [fst snd] in *. injection E as <-. cbn [snd].
        split; auto. rewrite A. unfold prop_key. cbn. split; auto. intros [J|J]; auto. congruence.
      - pose proof (atoms_exec s (Del (mkProp (dp_name d) args)) (x, []) W) as A.
        destruct (erase_spec (mkProp (dp_name d) args) s W) as (W' & _).
        cbn in A. destruct (st_erase (mkProp (dp_name d) args) s) as [c s'] eqn:Q. cbn [fst snd] in *. injection E as <-. cbn [snd].
        split; auto. rewrite A. unfold prop_key. cbn. split; [tauto|]. intros J. split; auto. congruence.
    Qed.

    Lemma pass_same d s c s' : st_wf s -> (dp_name d = x -> dp_params d = []) ->
      derived_pass om d s = Ok (c, s') -> same s s'.
    Proof.
      intros W H E. unfold derived_pass in E. destruct (string_dec (dp_name d) x) as [Q|Q].
      - rewrite (H Q), tuples_none in E. cbn in E. injection E as <- <-. split; [auto|tauto].
      - destruct (var_tuples om (dp_params d)) as [ts| | | |]; try discriminate. cbn [bind] in E.
        revert E. generalize false. revert s W. induction ts as [|t ts IH]; intros s W b E.
        + injection E as <- <-. split; [auto|tauto].
        + cbn [foldM] in E. destruct (derived_step om d (b, s) t) as [[b1 s1]| | | |] eqn:E1; try discriminate.
          apply step_same in E1 as [W1 A1]; auto. cbn [snd bind] in *. apply IH in E as [W2 A2]; auto.
          split; auto. rewrite A2. auto.
    Qed.

    Lemma apply_same fuel d : forall s c s', st_wf s -> (dp_name d = x -> dp_params d = []) ->
      derived_apply om fuel d s = Ok (c, s') -> same s s'.
    Proof.
      induction fuel as [|n IH]; intros s c s' W H E; [discriminate|]. cbn [derived_apply] in E.
      destruct (derived_pass om d s) as [[c1 s1]| | | |] eqn:E1; try discriminate. cbn [bind] in E.
      apply pass_same in E1 as [W1 A1]; auto. destruct c1.
      - destruct (derived_apply om n d s1) as [[c2 s2]| | | |] eqn:E2; try discriminate. injection E as <- <-.
        apply IH in E2 as [W2 A2]; auto. split; auto. rewrite A2. auto.
      - injection E as <- <-. split; auto.
    Qed.

    Lemma round_same fuel ds : (forall d, In d ds -> dp_name d = x -> dp_params d = []) -> forall s c s', st_wf s ->
      derived_round om fuel ds s = Ok (c, s') -> same s s'.
    Proof.
      unfold derived_round. intros H s c s' W E. revert E. generalize false. revert s W.
      induction ds as [|d ds IH]; intros s W b E.
      - injection E as <- <-. split; [auto|tauto].
      - cbn [foldM] in E. cbn [fst snd] in E.
        destruct (derived_apply om fuel d s) as [[c1 s1]| | | |] eqn:E1; try discriminate. cbn [bind] in E.
        apply apply_same in E1 as [W1 A1]; auto; [|apply H; left; auto].
        apply IH in E as [W2 A2]; auto; [|intros; apply H; auto; right; auto]. split; auto. rewrite A2. auto.
    Qed.

    Lemma all_same inner outer ds : (forall d, In d ds -> dp_name d = x -> dp_params d = []) -> forall s c s', st_wf s ->
      derived_all om inner outer ds s = Ok (c, s') -> same s s'.
    Proof.
      intros H. induction outer as [|n IH]; intros s c s' W E; [discriminate|]. cbn [derived_all] in E.
      destruct (derived_round om inner ds s) as [[c1 s1]| | | |] eqn:E1; try discriminate. cbn [bind] in E.
      apply round_same in E1 as [W1 A1]; auto. destruct c1.
      - destruct (derived_all om inner n ds s1) as [[c2 s2]| | | |] eqn:E2; try discriminate. injection E as <- <-.
        apply IH in E2 as [W2 A2]; auto. split; auto. rewrite A2. auto.
      - injection E as <- <-. split; auto.
    Qed.
  End Derived.

  Lemma null_derived om inner outer ds x : (forall d, In d ds -> dp_name d = x -> dp_params d = []) ->
    forall s s', built s -> derived_state om inner outer ds s = Ok s' -> (atoms s' (x, []) <-> atoms s (x, [])).
  Proof.
    intros H s s' B E. unfold derived_state in E. apply built_wf in B.
    destruct (derived_all om inner outer ds s) as [[c s1]| | | |] eqn:E1; try discriminate. injection E as <-.
    apply (all_same om x inner outer ds H s c s1 B E1).
  Qed.

  (** *** Axioms never checked *)
  Lemma null_axiom om axioms fuel i a s st : op_params (ax_op a) = [] ->
    is_consistent om axioms fuel i a s st = Ok (Some st).
  Proof.
    intros E. unfold is_consistent, prepare_arguments. rewrite E, tuples_none. reflexivity.
  Qed.
End WithHash.
