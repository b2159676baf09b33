(** More lemmas behind C40-C42: listed calls, states given as text, histories. *)
From Coq Require Import Ascii String List Bool NArith ZArith Arith Lia.
From Verif.Model Require Import Base Object Proposition State ParameterGenerator Syntax Formula
  Effects Derived Consistency Text Pddl.
From Verif.Spec Require Import SetSpec TypingSpec FormulaSpec EffectSpec DerivedSpec TextSpec PddlSpec.
From Verif.Proofs Require Import HashSetFacts CombinationFacts ParameterFacts StateFacts StateHistory FormulaFacts EffectFacts
  EffectLink EffectTheorems DerivedFacts DerivedExamples TextFacts PddlFacts PddlTheorems.
Import ListNotations.
Local Open Scope string_scope.
Local Open Scope list_scope.

Lemma NoDup_flat_map {A B} (f : A -> list B) l : NoDup l -> (forall a, In a l -> NoDup (f a)) ->
  (forall a b x, In a l -> In b l -> In x (f a) -> In x (f b) -> a = b) -> NoDup (flat_map f l).
Proof.
  induction 1 as [|a l N _ IH]; intros F D; cbn; [constructor|].
  apply NoDup_app_intro.
  - apply F. left; auto.
  - apply IH; [intros; apply F; right; auto|]. intros b c x Ib Ic. apply D; right; auto.
  - intros x Ix Iy. apply in_flat_map in Iy as (b & Ib & Iy). assert (a = b) by (eapply D; eauto; [left|right]; auto).
    congruence.
Qed.

Lemma NoDup_map_on {A B} (f : A -> B) l : (forall a b, In a l -> In b l -> f a = f b -> a = b) ->
  NoDup l -> NoDup (map f l).
Proof.
  intros D N. induction N as [|a l Na N IH]; cbn; constructor.
  - intros I. apply in_map_iff in I as (b & E & I). assert (b = a) by (apply D; auto; [right|left]; auto). congruence.
  - apply IH. intros; apply D; auto; right; auto.
Qed.

Lemma typed_args_eq objects (ps : list object) xs ys : NoDup (map oname objects) ->
  well_typed objects ps xs -> forall qs, well_typed objects qs ys -> map oname xs = map oname ys -> xs = ys.
Proof.
  intros N W. revert ys. induction W as [|p x ps xs [H I] W IH]; intros ys qs W' E.
  - destruct ys; [auto|discriminate].
  - destruct W' as [|q y qs ys [H' I'] W']; [discriminate|]. cbn in E. injection E as E1 E2.
    f_equal; eauto. eapply object_eq; eauto.
Qed.

Section Domain.
  Context `{SH : StdHash} (L : limits) (p : pddl) (ar : string -> nat) (rank : nat -> nat) (drank : string -> nat).
  Context (G : good_domain L p ar rank drank).
  Notation objs := (pd_symbols p).
  Notation reachable := (reachable_store objs ar (pd_axioms p)).

  Definition listable (t : aset) (o : op) (args : list object) : Prop :=
    In o (pd_ops p) /\ op_is_axiom o = false /\ op_params o <> [] /\
    well_typed objs (op_params o) args /\ precondition p o args t.

  Lemma applicable_In t o args : In (o, args) (applicable p t) <-> listable t o args.
  Proof.
    unfold applicable, listable. rewrite in_flat_map. split.
    - intros (o' & I & J). apply filter_In in I as [I A]. apply in_map_iff in J as (a & [= -> ->] & J).
      apply filter_In in J as [J H]. apply negb_true_iff in A. apply precondition_b in H.
      destruct (op_params o) as [|v vs] eqn:E; [destruct J|]. apply tuples_In in J.
      split; auto. split; auto. split; [discriminate|auto].
    - intros (I & A & N & W & P). exists o. split; [apply filter_In; rewrite A; auto|].
      apply in_map_iff. exists args. split; auto. apply filter_In. rewrite <- (precondition_b p o args t). split; auto.
      destruct (op_params o); [congruence|]. apply tuples_In; auto.
  Qed.

  Context (Hcount : Forall (fun o => (tuple_count objs (op_params o) < 2 ^ 31)%Z) (pd_ops p)).

  Lemma applicable_NoDup t : NoDup (map op_name (pd_ops p)) -> NoDup (applicable p t).
  Proof.
    intros N. unfold applicable. apply NoDup_flat_map.
    - apply NoDup_filter. eapply NoDup_map_inv; eauto.
    - intros o _. apply NoDup_map_on; [congruence|]. apply NoDup_filter.
      destruct (op_params o) as [|v vs] eqn:E; [constructor|]. unfold tuples. apply NoDup_cart. apply Forall_map.
      apply Forall_forall. intros q _. unfold objects_of. apply NoDup_filter.
      apply (NoDup_map_inv oname), (gd_names _ _ _ _ _ G).
    - intros a b x _ _ I J. apply in_map_iff in I as (? & <- & _). apply in_map_iff in J as (? & [= -> _] & _). auto.
  Qed.

  Lemma C42_listed_lemma s t : represents s t -> exists l,
    list_valid_actions p s = Ok l /\
    forall x, In x l <-> exists o args, listable t o args /\ x = action_to_string o args.
  Proof.
    intros R. eexists. split; [apply (actions_listed L p ar rank drank G Hcount s t R)|].
    intros x. rewrite in_map_iff. split.
    - intros ([o args] & <- & I). apply applicable_In in I. eauto.
    - intros (o & args & H & ->). exists (o, args). split; auto. apply applicable_In; auto.
  Qed.

  Lemma C42_order_lemma s t : represents s t ->
    list_valid_actions p s = Ok (map (fun x => action_to_string (fst x) (snd x)) (applicable p t)).
  Proof. apply (actions_listed L p ar rank drank G Hcount). Qed.

  Lemma C42_arguments_lemma s t o : represents s t -> In o (pd_ops p) -> exists l,
    list_valid_arguments p s o = Ok l /\ NoDup l /\
    forall args, In args l <->
      op_params o <> [] /\ well_typed objs (op_params o) args /\ precondition p o args t.
  Proof.
    intros R I. eexists. split; [apply (arguments_listed L p ar rank drank G Hcount o s t I R)|]. split.
    - apply NoDup_filter. destruct (op_params o) as [|v vs] eqn:E; [constructor|]. unfold tuples. apply NoDup_cart.
      apply Forall_map. apply Forall_forall. intros q _. unfold objects_of. apply NoDup_filter.
      apply (NoDup_map_inv oname), (gd_names _ _ _ _ _ G).
    - intros args. rewrite filter_In, <- (precondition_b p o args t).
      destruct (op_params o) as [|v vs] eqn:E; [cbn; tauto|]. rewrite tuples_In. intuition discriminate.
  Qed.

  (** Names that can be read back. *)
  Context (Hwords : Forall word (map oname objs)) (Hops : Forall (fun o => free_of "("%char (op_name o)) (pd_ops p))
    (Nops : NoDup (map op_name (pd_ops p))).

  Lemma args_words ps args : well_typed objs ps args -> Forall word (map oname args).
  Proof.
    intros W. apply Forall_forall. intros w I. apply in_map_iff in I as (a & <- & I).
    rewrite Forall_forall in Hwords. apply Hwords. apply in_map. clear -W I.
    induction W as [|q x ps args [Hx Ix] W IH]; [destruct I|]. destruct I as [<-|I]; auto.
  Qed.

  Lemma listable_calls t o args : listable t o args -> calls p (action_to_string o args) o args.
  Proof.
    intros (I & _ & _ & W & _). apply parse_calls. unfold pd_parse. apply C17_print_lemma.
    - rewrite Forall_forall in Hops. auto.
    - eapply args_words; eauto.
    - apply first_named_unique; auto.
    - intros a Ia. apply first_named_unique; [apply (gd_names _ _ _ _ _ G)|]. clear -W Ia.
      induction W as [|q x ps args [Hx Ix] W IH]; [destruct Ia|]. destruct Ia as [<-|Ia]; auto.
    - clear -W. induction W as [|q x ps args [Hx Ix] W IH]; constructor; auto.
  Qed.

  Lemma action_valid_spec s t call : represents s t ->
    (is_valid_action p s call = Ok true <-> exists o args, calls p call o args /\ precondition p o args t) /\
    (is_valid_action p s call = Ok false <-> exists o args, calls p call o args /\ ~ precondition p o args t) /\
    (is_valid_action p s call = Ok true \/ is_valid_action p s call = Ok false \/
     is_valid_action p s call = Throw ERuntime \/ is_valid_action p s call = Throw EInvalidArgument).
  Proof.
    clear Hcount Hwords Hops Nops.
    intros R. unfold is_valid_action. destruct (parse_total p call) as [(o & args & E)|E].
    - pose proof (proj1 (parse_calls _ _ _ _) E) as C. destruct (calls_typed _ _ _ _ C) as [Io Wt].
      assert (U : forall o' args', calls p call o' args' -> o' = o /\ args' = args).
      { intros o' args' C'. apply parse_calls in C'. rewrite E in C'. injection C' as <- <-. auto. }
      rewrite E. cbn [bind].
      rewrite (valid_agree L p ar rank drank G o args s t Io (well_typed_length _ _ _ Wt) R).
      pose proof (precondition_b p o args t) as Pb.
      destruct (holdsb objs t (bind_vars (op_params o) args no_env) (op_pre o)); (split; [|split; [|auto]]).
      + split; auto. intros _. exists o, args. tauto.
      + split; [discriminate|]. intros (o' & args' & C' & K). destruct (U _ _ C') as [-> ->]. tauto.
      + split; [discriminate|]. intros (o' & args' & C' & K). destruct (U _ _ C') as [-> ->].
        apply Pb in K. discriminate.
      + split; auto. intros _. exists o, args. split; auto. intros K. apply Pb in K. discriminate.
    - assert (N : forall o args, ~ calls p call o args).
      { intros o args C. apply parse_calls in C. destruct E; congruence. }
      split; [|split; [|destruct E as [-> | ->]; auto]]; (split;
        [destruct E as [-> | ->]; discriminate|intros (o & args & C & _); destruct (N _ _ C)]).
  Qed.

  Lemma C42_accepted_lemma s t l : represents s t -> list_valid_actions p s = Ok l ->
    NoDup l /\
    (forall x, In x l -> is_valid_action p s x = Ok true) /\
    (forall x, is_valid_action p s x = Ok true -> exists o args, calls p x o args /\
       (op_is_axiom o = false -> op_params o <> [] -> In (action_to_string o args) l)).
  Proof.
    intros R E. pose proof (C42_order_lemma s t R) as E'. rewrite E in E'. injection E' as ->.
    split; [|split].
    - apply NoDup_map_on; [|apply applicable_NoDup; auto]. intros [o a] [o' a'] I I'. cbn [fst snd].
      apply applicable_In in I. apply applicable_In in I'. intros Q.
      pose proof (listable_calls _ _ _ I) as C. pose proof (listable_calls _ _ _ I') as C'.
      rewrite <- Q in C'. apply parse_calls in C. apply parse_calls in C'. congruence.
    - intros x I. apply in_map_iff in I as ([o a] & <- & I). apply applicable_In in I. cbn [fst snd].
      apply (action_valid_spec s t); auto. exists o, a. split; [eapply listable_calls; eauto|]. apply I.
    - intros x V. apply (action_valid_spec s t x R) in V as (o & a & C & P). exists o, a. split; auto.
      intros A N. apply in_map_iff. exists (o, a). split; auto. apply applicable_In.
      destruct (calls_typed _ _ _ _ C). split; auto.
  Qed.
End Domain.

(** ** States given as text *)
Section Text.
  Context `{SH : StdHash}.

  Lemma parse_prop_spec objects x q : parse_prop objects x = Ok q <->
    exists name ws args, call_text x name ws /\ Forall2 (first_named oname objects) ws args /\ q = mkProp name args.
  Proof.
    unfold parse_prop. split.
    - intros E. apply bind_Ok in E as (args & E & F). injection F as <-. apply parse_arguments_spec in E.
      exists (parse_head x), (tokenize x), args. split; auto. apply call_text_iff; auto.
    - intros (name & ws & args & T & F & ->). apply call_text_iff in T as [-> ->].
      apply parse_arguments_spec in F. rewrite F. reflexivity.
  Qed.
  Lemma parse_prop_else objects x : (exists q, parse_prop objects x = Ok q) \/ parse_prop objects x = Throw ERuntime.
  Proof. unfold parse_prop. destruct (parse_arguments_else objects x) as [[args ->]| ->]; cbn; eauto. Qed.

  Lemma named_all objects ws : (forall w, In w ws -> exists o, In o objects /\ oname o = w) ->
    exists args, Forall2 (first_named oname objects) ws args.
  Proof.
    induction ws as [|w ws IH]; intros H; [exists []; constructor|].
    destruct IH as [args Ha]; [intros; apply H; right; auto|].
    assert (X : exists o, first_named oname objects w o).
    { destruct (H w (or_introl eq_refl)) as (o & I & E). destruct (get_object_else objects w) as [[o' E']|E'].
      - exists o'. apply get_object_spec; auto.
      - exfalso. clear -I E E'. induction objects as [|y l IH]; [destruct I|]. cbn in E'.
        destruct (String.eqb_spec (oname y) w); [discriminate|]. destruct I as [->|I]; auto. }
    destruct X as [o X]. exists (o :: args). constructor; auto.
  Qed.
  Lemma named_keys objects ws args : Forall2 (first_named oname objects) ws args -> map oname args = ws.
  Proof. induction 1 as [|w a ws args H _ IH]; cbn; auto. f_equal; auto. apply (first_named_In _ _ _ _ H). Qed.

  Lemma spells_parse objects strs t : spells objects strs t ->
    exists s, parse_state objects strs = Ok s /\ represents s t.
  Proof.
    intros [D E]. destruct (parse_state_fold objects strs st_empty) as (s & P & B & A).
    - exists []. reflexivity.
    - intros x I. destruct (D x I) as (n & ws & T & N). destruct (named_all objects ws N) as [args F].
      eexists. apply parse_prop_spec. do 3 eexists. split; eauto.
    - exists s. split; auto. split; auto. intros a. rewrite A, E. split.
      + intros [(q & _ & C)|(x & q & I & Q & <-)];
          [exfalso; apply contains_mem in C; [destruct C|apply (built_wf _ (ex_intro _ [] eq_refl))]|].
        apply parse_prop_spec in Q as (n & ws & args & T & F & ->). exists x. split; auto. cbn.
        rewrite (named_keys _ _ _ F). auto.
      + intros (x & I & T). right. destruct (D x I) as (n & ws & T' & N).
        apply call_text_iff in T as T1. apply call_text_iff in T' as T2. destruct T1 as [E1 E2], T2 as [-> ->].
        destruct (named_all objects _ N) as [args F]. exists x, (mkProp (fst a) args). split; auto. split.
        * apply parse_prop_spec. exists (fst a), (snd a), args. split; auto. split; auto. rewrite E2. auto.
        * unfold prop_key. cbn. rewrite (named_keys _ _ _ F), <- E2. destruct a; reflexivity.
  Qed.

  Lemma parse_state_total objects strs :
    (exists s, parse_state objects strs = Ok s) \/ parse_state objects strs = Throw ERuntime.
  Proof.
    unfold parse_state. generalize st_empty. induction strs as [|x l IH]; intros s; cbn [foldM]; eauto.
    destruct (parse_prop_else objects x) as [[q E]|E]; rewrite E; cbn [bind]; auto.
  Qed.

  Lemma parse_state_else objects strs : (forall t, ~ spells objects strs t) -> parse_state objects strs = Throw ERuntime.
  Proof.
    intros N.
    assert (X : forall l, incl l strs -> forall s, built s ->
      (exists s', foldM (fun s str => let* p := parse_prop objects str in Ok (snd (st_insert p s))) l s = Ok s' /\
         forall x, In x l -> exists q, parse_prop objects x = Ok q) \/
      foldM (fun s str => let* p := parse_prop objects str in Ok (snd (st_insert p s))) l s = Throw ERuntime).
    { induction l as [|x l IH]; intros Il s B; cbn [foldM].
      - left. exists s. split; auto. intros x [].
      - destruct (parse_prop_else objects x) as [[q E]|E]; rewrite E; cbn [bind]; auto.
        destruct (IH (fun y I => Il y (or_intror I)) (snd (st_insert q s)) (built_run_from s [Ins q] B)) as [(s' & E' & H)|H]; auto.
        left. exists s'. split; auto. intros y [<-|I]; eauto. }
    destruct (X strs (incl_refl _) st_empty (ex_intro _ [] eq_refl)) as [(s & E & H)|E]; auto.
    exfalso.
    assert (B : built s /\ forall a, atoms s a <-> exists x, In x strs /\ call_text x (fst a) (snd a)).
    { destruct (parse_state_fold objects strs st_empty (ex_intro _ [] eq_refl) H) as (s' & E' & B & A).
      rewrite E in E'. injection E' as <-. split; auto. intros a. rewrite A. split.
      - intros [(q & _ & C)|(x & q & I & Q & <-)];
          [exfalso; apply contains_mem in C; [destruct C|apply (built_wf _ (ex_intro _ [] eq_refl))]|].
        apply parse_prop_spec in Q as (n & ws & args & T & F & ->). exists x. split; auto. cbn.
        rewrite (named_keys _ _ _ F). auto.
      - intros (x & I & T). right. destruct (H x I) as [q Q]. exists x, q. split; auto. split; auto.
        apply parse_prop_spec in Q as (n & ws & args & T' & F & ->).
        apply call_text_iff in T. apply call_text_iff in T'. destruct T as [E1 E2], T' as [-> ->].
        unfold prop_key. cbn. rewrite (named_keys _ _ _ F), <- E1, <- E2. destruct a; reflexivity. }
    destruct B as [B A]. apply (N (set_in s)). split.
    - intros x I. destruct (H x I) as [q Q]. apply parse_prop_spec in Q as (n & ws & args & T & F & _).
      exists n, ws. split; auto. intros w Iw. clear -F Iw. induction F as [|v a ws args Hv F IH]; [destruct Iw|]. destruct Iw as [<-|Iw]; auto.
      exists a. apply (first_named_In _ _ _ _ Hv).
    - intros a. rewrite <- A. destruct (set_in_represents s B) as [_ Hs]. rewrite Hs. tauto.
  Qed.
End Text.
