(** Constructing, printing and pickling a Pddl. *)
From Coq Require Import Ascii String List Bool NArith ZArith Arith Lia.
From Verif.Model Require Import Base Object Proposition State ParameterGenerator Syntax Formula
  Effects Derived Consistency Construct Text Pddl Objects Problem Load.
From Verif.Spec Require Import TextSpec LoadSpec.
From Verif.Proofs Require Import TextFacts ProblemFacts ConstructFacts.
Import ListNotations.
Local Open Scope string_scope.
Local Open Scope list_scope.
Local Infix "+++" := String.append (at level 60, right associativity).

(** *** Text or file *)

Lemma load_blank_spec c : load_blank c = true <-> In c [" "; "009"; "010"; "013"]%char.
Proof.
  unfold load_blank. rewrite existsb_exists. split.
  - intros (d & I & E). apply Ascii.eqb_eq in E. congruence.
  - intros I. exists c. split; auto. apply Ascii.eqb_refl.
Qed.

Lemma last_solid_blank v : (forall c, In c (chars v) -> load_blank c = true) <-> last_solid v = None.
Proof.
  induction v as [|c v IH]; unfold chars in *; cbn [last_solid list_ascii_of_string In].
  - split; [reflexivity|intros _ c C; destruct C].
  - split.
    + intros H. rewrite (proj1 IH) by (intros d I; apply H; right; auto).
      rewrite (H c) by (left; auto). reflexivity.
    + destruct (last_solid v) eqn:E; [intros X; discriminate X|].
      destruct (load_blank c) eqn:B; [|intros X; discriminate X].
      intros _ d [<-|I]; auto. apply (proj2 IH eq_refl d I).
Qed.

Lemma last_solid_app u v : last_solid (u +++ v) =
  match last_solid v with Some c => Some c | None => last_solid u end.
Proof.
  induction u as [|c u IH]; cbn [append last_solid].
  - destruct (last_solid v); auto.
  - rewrite IH. destruct (last_solid v); auto.
Qed.

Lemma last_solid_some s c : last_solid s = Some c ->
  exists u v, s = u +++ String c v /\ load_blank c = false /\ last_solid v = None.
Proof.
  induction s as [|d s IH]; cbn [last_solid]; [discriminate|].
  destruct (last_solid s) as [e|] eqn:E.
  - intros H. injection H as ->. destruct (IH eq_refl) as (u & v & -> & B & N).
    exists (String d u), v. auto.
  - destruct (load_blank d) eqn:B; [discriminate|]. intros H. injection H as ->.
    exists "", s. auto.
Qed.

Lemma source_spec p :
  (ends_with_paren p -> problem_source p = FromText p) /\
  (~ ends_with_paren p -> problem_source p = FromFile p).
Proof.
  unfold problem_source. split.
  - intros (u & v & -> & B). rewrite last_solid_app.
    assert (E : last_solid (")" +++ v) = Some ")"%char).
    { cbn. rewrite (proj1 (last_solid_blank v)); auto.
      intros c I. apply load_blank_spec; auto. }
    rewrite E. reflexivity.
  - intros N. destruct (last_solid p) as [c|] eqn:E; auto.
    destruct (Ascii.eqb_spec c ")") as [->|]; auto. exfalso. apply N.
    apply last_solid_some in E as (u & v & -> & _ & V). exists u, v. split; auto.
    intros d I. apply load_blank_spec. apply (proj2 (last_solid_blank v) V d I).
Qed.

Lemma source_iff p :
  (problem_source p = FromText p <-> ends_with_paren p) /\
  (problem_source p = FromFile p <-> ~ ends_with_paren p).
Proof.
  destruct (source_spec p) as [H1 H2].
  assert (D : ends_with_paren p \/ ~ ends_with_paren p).
  { unfold problem_source in H1, H2. destruct (last_solid p) as [c|] eqn:E.
    - destruct (Ascii.eqb_spec c ")") as [->|N].
      + left. apply last_solid_some in E as (u & v & -> & _ & V). exists u, v. split; auto.
        intros d I. apply load_blank_spec. apply (proj2 (last_solid_blank v) V d I).
      + right. intros C. specialize (H1 C). discriminate.
    - right. intros C. specialize (H1 C). discriminate. }
  split; split; auto; intros H; destruct D as [D|D]; auto.
  - rewrite (H2 D) in H. discriminate.
  - rewrite (H1 D) in H. discriminate.
Qed.

(** Text made by problem.py *)
Lemma tail_app t x s : (exists u, s = u +++ t) -> exists u, x +++ s = u +++ t.
Proof.
  intros (u & ->). exists (x +++ u). induction x as [|c x IH]; cbn; auto. rewrite IH. reflexivity.
Qed.

Lemma problem_text_end b : exists u, problem_text b = u +++ ")" +++ newline.
Proof.
  unfold problem_text, definition_of, group, group_items. cbn [pprint fold_right].
  rewrite app_nil_s. do 3 apply tail_app. exists "". reflexivity.
Qed.

Lemma problem_text_source b : problem_source (problem_text b) = FromText (problem_text b).
Proof.
  apply source_spec. destruct (problem_text_end b) as (u & ->). exists u, newline. split; auto.
  intros c [<-|[]]. cbn. auto.
Qed.

(** *** Printing *)

Lemma strip_app p s : strip p (p +++ s) = Some s.
Proof. induction p as [|c p IH]; cbn; auto. rewrite Ascii.eqb_refl. auto. Qed.

Lemma read_literal_plain s r : plain s -> read_literal (s +++ String "'" r) = Some (s, r).
Proof.
  induction s as [|c s IH]; intros P; cbn [append read_literal]; auto.
  assert (Pc : plain_char c = true) by (apply P; left; auto).
  assert (Ascii.eqb c "'" = false) as ->.
  { destruct (Ascii.eqb_spec c "'") as [->|]; auto; discriminate. }
  rewrite Pc, IH; auto. intros d I. apply P. right; auto.
Qed.

Lemma read_literal_line s r : In "010"%char (chars s) -> free_of "'" s -> read_literal (s +++ r) = None.
Proof.
  induction s as [|c s IH]; intros I F; [destruct I|]. cbn [append read_literal].
  destruct (Ascii.eqb_spec c "'") as [->|N]; [exfalso; apply F; left; auto|].
  destruct I as [E|I]; [rewrite E; reflexivity|].
  destruct (plain_char c); auto. rewrite IH; auto. intros C. apply F. right; auto.
Qed.

Lemma read_call_spec l : plain (ld_domain l) -> plain (ld_problem l) ->
  read_call (ld_repr l) = Some (ld_domain l, ld_problem l).
Proof.
  intros P1 P2. unfold read_call, ld_repr. rewrite strip_app.
  change ("', '" +++ ld_problem l +++ "')") with (String "'" (", '" +++ ld_problem l +++ "')")).
  rewrite read_literal_plain by auto. rewrite strip_app.
  change "')" with (String "'" ")"). rewrite read_literal_plain by auto. reflexivity.
Qed.

Lemma read_call_text l b : plain (ld_domain l) -> ld_problem l = problem_text b ->
  free_of "'" (problem_text b) -> read_call (ld_repr l) = None.
Proof.
  intros P1 E F. unfold read_call, ld_repr. rewrite strip_app.
  change ("', '" +++ ld_problem l +++ "')") with (String "'" (", '" +++ ld_problem l +++ "')")).
  rewrite read_literal_plain by auto. rewrite strip_app. rewrite E.
  rewrite read_literal_line; auto. destruct (problem_text_end b) as (u & ->).
  rewrite !chars_app, !in_app_iff. right; right. left; auto.
Qed.

(** *** Loading and pickling *)

Section WithHash.
  Context `{SH : StdHash}.
  Variable domain_in : string -> option domain_syntax.
  Variable problem_in : domain_syntax -> source -> option problem_syntax.
  Variable L : limits.
  Notation load := (load domain_in problem_in L).
  Notation load_domain := (load_domain domain_in problem_in L).
  Notation unpickle := (unpickle domain_in problem_in L).

  Lemma bind_ok {A B} (x : outcome A) (f : A -> outcome B) b :
    bind x f = Ok b -> exists a, x = Ok a /\ f a = Ok b.
  Proof. destruct x; cbn; try discriminate. eauto. Qed.

  Lemma load_fields d p aa l st : load d p aa = Ok (l, st) ->
    ld_domain l = d /\ ld_problem l = p /\ p <> "" /\ ld_has_problem l = true.
  Proof.
    unfold Load.load, parse_pddl. intros H. apply bind_ok in H as ((ds & ob) & E & H).
    destruct (domain_in d); [|discriminate]. destruct (String.eqb_spec p "").
    - injection E as <- <-. discriminate.
    - destruct (problem_in _ _); [|discriminate]. injection E as <- <-.
      apply bind_ok in H as ((q & st') & _ & H). injection H as <- <-. auto.
  Qed.

  Lemma pickle_same d p l st : load d p true = Ok (l, st) -> unpickle (pickle l) = Ok (l, st).
  Proof.
    intros H. destruct (load_fields _ _ _ _ _ H) as (E1 & E2 & _). unfold Load.unpickle, pickle.
    cbn [fst snd]. rewrite E1, E2. exact H.
  Qed.

  Lemma pickle_axioms d p l st : load d p false = Ok (l, st) ->
    unpickle (pickle l) =
    let* ' (s, st') := consistent_state (pd_om (ld_pddl l)) (pd_axioms (ld_pddl l)) (l_cascade L) (l_rounds L)
                         (pd_init (ld_pddl l), no_store) in
    Ok (ld_set_initial s l, st').
  Proof.
    intros H. destruct (load_fields _ _ _ _ _ H) as (E1 & E2 & N & _). unfold Load.unpickle, pickle.
    cbn [fst snd]. rewrite E1, E2. revert H. unfold Load.load, make_pddl, make_from. intros H.
    destruct (parse_pddl domain_in problem_in d p) as [(ds & ob)| | | |]; try discriminate.
    cbn [bind] in *. destruct ob as [b|]; [|discriminate].
    destruct (build _ (ds_ops ds) (ds_derived ds) _) as [ax| | | |]; try discriminate.
    cbn [bind] in *. injection H as <- <-. cbn.
    destruct (consistent_state _ _ _ _ _) as [(s & st')| | | |]; reflexivity.
  Qed.

  Lemma change_keeps l c l' : do_change l c = Ok l' -> pickle l' = pickle l.
  Proof.
    destruct c as [s|n t|n]; cbn.
    - intros H. injection H as <-. reflexivity.
    - unfold ld_add_object. destruct (ld_has_problem l); [|discriminate]. intros H.
      apply bind_ok in H as (w & _ & H). injection H as <-. reflexivity.
    - unfold ld_remove_object. destruct (ld_has_problem l).
      + intros H. injection H as <-. reflexivity.
      + destruct (existsb _ _); [discriminate|]. intros H. injection H as <-. reflexivity.
  Qed.

  Lemma changes_keep cs : forall l l', do_changes cs l = Ok l' -> pickle l' = pickle l.
  Proof.
    induction cs as [|c cs IH]; intros l l' H.
    - injection H as <-. reflexivity.
    - unfold do_changes in H. cbn [foldM] in H. apply bind_ok in H as (l1 & E & H).
      rewrite (IH l1 l' H). eapply change_keeps; eauto.
  Qed.

  Lemma pickle_changes d p l st cs l' : load d p true = Ok (l, st) -> do_changes cs l = Ok l' ->
    unpickle (pickle l') = Ok (l, st).
  Proof.
    intros H C. rewrite (changes_keep cs l l' C). eapply pickle_same; eauto.
  Qed.

  Lemma load_empty d ds aa : domain_in d = Some ds -> load d "" aa = UB.
  Proof. intros E. unfold Load.load, parse_pddl. rewrite E. reflexivity. Qed.

  Lemma load_domain_fields d l st : load_domain d = Ok (l, st) ->
    exists ds, domain_in d = Some ds /\ ld_domain l = d /\ ld_problem l = "" /\ ld_constants l = [] /\
      ld_has_problem l = false /\
      make_from L (ds_constants ds) [] (ds_ops ds) (ds_derived ds) [] None false = Ok (ld_pddl l, st).
  Proof.
    unfold Load.load_domain, parse_pddl. intros H. apply bind_ok in H as ((ds & ob) & E & H).
    destruct (domain_in d) as [ds'|]; [|discriminate]. injection E as -> <-.
    apply bind_ok in H as ((q & st') & M & H). injection H as <- <-. exists ds. repeat split; auto.
  Qed.

  Lemma pickle_domain d l st cs l' : load_domain d = Ok (l, st) -> do_changes cs l = Ok l' ->
    unpickle (pickle l') = UB.
  Proof.
    intros H C. destruct (load_domain_fields _ _ _ H) as (ds & D & E1 & E2 & _).
    rewrite (changes_keep cs l l' C). unfold Load.unpickle, pickle. cbn [fst snd].
    rewrite E1, E2. eapply load_empty; eauto.
  Qed.

  Lemma repr_evaluates l : plain (ld_domain l) -> plain (ld_problem l) ->
    exists d p, read_call (ld_repr l) = Some (d, p) /\ load d p true = unpickle (pickle l).
  Proof. intros P1 P2. eexists. eexists. split; [apply read_call_spec; auto|reflexivity]. Qed.

  Lemma plan_same l : ld_has_problem l = true -> forall calls w,
    ld_plan_from L l calls w = valid_plan_from L (ld_pddl l) calls w.
  Proof.
    intros P. induction calls as [|c calls IH]; intros w; cbn.
    - unfold ld_goal_holds. rewrite P. reflexivity.
    - destruct (pd_parse _ _) as [(o & args)| | | |]; auto. cbn.
      destruct (op_valid _ _ _ _) as [[|]| | | |]; auto. cbn.
      destruct (apply_in_place _ _ _ _ _) as [(x & w')| | | |]; auto. cbn. apply IH.
  Qed.

  Lemma plan_none l : ld_has_problem l = false -> forall calls w b st,
    ld_plan_from L l calls w = Ok (b, st) -> b = false.
  Proof.
    intros P. induction calls as [|c calls IH]; intros w b st; cbn.
    - unfold ld_goal_holds. rewrite P. discriminate.
    - destruct (pd_parse _ _) as [(o & args)| | | |]; try discriminate. cbn.
      destruct (op_valid _ _ _ _) as [[|]| | | |]; try discriminate; cbn.
      + destruct (apply_in_place _ _ _ _ _) as [(x & w')| | | |]; try discriminate. cbn. apply IH.
      + intros H. injection H as <- _. reflexivity.
  Qed.

  (** What does not look at the goal does the same. *)
  Lemma goalless g p :
    (forall c w, next_state L (with_goal g p) c w = next_state L p c w) /\
    (forall cs w, apply_actions L (with_goal g p) cs w = apply_actions L p cs w) /\
    (forall s c, is_valid_action (with_goal g p) s c = is_valid_action p s c) /\
    (forall w c s, is_valid_tuple L (with_goal g p) w c s = is_valid_tuple L p w c s) /\
    (forall s, list_valid_actions (with_goal g p) s = list_valid_actions p s).
  Proof. repeat split. Qed.

  Lemma with_problem d p aa l st : load d p aa = Ok (l, st) ->
    exists ds b, domain_in d = Some ds /\ problem_in ds (problem_source p) = Some b /\
      make_pddl L (ds_constants ds) (ps_objects b) (ds_ops ds) (ds_derived ds) (ps_init b) (ps_goal b) aa
        = Ok (ld_pddl l, st) /\
      ld_constants l = pd_constants (ld_pddl l) /\
      (forall s, ld_goal_holds l s = goal_holds (ld_pddl l) s) /\
      (forall calls st0, ld_is_valid_plan L l calls st0 = is_valid_plan L (ld_pddl l) calls st0).
  Proof.
    intros H. destruct (load_fields _ _ _ _ _ H) as (E1 & E2 & N & P).
    unfold Load.load, parse_pddl in H. apply bind_ok in H as ((ds & ob) & E & H).
    destruct (domain_in d) as [ds'|]; [|discriminate].
    destruct (String.eqb_spec p ""); [congruence|].
    destruct (problem_in ds' (problem_source p)) as [b|] eqn:B; [|discriminate]. injection E as <- <-.
    apply bind_ok in H as ((q & st') & M & H). exists ds', b. split; auto. split; auto.
    assert (G : forall s, ld_goal_holds l s = goal_holds (ld_pddl l) s).
    { intros s. unfold ld_goal_holds. rewrite P. reflexivity. }
    assert (Q : forall calls st0, ld_is_valid_plan L l calls st0 = is_valid_plan L (ld_pddl l) calls st0).
    { intros. apply plan_same; auto. }
    injection H as <- <-. split; [exact M|]. split; [|auto].
    cbn. unfold make_pddl, make_from in M. apply bind_ok in M as (ax & _ & M).
    apply bind_ok in M as ((s' & st1) & _ & M). injection M as <- _. reflexivity.
  Qed.

  Lemma without_problem d l st : load_domain d = Ok (l, st) ->
    exists ds p, domain_in d = Some ds /\
      (forall g, supported g = true -> make_pddl L (ds_constants ds) [] (ds_ops ds) (ds_derived ds) [] g false
         = Ok (with_goal g p, st)) /\
      ld_pddl l = with_goal (pd_goal (ld_pddl l)) p /\
      pd_objects (ld_pddl l) = ds_constants ds /\ ld_constants l = [] /\
      (forall s, ld_goal_holds l s = Throw EBadCall) /\
      (forall calls st0 b st1, ld_is_valid_plan L l calls st0 = Ok (b, st1) -> b = false) /\
      (forall n t, ld_add_object n t l = UB) /\
      (forall n, In n (map oname (ds_constants ds)) -> ld_remove_object n l = UB).
  Proof.
    intros H. destruct (load_domain_fields _ _ _ H) as (ds & D & E1 & E2 & E3 & P & M).
    unfold make_from in M. apply bind_ok in M as (ax & A & M). cbn [bind] in M. injection M as M1 M2.
    exists ds, (ld_pddl l). split; auto. split.
    { intros g Sg. unfold make_pddl, make_from.
      rewrite (build_goal _ (create_full _) _ _ g _ Sg A). cbn [bind]. rewrite <- M1, <- M2. reflexivity. }
    split; [rewrite <- M1; reflexivity|].
    assert (O : pd_objects (ld_pddl l) = ds_constants ds).
    { rewrite <- M1. cbn. apply app_nil_r. }
    split; [exact O|]. split; [auto|]. split; [|split; [|split]].
    - intros s. unfold ld_goal_holds. rewrite P. reflexivity.
    - intros calls st0 b st1. apply plan_none; auto.
    - intros n t. unfold ld_add_object. rewrite P. reflexivity.
    - intros n I. unfold ld_remove_object. rewrite P, O.
      assert (existsb (fun o => String.eqb (oname o) n) (ds_constants ds) = true) as ->; auto.
      apply existsb_exists. apply in_map_iff in I as (o & <- & I). exists o. split; auto. apply String.eqb_refl.
  Qed.
End WithHash.
