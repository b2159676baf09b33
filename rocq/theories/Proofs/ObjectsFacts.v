(** Proofs about adding and removing objects. *)
From Coq Require Import Ascii String List Bool NArith ZArith Arith Lia.
From Verif.Model Require Import Base Object Proposition State ParameterGenerator Syntax Formula
  Effects Derived Consistency Text Pddl Objects.
From Verif.Spec Require Import SetSpec TypingSpec FormulaSpec EffectSpec DerivedSpec TextSpec AxiomSpec PddlSpec
  ObjectsSpec.
From Verif.Proofs Require Import ParameterFacts TextFacts PddlFacts PddlTheorems PddlListing.
Import ListNotations.
Local Open Scope string_scope.
Local Open Scope list_scope.

Lemma erase_first_absent n l : ~ In n (map oname l) -> erase_first n l = l.
Proof.
  induction l as [|o l IH]; intros N; cbn; auto. destruct (String.eqb_spec (oname o) n) as [E|E].
  - destruct N. left; auto.
  - f_equal. apply IH. intros I. apply N. right; auto.
Qed.
Lemma erase_first_app n l l' : ~ In n (map oname l) -> erase_first n (l ++ l') = l ++ erase_first n l'.
Proof.
  induction l as [|o l IH]; intros N; cbn; auto. destruct (String.eqb_spec (oname o) n) as [E|E].
  - destruct N. left; auto.
  - f_equal. apply IH. intros I. apply N. right; auto.
Qed.
Lemma erase_first_sub n l o : In o (erase_first n l) -> In o l.
Proof.
  induction l as [|a l IH]; cbn; auto. destruct (String.eqb (oname a) n); cbn; intuition.
Qed.
Lemma erase_first_NoDup n l : NoDup (map oname l) -> NoDup (map oname (erase_first n l)).
Proof.
  induction l as [|a l IH]; cbn; auto. intros N. inversion N as [|? ? A B]; subst.
  destruct (String.eqb (oname a) n); auto. cbn. constructor; auto.
  intros I. apply in_map_iff in I as (o & E & I). apply A. apply in_map_iff. exists o. split; auto.
  eapply erase_first_sub; eauto.
Qed.
Lemma erase_first_In n l o : NoDup (map oname l) -> (In o (erase_first n l) <-> In o l /\ oname o <> n).
Proof.
  induction l as [|a l IH]; cbn; [tauto|]. intros N. inversion N as [|? ? A B]; subst.
  destruct (String.eqb_spec (oname a) n) as [E|E].
  - split.
    + intros I. split; auto. intros Q. apply A. rewrite E, <- Q. apply in_map; auto.
    + intros [[->|I] Q]; [congruence|auto].
  - cbn. rewrite (IH B). split; [intros [->|[I Q]]; auto|intros [[->|I] Q]; auto].
Qed.
Lemma erase_first_names n l x : NoDup (map oname l) ->
  (In x (map oname (erase_first n l)) <-> In x (map oname l) /\ x <> n).
Proof.
  intros N. rewrite !in_map_iff. split.
  - intros (o & <- & I). apply erase_first_In in I as [I Q]; auto. split; eauto.
  - intros [(o & <- & I) Q]. exists o. split; auto. apply erase_first_In; auto.
Qed.

(** ** Lookup *)
Definition all_live (w : edited) : Prop := forall o, In o (pd_constants (ed_pddl w)) -> dead w o = false.

Lemma dead_In w o : dead w o = true <-> In (oname o) (ed_dead w).
Proof.
  unfold dead. rewrite existsb_exists. split.
  - intros (x & I & E). apply String.eqb_eq in E. congruence.
  - intros I. exists (oname o). split; auto. apply String.eqb_refl.
Qed.
Lemma dead_false w o : dead w o = false <-> ~ In (oname o) (ed_dead w).
Proof. rewrite <- dead_In. destruct (dead w o); intuition congruence. Qed.

Lemma ed_object_live w name : all_live w -> ed_object w name = get_object (pd_symbols (ed_pddl w)) name.
Proof.
  unfold all_live, ed_object, pd_symbols. induction (pd_constants (ed_pddl w)) as [|o l IH]; intros H; cbn; auto.
  rewrite (H o) by (left; auto). destruct (String.eqb (oname o) name); auto.
  apply IH. intros; apply H; right; auto.
Qed.
Lemma get_object_found l name : (exists o, get_object l name = Ok o /\ oname o = name) <-> In name (map oname l).
Proof.
  induction l as [|a l IH]; cbn; [split; [intros (? & ? & _); discriminate|intros []]|].
  destruct (String.eqb_spec (oname a) name) as [E|E].
  - split; auto. intros _. exists a. auto.
  - rewrite IH. intuition congruence.
Qed.
Lemma get_object_missing l name : get_object l name = Throw ERuntime <-> ~ In name (map oname l).
Proof.
  rewrite <- get_object_found. destruct (get_object_else l name) as [[o E]|E]; rewrite E.
  - split; [discriminate|]. intros N. destruct N. exists o. split; auto.
    apply get_object_spec in E as (? & ? & _ & E & _). auto.
  - split; auto. intros _ (? & ? & _). discriminate.
Qed.

(** ** Sequences of edits *)
Record agrees (C : list object) (present : string -> Prop) (w : edited) : Prop := {
  ag_constants : pd_constants (ed_pddl w) = C;
  ag_objects : pd_objects (ed_pddl w) = pd_symbols (ed_pddl w);
  ag_names : NoDup (map oname (pd_symbols (ed_pddl w)));
  ag_present : forall x, In x (map oname (pd_symbols (ed_pddl w))) <-> present x;
  ag_live : all_live w
}.

Lemma agrees_edit types C present w e : agrees C present w ->
  match e with Add n _ => ~ present n | Remove n => ~ In n (map oname C) end ->
  exists w', do_edit types w e = Ok w' /\ agrees C (present_after e present) w'.
Proof.
  intros [AC AO AN AP AL] H. destruct e as [n ty|n]; cbn [do_edit].
  - eexists. split; [reflexivity|]. constructor; cbn; auto.
    + unfold pd_symbols in *. cbn. rewrite AO, app_assoc. auto.
    + unfold pd_symbols in *. cbn. rewrite app_assoc, map_app. cbn. apply NoDup_Add with (a := n) (l := map oname (pd_constants (ed_pddl w) ++ pd_problem_objects (ed_pddl w))).
      * rewrite <- (app_nil_r (map oname _)) at 1. apply Add_app.
      * split; auto. rewrite AP; auto.
    + intros x. unfold pd_symbols in *. cbn. rewrite app_assoc, map_app, in_app_iff, AP. cbn. intuition.
  - eexists. split; [reflexivity|]. unfold remove_object. subst C.
    destruct (existsb (fun o => String.eqb (oname o) n) (pd_objects (ed_pddl w))) eqn:E.
    + unfold pd_symbols in *.
      constructor; cbn [ed_pddl pd_constants pd_objects pd_problem_objects]; unfold pd_symbols in *;
        cbn [ed_pddl pd_constants pd_objects pd_problem_objects]; auto.
      * rewrite AO. apply erase_first_app; auto.
      * rewrite <- erase_first_app by auto. apply erase_first_NoDup; auto.
      * intros x. rewrite <- erase_first_app by auto. rewrite erase_first_names, AP by auto. cbn. tauto.
      * intros o I. cbn in I. apply dead_false. cbn. intros [Q|Q].
        -- apply H. rewrite Q. apply in_map; auto.
        -- apply AL in I. apply dead_false in I. auto.
    + assert (A : ~ present n).
      { rewrite <- AP. intros I. apply in_map_iff in I as (o & Eo & I).
        enough (existsb (fun o => String.eqb (oname o) n) (pd_objects (ed_pddl w)) = true) by congruence.
        rewrite AO. apply existsb_exists. exists o. split; auto. rewrite Eo. apply String.eqb_refl. }
      constructor; auto. intros x. rewrite AP. cbn. split; [|tauto]. intros P. split; auto. intros ->; auto.
Qed.

Lemma agrees_edits types C es : forall present w, agrees C present w -> careful (map oname C) es present ->
  exists w', do_edits types es w = Ok w' /\ agrees C (present_all es present) w'.
Proof.
  unfold do_edits. induction es as [|e es IH]; intros present w A K.
  - exists w. auto.
  - destruct K as [K1 K2]. destruct (agrees_edit types C present w e A K1) as (w1 & E & A1).
    cbn [foldM present_all]. rewrite E. apply (IH _ _ A1 K2).
Qed.

Lemma agrees_unedited p : constructed p ->
  agrees (pd_constants p) (fun x => In x (map oname (pd_symbols p))) (unedited p).
Proof. intros (O & N & _). constructor; cbn; auto; try tauto. intros o _. reflexivity. Qed.

Lemma history_lemma types p es : constructed p ->
  careful (map oname (pd_constants p)) es (fun x => In x (map oname (pd_symbols p))) ->
  exists w, do_edits types es (unedited p) = Ok w /\
    forall x, let present := present_all es (fun x => In x (map oname (pd_symbols p))) x in
      (found w x <-> present) /\ (not_found w x <-> ~ present) /\ (listed w x <-> present).
Proof.
  intros K1 K2. destruct (agrees_edits types _ es _ _ (agrees_unedited p K1) K2) as (w & E & [AC AO AN AP AL]).
  exists w. split; auto. intros x. cbn zeta. unfold found, not_found, listed.
  rewrite (ed_object_live w x AL), get_object_found, get_object_missing, AO, AP. tauto.
Qed.

(** ** One addition *)
Lemma find_type_first types ty t : find_type types ty = Some t -> In t types /\ type_name t = ty.
Proof. intros H. apply find_some in H as [I E]. apply String.eqb_eq in E. auto. Qed.

Lemma add_lemma types p name ty w : constructed p ->
  ~ In name (map oname (pd_symbols p)) -> add_object (Some types) name ty (unedited p) = Ok w ->
  (exists o, ed_object w name = Ok o /\ oname o = name /\ In o (pd_objects (ed_pddl w)) /\
     (forall t, In t types -> t <> [] -> type_name t = ty -> NoDup (map type_name types) ->
        otype o = t /\ has_type o ty)) /\
  (forall x, x <> name -> ed_object w x = get_object (pd_symbols p) x) /\
  (forall call r, pd_parse p call = Ok r -> ed_parse w call = Ok r).
Proof.
  intros (O & N & _) F H.
  set (o := mkObj name (get_type_symbol types (find_type types ty)) KConst).
  assert (Ho : pd_ops (ed_pddl w) = pd_ops p) by (injection H as <-; reflexivity).
  assert (Hl : pd_objects (ed_pddl w) = pd_objects p ++ [o]) by (injection H as <-; reflexivity).
  assert (Q : forall x, ed_object w x = get_object (pd_symbols p ++ [o]) x).
  { intros x. injection H as <-. rewrite ed_object_live by (intros ? ?; reflexivity).
    unfold pd_symbols. cbn. rewrite app_assoc. auto. }
  clear H.
  assert (Q1 : forall l x, ~ In x (map oname l) -> get_object (l ++ [o]) x = get_object [o] x).
  { induction l as [|a l IH]; intros x I; cbn [app]; auto. cbn in I. cbn [get_object].
    destruct (String.eqb_spec (oname a) x); [tauto|]. apply IH. tauto. }
  assert (Q2 : forall l x, x <> name -> get_object (l ++ [o]) x = get_object l x).
  { induction l as [|a l IH]; intros x I; cbn [app get_object].
    - cbn. destruct (String.eqb_spec name x); [congruence|auto].
    - destruct (String.eqb (oname a) x); auto. }
  split; [|split].
  - exists o. split; [|split; [|split]].
    + rewrite Q, Q1 by auto. cbn. rewrite String.eqb_refl. auto.
    + reflexivity.
    + rewrite Hl. apply in_app_iff. right. left. auto.
    + intros t I Nt E D. assert (T : find_type types ty = Some t).
      { clear -I E D. induction types as [|u types IH]; [destruct I|]. cbn in D. inversion D as [|? ? D1 D2]; subst.
        unfold find_type. cbn [find]. destruct (String.eqb_spec (type_name u) (type_name t)) as [X|X].
        - destruct I as [->|I]; auto. destruct D1. rewrite X. apply in_map; auto.
        - destruct I as [->|I]; [congruence|]. apply IH; auto. }
      unfold o. rewrite T. cbn. split; auto. right. cbn. destruct t as [|a t]; [congruence|]. cbn in E. left; auto.
  - intros x I. rewrite Q. apply Q2; auto.
  - intros call [o' args] P. unfold ed_parse. unfold pd_parse, parse_action in P. rewrite Ho.
    destruct (get_op (pd_ops p) (parse_head call)) as [o1| | | |]; try discriminate. cbn [bind] in *.
    destruct (parse_arguments (pd_symbols p) call) as [l| | | |] eqn:A; try discriminate.
    enough (B : ed_arguments w call = Ok l) by (rewrite B; exact P).
    unfold ed_arguments. apply mapM_spec. unfold parse_arguments in A. apply mapM_spec in A.
    eapply Forall2_impl; [|exact A]. cbn beta. intros a b E. rewrite Q.
    rewrite Q2; auto. intros ->. destruct F. apply get_object_found. exists b. split; auto.
    apply get_object_spec in E as (? & ? & _ & E & _). auto.
Qed.

(** ** Enumeration never changes *)
Lemma edit_fixed types e w w' : do_edit types w e = Ok w' ->
  pd_om (ed_pddl w') = pd_om (ed_pddl w) /\ pd_ops (ed_pddl w') = pd_ops (ed_pddl w) /\
  pd_init (ed_pddl w') = pd_init (ed_pddl w) /\ pd_goal (ed_pddl w') = pd_goal (ed_pddl w) /\
  pd_constants (ed_pddl w') = pd_constants (ed_pddl w).
Proof.
  destruct e as [n ty|n]; cbn [do_edit].
  - intros [= <-]. cbn. auto 6.
  - intros [= <-]. unfold remove_object. destruct (existsb _ _); cbn; auto 6.
Qed.
Lemma edits_fixed types es : forall w w', do_edits types es w = Ok w' ->
  pd_om (ed_pddl w') = pd_om (ed_pddl w) /\ pd_ops (ed_pddl w') = pd_ops (ed_pddl w) /\
  pd_init (ed_pddl w') = pd_init (ed_pddl w) /\ pd_goal (ed_pddl w') = pd_goal (ed_pddl w) /\
  pd_constants (ed_pddl w') = pd_constants (ed_pddl w).
Proof.
  unfold do_edits. induction es as [|e es IH]; intros w w' E.
  - injection E as <-. auto 6.
  - cbn [foldM] in E. destruct (do_edit types w e) as [w1| | | |] eqn:E1; try discriminate.
    apply edit_fixed in E1. cbn [bind] in E. apply IH in E. intuition congruence.
Qed.

Lemma edits_dead types es : forall w w', do_edits types es w = Ok w' ->
  forall x, In x (ed_dead w') -> In x (ed_dead w) \/ In (Remove x) es.
Proof.
  unfold do_edits. induction es as [|e es IH]; intros w w' E x I.
  - injection E as <-. auto.
  - cbn [foldM] in E. destruct (do_edit types w e) as [w1| | | |] eqn:E1; try discriminate. cbn [bind] in E.
    destruct (IH _ _ E x I) as [D|D]; [|right; right; auto]. destruct e as [n ty|n]; cbn [do_edit] in E1; injection E1 as <-.
    + left. exact D.
    + unfold remove_object in D. destruct (existsb _ _); cbn in D; auto. destruct D as [->|D]; auto. right. left. auto.
Qed.

Lemma symbols_grow types p es : forall w w', do_edits types es w = Ok w' -> edits_new p es ->
  pd_constants (ed_pddl w) = pd_constants p -> (exists l, pd_symbols (ed_pddl w) = pd_symbols p ++ l) ->
  exists l, pd_symbols (ed_pddl w') = pd_symbols p ++ l.
Proof.
  unfold do_edits. induction es as [|e es IH]; intros w w' E N C (l & P).
  - injection E as <-. eauto.
  - cbn [foldM] in E. destruct (do_edit types w e) as [w1| | | |] eqn:E1; try discriminate. cbn [bind] in E.
    pose proof (edit_fixed _ _ _ _ E1) as (_ & _ & _ & _ & F).
    apply (IH w1 w' E); [intros e' I; apply N; right; auto|congruence|].
    pose proof (N e (or_introl eq_refl)) as Ne. clear E IH N.
    destruct e as [n ty|n]; cbn [do_edit] in E1; injection E1 as <-.
    + unfold pd_symbols in *. cbn. rewrite app_assoc, P. eexists. rewrite <- app_assoc. reflexivity.
    + unfold remove_object. destruct (existsb _ _); [|eauto].
      unfold pd_symbols in *. cbn. rewrite <- erase_first_app.
      * rewrite P, erase_first_app by auto. eauto.
      * intros I. apply Ne. rewrite C in I. rewrite map_app. apply in_app_iff. auto.
Qed.

Section Domain.
  Context `{SH : StdHash} (L : limits) (p : pddl) (ar : string -> nat) (rank : nat -> nat) (drank : string -> nat).
  Context (G : good_domain L p ar rank drank).
  Context (Hcount : Forall (fun o => (tuple_count (pd_symbols p) (op_params o) < 2 ^ 31)%Z) (pd_ops p)).

  Lemma args_known s o l args a : built s -> In o (pd_ops p) -> list_valid_arguments p s o = Ok l ->
    In args l -> In a args -> In a (pd_symbols p).
  Proof.
    intros B I E J K. pose proof (set_in_represents s B) as R.
    destruct (C42_arguments_lemma L p ar rank drank G Hcount s _ o R I) as (l' & E' & _ & S).
    rewrite E in E'. injection E' as <-. apply S in J as (_ & W & _). clear -W K.
    induction W as [|x q xs qs [A _] W IH]; [destruct K|]. destruct K as [->|K]; auto.
  Qed.

  (** Whatever is added, no other objects are ever enumerated. *)
  Lemma enumeration_lemma types es w : do_edits types es (unedited p) = Ok w ->
    forall s o, built s -> In o (pd_ops p) ->
    list_valid_arguments (ed_pddl w) s o = list_valid_arguments p s o /\
    exists l, list_valid_arguments p s o = Ok l /\ forall args a, In args l -> In a args -> In a (pd_symbols p).
  Proof.
    intros E s o B I. apply edits_fixed in E as (E1 & _). cbn in E1. split.
    - unfold list_valid_arguments. rewrite E1. reflexivity.
    - pose proof (set_in_represents s B) as R.
      destruct (C42_arguments_lemma L p ar rank drank G Hcount s _ o R I) as (l & El & _). exists l. split; auto.
      intros args a. eapply args_known; eauto.
  Qed.

  Lemma foldM_ext {A B} (f g : A -> B -> outcome A) l : (forall a b, In b l -> f a b = g a b) ->
    forall a, foldM f l a = foldM g l a.
  Proof.
    induction l as [|b l IH]; intros H a; cbn; auto. rewrite H by (left; auto). destruct (g a b); cbn; auto.
    apply IH. intros; apply H; right; auto.
  Qed.

  Lemma new_dead types es w : do_edits types es (unedited p) = Ok w -> edits_new p es ->
    forall o, In (oname o) (map oname (pd_symbols p)) -> dead w o = false.
  Proof.
    intros E N o I. apply dead_false. intros D. apply (edits_dead types es _ _ E) in D as [[]|D].
    apply (N _ D). auto.
  Qed.

  Lemma safe_lemma types es w : constructed p -> edits_new p es -> do_edits types es (unedited p) = Ok w ->
    (forall s, built s -> ed_list_valid_actions w s = list_valid_actions p s) /\
    ed_initial_state w = Ok (stringify (pd_init p)) /\
    (forall x, In x (map oname (pd_symbols p)) -> ed_object w x = get_object (pd_symbols p) x) /\
    (forall x, found w x \/ not_found w x).
  Proof.
    intros (O & N & K) E1 E. pose proof (edits_fixed _ _ _ _ E) as (F1 & F2 & F3 & _ & F5). cbn in F1, F2, F3, F5.
    pose proof (new_dead _ _ _ E E1) as D.
    assert (AL : all_live w).
    { intros o I. apply D. rewrite F5 in I. apply in_map. unfold pd_symbols. apply in_app_iff. auto. }
    split; [|split; [|split]].
    - intros s B. unfold ed_list_valid_actions, list_valid_actions.
      assert (F4 : pd_actions (ed_pddl w) = pd_actions p) by (unfold pd_actions; rewrite F2; auto). rewrite F4.
      apply foldM_ext. intros acc o I. apply filter_In in I as [I _].
      destruct (enumeration_lemma types es w E s o B I) as [Q (l & Ql & H)]. rewrite Q, Ql. cbn [bind].
      destruct (existsb (existsb (dead w)) l) eqn:X; auto. apply existsb_exists in X as (args & J & X).
      apply existsb_exists in X as (a & J' & X). rewrite D in X; [discriminate|]. apply in_map. eauto.
    - unfold ed_initial_state. rewrite F3.
      destruct (existsb (fun q => existsb (dead w) (pargs q)) (st_elements (pd_init p))) eqn:X; auto.
      apply existsb_exists in X as (q & J & X). apply existsb_exists in X as (a & J' & X).
      rewrite D in X; [discriminate|]. eapply K; eauto.
    - intros x I. rewrite ed_object_live by auto.
      assert (P : exists l, pd_symbols (ed_pddl w) = pd_symbols p ++ l).
      { eapply symbols_grow; eauto. exists []. rewrite app_nil_r. reflexivity. }
      destruct P as (l & ->). clear -I. induction (pd_symbols p) as [|a m IH]; [destruct I|]. cbn.
      destruct (String.eqb_spec (oname a) x); auto. apply IH. destruct I; [congruence|auto].
    - intros x. unfold found, not_found. rewrite ed_object_live by auto.
      destruct (get_object_else (pd_symbols (ed_pddl w)) x) as [[o Y]|Y]; auto. left. exists o. split; auto.
      apply get_object_spec in Y as (? & ? & _ & Y & _). auto.
  Qed.
End Domain.
