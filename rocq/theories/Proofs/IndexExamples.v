(** Concrete indices; Python access. *)
From Coq Require Import String Ascii List Bool ZArith Lia.
From Verif.Model Require Import Base Object Proposition State CombinationGenerator
  ParameterGenerator Text StateIndex.
From Verif.Spec Require Import CartesianSpec TypingSpec TextSpec EffectSpec SetSpec IndexSpec.
From Verif.Proofs Require Import CombinationFacts ParameterFacts HashSetFacts StateFacts StateHistory
  TextFacts EffectExamples IndexFacts IndexTheorems IndexRound.
From Verif.Properties Require Import StateProps.
Import ListNotations.
Local Open Scope string_scope.
Local Open Scope list_scope.
Local Open Scope Z_scope.

Definition ob (n ty : string) : object := mkObj n [ty; "object"] KConst.
Definition va (n ty : string) : object := mkObj n [ty; "object"] (KVar 0).

(** Two things and a room; nothing is a ghost. *)
Definition ix_objs : list object := [ob "a" "thing"; ob "b" "thing"; ob "r" "room"].
Definition ix_decls : list (string * list object) :=
  [("on", [va "?x" "thing"; va "?y" "thing"]); ("in", [va "?x" "thing"; va "?y" "room"]);
   ("haunts", [va "?x" "ghost"; va "?y" "room"]); ("open", [va "?x" "room"])].

Lemma ex_indexable : indexable ix_objs ix_decls.
Proof.
  split; try discriminate; try reflexivity.
  - repeat constructor; cbn; try tauto; intuition discriminate.
  - nodup_tac.
  - nodup_tac.
  - repeat constructor; discriminate.
  - repeat constructor.
Qed.

Lemma ex_plain_names : plain_names ix_objs ix_decls.
Proof.
  split; repeat apply Forall_cons; try apply Forall_nil;
    try (unfold free_of; cbn; intuition discriminate);
    (split; [discriminate|]); cbn; intros c [<-|[]] [S|S]; cbn in S; intuition discriminate.
Qed.

(** A predicate without parameters gets the number of the next proposition. *)
Definition lit_decls : list (string * list object) := [("lit", []); ("open", [va "?x" "room"])].
(** ... or, if it comes last, the number after the last one. *)
Definition lit_last : list (string * list object) := [("open", [va "?x" "room"]); ("lit", [])].

Lemma nullary_collision : exists (SH : StdHash) objects decls si p q,
  NoDup (map oname objects) /\ NoDup (map fst decls) /\ index_of objects decls false = Ok si /\
  ground objects decls p /\ ground objects decls q /\ prop_key p <> prop_key q /\
  exists i, fst (get_proposition_index si p no_caches) = Ok i /\
    fst (get_proposition_index si q no_caches) = Ok i.
Proof.
  pose (SH := collide).
  assert (E : exists si, index_of ix_objs lit_decls false = Ok si) by (eexists; reflexivity).
  destruct E as (si & E). exists SH, ix_objs, lit_decls, si, (mkProp "lit" []), (mkProp "open" [ob "r" "room"]).
  split; [nodup_tac|]. split; [nodup_tac|]. split; auto.
  split; [exists []; split; [left; auto|constructor]|].
  split; [exists [va "?x" "room"]; split; [right; left; auto|]|].
  { apply Forall2_cons; [|apply Forall2_nil]. split; [right; right; left; auto|right; left; auto]. }
  split; [discriminate|]. exists 0. injection E as <-. split; reflexivity.
Qed.

Lemma nullary_round : exists (SH : StdHash) objects decls si ops v c s,
  index_of objects decls true = Ok si /\
  (forall p, st_contains (run ops) p = true -> ground_names objects decls p) /\
  get_indexed_state si (run ops) no_caches = (Ok v, c) /\
  fst (get_state si v c) = Ok s /\ st_eqb s (run ops) = false.
Proof.
  pose (SH := collide).
  assert (E : exists si, index_of ix_objs lit_decls true = Ok si) by (eexists; reflexivity).
  destruct E as (si & E).
  assert (V : exists v c s, get_indexed_state si (run [Ins (mkProp "lit" [])]) no_caches = (Ok v, c) /\
    fst (get_state si v c) = Ok s /\ st_eqb s (run [Ins (mkProp "lit" [])]) = false).
  { injection E as <-. eexists. eexists. eexists. split; [vm_compute; reflexivity|].
    split; [vm_compute; reflexivity|vm_compute; reflexivity]. }
  destruct V as (v & c & s & V1 & V2 & V3).
  exists SH, ix_objs, lit_decls, si, [Ins (mkProp "lit" [])], v, c, s.
  split; auto. split; auto. intros p C. apply contains_mem in C; [|apply run_wf].
  cbn in C. destruct C as [C|[]]. exists (mkProp "lit" []). split; auto.
  exists []. split; [left; auto|constructor].
Qed.

Lemma nullary_outside : exists (SH : StdHash) objects decls si ops,
  index_of objects decls true = Ok si /\
  (forall p, st_contains (run ops) p = true -> ground_names objects decls p) /\
  fst (get_indexed_state si (run ops) no_caches) = UB.
Proof.
  pose (SH := collide).
  assert (E : exists si, index_of ix_objs lit_last true = Ok si) by (eexists; reflexivity).
  destruct E as (si & E). exists SH, ix_objs, lit_last, si, [Ins (mkProp "lit" [])].
  split; auto. split.
  - intros p C. apply contains_mem in C; [|apply run_wf].
    cbn in C. destruct C as [C|[]]. exists (mkProp "lit" []). split; auto.
    exists []. split; [right; left; auto|constructor].
  - injection E as <-. vm_compute. reflexivity.
Qed.

Lemma no_predicates objects use : index_of objects [] use = UB.
Proof. reflexivity. Qed.

(** Without plain names the cache confuses propositions: on(a, b) and the
    proposition whose only argument is called "a, b". *)
Lemma cache_confused : exists (SH : StdHash) objects decls si si' qs,
  indexable objects decls /\ index_of objects decls true = Ok si /\ index_of objects decls false = Ok si' /\
  answers si qs <> answers si' qs.
Proof.
  pose (SH := collide).
  assert (E : exists si si', index_of ix_objs ix_decls true = Ok si /\ index_of ix_objs ix_decls false = Ok si')
    by (do 2 eexists; split; reflexivity).
  destruct E as (si & si' & E & E').
  exists SH, ix_objs, ix_decls, si, si',
    [QIndex (mkProp "on" [ob "a" "thing"; ob "b" "thing"]); QIndex (mkProp "on" [ob "a, b" "thing"])].
  split; [apply ex_indexable|]. split; auto. split; auto.
  injection E as <-. injection E' as <-. vm_compute. discriminate.
Qed.

(** ** Python *)
Section Python.
  Context `{SH : StdHash}.

  Lemma no_pddl objects decls use si : index_of objects decls use = Ok si -> si_has_pddl si = false.
  Proof.
    unfold index_of. destruct (get_predicates (create_object_map objects) decls) as [preds| | | |] eqn:G;
      cbn [bind]; try discriminate.
    unfold make_state_index. destruct preds as [|pr preds]; [discriminate|].
    intros E. injection E as <-. cbn [si_has_pddl].
    destruct decls as [|d decls]; [discriminate|]. unfold get_predicates in G. cbn [mapM] in G.
    unfold make_predicate at 1 in G. destruct (param_gen _ _); cbn [bind] in G; try discriminate.
    destruct (mapM _ decls); cbn [bind] in G; [|discriminate..]. injection G as <- _. reflexivity.
  Qed.

  Lemma py_index_UB objects decls use si text c : index_of objects decls use = Ok si ->
    py_get_proposition_index objects si text c = (UB, c).
  Proof.
    intros E. unfold py_get_proposition_index, si_pddl. rewrite (no_pddl _ _ _ _ E). reflexivity.
  Qed.

  Lemma py_indexed_UB objects decls use si texts c : index_of objects decls use = Ok si ->
    py_get_indexed_state objects si texts c = (UB, c).
  Proof.
    intros E. unfold py_get_indexed_state, si_pddl. rewrite (no_pddl _ _ _ _ E). reflexivity.
  Qed.

  Lemma C63_lemma objects decls use si qs i : indexable objects decls -> plain_names objects decls ->
    index_of objects decls use = Ok si -> Forall plain_query qs ->
    si_size si < 2 ^ 31 -> - si_size si <= i < si_size si ->
    exists p, fst (py_get_proposition si i (caches_after si qs)) = Ok (prop_to_string p) /\
      ground objects decls p /\
      fst (get_proposition_index si p (caches_after si qs)) =
        Ok (if i <? 0 then i + si_size si else i).
  Proof.
    intros IX PN E PL SM I. pose proof P64.
    destruct (C36_lemma objects decls use si qs IX PN E PL) as (_ & F & _).
    set (k := if i <? 0 then i + si_size si else i).
    assert (K : 0 <= k < si_size si) by (subst k; destruct (Z.ltb_spec i 0); lia).
    destruct (F k K) as (p & G & Gr & X). exists p. split; auto.
    unfold py_get_proposition.
    assert (Q : to_size_t (if i <? 0 then to_int (to_size_t (i + si_size si)) else i) = k).
    { subst k. destruct (Z.ltb_spec i 0).
      - rewrite (to_size_t_id (i + si_size si)) by lia. rewrite to_int_id by lia. apply to_size_t_id. lia.
      - apply to_size_t_id. lia. }
    rewrite Q. destruct (get_proposition si k (caches_after si qs)) as [r c]. cbn in G. subst r. reflexivity.
  Qed.
End Python.
