(** C36, C37, C38 and C63: the state index. *)
From Coq Require Import String Ascii List Bool ZArith.
From Verif.Model Require Import Base Object Proposition State Text StateIndex.
From Verif.Spec Require Import TypingSpec EffectSpec TextSpec SetSpec IndexSpec.
From Verif.Proofs Require Import IndexTheorems IndexRound IndexExamples.
From Verif.Properties Require Import StateProps.
Import ListNotations.
Local Open Scope string_scope.
Local Open Scope list_scope.
Local Open Scope Z_scope.

(** C36. The index exists, and whatever was asked before, the two lookups are
    inverse bijections between 0..size-1 and the ground propositions. *)
Theorem C36_exists : forall (SH : StdHash) objects decls use, indexable objects decls ->
  exists si, index_of objects decls use = Ok si.
Proof. intros SH objects decls use IX. destruct (index_of_ok objects decls use IX) as (si & E & _). exact (ex_intro _ si E). Qed.
Print Assumptions C36_exists.

Theorem C36_bijection : forall (SH : StdHash) objects decls use si qs,
  indexable objects decls -> plain_names objects decls ->
  index_of objects decls use = Ok si -> Forall plain_query qs ->
  si_size si = ground_count objects decls /\
  (forall i, 0 <= i < si_size si ->
     exists p, fst (get_proposition si i (caches_after si qs)) = Ok p /\ ground objects decls p /\
       fst (get_proposition_index si p (caches_after si qs)) = Ok i) /\
  (forall p, ground objects decls p ->
     exists i, 0 <= i < si_size si /\
       fst (get_proposition_index si p (caches_after si qs)) = Ok i /\
       fst (get_proposition si i (caches_after si qs)) = Ok p).
Proof. exact @C36_lemma. Qed.
Print Assumptions C36_bijection.

(** Iterating over the index gives each ground proposition once, in the order
    of declaration. *)
Theorem C36_iteration : forall (SH : StdHash) objects decls use si qs fuel, indexable objects decls ->
  index_of objects decls use = Ok si -> Forall plain_query qs ->
  ground_count objects decls < 2 ^ 31 -> ground_count objects decls <= Z.of_nat fuel ->
  fst (iterate fuel si (caches_after si qs)) = Ok (numbering objects decls) /\
  NoDup (map prop_key (numbering objects decls)) /\
  forall p, In p (numbering objects decls) <-> ground objects decls p.
Proof. exact @C36_iterate_lemma. Qed.
Print Assumptions C36_iteration.

(** Everything else is refused: numbers out of range are undefined behaviour,
    unknown names and arguments of the wrong type are errors. *)
Theorem C36_others : forall (SH : StdHash) objects decls use si qs, indexable objects decls ->
  index_of objects decls use = Ok si -> Forall plain_query qs ->
  (forall i, si_size si <= i < 2 ^ 64 -> fst (get_proposition si i (caches_after si qs)) = UB) /\
  (forall p, plain p -> ~ In (pname p) (map fst decls) ->
     fst (get_proposition_index si p (caches_after si qs)) = Throw EOutOfRange) /\
  (forall p, plain p -> right_arity decls p -> ~ ground_names objects decls p ->
     fst (get_proposition_index si p (caches_after si qs)) = Throw EOutOfRange \/
     fst (get_proposition_index si p (caches_after si qs)) = AssertFail).
Proof. exact @C36_reject_lemma. Qed.
Print Assumptions C36_others.

(** Predicates without parameters share a number with another proposition. *)
Theorem C36_nullary_refuted : exists (SH : StdHash) objects decls si p q,
  NoDup (map oname objects) /\ NoDup (map fst decls) /\ index_of objects decls false = Ok si /\
  ground objects decls p /\ ground objects decls q /\ prop_key p <> prop_key q /\
  exists i, fst (get_proposition_index si p no_caches) = Ok i /\
    fst (get_proposition_index si q no_caches) = Ok i.
Proof. exact nullary_collision. Qed.
Print Assumptions C36_nullary_refuted.

(** Without predicates the constructor is undefined. *)
Theorem C36_empty_refuted : forall objects use, index_of objects [] use = UB.
Proof. exact no_predicates. Qed.
Print Assumptions C36_empty_refuted.

Example C36_example :
  indexable ix_objs ix_decls /\ plain_names ix_objs ix_decls /\ ground_count ix_objs ix_decls = 7 /\
  (exists si, index_of ix_objs ix_decls true = Ok si /\
     fst (get_proposition si 5 no_caches) = Ok (mkProp "in" [ob "b" "thing"; ob "r" "room"]) /\
     fst (get_proposition_index (SH := collide) si (mkProp "open" [ob "r" "room"]) no_caches) = Ok 6 /\
     fst (get_proposition_index (SH := collide) si (mkProp "open" [ob "a" "thing"]) no_caches) = Throw EOutOfRange).
Proof.
  split; [exact ex_indexable|]. split; [exact ex_plain_names|]. split; [reflexivity|].
  eexists. split; [reflexivity|]. repeat split.
Qed.

(** C37. State -> vector -> State. *)
Theorem C37_state : forall (SH : StdHash) objects decls use si qs ops,
  indexable objects decls -> plain_names objects decls ->
  index_of objects decls use = Ok si -> Forall plain_query qs ->
  (forall p, st_contains (run ops) p = true -> ground_names objects decls p) ->
  exists v c s', get_indexed_state si (run ops) (caches_after si qs) = (Ok v, c) /\
    Z.of_nat (length v) = si_size si /\
    (forall i p, 0 <= i < si_size si -> fst (get_proposition si i c) = Ok p ->
       nth (Z.to_nat i) v false = st_contains (run ops) p) /\
    fst (get_state si v c) = Ok s' /\ st_eqb s' (run ops) = true.
Proof. exact @C37_state_lemma. Qed.
Print Assumptions C37_state.

(** Vector -> State -> vector. *)
Theorem C37_vector : forall (SH : StdHash) objects decls use si qs v,
  indexable objects decls -> plain_names objects decls ->
  index_of objects decls use = Ok si -> Forall plain_query qs ->
  Z.of_nat (length v) = si_size si ->
  exists s c, get_state si v (caches_after si qs) = (Ok s, c) /\
    (forall p, st_contains s p = true <->
       exists i q, 0 <= i < si_size si /\ nth (Z.to_nat i) v false = true /\
         fst (get_proposition si i c) = Ok q /\ prop_key q = prop_key p) /\
    fst (get_indexed_state si s c) = Ok v.
Proof. exact @C37_vector_lemma. Qed.
Print Assumptions C37_vector.

(** With a predicate without parameters the State changes on the way ... *)
Theorem C37_nullary_refuted : exists (SH : StdHash) objects decls si ops v c s,
  index_of objects decls true = Ok si /\
  (forall p, st_contains (run ops) p = true -> ground_names objects decls p) /\
  get_indexed_state si (run ops) no_caches = (Ok v, c) /\
  fst (get_state si v c) = Ok s /\ st_eqb s (run ops) = false.
Proof. exact nullary_round. Qed.
Print Assumptions C37_nullary_refuted.

(** ... or the conversion writes outside the vector. *)
Theorem C37_outside_refuted : exists (SH : StdHash) objects decls si ops,
  index_of objects decls true = Ok si /\
  (forall p, st_contains (run ops) p = true -> ground_names objects decls p) /\
  fst (get_indexed_state si (run ops) no_caches) = UB.
Proof. exact nullary_outside. Qed.
Print Assumptions C37_outside_refuted.

Example C37_example :
  let s := run (SH := collide) [Ins (mkProp "open" [ob "r" "room"]); Ins (mkProp "on" [ob "b" "thing"; ob "a" "thing"])] in
  exists si, index_of ix_objs ix_decls true = Ok si /\
    fst (get_indexed_state (SH := collide) si s no_caches) = Ok [false; false; true; false; false; false; true] /\
    fst (get_state (SH := collide) si [false; false; true; false; false; false; true] no_caches) = Ok s.
Proof. eexists. split; [reflexivity|]. split; vm_compute; reflexivity. Qed.

(** C38. *)
Theorem C38_cache : forall (SH : StdHash) objects decls si si' qs,
  index_of objects decls true = Ok si -> index_of objects decls false = Ok si' ->
  Forall plain_query qs -> answers si qs = answers si' qs.
Proof. exact @C38_lemma. Qed.
Print Assumptions C38_cache.

(** The cache is keyed by text: names that make it ambiguous are confused. *)
Theorem C38_names_refuted : exists (SH : StdHash) objects decls si si' qs,
  indexable objects decls /\ index_of objects decls true = Ok si /\ index_of objects decls false = Ok si' /\
  answers si qs <> answers si' qs.
Proof. exact cache_confused. Qed.
Print Assumptions C38_names_refuted.

Example C38_example :
  exists si si', index_of ix_objs ix_decls true = Ok si /\ index_of ix_objs ix_decls false = Ok si' /\
    let qs := [QIndex (mkProp "on" [ob "b" "thing"; ob "b" "thing"]); QIndex (mkProp "off" []); QProp 3; QProp 3;
               QIndex (mkProp "on" [ob "b" "thing"; ob "b" "thing"])] in
    answers (SH := collide) si qs =
      [AIndex (Ok 3); AIndex (Throw EOutOfRange); AProp (Ok (mkProp "on" [ob "b" "thing"; ob "b" "thing"]));
       AProp (Ok (mkProp "on" [ob "b" "thing"; ob "b" "thing"])); AIndex (Ok 3)] /\
    answers (SH := collide) si' qs = answers (SH := collide) si qs /\
    caches_after (SH := collide) si qs <> no_caches /\ caches_after (SH := collide) si' qs = no_caches.
Proof.
  do 2 eexists. split; [reflexivity|]. split; [reflexivity|]. split; [vm_compute; reflexivity|].
  split; [vm_compute; reflexivity|]. split; [vm_compute; discriminate|vm_compute; reflexivity].
Qed.

(** C63. From Python, numbers from -size to size-1 are accepted. *)
Theorem C63_negative_partial : forall (SH : StdHash) objects decls use si qs i,
  indexable objects decls -> plain_names objects decls ->
  index_of objects decls use = Ok si -> Forall plain_query qs ->
  si_size si < 2 ^ 31 -> - si_size si <= i < si_size si ->
  exists p, fst (py_get_proposition si i (caches_after si qs)) = Ok (prop_to_string p) /\
    ground objects decls p /\
    fst (get_proposition_index si p (caches_after si qs)) = Ok (if i <? 0 then i + si_size si else i).
Proof. exact @C63_lemma. Qed.
Print Assumptions C63_negative_partial.

(** The functions that read text use the null pointer of the predicates. *)
Theorem C63_index_refuted : forall (SH : StdHash) objects decls use si text c,
  index_of objects decls use = Ok si -> py_get_proposition_index objects si text c = (UB, c).
Proof. exact @py_index_UB. Qed.
Print Assumptions C63_index_refuted.

Theorem C63_vector_refuted : forall (SH : StdHash) objects decls use si texts c,
  index_of objects decls use = Ok si -> py_get_indexed_state objects si texts c = (UB, c).
Proof. exact @py_indexed_UB. Qed.
Print Assumptions C63_vector_refuted.

Example C63_example :
  exists si, index_of ix_objs ix_decls true = Ok si /\
    fst (py_get_proposition si (-2) no_caches) = Ok "in(b, r)" /\
    fst (py_get_proposition_index (SH := collide) ix_objs si "in(b, r)" no_caches) = UB.
Proof. eexists. split; [reflexivity|]. split; vm_compute; reflexivity. Qed.
