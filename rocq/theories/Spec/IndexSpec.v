(** What the state index numbers, independent of how it computes. *)
From Coq Require Import String Ascii List Bool ZArith.
From Verif.Model Require Import Base Object Proposition State ParameterGenerator StateIndex.
From Verif.Spec Require Import CartesianSpec TypingSpec EffectSpec TextSpec.
Import ListNotations.
Local Open Scope list_scope.

(** Ground propositions: a declared predicate on declared objects of the types
    of its parameters. *)
Definition ground (objects : list object) (decls : list (string * list object)) (p : prop) : Prop :=
  exists params, In (pname p, params) decls /\ well_typed objects params (pargs p).

(** The same, up to what comparison of propositions sees. *)
Definition ground_names (objects : list object) (decls : list (string * list object)) (p : prop) : Prop :=
  exists q, ground objects decls q /\ prop_key q = prop_key p.

(** A declared predicate with the declared number of arguments. *)
Definition right_arity (decls : list (string * list object)) (p : prop) : Prop :=
  exists params, In (pname p, params) decls /\ length (pargs p) = length params.

(** Number of ground propositions. *)
Definition ground_count (objects : list object) (decls : list (string * list object)) : Z :=
  fold_right (fun d n => (tuple_count objects (snd d) + n)%Z) 0%Z decls.

(** All of them: predicates in the order of declaration, arguments in
    lexicographic order of the declaration of objects. *)
Definition atoms_of (objects : list object) (d : string * list object) : list prop :=
  map (mkProp (fst d)) (tuples objects (snd d)).
Definition numbering (objects : list object) (decls : list (string * list object)) : list prop :=
  flat_map (atoms_of objects) decls.

(** Declarations that can be numbered: every predicate has a parameter, names
    are distinct, and the numbers fit the machine types. *)
Record indexable (objects : list object) (decls : list (string * list object)) : Prop := {
  ix_some : decls <> [];
  ix_types : Forall (fun o => wf_type (otype o)) objects;
  ix_objects : NoDup (map oname objects);
  ix_names : NoDup (map fst decls);
  ix_params : Forall (fun d => snd d <> []) decls;
  ix_counts : Forall (fun d => (tuple_count objects (snd d) < 2 ^ 31)%Z) decls;
  ix_total : (ground_count objects decls < 2 ^ 63)%Z
}.

(** The index a Pddl with these objects and predicates builds. *)
Definition index_of (objects : list object) (decls : list (string * list object)) (use_cache : bool)
    : outcome state_index :=
  let* preds := get_predicates (create_object_map objects) decls in
  make_state_index preds use_cache.

(** Calls of the index and their results. *)
Inductive query : Type :=
| QProp (i : Z)
| QIndex (p : prop)
| QState (v : list bool)
| QVector (s : state)
| QAll (fuel : nat).

Inductive answer : Type :=
| AProp (r : outcome prop)
| AIndex (r : outcome Z)
| AState (r : outcome state)
| AVector (r : outcome (list bool))
| AAll (r : outcome (list prop)).

Section WithHash.
  Context `{SH : StdHash}.

  Definition ask (si : state_index) (q : query) (c : caches) : answer * caches :=
    match q with
    | QProp i => let (r, c') := get_proposition si i c in (AProp r, c')
    | QIndex p => let (r, c') := get_proposition_index si p c in (AIndex r, c')
    | QState v => let (r, c') := get_state si v c in (AState r, c')
    | QVector s => let (r, c') := get_indexed_state si s c in (AVector r, c')
    | QAll n => let (r, c') := iterate n si c in (AAll r, c')
    end.

  (** The answers to a sequence of calls, and the caches after it. *)
  Fixpoint ask_all (si : state_index) (qs : list query) (c : caches) : list answer * caches :=
    match qs with
    | [] => ([], c)
    | q :: qs' =>
        let (a, c') := ask si q c in
        let (l, c'') := ask_all si qs' c' in (a :: l, c'')
    end.
  Definition answers (si : state_index) (qs : list query) : list answer :=
    fst (ask_all si qs no_caches).
  Definition caches_after (si : state_index) (qs : list query) : caches :=
    snd (ask_all si qs no_caches).
End WithHash.

(** Propositions that print unambiguously; all that can be read from text do. *)
Definition plain (p : prop) : Prop :=
  free_of "("%char (pname p) /\ Forall word (map oname (pargs p)).
Definition plain_query (q : query) : Prop :=
  match q with
  | QIndex p => plain p
  | QVector s => Forall plain (st_elements s)
  | _ => True
  end.
Definition plain_names (objects : list object) (decls : list (string * list object)) : Prop :=
  Forall (fun d => free_of "("%char (fst d)) decls /\ Forall (fun o => word (oname o)) objects.
