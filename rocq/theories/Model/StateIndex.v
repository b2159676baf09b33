(** src/state.cc 22-41, 142-232, include/symbolic/state.h 215-390 (StateIndex)
    and src/predicate.cc 20-24. *)
From Coq Require Import String List Bool ZArith.
From Verif.Model Require Import Base Object Proposition State CombinationGenerator
  ParameterGenerator Text.
Import ListNotations.
Local Open Scope Z_scope.
Local Open Scope list_scope.

(** predicate.h 68-71: own members of a Predicate, and whether the [pddl_] of
    its Action base (action.h 104) points to something. *)
Record predicate := mkPred {
  pr_name : string; pr_params : list object; pr_gen : gen object; pr_has_pddl : bool }.

(** predicate.cc 20-24: the base is default-constructed, so [pddl_] is null. *)
Definition make_predicate (om : object_map) (name : string) (params : list object)
    : outcome predicate :=
  let* g := param_gen om params in Ok (mkPred name params g false).

(** pddl.cc 168-175, GetPredicates: [decls] are the declared predicates. *)
Definition get_predicates (om : object_map) (decls : list (string * list object))
    : outcome (list predicate) :=
  mapM (fun d => make_predicate om (fst d) (snd d)) decls.

(** state.cc 22-31, PredicateCumSum: the loop, with the last element pushed. *)
Fixpoint cum_sum_from (last : Z) (preds : list predicate) : list Z :=
  last :: match preds with
          | [] => []
          | pr :: preds' => cum_sum_from (to_size_t (last + g_size (pr_gen pr))) preds'
          end.
Definition cum_sum (preds : list predicate) : list Z := cum_sum_from 0 preds.

(** std::unordered_map as a list with the latest entry for a key first. *)
Fixpoint um_find {K V} (eqb : K -> K -> bool) (m : list (K * V)) (k : K) : option V :=
  match m with
  | [] => None
  | (k', v) :: m' => if eqb k' k then Some v else um_find eqb m' k
  end.
Definition um_set {K V} (m : list (K * V)) (k : K) (v : V) : list (K * V) := (k, v) :: m.

(** state.cc 33-41, PredicateIndices. *)
Fixpoint predicate_indices_from (i : nat) (preds : list predicate) (m : list (string * nat))
    : list (string * nat) :=
  match preds with
  | [] => m
  | pr :: preds' => predicate_indices_from (S i) preds' (um_set m (pr_name pr) i)
  end.
Definition predicate_indices (preds : list predicate) : list (string * nat) :=
  predicate_indices_from 0 preds [].

(** state.h 274-290.  The caches, which are mutable, are passed separately. *)
Record state_index := mkIndex {
  si_has_pddl : bool;
  si_preds : list predicate;
  si_groups : list Z;
  si_indices : list (string * nat);
  si_use_cache : bool }.

(** state.cc 142-147.  [predicates.front()] of an empty vector is undefined.
    Simplification: with predicates, the constructor also dereferences the null
    [pddl_] of the first one to take its address back; that alone is treated as
    harmless, only later uses of the resulting pointer are undefined. *)
Definition make_state_index (preds : list predicate) (use_cache : bool) : outcome state_index :=
  match preds with
  | [] => UB
  | pr :: _ =>
      Ok (mkIndex (pr_has_pddl pr) preds (cum_sum preds) (predicate_indices preds) use_cache)
  end.

(** state.h 267 *)
Definition si_size (si : state_index) : Z := last (si_groups si) 0.

(** state.h 289-290 *)
Record caches := mkCaches { ca_props : list (Z * prop); ca_idxs : list (string * Z) }.
Definition no_caches : caches := mkCaches [] [].

(** std::lower_bound by its contract: the position of the first element not
    less than [v] if all elements less than [v] come before all others,
    undefined otherwise. *)
Fixpoint lower_pos (l : list Z) (v : Z) : nat :=
  match l with
  | [] => O
  | x :: l' => if x <? v then S (lower_pos l' v) else O
  end.
Definition lower_bound (l : list Z) (v : Z) : outcome nat :=
  if forallb (fun x => v <=? x) (skipn (lower_pos l v) l) then Ok (lower_pos l v) else UB.

(** state.cc 156-171.  [idx] is a size_t.  If [lower_bound] finds the first
    element, subtracting 1 wraps and the access is out of range.  The
    conversion of [idx_args] to the int parameter of operator[] is in [to_int]. *)
Definition lookup_prop (si : state_index) (idx : Z) : outcome prop :=
  let* k := lower_bound (si_groups si) (to_size_t (idx + 1)) in
  match k with
  | O => UB
  | S idx_pred =>
      let* start := index (si_groups si) idx_pred in
      let idx_args := to_size_t (idx - start) in
      let* pr := index (si_preds si) idx_pred in
      let* args := gen_index null_object (pr_gen pr) (to_int idx_args) in
      Ok (mkProp (pr_name pr) args)
  end.

(** state.cc 149-179, GetProposition *)
Definition get_proposition (si : state_index) (idx : Z) (c : caches) : outcome prop * caches :=
  match (if si_use_cache si then um_find Z.eqb (ca_props c) idx else None) with
  | Some p => (Ok p, c)
  | None =>
      match lookup_prop si idx with
      | Ok p => (Ok p, if si_use_cache si
                       then mkCaches (um_set (ca_props c) idx p) (ca_idxs c) else c)
      | e => (e, c)
      end
  end.

Section WithHash.
  Context `{SH : StdHash}.

  (** state.cc 190-198.  The int returned by find is converted to size_t. *)
  Definition lookup_index (si : state_index) (p : prop) : outcome Z :=
    match um_find String.eqb (si_indices si) (pname p) with
    | None => Throw EOutOfRange
    | Some idx_pred =>
        let* pr := index (si_preds si) idx_pred in
        let* idx_args := gen_find obj_eqb (pr_gen pr) (pargs p) in
        let* start := index (si_groups si) idx_pred in
        Ok (to_size_t (start + to_size_t idx_args))
    end.

  (** state.cc 181-206, GetPropositionIndex *)
  Definition get_proposition_index (si : state_index) (p : prop) (c : caches)
      : outcome Z * caches :=
    match (if si_use_cache si then um_find String.eqb (ca_idxs c) (prop_to_string p) else None) with
    | Some i => (Ok i, c)
    | None =>
        match lookup_index si p with
        | Ok i => (Ok i, if si_use_cache si
                         then mkCaches (ca_props c) (um_set (ca_idxs c) (prop_to_string p) i) else c)
        | e => (e, c)
        end
    end.

  (** An exception of one step ends the loop; the caches keep what it left. *)
  Definition failed {A B} (e : outcome A) : outcome B :=
    match e with
    | Ok _ => UB
    | Throw x => Throw x
    | UB => UB
    | AssertFail => AssertFail
    | OutOfFuel => OutOfFuel
    end.

  (** state.cc 214-217, the loop from position [i] on. *)
  Fixpoint get_state_from (si : state_index) (i : Z) (v : list bool) (s : state) (c : caches)
      : outcome state * caches :=
    match v with
    | [] => (Ok s, c)
    | b :: v' =>
        if b then
          match get_proposition si i c with
          | (Ok p, c') => get_state_from si (i + 1) v' (snd (st_insert p s)) c'
          | (e, c') => (failed e, c')
          end
        else get_state_from si (i + 1) v' s c
    end.

  (** state.cc 209-220, GetState *)
  Definition get_state (si : state_index) (v : list bool) (c : caches) : outcome state * caches :=
    if Z.of_nat (length v) =? si_size si then get_state_from si 0 v st_empty c
    else (AssertFail, c).

  (** state.cc 226-229, the loop.  Writing outside the array is undefined. *)
  Fixpoint set_bits (si : state_index) (props : list prop) (v : list bool) (c : caches)
      : outcome (list bool) * caches :=
    match props with
    | [] => (Ok v, c)
    | p :: props' =>
        match get_proposition_index si p c with
        | (Ok i, c') =>
            if i <? Z.of_nat (length v)
            then set_bits si props' (set_nth (Z.to_nat i) true v) c'
            else (UB, c')
        | (e, c') => (failed e, c')
        end
    end.

  (** state.cc 222-232, GetIndexedState *)
  Definition get_indexed_state (si : state_index) (s : state) (c : caches)
      : outcome (list bool) * caches :=
    set_bits si (st_elements s) (repeat false (Z.to_nat (si_size si))) c.
End WithHash.

(** state.h 270-271, 297-388: [for (const Proposition& p : state_index)].  The
    iterator holds an int, begin() is 0 and end() the size converted to int;
    dereferencing converts back to size_t (317-320). *)
Fixpoint iterate_from (fuel : nat) (si : state_index) (i stop : Z) (c : caches)
    : outcome (list prop) * caches :=
  if i =? stop then (Ok [], c) else
  match fuel with
  | O => (OutOfFuel, c)
  | S fuel' =>
      match get_proposition si (to_size_t i) c with
      | (Ok p, c') =>
          match iterate_from fuel' si (to_int (i + 1)) stop c' with
          | (Ok ps, c'') => (Ok (p :: ps), c'')
          | r => r
          end
      | (e, c') => (failed e, c')
      end
  end.
Definition iterate (fuel : nat) (si : state_index) (c : caches) : outcome (list prop) * caches :=
  iterate_from fuel si 0 (to_int (si_size si)) c.

(** state.h 273: [pddl()] dereferences the pointer. *)
Definition si_pddl (si : state_index) (objects : list object) : outcome (list object) :=
  if si_has_pddl si then Ok objects else UB.

Section Python.
  Context `{SH : StdHash}.

  (** src/python/symbolic.cc 493-497: the argument is an int. *)
  Definition py_get_proposition (si : state_index) (i : Z) (c : caches) : outcome string * caches :=
    let i' := if i <? 0 then to_int (to_size_t (i + si_size si)) else i in
    match get_proposition si (to_size_t i') c with
    | (Ok p, c') => (Ok (prop_to_string p), c')
    | (e, c') => (failed e, c')
    end.

  (** src/python/symbolic.cc 498-502: [objects] are those of the Pddl. *)
  Definition py_get_proposition_index (objects : list object) (si : state_index) (s : string)
      (c : caches) : outcome Z * caches :=
    match (let* os := si_pddl si objects in parse_prop os s) with
    | Ok p => get_proposition_index si p c
    | e => (failed e, c)
    end.

  (** src/python/symbolic.cc 503-508 *)
  Definition py_get_state (si : state_index) (v : list bool) (c : caches)
      : outcome (list string) * caches :=
    match get_state si v c with
    | (Ok s, c') => (Ok (stringify s), c')
    | (e, c') => (failed e, c')
    end.

  (** src/python/symbolic.cc 509-513 *)
  Definition py_get_indexed_state (objects : list object) (si : state_index) (strs : list string)
      (c : caches) : outcome (list bool) * caches :=
    match (let* os := si_pddl si objects in parse_state os strs) with
    | Ok s => get_indexed_state si s c
    | e => (failed e, c)
    end.
End Python.
