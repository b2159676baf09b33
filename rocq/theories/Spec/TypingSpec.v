(** Typing of tuples, independent of the object map. *)
From Coq Require Import String List Bool ZArith.
From Verif.Model Require Import Object.
From Verif.Spec Require Import CartesianSpec.
Import ListNotations.
Local Open Scope string_scope.

(** A type given by its chain of ancestors is well formed if no name repeats
    and "object", if present, is the root. *)
Definition wf_type (t : pddl_type) : Prop :=
  NoDup t /\ (In default_type t -> last t "" = default_type).

(** [o] belongs to the type named [ty]. *)
Definition has_type (o : object) (ty : string) : Prop :=
  ty = default_type \/ In ty (otype o).

(** [args] are declared objects of the types of [params]. *)
Definition well_typed (objects params args : list object) : Prop :=
  Forall2 (fun a p => In a objects /\ has_type a (type_name (otype p))) args params.

(** Number of declared objects of a type. *)
Definition objects_of (objects : list object) (ty : string) : list object :=
  filter (fun o => String.eqb ty default_type || existsb (String.eqb ty) (otype o)) objects.
Definition tuple_count (objects params : list object) : Z :=
  product (map (fun p => objects_of objects (type_name (otype p))) params).
