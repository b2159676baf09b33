(** src/pddl.cc 145-155 (object map) and src/utils/parameter_generator.cc. *)
From Coq Require Import String List Bool ZArith.
From Verif.Model Require Import Base Object CombinationGenerator.
Import ListNotations.

(** std::unordered_map<std::string, std::vector<Object>>: an association list
    with distinct keys; lookup order is irrelevant. *)
Definition object_map := list (string * list object).

Fixpoint om_find (m : object_map) (ty : string) : option (list object) :=
  match m with
  | [] => None
  | (k, v) :: m' => if String.eqb k ty then Some v else om_find m' ty
  end.

(** pddl.cc 151: [object_map[type].push_back(object)]. *)
Fixpoint om_push (m : object_map) (ty : string) (o : object) : object_map :=
  match m with
  | [] => [(ty, [o])]
  | (k, v) :: m' => if String.eqb k ty then (k, v ++ [o]) :: m' else (k, v) :: om_push m' ty o
  end.

(** pddl.cc 145-155, CreateObjectTypeMap. *)
Definition create_object_map (objects : list object) : object_map :=
  fold_left (fun m o => fold_left (fun m ty => om_push m ty o) (list_types (otype o)) m) objects [].

(** parameter_generator.cc 22-44, ParamTypes: a missing type clears the list. *)
Fixpoint param_types_from (m : object_map) (params : list object) (types : list (list object))
    : list (list object) :=
  match params with
  | [] => types
  | p :: ps =>
      match om_find m (type_name (otype p)) with
      | Some v => param_types_from m ps (types ++ [v])
      | None => []
      end
  end.
Definition param_types (m : object_map) (params : list object) : list (list object) :=
  param_types_from m params [].

(** A value-initialised Object (object.h 41): null symbol.  It can only be
    observed through the defect of C11; the model uses an empty name. *)
Definition null_object : object := mkObj EmptyString [] KConst.

(** parameter_generator.cc 61-65, constructor.  The copy and move operations
    (67-91) rebuild the same generator from a copy of [param_types_]. *)
Definition param_gen (m : object_map) (params : list object) : outcome (gen object) :=
  make_gen (param_types m params).

(** Range-based for over a generator, with as much fuel as needed. *)
Definition gen_list {A} (dflt : A) (g : gen A) : outcome (list (list A)) :=
  gen_traverse dflt (Z.to_nat (g_size g)) g.
