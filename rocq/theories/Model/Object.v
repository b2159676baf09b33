(** include/symbolic/object.h, src/object.cc: types and objects. *)
From Coq Require Import String List Bool NArith.
From Verif.Model Require Import Base Order.
Import ListNotations.
Local Open Scope string_scope.

(** ** Types *)

(** A [VAL::pddl_type*] is modelled by the names met when following the parent
    pointers ([type->type]) from the type to its root; [[]] is [nullptr].
    Simplification: cyclic hierarchies (on which the code loops forever) and
    [either] types are not represented. *)
Definition pddl_type := list string.

(** object.cc 74 *)
Definition default_type : string := "object".

(** object.cc 24-36, GetTypeSymbol: a symbol without type gets the root type
    "object" if some declared type descends from it, otherwise nullptr. *)
Fixpoint last_name (t : pddl_type) : option string :=
  match t with
  | [] => None
  | [n] => Some n
  | _ :: t' => last_name t'
  end.
Definition get_type_symbol (types : list pddl_type) (sym : option pddl_type) : pddl_type :=
  match sym with
  | Some t => t
  | None =>
      if existsb (fun t => match last_name t with
                           | Some n => String.eqb n default_type
                           | None => false
                           end) types
      then [default_type] else []
  end.

(** object.cc 80-87, Type::IsSubtype. *)
Definition is_subtype (t : pddl_type) (name : string) : bool :=
  String.eqb name default_type || existsb (fun n => String.eqb n name) t.

(** object.cc 89-99, Type::ListTypes. *)
Definition list_types (t : pddl_type) : list string :=
  match last_name t with
  | Some n => if String.eqb n default_type then t else t ++ [default_type]
  | None => [default_type]
  end.

(** object.cc 101-104, Type::name. *)
Definition type_name (t : pddl_type) : string :=
  match t with [] => default_type | n :: _ => n end.

(** ** Objects *)

(** Which kind of [VAL::pddl_typed_symbol] an object points to: a constant or a
    variable.  The number stands for the identity of the variable symbol
    (pointer), which src/normal_form.cc 47-56 compares. *)
Inductive symkind : Set := KConst | KVar (id : nat).

(** object.h 122-127: symbol (name and kind) and type.  The member [hash_] is
    always [std::hash] of the name (object.cc 106-120) and is recomputed below.
    Simplification: default-constructed objects (null symbol) are not objects
    of the model. *)
Record object : Set := mkObj { oname : string; otype : pddl_type; okind : symkind }.

(** [std::hash<std::string>]: any function.  Results are reduced modulo 2^64. *)
Class StdHash := std_hash : string -> N.

Definition size_t_max : N := 18446744073709551616%N.  (* 2^64 *)

(** object.cc 109, 115, 120 and object.h 161-166. *)
Definition obj_hash `{StdHash} (o : object) : N := N.modulo (std_hash (oname o)) size_t_max.

(** object.h 71-73; equal addresses imply equal names, so the first conjunct is
    implied by the second. *)
Definition obj_ltb (a b : object) : bool := String.ltb (oname a) (oname b).

(** object.h 75-78; equal addresses imply equal names and hashes. *)
Definition obj_eqb `{StdHash} (a b : object) : bool :=
  N.eqb (obj_hash a) (obj_hash b) && String.eqb (oname a) (oname b).
