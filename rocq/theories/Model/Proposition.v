(** include/symbolic/proposition.h, src/proposition.cc. *)
From Coq Require Import String List Bool NArith.
From Verif.Model Require Import Base Order Object.
Import ListNotations.
Local Open Scope string_scope.

(** proposition.h 104-106 (Proposition) and 122-124 (PropositionRef): predicate
    name and arguments.  The member [hash_] is a function of these (below);
    simplification: default-constructed propositions, whose hash is
    indeterminate, are not represented. *)
Record prop : Set := mkProp { pname : string; pargs : list object }.

(** proposition.cc 16-18 *)
Definition hash_offset : N := 2654435769%N. (* 0x9e3779b9 *)

(** proposition.cc 32-33 and state.cc 250-251:
    [seed ^= h + offset + (seed << 6) + (seed >> 2)] on size_t. *)
Definition hash_combine (seed h : N) : N :=
  N.lxor seed (N.modulo (h + hash_offset + N.shiftl seed 6 + N.shiftr seed 2) size_t_max).

Section WithHash.
  Context `{SH : StdHash}.

  (** proposition.cc 28-36, Hash(prop, predicate_hash): used by
      PropositionRef (proposition.h 111-116). *)
  Definition prop_hash_with (predicate_hash : N) (p : prop) : N :=
    fold_left (fun seed arg => hash_combine seed (obj_hash arg)) (pargs p) predicate_hash.

  (** std::hash<std::string> of a predicate name (action.cc 140, formula.cc). *)
  Definition name_hash (n : string) : N := N.modulo (std_hash n) size_t_max.

  (** proposition.cc 24-26, Hash(prop): used by Proposition. *)
  Definition prop_hash (p : prop) : N := prop_hash_with (name_hash (pname p)) p.

  (** proposition.h 40-44 *)
  Definition prop_ltb (p q : prop) : bool :=
    pair_ltb String.ltb (lex_ltb obj_ltb) (pname p) (pargs p) (pname q) (pargs q).

  (** proposition.h 45-49 *)
  Definition prop_eqb (p q : prop) : bool :=
    N.eqb (prop_hash p) (prop_hash q) && String.eqb (pname p) (pname q) &&
    list_eqb obj_eqb (pargs p) (pargs q).
End WithHash.

(** The name and argument names of a proposition: all that comparison uses. *)
Definition atom := (string * list string)%type.
Definition prop_key (p : prop) : atom := (pname p, map oname (pargs p)).
