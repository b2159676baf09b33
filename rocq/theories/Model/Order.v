(** Comparison operators of std::vector. *)
From Coq Require Import String List Bool.
Import ListNotations.

(** [std::vector::operator==]: equal sizes and element-wise [==]. *)
Fixpoint list_eqb {A} (eqb : A -> A -> bool) (l1 l2 : list A) : bool :=
  match l1, l2 with
  | [], [] => true
  | x :: l1', y :: l2' => eqb x y && list_eqb eqb l1' l2'
  | _, _ => false
  end.

(** [std::vector::operator<] (C++17), i.e. [std::lexicographical_compare],
    which only uses [<] on the elements. *)
Fixpoint lex_ltb {A} (ltb : A -> A -> bool) (l1 l2 : list A) : bool :=
  match l1, l2 with
  | _, [] => false
  | [], _ :: _ => true
  | x :: l1', y :: l2' =>
      if ltb x y then true
      else if ltb y x then false
      else lex_ltb ltb l1' l2'
  end.

(** [std::tie(a1,b1) < std::tie(a2,b2)]. *)
Definition pair_ltb {A B} (ltA : A -> A -> bool) (ltB : B -> B -> bool)
    (a1 : A) (b1 : B) (a2 : A) (b2 : B) : bool :=
  ltA a1 a2 || (negb (ltA a2 a1) && ltB b1 b2).
