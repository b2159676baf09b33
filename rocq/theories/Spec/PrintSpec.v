(** The PDDL expression that a goal is written with. *)
From Coq Require Import Ascii String List Bool.
From Verif.Model Require Import Base Object Proposition State Syntax Planner.
From Verif.Spec Require Import TextSpec ProblemSpec FormulaSpec.
Import ListNotations.
Local Open Scope string_scope.
Local Open Scope list_scope.

(** Variables are written with a question mark. *)
Definition term_word (x : object) : string :=
  match okind x with KConst => oname x | KVar _ => ("?" ++ oname x)%string end.
Definition decl_words (x : object) : list string := [("?" ++ oname x)%string; "-"; type_name (otype x)].

Fixpoint goal_sexp (g : goal) : sexp :=
  match g with
  | GSimple name args => Group (Atom name :: map (fun x => Atom (term_word x)) args)
  | GConj gs => Group (Atom "and" :: map goal_sexp gs)
  | GDisj gs => Group (Atom "or" :: map goal_sexp gs)
  | GNeg g => Group [Atom "not"; goal_sexp g]
  | GForall vars g => Group [Atom "forall"; Group (map Atom (flat_map decl_words vars)); goal_sexp g]
  | GExists vars g => Group [Atom "exists"; Group (map Atom (flat_map decl_words vars)); goal_sexp g]
  | GOther => Group []
  end.

(** The names are ordinary words; predicates are not named like connectives. *)
Definition clean_var (x : object) : Prop := clean (oname x) /\ clean (type_name (otype x)).
Definition keywords : list string := ["and"; "or"; "not"; "forall"; "exists"].
Fixpoint clean_goal (g : goal) : Prop :=
  match g with
  | GSimple name args => clean name /\ ~ In name keywords /\ Forall (fun x => clean (oname x)) args
  | GConj gs | GDisj gs => fold_right (fun g P => clean_goal g /\ P) True gs
  | GNeg g => clean_goal g
  | GForall vars g | GExists vars g => Forall clean_var vars /\ clean_goal g
  | GOther => True
  end.

(** No quantifier and no goal of an unsupported kind. *)
Fixpoint quantifier_free (g : goal) : Prop :=
  match g with
  | GSimple _ _ => True
  | GConj gs | GDisj gs => fold_right (fun g P => quantifier_free g /\ P) True gs
  | GNeg g => quantifier_free g
  | GForall _ _ | GExists _ _ | GOther => False
  end.
(** The arguments of all atoms. *)
Fixpoint goal_args (g : goal) : list object :=
  match g with
  | GSimple _ args => args
  | GConj gs | GDisj gs => flat_map goal_args gs
  | GNeg g | GForall _ g | GExists _ g => goal_args g
  | GOther => []
  end.
Definition constant (x : object) : Prop := okind x = KConst.
Definition ground (g : goal) : Prop := quantifier_free g /\ Forall constant (goal_args g).

(** The same goal with a constant in place of every variable. *)
Definition as_constant (x : object) : object := mkObj (oname x) (otype x) KConst.
Fixpoint forget_variables (g : goal) : goal :=
  match g with
  | GSimple name args => GSimple name (map as_constant args)
  | GConj gs => GConj (map forget_variables gs)
  | GDisj gs => GDisj (map forget_variables gs)
  | GNeg g => GNeg (forget_variables g)
  | GForall vars g => GForall vars (forget_variables g)
  | GExists vars g => GExists vars (forget_variables g)
  | GOther => GOther
  end.

(** Lists in strictly increasing order. *)
Inductive increasing : list string -> Prop :=
| inc_nil : increasing []
| inc_one x : increasing [x]
| inc_more x y l : String.ltb x y = true -> increasing (y :: l) -> increasing (x :: y :: l).

(** Lines of text. *)
Definition unlines (l : list string) : string :=
  fold_right (fun x s => (x ++ String "010" s)%string) EmptyString l.
(** Literals, one in a line. *)
Definition block (indent : string) (pos neg : list string) : list string :=
  map (fun t => (indent ++ t)%string) pos ++ map (fun t => (indent ++ "not " ++ t)%string) neg.

Section WithHash.
  Context `{SH : StdHash}.

  (** The strings of the propositions, in some order. *)
  Definition spells (s : state) (l : list string) : Prop :=
    NoDup l /\ forall t, In t l <-> exists p, st_contains s p = true /\
      t = (pname p ++ "(" ++ String.concat ", " (map oname (pargs p)) ++ ")")%string.

  (** The printed propositions can be told apart. *)
  Definition clean_state (s : state) : Prop :=
    forall p, st_contains s p = true -> clean (pname p) /\ Forall clean (map oname (pargs p)).
  Definition clean_partial (s : partial_state) : Prop := clean_state (ps_pos s) /\ clean_state (ps_neg s).
  Definition built_partial (s : partial_state) : Prop := built (ps_pos s) /\ built (ps_neg s).

  (** Nodes of the search: only the root has no action. *)
  Definition clean_node (n : node) : Prop :=
    built (nd_state n) /\ clean_state (nd_state n) /\ free_of "027" (nd_action n) /\
    (nd_depth n = 0 <-> nd_action n = "").
End WithHash.
