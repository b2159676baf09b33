(** What the listing of a domain shows, and of which domains there is one. *)
From Coq Require Import Ascii String List Bool.
From Verif.Model Require Import Base Object Proposition State Syntax Derived Listing.
From Verif.Spec Require Import TextSpec EffectSpec ConstructSpec.
Import ListNotations.
Local Open Scope string_scope.
Local Open Scope list_scope.

(** Everything that is printed with its type. *)
Fixpoint goal_symbols (g : goal) : list object :=
  match g with
  | GSimple _ args => args
  | GConj gs | GDisj gs => flat_map goal_symbols gs
  | GNeg g => goal_symbols g
  | GForall vars g | GExists vars g => vars ++ goal_symbols g
  | GOther => []
  end.
Fixpoint effs_symbols (e : effs) : list object :=
  match e with
  | Effs fs adds dels cs =>
      flat_map pargs adds ++ flat_map pargs dels ++
      flat_map (fun f => fst f ++ effs_symbols (snd f)) fs ++
      flat_map (fun c => goal_symbols (fst c) ++ effs_symbols (snd c)) cs
  end.
Definition domain_symbols (d : val_domain) : list object :=
  vd_constants d ++ flat_map snd (vd_predicates d) ++
  flat_map (fun o => op_params o ++ goal_symbols (op_pre o) ++ effs_symbols (op_effs o)) (vd_ops d).
Definition problem_symbols (p : val_problem) : list object :=
  vp_objects p ++ effs_symbols (vp_init p) ++ goal_symbols (vp_goal p).

(** Every type has a parent and every symbol a type. *)
Definition typed (symbols : list object) : Prop := forall x, In x symbols -> otype x <> [].
Definition typed_domain (d : val_domain) : Prop :=
  (forall t, In t (vd_types d) -> 2 <= List.length t) /\ typed (domain_symbols d).

(** Formulas *)
Definition domain_goals (d : val_domain) : list goal :=
  flat_map op_formulas (vd_ops d).
Definition problem_goals (p : val_problem) : list goal := eff_conds (vp_init p) ++ [vp_goal p].

(** Predicates *)
Fixpoint goal_heads (g : goal) : list string :=
  match g with
  | GSimple n _ => [n]
  | GConj gs | GDisj gs => flat_map goal_heads gs
  | GNeg g | GForall _ g | GExists _ g => goal_heads g
  | GOther => []
  end.
Fixpoint effs_heads (e : effs) : list string :=
  match e with
  | Effs fs adds dels cs =>
      map pname adds ++ map pname dels ++ flat_map (fun f => effs_heads (snd f)) fs ++
      flat_map (fun c => goal_heads (fst c) ++ effs_heads (snd c)) cs
  end.

(** Names as in PDDL: not empty, without white space and punctuation. *)
Definition punctuation : list ascii := [","; ":"; "("; ")"; "["; "]"]%char.
Definition plain (w : string) : Prop :=
  w <> EmptyString /\ forall c, In c (chars w) -> ~ In c (white ++ punctuation).
Definition plain_symbols (l : list object) : Prop :=
  forall x, In x l -> plain (oname x) /\ Forall plain (otype x).
Definition plain_domain (d : val_domain) : Prop :=
  free_of "010" (vd_name d) /\ free_of "010" (vd_reqs d) /\
  (forall t, In t (vd_types d) -> Forall plain t) /\ plain_symbols (domain_symbols d) /\
  (forall p, In p (vd_predicates d) -> plain (fst p)) /\
  (forall o, In o (vd_ops d) -> plain (op_name o) /\
     Forall plain (goal_heads (op_pre o)) /\ Forall plain (effs_heads (op_effs o))).
Definition plain_problem (p : val_problem) : Prop :=
  free_of "010" (vp_name p) /\ free_of "010" (vp_domain p) /\ free_of "010" (vp_reqs p) /\
  plain_symbols (problem_symbols p) /\ Forall plain (effs_heads (vp_init p)) /\ Forall plain (goal_heads (vp_goal p)).

(** Addresses do not contain the bracket that ends them. *)
Definition plain_addresses (ad : address) : Prop := forall p, free_of "]" (ad p).

(** The same syntax with other symbols. *)
Fixpoint map_goal (f : object -> object) (g : goal) : goal :=
  match g with
  | GSimple n args => GSimple n (map f args)
  | GConj gs => GConj (map (map_goal f) gs)
  | GDisj gs => GDisj (map (map_goal f) gs)
  | GNeg g => GNeg (map_goal f g)
  | GForall vars g => GForall (map f vars) (map_goal f g)
  | GExists vars g => GExists (map f vars) (map_goal f g)
  | GOther => GOther
  end.
Fixpoint map_effs (f : object -> object) (e : effs) : effs :=
  match e with
  | Effs fs adds dels cs =>
      Effs (map (fun x => (map f (fst x), map_effs f (snd x))) fs)
        (map (fun p => mkProp (pname p) (map f (pargs p))) adds)
        (map (fun p => mkProp (pname p) (map f (pargs p))) dels)
        (map (fun c => (map_goal f (fst c), map_effs f (snd c))) cs)
  end.
Definition map_op (f : object -> object) (o : op) : op :=
  mkOp (op_name o) (op_is_axiom o) (map f (op_params o)) (map_goal f (op_pre o)) (map_effs f (op_effs o)).

(** What is left of a symbol: its name and that of its type.  Constants are not
    told from variables. *)
Definition shown_symbol (x : object) : object := mkObj (oname x) (firstn 1 (otype x)) KConst.
Definition shown_goal : goal -> goal := map_goal shown_symbol.
Definition shown_effs : effs -> effs := map_effs shown_symbol.
(** Actions are not told from axioms. *)
Definition shown_op (o : op) : op :=
  mkOp (op_name o) false (map shown_symbol (op_params o)) (shown_goal (op_pre o)) (shown_effs (op_effs o)).
(** Derived predicates are not shown. *)
Definition shown_domain (d : val_domain) : val_domain :=
  mkValDomain (vd_name d) (vd_reqs d) (map (firstn 2) (vd_types d)) (map shown_symbol (vd_constants d))
    (map (fun p => (fst p, map shown_symbol (snd p))) (vd_predicates d)) (map shown_op (vd_ops d)) [].
Definition shown_problem (p : val_problem) : val_problem :=
  mkValProblem (vp_name p) (vp_domain p) (vp_reqs p) (map shown_symbol (vp_objects p))
    (shown_effs (vp_init p)) (shown_goal (vp_goal p)).

