(** Domains, and what calls of their actions mean for sets of atoms. *)
From Coq Require Import String List Bool NArith ZArith Arith.
From Verif.Model Require Import Base Object Proposition State ParameterGenerator Syntax Formula
  Effects Derived Consistency Text Pddl.
From Verif.Spec Require Import SetSpec TypingSpec FormulaSpec EffectSpec DerivedSpec TextSpec.
Import ListNotations.
Local Open Scope string_scope.
Local Open Scope list_scope.

(** ** Sets of atoms *)
Definition aset := atom -> bool.
Definition set_of (t : aset) (a : atom) : Prop := t a = true.
Definition atom_eq_dec (a b : atom) : {a = b} + {a <> b}.
Proof. decide equality; [apply list_eq_dec, string_dec|apply string_dec]. Defined.

Definition a_ins (p : prop) (t : aset) : nat * aset :=
  (if t (prop_key p) then 0 else 1, fun a => if atom_eq_dec a (prop_key p) then true else t a).
Definition a_del (p : prop) (t : aset) : nat * aset :=
  (if t (prop_key p) then 1 else 0, fun a => if atom_eq_dec a (prop_key p) then false else t a).

(** Truth of a goal, computed; FormulaSpec.holds is the same as a proposition. *)
Fixpoint holdsb (objects : list object) (t : aset) (e : assignment) (g : goal) : bool :=
  match g with
  | GSimple name args =>
      let l := map (denote e) args in
      if String.eqb name "=" then match l with [a; b] => String.eqb (oname a) (oname b) | _ => false end
      else if is_typeb objects name
      then match l with [a] => existsb (String.eqb name) (default_type :: otype a) | _ => false end
      else t (name, map oname l)
  | GConj gs => forallb (holdsb objects t e) gs
  | GDisj gs => existsb (holdsb objects t e) gs
  | GNeg g => negb (holdsb objects t e g)
  | GForall vars g => forallb (fun objs => holdsb objects t (bind_vars vars objs e) g) (tuples objects vars)
  | GExists vars g => existsb (fun objs => holdsb objects t (bind_vars vars objs e) g) (tuples objects vars)
  | GOther => false
  end.
Definition a_cond (objects : list object) (t : aset) (g : goal) (params args : list object) : outcome bool :=
  Ok (holdsb objects t (bind_vars params args no_env) g).

(** ** Domains *)

(** The supported fragment: every formula and effect is, axioms do not trigger
    each other in circles, and derived predicates are not recursive.  [ar] are
    the arities of predicates, [rank] and [drank] count how far axioms and
    derived predicates depend on each other. *)
Record good_domain (L : limits) (p : pddl) (ar : string -> nat) (rank : nat -> nat) (drank : string -> nat)
  : Prop := {
  gd_om : pd_om p = create_object_map (pd_symbols p);
  gd_types : Forall (fun o => wf_type (otype o)) (pd_symbols p);
  gd_names : NoDup (map oname (pd_symbols p));
  gd_ops : Forall (good_op (pd_symbols p) ar) (pd_ops p);
  gd_pre : Forall (fun o => wf_goal (pd_symbols p) (map oname (op_params o)) (op_pre o)) (pd_ops p);
  gd_axioms : Forall (good_axiom (pd_symbols p) ar) (pd_axioms p);
  gd_ranked : ranked (pd_axioms p) rank;
  gd_cascade : forall i, i < length (pd_axioms p) -> rank i < l_cascade L;
  gd_derived : forall d, In d (pd_derived p) -> good_derived (pd_symbols p) d;
  gd_heads : NoDup (map dp_name (pd_derived p));
  gd_stratified : stratified (pd_derived p) drank;
  gd_inner : 2 <= l_inner L;
  gd_outer : 1 <= l_outer L /\ forall d, In d (pd_derived p) -> S (drank (dp_name d)) < l_outer L;
  gd_goal : wf_goal (pd_symbols p) [] (pd_goal p)
}.

(** ** Executing calls *)
Section Execution.
  Context (L : limits) (p : pddl).

  (** The text calls operator [o] on declared objects of the right number and types. *)
  Definition calls (call : string) (o : op) (args : list object) : Prop :=
    exists name ws, call_text call name ws /\ good_call (pd_symbols p) (pd_ops p) name ws o args.

  Definition precondition (o : op) (args : list object) (t : aset) : Prop :=
    holds (pd_symbols p) (set_of t) (bind_vars (op_params o) args no_env) (op_pre o).
  Definition goal_true (t : aset) : Prop := holds (pd_symbols p) (set_of t) no_env (pd_goal p).

  (** The effects of [o] with the axioms they trigger, before derived predicates. *)
  Definition effects_give (o : op) (args : list object) (t : aset) : outcome (nat * aset) :=
    let cond := a_cond (pd_symbols p) in
    sub_effs a_ins a_del cond (pd_symbols p) (pd_axioms p)
      (sub_axiom a_ins a_del cond (pd_symbols p) (pd_axioms p) (l_cascade L))
      (op_params o) args (op_effs o) t.

  (** [t'] results from [t]: effects first, then the derived predicates are
      what their rules say. *)
  Definition results_in (o : op) (args : list object) (t t' : aset) : Prop :=
    exists n t1, effects_give o args t = Ok (n, t1) /\
      (forall a, ~ any_defined (pd_symbols p) (pd_derived p) a -> t' a = t1 a) /\
      (forall d, In d (pd_derived p) -> satisfied (pd_symbols p) (set_of t') d).

  Inductive executes : list string -> aset -> aset -> Prop :=
  | ex_nil t : executes [] t t
  | ex_call call cs o args t t' t'' : calls call o args -> results_in o args t t' -> executes cs t' t'' ->
      executes (call :: cs) t t''.

  (** Every precondition holds when its call is reached, and the goal at the end ... *)
  Inductive plan_ok : list string -> aset -> Prop :=
  | po_goal t : goal_true t -> plan_ok [] t
  | po_call call cs o args t t' : calls call o args -> precondition o args t -> results_in o args t t' ->
      plan_ok cs t' -> plan_ok (call :: cs) t.
  (** ... or there is a first one that does not. *)
  Inductive plan_fails : list string -> aset -> Prop :=
  | pf_goal t : ~ goal_true t -> plan_fails [] t
  | pf_precondition call cs o args t : calls call o args -> ~ precondition o args t -> plan_fails (call :: cs) t
  | pf_call call cs o args t t' : calls call o args -> precondition o args t -> results_in o args t t' ->
      plan_fails cs t' -> plan_fails (call :: cs) t.
End Execution.

Section WithHash.
  Context `{SH : StdHash}.

  (** The State has exactly the propositions of the set. *)
  Definition represents (s : state) (t : aset) : Prop := built s /\ forall a, atoms s a <-> t a = true.
End WithHash.

(** Text for the atoms of a set, in any order and with repetitions. *)
Definition spells (objects : list object) (strs : list string) (t : aset) : Prop :=
  (forall x, In x strs -> exists name ws, call_text x name ws /\
     forall w, In w ws -> exists o, In o objects /\ oname o = w) /\
  (forall a, t a = true <-> exists x, In x strs /\ call_text x (fst a) (snd a)).

(** ** Applicable calls *)

(** In the order of declaration and of CartesianSpec.cart; actions without
    parameters are left out. *)
Definition applicable (p : pddl) (t : aset) : list (op * list object) :=
  flat_map (fun o => map (fun args => (o, args))
      (filter (fun args => holdsb (pd_symbols p) t (bind_vars (op_params o) args no_env) (op_pre o))
         (match op_params o with [] => [] | _ => tuples (pd_symbols p) (op_params o) end)))
    (filter (fun o => negb (op_is_axiom o)) (pd_ops p)).
