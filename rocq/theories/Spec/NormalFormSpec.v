(** Meaning of normal forms. *)
From Coq Require Import String List Bool ZArith.
From Verif.Model Require Import Base Object Proposition State Syntax NormalForm.
From Verif.Spec Require Import SetSpec TypingSpec FormulaSpec EffectSpec.
Import ListNotations.
Local Open Scope string_scope.

(** Truth of a ground atom given by names: = compares names, type predicates
    look at the declared object of that name, other atoms are looked up in [S]. *)
Definition truth (objects : list object) (S : atom -> Prop) (a : atom) : Prop :=
  (fst a = "=" /\ exists x, snd a = [x; x]) \/
  (fst a <> "=" /\ is_type objects (fst a) /\ exists o, In o objects /\ snd a = [oname o] /\ has_type o (fst a)) \/
  (fst a <> "=" /\ ~ is_type objects (fst a) /\ S a).

Section WithHash.
  Context `{SH : StdHash}.
  Variable V : atom -> Prop.

  (** A conjunction of literals, a disjunction of conjunctions ([] stands for
      true), and the optional result (None stands for false). *)
  Definition conj_sat (c : partial_state) : Prop :=
    (forall p, In p (st_elements (ps_pos c)) -> V (prop_key p)) /\
    (forall p, In p (st_elements (ps_neg c)) -> ~ V (prop_key p)).
  Definition list_sat (d : dnf) : Prop := exists c, In c d /\ conj_sat c.
  Definition dnf_sat (d : dnf) : Prop := d = [] \/ list_sat d.
  Definition result_sat (r : option dnf) : Prop := match r with None => False | Some d => dnf_sat d end.
End WithHash.

(** Sets of atoms given by their characteristic function. *)
Definition set_of (S : atom -> bool) (a : atom) : Prop := S a = true.
Definition valid (objects : list object) (e : assignment) (g : goal) : Prop :=
  forall S, holds objects (set_of S) e g.
Definition satisfiable (objects : list object) (e : assignment) (g : goal) : Prop :=
  exists S, holds objects (set_of S) e g.
Definition simple (g : goal) : Prop := match g with GSimple _ _ => True | _ => False end.

(** No negated subformula and no disjunct is trivially true, and no disjunction
    consists of trivially false disjuncts only.  Atoms are exempt. *)
Fixpoint nondegenerate (objects : list object) (e : assignment) (g : goal) : Prop :=
  match g with
  | GSimple _ _ => True
  | GConj gs => (fix all gs := match gs with [] => True | g :: gs' => nondegenerate objects e g /\ all gs' end) gs
  | GDisj gs =>
      (fix all gs := match gs with
                     | [] => True
                     | g :: gs' => (nondegenerate objects e g /\ (simple g \/ ~ valid objects e g)) /\ all gs'
                     end) gs /\
      exists g, In g gs /\ (simple g \/ satisfiable objects e g)
  | GNeg g => nondegenerate objects e g /\ (simple g \/ ~ valid objects e g)
  | GForall vars g => forall objs, well_typed objects vars objs -> nondegenerate objects (bind_vars vars objs e) g
  | GExists vars g =>
      (forall objs, well_typed objects vars objs ->
         nondegenerate objects (bind_vars vars objs e) g /\ (simple g \/ ~ valid objects (bind_vars vars objs e) g)) /\
      exists objs, well_typed objects vars objs /\ (simple g \/ satisfiable objects (bind_vars vars objs e) g)
  | GOther => False
  end.

(** Constants in the formula are declared. *)
Fixpoint declared (objects : list object) (g : goal) : Prop :=
  match g with
  | GSimple _ args => Forall (fun x => okind x = KConst -> In x objects) args
  | GConj gs | GDisj gs =>
      (fix all gs := match gs with [] => True | g :: gs' => declared objects g /\ all gs' end) gs
  | GNeg g | GForall _ g | GExists _ g => declared objects g
  | GOther => True
  end.

(** What the effects ask of the state after the action: additions hold,
    deletions do not, for every instance; a conditional effect whose condition
    holds has its postcondition.  Conditions are read in the same state. *)
Fixpoint post (objects : list object) (S : atom -> Prop) (env : assignment) (e : effs) : Prop :=
  match e with
  | Effs fs adds dels cs =>
      (fix all fs := match fs with
                     | [] => True
                     | (vars, b) :: fs' =>
                         (forall objs, well_typed objects vars objs -> post objects S (bind_vars vars objs env) b) /\ all fs'
                     end) fs /\
      (forall p, In p adds -> atom_holds objects S (pname p) (map (denote env) (pargs p))) /\
      (forall p, In p dels -> ~ atom_holds objects S (pname p) (map (denote env) (pargs p))) /\
      (fix all cs := match cs with
                     | [] => True
                     | (g, b) :: cs' => (holds objects S env g -> post objects S env b) /\ all cs'
                     end) cs
  end.

(** No condition is trivially true or false and no conditional effect asks nothing. *)
Fixpoint nondegenerate_effs (objects : list object) (env : assignment) (e : effs) : Prop :=
  match e with
  | Effs fs _ _ cs =>
      (fix all fs := match fs with
                     | [] => True
                     | (vars, b) :: fs' =>
                         (forall objs, well_typed objects vars objs ->
                            nondegenerate_effs objects (bind_vars vars objs env) b) /\ all fs'
                     end) fs /\
      (fix all cs := match cs with
                     | [] => True
                     | (g, b) :: cs' =>
                         (nondegenerate objects env g /\ ~ valid objects env g /\ satisfiable objects env g /\
                          nondegenerate_effs objects env b /\ ~ (forall S, post objects (set_of S) env b)) /\ all cs'
                     end) cs
  end.

Fixpoint declared_effs (objects : list object) (e : effs) : Prop :=
  match e with
  | Effs fs adds dels cs =>
      (fix all fs := match fs with [] => True | (vars, b) :: fs' => declared_effs objects b /\ all fs' end) fs /\
      Forall (fun p => Forall (fun x => okind x = KConst -> In x objects) (pargs p)) adds /\
      Forall (fun p => Forall (fun x => okind x = KConst -> In x objects) (pargs p)) dels /\
      (fix all cs := match cs with
                     | [] => True
                     | (g, b) :: cs' => (declared objects g /\ declared_effs objects b) /\ all cs'
                     end) cs
  end.

Section WithHash2.
  Context `{SH : StdHash}.

  (** Conjunctions of ground literals over declared objects. *)
  Definition ground_conj (objects : list object) (c : partial_state) : Prop :=
    built (ps_pos c) /\ built (ps_neg c) /\
    forall p, In p (st_elements (ps_pos c)) \/ In p (st_elements (ps_neg c)) ->
      arity_ok objects (pname p) (pargs p) /\ Forall (fun o => In o objects) (pargs p).

  (** Every literal of [c] is a literal of [d]. *)
  Definition literals_in (c d : partial_state) : Prop :=
    (forall a, atoms (ps_pos c) a -> atoms (ps_pos d) a) /\
    (forall a, atoms (ps_neg c) a -> atoms (ps_neg d) a).
  Fixpoint increasing (d : dnf) : Prop :=
    match d with
    | [] => True
    | c :: d' => Forall (fun x => ps_ltb c x = true) d' /\ increasing d'
    end.
  (** No conjunction contains the literals of another one. *)
  Fixpoint irredundant (d : dnf) : Prop :=
    match d with
    | [] => True
    | c :: d' => Forall (fun x => ~ literals_in c x /\ ~ literals_in x c) d' /\ irredundant d'
    end.
End WithHash2.
