(** How normal forms read a formula over ordinary predicates (neither = nor
    types), degenerate ones included. *)
From Coq Require Import String List.
From Verif.Model Require Import Object Proposition Syntax.
From Verif.Spec Require Import SetSpec TypingSpec FormulaSpec EffectSpec NormalFormSpec.
Import ListNotations.

(** A formula is read as a condition on sets of atoms; some formulas are in
    addition [constant], i.e. recognised as true without looking at atoms. *)
Record reading := mkReading { constant : Prop; meaning : (atom -> Prop) -> Prop }.
Definition never (r : reading) : Prop := forall S : atom -> bool, ~ meaning r (set_of S).
Definition surely (r : reading) : Prop := forall S : atom -> bool, meaning r (set_of S).

Definition all_of (rs : reading -> Prop) : reading :=
  mkReading (forall r, rs r -> constant r) (fun S => forall r, rs r -> meaning r S).
(** True disjuncts do not count; a disjunction of which none counts is true. *)
Definition any_of (rs : reading -> Prop) : reading :=
  let none := forall r, rs r -> constant r \/ never r in
  mkReading none (fun S => none \/ exists r, rs r /\ ~ constant r /\ meaning r S).
(** The negation of true is true. *)
Definition not_of (r : reading) : reading :=
  mkReading (constant r \/ never r) (fun S => constant r \/ ~ meaning r S).

Fixpoint reads (objects : list object) (e : assignment) (g : goal) : reading :=
  match g with
  | GSimple n args => mkReading False (fun S => atom_holds objects S n (map (denote e) args))
  | GConj gs => all_of (fun r => In r (map (reads objects e) gs))
  | GDisj gs => any_of (fun r => In r (map (reads objects e) gs))
  | GNeg g => not_of (reads objects e g)
  | GForall vars g =>
      all_of (fun r => exists objs, well_typed objects vars objs /\ r = reads objects (bind_vars vars objs e) g)
  | GExists vars g =>
      any_of (fun r => exists objs, well_typed objects vars objs /\ r = reads objects (bind_vars vars objs e) g)
  | GOther => mkReading False (fun _ => False)
  end.

(** A conditional effect is asked for when the condition is constant.  It is
    ignored when the condition holds in every set of atoms without being
    constant.  If it asks nothing, the condition must not hold. *)
Definition when_of (c b : reading) : reading :=
  mkReading (never c \/ (constant c /\ constant b) \/ (~ constant c /\ surely c))
    (fun S => (constant c -> meaning b S) /\
              (~ constant c -> surely c \/ ~ meaning c S \/ (~ constant b /\ meaning b S))).
Definition literals_of (objects : list object) (e : assignment) (adds dels : list prop) : reading :=
  mkReading (adds = [] /\ dels = [])
    (fun S => (forall p, In p adds -> atom_holds objects S (pname p) (map (denote e) (pargs p))) /\
              (forall p, In p dels -> ~ atom_holds objects S (pname p) (map (denote e) (pargs p)))).

Fixpoint reads_effs (objects : list object) (env : assignment) (e : effs) : reading :=
  match e with
  | Effs fs adds dels cs =>
      all_of (fun r =>
        (fix any fs := match fs with
                       | [] => False
                       | (vars, b) :: fs' =>
                           (exists objs, well_typed objects vars objs /\ r = reads_effs objects (bind_vars vars objs env) b) \/
                           any fs'
                       end) fs \/
        r = literals_of objects env adds dels \/
        (fix any cs := match cs with
                       | [] => False
                       | (g, b) :: cs' => r = when_of (reads objects env g) (reads_effs objects env b) \/ any cs'
                       end) cs)
  end.

(** No effect that cannot be had is asked for on a constant condition. *)
Fixpoint askable (objects : list object) (env : assignment) (e : effs) : Prop :=
  match e with
  | Effs fs _ _ cs =>
      (fix all fs := match fs with
                     | [] => True
                     | (vars, b) :: fs' =>
                         (forall objs, well_typed objects vars objs -> askable objects (bind_vars vars objs env) b) /\ all fs'
                     end) fs /\
      (fix all cs := match cs with
                     | [] => True
                     | (g, b) :: cs' =>
                         (never (reads objects env g) \/
                          (askable objects env b /\ ~ (constant (reads objects env g) /\ never (reads_effs objects env b)))) /\
                         all cs'
                     end) cs
  end.

(** Instances are tried in order until one cannot be had; each may throw. *)
Fixpoint stops (l : list (Prop * Prop)) : Prop :=
  match l with
  | [] => False
  | (throws, none) :: l' => throws \/ (~ none /\ stops l')
  end.
(** When normalizing an effect throws: an instance of a forall effect throws (the
    objects are tried in the order they are declared in), or, if none of these
    instances is impossible, a conditional effect whose condition is not
    impossible throws, or asks for something impossible on a constant condition. *)
Fixpoint rejects (objects : list object) (env : assignment) (e : effs) : Prop :=
  match e with
  | Effs fs _ _ cs =>
      let instances :=
        (fix go fs := match fs with
                      | [] => []
                      | (vars, b) :: fs' =>
                          map (fun t => (rejects objects (bind_vars vars t env) b,
                                         never (reads_effs objects (bind_vars vars t env) b)))
                              (tuples objects vars) ++ go fs'
                      end) fs in
      stops instances \/
      ((forall t n, In (t, n) instances -> ~ n) /\
       (fix some cs := match cs with
                       | [] => False
                       | (g, b) :: cs' =>
                           (~ never (reads objects env g) /\
                            (rejects objects env b \/
                             (constant (reads objects env g) /\ never (reads_effs objects env b)))) \/
                           some cs'
                       end) cs)
  end.

(** No negated subformula and no disjunct is constant, and of every disjunction
    some disjunct is satisfiable. *)
Fixpoint regular (objects : list object) (e : assignment) (g : goal) : Prop :=
  match g with
  | GSimple _ _ => True
  | GConj gs => (fix all gs := match gs with [] => True | g :: gs' => regular objects e g /\ all gs' end) gs
  | GDisj gs =>
      (fix all gs := match gs with
                     | [] => True
                     | g :: gs' => (regular objects e g /\ ~ constant (reads objects e g)) /\ all gs'
                     end) gs /\
      exists g, In g gs /\ satisfiable objects e g
  | GNeg g => regular objects e g /\ ~ constant (reads objects e g)
  | GForall vars g => forall objs, well_typed objects vars objs -> regular objects (bind_vars vars objs e) g
  | GExists vars g =>
      (forall objs, well_typed objects vars objs ->
         regular objects (bind_vars vars objs e) g /\ ~ constant (reads objects (bind_vars vars objs e) g)) /\
      exists objs, well_typed objects vars objs /\ satisfiable objects (bind_vars vars objs e) g
  | GOther => False
  end.
