(** Rules and the atoms they define. *)
From Coq Require Import String List ZArith Arith.
From Verif.Model Require Import Base Object Proposition State Syntax Derived.
From Verif.Spec Require Import SetSpec TypingSpec FormulaSpec EffectSpec.
Import ListNotations.

(** Rules of the supported fragment: at least one parameter. *)
Definition good_derived (objects : list object) (d : derived) : Prop :=
  dp_params d <> [] /\ (tuple_count objects (dp_params d) < 2 ^ 31)%Z /\
  wf_goal objects (map oname (dp_params d)) (dp_body d).

(** The atom defined by a rule for given arguments, and the truth of its body. *)
Definition head (d : derived) (args : list object) : atom := (dp_name d, map oname args).
Definition body_holds (objects : list object) (S : atom -> Prop) (d : derived) (args : list object) : Prop :=
  holds objects S (bind_vars (dp_params d) args no_env) (dp_body d).

Definition defined_by (objects : list object) (d : derived) (a : atom) : Prop :=
  exists args, well_typed objects (dp_params d) args /\ a = head d args.

(** Every instance of the rule is an equivalence in [S]. *)
Definition satisfied (objects : list object) (S : atom -> Prop) (d : derived) : Prop :=
  forall args, well_typed objects (dp_params d) args -> (S (head d args) <-> body_holds objects S d args).

(** No recursion: bodies mention derived predicates of smaller rank only. *)
Definition stratified (ds : list derived) (rank : string -> nat) : Prop :=
  forall d d', In d ds -> In d' ds -> In (dp_name d') (goal_preds (dp_body d)) ->
    rank (dp_name d') < rank (dp_name d).

(** Atoms defined by some rule. *)
Definition any_defined (objects : list object) (ds : list derived) (a : atom) : Prop :=
  exists d, In d ds /\ defined_by objects d a.

(** Predicates in [D] occur under an even number of negations only ([b = true]),
    or under an odd number only ([b = false]). *)
Fixpoint polarity (D : string -> Prop) (b : bool) (g : goal) : Prop :=
  match g with
  | GSimple name _ => b = true \/ ~ D name
  | GConj gs | GDisj gs =>
      (fix all gs := match gs with [] => True | g :: gs' => polarity D b g /\ all gs' end) gs
  | GNeg g => polarity D (negb b) g
  | GForall _ g | GExists _ g => polarity D b g
  | GOther => True
  end.
Definition positive (ds : list derived) : Prop :=
  forall d, In d ds -> polarity (fun n => exists d', In d' ds /\ n = dp_name d') true (dp_body d).

(** The rules, read as implications. *)
Definition closed (objects : list object) (S : atom -> Prop) (d : derived) : Prop :=
  forall args, well_typed objects (dp_params d) args -> body_holds objects S d args -> S (head d args).
