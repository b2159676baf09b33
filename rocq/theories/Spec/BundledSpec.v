(** The world of resources/domain.pddl, in terms of names. *)
From Coq Require Import String List Bool ZArith.
From Verif.Model Require Import Base Object Proposition State ParameterGenerator Syntax Formula
  Effects Derived Consistency Text Pddl Objects Load.
From Verif.Spec Require Import SetSpec TypingSpec FormulaSpec EffectSpec DerivedSpec TextSpec PddlSpec.
Import ListNotations.
Local Open Scope string_scope.
Local Open Scope list_scope.

(** Problems of the domain: objects of its types with different names, not too
    many for counting triples. *)
Record lgp_problem (b : problem_syntax) : Prop := {
  lp_types : Forall (fun o => In (otype o) [["object"]; ["physobj"; "object"]; ["movable"; "physobj"; "object"];
                                   ["throwable"; "movable"; "physobj"; "object"]]) (ps_objects b);
  lp_names : NoDup ("table" :: map oname (ps_objects b));
  lp_words : Forall word (map oname (ps_objects b));
  lp_few : length (ps_objects b) <= 1289;
  lp_goal : wf_goal (mkObj "table" ["physobj"; "object"] KConst :: ps_objects b) [] (ps_goal b)
}.

(** The limits are no obstacle: nothing is derived. *)
Definition some_limits (L : limits) : Prop := 2 <= l_inner L /\ 1 <= l_outer L /\ 1 <= l_rounds L.

Definition inhand (x : string) : atom := ("inhand", [x]).
Definition on (x y : string) : atom := ("on", [x; y]).
Definition inworkspace (x : string) : atom := ("inworkspace", [x]).

Section World.
  Context (b : problem_syntax).

  (** The name of something to put things on; of something that can be moved. *)
  Definition thing (x : string) : Prop := x = "table" \/ exists o, In o (ps_objects b) /\ oname o = x /\ In "physobj" (otype o).
  Definition movable (x : string) : Prop := exists o, In o (ps_objects b) /\ oname o = x /\ In "movable" (otype o).

  Inductive moves : string -> list string -> (atom -> Prop) -> (atom -> Prop) -> Prop :=
  | mv_pick a (S S' : atom -> Prop) : movable a -> (forall x, movable x -> ~ S (inhand x)) -> S (inworkspace a) ->
      (forall f, S' f <-> f = inhand a \/ (S f /\ forall x, thing x -> f <> on a x)) ->
      moves "pick" [a] S S'
  | mv_place a x (S S' : atom -> Prop) : movable a -> thing x -> a <> x -> S (inhand a) -> S (inworkspace x) ->
      (forall f, S' f <-> f = on a x \/ (S f /\ f <> inhand a)) ->
      moves "place" [a; x] S S'
  | mv_push a x y (S S' : atom -> Prop) : movable a -> movable x -> thing y -> a <> x -> a <> y -> x <> y ->
      S (inhand a) -> S (on x y) -> S (inworkspace y) ->
      (forall f, S' f <-> f = inworkspace x \/ S f) ->
      moves "push" [a; x; y] S S'.

  (** Sensible sets of atoms: at most one thing is held, it can be moved, is
      within reach and rests on nothing; everything else that can be moved rests on exactly one other thing. *)
  Record tidy (S : atom -> Prop) : Prop := {
    td_held : forall x, S (inhand x) -> movable x /\ S (inworkspace x) /\ forall y, ~ S (on x y);
    td_one : forall x y, S (inhand x) -> S (inhand y) -> x = y;
    td_on : forall x y, S (on x y) -> movable x /\ thing y /\ x <> y;
    td_place : forall x y z, S (on x y) -> S (on x z) -> y = z;
    td_somewhere : forall x, movable x -> S (inhand x) \/ exists y, S (on x y)
  }.

  (** Moves one after the other. *)
  Inductive carries : list (string * list string) -> (atom -> Prop) -> (atom -> Prop) -> Prop :=
  | ca_none (S S' : atom -> Prop) : (forall f, S f <-> S' f) -> carries [] S S'
  | ca_move n ws l (S S1 S2 : atom -> Prop) : moves n ws S S1 -> carries l S1 S2 -> carries ((n, ws) :: l) S S2.
End World.

(** The problem of resources/problem.pddl: what holds at first, and the aim. *)
Definition box_start (f : atom) : Prop :=
  In f [inworkspace "table"; inworkspace "shelf"; inworkspace "hook"; on "hook" "table"; on "box" "table"].
Definition box_aim (S : atom -> Prop) : Prop := ~ S (inhand "hook") /\ ~ S (inhand "box") /\ S (on "box" "shelf").
Definition box_plan (x : string) : list (string * list string) :=
  [("pick", ["hook"]); ("push", ["hook"; "box"; "table"]); ("place", ["hook"; x]); ("pick", ["box"]); ("place", ["box"; "shelf"])].

Section WithHash.
  Context `{SH : StdHash}.
  (** What valid actions lead to. *)
  Inductive legal (L : limits) (p : pddl) : state * store -> state * store -> Prop :=
  | lg_none w : legal L p w w
  | lg_call w call w1 w2 : is_valid_action p (fst w) call = Ok true -> next_state L p call w = Ok w1 ->
      legal L p w1 w2 -> legal L p w w2.
End WithHash.
