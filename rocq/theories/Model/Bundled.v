(** resources/domain.pddl and resources/problem.pddl, as VAL reads them. *)
From Coq Require Import Ascii String List Bool NArith ZArith Arith.
From Verif.Model Require Import Base Object Proposition State ParameterGenerator Syntax Formula
  Effects Derived Consistency Text Pddl Objects Load.
Import ListNotations.
Local Open Scope string_scope.
Local Open Scope list_scope.

(** domain.pddl 3-7 *)
Definition t_physobj : pddl_type := ["physobj"; "object"].
Definition t_movable : pddl_type := ["movable"; "physobj"; "object"].
Definition t_throwable : pddl_type := ["throwable"; "movable"; "physobj"; "object"].
Definition lgp_types : list pddl_type := [["object"]; t_physobj; t_movable; t_throwable].
(** 8 *)
Definition table : object := mkObj "table" t_physobj KConst.
(** 9-14 *)
Definition lgp_predicates : list (string * list object) :=
  [("inhand", [mkObj "?a" t_movable (KVar 0)]);
   ("on", [mkObj "?a" t_movable (KVar 1); mkObj "?b" t_physobj (KVar 2)]);
   ("inworkspace", [mkObj "?a" t_physobj (KVar 3)]);
   ("throwable", [mkObj "?a" t_movable (KVar 4)])].

(** 15-25 *)
Definition pick : op :=
  let a := mkObj "?a" t_movable (KVar 5) in
  mkOp "pick" false [a]
    (let b := mkObj "?b" t_movable (KVar 6) in
     GConj [GForall [b] (GNeg (GSimple "inhand" [b])); GSimple "inworkspace" [a]])
    (let b := mkObj "?b" t_physobj (KVar 7) in
     Effs [([b], Effs [] [] [mkProp "on" [a; b]] [])] [mkProp "inhand" [a]] [] []).

(** 26-37 *)
Definition place : op :=
  let a := mkObj "?a" t_movable (KVar 8) in
  let b := mkObj "?b" t_physobj (KVar 9) in
  mkOp "place" false [a; b]
    (GConj [GNeg (GSimple "=" [a; b]); GSimple "inhand" [a]; GSimple "inworkspace" [b]])
    (Effs [] [mkProp "on" [a; b]] [mkProp "inhand" [a]] []).

(** 69-80; 38-68 are comments *)
Definition push : op :=
  let a := mkObj "?a" t_movable (KVar 10) in
  let b := mkObj "?b" t_movable (KVar 11) in
  let c := mkObj "?c" t_physobj (KVar 12) in
  mkOp "push" false [a; b; c]
    (GConj [GNeg (GSimple "=" [a; b]); GNeg (GSimple "=" [a; c]); GNeg (GSimple "=" [b; c]);
            GSimple "inhand" [a]; GSimple "on" [b; c]; GSimple "inworkspace" [c]])
    (Effs [] [mkProp "inworkspace" [b]] [] []).

Definition lgp : domain_syntax := mkDomain (Some lgp_types) [table] [pick; place; push] [].

(** problem.pddl 3-7 *)
Definition shelf : object := mkObj "shelf" t_physobj KConst.
Definition hook : object := mkObj "hook" t_movable KConst.
Definition box : object := mkObj "box" t_throwable KConst.
(** 8-14 *)
Definition box_init : list prop :=
  [mkProp "inworkspace" [table]; mkProp "inworkspace" [shelf]; mkProp "inworkspace" [hook];
   mkProp "on" [hook; table]; mkProp "on" [box; table]].
(** 15-19 *)
Definition box_goal : goal :=
  GConj [GNeg (GSimple "inhand" [hook]); GNeg (GSimple "inhand" [box]); GSimple "on" [box; shelf]].
Definition put_box_on_shelf : problem_syntax := mkProblemSyntax [shelf; hook; box] box_init box_goal.
