(** Specification vocabulary for the program pddl: its command line and what it
    prints. *)
From Coq Require Import Ascii String List Bool NArith ZArith Arith.
From Verif.Model Require Import Base App.
From Verif.Spec Require Import TextSpec PrintSpec.
Import ListNotations.
Local Open Scope string_scope.
Local Open Scope list_scope.
Local Infix "+++" := String.append (at level 60, right associativity).

(** ** Numbers *)

(** The character is the digit [k]. *)
Definition digit (c : ascii) (k : nat) : Prop := nth_error (chars "0123456789") k = Some c.
(** The text is a non-empty row of digits with the value [v]. *)
Inductive digits : string -> Z -> Prop :=
| dg_one c k : digit c k -> digits (String c "") (Z.of_nat k)
| dg_more s v c k : digits s v -> digit c k -> digits (s +++ String c "") (10 * v + Z.of_nat k).
Definition no_digit_first (s : string) : Prop :=
  forall c s' k, s = String c s' -> ~ digit c k.
Definition blank_text (s : string) : Prop :=
  forall c, In c (chars s) -> In c [" "; "009"; "010"; "011"; "012"; "013"]%char.
(** The text begins with the number [z], behind blanks and a sign if any. *)
Definition starts_with_number (s : string) (z : Z) : Prop :=
  exists blanks sign row rest v, s = blanks +++ sign +++ row +++ rest /\ blank_text blanks /\
    digits row v /\ no_digit_first rest /\
    ((sign = "" /\ z = v) \/ (sign = "+" /\ z = v) \/ (sign = "-" /\ z = - v)%Z).
Definition an_int (z : Z) : Prop := (- 2147483648 <= z <= 2147483647)%Z.

(** ** The command line *)

Inductive item := Depth (z : Z) | Verbose.
Inductive written : list string -> list item -> Prop :=
| wr_nil : written [] []
| wr_depth s z l items : starts_with_number s z -> an_int z -> written l items ->
    written ("--depth" :: s :: l) (Depth z :: items)
| wr_verbose l items : written l items -> written ("--verbose" :: l) (Verbose :: items).

(** The last depth counts; negative depths are taken modulo 2^64. *)
Fixpoint depth_of (items : list item) (z : Z) : Z :=
  match items with
  | [] => if (z <? 0)%Z then (z + 18446744073709551616)%Z else z
  | Depth z' :: l => depth_of l z'
  | Verbose :: l => depth_of l z
  end.
Definition command (argv : list string) (a : args) : Prop :=
  exists prog l items, argv = prog :: ar_domain a :: ar_problem a :: l /\ written l items /\
    Z.of_N (ar_depth a) = depth_of items 5 /\ (ar_verbose a = true <-> In Verbose items).

(** Reading from the left, the first thing that is wrong: a missing or unknown
    argument, no number, or a number that is no int. *)
Inductive fault := Malformed | NoNumber | TooLarge.
Definition wrong (argv : list string) (f : fault) : Prop :=
  match f with
  | Malformed => length argv < 3 \/
      exists prog d p l items r, argv = prog :: d :: p :: l ++ r /\ written l items /\
        (r = ["--depth"] \/ exists x r', r = x :: r' /\ x <> "--depth" /\ x <> "--verbose")
  | NoNumber => exists prog d p l items s r, argv = prog :: d :: p :: l ++ "--depth" :: s :: r /\ written l items /\
        forall z, ~ starts_with_number s z
  | TooLarge => exists prog d p l items s z r, argv = prog :: d :: p :: l ++ "--depth" :: s :: r /\ written l items /\
        starts_with_number s z /\ ~ an_int z
  end.

(** ** What is printed *)

(** The text is the usual decimal numeral of [n]. *)
Definition numeral (s : string) (n : nat) : Prop :=
  digits s (Z.of_nat n) /\ (forall s', s = String "0" s' -> s' = "").

Section Narration.
  Context {N : Type} (isgoal : N -> bool) (kids : N -> list N) (d : nat) (root : N).
  Context (show : N -> string) (count : nat -> string) (report : nat -> list N -> string).

  (** The paths of [k] steps that do not pass through a goal. *)
  Fixpoint level (k : nat) : list (list N) :=
    match k with
    | O => [[root]]
    | S k' => flat_map (fun path => let n := last path root in
                if isgoal n then [] else map (fun c => path ++ [c]) (kids n)) (level k')
    end.
  (** Short ones first. *)
  Definition visits : list (list N) := flat_map level (seq 0 (S d)).
  Definition found : list (list N) := filter (fun path => isgoal (last path root)) visits.

  (** The reports of the plans, numbered from [k]. *)
  Fixpoint reports (k : nat) (plans : list (list N)) : string :=
    match plans with [] => "" | plan :: l => report k plan +++ reports (S k) l end.

  (** The same with the details: [known] is the number of nodes of the longest
      path since the last plan. *)
  Fixpoint narrate (k known : nat) (paths : list (list N)) : string :=
    match paths with
    | [] => ""
    | path :: l =>
        let n := last path root in
        (if Nat.ltb known (length path) then line ("BFS depth: " +++ count (length path - 1)) else "") +++
        if isgoal n then
          line ("Goal state reached: " +++ show n) +++ report k path +++ narrate (S k) 0 l
        else
          (if Nat.leb (length path) d then
             String.concat "" (map (fun m => line (show m)) path) +++ line "====================" +++
             String.concat "" (map (fun c => line (show c) +++ endl) (kids n))
           else "") +++ narrate k (Nat.max known (length path)) l
    end.
End Narration.

(** A plan found after [time]: where it starts, and each call with where it leads. *)
Record listed := mkListed { li_time : string; li_start : string; li_steps : list (string * string) }.
Fixpoint step_lines (i : nat) (l : list (string * string)) : list string :=
  match l with
  | [] => []
  | (call, s) :: l' =>
      (String "027" "[1m" +++ String.concat "" (repeat "-" i) +++ " " +++ call +++ " -> " +++ String "027" "[0m" +++ s)
      :: step_lines (S i) l'
  end.
Definition listing (x : listed) : list string :=
  [li_time x +++ "s"; String "027" "[1m -> " +++ String "027" "[0m" +++ li_start x] ++ step_lines 1 (li_steps x) ++ [""].
(** Texts of one line, calls without escapes, a time that begins with a digit. *)
Definition legible (x : listed) : Prop :=
  (exists c k s, li_time x = String c s /\ digit c k) /\ free_of "010" (li_time x) /\ free_of "010" (li_start x) /\
  Forall (fun st => free_of "010" (fst st) /\ free_of "027" (fst st) /\ free_of "010" (snd st)) (li_steps x).

(** The first lines, for a depth written [depth], and the last one. *)
Definition heading (a : args) (depth : string) : string :=
  line ("Domain: " +++ ar_domain a) +++ line ("Problem: " +++ ar_problem a) +++
  line ("Depth: " +++ depth) +++ endl.
Definition summary (count time : string) : string := line ("Found " +++ count +++ " plans in " +++ time +++ "s").
