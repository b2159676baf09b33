(** Output streams: src/formula.cc 42-341 (second component of the pairs),
    src/axiom.cc 47-69 and 225-234, src/action.cc 363-367 and 414-423, src/state.cc 64-80
    and 130-140, src/normal_form.cc 564-593, src/planning/planner.cc 127-141,
    src/object.cc 155-162.  A stream is the text written to it. *)
From Coq Require Import Ascii String List Bool.
From Verif.Model Require Import Base Object Proposition State CombinationGenerator
  ParameterGenerator Syntax Formula Text NormalForm Planner.
Import ListNotations.
Local Open Scope string_scope.
Local Open Scope list_scope.
Local Infix "+++" := String.append (at level 60, right associativity).

(** std::endl *)
Definition endl : string := String "010" EmptyString.

(** std::stringstream ss(init): without std::ios::ate writing starts at the
    first character and overwrites [init]; what is not overwritten stays. *)
Definition overwrite (init written : string) : string :=
  written +++ substring (String.length written) (String.length init - String.length written) init.

(** formula.cc 253-257 and 292-296: the loop over [parameters] (those of the
    surrounding scope, not the quantified ones). *)
Definition param_text (x : object) : string := "?" +++ oname x +++ " - " +++ type_name (otype x).

(** formula.cc 252-258 and 291-297 *)
Definition quantifier_text (init : string) (params : list object) (body : string) : string :=
  overwrite init (join " " (map param_text params) +++ ")" +++ endl +++ body +++ endl +++ ")").

(** formula.cc 303-341: the string that CreateFormula returns (66, 81, 94;
    101-113; 131-143; 171, 204-205, 221; 252-260; 291-299).  It does not depend
    on the kind of state. *)
Fixpoint goal_text (params : list object) (g : goal) : string :=
  match g with
  | GSimple name args => prop_to_pddl (mkProp name args)
  | GConj gs => "(and" +++ fold_right (fun g s => " " +++ goal_text params g +++ s) ")" gs
  | GDisj gs => "(or" +++ fold_right (fun g s => " " +++ goal_text params g +++ s) ")" gs
  | GNeg g => "(not " +++ goal_text params g +++ ")"
  | GForall vars g => quantifier_text "(forall (" params (goal_text (params ++ vars) g)
  | GExists vars g => quantifier_text "(exists (" params (goal_text (params ++ vars) g)
  | GOther => EmptyString
  end.

(** proposition.cc 54-63, predicate.cc 44-53, action.cc 414-423: a name and
    objects in parentheses; object.cc 155-162: objects without parentheses. *)
Definition objects_text (l : list object) : string := join ", " (map oname l).
Definition op_text (o : op) : string := print_call (op_name o) (op_params o).

(** std::sort on std::vector<std::string>: the sorted permutation. *)
Fixpoint insert_string (x : string) (l : list string) : list string :=
  match l with
  | [] => [x]
  | y :: l' => if String.ltb y x then y :: insert_string x l' else x :: l
  end.
Definition sort_strings (l : list string) : list string := fold_right insert_string [] l.

(** state.cc 73-78 *)
Definition braces (l : list string) : string := "{ " +++ join ", " l +++ " }".

(** A proposition in a line of its own, after [indent]. *)
Definition line (indent : string) (p : prop) : string := indent +++ prop_to_string p +++ endl.
Definition lines (indent : string) (l : list prop) : string :=
  fold_right (fun p s => line indent p +++ s) EmptyString l.

Section WithHash.
  Context `{SH : StdHash}.

  (** formula.cc 347-355, the constructor, and formula.h 60: both kinds of
      formulas are created, the string is that of the second. *)
  Definition formula_to_string (om : object_map) (g : goal) (params : list object) : outcome string :=
    let* _ := compile false om g params in
    let* _ := compile true om g params in
    Ok (goal_text params g).

  (** state.cc 64-80 *)
  Definition state_text (s : state) : string :=
    braces (sort_strings (map prop_to_string (st_elements s))).

  (** state.cc 130-140 *)
  Definition tab : string := String "009" EmptyString.
  Definition partial_text (s : partial_state) : string :=
    "(and" +++ endl +++ lines tab (st_elements (ps_pos s)) +++
    lines (tab +++ "not ") (st_elements (ps_neg s)) +++ ")" +++ endl.

  (** normal_form.cc 564-593: [outer] is "or" for disjunctions of conjunctions
      and "and" for conjunctions of disjunctions, [inner] the other. *)
  Definition term_text (inner : string) (c : partial_state) : string :=
    "    (" +++ inner +++ endl +++ lines "        " (st_elements (ps_pos c)) +++
    lines "        not " (st_elements (ps_neg c)) +++ "    )" +++ endl.
  Definition nf_text (outer inner : string) (d : dnf) : string :=
    "(" +++ outer +++ endl +++ fold_right (fun c s => term_text inner c +++ s) EmptyString d +++ ")" +++ endl.
  Definition dnf_text : dnf -> string := nf_text "or" "and".
  Definition cnf_text : dnf -> string := nf_text "and" "or".

  (** axiom.cc 47-69, StringifyFormula: exceptions become "false"; an empty
      optional is dereferenced. *)
  Definition nf_or_false (r : outcome (option dnf)) : outcome string :=
    match r with
    | Ok (Some d) => Ok (dnf_text d)
    | Ok None => UB
    | Throw _ => Ok "false"
    | UB => UB | AssertFail => AssertFail | OutOfFuel => OutOfFuel
    end.
  (** axiom.cc 111-118 (formula_) and 225-234; the parameters stand for their
      own arguments *)
  Definition axiom_text (om : object_map) (o : op) : outcome string :=
    let* pre := nf_or_false (create_goal om None (op_pre o) (op_params o) (op_params o)) in
    let* post := nf_or_false (create_effs om None (op_effs o) (op_params o) (op_params o)) in
    Ok (print_call "axiom" (op_params o) +++ ": " +++ pre +++ " => " +++ post).

  (** planner.cc 127-128 *)
  Definition bold_on : string := String "027" "[1m".
  Definition bold_off : string := String "027" "[0m".

  (** planner.cc 130-141 *)
  Definition node_text (n : node) : string :=
    bold_on +++ fold_right (fun _ s => String "-" s) EmptyString (seq 0 (nd_depth n)) +++
    (if Nat.ltb 0 (nd_depth n) then " " else EmptyString) +++ nd_action n +++ " -> " +++
    bold_off +++ state_text (nd_state n).
End WithHash.
