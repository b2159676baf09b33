(** symbolic/problem.py: the Python builder of problem files.
    A Python str is a Coq [string]; text outside ASCII is not represented. *)
From Coq Require Import Ascii String List Bool Arith.
From Verif.Model Require Import Base Text.
Import ListNotations.
Local Open Scope string_scope.
Local Open Scope list_scope.

(** problem.py 17: Formula = Union[str, Sequence], nested to any depth. *)
Inductive pyform : Set := PStr (s : string) | PSeq (l : list pyform).

(** 9-10, Object.__repr__ *)
Definition object_repr (name type : string) : string :=
  if String.eqb type "" then name else (name ++ " - " ++ type)%string.

(** 13-14, create_inline_group *)
Definition inline_group (name token : string) : string := ("(" ++ name ++ " " ++ token ++ ")")%string.

(** 20-21, create_group *)
Definition group_items (name : string) (tokens : pyform) : list pyform :=
  [PStr ("(" ++ name)%string; tokens; PStr ")"].
Definition group (name : string) (tokens : pyform) : pyform := PSeq (group_items name tokens).

(** 24-25, _P: " ".join(arguments) is [join] of Text.v. *)
Definition py_P (predicate : string) (arguments : list string) : string :=
  inline_group predicate (join " " arguments).

(** 28-53 *)
Definition py_and (formulas : list pyform) : pyform := group "and" (PSeq formulas).
Definition py_or (formulas : list pyform) : pyform := group "or" (PSeq formulas).
Definition py_not (formula : pyform) : pyform :=
  match formula with
  | PStr s => PStr (inline_group "not" s)
  | PSeq _ => group "not" formula
  end.
Definition py_forall (var var_type : string) (formula : pyform) : pyform :=
  group ("forall " ++ object_repr ("?" ++ var) var_type)%string formula.
Definition py_exists (var var_type : string) (formula : pyform) : pyform :=
  group ("exists " ++ object_repr ("?" ++ var) var_type)%string formula.
Definition py_when (condition implies : pyform) : pyform := group "when" (PSeq [condition; implies]).

(** str.replace(" ", "") *)
Fixpoint remove_spaces (s : string) : string :=
  match s with
  | EmptyString => EmptyString
  | String c s' => if Ascii.eqb c " " then remove_spaces s' else String c (remove_spaces s')
  end.

(** str.split(","): the pieces between commas, at least one. *)
Fixpoint split_commas (s : string) : list string :=
  match s with
  | EmptyString => [EmptyString]
  | String c s' =>
      if Ascii.eqb c "," then EmptyString :: split_commas s'
      else match split_commas s' with
           | [] => [String c EmptyString]
           | w :: ws => String c w :: ws
           end
  end.

(** 56-68, 71-79, 82-90: the pattern ([^\(]* )\(([^\)]* ) matches iff there is an
    opening parenthesis; the groups are the text before the first one, and the
    text after it up to the first closing parenthesis.  ValueError, the class
    that std::invalid_argument is translated to, otherwise. *)
Definition parse_proposition (s : string) : outcome (string * list string) :=
  match after "(" s with
  | None => Throw EInvalidArgument
  | Some t => Ok (before "(" s, split_commas (remove_spaces (before ")" t)))
  end.
Definition py_parse_head (s : string) : outcome string :=
  match after "(" s with None => Throw EInvalidArgument | Some _ => Ok (before "(" s) end.
Definition py_parse_args (s : string) : outcome (list string) :=
  match after "(" s with
  | None => Throw EInvalidArgument
  | Some t => Ok (split_commas (remove_spaces (before ")" t)))
  end.

(** 93-96, pprint_formula; "\t" * n is empty for negative n. *)
Definition newline : string := String "010" EmptyString.
Fixpoint tabs (n : nat) : string :=
  match n with O => EmptyString | S n' => String "009" (tabs n') end.
Fixpoint pprint (indent : nat) (f : pyform) : string :=
  match f with
  | PStr s => (tabs (indent - 1) ++ s ++ newline)%string
  | PSeq l => fold_right (fun g t => (pprint (S indent) g ++ t)%string) EmptyString l
  end.

(** 99-106, Problem.__init__ *)
Record problem : Set := mkProblem {
  pb_name : string;
  pb_domain : string;
  pb_objects : list (string * string);
  pb_init : list string;
  pb_goal : pyform
}.
Definition new_problem (name domain : string) : problem := mkProblem name domain [] [] (PStr "(and)").

(** 108-109, add_object *)
Definition pb_add_object (name type : string) (b : problem) : problem :=
  mkProblem (pb_name b) (pb_domain b) (pb_objects b ++ [(name, type)]) (pb_init b) (pb_goal b).

(** 111-115, add_initial_prop *)
Definition add_initial_prop (prop : string) (b : problem) : outcome problem :=
  let* prop' := match prop with
                | EmptyString => Ok prop
                | String c _ =>
                    if Ascii.eqb c "(" then Ok prop
                    else let* ' (head, args) := parse_proposition prop in Ok (py_P head args)
                end in
  Ok (mkProblem (pb_name b) (pb_domain b) (pb_objects b) (pb_init b ++ [prop']) (pb_goal b)).

(** 117-119, set_initial_state: the order in which the set is iterated. *)
Definition set_initial_state (state : list string) (b : problem) : outcome problem :=
  foldM (fun b prop => add_initial_prop prop b) state b.

(** 121-122, set_goal *)
Definition set_goal (goal : pyform) (b : problem) : problem :=
  mkProblem (pb_name b) (pb_domain b) (pb_objects b) (pb_init b) goal.

(** 124-154: the properties; definition; __repr__ *)
Definition goal_items (b : problem) : list pyform :=
  match pb_goal b with
  | PStr s => [PStr (inline_group ":goal" s)]
  | PSeq _ => group_items ":goal" (pb_goal b)
  end.
Definition objects_items (b : problem) : list pyform :=
  group_items ":objects" (PSeq (map (fun o => PStr (object_repr (fst o) (snd o))) (pb_objects b))).
Definition init_items (b : problem) : list pyform := group_items ":init" (PSeq (map PStr (pb_init b))).
Definition definition_of (b : problem) : pyform :=
  group ("define " ++ inline_group "problem" (pb_name b))%string
    (PSeq (PStr (inline_group ":domain" (pb_domain b)) :: objects_items b ++ init_items b ++ goal_items b)).
Definition problem_text (b : problem) : string := pprint 0 (definition_of b).
