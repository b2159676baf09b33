(** Text of propositions, action calls and states: src/object.cc 38-72, 129-153,
    src/proposition.cc 38-63, include/symbolic/proposition.h 36-38,
    src/action.cc 315-325, 369-412, src/state.cc 47-62.
    A std::string is a Coq [string] (a sequence of bytes). *)
From Coq Require Import String Ascii List Bool NArith.
From Verif.Model Require Import Base Object Proposition State Syntax.
Import ListNotations.
Local Open Scope string_scope.
Local Open Scope list_scope.

(** substr(0, find_first_of(c)): everything when [c] does not occur. *)
Fixpoint before (c : ascii) (s : string) : string :=
  match s with
  | EmptyString => EmptyString
  | String d s' => if Ascii.eqb d c then EmptyString else String d (before c s')
  end.

(** substr(find_first_of(c) + 1), None when [c] does not occur. *)
Fixpoint after (c : ascii) (s : string) : option string :=
  match s with
  | EmptyString => None
  | String d s' => if Ascii.eqb d c then Some s' else after c s'
  end.

(** substr(0, find_last_of(c)), None when [c] does not occur. *)
Fixpoint before_last (c : ascii) (s : string) : option string :=
  match s with
  | EmptyString => None
  | String d s' =>
      match before_last c s' with
      | Some t => Some (String d t)
      | None => if Ascii.eqb d c then Some EmptyString else None
      end
  end.

(** proposition.h 36-38, ParseHead *)
Definition parse_head (s : string) : string := before "(" s.

(** std::isspace in the "C" locale, used by operator>> *)
Definition is_space (c : ascii) : bool :=
  let n := N_of_ascii c in (N.eqb n 32 || (N.leb 9 n && N.leb n 13))%N.

(** std::replace *)
Fixpoint replace (a b : ascii) (s : string) : string :=
  match s with
  | EmptyString => EmptyString
  | String c s' => String (if Ascii.eqb c a then b else c) (replace a b s')
  end.

(** The words extracted by [while (ss >> arg)]: the word at the start of the
    string (empty if it starts with white space) and the words after it. *)
Definition flush (w : string) (ws : list string) : list string :=
  match w with EmptyString => ws | _ => w :: ws end.
Fixpoint split (s : string) : string * list string :=
  match s with
  | EmptyString => (EmptyString, [])
  | String c s' =>
      let (w, ws) := split s' in
      if is_space c then (EmptyString, flush w ws) else (String c w, ws)
  end.
Definition words (s : string) : list string := let (w, ws) := split s in flush w ws.

(** object.cc 58-72, TokenizeArguments.  Without '(' the sum npos + 1 wraps to
    0, so the arguments start at the beginning; without a ')' after that they
    extend to the end (if there is one before it, the difference of the indices
    wraps and substr stops at the end). *)
Definition tokenize (s : string) : list string :=
  let t := match after "(" s with Some t => t | None => s end in
  let u := match before_last ")" t with Some u => u | None => t end in
  words (replace "," " " u).

(** proposition.cc 54-63 and action.cc 369-379: the loop over the arguments. *)
Fixpoint join (sep : string) (l : list string) : string :=
  match l with
  | [] => EmptyString
  | [x] => x
  | x :: l' => (x ++ sep ++ join sep l')%string
  end.
Definition print_call (name : string) (args : list object) : string :=
  (name ++ "(" ++ join ", " (map oname args) ++ ")")%string.

(** proposition.cc 38-42, to_string *)
Definition prop_to_string (p : prop) : string := print_call (pname p) (pargs p).
(** proposition.cc 44-52, to_pddl *)
Definition prop_to_pddl (p : prop) : string :=
  ("(" ++ pname p ++ fold_right (fun o s => " " ++ oname o ++ s) EmptyString (pargs p) ++ ")")%string.
(** action.cc 369-379, to_string(arguments) *)
Definition action_to_string (o : op) (args : list object) : string := print_call (op_name o) args.

(** object.cc 38-56, GetSymbol, and 117-120: [objects] is the list of constants
    followed by the problem objects (pddl.cc 129-143). *)
Fixpoint get_object (objects : list object) (name : string) : outcome object :=
  match objects with
  | [] => Throw ERuntime
  | o :: objects' => if String.eqb (oname o) name then Ok o else get_object objects' name
  end.

(** object.cc 129-138, ParseArguments(pddl, atom) *)
Definition parse_arguments (objects : list object) (s : string) : outcome (list object) :=
  mapM (get_object objects) (tokenize s).

(** proposition.h 82-86, Proposition(pddl, str_prop) *)
Definition parse_prop (objects : list object) (s : string) : outcome prop :=
  let* args := parse_arguments objects s in Ok (mkProp (parse_head s) args).

(** action.cc 315-325, GetSymbol: [ops] are all operators of the domain, axioms
    included. *)
Fixpoint get_op (ops : list op) (name : string) : outcome op :=
  match ops with
  | [] => Throw ERuntime
  | o :: ops' => if String.eqb (op_name o) name then Ok o else get_op ops' name
  end.

(** action.cc 396-408: types of the arguments against those of the parameters. *)
Fixpoint check_types (params args : list object) : outcome unit :=
  match params with
  | [] => Ok tt
  | p :: params' =>
      match args with
      | [] => UB
      | a :: args' =>
          if is_subtype (otype a) (type_name (otype p)) then check_types params' args'
          else Throw EInvalidArgument
      end
  end.

(** action.cc 381-412, Parse.  The order in which the arguments of make_pair
    are evaluated is unspecified; both throw the same class. *)
Definition parse_action (objects : list object) (ops : list op) (call : string) : outcome (op * list object) :=
  let* o := get_op ops (parse_head call) in
  let* args := parse_arguments objects call in
  if Nat.eqb (length (op_params o)) (length args) then
    let* _ := check_types (op_params o) args in Ok (o, args)
  else Throw EInvalidArgument.

Section WithHash.
  Context `{SH : StdHash}.

  (** state.cc 55-62, Stringify: the strings in the order they are inserted. *)
  Definition stringify (s : state) : list string := map prop_to_string (st_elements s).

  (** state.cc 47-53, State(pddl, str_state): the elements in the order in which
      the set of strings is iterated.  pddl.cc 113-120 is the same for std::set. *)
  Definition parse_state (objects : list object) (strs : list string) : outcome state :=
    foldM (fun s str => let* p := parse_prop objects str in Ok (snd (st_insert p s))) strs st_empty.
End WithHash.
