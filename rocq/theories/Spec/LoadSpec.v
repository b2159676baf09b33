(** Specification vocabulary for constructing, printing and pickling a Pddl. *)
From Coq Require Import Ascii String List Bool.
From Verif.Model Require Import Base Object Proposition State Syntax Pddl Objects Load.
From Verif.Spec Require Import TextSpec.
Import ListNotations.
Local Open Scope string_scope.
Local Open Scope list_scope.

(** The last character that is not a space, tab or end of line is a closing
    parenthesis. *)
Definition ends_with_paren (s : string) : Prop :=
  exists u v, s = (u ++ ")" ++ v)%string /\
    forall c, In c (chars v) -> In c [" "; "009"; "010"; "013"]%char.

(** Changes of a Pddl through its own functions. *)
Inductive change := SetInitial (s : state) | AddObj (name type : string) | RemoveObj (name : string).
Definition do_change (l : loaded) (c : change) : outcome loaded :=
  match c with
  | SetInitial s => Ok (ld_set_initial s l)
  | AddObj n t => ld_add_object n t l
  | RemoveObj n => ld_remove_object n l
  end.
Definition do_changes (cs : list change) (l : loaded) : outcome loaded := foldM do_change cs l.

(** Python string literals between single quotes without escapes: no quote,
    backslash or line end inside. *)
Definition plain_char (c : ascii) : bool :=
  negb (existsb (Ascii.eqb c) ["'"; "092"; "010"; "013"]%char).
Definition plain (s : string) : Prop := forall c, In c (chars s) -> plain_char c = true.
(** The contents of the literal and what follows the closing quote. *)
Fixpoint read_literal (s : string) : option (string * string) :=
  match s with
  | EmptyString => None
  | String c s' =>
      if Ascii.eqb c "'" then Some (EmptyString, s')
      else if plain_char c then
        match read_literal s' with Some (x, r) => Some (String c x, r) | None => None end
      else None
  end.
Fixpoint strip (prefix s : string) : option string :=
  match prefix, s with
  | EmptyString, _ => Some s
  | String c p, String d s' => if Ascii.eqb c d then strip p s' else None
  | String _ _, EmptyString => None
  end.
(** Reads symbolic.Pddl('...', '...'). *)
Definition read_call (s : string) : option (string * string) :=
  match strip "symbolic.Pddl('" s with
  | Some s1 =>
      match read_literal s1 with
      | Some (d, s2) =>
          match strip ", '" s2 with
          | Some s3 =>
              match read_literal s3 with
              | Some (p, s4) => if String.eqb s4 ")" then Some (d, p) else None
              | None => None
              end
          | None => None
          end
      | None => None
      end
  | None => None
  end.

(** The same Pddl with another goal. *)
Definition with_goal (g : goal) (p : pddl) : pddl :=
  mkPddl (pd_constants p) (pd_problem_objects p) (pd_objects p) (pd_om p)
    (pd_ops p) (pd_axioms p) (pd_derived p) (pd_init p) g.
