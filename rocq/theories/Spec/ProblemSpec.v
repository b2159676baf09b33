(** PDDL text: parentheses, tokens, expressions and typed lists; and the
    formulas that the Python combinators stand for. *)
From Coq Require Import Ascii String List Bool Arith.
From Verif.Model Require Import Base Object Proposition Problem.
From Verif.Spec Require Import TextSpec.
Import ListNotations.
Local Open Scope string_scope.
Local Open Scope list_scope.

(** ** Parentheses *)
Inductive balanced : string -> Prop :=
| bal_nil : balanced EmptyString
| bal_other c s : c <> "("%char -> c <> ")"%char -> balanced s -> balanced (String c s)
| bal_group s t : balanced s -> balanced t -> balanced (String "(" (s ++ String ")" t))%string.

(** ** Tokens: parentheses, and words separated by white space.  (Comments are
    left out.) *)
Inductive tok : Set := TOpen | TClose | TWord (w : string).
Definition flush_word (w : string) (ts : list tok) : list tok :=
  match w with EmptyString => ts | _ => TWord w :: ts end.
Definition blankb (c : ascii) : bool := existsb (Ascii.eqb c) white.
(** The word that the text starts with (possibly empty) and the tokens after it. *)
Fixpoint lex (s : string) : string * list tok :=
  match s with
  | EmptyString => (EmptyString, [])
  | String c s' =>
      let (w, ts) := lex s' in
      if Ascii.eqb c "(" then (EmptyString, TOpen :: flush_word w ts)
      else if Ascii.eqb c ")" then (EmptyString, TClose :: flush_word w ts)
      else if blankb c then (EmptyString, flush_word w ts)
      else (String c w, ts)
  end.
Definition tokens (s : string) : list tok := let (w, ts) := lex s in flush_word w ts.

(** ** Expressions *)
Inductive sexp : Set := Atom (w : string) | Group (l : list sexp).
Fixpoint flat (e : sexp) : list tok :=
  match e with
  | Atom w => [TWord w]
  | Group l => TOpen :: flat_map flat l ++ [TClose]
  end.
(** The text consists of these expressions. *)
Definition reads (text : string) (es : list sexp) : Prop := tokens text = flat_map flat es.

(** ** Typed lists: "a b - t c" declares a and b of type t, and c. *)
Fixpoint typed_list (pending ws : list string) : list (string * option string) :=
  match ws with
  | [] => map (fun n => (n, None)) pending
  | w :: ws' =>
      if String.eqb w "-" then
        match ws' with
        | [] => []
        | t :: ws'' => map (fun n => (n, Some t)) pending ++ typed_list [] ws''
        end
      else typed_list (pending ++ [w]) ws'
  end.

(** ** Formulas *)
Inductive pddl_formula : Set :=
| FRaw (text : string)
| FPred (name : string) (args : list string)
| FAnd (l : list pddl_formula)
| FOr (l : list pddl_formula)
| FNot (f : pddl_formula)
| FWhen (c f : pddl_formula)
| FForall (var type : string) (f : pddl_formula)
| FExists (var type : string) (f : pddl_formula).

(** As built with _P, _and, ... *)
Fixpoint build (f : pddl_formula) : pyform :=
  match f with
  | FRaw s => PStr s
  | FPred n args => PStr (py_P n args)
  | FAnd l => py_and (map build l)
  | FOr l => py_or (map build l)
  | FNot f => py_not (build f)
  | FWhen c f => py_when (build c) (build f)
  | FForall v t f => py_forall v t (build f)
  | FExists v t f => py_exists v t (build f)
  end.

(** All the pieces of text in it are balanced. *)
Fixpoint pieces_balanced (f : pddl_formula) : Prop :=
  match f with
  | FRaw s => balanced s
  | FPred n args => balanced n /\ Forall balanced args
  | FAnd l | FOr l => fold_right (fun f P => pieces_balanced f /\ P) True l
  | FNot f => pieces_balanced f
  | FWhen c f => pieces_balanced c /\ pieces_balanced f
  | FForall v t f | FExists v t f => balanced v /\ balanced t /\ pieces_balanced f
  end.

(** The expression that PDDL writes the formula with; [raw] gives the meaning
    of the pieces that are text. *)
Inductive written : pddl_formula -> sexp -> Prop :=
| wr_raw s e : reads s [e] -> written (FRaw s) e
| wr_pred n args : clean n -> Forall clean args -> written (FPred n args) (Group (Atom n :: map Atom args))
| wr_and l es : Forall2 written l es -> written (FAnd l) (Group (Atom "and" :: es))
| wr_or l es : Forall2 written l es -> written (FOr l) (Group (Atom "or" :: es))
| wr_not f e : written f e -> written (FNot f) (Group [Atom "not"; e])
| wr_when c f d e : written c d -> written f e -> written (FWhen c f) (Group [Atom "when"; d; e])
| wr_forall v t f e : clean v -> clean t -> written f e ->
    written (FForall v t f) (Group [Atom "forall"; Group [Atom ("?" ++ v); Atom "-"; Atom t]; e])
| wr_exists v t f e : clean v -> clean t -> written f e ->
    written (FExists v t f) (Group [Atom "exists"; Group [Atom ("?" ++ v); Atom "-"; Atom t]; e]).

Fixpoint no_quantifier (f : pddl_formula) : Prop :=
  match f with
  | FRaw _ | FPred _ _ => True
  | FAnd l | FOr l => fold_right (fun f P => no_quantifier f /\ P) True l
  | FNot f => no_quantifier f
  | FWhen c f => no_quantifier c /\ no_quantifier f
  | FForall _ _ _ | FExists _ _ _ => False
  end.

(** ** Calls: "name(w1, w2)" with blanks around the words *)
Definition blanks (s : string) : Prop := forall c, In c (chars s) -> c = " "%char.
Inductive comma_list : list string -> string -> Prop :=
| cl_last g w h : blanks g -> clean w -> blanks h -> comma_list [w] (g ++ w ++ h)
| cl_more g w h ws rest : blanks g -> clean w -> blanks h -> comma_list ws rest ->
    comma_list (w :: ws) (g ++ w ++ h ++ String "," rest)%string.

(** The expression that PDDL writes an atom with. *)
Definition atom_sexp (name : string) (args : list string) : sexp := Group (Atom name :: map Atom args).

(** ** Problems *)

(** An object of a problem with a type, or without. *)
Definition object_words (o : string * string) : list string :=
  if String.eqb (snd o) "" then [fst o] else [fst o; "-"; snd o].
Definition clean_object (o : string * string) : Prop :=
  clean (fst o) /\ fst o <> "-" /\ (snd o = "" \/ clean (snd o)).
Definition declared (o : string * string) : string * option string :=
  (fst o, if String.eqb (snd o) "" then None else Some (snd o)).

Definition problem_sexp (name domain : string) (objects : list (string * string)) (init : list sexp) (goal : sexp) : sexp :=
  Group [Atom "define"; Group [Atom "problem"; Atom name]; Group [Atom ":domain"; Atom domain];
         Group (Atom ":objects" :: map Atom (flat_map object_words objects));
         Group (Atom ":init" :: init); Group [Atom ":goal"; goal]].

(** The problem with other initial propositions. *)
Definition with_init (b : problem) (init : list string) : problem :=
  mkProblem (pb_name b) (pb_domain b) (pb_objects b) init (pb_goal b).
Definition clean_prop (p : prop) : Prop := clean (pname p) /\ Forall clean (map oname (pargs p)).
Definition prop_sexp (p : prop) : sexp := atom_sexp (pname p) (map oname (pargs p)).
