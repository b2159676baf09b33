(** Constructing a Pddl from its arguments: src/pddl.cc 54-102 (ParsePddl) and
    250-301 (the constructors), with and without a problem; src/python/symbolic.cc
    284-291, 319-332 (the initial state, printing and pickling in Python). *)
From Coq Require Import Ascii String List Bool NArith ZArith Arith.
From Verif.Model Require Import Base Object Proposition State ParameterGenerator Syntax Formula
  Effects Derived Consistency Text Pddl Objects.
Import ListNotations.
Local Open Scope string_scope.
Local Open Scope list_scope.

(** The blanks of pddl.cc 80. *)
Definition load_blank (c : ascii) : bool :=
  existsb (Ascii.eqb c) [" "; "009"; "010"; "013"]%char.

(** problem[problem.find_last_not_of(blanks)], pddl.cc 80-82; [None] if there
    are only blanks. *)
Fixpoint last_solid (s : string) : option ascii :=
  match s with
  | EmptyString => None
  | String c s' =>
      match last_solid s' with
      | Some d => Some d
      | None => if load_blank c then None else Some c
      end
  end.

(** pddl.cc 79-90: where the problem is read from. *)
Inductive source : Set := FromText (text : string) | FromFile (name : string).
Definition problem_source (problem : string) : source :=
  match last_solid problem with
  | Some c => if Ascii.eqb c ")" then FromText problem else FromFile problem
  | None => FromFile problem
  end.

(** What VAL makes of a domain and of a problem, as far as it is used. *)
Record domain_syntax : Type := mkDomain {
  ds_types : option (list pddl_type);
  ds_constants : list object;
  ds_ops : list op;
  ds_derived : list derived
}.
Record problem_syntax : Type := mkProblemSyntax {
  ps_objects : list object;
  ps_init : list prop;
  ps_goal : goal
}.

(** A Pddl with the members that depend on how it was made (pddl.h 253-271):
    domain_pddl_, problem_pddl_, constants_, whether analysis_->the_problem and
    goal_ are set, the declared types, and the deleted symbols (Objects.v). *)
Record loaded : Type := mkLoaded {
  ld_domain : string;
  ld_problem : string;
  ld_constants : list object;
  ld_has_problem : bool;
  ld_types : option (list pddl_type);
  ld_edited : edited
}.
Definition ld_pddl (l : loaded) : pddl := ed_pddl (ld_edited l).

Section WithHash.
  Context `{SH : StdHash}.
  (** VAL's parser and the files: the domain in the file of a name, the problem
      in a text or file; [None] if the pointer stays null.  They are the same
      at every call (files do not change). *)
  Variable domain_in : string -> option domain_syntax.
  Variable problem_in : domain_syntax -> source -> option problem_syntax.
  Variable L : limits.

  (** pddl.cc 54-102, ParsePddl *)
  Definition parse_pddl (domain problem : string) : outcome (domain_syntax * option problem_syntax) :=
    match domain_in domain with
    | None => Throw ERuntime
    | Some d =>
        if String.eqb problem "" then Ok (d, None)
        else match problem_in d (problem_source problem) with
             | None => Throw ERuntime
             | Some b => Ok (d, Some b)
             end
    end.

  (** pddl.cc 250-282, Pddl(domain, problem, apply_axioms): the problem is
      dereferenced (263) although it is null if the argument is empty. *)
  Definition load (domain problem : string) (apply_axioms : bool) : outcome (loaded * store) :=
    let* ' (d, b) := parse_pddl domain problem in
    match b with
    | None => UB
    | Some b =>
        let* ' (p, st) := make_pddl L (ds_constants d) (ps_objects b) (ds_ops d) (ds_derived d)
                            (ps_init b) (ps_goal b) apply_axioms in
        Ok (mkLoaded domain problem (ds_constants d) true (ds_types d) (unedited p), st)
    end.

  (** pddl.cc 284-301, Pddl(domain): constants_, initial_state_ and goal_ are
      default-constructed.  The goal in the record is not used. *)
  Definition load_domain (domain : string) : outcome (loaded * store) :=
    let* ' (d, _) := parse_pddl domain "" in
    let* ' (p, st) := make_from L (ds_constants d) [] (ds_ops d) (ds_derived d) [] None false in
    Ok (mkLoaded domain "" [] false (ds_types d) (unedited p), st).

  (** formula.h 51: calling the empty function of a default-constructed Formula
      throws. *)
  Definition ld_goal_holds (l : loaded) (s : state) : outcome bool :=
    if ld_has_problem l then goal_holds (ld_pddl l) s else Throw EBadCall.

  (** pddl.cc 456-469, IsValidPlan *)
  Fixpoint ld_plan_from (l : loaded) (calls : list string) (w : state * store) : outcome (bool * store) :=
    match calls with
    | [] => let* b := ld_goal_holds l (fst w) in Ok (b, snd w)
    | call :: calls' =>
        let* ' (o, args) := pd_parse (ld_pddl l) call in
        let* v := op_valid (pd_om (ld_pddl l)) (fst w) o args in
        if v : bool then
          let* ' (_, w') := apply_in_place L (ld_pddl l) o args w in ld_plan_from l calls' w'
        else Ok (false, snd w)
    end.
  Definition ld_is_valid_plan (l : loaded) (calls : list string) (st : store) : outcome (bool * store) :=
    ld_plan_from l calls (pd_init (ld_pddl l), st).

  (** pddl.h 226, set_initial_state *)
  Definition ld_set_initial (s : state) (l : loaded) : loaded :=
    let p := ld_pddl l in
    mkLoaded (ld_domain l) (ld_problem l) (ld_constants l) (ld_has_problem l) (ld_types l)
      (mkEdited (mkPddl (pd_constants p) (pd_problem_objects p) (pd_objects p) (pd_om p)
                   (pd_ops p) (pd_axioms p) (pd_derived p) s (pd_goal p)) (ed_dead (ld_edited l))).

  (** pddl.cc 516-525, AddObject: line 523 follows the null pointer if there is
      no problem. *)
  Definition ld_add_object (name type : string) (l : loaded) : outcome loaded :=
    if ld_has_problem l then
      let* w := add_object (ld_types l) name type (ld_edited l) in
      Ok (mkLoaded (ld_domain l) (ld_problem l) (ld_constants l) true (ld_types l) w)
    else UB.

  (** pddl.cc 527-543, RemoveObject: line 533 follows the null pointer if there
      is no problem and the object was found. *)
  Definition ld_remove_object (name : string) (l : loaded) : outcome loaded :=
    if ld_has_problem l then
      Ok (mkLoaded (ld_domain l) (ld_problem l) (ld_constants l) true (ld_types l)
            (remove_object name (ld_edited l)))
    else if existsb (fun o => String.eqb (oname o) name) (pd_objects (ld_pddl l)) then UB
    else Ok l.

  (** symbolic.cc 319-323, __repr__ *)
  Definition ld_repr (l : loaded) : string :=
    ("symbolic.Pddl('" ++ ld_domain l ++ "', '" ++ ld_problem l ++ "')")%string.

  (** symbolic.cc 324-332, pickling: __getstate__ and __setstate__ *)
  Definition pickle (l : loaded) : string * string := (ld_domain l, ld_problem l).
  Definition unpickle (t : string * string) : outcome (loaded * store) := load (fst t) (snd t) true.
End WithHash.
