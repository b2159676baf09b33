(** src/python/symbolic.cc: the functions of pysymbolic.Pddl that take and return
    states as sets of strings.

    Python sets become std::unordered_set (pybind11, not modelled) and are given
    as lists in the order of iteration. *)
From Coq Require Import String List Bool.
From Verif.Model Require Import Base Object Proposition State Syntax Effects Derived Consistency Text Pddl.
Import ListNotations.

Section WithHash.
  Context `{SH : StdHash} (L : limits) (p : pddl).

  (** state.h 149-151, PartialState(pddl, str_pos, str_neg); members in order of
      declaration. *)
  Definition parse_partial (pos neg : list string) : outcome partial_state :=
    let* a := parse_state (pd_symbols p) pos in
    let* b := parse_state (pd_symbols p) neg in
    Ok (mkPS a b).
  (** state.cc 125-128, PartialState::Stringify *)
  Definition stringify_partial (s : partial_state) : list string * list string :=
    (stringify (ps_pos s), stringify (ps_neg s)).

  (** 134-138, next_state *)
  Definition py_next_state (strs : list string) (call : string) (st : store) : outcome (list string * store) :=
    let* s := parse_state (pd_symbols p) strs in
    let* ' (s', st') := next_state L p call (s, st) in
    Ok (stringify s', st').

  (** 161-165, apply_actions *)
  Definition py_apply_actions (strs calls : list string) (st : store) : outcome (list string * store) :=
    let* s := parse_state (pd_symbols p) strs in
    let* ' (s', st') := apply_actions L p calls (s, st) in
    Ok (stringify s', st').

  (** 181-184, derived_state *)
  Definition py_derived_state (strs : list string) : outcome (list string) :=
    let* s := parse_state (pd_symbols p) strs in
    let* ' (_, s') := pd_derive L p s in
    Ok (stringify s').

  (** 187-190, consistent_state(state) *)
  Definition py_consistent_state (strs : list string) (st : store) : outcome (list string * store) :=
    let* s := parse_state (pd_symbols p) strs in
    let* ' (s', st') := consistent_state (pd_om p) (pd_axioms p) (l_cascade L) (l_rounds L) (s, st) in
    Ok (stringify s', st').

  (** 202-208, consistent_state(state_pos, state_neg) *)
  Definition py_consistent_partial (pos neg : list string) (st : store)
      : outcome ((list string * list string) * store) :=
    let* s := parse_partial pos neg in
    let* ' (s', st') := consistent_partial (pd_om p) (pd_axioms p) (l_cascade L) (s, st) in
    Ok (stringify_partial s', st').

  (** 221-225, is_valid_action *)
  Definition py_is_valid_action (strs : list string) (call : string) : outcome bool :=
    let* s := parse_state (pd_symbols p) strs in is_valid_action p s call.

  (** 246-249, is_valid_state(state) *)
  Definition py_is_valid_state (strs : list string) (st : store) : outcome bool :=
    let* s := parse_state (pd_symbols p) strs in
    is_valid_state (pd_om p) (pd_axioms p) (l_cascade L) s st.

  (** 261-265, is_valid_state(state_pos, state_neg) *)
  Definition py_is_valid_partial (pos neg : list string) (st : store) : outcome bool :=
    let* s := parse_partial pos neg in
    is_valid_partial (pd_om p) (pd_axioms p) (l_cascade L) (l_rounds L) (s, st).

  (** 285-289, the property initial_state: pddl.cc 547-553 and pddl.h 226. *)
  Definition py_initial_state : list string := stringify (pd_init p).
  Definition py_set_initial_state (strs : list string) : outcome pddl :=
    let* s := parse_state (pd_symbols p) strs in
    Ok (mkPddl (pd_constants p) (pd_problem_objects p) (pd_objects p) (pd_om p) (pd_ops p)
          (pd_axioms p) (pd_derived p) s (pd_goal p)).
End WithHash.
