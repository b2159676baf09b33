(** src/axiom.cc 34-45, 120-223 and src/pddl.cc 359-399, 418-427: consistency with
    the axioms.

    [arguments_] (axiom.h) is computed when needed instead of when the axiom is
    built; pddl.cc rebuilds the axioms when the object map changes (176-181). *)
From Coq Require Import String List Bool NArith ZArith Arith.
From Verif.Model Require Import Base Object Proposition State CombinationGenerator
  ParameterGenerator Syntax Formula Effects NormalForm.
Import ListNotations.
Local Open Scope list_scope.

Section WithHash.
  Context `{SH : StdHash} (om : object_map) (axioms : list axiom).
  (** Bound on the depth of cascades, see [apply_axiom]. *)
  Context (fuel : nat).

  (** action.h 45-47 and 49-52, Action::IsValid *)
  Definition op_valid (s : state) (o : op) (args : list object) : outcome bool :=
    eval_state om s (op_pre o) (op_params o) args.
  Definition op_valid_partial (s : partial_state) (o : op) (args : list object) : outcome (option bool) :=
    eval_optional om s (op_pre o) (op_params o) args.

  (** axiom.cc 38-43 *)
  Fixpoint keep_arguments (o : op) (ts : list (list object)) : outcome (list (list object)) :=
    match ts with
    | [] => Ok []
    | args :: ts' =>
        let* dnf := create_goal om None (op_pre o) (op_params o) args in
        let* rest := keep_arguments o ts' in
        Ok (match dnf with None => rest | Some _ => args :: rest end)
    end.

  (** axiom.cc 34-45, PrepareArguments *)
  Definition prepare_arguments (o : op) : outcome (list (list object)) :=
    let* ts := var_tuples om (op_params o) in keep_arguments o ts.

  (** ** Full states *)

  (** axiom.cc 120-135, IsConsistent(State): [None] is false; otherwise the copy
      and the shared vectors afterwards.  What a rejected state leaves in the
      shared vectors is not modelled. *)
  Fixpoint consistent_args (i : nat) (o : op) (s : state) (l : list (list object)) (w : state * store)
      : outcome (option (state * store)) :=
    match l with
    | [] => Ok (Some w)
    | args :: l' =>
        let* valid := op_valid s o args in
        if valid : bool then
          match apply_state fuel om axioms (OAx i) o args w with
          | Ok (0, w') => consistent_args i o s l' w'
          | Ok (S _, _) | Throw _ => Ok None
          | UB => UB | AssertFail => AssertFail | OutOfFuel => OutOfFuel
          end
        else consistent_args i o s l' w
    end.
  Definition is_consistent (i : nat) (a : axiom) (s : state) (st : store) : outcome (option store) :=
    let* l := prepare_arguments (ax_op a) in
    let* r := consistent_args i (ax_op a) s l (s, st) in
    Ok (option_map snd r).

  (** pddl.cc 418-423, IsValidState(State) *)
  Fixpoint valid_from (i : nat) (axs : list axiom) (s : state) (st : store) : outcome bool :=
    match axs with
    | [] => Ok true
    | a :: axs' =>
        let* r := is_consistent i a s st in
        match r with None => Ok false | Some st' => valid_from (S i) axs' s st' end
    end.
  Definition is_valid_state (s : state) (st : store) : outcome bool := valid_from 0 axioms s st.

  (** axiom.cc 194-204, Axiom::Apply(State* ) *)
  Definition axiom_step (i : nat) (o : op) (acc : bool * (state * store)) (args : list object)
      : outcome (bool * (state * store)) :=
    let* valid := op_valid (fst (snd acc)) o args in
    if valid : bool then
      let* ' (n, w) := apply_state fuel om axioms (OAx i) o args (snd acc) in
      Ok (fst acc || negb (Nat.eqb n 0), w)
    else Ok acc.
  Definition axiom_apply (i : nat) (a : axiom) (w : state * store) : outcome (bool * (state * store)) :=
    let* l := prepare_arguments (ax_op a) in
    foldM (axiom_step i (ax_op a)) l (false, w).

  (** pddl.cc 362-366: one iteration of the while loop. *)
  Definition consistent_pass (w : state * store) : outcome (bool * (state * store)) :=
    foldMi (fun i acc a => let* ' (c, w') := axiom_apply i a (snd acc) in Ok (fst acc || c, w'))
      0 axioms (false, w).

  (** pddl.cc 359-369, ConsistentState(State); [rounds] bounds the iterations. *)
  Fixpoint consistent_state (rounds : nat) (w : state * store) : outcome (state * store) :=
    match rounds with
    | O => OutOfFuel
    | S n => let* ' (c, w') := consistent_pass w in
             if c : bool then consistent_state n w' else Ok w'
    end.

  (** ** Partial states *)

  (** axiom.cc 137-159, IsConsistent(PartialState*, bool* ) *)
  Fixpoint consistent_args_partial (i : nat) (o : op) (l : list (list object))
      (acc : bool * (partial_state * store)) : outcome (option (bool * (partial_state * store))) :=
    match l with
    | [] => Ok (Some acc)
    | args :: l' =>
        let* valid := op_valid_partial (fst (snd acc)) o args in
        match valid with
        | Some true =>
            match apply_partial fuel om axioms (OAx i) o args (snd acc) with
            | Ok (n, w) => if Nat.ltb 1 n then Ok None
                           else consistent_args_partial i o l' (fst acc || Nat.ltb 0 n, w)
            | Throw _ => Ok None
            | UB => UB | AssertFail => AssertFail | OutOfFuel => OutOfFuel
            end
        | _ => consistent_args_partial i o l' acc
        end
    end.

  (** axiom.cc 180-182 *)
  Fixpoint consistent_axioms_partial (i : nat) (axs : list axiom) (acc : bool * (partial_state * store))
      : outcome (option (bool * (partial_state * store))) :=
    match axs with
    | [] => Ok (Some acc)
    | a :: axs' =>
        let* l := prepare_arguments (ax_op a) in
        let* r := consistent_args_partial i (ax_op a) l acc in
        match r with None => Ok None | Some acc' => consistent_axioms_partial (S i) axs' acc' end
    end.

  (** axiom.cc 173-186, pddl.cc 425-427: IsValidState(PartialState); [rounds]
      bounds the iterations of the while loop. *)
  Fixpoint is_valid_partial (rounds : nat) (w : partial_state * store) : outcome bool :=
    match rounds with
    | O => OutOfFuel
    | S n =>
        let* r := consistent_axioms_partial 0 axioms (false, w) in
        match r with
        | None => Ok false
        | Some (c, w') => if c : bool then is_valid_partial n w' else Ok true
        end
    end.

  (** axiom.cc 212-223, Axiom::Apply(PartialState* ) *)
  Definition axiom_step_partial (i : nat) (o : op) (acc : nat * (partial_state * store)) (args : list object)
      : outcome (nat * (partial_state * store)) :=
    let* valid := op_valid_partial (fst (snd acc)) o args in
    match valid with
    | Some true =>
        let* ' (n, w) := apply_partial fuel om axioms (OAx i) o args (snd acc) in
        Ok (Nat.max (fst acc) n, w)
    | _ => Ok acc
    end.
  Definition axiom_apply_partial (i : nat) (a : axiom) (w : partial_state * store)
      : outcome (nat * (partial_state * store)) :=
    let* l := prepare_arguments (ax_op a) in
    foldM (axiom_step_partial i (ax_op a)) l (0, w).

  (** pddl.cc 379-391: the for loop. *)
  Definition consistent_pass_partial (w : partial_state * store) : outcome (bool * (partial_state * store)) :=
    foldMi (fun i acc a =>
        let* ' (n, w') := axiom_apply_partial i a (snd acc) in
        if Nat.eqb n 2 then Throw ERuntime else Ok (fst acc || Nat.ltb 0 n, w'))
      0 axioms (false, w).

  (** pddl.cc 377-397: the while loop; [left] is 51 minus the counter. *)
  Fixpoint consistent_rounds (left : nat) (w : partial_state * store) : outcome (partial_state * store) :=
    let* ' (c, w') := consistent_pass_partial w in
    match left with
    | O => Throw ERuntime
    | S n => if c : bool then consistent_rounds n w' else Ok w'
    end.

  (** pddl.cc 371-399, ConsistentState(PartialState) *)
  Definition consistent_partial (w : partial_state * store) : outcome (partial_state * store) :=
    consistent_rounds 51 w.
End WithHash.
