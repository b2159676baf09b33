(** src/action.cc 48-313 and src/axiom.cc 73-103, 236-302: effects, and the axioms
    they trigger. *)
From Coq Require Import String List Bool NArith ZArith Arith.
From Verif.Model Require Import Base Object Proposition State CombinationGenerator
  ParameterGenerator Syntax Formula.
Import ListNotations.
Local Open Scope string_scope.
Local Open Scope list_scope.

(** Left-to-right loop with the position of the element. *)
Definition foldMi {A B} (f : nat -> B -> A -> outcome B) : nat -> list A -> B -> outcome B :=
  fix foldMi i l b :=
    match l with
    | [] => Ok b
    | a :: l' => let* b' := f i b a in foldMi (S i) l' b'
    end.

(** ** Axioms *)

(** Axiom: an operator with its context (axiom.h, members of Action and
    [context_]). *)
Record axiom : Set := mkAxiom {
  ax_op : op;
  ax_pos : bool;             (* context().sign() *)
  ax_name : string;          (* context().name() *)
  ax_args : list object      (* context().arguments() *)
}.

(** axiom.cc 73-103, ExtractContextPredicate *)
Definition extract_context (o : op) : outcome axiom :=
  match op_pre o with
  | GSimple name args => Ok (mkAxiom o true name args)
  | GNeg (GSimple name args) => Ok (mkAxiom o false name args)
  | _ => Throw EDomain
  end.

(** pddl.cc 195-203, CreateAxiomContextMap and its lookups in action.cc 119-135,
    208-224: positions (in the list of axioms) of those with the given context.
    The key is the sign, "+" or "-" (proposition.h 140), followed by the name, so
    it determines both. *)
Fixpoint with_context_from (i : nat) (axioms : list axiom) (pos : bool) (name : string)
    : list (nat * axiom) :=
  match axioms with
  | [] => []
  | a :: axs => if Bool.eqb (ax_pos a) pos && String.eqb (ax_name a) name
                then (i, a) :: with_context_from (S i) axs pos name
                else with_context_from (S i) axs pos name
  end.
Definition with_context := with_context_from 0.

(** ** Closures made by Axiom::CreateApplicationFunction: axiom.cc 236-302 *)

(** Initial [*axiom_args], [idx_params] and [future_action_args]. *)
Record closure : Set := mkCl {
  cl_init : list object;
  cl_idx : list (nat * nat);
  cl_future : list (nat * object)
}.

(** Which closure a buffer belongs to: the operator whose effects hold it, the
    place in the effects, the axiom; and the closure itself. *)
Inductive owner : Set := OAct (name : string) | OAx (i : nat).
Record key : Set := mkKey { k_owner : owner; k_path : list nat; k_ax : nat; k_cl : closure }.

Definition symkind_dec (a b : symkind) : {a = b} + {a <> b}.
Proof. decide equality. apply Nat.eq_dec. Defined.
Definition object_dec (a b : object) : {a = b} + {a <> b}.
Proof. decide equality; [apply symkind_dec|apply list_eq_dec, string_dec|apply string_dec]. Defined.
Definition closure_dec (a b : closure) : {a = b} + {a <> b}.
Proof.
  decide equality.
  - apply list_eq_dec. decide equality; [apply object_dec|apply Nat.eq_dec].
  - apply list_eq_dec. decide equality; apply Nat.eq_dec.
  - apply list_eq_dec, object_dec.
Defined.
Definition key_dec (a b : key) : {a = b} + {a <> b}.
Proof.
  decide equality; [apply closure_dec|apply Nat.eq_dec|apply list_eq_dec, Nat.eq_dec|].
  decide equality; [apply string_dec|apply Nat.eq_dec].
Defined.

(** Contents of the shared vectors [*ptr_axiom_args]; [None] before the first
    call of the closure. *)
Definition store := key -> option (list object).
Definition no_store : store := fun _ => None.
Definition upd (st : store) (k : key) (l : list object) : store :=
  fun k' => if key_dec k' k then Some l else st k'.

(** The vectors belong to the closures and so to the Action or Axiom that holds
    them: a new Action (action.cc 330-343) starts without any, and those of
    other Actions stay as they are while it is used. *)
Definition forget_actions (st : store) : store :=
  fun k => match k_owner k with OAct _ => None | OAx _ => st k end.
Definition restore_actions (st st' : store) : store :=
  fun k => match k_owner k with OAct _ => st k | OAx _ => st' k end.

(** A [const std::vector<Object>&] argument: a vector nobody else writes, or the
    vector of a closure. *)
Inductive argref : Set := Val (l : list object) | Ref (k : key).
Definition deref (st : store) (r : argref) : list object :=
  match r with
  | Val l => l
  | Ref k => match st k with Some l => l | None => [] end
  end.

Section WithHash.
  Context `{SH : StdHash}.

  (** axiom.cc 251-254, 259-262: position of the first equal parameter, or the
      number of parameters. *)
  Fixpoint first_index (x : object) (params : list object) : nat :=
    match params with
    | [] => 0
    | p :: ps => if obj_eqb p x then 0 else S (first_index x ps)
    end.

  (** axiom.cc 247-278: one iteration; [None] is [return {}]. *)
  Fixpoint match_context (action_params axiom_params : list object)
      (action_prop axiom_prop : list object) (cl : closure) : option closure :=
    match action_prop, axiom_prop with
    | y :: ys, x :: xs =>
        let i := first_index x axiom_params in
        let j := first_index y action_params in
        let is_axiom_arg := Nat.eqb i (length axiom_params) in
        let is_action_arg := Nat.eqb j (length action_params) in
        let continue := match_context action_params axiom_params ys xs in
        if is_axiom_arg && is_action_arg then
          if obj_eqb x y then continue cl else None
        else if is_axiom_arg then
          continue (mkCl (cl_init cl) (cl_idx cl) (cl_future cl ++ [(j, x)]))
        else if is_action_arg then
          continue (mkCl (set_nth i y (cl_init cl)) (cl_idx cl) (cl_future cl))
        else continue (mkCl (cl_init cl) (cl_idx cl ++ [(i, j)]) (cl_future cl))
    | _, _ => Some cl
    end.

  (** axiom.cc 236-279 *)
  Definition create_app (action_params action_prop axiom_params axiom_prop : list object)
      : outcome (option closure) :=
    if Nat.eqb (length action_prop) (length axiom_prop)
    then Ok (match_context action_params axiom_params action_prop axiom_prop
               (mkCl axiom_params [] []))
    else AssertFail.

  (** axiom.cc 286-291 *)
  Fixpoint check_future (fut : list (nat * object)) (args : list object) : outcome bool :=
    match fut with
    | [] => Ok true
    | (j, x) :: fut' => let* a := index args j in
                        if obj_eqb a x then check_future fut' args else Ok false
    end.

  (** axiom.cc 282-301, calling the closure; [false] is nullptr.  The arguments
      may be the closure's own vector. *)
  Definition call_closure (k : key) (r : argref) (st : store) : outcome (bool * store) :=
    let cl := k_cl k in
    let* ok := check_future (cl_future cl) (deref st r) in
    if ok : bool then
      let st0 := match st k with Some _ => st | None => upd st k (cl_init cl) end in
      let* st' := foldM (fun st ij =>
          let* a := index (deref st r) (snd ij) in
          Ok (upd st k (set_nth (fst ij) a (deref st (Ref k))))) (cl_idx cl) st0 in
      Ok (true, st')
    else Ok (false, st).

  (** ** Effects, for T = State or PartialState *)
  Section Run.
    Context {T : Type} (ins del : prop -> T -> nat * T)
            (cond : T -> goal -> list object -> list object -> outcome bool)
            (om : object_map) (axioms : list axiom).

    (** A state and the shared vectors. *)
    Definition world := (T * store)%type.

    (** Applying the axiom with the given position: [axiom.Action::Apply( *axiom_args, state)]. *)
    Context (apply_axiom : nat -> argref -> world -> outcome (nat * world)).

    (** action.cc 150-162, 239-251: one axiom of the loop. *)
    Definition fire (ow : owner) (path : list nat) (params prop_params : list object) (r : argref)
        (w : world) (ia : nat * axiom) : outcome world :=
      let '(i, a) := ia in
      let* c := create_app params prop_params (op_params (ax_op a)) (ax_args a) in
      match c with
      | None => Ok w
      | Some cl =>
          let k := mkKey ow path i cl in
          let* ' (ok, st) := call_closure k r (snd w) in
          if ok : bool then let* ' (_, w') := apply_axiom i (Ref k) (fst w, st) in Ok w'
          else Ok (fst w, st)
      end.

    (** action.cc 78-165 (CreateAdd, [pos = true]) and 167-254 (CreateDel).
        The closures are created when the effect runs instead of
        when the action is built, and Apply is [app_fun] (its buffer is handled
        in Formula.v). *)
    Definition run_lit (ow : owner) (path : list nat) (params : list object) (pos : bool)
        (p : prop) (r : argref) (w : world) : outcome (nat * world) :=
      let* l := app_fun params (pargs p) (deref (snd w) r) in
      if String.eqb (pname p) "=" then
        let* b := eval_eq l in if Bool.eqb b pos then Ok (0, w) else Throw ERuntime
      else
        match om_find om (pname p) with
        | Some _ => let* b := eval_type (pname p) l in
                    if Bool.eqb b pos then Ok (0, w) else Throw ERuntime
        | None =>
            let '(status, t) := (if pos then ins else del) (mkProp (pname p) l) (fst w) in
            if Nat.eqb status 0 then Ok (0, (t, snd w))
            else
              let* w' := foldM (fire ow path params (pargs p) r)
                           (with_context axioms pos (pname p)) (t, snd w) in
              Ok (status, w')
        end.

    (** action.cc 280-313, CreateEffectsFunction, with 48-76 (CreateForall) and
        262-278 (CreateCond) inlined. *)
    Fixpoint run_effs (ow : owner) (path : list nat) (params : list object) (e : effs) (r : argref)
        (w : world) {struct e} : outcome (nat * world) :=
      let step (acc : nat * world) (x : outcome (nat * world)) : outcome (nat * world) :=
        let* ' (s, w') := x in Ok (Nat.max (fst acc) s, w') in
      match e with
      | Effs foralls adds dels conds =>
          let* a1 := foldMi (fun i acc vb =>
              step acc
                (let* ts := var_tuples om (fst vb) in
                 foldM (fun acc t =>
                     step acc (run_effs ow (path ++ [0; i]) (params ++ fst vb) (snd vb)
                                 (Val (deref (snd (snd acc)) r ++ t)) (snd acc)))
                   ts (0, snd acc))) 0 foralls (0, w) in
          let* a2 := foldMi (fun i acc p =>
              step acc (run_lit ow (path ++ [1; i]) params true p r (snd acc))) 0 adds a1 in
          let* a3 := foldMi (fun i acc p =>
              step acc (run_lit ow (path ++ [2; i]) params false p r (snd acc))) 0 dels a2 in
          foldMi (fun i acc ce =>
              step acc
                (let* b := cond (fst (snd acc)) (fst ce) params (deref (snd (snd acc)) r) in
                 if b : bool then run_effs ow (path ++ [3; i]) params (snd ce) r (snd acc)
                 else Ok (0, snd acc))) 0 conds a3
      end.
  End Run.

  Section Apply.
    Context {T : Type} (ins del : prop -> T -> nat * T)
            (cond : T -> goal -> list object -> list object -> outcome bool)
            (om : object_map) (axioms : list axiom).

    (** action.h 53-55, 64-66 on an axiom; [fuel] bounds the depth of the chain of
        axioms triggering each other. *)
    Fixpoint apply_axiom (fuel : nat) (i : nat) (r : argref) (w : world (T := T))
        : outcome (nat * world) :=
      match fuel with
      | O => OutOfFuel
      | S n =>
          match nth_error axioms i with
          | None => UB
          | Some a => run_effs ins del cond om axioms (apply_axiom n) (OAx i) []
                        (op_params (ax_op a)) (op_effs (ax_op a)) r w
          end
      end.

    (** action.h 53-55, 64-66 on an action (or on an axiom used as one) *)
    Definition apply_op (fuel : nat) (ow : owner) (o : op) (args : list object) (w : world (T := T))
        : outcome (nat * world) :=
      run_effs ins del cond om axioms (apply_axiom fuel) ow [] (op_params o) (op_effs o) (Val args) w.
  End Apply.

  (** ** The two kinds of state *)

  (** state.h 64, 83 return bool, converted to int (action.cc 144, 233). *)
  Definition st_ins (p : prop) (s : state) : nat * state :=
    let '(b, s') := st_insert p s in (Nat.b2n b, s').
  Definition st_del (p : prop) (s : state) : nat * state :=
    let '(b, s') := st_erase p s in (Nat.b2n b, s').

  (** action.cc 256-260, EvaluateCondition *)
  Definition cond_state (om : object_map) (s : state) (g : goal) (params args : list object)
      : outcome bool := eval_state om s g params args.
  Definition cond_partial (om : object_map) (s : partial_state) (g : goal) (params args : list object)
      : outcome bool :=
    let* b := eval_optional om s g params args in
    Ok (match b with Some v => v | None => false end).

  (** action.h 53-55: Apply(arguments, State* ); the new vectors are returned. *)
  Definition apply_state (fuel : nat) (om : object_map) (axioms : list axiom) (ow : owner) (o : op)
      (args : list object) (w : state * store) : outcome (nat * (state * store)) :=
    apply_op st_ins st_del (cond_state om) om axioms fuel ow o args w.

  (** action.h 64-66: Apply(arguments, PartialState* ) *)
  Definition apply_partial (fuel : nat) (om : object_map) (axioms : list axiom) (ow : owner) (o : op)
      (args : list object) (w : partial_state * store) : outcome (nat * (partial_state * store)) :=
    apply_op ps_insert ps_erase (cond_partial om) om axioms fuel ow o args w.
End WithHash.
