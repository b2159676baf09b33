(** What effects mean: by substitution, and as sets of literals. *)
From Coq Require Import String List Bool NArith ZArith Arith.
From Verif.Model Require Import Base Object Proposition State ParameterGenerator Syntax Formula Effects.
From Verif.Spec Require Import SetSpec TypingSpec FormulaSpec.
Import ListNotations.
Local Open Scope string_scope.
Local Open Scope list_scope.

(** ** Syntax *)

(** Signs and predicate names of the literals of an effect. *)
Fixpoint eff_sigs (e : effs) : list (bool * string) :=
  match e with
  | Effs fs adds dels cs =>
      flat_map (fun f => eff_sigs (snd f)) fs ++
      map (fun p => (true, pname p)) adds ++ map (fun p => (false, pname p)) dels ++
      flat_map (fun c => eff_sigs (snd c)) cs
  end.

(** Conditions of an effect. *)
Fixpoint eff_conds (e : effs) : list goal :=
  match e with
  | Effs fs _ _ cs =>
      flat_map (fun f => eff_conds (snd f)) fs ++
      flat_map (fun c => fst c :: eff_conds (snd c)) cs
  end.

(** Predicate names occurring in a goal. *)
Fixpoint goal_preds (g : goal) : list string :=
  match g with
  | GSimple name _ => [name]
  | GConj gs | GDisj gs => flat_map goal_preds gs
  | GNeg g => goal_preds g
  | GForall _ g | GExists _ g => goal_preds g
  | GOther => []
  end.

(** A predicate that is neither = nor a type. *)
Definition ordinary (objects : list object) (name : string) : Prop :=
  name <> "=" /\ ~ is_type objects name.

(** Effects of the supported fragment. *)
Fixpoint wf_effs (objects : list object) (scope : list string) (e : effs) : Prop :=
  match e with
  | Effs fs adds dels cs =>
      (fix all fs := match fs with
                     | [] => True
                     | (vars, b) :: fs' =>
                         (vars <> [] /\ (tuple_count objects vars < 2 ^ 31)%Z /\
                          wf_effs objects (scope ++ map oname vars) b) /\ all fs'
                     end) fs /\
      Forall (fun p => Forall (arg_ok scope) (pargs p) /\ arity_ok objects (pname p) (pargs p)) adds /\
      Forall (fun p => Forall (arg_ok scope) (pargs p) /\ arity_ok objects (pname p) (pargs p)) dels /\
      (fix all cs := match cs with
                     | [] => True
                     | (g, b) :: cs' =>
                         (wf_goal objects scope g /\ wf_effs objects scope b) /\ all cs'
                     end) cs
  end.

(** ** Literals

    The instances of literals of an effect whose enclosing conditions satisfy [C]. *)
Fixpoint eff_lit (objects : list object) (C : assignment -> goal -> Prop) (env : assignment)
    (e : effs) (pos : bool) (a : atom) : Prop :=
  match e with
  | Effs fs adds dels cs =>
      (fix any fs := match fs with
                     | [] => False
                     | (vars, b) :: fs' =>
                         (exists objs, well_typed objects vars objs /\
                            eff_lit objects C (bind_vars vars objs env) b pos a) \/ any fs'
                     end) fs \/
      (exists p, In p (if pos then adds else dels) /\ ordinary objects (pname p) /\
         a = (pname p, map oname (map (denote env) (pargs p)))) \/
      (fix any cs := match cs with
                     | [] => False
                     | (g, b) :: cs' => (C env g /\ eff_lit objects C env b pos a) \/ any cs'
                     end) cs
  end.

(** ** Substitution

    Effects applied to a state with arguments passed by value; an axiom whose
    context is an instance of a changed proposition is applied with its
    parameters bound accordingly. *)

(** The value a parameter takes when the context arguments [ctx] are matched
    with the objects [l]. *)
Fixpoint value_of (x : object) (ctx l : list object) : object :=
  match ctx, l with
  | c :: ctx', o :: l' => if String.eqb (oname c) (oname x) then o else value_of x ctx' l'
  | _, _ => x
  end.
(** Constants of the context must be met exactly. *)
Definition consts_match (params ctx l : list object) : bool :=
  forallb (fun co => existsb (fun p => String.eqb (oname p) (oname (fst co))) params ||
                     String.eqb (oname (fst co)) (oname (snd co))) (combine ctx l).
Definition context_values (a : axiom) (l : list object) : option (list object) :=
  if consts_match (op_params (ax_op a)) (ax_args a) l
  then Some (map (fun p => value_of p (ax_args a) l) (op_params (ax_op a)))
  else None.

Section Sub.
  Context {T : Type} (ins del : prop -> T -> nat * T)
          (cond : T -> goal -> list object -> list object -> outcome bool)
          (objects : list object) (axioms : list axiom).

  Definition tuples (vars : list object) : list (list object) :=
    CartesianSpec.cart (map (fun v => objects_of objects (type_name (otype v))) vars).

  Definition sub_args (params vals xs : list object) : list object :=
    map (denote (bind_vars params vals (fun _ => null_object))) xs.

  (** Running axioms one after another on the ground arguments [l]. *)
  Fixpoint sub_fire (rec : nat -> list object -> T -> outcome (nat * T)) (i : nat) (axs : list axiom)
      (pos : bool) (name : string) (l : list object) (t : T) : outcome T :=
    match axs with
    | [] => Ok t
    | a :: axs' =>
        let* t' := (if Bool.eqb (ax_pos a) pos && String.eqb (ax_name a) name then
                      match context_values a l with
                      | Some vals => let* ' (_, t') := rec i vals t in Ok t'
                      | None => Ok t
                      end
                    else Ok t) in
        sub_fire rec (S i) axs' pos name l t'
    end.

  Definition is_typeb (name : string) : bool :=
    match objects_of objects name with [] => false | _ => true end.

  Definition sub_lit (rec : nat -> list object -> T -> outcome (nat * T)) (params vals : list object)
      (pos : bool) (p : prop) (t : T) : outcome (nat * T) :=
    let l := sub_args params vals (pargs p) in
    if String.eqb (pname p) "=" then
      match l with
      | [a; b] => if Bool.eqb (String.eqb (oname a) (oname b)) pos then Ok (0, t) else Throw ERuntime
      | _ => AssertFail
      end
    else if is_typeb (pname p) then
      match l with
      | [a] => if Bool.eqb (existsb (String.eqb (pname p)) (default_type :: otype a)) pos
               then Ok (0, t) else Throw ERuntime
      | _ => AssertFail
      end
    else
      let '(status, t') := (if pos then ins else del) (mkProp (pname p) l) t in
      if Nat.eqb status 0 then Ok (0, t')
      else let* t'' := sub_fire rec 0 axioms pos (pname p) l t' in Ok (status, t'').

  (** Running a list of effects one after another, with the largest status. *)
  Definition in_turn {A} (f : A -> T -> outcome (nat * T)) : list A -> nat -> T -> outcome (nat * T) :=
    fix in_turn l n t :=
      match l with
      | [] => Ok (n, t)
      | a :: l' => let* ' (m, t') := f a t in in_turn l' (Nat.max n m) t'
      end.

  Fixpoint sub_effs (rec : nat -> list object -> T -> outcome (nat * T)) (params vals : list object)
      (e : effs) (t : T) {struct e} : outcome (nat * T) :=
    match e with
    | Effs fs adds dels cs =>
        let* ' (n1, t1) := in_turn (fun f t =>
            in_turn (fun objs t => sub_effs rec (params ++ fst f) (vals ++ objs) (snd f) t)
              (tuples (fst f)) 0 t) fs 0 t in
        let* ' (n2, t2) := in_turn (sub_lit rec params vals true) adds n1 t1 in
        let* ' (n3, t3) := in_turn (sub_lit rec params vals false) dels n2 t2 in
        in_turn (fun c t => let* b := cond t (fst c) params vals in
                            if b : bool then sub_effs rec params vals (snd c) t else Ok (0, t))
          cs n3 t3
    end.

  Fixpoint sub_axiom (fuel : nat) (i : nat) (vals : list object) (t : T) : outcome (nat * T) :=
    match fuel with
    | O => OutOfFuel
    | S n => match nth_error axioms i with
             | None => UB
             | Some a => sub_effs (sub_axiom n) (op_params (ax_op a)) vals (op_effs (ax_op a)) t
             end
    end.
End Sub.

(** ** Restrictions on axioms *)

(** The context is linear and covers the parameters: every parameter occurs in
    it exactly once, and everything else in it is a constant. *)
Definition linear_context (a : axiom) : Prop :=
  NoDup (map oname (op_params (ax_op a))) /\
  (forall p, In p (op_params (ax_op a)) ->
     exists l1 x l2, ax_args a = l1 ++ x :: l2 /\ oname x = oname p /\
       ~ In (oname p) (map oname l1) /\ ~ In (oname p) (map oname l2)).

(** [rank] decreases from an operator to the axioms its effects can trigger. *)
Definition triggers_below (axioms : list axiom) (rank : nat -> nat) (bound : nat) (e : effs) : Prop :=
  forall i a, nth_error axioms i = Some a -> In (ax_pos a, ax_name a) (eff_sigs e) -> rank i < bound.
Definition ranked (axioms : list axiom) (rank : nat -> nat) : Prop :=
  forall i a, nth_error axioms i = Some a -> triggers_below axioms rank (rank i) (op_effs (ax_op a)).

(** No quantified variable shadows another or a parameter. *)
Fixpoint fresh_effs (scope : list string) (e : effs) : Prop :=
  match e with
  | Effs fs _ _ cs =>
      (fix all fs := match fs with
                     | [] => True
                     | (vars, b) :: fs' =>
                         (NoDup (scope ++ map oname vars) /\ fresh_effs (scope ++ map oname vars) b) /\ all fs'
                     end) fs /\
      (fix all cs := match cs with [] => True | (_, b) :: cs' => fresh_effs scope b /\ all cs' end) cs
  end.

(** Every literal has the number of arguments of its predicate. *)
Fixpoint eff_arity (ar : string -> nat) (e : effs) : Prop :=
  match e with
  | Effs fs adds dels cs =>
      (fix all fs := match fs with [] => True | (_, b) :: fs' => eff_arity ar b /\ all fs' end) fs /\
      Forall (fun p => length (pargs p) = ar (pname p)) adds /\
      Forall (fun p => length (pargs p) = ar (pname p)) dels /\
      (fix all cs := match cs with [] => True | (_, b) :: cs' => eff_arity ar b /\ all cs' end) cs
  end.

Record good_op (objects : list object) (ar : string -> nat) (o : op) : Prop := {
  go_params : NoDup (map oname (op_params o));
  go_wf : wf_effs objects (map oname (op_params o)) (op_effs o);
  go_fresh : fresh_effs (map oname (op_params o)) (op_effs o);
  go_arity : eff_arity ar (op_effs o)
}.

Record good_axiom (objects : list object) (ar : string -> nat) (a : axiom) : Prop := {
  ga_op : good_op objects ar (ax_op a);
  ga_context : linear_context a;
  ga_arity : length (ax_args a) = ar (ax_name a)
}.

(** ** Effects without axioms *)

(** No literal of the effect is the context of an axiom. *)
Definition quiet (axioms : list axiom) (e : effs) : Prop :=
  forall a, In a axioms -> ~ In (ax_pos a, ax_name a) (eff_sigs e).

(** No literal is about = or a type. *)
Definition ordinary_effs (objects : list object) (e : effs) : Prop :=
  forall s, In s (eff_sigs e) -> ordinary objects (snd s).

(** The ground atoms the conditions of an effect depend on. *)
Fixpoint eff_reads (objects : list object) (env : assignment) (e : effs) (a : atom) : Prop :=
  match e with
  | Effs fs _ _ cs =>
      (fix any fs := match fs with
                     | [] => False
                     | (vars, b) :: fs' =>
                         (exists objs, well_typed objects vars objs /\
                            eff_reads objects (bind_vars vars objs env) b a) \/ any fs'
                     end) fs \/
      (fix any cs := match cs with
                     | [] => False
                     | (g, b) :: cs' =>
                         (relevant objects env g a \/ eff_reads objects env b a) \/ any cs'
                     end) cs
  end.

Definition no_env : assignment := fun _ => null_object.

Section WithHash.
  Context `{SH : StdHash}.

  (** Conditions on a partial state, insisting on a definite value. *)
  Definition cond_known (om : object_map) (s : partial_state) (g : goal) (params args : list object)
      : outcome bool :=
    let* b := eval_optional om s g params args in
    match b with Some v => Ok v | None => Throw EUnknown end.
End WithHash.

Section History.
  Context `{SH : StdHash}.

  (** Shared vectors as earlier calls of actions and axioms, on full or partial
      states, may leave them, whether they return or throw. *)
  Inductive reachable_store (objects : list object) (ar : string -> nat) (axioms : list axiom)
    : store -> Prop :=
  | rs_none : reachable_store objects ar axioms no_store
  | rs_state : forall st fuel name o args s n s' st',
      reachable_store objects ar axioms st -> good_op objects ar o ->
      length (op_params o) = length args ->
      apply_state fuel (create_object_map objects) axioms (OAct name) o args (s, st) = Ok (n, (s', st')) ->
      reachable_store objects ar axioms st'
  | rs_partial : forall st fuel name o args s n s' st',
      reachable_store objects ar axioms st -> good_op objects ar o ->
      length (op_params o) = length args ->
      apply_partial fuel (create_object_map objects) axioms (OAct name) o args (s, st) = Ok (n, (s', st')) ->
      reachable_store objects ar axioms st'
  | rs_axiom_state : forall st fuel i a args s n s' st',
      reachable_store objects ar axioms st -> nth_error axioms i = Some a ->
      length (op_params (ax_op a)) = length args ->
      apply_state fuel (create_object_map objects) axioms (OAx i) (ax_op a) args (s, st) = Ok (n, (s', st')) ->
      reachable_store objects ar axioms st'
  | rs_axiom_partial : forall st fuel i a args s n s' st',
      reachable_store objects ar axioms st -> nth_error axioms i = Some a ->
      length (op_params (ax_op a)) = length args ->
      apply_partial fuel (create_object_map objects) axioms (OAx i) (ax_op a) args (s, st) = Ok (n, (s', st')) ->
      reachable_store objects ar axioms st'
  (* an Action is created ... *)
  | rs_new : forall st, reachable_store objects ar axioms st ->
      reachable_store objects ar axioms (forget_actions st)
  (* ... and the Actions that existed before are used again *)
  | rs_old : forall st st', reachable_store objects ar axioms st -> reachable_store objects ar axioms st' ->
      reachable_store objects ar axioms (restore_actions st st')
  (* a single call of any closure: calls of actions and axioms change the
     vectors only in this way, so this is what they leave if they throw *)
  | rs_call : forall st k r b st', reachable_store objects ar axioms st -> call_closure k r st = Ok (b, st') ->
      reachable_store objects ar axioms st'.
End History.

(** Forgetting the shared vectors. *)
Definition drop_store {T} (x : outcome (nat * (T * store))) : outcome (nat * T) :=
  let* ' (n, w) := x in Ok (n, fst w).
