(** src/formula.cc: compilation of goals to closures and their evaluation. *)
From Coq Require Import String List Bool NArith ZArith.
From Verif.Model Require Import Base Object Proposition State CombinationGenerator
  ParameterGenerator Syntax.
Import ListNotations.
Local Open Scope string_scope.

Section WithHash.
  Context `{SH : StdHash}.

  (** ** Application functions: formula.cc 379-407 *)

  (** 385-393: pairs (position in the proposition, position in the parameters),
      in the order of the two nested loops. *)
  Fixpoint match_params (i j : nat) (x : object) (action_params : list object) : list (nat * nat) :=
    match action_params with
    | [] => []
    | p :: ps => if obj_eqb x p then (i, j) :: match_params i (S j) x ps
                 else match_params i (S j) x ps
    end.
  Fixpoint idx_params_from (i : nat) (prop_params action_params : list object) : list (nat * nat) :=
    match prop_params with
    | [] => []
    | x :: xs => match_params i 0 x action_params ++ idx_params_from (S i) xs action_params
    end.
  Definition idx_params (action_params prop_params : list object) : list (nat * nat) :=
    idx_params_from 0 prop_params action_params.

  (** 396-406: the returned closure overwrites its buffer and returns it.
      Reading [action_args] out of range is undefined. *)
  Definition app_call (idx : list (nat * nat)) (buf args : list object) : outcome (list object) :=
    foldM (fun buf ij => let* a := index args (snd ij) in Ok (set_nth (fst ij) a buf)) idx buf.

  (** The buffer after a call on a freshly created closure. *)
  Definition app_fun (params prop_params args : list object) : outcome (list object) :=
    app_call (idx_params params prop_params) prop_params args.

  (** ** Compiled formulas *)

  (** What CreateFormula<T> captures, without the mutable buffers. *)
  Inductive cform : Type :=
  | CEq (idx : list (nat * nat))                          (* 57-68 *)
  | CType (name : string) (idx : list (nat * nat))        (* 69-83 *)
  | CAtom (name : string) (idx : list (nat * nat))        (* 85-94 *)
  | CNotAtom (name : string) (idx : list (nat * nat))     (* 190-207, PartialState only *)
  | CConj (fs : list cform)                               (* 115-122 *)
  | CDisj (fs : list cform)                               (* 145-152 *)
  | CNeg (f : cform)                                      (* 165-170, 211-219 *)
  | CForall (g : gen object) (f : cform)                  (* 237-250 *)
  | CExists (g : gen object) (f : cform).                 (* 276-289 *)

  (** The buffers [ptr_prop_args] of the closures, in the shape of the formula. *)
  Inductive btree : Type :=
  | BLeaf (buf : list object)
  | BNode (bs : list btree).

  (** 303-341, CreateFormula<T>; [partial] selects the PartialState overload of
      CreateNegation (174-222). *)
  Fixpoint compile (partial : bool) (om : object_map) (g : goal) (params : list object)
      : outcome (cform * btree) :=
    let atom name args neg :=
      let idx := idx_params params args in
      if String.eqb name "=" then (CEq idx, BLeaf args)
      else match om_find om name with
           | Some _ => (CType name idx, BLeaf args)
           | None => ((if neg : bool then CNotAtom name idx else CAtom name idx), BLeaf args)
           end in
    match g with
    | GSimple name args => Ok (atom name args false)
    | GConj gs =>
        let* l := mapM (fun g => compile partial om g params) gs in
        Ok (CConj (map fst l), BNode (map snd l))
    | GDisj gs =>
        let* l := mapM (fun g => compile partial om g params) gs in
        Ok (CDisj (map fst l), BNode (map snd l))
    | GNeg (GSimple name args) =>
        if partial && negb (String.eqb name "=") &&
           match om_find om name with Some _ => false | None => true end
        then Ok (atom name args true)
        else let '(f, b) := atom name args false in Ok (CNeg f, BNode [b])
    | GNeg g' =>
        let* ' (f, b) := compile partial om g' params in Ok (CNeg f, BNode [b])
    | GForall vars g' =>
        let* ' (f, b) := compile partial om g' (params ++ vars) in
        let* gen := param_gen om vars in
        Ok (CForall gen f, BNode [b])
    | GExists vars g' =>
        let* ' (f, b) := compile partial om g' (params ++ vars) in
        let* gen := param_gen om vars in
        Ok (CExists gen f, BNode [b])
    | GOther => Throw ERuntime
    end.

  (** ** Evaluation *)
  Section Eval.
    (** The state kind: State or PartialState, through [contains] and
        [does_not_contain]; the latter is used by CNotAtom only. *)
    Context (contains does_not_contain : prop -> outcome bool).

    (** 60-63 and 75-78: assertions on the number of arguments. *)
    Definition eval_eq (args : list object) : outcome bool :=
      match args with [a; b] => Ok (obj_eqb a b) | _ => AssertFail end.
    Definition eval_type (name : string) (args : list object) : outcome bool :=
      match args with [a] => Ok (is_subtype (otype a) name) | _ => AssertFail end.

    (** Calling the closure: result and buffers afterwards. *)
    Fixpoint run_cform (f : cform) (b : btree) (args : list object) {struct f} : outcome bool * btree :=
      let leaf idx (k : list object -> outcome bool) :=
        match b with
        | BLeaf buf =>
            match app_call idx buf args with
            | Ok buf' => (k buf', BLeaf buf')
            | Throw e => (Throw e, b) | UB => (UB, b) | AssertFail => (AssertFail, b)
            | OutOfFuel => (OutOfFuel, b)
            end
        | BNode _ => (UB, b)
        end in
      match f with
      | CEq idx => leaf idx eval_eq
      | CType name idx => leaf idx (eval_type name)
      | CAtom name idx => leaf idx (fun l => contains (mkProp name l))
      | CNotAtom name idx => leaf idx (fun l => does_not_contain (mkProp name l))
      | CConj fs =>
          match b with
          | BNode bs =>
              let '(r, bs') :=
                (fix go fs bs : outcome bool * list btree :=
                   match fs, bs with
                   | [], [] => (Ok true, [])
                   | f :: fs', b :: bs' =>
                       match run_cform f b args with
                       | (Ok true, b') => let '(r, bs'') := go fs' bs' in (r, b' :: bs'')
                       | (r, b') => (r, b' :: bs')
                       end
                   | _, _ => (UB, bs)
                   end) fs bs in
              (r, BNode bs')
          | BLeaf _ => (UB, b)
          end
      | CDisj fs =>
          match b with
          | BNode bs =>
              let '(r, bs') :=
                (fix go fs bs : outcome bool * list btree :=
                   match fs, bs with
                   | [], [] => (Ok false, [])
                   | f :: fs', b :: bs' =>
                       match run_cform f b args with
                       | (Ok false, b') => let '(r, bs'') := go fs' bs' in (r, b' :: bs'')
                       | (r, b') => (r, b' :: bs')
                       end
                   | _, _ => (UB, bs)
                   end) fs bs in
              (r, BNode bs')
          | BLeaf _ => (UB, b)
          end
      | CNeg f' =>
          match b with
          | BNode [b'] => let '(r, b'') := run_cform f' b' args in
                          ((let* v := r in Ok (negb v)), BNode [b''])
          | _ => (UB, b)
          end
      | CForall g f' =>
          match b with
          | BNode [b'] =>
              match gen_list null_object g with
              | Ok tuples =>
                  let '(r, b'') :=
                    (fix loop ts b : outcome bool * btree :=
                       match ts with
                       | [] => (Ok true, b)
                       | t :: ts' =>
                           match run_cform f' b (args ++ t) with
                           | (Ok true, b1) => loop ts' b1
                           | res => res
                           end
                       end) tuples b' in
                  (r, BNode [b''])
              | Throw e => (Throw e, b) | UB => (UB, b) | AssertFail => (AssertFail, b)
              | OutOfFuel => (OutOfFuel, b)
              end
          | _ => (UB, b)
          end
      | CExists g f' =>
          match b with
          | BNode [b'] =>
              match gen_list null_object g with
              | Ok tuples =>
                  let '(r, b'') :=
                    (fix loop ts b : outcome bool * btree :=
                       match ts with
                       | [] => (Ok false, b)
                       | t :: ts' =>
                           match run_cform f' b (args ++ t) with
                           | (Ok false, b1) => loop ts' b1
                           | res => res
                           end
                       end) tuples b' in
                  (r, BNode [b''])
              | Throw e => (Throw e, b) | UB => (UB, b) | AssertFail => (AssertFail, b)
              | OutOfFuel => (OutOfFuel, b)
              end
          | _ => (UB, b)
          end
      end.

    (** ** The same evaluation without buffers

        [eval] works on the goal directly with fresh buffers.  That it gives
        what the closures give, whatever was evaluated before, is the content of
        property C19; the rest of the model uses [eval]. *)
    Context (partial : bool) (om : object_map).

    Definition eval_atom (name : string) (params args_tmpl args : list object) : outcome bool :=
      let* l := app_fun params args_tmpl args in
      if String.eqb name "=" then eval_eq l
      else match om_find om name with
           | Some _ => eval_type name l
           | None => contains (mkProp name l)
           end.

    (** Whether a negated atom goes to [does_not_contain] (188-190). *)
    Definition special_neg (g : goal) : option (string * list object) :=
      match g with
      | GSimple name args =>
          if partial && negb (String.eqb name "=") &&
             match om_find om name with Some _ => false | None => true end
          then Some (name, args) else None
      | _ => None
      end.

    Fixpoint forM_all (f : list object -> outcome bool) (ts : list (list object)) : outcome bool :=
      match ts with
      | [] => Ok true
      | t :: ts' => let* v := f t in if v : bool then forM_all f ts' else Ok false
      end.
    Fixpoint forM_ex (f : list object -> outcome bool) (ts : list (list object)) : outcome bool :=
      match ts with
      | [] => Ok false
      | t :: ts' => let* v := f t in if v : bool then Ok true else forM_ex f ts'
      end.

    Definition var_tuples (vars : list object) : outcome (list (list object)) :=
      let* g := param_gen om vars in gen_list null_object g.

    Fixpoint eval (g : goal) (params args : list object) : outcome bool :=
      match g with
      | GSimple name xs => eval_atom name params xs args
      | GConj gs =>
          (fix go gs := match gs with
                        | [] => Ok true
                        | g :: gs' => let* v := eval g params args in
                                      if v : bool then go gs' else Ok false
                        end) gs
      | GDisj gs =>
          (fix go gs := match gs with
                        | [] => Ok false
                        | g :: gs' => let* v := eval g params args in
                                      if v : bool then Ok true else go gs'
                        end) gs
      | GNeg g' =>
          match special_neg g' with
          | Some (name, xs) =>
              let* l := app_fun params xs args in does_not_contain (mkProp name l)
          | None => let* v := eval g' params args in Ok (negb v)
          end
      | GForall vars g' =>
          let* ts := var_tuples vars in
          forM_all (fun t => eval g' (params ++ vars) (args ++ t)) ts
      | GExists vars g' =>
          let* ts := var_tuples vars in
          forM_ex (fun t => eval g' (params ++ vars) (args ++ t)) ts
      | GOther => Throw ERuntime
      end.
  End Eval.

  (** formula.h, operator()(State, arguments) *)
  Definition eval_state (om : object_map) (s : state) (g : goal) (params args : list object)
      : outcome bool :=
    eval (fun p => Ok (st_contains s p)) (fun p => Ok (negb (st_contains s p))) false om g params args.

  (** PP_ of Formula (formula.cc 353) *)
  Definition eval_partial (om : object_map) (s : partial_state) (g : goal) (params args : list object)
      : outcome bool :=
    eval (ps_contains s) (ps_does_not_contain s) true om g params args.

  (** formula.cc 357-372, operator()(PartialState): UnknownEvaluation becomes
      nullopt, other exceptions propagate. *)
  Definition eval_optional (om : object_map) (s : partial_state) (g : goal)
      (params args : list object) : outcome (option bool) :=
    match eval_partial om s g params args with
    | Ok b => Ok (Some b)
    | Throw EUnknown => Ok None
    | Throw e => Throw e
    | UB => UB | AssertFail => AssertFail | OutOfFuel => OutOfFuel
    end.

  (** Calls of one Formula object, one after another, on the buffers left by
      the previous ones (State closures [P_]; PartialState closures [PP_]). *)
  Definition call_state (f : cform) (s : state) (args : list object) (b : btree) : outcome bool * btree :=
    run_cform (fun p => Ok (st_contains s p)) (fun p => Ok (negb (st_contains s p))) f b args.
  Definition call_partial (f : cform) (s : partial_state) (args : list object) (b : btree)
      : outcome bool * btree :=
    run_cform (ps_contains s) (ps_does_not_contain s) f b args.
End WithHash.
