(** include/symbolic/normal_form.h, src/normal_form.cc.
    A DisjunctiveFormula is its vector of conjunctions (normal_form.h 116); the
    code reads the empty vector as "true" and std::nullopt as "false". *)
From Coq Require Import String List Bool NArith ZArith Arith.
From Verif.Model Require Import Base Object Proposition State CombinationGenerator
  ParameterGenerator Syntax Formula.
Import ListNotations.
Local Open Scope string_scope.
Local Open Scope list_scope.

Section WithHash.
  Context `{SH : StdHash}.

  (** normal_form.h 27-28, 116 *)
  Definition dnf := list partial_state.

  (** normal_form.cc 40-41: the two dynamic_casts to var_symbol* differ.  Both
      are null for constants. *)
  Definition same_var (a b : object) : bool :=
    match okind a, okind b with
    | KConst, KConst => true
    | KVar i, KVar j => Nat.eqb i j
    | _, _ => false
    end.

  (** 35-47 *)
  Definition evaluate_equals (p : prop) : outcome (option bool) :=
    if String.eqb (pname p) "=" then
      match pargs p with
      | [a; b] => Ok (if same_var a b then Some (obj_eqb a b) else None)
      | _ => AssertFail
      end
    else Ok None.

  (** 55-59 *)
  Definition evaluate_type (om : object_map) (p : prop) : outcome (option bool) :=
    match om_find om (pname p) with
    | None => Ok None
    | Some _ => match pargs p with
                | [a] => Ok (Some (is_subtype (otype a) (pname p)))
                | _ => AssertFail
                end
    end.

  (** 31-33 *)
  Definition negate_opt (x : option bool) : option bool := option_map negb x.

  (** 49-53, 61-67: dereferencing begin() of an empty set is undefined. *)
  Definition evaluate_single (f : prop -> outcome (option bool)) (c : partial_state) : outcome (option bool) :=
    if st_is_empty (ps_neg c) then
      match st_elements (ps_pos c) with p :: _ => f p | [] => UB end
    else match st_elements (ps_neg c) with
         | p :: _ => let* v := f p in Ok (negate_opt v)
         | [] => UB
         end.

  (** [apply_axioms]: None, or Axiom::IsConsistent(pddl.axioms(), .) (146). *)
  Definition axiom_check := option (partial_state -> outcome bool).

  (** 131-148 *)
  Definition evaluate (om : object_map) (ax : axiom_check) (c : partial_state) : outcome (option bool) :=
    let* v := (if Nat.eqb (ps_size c) 1 then
                 let* e := evaluate_single evaluate_equals c in
                 match e with
                 | Some b => Ok (Some b)
                 | None => evaluate_single (evaluate_type om) c
                 end
               else Ok None) in
    match v with
    | Some b => Ok (Some b)
    | None =>
        if ps_is_consistent c then
          match ax with
          | None => Ok None
          | Some f => let* ok := f c in Ok (if ok : bool then None else Some false)
          end
        else Ok (Some false)
    end.

  (** 80-85, SortUnique: std::sort (here insertion sort; the order is total up
      to ==, so the result is the same), std::unique, erase. *)
  Fixpoint sort_insert (c : partial_state) (l : dnf) : dnf :=
    match l with
    | [] => [c]
    | d :: l' => if ps_ltb d c then d :: sort_insert c l' else c :: l
    end.
  Definition sort (l : dnf) : dnf := fold_right sort_insert [] l.
  Fixpoint unique_from (c : partial_state) (l : dnf) : dnf :=
    match l with
    | [] => [c]
    | d :: l' => if ps_eqb c d then unique_from c l' else c :: unique_from d l'
    end.
  Definition unique (l : dnf) : dnf := match l with [] => [] | c :: l' => unique_from c l' end.
  Definition sort_unique (l : dnf) : dnf := unique (sort l).

  (** 87-98 *)
  Definition is_subset (sub super : partial_state) : bool :=
    if Nat.ltb (ps_size super) (ps_size sub) then false
    else forallb (st_contains (ps_pos super)) (st_elements (ps_pos sub)) &&
         forallb (st_contains (ps_neg super)) (st_elements (ps_neg sub)).

  (** 103-125: returned bool and the vector afterwards. *)
  Definition try_insert_subset (c : partial_state) (cs : dnf) : bool * dnf :=
    if existsb (fun d => is_subset d c) cs then (true, cs)
    else if existsb (is_subset c) cs
         then (true, sort_unique (map (fun d => if is_subset c d then c else d) cs))
         else (false, cs).

  (** 157-178: the loop; None is the early return of the empty (true) formula. *)
  Fixpoint simplify_loop (om : object_map) (ax : axiom_check) (l : dnf) (ret : dnf) : outcome (option dnf) :=
    match l with
    | [] => Ok (Some ret)
    | c :: l' =>
        let* v := evaluate om ax c in
        match v with
        | None => let '(b, ret') := try_insert_subset c ret in
                  simplify_loop om ax l' (if b then ret' else ret' ++ [c])
        | Some true => Ok None
        | Some false => simplify_loop om ax l' ret
        end
    end.

  (** 150-187 *)
  Definition simplify (om : object_map) (ax : axiom_check) (d : dnf) : outcome (option dnf) :=
    match d with
    | [] => Ok (Some [])
    | _ =>
        let* r := simplify_loop om ax d [] in
        match r with
        | None => Ok (Some [])
        | Some [] => Ok None
        | Some ret => Ok (Some (sort_unique ret))
        end
    end.

  (** 189-199 *)
  Definition disjoin (om : object_map) (ax : axiom_check) (ds : list dnf) : outcome (option dnf) :=
    simplify om ax (concat ds).

  (** 220-226: the union of the terms of one combination. *)
  Definition merge (combo : list partial_state) : partial_state :=
    fold_left (fun c t => mkPS (snd (st_insert_range (st_elements (ps_pos t)) (ps_pos c)))
                               (snd (st_insert_range (st_elements (ps_neg t)) (ps_neg c))))
      combo ps_empty.

  (** Number of combinations. *)
  Definition combo_count (ds : list dnf) : Z := fold_right (fun d n => Z.of_nat (length d) * n)%Z 1%Z ds.

  (** 201-230.  More combinations than an int can count (which would not fit
      in memory either) are out of the model. *)
  Definition conjoin (om : object_map) (ax : axiom_check) (ds : list dnf) : outcome (option dnf) :=
    let opts := filter (fun d => match d with [] => false | _ => true end) ds in
    if (combo_count opts <? 2 ^ 31)%Z then
      let* g := make_gen opts in
      let* combos := gen_list ps_empty g in
      simplify om ax (map merge combos)
    else OutOfFuel.

  (** 238-255, Convert: every disjunction becomes a list of single literals. *)
  Definition convert (disj : partial_state) : dnf :=
    map (fun p => mkPS (st_of_list [p]) st_empty) (st_elements (ps_pos disj)) ++
    map (fun p => mkPS st_empty (st_of_list [p])) (st_elements (ps_neg disj)).

  (** 262-276 with 232-236 and 257-260 *)
  Definition negate (om : object_map) (d : dnf) : outcome (option dnf) :=
    conjoin om None (map (fun c => convert (mkPS (ps_neg c) (ps_pos c))) d).

  (** The loops 303-308, 318-323, 350-366, 386-405: collect the terms; a term
      that is false ends the loop ([stop]) or is skipped. *)
  Definition collect {A} (stop : bool) (f : A -> outcome (option (list dnf))) : list A -> outcome (option (list dnf)) :=
    fix go l :=
      match l with
      | [] => Ok (Some [])
      | a :: l' =>
          let* r := f a in
          match r with
          | None => if stop then Ok None else go l'
          | Some ds => let* rest := go l' in Ok (option_map (app ds) rest)
          end
      end.
  Definition one (r : outcome (option dnf)) : outcome (option (list dnf)) :=
    let* x := r in Ok (option_map (fun d => [d]) x).
  Definition and_then (r : outcome (option (list dnf))) (k : list dnf -> outcome (option dnf)) : outcome (option dnf) :=
    let* x := r in match x with None => Ok None | Some ds => k ds end.

  (** 278-377.  [apply_axioms] is not passed on to the recursive calls. *)
  Fixpoint create_goal (om : object_map) (ax : axiom_check) (g : goal) (params args : list object)
      : outcome (option dnf) :=
    match g with
    | GSimple name xs =>
        let* l := app_fun params xs args in
        Ok (Some [mkPS (st_of_list [mkProp name l]) st_empty])
    | GConj gs =>
        and_then (collect true (fun g => one (create_goal om None g params args)) gs) (conjoin om ax)
    | GDisj gs =>
        and_then (collect false (fun g => one (create_goal om None g params args)) gs) (disjoin om ax)
    | GNeg g' =>
        let* r := create_goal om None g' params args in
        match r with None => Ok (Some []) | Some d => negate om d end
    | GForall vars g' =>
        let* ts := var_tuples om vars in
        and_then (collect true (fun t => one (create_goal om None g' (params ++ vars) (args ++ t))) ts) (conjoin om ax)
    | GExists vars g' =>
        let* ts := var_tuples om vars in
        and_then (collect false (fun t => one (create_goal om None g' (params ++ vars) (args ++ t))) ts) (disjoin om ax)
    | GOther => Ok None
    end.

  (** 410-418, 422-431 *)
  Definition literals (ps : list prop) (params args : list object) : outcome state :=
    foldM (fun s p => let* l := app_fun params (pargs p) args in Ok (snd (st_insert (mkProp (pname p) l) s))) ps st_empty.

  (** 379-478 *)
  Fixpoint create_effs (om : object_map) (ax : axiom_check) (e : effs) (params args : list object)
      : outcome (option dnf) :=
    match e with
    | Effs fs adds dels cs =>
        and_then
          (collect true (fun f : list object * effs =>
             let (vars, b) := f in
             let* ts := var_tuples om vars in
             collect true (fun t => one (create_effs om None b (params ++ vars) (args ++ t))) ts) fs)
          (fun foralls =>
             let* pos := literals adds params args in
             let* neg := literals dels params args in
             let lits := if st_is_empty pos && st_is_empty neg then [] else [[mkPS pos neg]] in
             let* conds := mapM (fun cb : goal * effs =>
               let (c, b) := cb in
               let* cond := create_goal om None c params args in
               match cond with
               | None => Ok []
               | Some cond =>
                   let* result := create_effs om None b params args in
                   match cond with
                   | [] => match result with None => Throw ERuntime | Some r => Ok [r] end
                   | _ =>
                       let* ncond := negate om cond in
                       match ncond, result with
                       | None, _ => Ok []
                       | Some nc, None => Ok [nc]
                       | Some nc, Some r =>
                           let* d := disjoin om ax [nc; r] in
                           match d with None => Throw ERuntime | Some d => Ok [d] end
                       end
                   end
               end) cs in
             conjoin om ax (foralls ++ lits ++ concat conds))
    end.
End WithHash.
