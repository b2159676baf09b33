(** C15-C17: text of propositions, states and action calls. *)
From Coq Require Import String Ascii List Bool NArith.
From Verif.Model Require Import Base Object Proposition HashSet State Syntax Text.
From Verif.Spec Require Import SetSpec TypingSpec FormulaSpec TextSpec.
From Verif.Proofs Require Import StateFacts StateHistory EffectExamples TextFacts.
From Verif.Properties Require Import StateProps ParameterProps FormulaProps.
Import ListNotations.
Local Open Scope string_scope.
Local Open Scope list_scope.

(** C15. Reading back a printed call. *)
Theorem C15_round_trip : forall name args,
  free_of "(" name -> Forall word (map oname args) ->
  parse_head (print_call name args) = name /\ tokenize (print_call name args) = map oname args.
Proof. exact C15_lemma. Qed.
Print Assumptions C15_round_trip.

Theorem C15_injective : forall n1 a1 n2 a2,
  free_of "(" n1 -> free_of "(" n2 -> Forall word (map oname a1) -> Forall word (map oname a2) ->
  print_call n1 a1 = print_call n2 a2 -> n1 = n2 /\ map oname a1 = map oname a2.
Proof. exact print_inj. Qed.
Print Assumptions C15_injective.

(** What ParseHead and TokenizeArguments return for an arbitrary string. *)
Theorem C15_any_text : forall call name ws,
  call_text call name ws <-> name = parse_head call /\ ws = tokenize call.
Proof. exact call_text_iff. Qed.
Print Assumptions C15_any_text.

(** Empty names do not survive. *)
Theorem C15_empty_name_refuted : exists name args,
  free_of "(" name /\ Forall (fun o => free_of "(" (oname o) /\ gap (oname o)) args /\
  tokenize (print_call name args) <> map oname args.
Proof.
  exists "p", [mkObj "" [] KConst]. split; [intros [H|[]]; discriminate|]. split.
  - constructor; [|constructor]. split; [intros []|intros ? []].
  - discriminate.
Qed.
Print Assumptions C15_empty_name_refuted.

Example C15_example :
  print_call "on" [ex_const "box"; ex_const "table"] = "on(box, table)" /\
  free_of "(" "on" /\ Forall word ["box"; "table"] /\
  tokenize "on(box, table)" = ["box"; "table"] /\ tokenize " on (,box  table,, hook) " = ["box"; "table"; "hook"] /\
  parse_head "on(box, table)" = "on" /\ tokenize "handempty()" = [] /\ tokenize "handempty" = ["handempty"].
Proof.
  split; [reflexivity|]. split; [cbn; intros I; repeat (destruct I as [I|I]; [discriminate|]); destruct I|].
  split; [|repeat split].
  assert (X : forall l, (forall c, In c l -> sepb c = false) -> forall c, In c l -> ~ separator c).
  { intros l H c I S. apply sepb_spec in S. rewrite H in S; auto. discriminate. }
  repeat constructor; try discriminate; apply X; intros c I; cbn in I;
    repeat (destruct I as [<-|I]; [reflexivity|]); destruct I.
Qed.

(** C60. The PDDL text of a proposition is "(", the name and the arguments
    separated by blanks, and ")"; different atoms have different texts. *)
Theorem C60_pddl_text : forall p, word (pname p) -> Forall word (map oname (pargs p)) ->
  exists body, prop_to_pddl p = ("(" ++ body ++ ")")%string /\ spelled (pname p :: map oname (pargs p)) body.
Proof. exact C60_lemma. Qed.
Print Assumptions C60_pddl_text.

Theorem C60_injective : forall p q,
  word (pname p) -> Forall word (map oname (pargs p)) -> word (pname q) -> Forall word (map oname (pargs q)) ->
  prop_to_pddl p = prop_to_pddl q <-> prop_key p = prop_key q.
Proof. exact C60_inj. Qed.
Print Assumptions C60_injective.

Example C60_example : prop_to_pddl (mkProp "on" [ex_const "box"; ex_const "table"]) = "(on box table)" /\
  prop_to_pddl (mkProp "handempty" []) = "(handempty)".
Proof. split; reflexivity. Qed.

(** C16. A State rebuilt from its set of strings, iterated in any order, equals
    the original. *)
Theorem C16_round_trip : forall (SH : StdHash) objects s strs,
  built s -> printable objects s ->
  (forall x, In x strs <-> exists p, st_contains s p = true /\ x = prop_to_string p) ->
  exists s', parse_state objects strs = Ok s' /\ built s' /\ st_eqb s' s = true.
Proof. exact @C16_lemma. Qed.
Print Assumptions C16_round_trip.

Theorem C16_stringify : forall (SH : StdHash) objects s,
  built s -> printable objects s ->
  exists s', parse_state objects (stringify s) = Ok s' /\ built s' /\ st_eqb s' s = true /\
    stringify s' = stringify s.
Proof. exact @C16_stringify_lemma. Qed.
Print Assumptions C16_stringify.

Example C16_example :
  let s := run (SH := collide) [Ins (mkProp "on" [ex_const "box"; ex_const "table"]); Ins (mkProp "handempty" [])] in
  stringify s = ["on(box, table)"; "handempty()"] /\
  exists s', parse_state (SH := collide) ex_objects ["on(box, table)"; "handempty()"; "on(box,table)"] = Ok s' /\
    st_eqb (SH := collide) s' s = true /\
  parse_state (SH := collide) ex_objects ["on(box, floor)"] = Throw ERuntime.
Proof. cbv zeta. split; [vm_compute; reflexivity|]. eexists. split; [reflexivity|]. split; reflexivity. Qed.

(** The hypotheses hold for this State, whatever the hash function. *)
Example C16_hypotheses (SH : StdHash) :
  let s := run [Ins (mkProp "on" [ex_const "box"; ex_const "table"]); Ins (mkProp "handempty" [])] in
  built s /\ printable ex_objects s.
Proof.
  cbv zeta. split; [eexists; reflexivity|]. intros p C. apply contains_mem in C; [|apply run_wf].
  unfold run, run_from in C. cbn [fold_left] in C. unfold exec_op in C.
  destruct (insert_spec (mkProp "on" [ex_const "box"; ex_const "table"]) st_empty st_empty_wf) as (W & _ & M1 & _).
  apply insert_spec in C; [|exact W]. destruct C as [C|C].
  - injection C as -> E. rewrite E. destruct (pargs p); [|discriminate].
    split; [intros I; cbn in I; repeat (destruct I as [I|I]; [discriminate|]); destruct I|].
    split; [constructor|intros ? []].
  - apply M1 in C. destruct C as [C|C]; [|destruct (mem_empty _ C)].
    injection C as -> E. rewrite E.
    split; [intros I; cbn in I; repeat (destruct I as [I|I]; [discriminate|]); destruct I|].
    split.
    + cbn. repeat constructor; try discriminate; intros c I S; apply sepb_spec in S; cbn in I;
        repeat (destruct I as [<-|I]; [discriminate|]); destruct I.
    + intros o I. apply (in_map oname) in I. rewrite E in I. cbn in I.
      destruct I as [<-|[<-|[]]]; [exists (nth 2 ex_objects (ex_const ""))|exists (nth 0 ex_objects (ex_const ""))];
        (split; [cbn; tauto|reflexivity]).
Qed.

(** C17. The accepted calls. *)
Theorem C17_accepted : forall objects ops call o args,
  parse_action objects ops call = Ok (o, args) <->
  exists name ws, call_text call name ws /\ good_call objects ops name ws o args.
Proof. exact C17_lemma. Qed.
Print Assumptions C17_accepted.

(** All other calls raise std::runtime_error or std::invalid_argument. *)
Theorem C17_rejected : forall objects ops call,
  (exists o args, parse_action objects ops call = Ok (o, args)) \/
  parse_action objects ops call = Throw ERuntime \/ parse_action objects ops call = Throw EInvalidArgument.
Proof. exact parse_action_else. Qed.
Print Assumptions C17_rejected.

(** A known operator and known objects with a wrong number or types of arguments
    raise std::invalid_argument; by the two theorems above the remaining calls
    raise std::runtime_error. *)
Theorem C17_invalid_argument : forall objects ops call,
  parse_action objects ops call = Throw EInvalidArgument <->
  exists name ws o args, call_text call name ws /\ first_named op_name ops name o /\
    Forall2 (first_named oname objects) ws args /\
    ~ Forall2 (fun a p => has_type a (type_name (otype p))) args (op_params o).
Proof. exact parse_action_invalid. Qed.
Print Assumptions C17_invalid_argument.

(** Printed calls of declared operators on declared objects are accepted. *)
Theorem C17_printed : forall objects ops o args,
  free_of "(" (op_name o) -> Forall word (map oname args) ->
  first_named op_name ops (op_name o) o -> (forall a, In a args -> first_named oname objects (oname a) a) ->
  Forall2 (fun a p => has_type a (type_name (otype p))) args (op_params o) ->
  parse_action objects ops (action_to_string o args) = Ok (o, args).
Proof. exact C17_print_lemma. Qed.
Print Assumptions C17_printed.

Definition ex_ops_pick : list op :=
  [mkOp "pick" false [mkObj "?a" ["tool"; "thing"; "object"] (KVar 0)] (GConj []) (Effs [] [] [] []);
   mkOp "noop" false [] (GConj []) (Effs [] [] [] [])].
Example C17_example :
  (exists o a, parse_action ex_objects ex_ops_pick "pick(hook)" = Ok (o, [a]) /\ op_name o = "pick" /\ oname a = "hook") /\
  parse_action ex_objects ex_ops_pick "pick(table)" = Throw EInvalidArgument /\
  parse_action ex_objects ex_ops_pick "pick(hook, hook)" = Throw EInvalidArgument /\
  parse_action ex_objects ex_ops_pick "pick(floor)" = Throw ERuntime /\
  parse_action ex_objects ex_ops_pick "push(hook)" = Throw ERuntime /\
  (exists o, parse_action ex_objects ex_ops_pick "noop()" = Ok (o, [])) /\
  parse_action ex_objects ex_ops_pick "noop" = Throw ERuntime.
Proof. split; [eexists; eexists; repeat split; reflexivity|]. repeat split. eexists. reflexivity. Qed.
