(** C58: the text of problems (symbolic/problem.py). *)
From Coq Require Import Ascii String List Bool Arith.
From Verif.Model Require Import Base Object Proposition State Text Problem.
From Verif.Spec Require Import TextSpec ProblemSpec.
From Verif.Proofs Require Import EffectExamples TextFacts ProblemFacts.
Import ListNotations.
Local Open Scope string_scope.
Local Open Scope list_scope.

(** C58. The parentheses match when they do in every piece, whatever the
    names, initial propositions and goal. *)
Theorem C58_balanced : forall b g,
  pb_goal b = build g -> pieces_balanced g -> balanced (pb_name b) -> balanced (pb_domain b) ->
  Forall (fun o => balanced (fst o) /\ balanced (snd o)) (pb_objects b) -> Forall balanced (pb_init b) ->
  balanced (problem_text b).
Proof. exact problem_balanced. Qed.
Print Assumptions C58_balanced.

(** The text has one reading as expressions, if any. *)
Theorem C58_unique : forall text es es', reads text es -> reads text es' -> es = es'.
Proof. exact reads_unique. Qed.
Print Assumptions C58_unique.

(** A formula is printed as PDDL writes it exactly when no quantifier occurs in
    it ... *)
Theorem C58_formula : forall n f e, written f e -> (reads (pprint n (build f)) [e] <-> no_quantifier f).
Proof. exact formula_reads. Qed.
Print Assumptions C58_formula.

(** ... because the list of variables is printed without its parentheses. *)
Theorem C58_quantifier : forall n v t f e, clean v -> clean t -> written f e -> no_quantifier f ->
  reads (pprint n (build (FForall v t f))) [Group [Atom "forall"; Atom ("?" ++ v); Atom "-"; Atom t; e]] /\
  reads (pprint n (build (FExists v t f))) [Group [Atom "exists"; Atom ("?" ++ v); Atom "-"; Atom t; e]].
Proof. exact forall_printed. Qed.
Print Assumptions C58_quantifier.

(** So the combinators do not all print PDDL. *)
Theorem C58_quantifier_refuted : exists f e, written f e /\ ~ reads (pprint 0 (build f)) [e].
Proof.
  assert (C : forall w, In w ["o"; "box"; "on"; "table"] -> clean w).
  { intros w I. cbn in I. repeat (destruct I as [<-|I]; [repeat split; try discriminate;
      try (intros c I S; apply sepb_spec in S; cbn in I; repeat (destruct I as [<-|I]; [discriminate|]); destruct I);
      intros J; cbn in J; intuition discriminate|]). destruct I. }
  exists (FForall "o" "box" (FPred "on" ["table"])). eexists. split.
  - apply wr_forall; [apply C; cbn; tauto|apply C; cbn; tauto|]. apply wr_pred; [|constructor; auto]; apply C; cbn; tauto.
  - intros R. discriminate.
Qed.
Print Assumptions C58_quantifier_refuted.

(** A problem is printed as the definition of these objects, initial
    propositions and goal. *)
Theorem C58_problem : forall b es g e,
  clean (pb_name b) -> clean (pb_domain b) -> Forall clean_object (pb_objects b) ->
  Forall2 (fun s e => reads s [e]) (pb_init b) es -> pb_goal b = build g -> written g e -> no_quantifier g ->
  reads (problem_text b) [problem_sexp (pb_name b) (pb_domain b) (pb_objects b) es e].
Proof. exact problem_reads. Qed.
Print Assumptions C58_problem.

(** The same for a problem made by calling the builder with the strings of the
    propositions of a state (in any order). *)
Theorem C58_session : forall name domain objs ps g e,
  clean name -> clean domain -> Forall clean_object objs -> Forall clean_prop ps -> written g e -> no_quantifier g ->
  exists b, set_initial_state (map prop_to_string ps)
      (fold_left (fun b o => pb_add_object (fst o) (snd o) b) objs (new_problem name domain)) = Ok b /\
    reads (problem_text (set_goal (build g) b)) [problem_sexp name domain objs (map prop_sexp ps) e].
Proof. exact session_reads. Qed.
Print Assumptions C58_session.

(** The objects are declared with their types if those without a type come
    last ... *)
Theorem C58_objects : forall typed untyped,
  Forall clean_object typed -> Forall (fun o => snd o <> "") typed ->
  Forall clean_object untyped -> Forall (fun o => snd o = "") untyped ->
  typed_list [] (flat_map object_words (typed ++ untyped)) = map declared (typed ++ untyped).
Proof. exact typed_typed. Qed.
Print Assumptions C58_objects.

(** ... but an object without a type takes the type of the next one that has
    one. *)
Theorem C58_objects_captured : forall n o,
  clean n -> n <> "-" -> clean_object o -> snd o <> "" ->
  typed_list [] (flat_map object_words [(n, ""); o]) = [(n, Some (snd o)); (fst o, Some (snd o))].
Proof. exact typed_captured. Qed.
Print Assumptions C58_objects_captured.
Theorem C58_objects_refuted : exists objs, Forall clean_object objs /\
  typed_list [] (flat_map object_words objs) <> map declared objs.
Proof.
  exists [("a", ""); ("b", "t")]. split; [|discriminate].
  repeat (constructor; [split; [|split; [discriminate|]]|]); try (left; reflexivity); try constructor;
    repeat split; try discriminate;
    try (intros c I S; apply sepb_spec in S; cbn in I; repeat (destruct I as [<-|I]; [discriminate|]); destruct I);
    intros J; cbn in J; intuition discriminate.
Qed.
Print Assumptions C58_objects_refuted.

(** Adding a proposition in call syntax. *)
Theorem C58_call : forall name ws body junk b, clean name -> comma_list ws body ->
  exists text, add_initial_prop (name ++ "(" ++ body ++ ")" ++ junk) b = Ok (with_init b (pb_init b ++ [text])) /\
    reads text [atom_sexp name ws].
Proof. exact call_added. Qed.
Print Assumptions C58_call.

Theorem C58_proposition : forall p b, clean_prop p ->
  exists text, add_initial_prop (prop_to_string p) b = Ok (with_init b (pb_init b ++ [text])) /\
    reads text [prop_sexp p].
Proof. exact prop_added. Qed.
Print Assumptions C58_proposition.

(** It is what the C++ function to_pddl prints. *)
Theorem C58_to_pddl : forall p, clean_prop p -> reads (prop_to_pddl p) [prop_sexp p].
Proof. exact pddl_reads. Qed.
Print Assumptions C58_to_pddl.

(** The functions parse_proposition, parse_head and parse_args, and the C++
    reading of the same text. *)
Theorem C58_parse : forall name ws body junk, free_of "(" name -> comma_list ws body ->
  parse_proposition (name ++ "(" ++ body ++ ")" ++ junk) = Ok (name, ws) /\
  py_parse_head (name ++ "(" ++ body ++ ")" ++ junk) = Ok name /\
  py_parse_args (name ++ "(" ++ body ++ ")" ++ junk) = Ok ws.
Proof. exact call_parsed. Qed.
Print Assumptions C58_parse.

Theorem C58_agree : forall name ws body, free_of "(" name -> comma_list ws body ->
  parse_head (name ++ "(" ++ body ++ ")") = name /\ tokenize (name ++ "(" ++ body ++ ")") = ws.
Proof.
  intros name ws body F C. destruct (proj1 (call_text_iff _ _ _) (call_same name ws body F C)) as [H1 H2]. auto.
Qed.
Print Assumptions C58_agree.

(** The two readings differ when arguments are separated by blanks, and when
    there are none. *)
Theorem C58_agree_refuted :
  (exists ws, parse_proposition "on(a b)" = Ok ("on", ws) /\ tokenize "on(a b)" <> ws) /\
  (exists ws, parse_proposition "handempty()" = Ok ("handempty", ws) /\ tokenize "handempty()" <> ws).
Proof. split; eexists; (split; [reflexivity|discriminate]). Qed.
Print Assumptions C58_agree_refuted.

(** Without parenthesis both the parser and the builder fail. *)
Theorem C58_no_call : forall s b, free_of "(" s -> s <> "" ->
  parse_proposition s = Throw EInvalidArgument /\ add_initial_prop s b = Throw EInvalidArgument.
Proof. exact no_call. Qed.
Print Assumptions C58_no_call.

(** set_initial_state adds: it does not replace what has been set before. *)
Theorem C58_set_state_refuted : exists ps qs b b1 b2 b3,
  set_initial_state (map prop_to_string ps) b = Ok b1 /\ set_initial_state (map prop_to_string qs) b1 = Ok b2 /\
  set_initial_state (map prop_to_string qs) b = Ok b3 /\ pb_init b2 <> pb_init b3.
Proof.
  exists [mkProp "p" [ex_const "a"]], [mkProp "q" [ex_const "a"]], (new_problem "n" "d"). do 3 eexists.
  repeat (split; [reflexivity|]). discriminate.
Qed.
Print Assumptions C58_set_state_refuted.

Definition ex_goal : pddl_formula := FAnd [FPred "on" ["box"; "table"]; FNot (FOr [FRaw "(inhand box)"; FNot (FPred "free" ["table"])])].
Example C58_example :
  exists b, set_initial_state ["on( box ,table)"; "(free hook)"; "handempty()"]
      (pb_add_object "hook" "tool" (pb_add_object "box" "" (new_problem "stack" "blocks"))) = Ok b /\
    pb_init b = ["(on box table)"; "(free hook)"; "(handempty )"] /\
    reads (problem_text (set_goal (build ex_goal) b))
      [Group [Atom "define"; Group [Atom "problem"; Atom "stack"]; Group [Atom ":domain"; Atom "blocks"];
        Group [Atom ":objects"; Atom "box"; Atom "hook"; Atom "-"; Atom "tool"];
        Group [Atom ":init"; Group [Atom "on"; Atom "box"; Atom "table"]; Group [Atom "free"; Atom "hook"]; Group [Atom "handempty"]];
        Group [Atom ":goal"; Group [Atom "and"; Group [Atom "on"; Atom "box"; Atom "table"];
          Group [Atom "not"; Group [Atom "or"; Group [Atom "inhand"; Atom "box"];
            Group [Atom "not"; Group [Atom "free"; Atom "table"]]]]]]]] /\
    pieces_balanced ex_goal /\ no_quantifier ex_goal.
Proof.
  eexists. split; [reflexivity|]. split; [reflexivity|]. split; [reflexivity|]. split; [|cbn; tauto].
  cbn [pieces_balanced ex_goal fold_right].
  repeat match goal with
  | |- _ /\ _ => split
  | |- Forall _ _ => constructor
  | |- True => exact Logic.I
  | |- balanced "(inhand box)" => apply (bal_group "inhand box" "")
  | |- balanced _ => plain
  end.
Qed.
