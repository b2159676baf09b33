(** Sample axioms and counterexamples for C29-C32. *)
From Coq Require Import String List Bool NArith ZArith Lia.
From Verif.Model Require Import Base Object Proposition HashSet State CombinationGenerator
  ParameterGenerator Syntax Formula Effects NormalForm Consistency.
From Verif.Spec Require Import SetSpec TypingSpec FormulaSpec EffectSpec NormalFormSpec AxiomSpec.
From Verif.Proofs Require Import StateFacts StateHistory FormulaFacts EffectLink EffectTheorems EffectExamples
  AxiomZero AxiomLoops AxiomMeaning AxiomExtend.
From Verif.Properties Require Import StateProps ParameterProps FormulaProps.
Import ListNotations.
Local Open Scope string_scope.
Local Open Scope list_scope.

Definition rule (name : string) (params : list object) (pos : bool) (p : prop) (adds dels : list prop) : axiom :=
  let g := GSimple (pname p) (pargs p) in
  mkAxiom (mkOp name true params (if pos then g else GNeg g) (Effs [] adds dels [])) pos (pname p) (pargs p).
Definition toolv (n : string) (i : nat) : object := var n ["tool"; "thing"; "object"] i.
Definition surf : object := mkObj "table" ["surface"; "thing"; "object"] KConst.

(** near ?x ?y => reach ?x;  reach ?u => not broken ?u *)
Definition ex_rules : list axiom :=
  [rule "a1" [tv "x" 0; tv "y" 1] true (mkProp "near" [tv "x" 0; tv "y" 1]) [mkProp "reach" [tv "x" 0]] [];
   rule "a2" [tv "u" 0] true (mkProp "reach" [tv "u" 0]) [] [mkProp "broken" [tv "u" 0]]].
Definition ex_rules_arity (n : string) : nat := if String.eqb n "near" then 2 else 1.
Definition ex_rules_sig (n : string) : list string := if String.eqb n "near" then ["thing"; "thing"] else ["thing"].
Definition ex_rules_rank (i : nat) : nat := 1 - i.

Lemma ex_rules_wf : Forall (wf_axiom ex_objects) ex_rules.
Proof.
  repeat apply Forall_cons; try apply Forall_nil; (constructor; [reflexivity|discriminate|reflexivity|wf_tac|wf_tac]).
Qed.

Lemma ex_rules_good : Forall (good_axiom ex_objects ex_rules_arity) ex_rules.
Proof.
  repeat apply Forall_cons; try apply Forall_nil.
  - constructor; [good_op_tac| |reflexivity]. split; [nodup_tac|].
    intros p [<-|[<-|[]]].
    + exists [], (tv "x" 0), [tv "y" 1]. cbn. intuition discriminate.
    + exists [tv "x" 0], (tv "y" 1), []. cbn. intuition discriminate.
  - constructor; [good_op_tac| |reflexivity]. split; [nodup_tac|].
    intros p [<-|[]]. exists [], (tv "u" 0), []. cbn. intuition discriminate.
Qed.

Lemma ex_rules_ranked : ranked ex_rules ex_rules_rank.
Proof.
  intros [|[|i]] a N j b Nb I; cbn in N; try (destruct i; discriminate); injection N as <-; cbn in I;
    destruct j as [|[|j]]; cbn in Nb; try (destruct j; discriminate); injection Nb as <-; cbn in I;
    intuition (try discriminate); cbn; lia.
Qed.

Lemma ex_rules_typed : Forall (typed_axiom ex_objects ex_rules_sig) ex_rules.
Proof.
  repeat apply Forall_cons; try apply Forall_nil; (split; [cbn; repeat split|cbn]); repeat apply Forall2_cons;
    repeat apply Forall_cons; repeat apply Forall2_cons; try apply Forall2_nil; try apply Forall_nil;
    (intros w o I _ _ H;
     repeat (destruct I as [<-|I]; [exact H|]); destruct I).
Qed.

Lemma ex_objects_consts : Forall (fun o => okind o = KConst) ex_objects.
Proof. repeat constructor. Qed.

Definition sp (n : string) (o : string) : prop := mkProp n [ex_const o].

(** ** No answer when the axioms contradict each other *)
Definition bad_rules : list axiom :=
  [rule "b1" [tv "x" 0] true (mkProp "reach" [tv "x" 0]) [mkProp "clean" [tv "x" 0]] [];
   rule "b2" [tv "x" 0] true (mkProp "reach" [tv "x" 0]) [] [mkProp "clean" [tv "x" 0]]].
Definition bad_state : state := run (SH := collide) [Ins (sp "reach" "box")].

Lemma bad_pass : forall fuel st, consistent_pass (SH := collide) (create_object_map ex_objects) bad_rules fuel (bad_state, st) =
  Ok (true, (bad_state, st)).
Proof. intros fuel st. vm_compute. reflexivity. Qed.

Lemma diverges_refuted : exists (SH : StdHash) objects axioms s,
  Forall (fun o => wf_type (otype o)) objects /\ Forall (fun o => okind o = KConst) objects /\
  Forall (wf_axiom objects) axioms /\ (forall a, In a axioms -> quiet axioms (op_effs (ax_op a))) /\ built s /\
  forall fuel rounds st, consistent_state (create_object_map objects) axioms fuel rounds (s, st) = OutOfFuel.
Proof.
  exists collide, ex_objects, bad_rules, bad_state.
  split; [apply ex_objects_wf|]. split; [apply ex_objects_consts|]. split.
  { repeat apply Forall_cons; try apply Forall_nil; (constructor; [reflexivity|discriminate|reflexivity|wf_tac|wf_tac]). }
  split.
  { intros a [<-|[<-|[]]] b [<-|[<-|[]]] I; cbn in I; destruct I as [I|[]]; discriminate. }
  split; [exists [Ins (sp "reach" "box")]; reflexivity|].
  intros fuel rounds st. induction rounds as [|n IH]; cbn [consistent_state]; [reflexivity|].
  rewrite bad_pass. cbn [bind]. exact IH.
Qed.

(** ** Axioms without parameters are never checked *)
Definition null_rules : list axiom := [rule "n1" [] true (mkProp "on" []) [mkProp "warm" []] []].
Lemma nullary_refuted : exists (SH : StdHash) objects axioms s,
  Forall (fun o => wf_type (otype o)) objects /\ Forall (fun o => okind o = KConst) objects /\
  (forall a, In a axioms -> extract_context (ax_op a) = Ok a) /\ built s /\
  (forall fuel st, is_valid_state (create_object_map objects) axioms fuel s st = Ok true) /\
  ~ Forall (respects objects (atoms s)) axioms.
Proof.
  exists collide, ex_objects, null_rules, (run (SH := collide) [Ins (mkProp "on" [])]).
  split; [apply ex_objects_wf|]. split; [apply ex_objects_consts|]. split; [intros a [<-|[]]; reflexivity|].
  split; [exists [Ins (mkProp "on" [])]; reflexivity|]. split; [intros; vm_compute; reflexivity|].
  intros F. inversion F as [|? ? R _]; subst. specialize (R [] ltac:(constructor)). cbv zeta in R.
  assert (X : holds ex_objects (atoms (SH := collide) (run (SH := collide) [Ins (mkProp "on" [])]))
     (bind_vars [] [] no_env) (GSimple "on" [])).
  { cbn. right. right. split; [discriminate|]. split; [not_type|]. exists (mkProp "on" []). split; reflexivity. }
  specialize (R X). cbn in R. destruct R as (_ & R & _). specialize (R _ (or_introl eq_refl)).
  destruct R as [[Q _]|[(_ & Q & _)|(_ & _ & p & K & C)]]; [discriminate|revert Q; not_type|].
  change ("warm", []) with (prop_key (mkProp "warm" [])) in K.
  rewrite (contains_key (SH := collide) _ p (mkProp "warm" []) K) in C. vm_compute in C. discriminate.
Qed.

(** ** Rejection of a partial state with a valid completion, without the typing condition *)
Definition loose_rules : list axiom :=
  [rule "l1" [tv "x" 0] true (mkProp "p" [tv "x" 0]) [mkProp "q" [tv "x" 0]] [];
   rule "l2" [toolv "y" 0] true (mkProp "q" [toolv "y" 0]) [] [mkProp "r" [toolv "y" 0]];
   rule "l3" [tv "x" 0] true (mkProp "p" [tv "x" 0]) [mkProp "r" [tv "x" 0]] []].
Definition loose_partial : partial_state := prun (SH := collide) [Ins (sp "p" "table"); Ins (sp "r" "table")].
Definition loose_full : state := run (SH := collide) [Ins (sp "p" "table"); Ins (sp "q" "table"); Ins (sp "r" "table")].

Lemma completes_check (SH : StdHash) s ps : ps_wf ps -> st_wf s ->
  forallb (st_contains s) (st_elements (ps_pos ps)) = true ->
  forallb (fun p => negb (st_contains s p)) (st_elements (ps_neg ps)) = true -> completes s ps.
Proof.
  intros [Wp Wn] Ws Hp Hn. rewrite forallb_forall in Hp, Hn. split; intros p C.
  - apply contains_mem in C; auto. destruct (mem_exists _ _ C) as (q & I & K).
    rewrite <- (contains_key s q p K). auto.
  - apply contains_mem in C; auto. destruct (mem_exists _ _ C) as (q & I & K).
    rewrite <- (contains_key s q p K). apply negb_true_iff. apply Hn. auto.
Qed.

Lemma untyped_refuted : exists (SH : StdHash) objects ar rank axioms ps s,
  Forall (fun o => wf_type (otype o)) objects /\ Forall (fun o => okind o = KConst) objects /\
  Forall (wf_axiom objects) axioms /\ Forall (good_axiom objects ar) axioms /\ ranked axioms rank /\
  pbuilt ps /\ built s /\ completes s ps /\
  is_valid_partial (create_object_map objects) axioms 3 1 (ps, no_store) = Ok false /\
  is_valid_state (create_object_map objects) axioms 3 s no_store = Ok true.
Proof.
  exists collide, ex_objects, (fun _ => 1), (fun i => if Nat.eqb i 0 then 1 else 0), loose_rules, loose_partial, loose_full.
  split; [apply ex_objects_wf|]. split; [apply ex_objects_consts|]. split.
  { repeat apply Forall_cons; try apply Forall_nil; (constructor; [reflexivity|discriminate|reflexivity|wf_tac|wf_tac]). }
  split.
  { repeat apply Forall_cons; try apply Forall_nil; (constructor; [good_op_tac| |reflexivity]; split; [nodup_tac|]);
      intros p [<-|[]]; eexists [], _, []; cbn; intuition discriminate. }
  split.
  { intros [|[|[|i]]] a N j b Nb I; cbn in N; try (destruct i; discriminate); injection N as <-; cbn in I;
      destruct j as [|[|[|j]]]; cbn in Nb; try (destruct j; discriminate); injection Nb as <-; cbn in I;
      intuition (try discriminate); cbn; lia. }
  split; [apply pbuilt_prun|]. split; [eexists; reflexivity|]. split.
  { apply completes_check; [apply prun_ok|apply run_wf|vm_compute; reflexivity|vm_compute; reflexivity]. }
  split; vm_compute; reflexivity.
Qed.

(** ** Acceptance of a partial state without valid completions *)
Definition flip_partial : partial_state :=
  prun (SH := collide) [Ins (mkProp "near" [ex_const "box"; ex_const "hook"]); Ins (sp "broken" "box")].

Lemma flip_accepted : is_valid_partial (SH := collide) (create_object_map ex_objects) ex_rules 3 3 (flip_partial, no_store) = Ok true.
Proof. vm_compute. reflexivity. Qed.

Lemma flip_no_completion s : built (SH := collide) s -> completes (SH := collide) s flip_partial ->
  ~ Forall (respects ex_objects (atoms (SH := collide) s)) ex_rules.
Proof.
  intros B [Cp _] F. inversion F as [|? ? R1 F2]; subst. inversion F2 as [|? ? R2 _]; subst.
  set (box := mkObj "box" ["tool"; "thing"; "object"] KConst). set (hook := mkObj "hook" ["tool"; "thing"; "object"] KConst).
  assert (Wb : well_typed ex_objects [tv "x" 0; tv "y" 1] [box; hook]).
  { repeat apply Forall2_cons; try apply Forall2_nil; (split; [cbn; auto 10|right; cbn; auto]). }
  specialize (R1 _ Wb). cbv zeta in R1.
  assert (N1 : ~ is_type ex_objects "near") by not_type.
  assert (N2 : ~ is_type ex_objects "reach") by not_type.
  assert (N3 : ~ is_type ex_objects "broken") by not_type.
  assert (H1 : atoms (SH := collide) s ("near", ["box"; "hook"])).
  { exists (mkProp "near" [ex_const "box"; ex_const "hook"]). split; [reflexivity|]. apply Cp. vm_compute. reflexivity. }
  assert (H2 : atoms (SH := collide) s ("broken", ["box"])).
  { exists (sp "broken" "box"). split; [reflexivity|]. apply Cp. vm_compute. reflexivity. }
  assert (P1 : post ex_objects (atoms (SH := collide) s) (bind_vars [tv "x" 0; tv "y" 1] [box; hook] no_env)
                 (Effs [] [mkProp "reach" [tv "x" 0]] [] [])).
  { apply R1. cbn. right. right. split; [discriminate|]. split; auto. }
  cbn in P1. destruct P1 as (_ & P1 & _). specialize (P1 _ (or_introl eq_refl)).
  destruct P1 as [[Q _]|[(_ & Q & _)|(_ & _ & H3)]]; [discriminate|tauto|]. cbn in H3.
  assert (Wu : well_typed ex_objects [tv "u" 0] [box]).
  { repeat apply Forall2_cons; try apply Forall2_nil; (split; [cbn; auto 10|right; cbn; auto]). }
  specialize (R2 _ Wu). cbv zeta in R2.
  assert (P2 : post ex_objects (atoms (SH := collide) s) (bind_vars [tv "u" 0] [box] no_env)
                 (Effs [] [] [mkProp "broken" [tv "u" 0]] [])).
  { apply R2. cbn. right. right. split; [discriminate|]. split; auto. }
  cbn in P2. destruct P2 as (_ & _ & P2 & _). apply (P2 _ (or_introl eq_refl)).
  right. right. split; [discriminate|]. split; auto.
Qed.

Lemma accepts_refuted : exists (SH : StdHash) objects ar rank sig axioms ps,
  Forall (fun o => wf_type (otype o)) objects /\ Forall (fun o => okind o = KConst) objects /\
  Forall (wf_axiom objects) axioms /\ Forall (good_axiom objects ar) axioms /\ ranked axioms rank /\
  Forall (typed_axiom objects sig) axioms /\ pbuilt ps /\
  is_valid_partial (create_object_map objects) axioms 3 3 (ps, no_store) = Ok true /\
  forall s fuel st, built s -> completes s ps -> is_valid_state (create_object_map objects) axioms fuel s st <> Ok true.
Proof.
  exists collide, ex_objects, ex_rules_arity, ex_rules_rank, ex_rules_sig, ex_rules, flip_partial.
  split; [apply ex_objects_wf|]. split; [apply ex_objects_consts|]. split; [apply ex_rules_wf|].
  split; [apply ex_rules_good|]. split; [apply ex_rules_ranked|]. split; [apply ex_rules_typed|].
  split; [apply pbuilt_prun|]. split; [apply flip_accepted|].
  intros s fuel st B C V. apply (flip_no_completion s B C).
  eapply (C30_meaning_lemma (SH := collide)); eauto using ex_objects_wf, ex_objects_consts, ex_rules_wf.
Qed.

(** ** A known proposition overridden by a cascade *)
Lemma flip_refuted : exists (SH : StdHash) objects axioms ps ps' st' a,
  Forall (wf_axiom objects) axioms /\ pbuilt ps /\
  consistent_partial (create_object_map objects) axioms 3 (ps, no_store) = Ok (ps', st') /\
  flipped ps ps' false a.
Proof.
  exists collide, ex_objects, ex_rules, flip_partial.
  assert (E : exists w, consistent_partial (SH := collide) (create_object_map ex_objects) ex_rules 3 (flip_partial, no_store) = Ok w /\
     st_contains (SH := collide) (ps_neg (fst w)) (sp "broken" "box") = true).
  { assert (X : match consistent_partial (SH := collide) (create_object_map ex_objects) ex_rules 3 (flip_partial, no_store) with
                | Ok w => st_contains (SH := collide) (ps_neg (fst w)) (sp "broken" "box") | _ => false end = true)
      by (vm_compute; reflexivity).
    destruct (consistent_partial (SH := collide) _ _ _ _) as [w| | | |]; try discriminate. exists w. auto. }
  destruct E as ([ps' st'] & E & C). exists ps', st', ("broken", ["box"]).
  split; [apply ex_rules_wf|]. split; [apply pbuilt_prun|]. split; auto.
  split; exists (sp "broken" "box"); split; auto; vm_compute; reflexivity.
Qed.
