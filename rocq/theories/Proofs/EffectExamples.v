(** Sample actions and counterexamples for C22-C28. *)
From Coq Require Import String List Bool NArith ZArith Lia Permutation.
From Verif.Model Require Import Base Object Proposition HashSet State CombinationGenerator
  ParameterGenerator Syntax Formula Effects.
From Verif.Spec Require Import SetSpec TypingSpec FormulaSpec EffectSpec.
From Verif.Proofs Require Import StateFacts StateHistory FormulaFacts EffectLink EffectTheorems.
From Verif.Properties Require Import StateProps ParameterProps FormulaProps.
Import ListNotations.
Local Open Scope string_scope.
Local Open Scope list_scope.

Definition keys_of (x : outcome (nat * state)) : option (nat * list atom) :=
  match x with Ok (n, s) => Some (n, map prop_key (st_elements s)) | _ => None end.
Definition pkeys_of (x : outcome (nat * partial_state)) : option (nat * list atom * list atom) :=
  match x with
  | Ok (n, s) => Some (n, map prop_key (st_elements (ps_pos s)), map prop_key (st_elements (ps_neg s)))
  | _ => None
  end.

Definition ex_const (n : string) : object := mkObj n ["thing"; "object"] KConst.
Definition tv (n : string) (i : nat) : object := var n ["thing"; "object"] i.

Definition ex_move : op :=
  mkOp "move" false [tv "a" 0; tv "b" 1; tv "c" 2] (GConj [])
    (Effs [] [mkProp "near" [tv "a" 0; tv "c" 2]] [mkProp "near" [tv "a" 0; tv "b" 1]] []).
Definition ex_clear : op :=
  mkOp "clear" false [tv "a" 0] (GConj [])
    (Effs [([tv "x" 1], Effs [] [] [mkProp "near" [tv "a" 0; tv "x" 1]] [])] [] []
       [(GSimple "broken" [tv "a" 0], Effs [] [mkProp "near" [tv "a" 0; mkObj "here" [] KConst]] [] [])]).
Definition ex_repair : op :=
  mkOp "repair" false [tv "a" 0] (GConj [])
    (Effs [] [] [mkProp "near" [tv "a" 0; mkObj "hook" [] KConst]]
       [(GSimple "broken" [tv "a" 0], Effs [] [mkProp "sent" [tv "a" 0]] [] [])]).

Lemma not_type_check objects name :
  forallb (fun o => negb (existsb (String.eqb name) (otype o) || String.eqb name "object")) objects = true ->
  ~ is_type objects name.
Proof.
  intros F (o & I & H). rewrite forallb_forall in F. apply F in I.
  apply negb_true_iff, orb_false_iff in I as [I1 I2]. apply String.eqb_neq in I2.
  destruct H as [H|H]; [exact (False_ind _ (I2 H))|].
  assert (E : existsb (String.eqb name) (otype o) = true); [|congruence].
  apply existsb_exists. exists name. split; [auto|apply String.eqb_refl].
Qed.
Ltac not_type := apply not_type_check; vm_compute; reflexivity.
Ltac wf_tac := cbn; repeat split; try discriminate; try reflexivity; try tauto;
    repeat (apply Forall_cons || apply Forall_nil); try split;
    repeat (apply Forall_cons || apply Forall_nil); unfold arg_ok, arity_ok; cbn; intuition (try discriminate);
    try (exfalso; match goal with H : is_type _ _ |- _ => revert H; not_type end).

Lemma ex_move_wf : wf_effs ex_objects (map oname (op_params ex_move)) (op_effs ex_move).
Proof. wf_tac. Qed.
Lemma ex_clear_wf : wf_effs ex_objects (map oname (op_params ex_clear)) (op_effs ex_clear).
Proof. wf_tac. Qed.
Lemma ex_repair_wf : wf_effs ex_objects (map oname (op_params ex_repair)) (op_effs ex_repair).
Proof. wf_tac. Qed.

Ltac ord_tac := intros sg I; cbn in I; intuition subst; cbn; split; [discriminate|not_type].
Lemma ex_move_ordinary : ordinary_effs ex_objects (op_effs ex_move).
Proof. ord_tac. Qed.
Lemma ex_repair_ordinary : ordinary_effs ex_objects (op_effs ex_repair).
Proof. ord_tac. Qed.

Lemma pddl_order (S Add Dels : atom -> Prop) :
  (forall a, (S a \/ Add a) /\ ~ Dels a <-> Add a \/ (S a /\ ~ Dels a)) <-> (forall a, ~ (Add a /\ Dels a)).
Proof.
  split.
  - intros H a [A D]. destruct (proj2 (H a) (or_introl A)); auto.
  - intros H a. split.
    + intros [[A|A] D]; auto.
    + intros [A|[A D]]; split; auto. intros D. apply (H a); auto.
Qed.

Lemma converse_refuted : exists (SH : StdHash) o args s n s' st',
  built s /\ apply_state 0 (create_object_map ex_objects) [] (OAct "o") o args (s, no_store) = Ok (n, (s', st')) /\
  n <> 0 /\ s' = s.
Proof.
  exists collide, ex_move, [ex_const "box"; ex_const "hook"; ex_const "hook"], st_empty, 1, st_empty, no_store.
  split; [exists []; reflexivity|]. split; [vm_compute; reflexivity|]. split; [discriminate|reflexivity].
Qed.

Lemma forall_lemma : forall (SH : StdHash) objects axioms fuel ow o args s st vars adds dels,
  Forall (fun o => wf_type (otype o)) objects -> built s ->
  op_effs o = Effs [(vars, Effs [] adds dels [])] [] [] [] ->
  length (op_params o) = length args -> wf_effs objects (map oname (op_params o)) (op_effs o) ->
  quiet axioms (op_effs o) -> ordinary_effs objects (op_effs o) ->
  let inst objs p := (pname p, map oname (map (denote (bind_vars vars objs (bind_vars (op_params o) args no_env))) (pargs p))) in
  let Add a := exists objs p, well_typed objects vars objs /\ In p adds /\ a = inst objs p in
  let Dels a := exists objs p, well_typed objects vars objs /\ In p dels /\ a = inst objs p in
  (forall a, ~ (Add a /\ Dels a)) ->
  exists n s', apply_state fuel (create_object_map objects) axioms ow o args (s, st) = Ok (n, (s', st)) /\
    built s' /\ forall a, atoms s' a <-> Add a \/ (atoms s a /\ ~ Dels a).
Proof.
  intros SH objects axioms fuel ow o args s st vars adds dels W B E L Wf Q O inst Add Dels N.
  assert (EL : forall pos a, eff_lit objects (holds objects (atoms s)) (bind_vars (op_params o) args no_env) (op_effs o) pos a <->
               if pos then Add a else Dels a).
  { intros pos a. rewrite E, eff_lit_eq. split.
    - intros [(v & b & [I|[]] & objs & T & H)|[(p & I & _)|(g & b & [] & _)]].
      + inversion I; subst v b. apply eff_lit_eq in H.
        destruct H as [(v & b & [] & _)|[(p & Ip & Op & ->)|(g & b & [] & _)]].
        destruct pos; exists objs, p; auto.
      + destruct pos; destruct I.
    - intros H. left. exists vars, (Effs [] adds dels []). split; [left; auto|].
      assert (G : exists objs p, well_typed objects vars objs /\ In p (if pos then adds else dels) /\ a = inst objs p)
        by (destruct pos; exact H).
      destruct G as (objs & p & T & I & ->). exists objs. split; auto. apply eff_lit_eq. right. left.
      exists p. split; auto. split; [|reflexivity].
      apply (O (pos, pname p)). rewrite E. eapply sigs_forall; [left; reflexivity|].
      destruct pos; [apply sigs_add|apply sigs_del]; auto. }
  destruct (stable_lemma objects axioms fuel ow o args s st W B L Wf Q O) as (n & s' & R & B' & A).
  - intros a pos H. rewrite E in H. apply eff_reads_eq in H.
    destruct H as [(v & b & [I|[]] & objs & T & H)|(g & b & [] & _)].
    inversion I; subst v b. apply eff_reads_eq in H. destruct H as [(v & b & [] & _)|(g & b & [] & _)].
  - intros a [H1 H2]. apply (EL true) in H1. apply (EL false) in H2. apply (N a); auto.
  - exists n, s'. split; auto. split; auto. intros a. rewrite (A a).
    rewrite (EL true a), (EL false a). tauto.
Qed.

Lemma forall_example :
  exists o, op_effs o = Effs [([var "x" ["thing"; "object"] 1],
      Effs [] [mkProp "seen" [var "x" ["thing"; "object"] 1]]
              [mkProp "near" [var "a" ["thing"; "object"] 0; var "x" ["thing"; "object"] 1]] [])] [] [] [] /\
  op_params o = [var "a" ["thing"; "object"] 0] /\
  wf_effs ex_objects (map oname (op_params o)) (op_effs o) /\ ordinary_effs ex_objects (op_effs o) /\
  keys_of (drop_store (apply_state (SH := collide) 0 (create_object_map ex_objects) [] (OAct "look") o
    [ex_const "box"] (run (SH := collide) [Ins (ex_near "box" "hook"); Ins (ex_near "hook" "hook")], no_store))) =
  Some (1, [("near", ["hook"; "hook"]); ("seen", ["box"]); ("seen", ["hook"]); ("seen", ["table"])]).
Proof.
  exists (mkOp "look" false [var "a" ["thing"; "object"] 0] (GConj [])
    (Effs [([var "x" ["thing"; "object"] 1],
      Effs [] [mkProp "seen" [var "x" ["thing"; "object"] 1]]
              [mkProp "near" [var "a" ["thing"; "object"] 0; var "x" ["thing"; "object"] 1]] [])] [] [] [])).
  split; [reflexivity|]. split; [reflexivity|]. split; [wf_tac|]. split; [ord_tac|].
  vm_compute; reflexivity.
Qed.

Lemma order_refuted : exists (SH : StdHash) objects objects' o s n n' s1 s2 st1 st2 a,
  Permutation objects objects' /\
  apply_state 0 (create_object_map objects) [] (OAct "o") o [] (s, no_store) = Ok (n, (s1, st1)) /\
  apply_state 0 (create_object_map objects') [] (OAct "o") o [] (s, no_store) = Ok (n', (s2, st2)) /\
  st_contains s1 a = true /\ st_contains s2 a = false.
Proof.
  pose (c := ex_const "c"). pose (d := ex_const "d").
  exists collide, [c; d], [d; c].
  exists (mkOp "o" false [] (GConj []) (Effs [([tv "x" 0], Effs [] [mkProp "p" [c]] [mkProp "p" [tv "x" 0]] [])] [] [] [])).
  exists st_empty. do 6 eexists. exists (mkProp "p" [c]).
  split; [apply perm_swap|]. split; [vm_compute; reflexivity|]. split; [vm_compute; reflexivity|].
  split; vm_compute; reflexivity.
Qed.

Definition ex_c : object := ex_const "c".
Definition ex_cond_op : op :=
  mkOp "o" false [] (GConj []) (Effs [] [mkProp "q" [ex_c]] [] [(GSimple "q" [ex_c], Effs [] [mkProp "r" [ex_c]] [] [])]).

Lemma one_thing : Forall (fun o => wf_type (otype o)) [ex_c].
Proof. repeat constructor; cbn; intuition congruence. Qed.

Lemma no_atoms_empty (SH : StdHash) a : ~ atoms st_empty a.
Proof. rewrite atoms_mem by apply st_empty_wf. apply mem_empty. Qed.

Lemma cond_refuted : exists (SH : StdHash) objects o s n s' st' a,
  Forall (fun o => wf_type (otype o)) objects /\ built s /\
  wf_effs objects (map oname (op_params o)) (op_effs o) /\ ordinary_effs objects (op_effs o) /\
  apply_state 0 (create_object_map objects) [] (OAct "o") o [] (s, no_store) = Ok (n, (s', st')) /\
  atoms s' a /\ ~ atoms s a /\
  (forall pos, ~ eff_lit objects (holds objects (atoms s)) (bind_vars (op_params o) [] no_env) (op_effs o) pos a).
Proof.
  exists collide, [ex_c], ex_cond_op, st_empty. do 3 eexists. exists ("r", ["c"]).
  split; [exact one_thing|]. split; [exists []; reflexivity|]. split; [wf_tac|]. split; [ord_tac|].
  split; [vm_compute; reflexivity|].
  split; [exists (mkProp "r" [ex_c]); split; [reflexivity|vm_compute; reflexivity]|].
  split; [apply no_atoms_empty|].
  intros pos H. apply eff_lit_eq in H.
  destruct H as [(v & b & [] & _)|[(p & I & _ & E)|(g & b & [I|[]] & H & _)]].
  - destruct pos; [destruct I as [<-|[]]; discriminate|destruct I].
  - inversion I; subst. destruct H as [(Q & _)|[(_ & T & _)|(_ & _ & H)]]; [discriminate| |].
    + revert T. not_type.
    + revert H. apply no_atoms_empty.
Qed.

Lemma atoms_dec_false (SH : StdHash) s p : st_contains s p = false -> ~ atoms s (prop_key p).
Proof. intros F A. apply atoms_contains in A. congruence. Qed.

Lemma repair_example :
  let s := run (SH := collide) [Ins (mkProp "broken" [ex_const "box"]); Ins (ex_near "box" "hook")] in
  let env := bind_vars (op_params ex_repair) [ex_const "box"] no_env in
  let Lit := eff_lit ex_objects (holds ex_objects (atoms (SH := collide) s)) env (op_effs ex_repair) in
  wf_effs ex_objects (map oname (op_params ex_repair)) (op_effs ex_repair) /\
  ordinary_effs ex_objects (op_effs ex_repair) /\
  (exists a, eff_reads ex_objects env (op_effs ex_repair) a) /\
  (forall a pos, eff_reads ex_objects env (op_effs ex_repair) a -> ~ Lit pos a) /\
  (forall a, ~ (Lit true a /\ Lit false a)) /\ Lit true ("sent", ["box"]).
Proof.
  intros s env Lit. split; [exact ex_repair_wf|]. split; [exact ex_repair_ordinary|].
  assert (L : forall pos a, Lit pos a -> a = (if pos then ("sent", ["box"]) else ("near", ["box"; "hook"]))).
  { intros pos a H. apply eff_lit_eq in H.
    destruct H as [(v & b & [] & _)|[(p & I & _ & ->)|(g & b & [I|[]] & _ & H)]].
    - destruct pos; [destruct I|]. destruct I as [<-|[]]. reflexivity.
    - inversion I; subst. apply eff_lit_eq in H.
      destruct H as [(v & b & [] & _)|[(p & Ip & _ & ->)|(g & b & [] & _)]].
      destruct pos; [|destruct Ip]. destruct Ip as [<-|[]]. reflexivity. }
  assert (R : forall a, eff_reads ex_objects env (op_effs ex_repair) a -> a = ("broken", ["box"])).
  { intros a H. apply eff_reads_eq in H. destruct H as [(v & b & [] & _)|(g & b & [I|[]] & H)].
    inversion I; subst. destruct H as [(_ & _ & ->)|H]; [reflexivity|].
    apply eff_reads_eq in H. destruct H as [(v & b & [] & _)|(g & b & [] & _)]. }
  split; [|split; [|split]].
  - exists ("broken", ["box"]). apply eff_reads_eq. right. eexists. eexists. split; [left; reflexivity|].
    left. split; [discriminate|]. split; [not_type|reflexivity].
  - intros a pos H1 H2. apply R in H1. apply L in H2. subst. destruct pos; discriminate.
  - intros a [H1 H2]. apply L in H1. apply L in H2. subst. discriminate.
  - apply eff_lit_eq. right. right. eexists. eexists. split; [left; reflexivity|]. split.
    + right. right. split; [discriminate|]. split; [not_type|].
      exists (mkProp "broken" [ex_const "box"]). split; [reflexivity|vm_compute; reflexivity].
    + apply eff_lit_eq. right. left. eexists. split; [left; reflexivity|]. split; [|reflexivity].
      split; [discriminate|not_type].
Qed.

Lemma pbuilt_prun (SH : StdHash) ops : pbuilt (prun ops).
Proof.
  assert (G : built (ps_pos (prun ops)) /\ built (ps_neg (prun ops))).
  { induction ops as [|o ops [IH1 IH2]] using rev_ind.
    - split; exists []; reflexivity.
    - rewrite prun_snoc. destruct o as [p|p]; cbn [exec_pop].
      + rewrite ps_insert_eq. cbn [snd ps_pos ps_neg].
        split; [exact (built_run_from _ [Ins p] IH1)|exact (built_run_from _ [Del p] IH2)].
      + rewrite ps_erase_eq. cbn [snd ps_pos ps_neg].
        split; [exact (built_run_from _ [Del p] IH1)|exact (built_run_from _ [Ins p] IH2)]. }
  destruct G as [G1 G2]. split; auto. split; auto.
  destruct (prun_ok ops) as [W D]. apply ps_consistent_spec; auto.
Qed.

Definition ex_unknown_op : op :=
  mkOp "o" false [] (GConj []) (Effs [] [] [mkProp "r" [ex_c]] [(GSimple "q" [ex_c], Effs [] [mkProp "r" [ex_c]] [] [])]).

Lemma unknown_refuted : exists (SH : StdHash) objects o ps s n ps' st' m s' st'',
  Forall (fun o => wf_type (otype o)) objects /\ built s /\ pbuilt ps /\ completes s ps /\
  wf_effs objects (map oname (op_params o)) (op_effs o) /\
  apply_partial 0 (create_object_map objects) [] (OAct "o") o [] (ps, no_store) = Ok (n, (ps', st')) /\
  apply_state 0 (create_object_map objects) [] (OAct "o") o [] (s, no_store) = Ok (m, (s', st'')) /\
  ~ completes s' ps'.
Proof.
  exists collide, [ex_c], ex_unknown_op, (prun (SH := collide) []), (run (SH := collide) [Ins (mkProp "q" [ex_c])]).
  do 6 eexists.
  split; [exact one_thing|]. split; [eexists; reflexivity|]. split; [apply pbuilt_prun|].
  split; [split; intros p C; apply contains_mem in C; try apply st_empty_wf; destruct C|].
  split; [wf_tac|]. split; [vm_compute; reflexivity|]. split; [vm_compute; reflexivity|].
  intros [_ C]. specialize (C (mkProp "r" [ex_c])). vm_compute in C. specialize (C eq_refl). discriminate.
Qed.

Definition ex_trigger_op : op :=
  mkOp "o" false [] (GConj []) (Effs [] [mkProp "q" [ex_c]] [] []).
Definition ex_trigger_axiom : axiom :=
  mkAxiom (mkOp "x" true [tv "x" 0] (GSimple "q" [tv "x" 0]) (Effs [] [mkProp "r" [tv "x" 0]] [] []))
    true "q" [tv "x" 0].

Lemma axiom_refuted : exists (SH : StdHash) objects axioms o ps s n ps' st' m s' st'',
  Forall (fun o => wf_type (otype o)) objects /\ built s /\ pbuilt ps /\ completes s ps /\
  wf_effs objects (map oname (op_params o)) (op_effs o) /\ eff_conds (op_effs o) = [] /\
  apply_partial 1 (create_object_map objects) axioms (OAct "o") o [] (ps, no_store) = Ok (n, (ps', st')) /\
  apply_state 1 (create_object_map objects) axioms (OAct "o") o [] (s, no_store) = Ok (m, (s', st'')) /\
  ~ completes s' ps'.
Proof.
  exists collide, [ex_c], [ex_trigger_axiom], ex_trigger_op, (prun (SH := collide) []),
    (run (SH := collide) [Ins (mkProp "q" [ex_c])]).
  do 6 eexists.
  split; [exact one_thing|]. split; [eexists; reflexivity|]. split; [apply pbuilt_prun|].
  split; [split; intros p C; apply contains_mem in C; try apply st_empty_wf; destruct C|].
  split; [wf_tac|]. split; [reflexivity|]. split; [vm_compute; reflexivity|]. split; [vm_compute; reflexivity|].
  intros [C _]. specialize (C (mkProp "r" [ex_c])). vm_compute in C. specialize (C eq_refl). discriminate.
Qed.

(** near ?x ?y => not far ?y ?x;  not far ?u here => broken ?u. *)
Definition ex_axioms : list axiom :=
  [mkAxiom (mkOp "apart" true [tv "u" 0] (GNeg (GSimple "far" [tv "u" 0; mkObj "here" [] KConst]))
              (Effs [] [mkProp "broken" [tv "u" 0]] [] [])) false "far" [tv "u" 0; mkObj "here" [] KConst];
   mkAxiom (mkOp "close" true [tv "x" 0; tv "y" 1] (GSimple "near" [tv "x" 0; tv "y" 1])
              (Effs [] [] [mkProp "far" [tv "y" 1; tv "x" 0]] [])) true "near" [tv "x" 0; tv "y" 1]].
Definition ex_rank (i : nat) : nat := i.
Definition ex_arity (n : string) : nat := if String.eqb n "broken" then 1 else 2.

Ltac nodup_tac := repeat constructor; cbn; intuition discriminate.
Ltac good_op_tac := constructor; [nodup_tac|wf_tac|cbn; tauto|cbn; repeat split; repeat constructor].

Lemma ex_axioms_good : Forall (good_axiom ex_objects ex_arity) ex_axioms.
Proof.
  repeat apply Forall_cons; try apply Forall_nil.
  - constructor; [good_op_tac| |reflexivity]. split; [nodup_tac|].
    intros p [<-|[]]. exists [], (tv "u" 0), [mkObj "here" [] KConst]. cbn. intuition discriminate.
  - constructor; [good_op_tac| |reflexivity]. split; [nodup_tac|].
    intros p [<-|[<-|[]]].
    + exists [], (tv "x" 0), [tv "y" 1]. cbn. intuition discriminate.
    + exists [tv "x" 0], (tv "y" 1), []. cbn. intuition discriminate.
Qed.

Lemma ex_axioms_ranked : ranked ex_axioms ex_rank.
Proof.
  intros [|[|[|]]] a Ha; cbn in Ha; inversion Ha; subst; intros [|[|[|]]] b Hb I; cbn in Hb, I; inversion Hb; subst;
    cbn in I; unfold ex_rank; intuition (try discriminate; try lia).
Qed.

Lemma cascade_example :
  Forall (good_axiom ex_objects ex_arity) ex_axioms /\ ranked ex_axioms ex_rank /\
  good_op ex_objects ex_arity ex_move /\
  keys_of (drop_store (apply_state (SH := collide) 2 (create_object_map ex_objects) ex_axioms (OAct "move") ex_move
    [ex_const "here"; ex_const "hook"; ex_const "box"]
    (run (SH := collide) [Ins (ex_near "here" "hook"); Ins (mkProp "far" [ex_const "box"; ex_const "here"])], no_store))) =
  Some (1, [("near", ["here"; "box"]); ("broken", ["box"])]).
Proof.
  split; [exact ex_axioms_good|]. split; [exact ex_axioms_ranked|]. split; [good_op_tac|].
  vm_compute; reflexivity.
Qed.

Definition ex_rot : axiom :=
  mkAxiom (mkOp "rot" true [tv "a" 0; tv "b" 1; tv "c" 2] (GSimple "p" [tv "a" 0; tv "b" 1; tv "c" 2])
             (Effs [] [mkProp "p" [tv "b" 1; tv "c" 2; tv "a" 0]] [] []))
    true "p" [tv "a" 0; tv "b" 1; tv "c" 2].
Definition ex_rot_op : op :=
  mkOp "o" false [tv "x" 0; tv "y" 1; tv "z" 2] (GConj [])
    (Effs [] [mkProp "p" [tv "x" 0; tv "y" 1; tv "z" 2]] [] []).

Lemma aliasing_refuted : exists (SH : StdHash) objects axioms o args fuel s n m s1 s2 a,
  Forall (fun o => wf_type (otype o)) objects /\
  Forall (good_axiom objects (fun _ => length args)) axioms /\ good_op objects (fun _ => length args) o /\
  drop_store (apply_state fuel (create_object_map objects) axioms (OAct "o") o args (s, no_store)) = Ok (n, s1) /\
  sub_effs st_ins st_del (cond_state (create_object_map objects)) objects axioms
    (sub_axiom st_ins st_del (cond_state (create_object_map objects)) objects axioms fuel)
    (op_params o) args (op_effs o) s = Ok (m, s2) /\
  st_contains s1 a = true /\ st_contains s2 a = false.
Proof.
  pose (objs := [ex_const "k"; ex_const "l"; ex_const "m"]).
  exists collide, objs, [ex_rot], ex_rot_op, objs, 9, st_empty. do 4 eexists.
  exists (mkProp "p" [ex_const "k"; ex_const "m"; ex_const "m"]).
  split; [repeat constructor; cbn; intuition congruence|].
  split.
  { apply Forall_cons; [|apply Forall_nil]. constructor; [good_op_tac| |reflexivity]. split; [nodup_tac|].
    intros p [<-|[<-|[<-|[]]]].
    - exists [], (tv "a" 0), [tv "b" 1; tv "c" 2]. cbn. intuition discriminate.
    - exists [tv "a" 0], (tv "b" 1), [tv "c" 2]. cbn. intuition discriminate.
    - exists [tv "a" 0; tv "b" 1], (tv "c" 2), []. cbn. intuition discriminate. }
  split; [good_op_tac|]. split; [vm_compute; reflexivity|]. split; [vm_compute; reflexivity|].
  split; vm_compute; reflexivity.
Qed.
