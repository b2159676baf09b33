(** Sample rules and the last steps for C33-C35. *)
From Coq Require Import String List Bool NArith ZArith Lia.
From Verif.Model Require Import Base Object Proposition HashSet State CombinationGenerator
  ParameterGenerator Syntax Formula Effects Derived.
From Verif.Spec Require Import SetSpec TypingSpec FormulaSpec EffectSpec DerivedSpec.
From Verif.Proofs Require Import StateFacts StateHistory FormulaFacts EffectLink EffectTheorems
  EffectExamples DerivedFacts.
From Verif.Properties Require Import StateProps ParameterProps FormulaProps.
Import ListNotations.
Local Open Scope string_scope.
Local Open Scope list_scope.

Lemma C33_lemma (SH : StdHash) objects inner outer ds s b s' :
  Forall (fun o => wf_type (otype o)) objects -> built s ->
  (forall d, In d ds -> good_derived objects d) ->
  derived_all (create_object_map objects) inner outer ds s = Ok (b, s') ->
  forall d args, In d ds -> well_typed objects (dp_params d) args ->
  (atoms s' (head d args) <-> body_holds objects (atoms s') d args).
Proof.
  intros W B G E d args I. destruct (derived_all_ok objects W inner outer ds G s b s' (built_wf s B) E) as (_ & Sat & _).
  exact (Sat d I args).
Qed.

Lemma C33_unique_lemma (SH : StdHash) objects inner outer ds rank s b s' (S : atom -> Prop) :
  Forall (fun o => wf_type (otype o)) objects -> built s ->
  (forall d, In d ds -> good_derived objects d) -> stratified ds rank ->
  derived_all (create_object_map objects) inner outer ds s = Ok (b, s') ->
  (forall a, ~ any_defined objects ds a -> (S a <-> atoms s a)) ->
  (forall d args, In d ds -> well_typed objects (dp_params d) args ->
     (S (head d args) <-> body_holds objects S d args)) ->
  forall a, atoms s' a <-> S a.
Proof.
  intros W B G St E F H.
  destruct (derived_all_ok objects W inner outer ds G s b s' (built_wf s B) E) as (_ & Sat & _ & Fr).
  apply (stratified_unique objects ds rank (atoms s') S W G St Sat).
  - intros d I t T. apply H; auto.
  - intros a N. rewrite (Fr a N). symmetry. auto.
Qed.

Lemma C34_local_lemma (SH : StdHash) objects inner outer ds s b s' :
  Forall (fun o => wf_type (otype o)) objects -> built s ->
  (forall d, In d ds -> good_derived objects d) ->
  derived_all (create_object_map objects) inner outer ds s = Ok (b, s') ->
  (forall a, ~ any_defined objects ds a -> (atoms s' a <-> atoms s a)) /\ (b = false -> s' = s).
Proof.
  intros W B G E. destruct (derived_all_ok objects W inner outer ds G s b s' (built_wf s B) E) as (_ & _ & U & F). auto.
Qed.

Lemma C34_idempotent_lemma (SH : StdHash) objects inner outer ds s b s' :
  Forall (fun o => wf_type (otype o)) objects -> built s ->
  (forall d, In d ds -> good_derived objects d) ->
  derived_all (create_object_map objects) inner outer ds s = Ok (b, s') ->
  forall inner' outer', inner' <> 0 -> outer' <> 0 ->
  derived_all (create_object_map objects) inner' outer' ds s' = Ok (false, s').
Proof.
  intros W B G E [|i] [|o] Ni No; try congruence.
  destruct (derived_all_ok objects W inner outer ds G s b s' (built_wf s B) E) as (W' & Sat & _).
  apply derived_all_satisfied; auto.
Qed.

Lemma C35_terminates_lemma (SH : StdHash) objects inner outer ds rank R s :
  Forall (fun o => wf_type (otype o)) objects -> NoDup (map oname objects) -> built s ->
  (forall d, In d ds -> good_derived objects d) ->
  NoDup (map dp_name ds) -> stratified ds rank -> (forall d, In d ds -> rank (dp_name d) < R) ->
  2 <= inner -> R < outer ->
  exists b s', derived_all (create_object_map objects) inner outer ds s = Ok (b, s').
Proof.
  intros W ND B G N St L Li Lo.
  destruct (derived_all_terminates objects W ND 0 ds rank St N G R 0 s (built_wf s B)) as (b & s' & E); [lia|auto|].
  exists b, s'. eapply derived_all_mono; [exact Li| |exact E]. lia.
Qed.

Lemma C35_flat_lemma (SH : StdHash) objects inner outer ds s :
  Forall (fun o => wf_type (otype o)) objects -> NoDup (map oname objects) -> built s ->
  (forall d, In d ds -> good_derived objects d) -> NoDup (map dp_name ds) ->
  (forall d d', In d ds -> In d' ds -> ~ In (dp_name d') (goal_preds (dp_body d))) ->
  2 <= inner -> 2 <= outer ->
  exists b s', derived_all (create_object_map objects) inner outer ds s = Ok (b, s').
Proof.
  intros W ND B G N NR Li Lo. apply (C35_terminates_lemma SH objects inner outer ds (fun _ => 0) 1 s); auto.
  intros d d' I I' M. destruct (NR d d' I I' M).
Qed.

Lemma C35_positive_lemma (SH : StdHash) objects ds s :
  Forall (fun o => wf_type (otype o)) objects -> NoDup (map oname objects) -> built s ->
  (forall d, In d ds -> good_derived objects d) -> NoDup (map dp_name ds) -> positive ds ->
  (forall a, any_defined objects ds a -> ~ atoms s a) ->
  exists N b s',
    (forall inner outer, N <= inner -> N <= outer ->
       derived_all (create_object_map objects) inner outer ds s = Ok (b, s')) /\
    (forall d, In d ds -> satisfied objects (atoms s') d) /\
    forall S : atom -> Prop, (forall a, ~ any_defined objects ds a -> (S a <-> atoms s a)) ->
      (forall d, In d ds -> closed objects S d) -> forall a, atoms s' a -> S a.
Proof. intros W ND B G N P Em. apply (derived_positive objects W ND ds G P N s (built_wf s B) Em). Qed.

Lemma C35_no_model_lemma (SH : StdHash) objects inner outer ds s :
  Forall (fun o => wf_type (otype o)) objects -> built s ->
  (forall d, In d ds -> good_derived objects d) ->
  (forall S : atom -> Prop, (forall a, ~ any_defined objects ds a -> (S a <-> atoms s a)) ->
     ~ (forall d, In d ds -> satisfied objects S d)) ->
  derived_all (create_object_map objects) inner outer ds s = OutOfFuel.
Proof. intros W B G N. apply derived_diverges; auto. apply built_wf; auto. Qed.

(** ** Samples *)

Definition derived_keys (x : outcome (bool * state)) : option (bool * list atom) :=
  match x with Ok (b, s) => Some (b, map prop_key (st_elements s)) | _ => None end.

Definition ex_rules : list derived :=
  [mkDer "lonely" [tv "x" 0] (GNeg (GSimple "close" [tv "x" 0]));
   mkDer "close" [tv "x" 0] (GExists [tv "y" 1] (GSimple "near" [tv "x" 0; tv "y" 1]))].
Definition ex_rule_rank (n : string) : nat := if String.eqb n "lonely" then 1 else 0.
Definition ex_derived_state : state :=
  run (SH := collide) [Ins (mkProp "near" [ex_const "hook"; ex_const "box"]); Ins (mkProp "close" [ex_const "table"])].

Ltac good_rules := intros d I; cbn in I; intuition subst; unfold good_derived; wf_tac.
Lemma ex_rules_good : forall d, In d ex_rules -> good_derived ex_objects d.
Proof. good_rules. Qed.
Lemma ex_rules_stratified : stratified ex_rules ex_rule_rank.
Proof. intros d d' I I' M. cbn in I, I'. intuition subst; cbn in *; intuition (try discriminate); cbn; lia. Qed.

Lemma C35_ex : NoDup (map oname ex_objects) /\ NoDup (map dp_name ex_rules) /\
  (forall d, In d ex_rules -> ex_rule_rank (dp_name d) < 2) /\
  derived_all (SH := collide) (create_object_map ex_objects) 1 3 ex_rules ex_derived_state = OutOfFuel /\
  derived_all (SH := collide) (create_object_map ex_objects) 2 1 ex_rules ex_derived_state = OutOfFuel.
Proof.
  split; [nodup_tac|]. split; [nodup_tac|]. split; [|split; vm_compute; reflexivity].
  intros d I. cbn in I. intuition subst; cbn; lia.
Qed.

Definition ex_liar : derived := mkDer "p" [tv "x" 0] (GNeg (GSimple "p" [tv "x" 0])).
Definition ex_two_rules : list derived :=
  [mkDer "p" [tv "x" 0] (GSimple "q" [tv "x" 0]); mkDer "p" [tv "x" 0] (GSimple "r" [tv "x" 0])].

Definition box := mkObj "box" ["tool"; "thing"; "object"] KConst.
Lemma box_thing : well_typed ex_objects [tv "x" 0] [box].
Proof. constructor; [|constructor]. split; [cbn; auto|right; cbn; auto]. Qed.

Lemma atoms_inserted (SH : StdHash) ps a : atoms (run (map Ins ps)) a <-> In a (map prop_key ps).
Proof.
  induction ps as [|p ps IH] using rev_ind.
  - cbn [map]. rewrite atoms_mem by apply run_wf. split; [|intros []]. intros H. destruct (mem_empty a H).
  - rewrite !map_app, in_app_iff. unfold run, run_from. rewrite fold_left_app. cbn [map fold_left].
    fold (run_from st_empty (map Ins ps)). fold (run (map Ins ps)).
    rewrite atoms_exec by apply run_wf. cbn. rewrite IH. intuition.
Qed.

Lemma ordinary_holds objects S n args : n <> "=" -> ~ is_type objects n ->
  (atom_holds objects S n args <-> S (n, map oname args)).
Proof. unfold atom_holds. intros A B. split; [intros [[H _]|[(_ & H & _)|(_ & _ & H)]]; tauto|right; right; auto]. Qed.

Lemma liar_diverges (SH : StdHash) inner outer s : built s ->
  derived_all (create_object_map ex_objects) inner outer [ex_liar] s = OutOfFuel.
Proof.
  intros B. apply C35_no_model_lemma; auto; [exact ex_objects_wf|good_rules|].
  intros S _ H. specialize (H ex_liar (or_introl eq_refl) _ box_thing).
  unfold body_holds in H. cbn [holds ex_liar dp_body] in H.
  rewrite ordinary_holds in H by (try discriminate; not_type). unfold head in H. cbn in H. tauto.
Qed.

Lemma two_rules_diverge (SH : StdHash) inner outer :
  derived_all (create_object_map ex_objects) inner outer ex_two_rules
    (run [Ins (mkProp "q" [ex_const "box"])]) = OutOfFuel.
Proof.
  apply C35_no_model_lemma; [exact ex_objects_wf|exists [Ins (mkProp "q" [ex_const "box"])]; reflexivity|good_rules|].
  intros S F H.
  pose proof (H _ (or_introl eq_refl) _ box_thing) as H1.
  pose proof (H _ (or_intror (or_introl eq_refl)) _ box_thing) as H2.
  unfold body_holds, head in H1, H2. cbn [holds dp_body dp_name dp_params] in H1, H2.
  rewrite ordinary_holds in H1, H2 by (try discriminate; not_type). cbn in H1, H2.
  assert (Nd : forall n, n <> "p" -> ~ any_defined ex_objects ex_two_rules (n, ["box"])).
  { intros n Nn (d & I & (t & _ & E)). cbn in I. intuition subst; inversion E; auto. }
  pose proof (F _ (Nd "q" ltac:(discriminate))) as Q. pose proof (F _ (Nd "r" ltac:(discriminate))) as R.
  change [Ins (mkProp "q" [ex_const "box"])] with (map Ins [mkProp "q" [ex_const "box"]]) in Q, R.
  rewrite atoms_inserted in Q, R. cbn in Q, R.
  destruct R as [R _]. destruct Q as [_ Q].
  assert (Sq : S ("q", ["box"])) by (apply Q; left; reflexivity).
  apply H1, H2 in Sq. apply R in Sq. destruct Sq as [Sq|[]]; discriminate.
Qed.

Definition ring_objects : list object := [ex_const "a"; ex_const "b"; ex_const "c"].
Definition ring_links : list set_op :=
  [Ins (mkProp "link" [ex_const "a"; ex_const "b"]); Ins (mkProp "link" [ex_const "b"; ex_const "c"]);
   Ins (mkProp "link" [ex_const "c"; ex_const "a"])].
Definition ex_reach : list derived :=
  [mkDer "reach" [tv "x" 0] (GDisj [GSimple "base" [tv "x" 0];
     GExists [tv "y" 1] (GConj [GSimple "link" [tv "x" 0; tv "y" 1]; GSimple "reach" [tv "y" 1]])])].

Lemma ring_objects_wf : Forall (fun o => wf_type (otype o)) ring_objects.
Proof. repeat constructor; cbn; intuition (congruence || auto). Qed.
Lemma ex_reach_good : forall d, In d ex_reach -> good_derived ring_objects d.
Proof. good_rules. Qed.
Lemma ex_reach_positive : positive ex_reach.
Proof. intros d I. cbn in I. intuition subst. cbn. tauto. Qed.

(** The model in which nothing is reachable, as long as there is no base atom. *)
Lemma ring_model (S0 : atom -> Prop) : (forall l, ~ S0 ("base", l)) ->
  let S a := fst a <> "reach" /\ S0 a in
  forall d, In d ex_reach -> satisfied ring_objects S d.
Proof.
  intros NB S d [<-|[]] args T. split.
  - intros [H _]. exfalso. apply H. reflexivity.
  - unfold body_holds. cbn [holds ex_reach dp_body].
    rewrite ordinary_holds by (try discriminate; not_type).
    intros [[_ H]|[(objs & _ & (_ & H & _))|[]]]; [destruct (NB _ H)|].
    rewrite ordinary_holds in H by (try discriminate; not_type). destruct H as [H _]. exfalso. apply H. reflexivity.
Qed.

Lemma ring_defined l : In l [["a"]; ["b"]; ["c"]] -> any_defined ring_objects ex_reach ("reach", l).
Proof.
  intros I. exists (nth 0 ex_reach ex_liar). split; [left; reflexivity|].
  cbn in I. destruct I as [<-|[<-|[<-|[]]]]; [exists [ex_const "a"]|exists [ex_const "b"]|exists [ex_const "c"]];
    (split; [|reflexivity]); (constructor; [|constructor]); (split; [cbn; auto|right; cbn; auto]).
Qed.

Definition ring_atoms : list prop :=
  [mkProp "link" [ex_const "a"; ex_const "b"]; mkProp "link" [ex_const "b"; ex_const "c"];
   mkProp "link" [ex_const "c"; ex_const "a"]].
Definition reach (n : string) : prop := mkProp "reach" [ex_const n].

Lemma ring_frame (SH : StdHash) ps : incl ps (map reach ["a"; "b"; "c"]) ->
  let s := run (map Ins (ring_atoms ++ ps)) in
  (forall l, ~ atoms s ("base", l)) /\
  forall a, ~ any_defined ring_objects ex_reach a -> ((fst a <> "reach" /\ atoms s a) <-> atoms s a).
Proof.
  intros I s. assert (M : forall a, atoms s a -> In a (map prop_key ring_atoms) \/ In a (map prop_key (map reach ["a"; "b"; "c"]))).
  { intros a A. unfold s in A. rewrite atoms_inserted, map_app, in_app_iff in A. destruct A as [A|A]; [auto|right].
    apply in_map_iff in A as (p & <- & Ip). apply in_map. auto. }
  split.
  - intros l A. apply M in A. cbn in A. intuition discriminate.
  - intros a N. split; [tauto|]. intros A. split; [|auto]. intros E. apply N.
    apply M in A. cbn in A. destruct A as [A|A].
    + intuition (subst; discriminate).
    + destruct A as [<-|[<-|[<-|[]]]]; apply ring_defined; cbn; auto.
Qed.

Lemma least_refuted : exists (SH : StdHash) objects ds s s' a (S : atom -> Prop),
  Forall (fun o => wf_type (otype o)) objects /\ built s /\
  (forall d, In d ds -> good_derived objects d) /\ positive ds /\
  derived_all (create_object_map objects) 1 1 ds s = Ok (false, s') /\ atoms s' a /\
  (forall a, ~ any_defined objects ds a -> (S a <-> atoms s a)) /\
  (forall d args, In d ds -> well_typed objects (dp_params d) args ->
     (S (head d args) <-> body_holds objects S d args)) /\ ~ S a.
Proof.
  pose (s := run (SH := collide) (map Ins (ring_atoms ++ map reach ["a"; "b"; "c"]))).
  destruct (ring_frame collide (map reach ["a"; "b"; "c"]) (fun x I => I)) as [NB F].
  exists collide, ring_objects, ex_reach, s, s, ("reach", ["a"]), (fun a => fst a <> "reach" /\ atoms (SH := collide) s a).
  split; [exact ring_objects_wf|]. split; [eexists; reflexivity|]. split; [exact ex_reach_good|].
  split; [exact ex_reach_positive|]. split; [vm_compute; reflexivity|]. split.
  { apply (atoms_inserted collide). cbn. tauto. }
  split; [exact F|]. split.
  - intros d args I T. exact (ring_model _ NB d I args T).
  - intros [H _]. apply H. reflexivity.
Qed.

Lemma apply_two_cycle (SH : StdHash) om d s1 s2 : derived_pass om d s1 = Ok (true, s2) ->
  derived_pass om d s2 = Ok (true, s1) -> forall n, derived_apply om n d s1 = OutOfFuel /\ derived_apply om n d s2 = OutOfFuel.
Proof.
  intros E1 E2. induction n as [|n [IH1 IH2]]; [split; reflexivity|]. cbn [derived_apply].
  rewrite E1, E2. cbn [bind]. rewrite IH1, IH2. split; reflexivity.
Qed.

Lemma ring_diverges : exists (SH : StdHash) objects ds s,
  Forall (fun o => wf_type (otype o)) objects /\ NoDup (map oname objects) /\ built s /\
  (forall d, In d ds -> good_derived objects d) /\ NoDup (map dp_name ds) /\ positive ds /\
  (exists S : atom -> Prop, (forall a, ~ any_defined objects ds a -> (S a <-> atoms s a)) /\
     forall d, In d ds -> satisfied objects S d) /\
  forall inner outer, derived_all (create_object_map objects) inner outer ds s = OutOfFuel.
Proof.
  pose (s := run (SH := collide) (map Ins (ring_atoms ++ [reach "b"]))).
  destruct (ring_frame collide [reach "b"]) as [NB F]; [intros x [<-|[]]; cbn; tauto|].
  exists collide, ring_objects, ex_reach, s.
  split; [exact ring_objects_wf|]. split; [nodup_tac|]. split; [eexists; reflexivity|]. split; [exact ex_reach_good|].
  split; [nodup_tac|]. split; [exact ex_reach_positive|]. split.
  { exists (fun a => fst a <> "reach" /\ atoms (SH := collide) s a). split; [exact F|]. exact (ring_model _ NB). }
  pose (d := nth 0 ex_reach ex_liar).
  pose (pass x := match derived_pass (SH := collide) (create_object_map ring_objects) d x with Ok (_, y) => y | _ => x end).
  assert (D : forall n, derived_apply (SH := collide) (create_object_map ring_objects) n d s = OutOfFuel).
  { intros [|n]; [reflexivity|]. cbn [derived_apply].
    assert (E0 : derived_pass (SH := collide) (create_object_map ring_objects) d s = Ok (true, pass s)) by (vm_compute; reflexivity).
    rewrite E0. cbn [bind].
    destruct (apply_two_cycle collide (create_object_map ring_objects) d (pass s) (pass (pass s))) with (n := n) as [E _];
      [vm_compute; reflexivity|vm_compute; reflexivity|]. rewrite E. reflexivity. }
  intros inner [|outer]; [reflexivity|]. cbn [derived_all]. unfold derived_round, ex_reach. cbn [foldM snd fst].
  fold d. rewrite D. reflexivity.
Qed.
