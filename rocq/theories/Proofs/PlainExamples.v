(** Sample domains for C76. *)
From Coq Require Import Ascii String List Bool NArith ZArith Arith Lia.
From Verif.Model Require Import Base Object Proposition State ParameterGenerator Syntax Formula
  Effects Derived Consistency Text Search Pddl Planner.
From Verif.Spec Require Import SetSpec TypingSpec FormulaSpec EffectSpec DerivedSpec TextSpec AxiomSpec SearchSpec PddlSpec
  PlannerSpec DirectSpec PlainSpec.
From Verif.Proofs Require Import FormulaFacts EffectFacts EffectLink StateFacts StateHistory EffectExamples AxiomExamples DerivedExamples PddlFacts
  PddlTheorems PddlListing PddlHistory PddlExamples PlannerTheorems PlannerExamples DirectFacts PlainFacts.
From Verif.Properties Require Import StateProps ParameterProps FormulaProps.
Import ListNotations.
Local Open Scope string_scope.
Local Open Scope list_scope.

(** walk ?x ?y along roads, where no road leads back to its start; one sleeps
    where there is an inn.  Nothing triggers the axiom. *)
Definition walk : op :=
  mkOp "walk" false [tv "x" 0; tv "y" 1]
    (GConj [GSimple "at" [tv "x" 0]; GSimple "road" [tv "x" 0; tv "y" 1]])
    (Effs [] [mkProp "at" [tv "y" 1]] [mkProp "at" [tv "x" 0]]
       [(GSimple "inn" [tv "y" 1], Effs [] [mkProp "slept" [tv "y" 1]] [] [])]).
Definition soak : axiom := rule "soak" [tv "x" 0] true (mkProp "flood" [tv "x" 0]) [mkProp "wet" [tv "x" 0]] [].
Definition trip_init : list prop :=
  [road "a" "b"; road "b" "a"; road "b" "d"; road "d" "c"; road "b" "c"; sp "at" "a"; sp "inn" "d"; sp "inn" "c"].
Definition trip_goal : goal := GSimple "slept" [ex_const "c"].
Definition trip : pddl :=
  mkPddl [] towns towns (create_object_map towns) [walk; ax_op soak] [soak] []
    (run (SH := collide) (map Ins trip_init)) trip_goal.

Lemma trip_good : good_domain ex_limits trip map_arity (fun _ => 0) (fun _ => 0).
Proof.
  constructor.
  - reflexivity.
  - repeat constructor; cbn; intuition (congruence || auto).
  - nodup_tac.
  - repeat apply Forall_cons; try apply Forall_nil; good_op_tac.
  - repeat apply Forall_cons; try apply Forall_nil; wf_tac.
  - repeat apply Forall_cons; try apply Forall_nil. constructor; [good_op_tac| |reflexivity]. split; [nodup_tac|].
    intros p [<-|[]]. exists [], (tv "x" 0), []. cbn. intuition discriminate.
  - intros [|i] a N j b Nb I; cbn in N; [|destruct i; discriminate]. injection N as <-.
    destruct j as [|j]; cbn in Nb; [|destruct j; discriminate]. injection Nb as <-. cbn in I. intuition discriminate.
  - intros i _. cbn. lia.
  - intros d [].
  - constructor.
  - intros d d' [].
  - cbn; lia.
  - split; [cbn; lia|]. intros d [].
  - wf_tac.
Qed.
Lemma trip_words : Forall word (map oname (pd_symbols trip)) /\
  Forall (fun o => free_of "("%char (op_name o)) (pd_ops trip) /\ NoDup (map op_name (pd_ops trip)) /\
  Forall (fun o => (tuple_count (pd_symbols trip) (op_params o) < 2 ^ 31)%Z) (pd_ops trip) /\
  pd_actions trip <> [] /\ ordinary_domain trip.
Proof.
  split; [|split; [|split; [|split; [|split]]]].
  - repeat apply Forall_cons; try apply Forall_nil;
      (split; [discriminate|intros c I [->|J]; cbn in I; [intuition discriminate|]; cbn in J; intuition (subst; discriminate)]).
  - repeat apply Forall_cons; try apply Forall_nil; intros I; cbn in I; intuition discriminate.
  - nodup_tac.
  - repeat apply Forall_cons; try apply Forall_nil; reflexivity.
  - discriminate.
  - split; intros o I; cbn in I; intuition subst; ord_tac.
Qed.

Lemma trip_ordinary n : In n ["at"; "road"; "inn"; "slept"; "wet"; "flood"] -> ordinary towns n.
Proof. intros I. cbn in I. intuition subst; (split; [discriminate|not_type]). Qed.

(** What the calls change. *)
Lemma trip_affects o args S pos a : enabled trip o args S -> affects trip o args S pos a ->
  (exists x y, args = [x; y] /\ o = walk /\ S ("road", [oname x; oname y]) /\
     ((pos = true /\ (a = ("at", [oname y]) \/ a = ("slept", [oname y]))) \/ (pos = false /\ a = ("at", [oname x])))) \/
  (exists w, pos = true /\ a = ("wet", w)).
Proof.
  intros (I & W & P) A. cbn in I. destruct I as [<-|[<-|[]]].
  - left. pose proof (well_typed_length _ _ _ W) as Ln. cbn in Ln.
    destruct args as [|x [|y [|]]]; try discriminate. exists x, y.
    split; auto. split; auto. destruct P as (_ & P & _). change (pd_symbols trip) with towns in *.
    apply atom_plain in P; [|apply trip_ordinary; cbn; tauto]. split; [exact P|].
    unfold affects in A. change (pd_symbols trip) with towns in A. cbn [op_effs op_params walk] in A. rewrite eff_lit_eq in A.
    destruct A as [(? & ? & [] & _)|[(q & I & _ & ->)|(g & b & [[= <- <-]|[]] & _ & A)]].
    + destruct pos; destruct I as [<-|[]]; cbn; auto.
    + rewrite eff_lit_eq in A. destruct A as [(? & ? & [] & _)|[(q & I & _ & ->)|(g & b' & [] & _)]].
      destruct pos; [|destruct I]. destruct I as [<-|[]]. cbn. auto.
  - right. unfold affects in A. cbn [op_effs op_params ax_op soak rule] in A. rewrite eff_lit_eq in A.
    destruct A as [(? & ? & [] & _)|[(q & I & _ & ->)|(g & b & [] & _)]].
    destruct pos; [|destruct I]. destruct I as [<-|[]]. eexists. split; reflexivity.
Qed.
Lemma trip_roads S0 S : (forall x, ~ S0 ("road", [x; x])) -> attainable trip S0 S -> forall x, ~ S ("road", [x; x]).
Proof.
  intros H A. induction A as [S E|S o args S' _ IH En T]; intros x K.
  - apply E in K. apply (H x K).
  - apply T in K as [K|[K _]]; [|apply (IH x K)].
    apply trip_affects in K as [(y & z & _ & _ & _ & [(_ & [K|K])|(_ & K)])|(w & _ & K)]; auto; discriminate.
Qed.
Lemma trip_orderly S0 : (forall x, ~ S0 ("road", [x; x])) -> orderly trip S0.
Proof.
  intros H. constructor.
  - reflexivity.
  - intros o I a Ia K. cbn in I, Ia. destruct Ia as [<-|[]]. destruct I as [<-|[<-|[]]]; cbn in K; intuition discriminate.
  - intros o I. apply (proj1 (proj2 (proj2 (proj2 (proj2 (proj2 trip_words))))) o I).
  - intros o args S At En a pos R A.
    assert (X : exists w, a = ("inn", w)).
    { destruct En as (I & W & _). cbn in I. destruct I as [<-|[<-|[]]]; cbn in R; [|tauto].
      destruct R as [[]|[[(_ & _ & ->)|[[]|[]]]|[]]]. eexists. reflexivity. }
    destruct X as (w & ->).
    apply trip_affects in A as [(y & z & _ & _ & _ & [(_ & [K|K])|(_ & K)])|(w' & _ & K)]; auto; discriminate.
  - intros o args S At En a [A1 A2]. apply trip_affects in A1 as [(x & y & Ea & _ & Rd & [(_ & A1)|([=] & _)])|(w & _ & ->)]; auto.
    + apply trip_affects in A2 as [(x' & y' & Ea' & _ & _ & [([=] & _)|(_ & A2)])|(w & [=] & _)]; auto.
      rewrite Ea in Ea'. injection Ea' as <- <-. destruct A1 as [A1|A1]; rewrite A1 in A2; [|discriminate].
      injection A2 as E. rewrite E in Rd. apply (trip_roads S0 S H At (oname x) Rd).
    + apply trip_affects in A2 as [(x' & y' & Ea' & _ & _ & [([=] & _)|(_ & A2)])|(w' & [=] & _)]; auto. discriminate.
Qed.
Lemma trip_start : forall x, ~ atoms (SH := collide) (pd_init trip) ("road", [x; x]).
Proof.
  intros x K. apply (atoms_inserted collide trip_init) in K. cbn in K.
  repeat (destruct K as [K|K]; [discriminate K || (injection K as <- K; discriminate K)|]). exact K.
Qed.

(** ** Counterexamples: all of the conditions but one *)
Definition flip : op :=
  mkOp "flip" false [tv "x" 0] (GConj []) (Effs [] [mkProp "up" [tv "x" 0]] [mkProp "up" [tv "x" 0]] []).
Definition turn : op :=
  mkOp "turn" false [tv "x" 0] (GConj [])
    (Effs [] [] [] [(GSimple "up" [tv "x" 0], Effs [] [] [mkProp "up" [tv "x" 0]] []);
                    (GNeg (GSimple "up" [tv "x" 0]), Effs [] [mkProp "up" [tv "x" 0]] [] [])]).
Definition coin (o : op) (up : bool) (g : goal) : pddl :=
  mkPddl [] [ex_const "a"] [ex_const "a"] (create_object_map [ex_const "a"]) [o] [] []
    (run (SH := collide) (if up then [Ins (sp "up" "a")] else [])) g.
Definition is_up : goal := GSimple "up" [ex_const "a"].

Lemma coin_good o up g : In o [flip; turn] -> In g [is_up; GNeg is_up] ->
  good_domain ex_limits (coin o up g) (fun _ => 1) (fun _ => 0) (fun _ => 0).
Proof.
  intros I J. cbn in I, J. constructor.
  - reflexivity.
  - repeat constructor; cbn; intuition (congruence || auto).
  - nodup_tac.
  - apply Forall_cons; [|constructor]. intuition subst; good_op_tac.
  - apply Forall_cons; [|constructor]. intuition subst; wf_tac.
  - constructor.
  - intros i a N. destruct i; discriminate.
  - intros i _. cbn. lia.
  - intros d [].
  - constructor.
  - intros d d' [].
  - cbn; lia.
  - split; [cbn; lia|]. intros d [].
  - intuition subst; wf_tac.
Qed.
Lemma coin_plain objects : objects = [ex_const "a"] -> ordinary objects "up".
Proof. intros ->. split; [discriminate|not_type]. Qed.

(** Turning over does not make two changes to the same atom at once. *)
Lemma turn_affects up g args S pos a : enabled (coin turn up g) turn args S -> affects (coin turn up g) turn args S pos a ->
  exists x, args = [x] /\ a = ("up", [oname x]) /\ (pos = true <-> ~ S a) /\ (pos = false <-> S a).
Proof.
  intros (_ & W & _) A. pose proof (well_typed_length _ _ _ W) as Ln. cbn in Ln. destruct args as [|x [|]]; try discriminate.
  exists x. split; auto. unfold affects in A. change (pd_symbols (coin turn up g)) with [ex_const "a"] in A.
  cbn [op_effs op_params turn] in A. rewrite eff_lit_eq in A.
  destruct A as [(? & ? & [] & _)|[(q & I & _)|(c & b & [[= <- <-]|[[= <- <-]|[]]] & C & A)]].
  - destruct pos; destruct I.
  - rewrite eff_lit_eq in A. destruct A as [(? & ? & [] & _)|[(q & I & _ & ->)|(? & ? & [] & _)]].
    destruct pos; [destruct I|]. destruct I as [<-|[]]. apply atom_plain in C; [|apply coin_plain; auto]. cbn in C |- *.
    split; auto. split; split; intros K; auto; try discriminate; try (exfalso; auto; fail).
  - rewrite eff_lit_eq in A. destruct A as [(? & ? & [] & _)|[(q & I & _ & ->)|(? & ? & [] & _)]].
    destruct pos; [|destruct I]. destruct I as [<-|[]]. cbn [holds] in C. rewrite atom_plain in C by (apply coin_plain; auto). cbn in C |- *.
    split; auto. split; split; intros K; auto; try discriminate. exfalso; auto.
Qed.

Definition after (p : pddl) (o : op) (args : list object) (S : atom -> Prop) (a : atom) : Prop :=
  affects p o args S true a \/ (S a /\ ~ affects p o args S false a).
Lemma turns_after p o args S : turns_into p o args S (after p o args S).
Proof. intros a. reflexivity. Qed.
Lemma coin_typed up g o : o = flip \/ o = turn -> well_typed (pd_symbols (coin o up g)) (op_params o) [ex_const "a"].
Proof. intros [-> | ->]; (constructor; [|constructor]); (split; [left; reflexivity|]); cbn; unfold has_type; cbn; auto. Qed.
Lemma coin_call up g o : o = flip \/ o = turn -> calls (coin o up g) (action_to_string o [ex_const "a"]) o [ex_const "a"].
Proof. intros [-> | ->]; apply parse_calls; vm_compute; reflexivity. Qed.

(** Effects that add and delete the same atom: in PDDL it is true afterwards. *)
Lemma clash_refuted : exists (SH : StdHash) L p ar rank drank cs l st,
  good_domain L p ar rank drank /\ built (pd_init p) /\ pd_derived p = [] /\ pd_axioms p = [] /\
  (forall o, In o (pd_ops p) -> eff_conds (op_effs o) = []) /\
  Forall2 (fun c x => calls p c (fst x) (snd x)) cs l /\ solves p l (atoms (pd_init p)) /\
  is_valid_plan L p cs no_store = Ok (false, st).
Proof.
  pose (SH := collide).
  exists collide, ex_limits, (coin flip false is_up), (fun _ => 1), (fun _ => 0), (fun _ => 0), ["flip(a)"], [(flip, [ex_const "a"])].
  eexists. split; [apply coin_good; cbn; auto|]. split; [exists []; reflexivity|]. split; [reflexivity|]. split; [reflexivity|].
  split; [intros o I; cbn in I; intuition subst; reflexivity|].
  split; [constructor; [|constructor]; apply (coin_call false is_up flip); auto|]. split; [|vm_compute; reflexivity].
  eapply so_step; [split; [left; reflexivity|split; [apply coin_typed; auto|exact Logic.I]]|apply turns_after|].
  apply so_goal. cbn [holds pd_goal coin is_up]. apply atom_plain; [apply coin_plain; reflexivity|]. left.
  unfold affects. cbn [op_effs op_params flip]. rewrite eff_lit_eq. right. left. eexists. split; [left; reflexivity|].
  split; [apply coin_plain; reflexivity|]. reflexivity.
Qed.

(** Conditional effects: in PDDL all their conditions are about the state before. *)
Lemma reads_refuted : exists (SH : StdHash) L p ar rank drank cs l st,
  good_domain L p ar rank drank /\ built (pd_init p) /\ pd_derived p = [] /\ pd_axioms p = [] /\
  (forall o args S, enabled p o args S -> forall a, ~ (affects p o args S true a /\ affects p o args S false a)) /\
  Forall2 (fun c x => calls p c (fst x) (snd x)) cs l /\ solves p l (atoms (pd_init p)) /\
  is_valid_plan L p cs no_store = Ok (false, st).
Proof.
  pose (SH := collide). pose (g := GNeg is_up).
  exists collide, ex_limits, (coin turn true g), (fun _ => 1), (fun _ => 0), (fun _ => 0), ["turn(a)"], [(turn, [ex_const "a"])].
  eexists. split; [apply coin_good; cbn; auto|]. split; [eexists; reflexivity|]. split; [reflexivity|]. split; [reflexivity|].
  split.
  { intros o args S En a [A1 A2]. assert (Eo : o = turn) by (destruct En as [[<-|[]] _]; reflexivity). subst o.
    apply turn_affects in A1 as (x & _ & _ & A1 & _); auto. apply turn_affects in A2 as (x' & _ & _ & _ & A2); auto. tauto. }
  split; [constructor; [|constructor]; apply (coin_call true g turn); auto|]. split; [|vm_compute; reflexivity].
  assert (En : enabled (coin turn true g) turn [ex_const "a"] (atoms (SH := collide) (pd_init (coin turn true g)))).
  { split; [left; reflexivity|split; [apply coin_typed; auto|exact Logic.I]]. }
  assert (U : atoms (SH := collide) (pd_init (coin turn true g)) ("up", ["a"])).
  { apply (atoms_inserted collide [sp "up" "a"]). left. reflexivity. }
  eapply so_step; [exact En|apply turns_after|].
  apply so_goal. cbn [holds pd_goal coin g is_up]. rewrite atom_plain by (apply coin_plain; reflexivity).
  intros [K|[_ K]].
  - apply turn_affects in K as (x & _ & _ & K & _); auto. apply (proj1 K); auto.
  - apply K. unfold affects. cbn [op_effs op_params turn]. rewrite eff_lit_eq. right. right.
    do 2 eexists. split; [left; reflexivity|]. split; [apply atom_plain; [apply coin_plain; reflexivity|exact U]|].
    rewrite eff_lit_eq. right. left. eexists. split; [left; reflexivity|]. split; [apply coin_plain; reflexivity|]. reflexivity.
Qed.
