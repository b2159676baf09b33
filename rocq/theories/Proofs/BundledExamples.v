(** Lemmas behind C77: the bundled problem. *)
From Coq Require Import Ascii String List Bool NArith ZArith Arith Lia.
From Verif.Model Require Import Base Object Proposition State ParameterGenerator Syntax Formula
  Effects Derived Consistency Text Pddl Objects Load Planner Search Bundled.
From Verif.Spec Require Import SetSpec TypingSpec FormulaSpec EffectSpec DerivedSpec TextSpec AxiomSpec PddlSpec
  SearchSpec PlannerSpec DirectSpec PlainSpec BundledSpec.
From Verif.Proofs Require Import StateHistory FormulaFacts TextFacts PddlFacts PddlTheorems PddlHistory PddlExamples PlannerFacts
  PlannerTheorems PlannerExamples DirectFacts PlainFacts BundledFacts.
From Verif.Properties Require Import StateProps DirectProps.
Import ListNotations.
Local Open Scope string_scope.
Local Open Scope list_scope.

Local Notation pb := put_box_on_shelf.

Lemma box_problem : lgp_problem pb.
Proof.
  constructor.
  - repeat constructor; cbn; tauto.
  - repeat constructor; cbn; intuition discriminate.
  - repeat constructor; try discriminate; intros c I [->|J]; cbn in I; try (intuition discriminate);
      cbn in J; intuition (subst; discriminate).
  - cbn. lia.
  - assert (A : forall n l, In n ["inhand"; "on"] -> arity_ok (table :: ps_objects pb) n l).
    { intros n l I. assert (N : ~ is_type (table :: ps_objects pb) n).
      { intros (o & Io & [->|It]); [cbn in I; intuition discriminate|]. cbn in Io.
        destruct Io as [<-|[<-|[<-|[<-|[]]]]]; cbn in It, I; intuition (subst; discriminate). }
      split; [intros ->; cbn in I; intuition discriminate|]. intros T. contradiction. }
    cbn. repeat split; try (apply A; cbn; tauto); repeat constructor; unfold arg_ok; cbn; auto.
Qed.

Lemma box_goal_aim (S : atom -> Prop) s : holds (pd_symbols (lgp_pddl pb s)) S no_env (ps_goal pb) <-> box_aim S.
Proof.
  assert (O : forall n, In n ["inhand"; "on"; "inworkspace"] -> ordinary (table :: ps_objects pb) n)
    by apply (lgp_ordinary pb box_problem).
  change (pd_symbols (lgp_pddl pb s)) with (table :: ps_objects pb). unfold box_aim. cbn [ps_goal pb box_goal]. split.
  - intros (P1 & P2 & P3 & _). split; [|split].
    + intros K. apply P1. apply atom_plain; [apply O; cbn; auto|exact K].
    + intros K. apply P2. apply atom_plain; [apply O; cbn; auto|exact K].
    + apply atom_plain in P3; [exact P3|apply O; cbn; auto].
  - intros (P1 & P2 & P3). split; [|split; [|split; [|exact Logic.I]]].
    + intros K. apply P1. apply atom_plain in K; [exact K|apply O; cbn; auto].
    + intros K. apply P2. apply atom_plain in K; [exact K|apply O; cbn; auto].
    + apply atom_plain; [apply O; cbn; auto|exact P3].
Qed.

Lemma box_init_atoms `{SH : StdHash} : built (initial_state (ps_init pb)) /\
  forall a, atoms (initial_state (ps_init pb)) a <-> box_start a.
Proof.
  destruct (initial_atoms (ps_init pb)) as [B H]. split; auto. intros a. rewrite H. unfold box_start. split.
  - intros (q & I & <-). cbn in I. destruct I as [<-|[<-|[<-|[<-|[<-|[]]]]]]; cbn; tauto.
  - cbn. intros [<-|[<-|[<-|[<-|[<-|[]]]]]]; 
      [exists (mkProp "inworkspace" [table])|exists (mkProp "inworkspace" [shelf])|exists (mkProp "inworkspace" [hook])
      |exists (mkProp "on" [hook; table])|exists (mkProp "on" [box; table])]; (split; [cbn; tauto|reflexivity]).
Qed.
Lemma box_tidy : tidy pb box_start.
Proof.
  assert (Mh : movable pb "hook") by (exists hook; split; [cbn; auto|split; [reflexivity|cbn; auto]]).
  assert (Mb : movable pb "box") by (exists box; split; [cbn; auto|split; [reflexivity|cbn; auto]]).
  assert (On : forall x y, box_start (on x y) -> (x = "hook" \/ x = "box") /\ y = "table").
  { intros x y K. cbn in K. destruct K as [[=]|[[=]|[[=]|[[= <- <-]|[[= <- <-]|[]]]]]]; auto. }
  constructor.
  - intros x K. cbn in K. intuition discriminate.
  - intros x y K. cbn in K. intuition discriminate.
  - intros x y K. apply On in K as [[->| ->] ->]; (split; [assumption|]); (split; [left; reflexivity|discriminate]).
  - intros x y z K K'. apply On in K as [_ ->]. apply On in K' as [_ ->]. reflexivity.
  - intros x (o & I & <- & T). right. exists "table". cbn in I. destruct I as [<-|[<-|[<-|[]]]]; cbn in *; intuition discriminate.
Qed.

(** ** Its plans *)
Definition box_texts : list (list string) :=
  map (fun x => ["pick(hook)"; "push(hook, box, table)"; "place(hook, " ++ x ++ ")"; "pick(box)"; "place(box, shelf)"]%string)
    ["table"; "shelf"; "box"].
Definition box_pddl `{SH : StdHash} : pddl := lgp_pddl pb (initial_state (ps_init pb)).

Lemma box_run : plans_view (bfs_all (node_goal (SH := collide) (box_pddl (SH := collide)))
    (node_children (SH := collide) ex_limits (box_pddl (SH := collide)) 60) 5 300 300 never
    (root_node (pd_init (box_pddl (SH := collide)))) no_store) = Ok box_texts.
Proof. vm_compute. reflexivity. Qed.

Lemma some_ex_limits : some_limits ex_limits.
Proof. repeat split; cbn; lia. Qed.

Lemma box_straight s cs : In cs box_texts <->
  exists l, cs = printed l /\ length l <= 5 /\ straight (lgp_pddl pb s) [] l box_start.
Proof.
  destruct (view_plans _ _ box_run) as (plans & w & E & <-).
  pose (p := box_pddl (SH := collide)). destruct (lgp_words pb box_problem (pd_init p)) as (H1 & H2 & H3 & H4 & H5 & H6).
  pose proof (lgp_good pb box_problem (pd_init p) ex_limits some_ex_limits) as G.
  destruct (box_init_atoms (SH := collide)) as [B At]. pose proof (set_in_represents _ B) as R.
  assert (Le : enough p <= 60) by (apply Nat.leb_le; vm_compute; reflexivity).
  destruct (bfs_direct_any (SH := collide) ex_limits p lgp_arity (fun _ => 0) (fun _ => 0) G H1 H2 H3 H4 H5 H6 60 Le 5 _ _ _ _ _ _ _
    R (rs_none _ _ _) E) as (_ & D & _).
  rewrite D. rewrite (direct_straight_root (SH := collide) ex_limits p _ _ _ G (atoms (SH := collide) (pd_init p))
    (lgp_orderly pb box_problem (pd_init p) _) 5 (pd_init p) _ cs R) by (intros; reflexivity).
  split; intros (l & El & Ln & K); exists l; (split; [exact El|]); (split; [exact Ln|]).
  - eapply straight_init, straight_same; [exact K|exact At|constructor].
  - eapply straight_init, straight_same; [exact K| |constructor]. intros a. symmetry. apply At.
Qed.

Lemma lgp_plain b s l S : solves (lgp_pddl b s) l S -> Forall (fun x => op_is_axiom (fst x) = false /\ op_params (fst x) <> []) l.
Proof.
  induction 1 as [|o args l S S' (I & _) _ _ IH]; constructor; auto. cbn in *. destruct I as [<-|[<-|[<-|[]]]]; split; easy.
Qed.
Lemma texts_length cs : In cs box_texts -> length cs = 5.
Proof. cbn. intuition (subst; reflexivity). Qed.
Lemma minimal_listed s l : solves (lgp_pddl pb s) l box_start -> length l <= 5 ->
  (forall l', solves (lgp_pddl pb s) l' box_start -> length l <= length l') -> In (printed l) box_texts.
Proof.
  intros H Ln Least. apply (box_straight s). exists l. split; [reflexivity|]. split; auto.
  apply shortest_straight; auto; [intros U l' []|eapply lgp_plain; eauto].
Qed.
Lemma box_five s n : forall l, solves (lgp_pddl pb s) l box_start -> length l = n -> 5 <= n.
Proof.
  induction n as [n IH] using lt_wf_ind. intros l H E. destruct (Nat.le_gt_cases 5 n) as [|Lt]; auto.
  assert (I : In (printed l) box_texts).
  { apply (minimal_listed s); [exact H|lia|]. intros l' H'. destruct (Nat.le_gt_cases (length l) (length l')) as [|Q]; auto.
    specialize (IH (length l') ltac:(lia) l' H' eq_refl). lia. }
  apply texts_length in I. unfold printed in I. rewrite map_length in I. lia.
Qed.

Lemma C77_shortest_lemma l S' : carries pb l box_start S' -> box_aim S' -> 5 <= length l.
Proof.
  intros C A. apply (box_goal_aim S' st_empty) in A. destruct (carries_solves pb box_problem st_empty _ _ _ C A) as (l' & <- & H).
  rewrite map_length. eapply box_five; eauto.
Qed.
Lemma C77_plans_lemma l : (length l = 5 /\ exists S', carries pb l box_start S' /\ box_aim S') <->
  In l (map box_plan ["table"; "shelf"; "box"]).
Proof.
  assert (E : map box_plan ["table"; "shelf"; "box"] = map (map (fun c => (parse_head c, tokenize c))) box_texts)
    by (vm_compute; reflexivity).
  rewrite E, in_map_iff. split.
  - intros (Ln & S' & C & A). apply (box_goal_aim S' st_empty) in A.
    destruct (carries_solves pb box_problem st_empty _ _ _ C A) as (l' & <- & H). rewrite map_length in Ln.
    exists (printed l'). split.
    + symmetry. apply (printed_names pb box_problem st_empty ex_limits some_ex_limits _ _ H).
    + apply (minimal_listed st_empty); [exact H|lia|]. intros l2 H2. rewrite Ln. eapply box_five; eauto.
  - intros (cs & <- & I). pose proof (texts_length _ I) as Ln. rewrite map_length. split; auto.
    apply (box_straight st_empty) in I as (l' & -> & _ & K). apply straight_solves in K.
    rewrite <- (printed_names pb box_problem st_empty ex_limits some_ex_limits _ _ K).
    apply (solves_carries pb box_problem st_empty) in K as (S' & C & H). exists S'. split; auto. apply box_goal_aim in H. exact H.
Qed.

Section Search.
  Context `{SH : StdHash}.
  Lemma C77_search_lemma L : some_limits L -> exists K0, forall K, K0 <= K -> exists plans M,
    (forall calls fuel, M <= calls -> M <= fuel ->
       exists st, bfs_all (node_goal box_pddl) (node_children L box_pddl K) 5 calls fuel never (root_node (pd_init box_pddl)) no_store =
         Ok (plans, st)) /\
    NoDup (map plan_calls plans) /\ forall cs, In cs (map plan_calls plans) <-> In cs box_texts.
  Proof.
    intros HL. destruct box_init_atoms as [B At]. unfold box_pddl. revert B At. generalize (initial_state (ps_init pb)) as s0.
    intros s0 B At. destruct (lgp_words pb box_problem s0) as (H1 & H2 & H3 & H4 & H5 & H6).
    pose proof (lgp_good pb box_problem s0 L HL) as G. set (p := lgp_pddl pb s0) in *.
    destruct (C76_search_lemma L p _ _ _ G H1 H2 H3 H4 H5 H6) as (K0 & H). exists K0. intros K HK.
    assert (Ep : make_planner L p (pd_init p, no_store) = Ok (root_node (pd_init p), no_store)).
    { unfold make_planner. destruct HL as (_ & _ & Lr). destruct (l_rounds L); [lia|]. reflexivity. }
    destruct (H K _ _ _ _ 5 HK B Ep (lgp_orderly pb box_problem s0 _)) as (plans & M & HM & N & D & _).
    exists plans, M. split; [|split; [exact N|]].
    - intros calls fuel Hc Hf. apply HM; auto. apply rs_none.
    - intros cs. rewrite D, (box_straight s0). cbn [nd_state root_node].
      split; intros (l & El & Ln & K'); exists l; (split; [exact El|]); (split; [exact Ln|]).
      + eapply straight_same; [exact K'|exact At|constructor].
      + eapply straight_same; [exact K'| |constructor]. intros a. symmetry. apply At.
  Qed.
End Search.

(** ** Executing calls *)
Section Executing.
  Context `{SH : StdHash}.
  Fixpoint perform (L : limits) (p : pddl) (cs : list string) (w : state * store) : outcome (state * store) :=
    match cs with
    | [] => Ok w
    | c :: cs' => let* v := is_valid_action p (fst w) c in
                  if v : bool then let* w' := next_state L p c w in perform L p cs' w' else Throw ERuntime
    end.
  Lemma perform_legal L p cs : forall w w', perform L p cs w = Ok w' -> legal L p w w'.
  Proof.
    induction cs as [|c cs IH]; intros w w' E; [injection E as <-; apply lg_none|]. cbn [perform] in E.
    apply bind_Ok in E as (v & V & E). destruct v; [|discriminate]. apply bind_Ok in E as (w1 & N & E).
    eapply lg_call; eauto.
  Qed.
End Executing.
Lemma circle : exists (SH : StdHash) L s st, some_limits L /\
  legal L box_pddl (pd_init box_pddl, no_store) (s, st) /\ atoms s (on "box" "hook") /\ atoms s (on "hook" "box").
Proof.
  assert (H : exists w, perform (SH := collide) ex_limits (box_pddl (SH := collide))
      ["pick(hook)"; "push(hook, box, table)"; "place(hook, box)"; "pick(box)"; "place(box, hook)"]
      (pd_init (box_pddl (SH := collide)), no_store) = Ok w /\
    st_contains (SH := collide) (fst w) (mkProp "on" [box; hook]) = true /\
    st_contains (SH := collide) (fst w) (mkProp "on" [hook; box]) = true).
  { eexists. split; [vm_compute; reflexivity|]. split; vm_compute; reflexivity. }
  destruct H as ([s st] & E & C1 & C2). exists collide, ex_limits, s, st. split; [exact some_ex_limits|].
  split; [eapply perform_legal; exact E|]. split; [exists (mkProp "on" [box; hook])|exists (mkProp "on" [hook; box])]; split; auto.
Qed.
