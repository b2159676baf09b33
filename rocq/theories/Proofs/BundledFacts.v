(** Lemmas behind C77: the bundled domain. *)
From Coq Require Import Ascii String List Bool NArith ZArith Arith Lia.
From Verif.Model Require Import Base Object Proposition State ParameterGenerator Syntax Formula
  Effects Derived Consistency Text Pddl Objects Load Planner Search Bundled.
From Verif.Spec Require Import SetSpec TypingSpec CartesianSpec FormulaSpec EffectSpec DerivedSpec TextSpec AxiomSpec PddlSpec
  SearchSpec PlannerSpec DirectSpec PlainSpec BundledSpec.
From Verif.Proofs Require Import FormulaFacts EffectFacts EffectLink EffectTheorems StateHistory TextFacts PddlFacts PddlTheorems
  PddlListing PddlHistory PlannerTheorems DirectFacts PlainFacts ConstructFacts ConstructTheorems.
Import ListNotations.
Local Open Scope string_scope.
Local Open Scope list_scope.

Definition lgp_arity (n : string) : nat := if String.eqb n "on" then 2 else 1.
Definition lgp_pddl (b : problem_syntax) (s : state) : pddl :=
  mkPddl [table] (ps_objects b) (table :: ps_objects b) (create_object_map (table :: ps_objects b))
    [pick; place; push] [] [] s (ps_goal b).

Section Load.
  Context `{SH : StdHash}.
  Lemma load_lgp domain_in problem_in L d q aa b : domain_in d = Some lgp -> q <> "" ->
    problem_in lgp (problem_source q) = Some b -> lgp_problem b -> some_limits L ->
    exists l, load domain_in problem_in L d q aa = Ok (l, no_store) /\ ld_pddl l = lgp_pddl b (initial_state (ps_init b)).
  Proof.
    intros Hd Nq Hp Lp (_ & _ & Lr). unfold load, parse_pddl. rewrite Hd. destruct (String.eqb_spec q ""); [congruence|].
    rewrite Hp. cbn [bind]. unfold make_pddl, make_from. cbn [lgp ds_constants ds_ops ds_derived].
    rewrite (build_plain _ (create_full _) _ _ (ps_goal b)); [|reflexivity|repeat constructor|constructor|exact (wf_supported _ _ _ (lp_goal _ Lp))]. cbn [bind].
    assert (E : consistent_state (create_object_map ([table] ++ ps_objects b)) [] (l_cascade L) (l_rounds L)
      (initial_state (ps_init b), no_store) = Ok (initial_state (ps_init b), no_store)).
    { destruct (l_rounds L); [lia|]. reflexivity. }
    rewrite E. destruct aa; cbn [bind]; eexists; split; reflexivity.
  Qed.
End Load.

Section Problem.
  Context (b : problem_syntax) (Lp : lgp_problem b) (s0 : state).
  Notation objs := (table :: ps_objects b).
  Notation p := (lgp_pddl b s0).

  Lemma objs_types : Forall (fun o => In (otype o) lgp_types) objs.
  Proof. constructor; [cbn; auto|]. apply (lp_types _ Lp). Qed.
  Lemma lgp_ordinary n : In n ["inhand"; "on"; "inworkspace"] -> ordinary objs n.
  Proof.
    intros I. split; [intros ->; cbn in I; intuition discriminate|].
    intros (o & Io & [->|It]); [cbn in I; intuition discriminate|].
    pose proof objs_types as F. rewrite Forall_forall in F. specialize (F o Io). cbn in F.
    destruct F as [E|[E|[E|[E|[]]]]]; rewrite <- E in It; cbn in It, I; intuition (subst; discriminate).
  Qed.
  Lemma lgp_arity_ok n args : In n ["inhand"; "on"; "inworkspace"] -> arity_ok objs n args.
  Proof.
    intros I. destruct (lgp_ordinary n I) as [N T]. split; intros; [contradiction|]. contradiction.
  Qed.
  Lemma equal_arity_ok x y : arity_ok objs "=" [x; y].
  Proof. split; [auto|congruence]. Qed.

  Lemma objects_few ty : length (objects_of objs ty) <= 1290.
  Proof.
    assert (F : forall l : list object, length (objects_of l ty) <= length l).
    { unfold objects_of. induction l as [|x l IH]; cbn; [lia|]. destruct (_ || _); cbn; lia. }
    specialize (F objs). pose proof (lp_few _ Lp). cbn [length] in F. lia.
  Qed.
  Lemma count_few vars : length vars <= 3 -> (tuple_count objs vars < 2 ^ 31)%Z.
  Proof.
    intros Ln. assert (H : forall vs, (0 <= tuple_count objs vs <= 1290 ^ Z.of_nat (length vs))%Z).
    { induction vs as [|v vs IH]; [cbn; lia|]. unfold tuple_count in *. cbn [map product length].
      rewrite Nat2Z.inj_succ, Z.pow_succ_r by lia. pose proof (objects_few (type_name (otype v))). nia. }
    specialize (H vars). assert ((1290 ^ Z.of_nat (length vars) <= 1290 ^ 3)%Z) by (apply Z.pow_le_mono_r; lia).
    change (1290 ^ 3)%Z with 2146689000%Z in H0. change (2 ^ 31)%Z with 2147483648%Z. lia.
  Qed.

  Ltac lgp_wf := repeat first
    [ apply lgp_arity_ok; cbn; tauto | apply equal_arity_ok | apply count_few; cbn; lia | discriminate | exact Logic.I
    | (unfold arg_ok; cbn; tauto) | apply Forall_cons | apply Forall_nil | split ].

  Lemma lgp_ops_good : Forall (good_op objs lgp_arity) [pick; place; push].
  Proof.
    repeat apply Forall_cons; try apply Forall_nil; constructor.
    all: try (repeat constructor; cbn; intuition discriminate).
    all: try (cbn -[tuple_count Z.pow arity_ok]; lgp_wf).
  Qed.
  Lemma lgp_pre_good : Forall (fun o => wf_goal objs (map oname (op_params o)) (op_pre o)) [pick; place; push].
  Proof. repeat apply Forall_cons; try apply Forall_nil; cbn -[tuple_count Z.pow arity_ok]; lgp_wf. Qed.

  Lemma lgp_good L : some_limits L -> good_domain L p lgp_arity (fun _ => 0) (fun _ => 0).
  Proof.
    intros (L1 & L2 & _). constructor.
    - reflexivity.
    - pose proof objs_types as F. eapply Forall_impl; [|exact F]. cbn. intros o I. destruct (otype o);
      destruct I as [E|[E|[E|[E|[]]]]]; rewrite <- E; (split; [repeat constructor; cbn; intuition discriminate|reflexivity]).
    - exact (lp_names _ Lp).
    - exact lgp_ops_good.
    - exact lgp_pre_good.
    - constructor.
    - intros i a N. destruct i; discriminate.
    - cbn. intros. lia.
    - intros d [].
    - constructor.
    - intros d d' [].
    - exact L1.
    - split; [exact L2|intros d []].
    - exact (lp_goal _ Lp).
  Qed.

  Lemma lgp_words : Forall (fun o => (tuple_count (pd_symbols p) (op_params o) < 2 ^ 31)%Z) (pd_ops p) /\ pd_actions p <> [] /\
    Forall word (map oname (pd_symbols p)) /\ Forall (fun o => free_of "("%char (op_name o)) (pd_ops p) /\
    NoDup (map op_name (pd_ops p)) /\ ordinary_domain p.
  Proof.
    split; [|split; [|split; [|split; [|split]]]].
    - repeat apply Forall_cons; try apply Forall_nil; apply count_few; cbn; lia.
    - discriminate.
    - cbn. constructor; [|exact (lp_words _ Lp)]. split; [discriminate|].
      intros c I [->|J]; cbn in I; [intuition discriminate|]. cbn in J. intuition (subst; discriminate).
    - repeat apply Forall_cons; try apply Forall_nil; intros I; cbn in I; intuition discriminate.
    - repeat constructor; cbn; intuition discriminate.
    - split; [|intros a []]. intros o I sg J. apply lgp_ordinary. cbn in I. destruct I as [<-|[<-|[<-|[]]]]; cbn in J;
        intuition (subst; cbn; tauto).
  Qed.

  (** ** Names and objects *)
  Lemma thing_of o : In o objs -> has_type o "physobj" -> thing b (oname o).
  Proof. intros [<-|I] [T|T]; try discriminate; [left; reflexivity|]. right. exists o. auto. Qed.
  Lemma movable_of o : In o objs -> has_type o "movable" -> movable b (oname o).
  Proof. intros [<-|I] [T|T]; try discriminate; [cbn in T; intuition discriminate|]. exists o. auto. Qed.
  Lemma of_thing x : thing b x -> exists o, In o objs /\ oname o = x /\ has_type o "physobj".
  Proof.
    intros [->|(o & I & E & T)]; [exists table|exists o]; (split; [cbn; auto|]); (split; [auto|]); right; cbn; auto.
  Qed.
  Lemma of_movable x : movable b x -> exists o, In o objs /\ oname o = x /\ has_type o "movable".
  Proof. intros (o & I & E & T). exists o. split; [right; auto|]. split; auto. right; auto. Qed.
  Lemma movable_thing x : movable b x -> thing b x.
  Proof.
    intros (o & I & E & T). right. exists o. split; auto. split; auto. pose proof (lp_types _ Lp) as F.
    rewrite Forall_forall in F. specialize (F o I). cbn in F.
    destruct F as [Q|[Q|[Q|[Q|[]]]]]; rewrite <- Q in *; cbn in *; intuition discriminate.
  Qed.

  (** ** What the actions change and ask for *)
  Lemma typed1 v args : well_typed objs [v] args -> exists x, args = [x] /\ In x objs /\ has_type x (type_name (otype v)).
  Proof. intros W. inversion W as [|x ? l ? [I T] W']; subst. inversion W'; subst. eauto. Qed.

  Lemma pick_affects a S pos f : affects p pick [a] S pos f <->
    (pos = true /\ f = inhand (oname a)) \/ (pos = false /\ exists x, thing b x /\ f = on (oname a) x).
  Proof.
    unfold affects. change (pd_symbols p) with objs. cbn [op_effs op_params pick]. rewrite eff_lit_eq. split.
    - intros [(vs & e & [[= <- <-]|[]] & xs & W & K)|[(q & I & _ & ->)|(? & ? & [] & _)]].
      + apply typed1 in W as (x & -> & I & T). rewrite eff_lit_eq in K.
        destruct K as [(? & ? & [] & _)|[(q & J & _ & ->)|(? & ? & [] & _)]].
        destruct pos; [destruct J|]. destruct J as [<-|[]]. right. split; auto. exists (oname x).
        split; [apply thing_of; auto|reflexivity].
      + destruct pos; [|destruct I]. destruct I as [<-|[]]. left. split; reflexivity.
    - intros [(-> & ->)|(-> & x & T & ->)].
      + right. left. eexists. split; [left; reflexivity|]. split; [apply lgp_ordinary; cbn; auto|reflexivity].
      + left. do 2 eexists. split; [left; reflexivity|]. apply of_thing in T as (o & I & <- & T). exists [o].
        split; [constructor; [split; auto|constructor]|]. rewrite eff_lit_eq. right. left. eexists.
        split; [left; reflexivity|]. split; [apply lgp_ordinary; cbn; auto|reflexivity].
  Qed.
  Lemma place_affects a x S pos f : affects p place [a; x] S pos f <->
    (pos = true /\ f = on (oname a) (oname x)) \/ (pos = false /\ f = inhand (oname a)).
  Proof.
    unfold affects. change (pd_symbols p) with objs. cbn [op_effs op_params place]. rewrite eff_lit_eq. split.
    - intros [(? & ? & [] & _)|[(q & I & _ & ->)|(? & ? & [] & _)]].
      destruct pos; destruct I as [<-|[]]; [left|right]; split; reflexivity.
    - intros [(-> & ->)|(-> & ->)]; right; left; eexists; (split; [left; reflexivity|]);
        (split; [apply lgp_ordinary; cbn; auto|reflexivity]).
  Qed.
  Lemma push_affects a x y S pos f : affects p push [a; x; y] S pos f <-> pos = true /\ f = inworkspace (oname x).
  Proof.
    unfold affects. change (pd_symbols p) with objs. cbn [op_effs op_params push]. rewrite eff_lit_eq. split.
    - intros [(? & ? & [] & _)|[(q & I & _ & ->)|(? & ? & [] & _)]].
      destruct pos; [|destruct I]. destruct I as [<-|[]]. split; reflexivity.
    - intros (-> & ->). right. left. eexists. split; [left; reflexivity|]. split; [apply lgp_ordinary; cbn; auto|reflexivity].
  Qed.

  Lemma pick_enabled args (S : atom -> Prop) : enabled p pick args S <-> exists a, args = [a] /\ In a objs /\ has_type a "movable" /\
    (forall x, movable b x -> ~ S (inhand x)) /\ S (inworkspace (oname a)).
  Proof.
    unfold enabled. change (pd_symbols p) with objs. split.
    - intros (_ & W & P). apply typed1 in W as (a & -> & I & T). exists a. split; auto. split; auto. split; auto.
      destruct P as (P1 & P2 & _). split.
      + intros x M K. apply of_movable in M as (o & Io & <- & To).
        apply (P1 [o]); [constructor; [split; auto|constructor]|]. apply atom_plain; [apply lgp_ordinary; cbn; auto|]. exact K.
      + apply atom_plain in P2; [exact P2|apply lgp_ordinary; cbn; auto].
    - intros (a & -> & I & T & P1 & P2). split; [left; reflexivity|]. split; [constructor; [split; auto|constructor]|].
      split; [|split; [|exact Logic.I]].
      + intros os W K. apply typed1 in W as (o & -> & Io & To). apply atom_plain in K; [|apply lgp_ordinary; cbn; auto].
        apply (P1 (oname o)); [apply movable_of; auto|exact K].
      + apply atom_plain; [apply lgp_ordinary; cbn; auto|exact P2].
  Qed.
  Lemma place_enabled args (S : atom -> Prop) : enabled p place args S <-> exists a x, args = [a; x] /\
    (In a objs /\ has_type a "movable") /\ (In x objs /\ has_type x "physobj") /\
    oname a <> oname x /\ S (inhand (oname a)) /\ S (inworkspace (oname x)).
  Proof.
    unfold enabled. change (pd_symbols p) with objs. split.
    - intros (_ & W & P). inversion W as [|a ? l ? A W']; subst. inversion W' as [|x ? l' ? X W'']; subst. inversion W''; subst.
      exists a, x. split; auto. split; [exact A|]. split; [exact X|]. destruct P as (P1 & P2 & P3 & _). split; [|split].
      + intros E. apply P1. apply atom_equal. exact E.
      + apply atom_plain in P2; [exact P2|apply lgp_ordinary; cbn; auto].
      + apply atom_plain in P3; [exact P3|apply lgp_ordinary; cbn; auto].
    - intros (a & x & -> & A & X & N & P2 & P3). split; [right; left; reflexivity|]. split; [repeat (constructor; auto)|].
      split; [|split; [|split; [|exact Logic.I]]].
      + intros E. apply N. apply atom_equal in E. exact E.
      + apply atom_plain; [apply lgp_ordinary; cbn; auto|exact P2].
      + apply atom_plain; [apply lgp_ordinary; cbn; auto|exact P3].
  Qed.
  Lemma push_enabled args (S : atom -> Prop) : enabled p push args S <-> exists a x y, args = [a; x; y] /\
    (In a objs /\ has_type a "movable") /\ (In x objs /\ has_type x "movable") /\ (In y objs /\ has_type y "physobj") /\
    oname a <> oname x /\ oname a <> oname y /\ oname x <> oname y /\
    S (inhand (oname a)) /\ S (on (oname x) (oname y)) /\ S (inworkspace (oname y)).
  Proof.
    unfold enabled. change (pd_symbols p) with objs. split.
    - intros (_ & W & P). inversion W as [|a ? l ? A W']; subst. inversion W' as [|x ? l' ? X W'']; subst.
      inversion W'' as [|y ? l'' ? Y W3]; subst. inversion W3; subst.
      exists a, x, y. split; auto. split; [exact A|]. split; [exact X|]. split; [exact Y|].
      destruct P as (P1 & P2 & P3 & P4 & P5 & P6 & _). split; [|split; [|split; [|split; [|split]]]].
      + intros E. apply P1. apply atom_equal. exact E.
      + intros E. apply P2. apply atom_equal. exact E.
      + intros E. apply P3. apply atom_equal. exact E.
      + apply atom_plain in P4; [exact P4|apply lgp_ordinary; cbn; auto].
      + apply atom_plain in P5; [exact P5|apply lgp_ordinary; cbn; auto].
      + apply atom_plain in P6; [exact P6|apply lgp_ordinary; cbn; auto].
    - intros (a & x & y & -> & A & X & Y & N1 & N2 & N3 & P4 & P5 & P6). split; [right; right; left; reflexivity|].
      split; [repeat (constructor; auto)|]. split; [|split; [|split; [|split; [|split; [|split; [|exact Logic.I]]]]]].
      + intros E. apply N1. apply atom_equal in E. exact E.
      + intros E. apply N2. apply atom_equal in E. exact E.
      + intros E. apply N3. apply atom_equal in E. exact E.
      + apply atom_plain; [apply lgp_ordinary; cbn; auto|exact P4].
      + apply atom_plain; [apply lgp_ordinary; cbn; auto|exact P5].
      + apply atom_plain; [apply lgp_ordinary; cbn; auto|exact P6].
  Qed.

  Lemma lgp_orderly S0 : orderly p S0.
  Proof.
    constructor.
    - reflexivity.
    - intros o _ a [].
    - apply (proj2 (proj2 (proj2 (proj2 (proj2 lgp_words))))).
    - intros o args S _ (I & _) a pos R _. cbn in I. destruct I as [<-|[<-|[<-|[]]]]; cbn in R.
      + destruct R as [[(? & _ & [[]|[]])|[]]|[]].
      + tauto.
      + tauto.
    - intros o args S _ En f [A1 A2]. pose proof En as [I _]. cbn in I. destruct I as [<-|[<-|[<-|[]]]].
      + apply pick_enabled in En as (a & -> & _). apply pick_affects in A1 as [(_ & ->)|([=] & _)].
        apply pick_affects in A2 as [([=] & _)|(_ & x & _ & [=])].
      + apply place_enabled in En as (a & x & -> & _). apply place_affects in A1 as [(_ & ->)|([=] & _)].
        apply place_affects in A2 as [([=] & _)|(_ & [=])].
      + apply push_enabled in En as (a & x & y & -> & _). apply push_affects in A2 as ([=] & _).
  Qed.

  (** ** The world *)
  Lemma turns_moves o args (S S' : atom -> Prop) : enabled p o args S -> turns_into p o args S S' ->
    moves b (op_name o) (map oname args) S S'.
  Proof.
    intros En T. pose proof En as [I _]. cbn in I. destruct I as [<-|[<-|[<-|[]]]].
    - apply pick_enabled in En as (a & -> & Ia & Ta & P1 & P2). apply mv_pick; auto; [apply movable_of; auto|].
      intros f. rewrite (T f), !pick_affects. split.
      + intros [[(_ & ->)|([=] & _)]|[Sf N]]; [left; reflexivity|]. right. split; auto. intros x Tx E. apply N. right. eauto.
      + intros [->|[Sf N]]; [left; left; auto|]. right. split; auto. intros [([=] & _)|(_ & x & Tx & E)]. apply (N x Tx E).
    - apply place_enabled in En as (a & x & -> & [Ia Ta] & [Ix Tx] & N & P2 & P3).
      apply mv_place; auto; [apply movable_of; auto|apply thing_of; auto|].
      intros f. rewrite (T f), !place_affects. split.
      + intros [[(_ & ->)|([=] & _)]|[Sf K]]; [left; reflexivity|]. right. split; auto.
      + intros [->|[Sf K]]; [left; left; auto|]. right. split; auto. intros [([=] & _)|(_ & E)]. auto.
    - apply push_enabled in En as (a & x & y & -> & [Ia Ta] & [Ix Tx] & [Iy Ty] & N1 & N2 & N3 & P4 & P5 & P6).
      apply mv_push; auto; [apply movable_of; auto|apply movable_of; auto|apply thing_of; auto|].
      intros f. rewrite (T f), !push_affects. split.
      + intros [(_ & ->)|[Sf K]]; auto.
      + intros [->|Sf]; [left; auto|]. right. split; auto. intros ([=] & _).
  Qed.
  Lemma moves_turns n ws (S S' : atom -> Prop) : moves b n ws S S' ->
    exists o args, op_name o = n /\ map oname args = ws /\ enabled p o args S /\ turns_into p o args S S'.
  Proof.
    intros M. destruct M as [a S S' Ma P1 P2 T|a x S S' Ma Tx N P2 P3 T|a x y S S' Ma Mx Ty N1 N2 N3 P4 P5 P6 T].
    - apply of_movable in Ma as (oa & Ia & <- & Ta). exists pick, [oa]. split; [reflexivity|]. split; [reflexivity|].
      split; [apply pick_enabled; exists oa; auto|]. intros f. rewrite (T f), !pick_affects. split.
      + intros [->|[Sf N]]; [left; left; auto|]. right. split; auto. intros [([=] & _)|(_ & x & Tx & E)]. apply (N x Tx E).
      + intros [[(_ & ->)|([=] & _)]|[Sf N]]; [left; reflexivity|]. right. split; auto. intros x Tx E. apply N. right. eauto.
    - apply of_movable in Ma as (oa & Ia & <- & Ta). apply of_thing in Tx as (ox & Ix & <- & Tx).
      exists place, [oa; ox]. split; [reflexivity|]. split; [reflexivity|].
      split; [apply place_enabled; exists oa, ox; auto 12|]. intros f. rewrite (T f), !place_affects. split.
      + intros [->|[Sf K]]; [left; left; auto|]. right. split; auto. intros [([=] & _)|(_ & E)]. auto.
      + intros [[(_ & ->)|([=] & _)]|[Sf K]]; [left; reflexivity|]. right. split; auto.
    - apply of_movable in Ma as (oa & Ia & <- & Ta). apply of_movable in Mx as (ox & Ix & <- & Tx).
      apply of_thing in Ty as (oy & Iy & <- & Ty).
      exists push, [oa; ox; oy]. split; [reflexivity|]. split; [reflexivity|].
      split; [apply push_enabled; exists oa, ox, oy; auto 14|]. intros f. rewrite (T f), !push_affects. split.
      + intros [->|Sf]; [left; auto|]. right. split; auto. intros ([=] & _).
      + intros [(_ & ->)|[Sf K]]; auto.
  Qed.

  Lemma moves_tidy n ws (S S' : atom -> Prop) : moves b n ws S S' -> tidy b S -> tidy b S' /\
    (forall x, S (inworkspace x) -> S' (inworkspace x)).
  Proof.
    intros M [H1 H2 H3 H4 H5].
    destruct M as [a S S' Ma P1 P2 T|a x S S' Ma Tx N P2 P3 T|a x y S S' Ma Mx Ty N1 N2 N3 P4 P5 P6 T].
    - assert (Nh : forall z, ~ S (inhand z)) by (intros z K; apply (P1 z); auto; apply H1; auto).
      assert (Hand : forall z, S' (inhand z) -> z = a).
      { intros z K. apply T in K as [[= ->]|[K _]]; [reflexivity|]. destruct (Nh z K). }
      assert (On : forall z w, S' (on z w) <-> S (on z w) /\ z <> a).
      { intros z w. rewrite T. split.
        - intros [[=]|[K N]]. split; auto. intros ->. apply (N w); auto. apply (H3 _ _ K).
        - intros [K N]. right. split; auto. intros v _ [= E _]. auto. }
      assert (W : forall z, S (inworkspace z) -> S' (inworkspace z)).
      { intros z K. apply T. right. split; auto. intros v _ [=]. }
      split; [|exact W]. constructor.
      + intros z K. apply Hand in K as ->. split; auto. split; [apply W; auto|]. intros y K. apply On in K as [_ K]. auto.
      + intros z w Kz Kw. rewrite (Hand z Kz), (Hand w Kw). reflexivity.
      + intros z w K. apply On in K as [K _]. apply H3; auto.
      + intros z w v K K'. apply On in K as [K _]. apply On in K' as [K' _]. eapply H4; eauto.
      + intros z Mz. destruct (string_dec z a) as [->|Na]; [left; apply T; left; reflexivity|].
        destruct (H5 z Mz) as [K|(w & K)]; [destruct (Nh z K)|]. right. exists w. apply On. auto.
    - assert (Hand : forall z, ~ S' (inhand z)).
      { intros z K. apply T in K as [[=]|[K Ne]]. apply Ne. rewrite (H2 z a K P2). reflexivity. }
      assert (On : forall z w, S' (on z w) <-> (z = a /\ w = x) \/ S (on z w)).
      { intros z w. rewrite T. split.
        - intros [[= -> ->]|[K _]]; auto.
        - intros [(-> & ->)|K]; [left; reflexivity|]. right. split; auto. intros [=]. }
      assert (Off : forall w, ~ S (on a w)) by (apply H1; auto).
      split; [|intros z K; apply T; right; split; [exact K|intros [=]]]. constructor.
      + intros z K. destruct (Hand z K).
      + intros z w K. destruct (Hand z K).
      + intros z w K. apply On in K as [(-> & ->)|K]; [auto|apply H3; auto].
      + intros z w v K K'. apply On in K as [(-> & ->)|K]; apply On in K' as [(E1 & E2)|K'].
        * auto.
        * destruct (Off v K').
        * subst. destruct (Off w K).
        * eapply H4; eauto.
      + intros z Mz. right. destruct (H5 z Mz) as [K|(w & K)].
        * rewrite (H2 z a K P2). exists x. apply On. auto.
        * exists w. apply On. auto.
    - assert (Hand : forall z, S' (inhand z) <-> S (inhand z)).
      { intros z. rewrite T. split; [intros [[=]|K]; auto|auto]. }
      assert (On : forall z w, S' (on z w) <-> S (on z w)).
      { intros z w. rewrite T. split; [intros [[=]|K]; auto|auto]. }
      assert (W : forall z, S (inworkspace z) -> S' (inworkspace z)) by (intros z K; apply T; auto).
      split; [|exact W]. constructor.
      + intros z K. apply Hand in K. destruct (H1 z K) as (A & B & C). split; auto. split; auto.
        intros w Kw. apply On in Kw. apply (C w Kw).
      + intros z w Kz Kw. apply H2; apply Hand; auto.
      + intros z w K. apply H3, On, K.
      + intros z w v K K'. apply (H4 z); apply On; auto.
      + intros z Mz. destruct (H5 z Mz) as [K|(w & K)]; [left; apply Hand; auto|right; exists w; apply On; auto].
  Qed.

  Lemma table_fixed x : movable b x -> x <> "table".
  Proof.
    intros (o & I & <- & _) E. pose proof (lp_names _ Lp) as N. inversion N as [|? ? H _]; subst. apply H. rewrite <- E.
    apply in_map. exact I.
  Qed.
  Lemma tidy_moves (t : aset) x : tidy b (set_of t) -> t (inworkspace "table") = true -> movable b x -> t (inworkspace x) = true ->
    exists n ws S', moves b n ws (set_of t) S'.
  Proof.
    intros Td Ht Mx Hx. destruct (find (fun o => t (inhand (oname o))) (ps_objects b)) as [o|] eqn:F.
    - apply find_some in F as [I H]. destruct (td_held _ _ Td _ H) as (Mo & _).
      exists "place", [oname o; "table"], (fun f => f = on (oname o) "table" \/ (t f = true /\ f <> inhand (oname o))).
      apply mv_place; auto; [left; reflexivity|apply table_fixed; auto|intros f; reflexivity].
    - exists "pick", [x], (fun f => f = inhand x \/ (t f = true /\ forall y, thing b y -> f <> on x y)).
      apply mv_pick; auto; [|intros f; reflexivity]. intros y (o & I & <- & _) K. pose proof (find_none _ _ F o I) as N.
      cbn in N. unfold set_of in K. congruence.
  Qed.
End Problem.

(** ** Calls *)
Lemma calls_names p call o args : calls p call o args -> call_text call (op_name o) (map oname args).
Proof.
  intros (n & ws & T & Fo & Fa & _). destruct (first_named_In _ _ _ _ Fo) as [_ <-]. replace (map oname args) with ws; auto.
  clear -Fa. induction Fa as [|w a ws args F _ IH]; [reflexivity|]. cbn. destruct (first_named_In _ _ _ _ F) as [_ <-]. congruence.
Qed.
Lemma names_calls p call o args : NoDup (map op_name (pd_ops p)) -> NoDup (map oname (pd_symbols p)) ->
  In o (pd_ops p) -> well_typed (pd_symbols p) (op_params o) args -> call_text call (op_name o) (map oname args) ->
  calls p call o args.
Proof.
  intros No Ns I W T. exists (op_name o), (map oname args). split; auto. split; [apply first_named_unique; auto|].
  clear -Ns W. split; induction W as [|q x ps args [Hx Ix] W IH]; cbn; constructor; auto. apply first_named_unique; auto.
Qed.
Lemma call_text_same call n ws n' ws' : call_text call n ws -> call_text call n' ws' -> n = n' /\ ws = ws'.
Proof. intros A B. apply call_text_iff in A as [-> ->]. apply call_text_iff in B as [-> ->]. auto. Qed.

Section Steps.
  Context `{SH : StdHash}.
  Context (b : problem_syntax) (Lp : lgp_problem b) (s0 : state) (L : limits) (HL : some_limits L).
  Notation p := (lgp_pddl b s0).
  Notation reachable := (reachable_store (pd_symbols p) lgp_arity (pd_axioms p)).
  Let G : good_domain L p lgp_arity (fun _ => 0) (fun _ => 0) := lgp_good b Lp s0 L HL.

  Lemma valid_moves s call : built s -> (is_valid_action p s call = Ok true <->
    exists n ws S', call_text call n ws /\ moves b n ws (atoms s) S').
  Proof.
    intros B. pose proof (set_in_represents _ B) as R. destruct (action_valid_spec L p _ _ _ G s _ call R) as [-> _].
    assert (Same : forall a, set_of (set_in s) a <-> atoms s a) by (intros a; symmetry; apply R). split.
    - intros (o & args & C & P). destruct (calls_typed _ _ _ _ C) as [I W].
      assert (En : enabled p o args (atoms s)).
      { eapply enabled_same; [exact Same|]. exact (conj I (conj W P)). }
      exists (op_name o), (map oname args), (fun a => affects p o args (atoms s) true a \/ (atoms s a /\ ~ affects p o args (atoms s) false a)).
      split; [apply (calls_names p); auto|]. apply (turns_moves b Lp s0); auto. intros a. reflexivity.
    - intros (n & ws & S' & T & M). apply (moves_turns b Lp s0) in M as (o & args & <- & <- & En & _).
      exists o, args. pose proof En as (I & W & _). split.
      + apply names_calls; auto; [apply (lgp_words b Lp s0)|apply (lp_names _ Lp)].
      + apply (enabled_same p o args _ (set_of (set_in s))) in En; [apply En|]. intros a. symmetry. apply Same.
  Qed.
  Lemma next_moves s st call : built s -> reachable st -> is_valid_action p s call = Ok true ->
    exists s' st', next_state L p call (s, st) = Ok (s', st') /\ built s' /\ reachable st' /\
      forall n ws, call_text call n ws -> moves b n ws (atoms s) (atoms s').
  Proof.
    intros B Rs V. pose proof (set_in_represents _ B) as R. apply (action_valid_spec L p _ _ _ G s _ call R) in V as (o & args & C & P).
    destruct (calls_typed _ _ _ _ C) as [I W].
    assert (En : enabled p o args (atoms s)).
    { apply (enabled_same p o args (set_of (set_in s))); [intros a; symmetry; apply R|]. exact (conj I (conj W P)). }
    destruct (C76_next_lemma L p _ _ _ G (atoms s) (lgp_orderly b Lp s0 _) call o args s st B Rs C) as (s' & st' & E & Rs' & B' & T); auto.
    { apply at_start. tauto. }
    exists s', st'. split; auto. split; auto. split; auto. intros n ws Ct.
    destruct (call_text_same _ _ _ _ _ Ct (calls_names _ _ _ _ C)) as [-> ->]. apply (turns_moves b Lp s0); auto.
  Qed.

  Lemma legal_tidy w w' : legal L p w w' -> built (fst w) -> reachable (snd w) -> tidy b (atoms (fst w)) ->
    built (fst w') /\ reachable (snd w') /\ tidy b (atoms (fst w')) /\
    forall x, atoms (fst w) (inworkspace x) -> atoms (fst w') (inworkspace x).
  Proof.
    induction 1 as [|w call w1 w2 V N _ IH]; intros B Rs Td; [split; [|split; [|split]]; auto|]. destruct w as [s st]. cbn [fst snd] in *.
    destruct (next_moves s st call B Rs V) as (s' & st' & E & B' & Rs' & M). rewrite E in N. injection N as <-.
    apply valid_moves in V as (n & ws & S' & T & _); auto.
    destruct (moves_tidy b n ws _ _ (M _ _ T) Td) as [Td' Wk].
    destruct (IH B' Rs' Td') as (B2 & R2 & T2 & W2). cbn [fst snd] in *. split; [|split; [|split]]; auto.
  Qed.
  Lemma moves_same n ws (S U S' : atom -> Prop) : (forall f, S f <-> U f) -> moves b n ws S S' -> moves b n ws U S'.
  Proof.
    intros E M. destruct M as [a S S' Ma P1 P2 T|a x S S' Ma Tx N P2 P3 T|a x y S S' Ma Mx Ty N1 N2 N3 P4 P5 P6 T].
    - apply mv_pick; auto; [|apply E; auto|].
      + intros x Mx K. apply (P1 x Mx). apply E, K.
      + intros f. rewrite (T f), (E f). reflexivity.
    - apply mv_place; auto; try (apply E; auto). intros f. rewrite (T f), (E f). reflexivity.
    - apply mv_push; auto; try (apply E; auto). intros f. rewrite (T f), (E f). reflexivity.
  Qed.
  Lemma tidy_same (S U : atom -> Prop) : (forall f, S f <-> U f) -> tidy b S -> tidy b U.
  Proof.
    intros E [H1 H2 H3 H4 H5]. constructor.
    - intros x K. apply E in K. destruct (H1 x K) as (A & B & C). split; auto. split; [apply E, B|]. intros y Ky. apply E in Ky.
      apply (C y Ky).
    - intros x y K K'. apply H2; apply E; auto.
    - intros x y K. apply H3, E, K.
    - intros x y z K K'. apply (H4 x); apply E; auto.
    - intros x M. destruct (H5 x M) as [K|(y & K)]; [left; apply E, K|right; exists y; apply E, K].
  Qed.
  Lemma tidy_live s x : built s -> tidy b (atoms s) -> atoms s (inworkspace "table") -> movable b x -> atoms s (inworkspace x) ->
    exists n ws S', moves b n ws (atoms s) S'.
  Proof.
    intros B Td Ht Mx Hx. pose proof (set_in_represents _ B) as [_ R].
    destruct (tidy_moves b Lp (set_in s) x) as (n & ws & S' & M).
    - apply (tidy_same (atoms s)); auto.
    - apply R, Ht.
    - exact Mx.
    - apply R, Hx.
    - exists n, ws, S'. eapply moves_same; [|exact M]. intros f. symmetry. apply R.
  Qed.
  (** Some call is valid: moves have printable arguments. *)
  Lemma moves_word n ws (S S' : atom -> Prop) : moves b n ws S S' -> exists call, call_text call n ws.
  Proof.
    intros M. apply (moves_turns b Lp s0) in M as (o & args & <- & <- & (I & W & _) & _).
    destruct (lgp_words b Lp s0) as (_ & _ & H1 & H2 & H3 & _).
    exists (action_to_string o args). apply (calls_names p). apply (printed_calls L p _ _ _ G); auto.
  Qed.
  Lemma tidy_valid s x : built s -> tidy b (atoms s) -> atoms s (inworkspace "table") -> movable b x -> atoms s (inworkspace x) ->
    exists call, is_valid_action p s call = Ok true.
  Proof.
    intros B Td Ht Mx Hx. destruct (tidy_live s x B Td Ht Mx Hx) as (n & ws & S' & M).
    destruct (moves_word _ _ _ _ M) as (call & T). exists call. apply valid_moves; auto. eauto.
  Qed.

  (** ** Plans *)
  Definition names (x : op * list object) : string * list string := (op_name (fst x), map oname (snd x)).
  Lemma carries_same l (S U : atom -> Prop) : (forall f, S f <-> U f) -> forall S', carries b l S S' -> carries b l U S'.
  Proof.
    intros E S' C. destruct C as [S S' H|n ws l S S1 S2 M C].
    - apply ca_none. intros f. rewrite <- (E f). apply H.
    - eapply ca_move; [eapply moves_same; eauto|exact C].
  Qed.
  Lemma solves_carries l (S : atom -> Prop) : solves p l S ->
    exists S', carries b (map names l) S S' /\ holds (pd_symbols p) S' no_env (ps_goal b).
  Proof.
    induction 1 as [S H|o args l S S' En T _ (U & C & H)].
    - exists S. split; auto. apply ca_none. reflexivity.
    - exists U. split; auto. cbn. eapply ca_move; [|exact C]. apply (turns_moves b Lp s0); auto.
  Qed.
  Lemma carries_solves cs (S S' : atom -> Prop) : carries b cs S S' -> holds (pd_symbols p) S' no_env (ps_goal b) ->
    exists l, map names l = cs /\ solves p l S.
  Proof.
    induction 1 as [S S' E|n ws l S S1 S2 M _ IH]; intros H.
    - exists []. split; [reflexivity|]. eapply solves_same; [intros a; symmetry; apply E|]. apply so_goal, H.
    - apply (moves_turns b Lp s0) in M as (o & args & <- & <- & En & T). destruct (IH H) as (l' & <- & Sl).
      exists ((o, args) :: l'). split; [reflexivity|]. eapply so_step; eauto.
  Qed.
  Lemma printed_names l (S : atom -> Prop) : solves p l S -> map names l = map (fun c => (parse_head c, tokenize c)) (printed l).
  Proof.
    intros H. destruct (lgp_words b Lp s0) as (_ & _ & H1 & H2 & H3 & _).
    pose proof (solves_calls L p _ _ _ G H1 H2 H3 l S H) as F. clear -F. unfold printed in *.
    induction l as [|x l IH]; [reflexivity|]. cbn [map] in *. inversion F as [|? ? ? ? C F']; subst. rewrite IH by auto. f_equal.
    apply calls_names in C. apply call_text_iff in C as [E1 E2]. unfold names. rewrite E1, E2. reflexivity.
  Qed.
End Steps.

(** A shortest solution has no detours. *)
Section Shortest.
  Context (p : pddl).
  Lemma shortest_straight l : forall (S : atom -> Prop) seen, solves p l S ->
    (forall l', solves p l' S -> length l <= length l') ->
    (forall U l', In U seen -> solves p l' U -> length l < length l') ->
    Forall (fun x => op_is_axiom (fst x) = false /\ op_params (fst x) <> []) l ->
    straight p seen l S.
  Proof.
    induction l as [|[o args] l IH]; intros S seen H Least Far F.
    - inversion H; subst. apply sr_goal; auto.
    - inversion H as [|? ? ? ? S' En T H']; subst. inversion F as [|? ? [F1 F2] F']; subst. cbn [fst snd] in *.
      assert (Far' : forall U l', In U (S :: seen) -> solves p l' U -> length l < length l').
      { intros U l' [<-|I] K; [apply (Least l' K)|]. specialize (Far U l' I K). cbn in Far. lia. }
      eapply sr_step; eauto.
      + intros K. specialize (Least [] (so_goal p S K)). cbn in Least. lia.
      + intros U I E. assert (K : solves p l U) by (eapply solves_same; [|exact H']; intros a; symmetry; apply E).
        specialize (Far' U l I K). lia.
      + apply IH; auto. intros l' K. assert (Q : solves p ((o, args) :: l') S) by (eapply so_step; eauto).
        specialize (Least _ Q). cbn in Least. lia.
  Qed.
End Shortest.
Lemma straight_init b s1 s2 seen l S : straight (lgp_pddl b s1) seen l S -> straight (lgp_pddl b s2) seen l S.
Proof.
  induction 1 as [seen S H|seen o args l S S' N A P En T D _ IH]; [apply sr_goal; exact H|].
  eapply sr_step; eauto.
Qed.
