(** Normal forms of formulas over ordinary predicates (C52, C59). *)
From Coq Require Import String List Bool NArith ZArith Arith Lia Permutation.
From Verif.Model Require Import Base Order HashSet Object Proposition State CombinationGenerator
  ParameterGenerator Syntax Formula NormalForm.
From Verif.Spec Require Import SetSpec CartesianSpec TypingSpec FormulaSpec EffectSpec NormalFormSpec ReadingSpec.
From Verif.Proofs Require Import OrderFacts HashSetFacts StateFacts StateHistory CombinationFacts ParameterFacts
  FormulaFacts EffectLink EffectTheorems NormalFormFacts NormalFormGoal NormalFormEffects NormalFormTheorems.
Import ListNotations.
Local Open Scope string_scope.
Local Open Scope list_scope.

Section WithHash.
  Context `{SH : StdHash}.
  Variable objects : list object.
  Hypothesis W : Forall (fun o => wf_type (otype o)) objects.
  Hypothesis ND : NoDup (map oname objects).
  Hypothesis KC : Forall (fun o => okind o = KConst) objects.
  Let om := create_object_map objects.
  Let grd := ground objects (ordinary objects).
  Let V (S : atom -> bool) := truth objects (set_of S).
  Let ET := eval_total objects W ND KC (ordinary objects).
  Let ES := eval_sound objects W ND KC (ordinary objects).
  Let Vv : forall S, Val objects (V S) := fun S => ex_intro _ S eq_refl.

  Lemma eval_not_true c : good grd c -> evaluate om None c <> Ok (Some true).
  Proof.
    intros G E.
    assert (K : forall S, conj_sat (V S) c) by (intros S; apply (ES c (V S) true G (Vv S) E); auto).
    destruct (Nat.eqb_spec (ps_size c) 1) as [Z|Z].
    - destruct G as [Wc G]. rewrite Forall_forall in G.
      destruct (single_lit c Wc Z) as (p & [(_ & E1 & E2)|(_ & E1 & E2)]).
      + destruct (K (fun _ => false)) as [P _]. specialize (P p). rewrite E1 in P. specialize (P (or_introl eq_refl)).
        destruct (G p) as (_ & _ & O); [unfold lits; rewrite E1; left; auto|].
        unfold V, prop_key in P. apply ordinary_truth in P; auto. discriminate.
      + destruct (K (fun _ => true)) as [_ P]. specialize (P p). rewrite E1 in P. specialize (P (or_introl eq_refl)).
        destruct (G p) as (_ & _ & O); [unfold lits; rewrite E1, E2; left; auto|].
        apply P. unfold V, prop_key. apply ordinary_truth; auto. reflexivity.
    - unfold evaluate in E. destruct (Nat.eqb_spec (ps_size c) 1) as [Q|_]; [auto|]. cbn [bind] in E.
      destruct (ps_is_consistent c); discriminate.
  Qed.

  Lemma loop_not_none l : forall ret, Forall (good grd) l -> simplify_loop om None l ret <> Ok None.
  Proof.
    induction l as [|c l IH]; intros ret G; [discriminate|]. inversion G as [|? ? Gc Gl]; subst.
    rewrite loop_step. destruct (ET c Gc) as (v & E). fold om in E. pose proof (eval_not_true c Gc) as N.
    rewrite E in *. cbn [bind]. destruct v as [[|]|]; auto.
  Qed.

  Lemma simplify_empty d : Forall (good grd) d -> simplify om None d = Ok (Some []) <-> d = [].
  Proof.
    intros G. split; [|intros ->; auto]. destruct d as [|c d]; auto. intros E. exfalso.
    unfold simplify in E. pose proof (loop_not_none (c :: d) [] G) as N.
    destruct (simplify_loop om None (c :: d) []) as [[[|x ret]|]| | | |]; cbn [bind] in E; try discriminate; [|auto].
    injection E as E. destruct (sort_unique_covers (x :: ret) x (or_introl eq_refl)) as (y & J & _).
    rewrite E in J. destruct J.
  Qed.

  Lemma disjoin_empty ds : Forall (Forall (good grd)) ds ->
    disjoin om None ds = Ok (Some []) <-> (forall d, In d ds -> d = []).
  Proof.
    intros G. unfold disjoin. rewrite simplify_empty.
    - clear G. induction ds as [|d ds IH]; cbn [concat].
      + split; auto. intros _ d [].
      + split.
        * intros E. apply app_eq_nil in E. destruct E as [-> E]. intros x [<-|I]; auto. apply IH; auto.
        * intros H. rewrite (H d (or_introl eq_refl)). cbn. apply IH. intros x I. apply H. right; auto.
    - rewrite Forall_forall in *. intros c I. apply in_concat in I. destruct I as (d & I & J).
      specialize (G d I). rewrite Forall_forall in G. auto.
  Qed.

  Lemma opts_empty (ds : list dnf) : opts_of ds = [] <-> forall d, In d ds -> d = [].
  Proof.
    unfold opts_of. induction ds as [|d ds IH]; cbn [filter].
    - split; auto. intros _ d [].
    - destruct d as [|c d].
      + rewrite IH. split; [intros H x [<-|I]; auto|intros H x I; apply H; right; auto].
      + split; [discriminate|]. intros H. specialize (H _ (or_introl eq_refl)). discriminate.
  Qed.

  Lemma conjoin_empty ds : Forall (Forall (good grd)) ds -> conjoin om None ds <> OutOfFuel ->
    conjoin om None ds = Ok (Some []) <-> (forall d, In d ds -> d = []).
  Proof.
    intros G. rewrite <- opts_empty. unfold conjoin. fold (opts_of ds).
    destruct (combo_count (opts_of ds) <? 2 ^ 31)%Z eqn:C; [|congruence]. intros _.
    apply Z.ltb_lt in C. destruct (combos_ok ds C) as (combos & E & H).
    destruct (make_gen (opts_of ds)) as [g| | | |]; try discriminate. cbn [bind] in *. rewrite E. cbn [bind].
    rewrite simplify_empty.
    - destruct H as [[-> ->]|[O ->]]; cbn [map]; [tauto|]. split; [|congruence].
      intros Q. apply map_eq_nil in Q. exfalso. revert Q. apply cart_nonempty. rewrite Forall_forall.
      intros d I. unfold opts_of in I. apply filter_In in I. destruct I as [_ I]. intros ->; discriminate.
    - rewrite Forall_forall. intros c I. apply in_map_iff in I. destruct I as (t & <- & I). apply merge_ok.
      destruct H as [[_ ->]|[_ ->]]; [destruct I|]. apply In_cart in I.
      rewrite Forall_forall in *. intros c Ic.
      assert (Q : exists d, In d (opts_of ds) /\ In c d).
      { clear -I Ic. induction I; [destruct Ic|]. destruct Ic as [<-|Ic]; [exists y; cbn; auto|].
        destruct (IHI Ic) as (d & ? & ?). exists d; cbn; auto. }
      destruct Q as (d & Id & Q). unfold opts_of in Id. apply filter_In in Id. destruct Id as [Id _].
      specialize (G d Id). rewrite Forall_forall in G. auto.
  Qed.

  Lemma negate_empty d : norm grd d -> negate om d <> OutOfFuel -> negate om d = Ok (Some []) <-> d = [].
  Proof.
    intros N F. unfold negate in *. rewrite conjoin_empty; auto.
    - split; [|intros ->; cbn; intros x []]. destruct d as [|c d]; auto. intros H. exfalso.
      specialize (H _ (or_introl eq_refl)). destruct N as [_ N]. inversion N as [|? ? [Nc _] _]; subst. apply Nc.
      unfold convert in H. cbn [ps_pos ps_neg] in H. apply app_eq_nil in H. destruct H as [H1 H2].
      apply map_eq_nil in H1. apply map_eq_nil in H2. unfold lits. rewrite H1, H2. auto.
    - destruct N as [G _]. rewrite Forall_forall in *. intros x I. apply in_map_iff in I. destruct I as (c & <- & I).
      apply convert_norm. destruct (G c I) as [[W1 W2] Fc]. split; [split; auto|].
      unfold lits in *. cbn [ps_pos ps_neg].
      rewrite Forall_forall in *. intros p Ip. apply Fc. apply in_app_iff in Ip. apply in_app_iff. tauto.
  Qed.

  (** A normal form that is not false can be satisfied. *)
  Lemma norm_sat d : norm grd d -> exists S, dnf_sat (V S) d.
  Proof.
    intros [G So]. destruct d as [|c d]; [exists (fun _ => true); left; auto|].
    inversion G as [|? ? [[Wp Wn] Gc] _]; subst. inversion So as [|? ? [_ Cc] _]; subst.
    exists (char (ps_pos c)). right. exists c. split; [left; auto|].
    rewrite Forall_forall in Gc. unfold lits in Gc.
    apply ps_consistent_spec in Cc; [|split; auto]. split; intros p I; unfold V.
    - destruct (Gc p) as (_ & _ & Op); [apply in_app_iff; auto|]. unfold prop_key. apply ordinary_truth; auto.
      apply char_spec; auto. apply atoms_mem; auto. apply in_map_iff. exists p; auto.
    - destruct (Gc p) as (_ & _ & Op); [apply in_app_iff; auto|]. unfold prop_key. rewrite ordinary_truth by auto.
      rewrite char_spec, atoms_mem by auto. intros M. apply (Cc _ M). apply in_map_iff. exists p; auto.
  Qed.

  Lemma val_dec S a : V S a \/ ~ V S a.
  Proof. apply (truth_dec objects W (ordinary objects) (V S) (Vv S)). Qed.
  Lemma list_dec' S d : list_sat (V S) d \/ ~ list_sat (V S) d.
  Proof. apply list_dec; auto. Qed.

  (** ** The invariant *)
  Definition xres (q : reading) (r : option dnf) : Prop :=
    (forall d, r = Some d -> norm grd d) /\
    (forall S, result_sat (V S) r <-> meaning q (set_of S)) /\
    (r = Some [] <-> constant q).
  Definition xok (q : reading) (o : outcome (option dnf)) : Prop :=
    o = OutOfFuel \/ exists r, o = Ok r /\ xres q r.

  Lemma xres_none q r : xres q r -> (r = None <-> never q).
  Proof.
    intros (N & S & _). split.
    - intros -> S0 H. apply S in H. destruct H.
    - intros H. destruct r as [d|]; auto. exfalso. destruct (norm_sat d (N d eq_refl)) as (S0 & K).
      apply (H S0), S. exact K.
  Qed.
  Lemma xres_dec q r : xres q r -> constant q \/ ~ constant q.
  Proof.
    intros (_ & _ & C). rewrite <- C. destruct r as [[|]|]; [left; auto|right; discriminate|right; discriminate].
  Qed.
  Lemma xres_kinds q r : xres q r ->
    (r = None /\ never q /\ ~ constant q) \/ (r = Some [] /\ constant q /\ surely q /\ ~ never q) \/
    (exists c d, r = Some (c :: d) /\ ~ constant q /\ ~ never q).
  Proof.
    intros X. pose proof (xres_none q r X) as N. destruct X as (M & S & C). destruct r as [[|c d]|].
    - right; left. split; auto. split; [apply C; auto|]. split; [|rewrite <- N; discriminate].
      intros S0. apply S. left; auto.
    - right; right. exists c, d. split; auto. rewrite <- C, <- N. split; discriminate.
    - left. split; auto. split; [apply N; auto|]. rewrite <- C. discriminate.
  Qed.

  Definition same (q q' : reading) : Prop :=
    (constant q <-> constant q') /\ forall S, meaning q (set_of S) <-> meaning q' (set_of S).
  Lemma xok_same q q' o : same q q' -> xok q o -> xok q' o.
  Proof.
    intros [C M] [E|(r & E & N & S & K)]; [left; auto|right]. exists r. split; auto. split; auto. split.
    - intros S0. rewrite S. apply M.
    - rewrite K. exact C.
  Qed.

  (** ** Collecting terms *)
  Lemma collect_all_x {A} (f : A -> outcome (option dnf)) (q : A -> reading) l :
    (forall a, In a l -> xok (q a) (f a)) ->
    collect true (fun a => one (f a)) l = OutOfFuel \/
    (collect true (fun a => one (f a)) l = Ok None /\ exists a, In a l /\ never (q a) /\ ~ constant (q a)) \/
    (exists ds, collect true (fun a => one (f a)) l = Ok (Some ds) /\ Forall2 (fun a d => xres (q a) (Some d)) l ds).
  Proof.
    induction l as [|a l IH]; intros H.
    - right; right. exists []. split; auto.
    - rewrite collect_cons. destruct (H a (or_introl eq_refl)) as [E|(r & E & X)]; rewrite E; cbn [bind]; [left; auto|].
      destruct r as [d|].
      + destruct (IH (fun x I => H x (or_intror I))) as [E'|[(E' & x & I & Q)|(ds & E' & F)]]; rewrite E'; cbn [bind option_map].
        * left; auto.
        * right; left. split; auto. exists x. split; [right|]; auto.
        * right; right. exists (d :: ds). split; auto.
      + right; left. split; auto. exists a. split; [left; auto|].
        destruct (xres_kinds _ _ X) as [(_ & N & C)|[(Q & _)|(c & d & Q & _)]]; [auto|discriminate|discriminate].
  Qed.

  Lemma collect_some_x {A} (f : A -> outcome (option dnf)) (q : A -> reading) l :
    (forall a, In a l -> xok (q a) (f a)) ->
    collect false (fun a => one (f a)) l = OutOfFuel \/
    (exists ds, collect false (fun a => one (f a)) l = Ok (Some ds) /\
       (forall d, In d ds -> exists a, In a l /\ xres (q a) (Some d)) /\
       (forall a, In a l -> (exists d, In d ds /\ xres (q a) (Some d)) \/ xres (q a) None)).
  Proof.
    induction l as [|a l IH]; intros H.
    - right. exists []. split; auto. split; intros x [].
    - rewrite collect_cons. destruct (H a (or_introl eq_refl)) as [E|(r & E & X)]; rewrite E; cbn [bind]; [left; auto|].
      destruct (IH (fun x I => H x (or_intror I))) as [E'|(ds & E' & D & T)].
      + left. destruct r as [d|]; rewrite E'; auto.
      + right. destruct r as [d|]; rewrite E'.
        * exists (d :: ds). split; auto. split.
          -- intros x [<-|I]; [exists a; split; [left|]; auto|]. destruct (D x I) as (y & J & Q). exists y. split; [right|]; auto.
          -- intros x [<-|I]; [left; exists d; split; [left|]; auto|].
             destruct (T x I) as [(y & J & Q)|Q]; auto. left. exists y. split; [right|]; auto.
        * exists ds. split; auto. split.
          -- intros x I. destruct (D x I) as (y & J & Q). exists y. split; [right|]; auto.
          -- intros x [<-|I]; auto.
  Qed.

  Lemma conj_x {A} (f : A -> outcome (option dnf)) (q : A -> reading) l :
    (forall a, In a l -> xok (q a) (f a)) ->
    xok (all_of (fun r => exists a, In a l /\ r = q a)) (and_then (collect true (fun a => one (f a)) l) (conjoin om None)).
  Proof.
    intros H. destruct (collect_all_x f q l H) as [E|[(E & a & I & N & C)|(ds & E & F)]]; unfold and_then; rewrite E; cbn [bind].
    - left; auto.
    - right. exists None. split; auto. split; [discriminate|]. cbn [constant meaning all_of]. split.
      + intros S. cbn [result_sat]. split; [tauto|]. intros K. apply (N S), K. eauto.
      + split; [discriminate|]. intros K. exfalso. apply C, K. eauto.
    - assert (Nd : forall d, In d ds -> norm grd d).
      { clear -F. induction F as [|a d l ds X F IH]; intros x I; [destruct I|]. destruct I as [<-|I]; auto. apply X; auto. }
      assert (G : Forall (Forall (good grd)) ds) by (rewrite Forall_forall; intros d I; apply (Nd d I)).
      destruct (conjoin_ok om None grd (Val objects) ET ES ds G) as [E'|(r & E' & Sr & Pr)]; [left; auto|].
      right. exists r. split; auto. split; [|split; cbn [constant meaning all_of]].
      + intros d Q. destruct (Pr d Q) as (G' & NE & _). split; auto. apply NE.
        rewrite Forall_forall. intros x I. apply (norm_nonempty grd); auto.
      + intros S. rewrite (Sr _ (Vv S)). clear -F. split.
        * intros K q' (a & I & ->). induction F as [|a' d l ds X F IH]; [destruct I|]. destruct I as [->|I].
          -- apply X. apply K. left; auto.
          -- apply IH; auto. intros x J. apply K. right; auto.
        * intros K d I. induction F as [|a' d' l ds X F IH]; [destruct I|]. destruct I as [->|I].
          -- apply X. apply K. exists a'. split; [left|]; auto.
          -- apply IH; auto. intros q' (a & J & ->). apply K. exists a. split; [right|]; auto.
      + assert (Q : r = Some [] <-> conjoin om None ds = Ok (Some [])).
        { rewrite E'. split; [intros ->; auto|intros Q; injection Q; auto]. }
        rewrite Q, conjoin_empty by (auto; congruence). clear -F. split.
        * intros K q' (a & I & ->). induction F as [|a' d l ds X F IH]; [destruct I|]. destruct I as [->|I].
          -- apply X. rewrite (K d); [auto|left; auto].
          -- apply IH; auto. intros x J. apply K. right; auto.
        * intros K d I. induction F as [|a' d' l ds X F IH]; [destruct I|]. destruct I as [->|I].
          -- assert (C : constant (q a')) by (apply K; exists a'; split; [left|]; auto). apply X in C. congruence.
          -- apply IH; auto. intros q' (a & J & ->). apply K. exists a. split; [right|]; auto.
  Qed.

  Lemma disj_x {A} (f : A -> outcome (option dnf)) (q : A -> reading) l :
    (forall a, In a l -> xok (q a) (f a)) ->
    xok (any_of (fun r => exists a, In a l /\ r = q a)) (and_then (collect false (fun a => one (f a)) l) (disjoin om None)).
  Proof.
    intros H. destruct (collect_some_x f q l H) as [E|(ds & E & D & T)]; unfold and_then; rewrite E; cbn [bind]; [left; auto|].
    assert (Nd : forall d, In d ds -> norm grd d) by (intros d I; destruct (D d I) as (a & _ & X); apply X; auto).
    assert (G : Forall (Forall (good grd)) ds) by (rewrite Forall_forall; intros d I; apply (Nd d I)).
    destruct (disjoin_ok om None grd (Val objects) ET ES ds G) as (r & E' & Sr & Pr).
    right. exists r. split; auto.
    assert (Q : r = Some [] <-> (forall q', (exists a, In a l /\ q' = q a) -> constant q' \/ never q')).
    { assert (Q : r = Some [] <-> disjoin om None ds = Ok (Some [])).
      { rewrite E'. split; [intros ->; auto|intros Q; injection Q; auto]. }
      rewrite Q, disjoin_empty by auto. split.
      - intros K q' (a & I & ->). destruct (T a I) as [(d & J & X)|X].
        + left. apply X. rewrite (K d J). auto.
        + right. apply (xres_none _ _ X). auto.
      - intros K d I. destruct (D d I) as (a & Ia & X). destruct (K (q a)) as [C|C]; [eauto| |].
        + apply X in C. congruence.
        + apply (xres_none _ _ X) in C. discriminate. }
    split; [|split; [|exact Q]].
    - intros d Q'. destruct (Pr d Q') as (G' & NE & _). split; auto. apply NE.
      rewrite Forall_forall. intros x I. apply (norm_nonempty grd); auto.
    - intros S. cbn [meaning any_of]. rewrite (Sr _ (Vv S)). split.
      + intros [C|(d & I & K)].
        * left. apply Q. assert (Ed : disjoin om None ds = Ok (Some [])) by (unfold disjoin; rewrite C; auto). congruence.
        * right. destruct (D d I) as (a & Ia & X). exists (q a). split; [eauto|]. split.
          -- intros C. apply X in C. injection C as ->. destruct K as (x & [] & _).
          -- apply X. right; auto.
      + intros [K|(q' & (a & Ia & ->) & C & M)].
        * apply Q in K. left. subst r. pose proof (proj1 (disjoin_empty ds G) E') as Z. clear -Z.
          induction ds as [|d ds IH]; auto. cbn [concat]. rewrite (Z d (or_introl eq_refl)). apply IH.
          intros x I. apply Z. right; auto.
        * right. destruct (T a Ia) as [(d & J & X)|X].
          -- exists d. split; auto. apply X in M. destruct M as [->|M]; auto. exfalso. apply C, X. auto.
          -- apply X in M. destruct M.
  Qed.

  Lemma negate_x q d : xres q (Some d) -> xok (not_of q) (negate om d).
  Proof.
    intros X. pose proof X as (N & Sd & C). specialize (N d eq_refl).
    destruct (negate_ok om grd (Val objects) ET ES (truth_dec objects W (ordinary objects)) d N) as [E|(r & E & Sr & Pr)];
      [left; auto|].
    right. exists r. split; auto.
    assert (Q : r = Some [] <-> d = []).
    { rewrite <- (negate_empty d N) by congruence. rewrite E. split; [intros ->; auto|intros Q; injection Q; auto]. }
    assert (Nv : ~ never q) by (intros K; apply (xres_none _ _ X) in K; discriminate).
    assert (C' : constant q <-> d = []) by (rewrite <- C; split; [intros Z; injection Z; auto|intros ->; auto]).
    split; [intros d' Z; apply (Pr d' Z)|]. cbn [constant meaning not_of]. split.
    - intros S. rewrite (Sr _ (Vv S)), C', <- (Sd S). cbn [result_sat]. unfold dnf_sat. split.
      + intros K. destruct d as [|c d]; [left; auto|]. right. intros [Z|Z]; [discriminate|auto].
      + intros [->|K]; [|tauto]. intros (x & [] & _).
    - rewrite Q, C'. tauto.
  Qed.

  Lemma reads_conj_same e gs : same (all_of (fun r => exists g, In g gs /\ r = reads objects e g)) (reads objects e (GConj gs)).
  Proof.
    split; [|intros S]; cbn [reads all_of constant meaning]; split; intros H r K.
    - apply in_map_iff in K. destruct K as (g & <- & I). apply H; eauto.
    - destruct K as (g & I & ->). apply H, in_map; auto.
    - apply in_map_iff in K. destruct K as (g & <- & I). apply H; eauto.
    - destruct K as (g & I & ->). apply H, in_map; auto.
  Qed.

  Lemma any_same rs rs' : (forall r, rs r <-> rs' r) -> same (any_of rs) (any_of rs').
  Proof.
    intros H. assert (Q : constant (any_of rs) <-> constant (any_of rs')).
    { cbn. split; intros K r J; apply K, H; auto. }
    split; auto. intros S. cbn in *. rewrite Q. split; (intros [K|(r & J & K)]; [auto|right; exists r; split; [apply H|]; auto]).
  Qed.
  Lemma all_same rs rs' : (forall r, rs r <-> rs' r) -> same (all_of rs) (all_of rs').
  Proof. intros H. split; [|intros S]; cbn; split; intros K r J; apply K, H; auto. Qed.

  Theorem create_reads g : forall params args e, length params = length args ->
    Forall (fun o => In o objects) args ->
    wf_goal objects (map oname params) g -> declared objects g ->
    (forall n, In n (goal_preds g) -> ordinary objects n) ->
    xok (reads objects (bind_vars params args e) g) (create_goal om None g params args).
  Proof.
    induction g as [n l|gs IH|gs IH|g IH|vs g IH|vs g IH|] using goal_ind'; intros params args e L Ia Wf D Qg.
    - destruct Wf as [Fa Ar]. cbn [create_goal reads]. rewrite (app_fun_denote _ _ _ e L Fa). cbn [bind].
      set (l' := map (denote (bind_vars params args e)) l).
      assert (Il : Forall (fun o => In o objects) l').
      { unfold l'. rewrite Forall_forall. intros o I. apply in_map_iff in I. destruct I as (x & <- & I).
        cbn in D. rewrite Forall_forall in D, Fa. specialize (Fa x I). unfold arg_ok in Fa. unfold denote.
        specialize (D x I). destruct (okind x); auto. apply (bind_In objects (ordinary objects)); auto. }
      right. eexists. split; [reflexivity|]. split; [|split].
      + intros d Q. injection Q as <-. destruct (of_list_one (mkProp n l')) as [W1 E1]. split.
        * constructor; [|constructor]. split; [split; auto; apply st_empty_wf|].
          unfold lits. cbn [ps_pos ps_neg]. rewrite E1. constructor; [|constructor]. split; [|split; auto].
          -- cbn. unfold l'. unfold arity_ok in *. rewrite map_length. auto.
          -- apply Qg. cbn. auto.
        * constructor; [|constructor]. apply solid_one.
      + intros S. cbn [result_sat meaning]. unfold dnf_sat, list_sat, V. rewrite <- (truth_atom objects ND (ordinary objects)) by auto. split.
        * intros [|(c & [<-|[]] & Q)]; [discriminate|]. apply one_pos in Q. exact Q.
        * intros H. right. eexists. split; [left; reflexivity|]. apply one_pos. exact H.
      + cbn. split; [discriminate|tauto].
    - cbn [create_goal]. eapply xok_same; [apply reads_conj_same|].
      apply (conj_x (fun g => create_goal om None g params args)).
      intros g I. rewrite Forall_forall in IH. apply IH; auto.
      + apply (wf_all objects _ gs); auto.
      + apply (declared_all objects gs); auto.
      + intros n I'. apply Qg. cbn. apply in_flat_map. eauto.
    - cbn [create_goal reads].
      eapply xok_same; [|apply (disj_x (fun g => create_goal om None g params args) (reads objects (bind_vars params args e)) gs)].
      + apply any_same. intros r. rewrite in_map_iff. split; intros (g & H1 & H2); exists g; auto.
      + intros g I. rewrite Forall_forall in IH. apply IH; auto.
        * apply (wf_all objects _ gs); auto.
        * apply (declared_all objects gs); auto.
        * intros n I'. apply Qg. cbn. apply in_flat_map. eauto.
    - cbn [create_goal reads]. cbn [wf_goal declared] in *.
      destruct (IH params args e L Ia Wf D Qg) as [E|(r & E & X)]; rewrite E; cbn [bind]; [left; auto|].
      destruct r as [d|]; [apply negate_x; auto|].
      pose proof (proj1 (xres_none _ _ X) eq_refl) as N.
      right. exists (Some []). split; auto. split; [intros d Q; injection Q as <-; split; constructor|].
      cbn [constant meaning not_of]. split; [|split; auto].
      intros S. split; [intros _; right; apply N|intros _; left; auto].
    - destruct Wf as (Nv & C & Wf). cbn [create_goal reads].
      destruct (tuples_ok objects vs W Nv C) as (ts & T & I). fold om in T. rewrite T. cbn [bind].
      eapply xok_same; [|apply (conj_x (fun t => create_goal om None g (params ++ vs) (args ++ t))
        (fun t => reads objects (bind_vars (params ++ vs) (args ++ t) e) g))].
      + apply all_same. intros r. split.
        * intros (t & It & ->). rewrite bind_vars_app by auto. exists t. split; auto. apply I; auto.
        * intros (t & It & ->). exists t. rewrite bind_vars_app by auto. split; auto. apply I; auto.
      + intros t It. apply I in It. apply IH; auto.
        * rewrite !app_length. apply FormulaFacts.well_typed_length in It. lia.
        * apply Forall_app. split; auto. eapply well_typed_In; eauto.
        * rewrite map_app. auto.
    - destruct Wf as (Nv & C & Wf). cbn [create_goal reads].
      destruct (tuples_ok objects vs W Nv C) as (ts & T & I). fold om in T. rewrite T. cbn [bind].
      eapply xok_same; [|apply (disj_x (fun t => create_goal om None g (params ++ vs) (args ++ t))
        (fun t => reads objects (bind_vars (params ++ vs) (args ++ t) e) g))].
      + apply any_same. intros r. split.
        * intros (t & It & ->). rewrite bind_vars_app by auto. exists t. split; auto. apply I; auto.
        * intros (t & It & ->). exists t. rewrite bind_vars_app by auto. split; auto. apply I; auto.
      + intros t It. apply I in It. apply IH; auto.
        * rewrite !app_length. apply FormulaFacts.well_typed_length in It. lia.
        * apply Forall_app. split; auto. eapply well_typed_In; eauto.
        * rewrite map_app. auto.
    - destruct Wf.
  Qed.

  (** ** Effects *)
  Definition lres (q : reading) (ds : list dnf) : Prop :=
    Forall (norm grd) ds /\
    (forall S, (forall d, In d ds -> dnf_sat (V S) d) <-> meaning q (set_of S)) /\
    ((forall d, In d ds -> d = []) <-> constant q).
  Definition lx (q : reading) (o : outcome (option (list dnf))) : Prop :=
    o = OutOfFuel \/ (o = Ok None /\ never q /\ ~ constant q) \/ (exists ds, o = Ok (Some ds) /\ lres q ds).

  Lemma lres_same q q' ds : same q q' -> lres q ds -> lres q' ds.
  Proof.
    intros [C M] (N & S & K). split; auto. split; [intros S0; rewrite S; apply M|]. rewrite K. exact C.
  Qed.
  Lemma lx_same q q' o : same q q' -> lx q o -> lx q' o.
  Proof.
    intros E [H|[(H & N & C)|(ds & H & K)]]; [left; auto|right; left|right; right].
    - split; auto. destruct E as [E1 E2]. split; [|tauto]. intros S Q. apply E2 in Q. exact (N S Q).
    - exists ds. split; auto. eapply lres_same; eauto.
  Qed.

  Definition both (q q' : reading) : reading :=
    mkReading (constant q /\ constant q') (fun S => meaning q S /\ meaning q' S).
  Lemma lres_app q q' ds ds' : lres q ds -> lres q' ds' -> lres (both q q') (ds ++ ds').
  Proof.
    intros (N & S & C) (N' & S' & C'). split; [apply Forall_app; auto|]. cbn [constant meaning both]. split.
    - intros S0. rewrite <- (S S0), <- (S' S0). split.
      + intros K. split; intros d I; apply K, in_app_iff; auto.
      + intros [K K'] d I. apply in_app_iff in I. destruct I; auto.
    - rewrite <- C, <- C'. split.
      + intros K. split; intros d I; apply K, in_app_iff; auto.
      + intros [K K'] d I. apply in_app_iff in I. destruct I; auto.
  Qed.
  Lemma both_all {A} (q : A -> reading) a l :
    same (both (q a) (all_of (fun r => exists x, In x l /\ r = q x))) (all_of (fun r => exists x, In x (a :: l) /\ r = q x)).
  Proof.
    split; [|intros S]; cbn; split.
    - intros [H K] r (x & [<-|I] & ->); auto. apply K. eauto.
    - intros K. split; [apply K; eauto|]. intros r (x & I & ->). apply K. eauto.
    - intros [H K] r (x & [<-|I] & ->); auto. apply K. eauto.
    - intros K. split; [apply K; eauto|]. intros r (x & I & ->). apply K. eauto.
  Qed.
  Lemma lres_nil {A} (q : A -> reading) : lres (all_of (fun r => exists x, In x [] /\ r = q x)) [].
  Proof.
    split; [constructor|]. cbn. split; [intros S|]; split.
    - intros _ r (x & [] & _).
    - intros _ d [].
    - intros _ r (x & [] & _).
    - intros _ d [].
  Qed.

  Lemma collect_lx {A} (f : A -> outcome (option (list dnf))) (q : A -> reading) l :
    (forall a, In a l -> lx (q a) (f a)) -> lx (all_of (fun r => exists a, In a l /\ r = q a)) (collect true f l).
  Proof.
    induction l as [|a l IH]; intros H; cbn [collect].
    - right; right. exists []. split; auto. apply lres_nil.
    - destruct (H a (or_introl eq_refl)) as [E|[(E & N & C)|(ds & E & K)]]; rewrite E; cbn [bind].
      + left; auto.
      + right; left. split; auto. cbn. split.
        * intros S Q. apply (N S), Q. exists a. split; [left|]; auto.
        * intros Q. apply C, Q. exists a. split; [left|]; auto.
      + destruct (IH (fun x I => H x (or_intror I))) as [E'|[(E' & N' & C')|(ds' & E' & K')]];
          cbn [collect] in E'; rewrite E'; cbn [bind option_map].
        * left; auto.
        * right; left. split; auto. cbn in *. split.
          -- intros S Q. apply (N' S). intros r (x & I & ->). apply Q. eauto.
          -- intros Q. apply C'. intros r (x & I & ->). apply Q. eauto.
        * right; right. exists (ds ++ ds'). split; auto. eapply lres_same; [apply both_all|]. apply lres_app; auto.
  Qed.

  Lemma one_lx q o : xok q o -> lx q (one o).
  Proof.
    intros [E|(r & E & X)]; unfold one; rewrite E; cbn [bind]; [left; auto|].
    destruct (xres_kinds _ _ X) as [(-> & N & C)|K]; cbn [option_map]; [right; left; auto|].
    destruct r as [d|]; [|destruct K as [(Q & _)|(c & d & Q & _)]; discriminate].
    right; right. exists [d]. split; auto. destruct X as (N & S & C). split; [constructor; auto|]. split.
    - intros S0. rewrite <- (S S0). cbn [result_sat]. split.
      + intros Q. apply Q. left; auto.
      + intros Q x [<-|[]]; auto.
    - rewrite <- C. split.
      + intros Q. rewrite (Q d); [auto|left; auto].
      + intros Q x [<-|[]]. congruence.
  Qed.

  Lemma list_of_dnf S d : d <> [] -> dnf_sat (V S) d <-> list_sat (V S) d.
  Proof. intros N. unfold dnf_sat. tauto. Qed.

  (** One conditional effect. *)
  Lemma when_x qg qb cond (result : outcome (option dnf)) :
    xres qg (Some cond) -> xok qb result -> ~ (constant qg /\ never qb) ->
    let o := (let* result := result in
              match cond with
              | [] => match result with None => Throw ERuntime | Some r => Ok [r] end
              | _ =>
                  let* ncond := negate om cond in
                  match ncond, result with
                  | None, _ => Ok []
                  | Some nc, None => Ok [nc]
                  | Some nc, Some r =>
                      let* d := disjoin om None [nc; r] in
                      match d with None => Throw ERuntime | Some d => Ok [d] end
                  end
              end) in
    o = OutOfFuel \/ exists ds, o = Ok ds /\ lres (when_of qg qb) ds.
  Proof.
    intros Xg [E|(r & E & Xb)] A; rewrite E; cbn [bind]; [left; auto|].
    assert (Ng : ~ never qg) by (intros Q; apply (xres_none _ _ Xg) in Q; discriminate).
    destruct cond as [|c0 cond0].
    - assert (Cg : constant qg) by (apply Xg; auto).
      destruct r as [r|]; [|exfalso; apply A; split; auto; apply (xres_none _ _ Xb); auto].
      right. exists [r]. split; auto. destruct Xb as (N & S & C). split; [constructor; auto|].
      cbn [constant meaning when_of]. split.
      + intros S0. rewrite <- (S S0). cbn [result_sat]. split.
        * intros Q. split; [|tauto]. intros _. apply Q. left; auto.
        * intros [Q _] x [<-|[]]; auto.
      + rewrite <- C. split.
        * intros Q. right; left. split; auto. rewrite (Q r); [auto|left; auto].
        * intros [Q|[[_ Q]|[Q _]]]; [tauto| |tauto]. intros x [<-|[]]. congruence.
    - assert (Cg : ~ constant qg) by (intros Q; apply Xg in Q; discriminate).
      remember (c0 :: cond0) as cond eqn:Ec. assert (NE : cond <> []) by (rewrite Ec; discriminate). clear Ec c0 cond0.
      destruct (negate_x qg cond Xg) as [En|(nc & En & Xn)]; rewrite En; cbn [bind]; [left; auto|].
      assert (Sg : surely qg <-> never (not_of qg)).
      { split.
        - intros Q S [K|K]; [auto|]. apply K, Q.
        - intros Q S. destruct (list_dec' S cond) as [K|K].
          + apply Xg. right; auto.
          + exfalso. apply (Q S). right. intros M. apply Xg in M. destruct M; auto. }
      destruct nc as [n|].
      2:{ assert (Q : surely qg) by (apply Sg, (xres_none _ _ Xn); auto).
          right. exists []. split; auto. split; [constructor|]. cbn [constant meaning when_of]. split.
          - intros S. split; [|intros _ d []]. intros _. split; [tauto|auto].
          - split; [auto|]. intros _ d []. }
      assert (NS : ~ surely qg) by (intros Q; apply Sg in Q; apply (xres_none _ _ Xn) in Q; discriminate).
      assert (NEn : n <> []).
      { intros ->. destruct Xn as (_ & _ & [C _]). destruct (C eq_refl); tauto. }
      assert (Mn : forall S, list_sat (V S) n <-> ~ meaning qg (set_of S)).
      { intros S. destruct Xn as (_ & M & _). specialize (M S). cbn [result_sat] in M.
        rewrite <- list_of_dnf by auto. rewrite M. cbn. tauto. }
      assert (Cw : ~ constant (when_of qg qb)) by (cbn; tauto).
      assert (Xn1 : norm grd n) by (apply Xn; auto).
      destruct r as [r|].
      + assert (Mr : forall S, list_sat (V S) r <-> ~ constant qb /\ meaning qb (set_of S)).
        { intros S. destruct Xb as (_ & M & C). rewrite <- (M S), <- C. cbn [result_sat]. split.
          - intros Q. split; [intros Z; injection Z as ->; destruct Q as (x & [] & _)|right; auto].
          - intros [Q [->|K]]; [tauto|auto]. }
        assert (Gnr : Forall (Forall (good grd)) [n; r]).
        { constructor; [apply Xn1|constructor; [|constructor]]. destruct Xb as (N & _). apply (N r eq_refl). }
        destruct (disjoin_ok om None grd (Val objects) ET ES [n; r] Gnr) as (d & Ed & Ds & Dn).
        rewrite Ed. cbn [bind].
        assert (Ds' : forall S, result_sat (V S) d <-> list_sat (V S) n \/ list_sat (V S) r).
        { intros S. rewrite (Ds _ (Vv S)). split.
          - intros [H|(x & [<-|[<-|[]]] & H)]; auto. destruct n; [congruence|discriminate].
          - intros [H|H]; right; [exists n|exists r]; cbn; auto. }
        destruct d as [d|].
        2:{ exfalso. destruct (norm_sat n Xn1) as (S & Q). apply list_of_dnf in Q; auto.
            destruct (proj2 (Ds' S) (or_introl Q)). }
        right. exists [d]. split; auto. split; [|split].
        * constructor; [|constructor]. destruct (Dn d eq_refl) as (Dg & Dne & _). split; auto. apply Dne.
          constructor; [apply (norm_nonempty grd); auto|constructor; [|constructor]].
          apply (norm_nonempty grd). destruct Xb as (N & _). apply (N r eq_refl).
        * intros S. specialize (Ds' S). rewrite Mn, Mr in Ds'. cbn [result_sat] in Ds'. cbn [meaning when_of].
          split.
          -- intros Q. split; [tauto|]. intros _. right. apply Ds'. apply Q. left; auto.
          -- intros [_ Q] x [<-|[]]. apply Ds'. destruct (Q Cg) as [K|K]; tauto.
        * split; [|tauto]. intros Q. exfalso. assert (Z : d = []) by (apply Q; left; auto). subst d.
          pose proof (proj1 (disjoin_empty [n; r] Gnr) Ed) as Z. apply NEn, Z. left; auto.
      + assert (Nb : never qb) by (apply (xres_none _ _ Xb); auto).
        right. exists [n]. split; auto. split; [constructor; auto|]. split.
        * intros S. cbn [meaning when_of]. split.
          -- intros Q. split; [tauto|]. intros _. right; left. apply Mn. apply list_of_dnf; auto. apply Q. left; auto.
          -- intros [_ Q] x [<-|[]]. apply list_of_dnf; auto. apply Mn.
             destruct (Q Cg) as [K|[K|[_ K]]]; [tauto|auto|]. destruct (Nb S K).
        * split; [|tauto]. intros Q. exfalso. apply NEn, Q. left; auto.
  Qed.

  Lemma literals_ordinary ps params args e : length params = length args ->
    Forall (fun o => In o objects) args ->
    Forall (fun p => Forall (arg_ok (map oname params)) (pargs p) /\ arity_ok objects (pname p) (pargs p)) ps ->
    Forall (fun p => Forall (fun x => okind x = KConst -> In x objects) (pargs p)) ps ->
    (forall p, In p ps -> ordinary objects (pname p)) ->
    exists s, literals ps params args = Ok s /\ st_wf s /\ Forall grd (st_elements s) /\
      (forall a, mem s a <-> exists p, In p ps /\ a = (pname p, map oname (map (denote (bind_vars params args e)) (pargs p)))).
  Proof.
    intros L Ia F D O. destruct (literals_ok objects ND ps params args e L Ia F D) as (s & E & Ws & G & M & _).
    exists s. split; auto. split; auto. split; auto. rewrite Forall_forall in *. intros p I.
    destruct (G p I) as (A1 & A2 & _). split; auto. split; auto.
    destruct (proj1 (M (prop_key p))) as (q & Iq & Q).
    - unfold mem. apply in_map_iff. exists p; auto.
    - unfold prop_key in Q. injection Q as -> _. apply O; auto.
  Qed.

  Lemma denoted ps params args e S p : length params = length args ->
    Forall (fun o => In o objects) args ->
    Forall (fun p => Forall (arg_ok (map oname params)) (pargs p) /\ arity_ok objects (pname p) (pargs p)) ps ->
    Forall (fun p => Forall (fun x => okind x = KConst -> In x objects) (pargs p)) ps -> In p ps ->
    V S (pname p, map oname (map (denote (bind_vars params args e)) (pargs p))) <->
    atom_holds objects (set_of S) (pname p) (map (denote (bind_vars params args e)) (pargs p)).
  Proof.
    intros L Ia Fp Dp I. unfold V. apply (truth_atom objects ND (ordinary objects)).
    rewrite Forall_forall in *. intros o Io. apply in_map_iff in Io. destruct Io as (x & <- & Ix).
    destruct (Fp p I) as [Fa _]. specialize (Dp p I). rewrite Forall_forall in *.
    specialize (Fa x Ix). unfold arg_ok in Fa. unfold denote. specialize (Dp x Ix).
    destruct (okind x); auto. apply (bind_In objects (ordinary objects)); auto. rewrite Forall_forall; auto.
  Qed.

  (** Unlike the other terms the literals may contradict each other. *)
  Definition wres (q : reading) (ds : list dnf) : Prop :=
    Forall (Forall (good grd)) ds /\ Forall (Forall nonempty) ds /\
    (forall S, (forall d, In d ds -> dnf_sat (V S) d) <-> meaning q (set_of S)) /\
    ((forall d, In d ds -> d = []) <-> constant q).
  Lemma lres_wres q ds : lres q ds -> wres q ds.
  Proof.
    intros (N & S & C). split; [|split; auto].
    - eapply Forall_impl; [|exact N]. intros d [G _]; auto.
    - eapply Forall_impl; [|exact N]. apply (norm_nonempty grd).
  Qed.
  Lemma wres_app q q' ds ds' : wres q ds -> wres q' ds' -> wres (both q q') (ds ++ ds').
  Proof.
    intros (N1 & N2 & S & C) (N1' & N2' & S' & C'). split; [apply Forall_app; auto|]. split; [apply Forall_app; auto|].
    cbn [constant meaning both]. split.
    - intros S0. rewrite <- (S S0), <- (S' S0). split.
      + intros K. split; intros d I; apply K, in_app_iff; auto.
      + intros [K K'] d I. apply in_app_iff in I. destruct I; auto.
    - rewrite <- C, <- C'. split.
      + intros K. split; intros d I; apply K, in_app_iff; auto.
      + intros [K K'] d I. apply in_app_iff in I. destruct I; auto.
  Qed.

  Lemma literals_x adds dels params args e : length params = length args ->
    Forall (fun o => In o objects) args ->
    Forall (fun p => Forall (arg_ok (map oname params)) (pargs p) /\ arity_ok objects (pname p) (pargs p)) adds ->
    Forall (fun p => Forall (arg_ok (map oname params)) (pargs p) /\ arity_ok objects (pname p) (pargs p)) dels ->
    Forall (fun p => Forall (fun x => okind x = KConst -> In x objects) (pargs p)) adds ->
    Forall (fun p => Forall (fun x => okind x = KConst -> In x objects) (pargs p)) dels ->
    (forall p, In p adds -> ordinary objects (pname p)) -> (forall p, In p dels -> ordinary objects (pname p)) ->
    exists pos neg, literals adds params args = Ok pos /\ literals dels params args = Ok neg /\
      wres (literals_of objects (bind_vars params args e) adds dels)
        (if st_is_empty pos && st_is_empty neg then [] else [[mkPS pos neg]]).
  Proof.
    intros L Ia Wa Wd Da Dd Oa Od.
    destruct (literals_ordinary adds params args e L Ia Wa Da Oa) as (pos & Ep & Wp & Gp & Mp).
    destruct (literals_ordinary dels params args e L Ia Wd Dd Od) as (neg & En & Wn & Gn & Mn).
    exists pos, neg. split; auto. split; auto.
    assert (Z : forall ps s, st_wf s -> (forall a, mem s a <-> exists p, In p ps /\ a = (pname p, map oname (map (denote (bind_vars params args e)) (pargs p)))) ->
      st_is_empty s = true <-> ps = []).
    { intros ps s Ws M. unfold st_is_empty. rewrite Nat.eqb_eq, st_size_elements by auto. split.
      - intros Q. apply length_zero_iff_nil in Q. destruct ps as [|p ps]; auto. exfalso.
        assert (K : mem s (pname p, map oname (map (denote (bind_vars params args e)) (pargs p)))) by (apply M; exists p; split; [left|]; auto).
        unfold mem in K. rewrite Q in K. destruct K.
      - intros ->. apply length_zero_iff_nil. destruct (st_elements s) as [|p l] eqn:El; auto. exfalso.
        destruct (proj1 (M (prop_key p))) as (q & [] & _). unfold mem. rewrite El. left; auto. }
    assert (HL : forall S, conj_sat (V S) (mkPS pos neg) <-> meaning (literals_of objects (bind_vars params args e) adds dels) (set_of S)).
    { intros S. rewrite conj_sat_mem. cbn [ps_pos ps_neg meaning literals_of]. split.
      - intros [P N]. split; intros p I.
        + apply (denoted adds params args e S p L Ia Wa Da I), P, Mp. eauto.
        + intros H. apply (denoted dels params args e S p L Ia Wd Dd I) in H. revert H. apply N, Mn. eauto.
      - intros [P N]. split; intros a M.
        + apply Mp in M. destruct M as (p & I & ->). apply (denoted adds params args e S p L Ia Wa Da I); auto.
        + apply Mn in M. destruct M as (p & I & ->). intros H.
          apply (denoted dels params args e S p L Ia Wd Dd I) in H. exact (N p I H). }
    pose proof (Z adds pos Wp Mp) as Zp. pose proof (Z dels neg Wn Mn) as Zn.
    destruct (st_is_empty pos && st_is_empty neg) eqn:Em.
    - apply andb_true_iff in Em. destruct Em as [E1 E2]. apply Zp in E1. apply Zn in E2.
      split; [constructor|]. split; [constructor|]. split.
      + intros S. rewrite E1, E2. cbn. split; [|intros _ d []]. intros _. split; intros p [].
      + rewrite E1, E2. cbn. split; auto. intros _ d [].
    - assert (NE : ~ (adds = [] /\ dels = [])).
      { intros [Q1 Q2]. apply Zp in Q1. apply Zn in Q2. rewrite Q1, Q2 in Em. discriminate. }
      split; [|split; [|split]].
      + constructor; [|constructor]. constructor; [|constructor]. split; [split; auto|].
        unfold lits. cbn [ps_pos ps_neg]. apply Forall_app; auto.
      + constructor; [|constructor]. constructor; [|constructor]. unfold nonempty, lits. cbn [ps_pos ps_neg].
        intros H. apply app_eq_nil in H. destruct H as [E1 E2]. unfold st_is_empty in Em.
        rewrite !st_size_elements, E1, E2 in Em by auto. discriminate.
      + intros S. rewrite <- HL. split.
        * intros H. destruct (H _ (or_introl eq_refl)) as [Q|(x & [<-|[]] & Q)]; [discriminate|auto].
        * intros H d [<-|[]]. right. eexists. split; [left; reflexivity|auto].
      + cbn [constant literals_of]. split; [|tauto]. intros H. specialize (H _ (or_introl eq_refl)). discriminate.
  Qed.

  Lemma any_pairs {A B} (P : A -> B -> Prop) l :
    (fix any l := match l with [] => False | (a, b) :: l' => P a b \/ any l' end) l <->
    exists c, In c l /\ P (fst c) (snd c).
  Proof.
    induction l as [|[a b] l IH].
    - split; [tauto|]. intros (c & [] & _).
    - rewrite IH. split.
      + intros [H|(c & I & H)]; [exists (a, b); cbn; auto|exists c; cbn; auto].
      + intros (c & [<-|I] & H); [left; auto|right; eauto].
  Qed.

  Lemma reads_effs_same env fs adds dels cs :
    same (both (all_of (fun r => exists f, In f fs /\ r = all_of (fun r => exists objs, well_typed objects (fst f) objs /\
                  r = reads_effs objects (bind_vars (fst f) objs env) (snd f))))
            (both (literals_of objects env adds dels)
               (all_of (fun r => exists c, In c cs /\ r = when_of (reads objects env (fst c)) (reads_effs objects env (snd c))))))
         (reads_effs objects env (Effs fs adds dels cs)).
  Proof.
    assert (K : forall r, 
        ((fix any fs := match fs with
                       | [] => False
                       | (vars, b) :: fs' =>
                           (exists objs, well_typed objects vars objs /\ r = reads_effs objects (bind_vars vars objs env) b) \/
                           any fs'
                       end) fs \/
        r = literals_of objects env adds dels \/
        (fix any cs := match cs with
                       | [] => False
                       | (g, b) :: cs' => r = when_of (reads objects env g) (reads_effs objects env b) \/ any cs'
                       end) cs) <->
        ((exists f, In f fs /\ exists objs, well_typed objects (fst f) objs /\ r = reads_effs objects (bind_vars (fst f) objs env) (snd f)) \/
         r = literals_of objects env adds dels \/
         exists c, In c cs /\ r = when_of (reads objects env (fst c)) (reads_effs objects env (snd c)))).
    { intros r.
      rewrite (any_pairs (fun vars b => exists objs, well_typed objects vars objs /\ r = reads_effs objects (bind_vars vars objs env) b)).
      rewrite (any_pairs (fun g b => r = when_of (reads objects env g) (reads_effs objects env b))). tauto. }
    cbn [reads_effs]. destruct (all_same _ _ K) as [C M].
    split; [rewrite C|intros S; rewrite (M S)]; clear; cbn [all_of both constant meaning]; split.
    - intros (H1 & H2 & H3) r [(f & I & objs & T & ->)|[->|(c & I & ->)]]; auto.
      + eapply (H1 _ (ex_intro _ f (conj I eq_refl))). cbn. eauto.
      + apply H3. eauto.
    - intros H. split; [|split].
      + intros r (f & I & ->). cbn. intros r (objs & T & ->). apply H. left. eauto.
      + apply H. right; left. auto.
      + intros r (c & I & ->). apply H. right; right. eauto.
    - intros (H1 & H2 & H3) r [(f & I & objs & T & ->)|[->|(c & I & ->)]]; auto.
      + eapply (H1 _ (ex_intro _ f (conj I eq_refl))). cbn. eauto.
      + apply H3. eauto.
    - intros H. split; [|split].
      + intros r (f & I & ->). cbn. intros r (objs & T & ->). apply H. left. eauto.
      + apply H. right; left. auto.
      + intros r (c & I & ->). apply H. right; right. eauto.
  Qed.

  Theorem create_effs_reads ef : forall params args e, length params = length args ->
    Forall (fun o => In o objects) args ->
    wf_effs objects (map oname params) ef -> declared_effs objects ef ->
    ordinary_effs objects ef -> (forall g, In g (eff_conds ef) -> forall n, In n (goal_preds g) -> ordinary objects n) ->
    askable objects (bind_vars params args e) ef ->
    xok (reads_effs objects (bind_vars params args e) ef) (create_effs om None ef params args).
  Proof.
    induction ef as [fs adds dels cs IHf IHc] using effs_ind'. intros params args e L Ia Wf D O Og Ak.
    destruct Wf as (Wfs & Wa & Wd & Wc). destruct D as (Df & Da & Dd & Dc). destruct Ak as [Af Ac].
    rewrite (all_pairs (fun vars b => vars <> [] /\ (tuple_count objects vars < 2 ^ 31)%Z /\
                 wf_effs objects (map oname params ++ map oname vars) b)) in Wfs.
    rewrite (all_pairs (fun g b => wf_goal objects (map oname params) g /\ wf_effs objects (map oname params) b)) in Wc.
    rewrite (all_pairs (fun (_ : list object) b => declared_effs objects b)) in Df.
    rewrite (all_pairs (fun g b => declared objects g /\ declared_effs objects b)) in Dc.
    rewrite (all_pairs (fun vars b => forall objs, well_typed objects vars objs ->
                 askable objects (bind_vars vars objs (bind_vars params args e)) b)) in Af.
    rewrite (all_pairs (fun g b => never (reads objects (bind_vars params args e) g) \/
                 (askable objects (bind_vars params args e) b /\
                  ~ (constant (reads objects (bind_vars params args e) g) /\
                     never (reads_effs objects (bind_vars params args e) b))))) in Ac.
    assert (Of : forall vars b, In (vars, b) fs -> ordinary_effs objects b /\
              (forall g, In g (eff_conds b) -> forall n, In n (goal_preds g) -> ordinary objects n)).
    { intros vars b I. split.
      - intros s Is. apply O. cbn [eff_sigs]. rewrite !in_app_iff. left.
        apply in_flat_map. exists (vars, b). auto.
      - intros g Ig. apply Og. cbn [eff_conds]. apply in_app_iff. left. apply in_flat_map. exists (vars, b). auto. }
    assert (Oc : forall g b, In (g, b) cs -> ordinary_effs objects b /\
              (forall n, In n (goal_preds g) -> ordinary objects n) /\
              (forall g, In g (eff_conds b) -> forall n, In n (goal_preds g) -> ordinary objects n)).
    { intros g b I. split; [|split].
      - intros s Is. apply O. cbn [eff_sigs]. rewrite !in_app_iff.
        assert (In s (flat_map (fun c => eff_sigs (snd c)) cs)) by (apply in_flat_map; exists (g, b); auto). tauto.
      - apply Og. cbn [eff_conds]. apply in_app_iff. right. apply in_flat_map. exists (g, b). cbn. auto.
      - intros g' Ig. apply Og. cbn [eff_conds]. apply in_app_iff. right. apply in_flat_map. exists (g, b). cbn. auto. }
    assert (Oa : forall p, In p adds -> ordinary objects (pname p)).
    { intros p I. apply (O (true, pname p)). cbn [eff_sigs]. rewrite !in_app_iff, !in_map_iff. eauto 6. }
    assert (Od : forall p, In p dels -> ordinary objects (pname p)).
    { intros p I. apply (O (false, pname p)). cbn [eff_sigs]. rewrite !in_app_iff, !in_map_iff. eauto 7. }
    cbn [create_effs].
    set (env := bind_vars params args e) in *.
    eapply xok_same; [apply reads_effs_same|].
    match goal with |- xok (both ?q _) (and_then (collect true ?f fs) _) => assert (HF : lx q (collect true f fs)) end.
    { apply (collect_lx (fun f : list object * effs => let (vars, b) := f in
             let* ts := var_tuples om vars in
             collect true (fun t => one (create_effs om None b (params ++ vars) (args ++ t))) ts)
             (fun f => all_of (fun r => exists objs, well_typed objects (fst f) objs /\
                  r = reads_effs objects (bind_vars (fst f) objs env) (snd f)))).
      intros [vars b] I. cbn [fst snd]. destruct (Wfs _ _ I) as (Nv & C & Wb).
      destruct (tuples_ok objects vars W Nv C) as (ts & T & It). fold om in T. rewrite T. cbn [bind].
      eapply lx_same; [|apply (collect_lx (fun t => one (create_effs om None b (params ++ vars) (args ++ t)))
        (fun t => reads_effs objects (bind_vars (params ++ vars) (args ++ t) e) b))].
      - apply all_same. intros r. unfold env. split.
        + intros (t & Ht & ->). rewrite bind_vars_app by auto. exists t. split; auto. apply It; auto.
        + intros (t & Ht & ->). exists t. rewrite bind_vars_app by auto. split; auto. apply It; auto.
      - intros t Ht. apply It in Ht. apply one_lx. destruct (Of _ _ I). apply (IHf vars b I); auto.
        + rewrite !app_length. apply FormulaFacts.well_typed_length in Ht. lia.
        + apply Forall_app. split; auto. eapply well_typed_In; eauto.
        + rewrite map_app. auto.
        + apply (Df _ _ I).
        + rewrite bind_vars_app by auto. apply (Af _ _ I); auto. }
    destruct HF as [E|[(E & N & C)|(foralls & E & Lf)]]; unfold and_then; rewrite E; cbn [bind].
    { left; auto. }
    { right. exists None. split; auto. split; [discriminate|]. split.
      - intros S. cbn [result_sat both meaning]. split; [tauto|]. intros [K _]. exact (N S K).
      - cbn [both constant]. split; [discriminate|]. tauto. }
    destruct (literals_x adds dels params args e L Ia Wa Wd Da Dd Oa Od) as (pos & neg & Ep & En & Ll).
    rewrite Ep, En. cbn [bind].
    match goal with |- context [mapM ?f cs] => set (cf := f) end.
    assert (HC : forall cb, In cb cs -> cf cb = OutOfFuel \/ exists ds, cf cb = Ok ds /\
               lres (when_of (reads objects env (fst cb)) (reads_effs objects env (snd cb))) ds).
    { intros [g b] I. cbn [fst snd]. unfold cf.
      destruct (Wc _ _ I) as [Wg Wb]. destruct (Dc _ _ I) as [Dg Db]. destruct (Oc _ _ I) as (Ob & Ogg & Ogb).
      destruct (create_reads g params args e L Ia Wg Dg Ogg) as [Eg|(r & Eg & Xg)];
        rewrite Eg; cbn [bind]; [left; auto|].
      fold env in Xg.
      destruct r as [cond|].
      - destruct (Ac _ _ I) as [Q|[Ab Na]]; [apply (xres_none _ _ Xg) in Q; discriminate|].
        apply (when_x (reads objects env g) (reads_effs objects env b) cond (create_effs om None b params args)); auto.
        apply (IHc g b I); auto.
      - pose proof (proj1 (xres_none _ _ Xg) eq_refl) as N.
        assert (Cg : ~ constant (reads objects env g)) by (intros Q; apply Xg in Q; discriminate).
        right. exists []. split; auto. split; [constructor|]. cbn [constant meaning when_of]. split.
        + intros S. split; [|intros _ d []]. intros _. split; [tauto|]. intros _. right; left. apply N.
        + split; [auto|]. intros _ d []. }
    assert (HM : mapM cf cs = OutOfFuel \/ exists dss, mapM cf cs = Ok dss /\
        lres (all_of (fun r => exists c, In c cs /\ r = when_of (reads objects env (fst c)) (reads_effs objects env (snd c)))) (concat dss)).
    { clear -HC. clearbody cf. induction cs as [|c cs IH]; cbn [mapM].
      - right. exists []. split; auto.
        apply (lres_nil (fun c : goal * effs => when_of (reads objects env (fst c)) (reads_effs objects env (snd c)))).
      - destruct (HC c (or_introl eq_refl)) as [E|(ds & E & X)]; rewrite E; cbn [bind]; [left; auto|].
        destruct IH as [E'|(dss & E' & X')]; [intros x I; apply HC; right; auto| |]; rewrite E'; cbn [bind]; [left; auto|].
        right. exists (ds :: dss). split; auto. cbn [concat].
        eapply lres_same; [apply (both_all (fun c : goal * effs => when_of (reads objects env (fst c)) (reads_effs objects env (snd c))))|].
        apply lres_app; auto. }
    destruct HM as [E'|(dss & E' & Ld)]; rewrite E'; cbn [bind]; [left; auto|].
    pose proof (wres_app _ _ _ _ (lres_wres _ _ Lf) (wres_app _ _ _ _ Ll (lres_wres _ _ Ld))) as (G & NE & S & C).
    destruct (conjoin_ok om None grd (Val objects) ET ES _ G) as [Ec|(r & Ec & Sr & Pr)]; [left; auto|].
    right. exists r. split; auto. split; [|split].
    - intros d Q. destruct (Pr d Q) as (G' & Ne & _). split; auto.
    - intros S0. rewrite (Sr _ (Vv S0)). apply S.
    - rewrite <- C. rewrite <- conjoin_empty by (auto; congruence). rewrite Ec.
      split; [intros ->; auto|intros Q; injection Q; auto].
  Qed.

  Lemma regular_all (P : goal -> Prop) gs :
    (fix all gs := match gs with [] => True | g :: gs' => P g /\ all gs' end) gs <-> forall g, In g gs -> P g.
  Proof.
    induction gs as [|g gs IH].
    - split; auto. intros _ g [].
    - rewrite IH. split; [intros [H K] x [<-|I]; auto|intros H; split; [|intros x I]; apply H; cbn; auto].
  Qed.

  Lemma reads_holds g : forall e, regular objects e g ->
    forall S : atom -> bool, meaning (reads objects e g) (set_of S) <-> holds objects (set_of S) e g.
  Proof.
    induction g as [n l|gs IH|gs IH|g IH|vs g IH|vs g IH|] using goal_ind'; intros e R S.
    - cbn. tauto.
    - cbn [regular] in R. rewrite regular_all in R. rewrite holds_conj. cbn [reads all_of meaning].
      rewrite Forall_forall in IH. split.
      + intros H g I. apply IH; auto. apply H, in_map; auto.
      + intros H r I. apply in_map_iff in I. destruct I as (g & <- & I). apply IH; auto.
    - cbn [regular] in R. destruct R as [R (g0 & I0 & S0 & H0)].
      rewrite (regular_all (fun g => regular objects e g /\ ~ constant (reads objects e g))) in R.
      rewrite Forall_forall in IH. rewrite holds_disj. cbn [reads any_of meaning]. split.
      + intros [H|(r & I & _ & H)].
        * exfalso. destruct (H (reads objects e g0)) as [K|K]; [apply in_map; auto|apply (R g0 I0); auto|].
          apply (K S0). apply IH; auto. apply R; auto.
        * apply in_map_iff in I. destruct I as (g & <- & I). exists g. split; auto. apply IH; auto. apply R; auto.
      + intros (g & I & H). right. exists (reads objects e g). split; [apply in_map; auto|].
        split; [apply R; auto|]. apply IH; auto. apply R; auto.
    - cbn [regular] in R. destruct R as [R C]. cbn [reads not_of meaning holds]. rewrite (IH e R S). tauto.
    - cbn [regular] in R. cbn [reads all_of meaning holds]. split.
      + intros H objs T. apply IH; auto. apply H. eauto.
      + intros H r (objs & T & ->). apply IH; auto.
    - cbn [regular] in R. destruct R as [R (o0 & T0 & S0 & H0)]. cbn [reads any_of meaning holds]. split.
      + intros [H|(r & (objs & T & ->) & _ & H)].
        * exfalso. destruct (H (reads objects (bind_vars vs o0 e) g)) as [K|K]; [eauto|apply (R o0 T0); auto|].
          apply (K S0). apply IH; auto. apply R; auto.
        * exists objs. split; auto. apply IH; auto. apply R; auto.
      + intros (objs & T & H). right. exists (reads objects (bind_vars vs objs e) g). split; [eauto|].
        split; [apply R; auto|]. apply IH; auto. apply R; auto.
    - destruct R.
  Qed.

  Lemma xok_spec q o : xok q o ->
    o = OutOfFuel \/ exists r, o = Ok r /\
      (forall S : atom -> bool, result_sat (truth objects (set_of S)) r <-> meaning q (set_of S)) /\
      (r = None <-> never q) /\ (r = Some [] <-> constant q).
  Proof.
    intros [E|(r & E & X)]; [left; auto|right]. exists r. split; auto. pose proof (xres_none _ _ X) as N.
    destruct X as (_ & S & C). auto.
  Qed.

  Lemma C52_exact_lemma g params args e : length params = length args ->
    Forall (fun o => In o objects) args -> wf_goal objects (map oname params) g -> declared objects g ->
    (forall n, In n (goal_preds g) -> ordinary objects n) ->
    let o := create_goal (create_object_map objects) None g params args in
    let q := reads objects (bind_vars params args e) g in
    o = OutOfFuel \/ exists r, o = Ok r /\
      (forall S : atom -> bool, result_sat (truth objects (set_of S)) r <-> meaning q (set_of S)) /\
      (r = None <-> never q) /\ (r = Some [] <-> constant q).
  Proof. intros L Ia Wf D O. apply xok_spec, create_reads; auto. Qed.

  Lemma C52_regular_lemma g params args e : length params = length args ->
    Forall (fun o => In o objects) args -> wf_goal objects (map oname params) g -> declared objects g ->
    (forall n, In n (goal_preds g) -> ordinary objects n) -> regular objects (bind_vars params args e) g ->
    let o := create_goal (create_object_map objects) None g params args in
    o = OutOfFuel \/ exists r, o = Ok r /\
      forall S : atom -> bool,
        result_sat (truth objects (set_of S)) r <-> holds objects (set_of S) (bind_vars params args e) g.
  Proof.
    intros L Ia Wf D O R. destruct (C52_exact_lemma g params args e L Ia Wf D O) as [E|(r & E & S & _)]; [left; auto|right].
    exists r. split; auto. intros S0. rewrite S. apply reads_holds; auto.
  Qed.

  Lemma C59_exact_lemma ef params args e : length params = length args ->
    Forall (fun o => In o objects) args -> wf_effs objects (map oname params) ef -> declared_effs objects ef ->
    ordinary_effs objects ef -> (forall g, In g (eff_conds ef) -> forall n, In n (goal_preds g) -> ordinary objects n) ->
    askable objects (bind_vars params args e) ef ->
    let o := create_effs (create_object_map objects) None ef params args in
    let q := reads_effs objects (bind_vars params args e) ef in
    o = OutOfFuel \/ exists r, o = Ok r /\
      (forall S : atom -> bool, result_sat (truth objects (set_of S)) r <-> meaning q (set_of S)) /\
      (r = None <-> never q) /\ (r = Some [] <-> constant q).
  Proof. intros L Ia Wf D O Og A. apply xok_spec, create_effs_reads; auto. Qed.

  (** ** When the normal form of an effect throws *)

  Lemma stops_app l l' : stops (l ++ l') <-> stops l \/ ((forall t n, In (t, n) l -> ~ n) /\ stops l').
  Proof.
    induction l as [|[t n] l IH]; cbn [List.app stops].
    - split; [|intros [[]|[_ H]]; auto]. intros H. right. split; auto.
    - rewrite IH. split.
      + intros [H|(N & [H|[A H]])]; auto. right. split; auto. intros t' n' [Q|I]; [congruence|eauto].
      + intros [[H|[N H]]|[A H]]; auto. right. split; [apply (A t n); left; auto|]. right. split; auto.
        intros t' n' I. apply (A t' n'). right; auto.
  Qed.

  (** A loop over instances: it throws, or ends at an impossible one, or has their
      normal forms. *)
  Definition tx (t n : Prop) (q : reading) (o : outcome (option (list dnf))) : Prop :=
    o = OutOfFuel \/ (t /\ o = Throw ERuntime) \/ (~ t /\ n /\ o = Ok None /\ never q /\ ~ constant q) \/
    (~ t /\ ~ n /\ exists ds, o = Ok (Some ds) /\ lres q ds).

  Lemma tx_same t t' n n' q q' o : (t <-> t') -> (n <-> n') -> same q q' -> tx t n q o -> tx t' n' q' o.
  Proof.
    intros T N E [H|[(H & K)|[(H & K & L & M & C)|(H & K & ds & L & X)]]]; [left; auto|right; left; tauto| |].
    - right; right; left. split; [tauto|]. split; [tauto|]. split; auto. destruct E as [E1 E2].
      split; [|tauto]. intros S Q. apply E2 in Q. exact (M S Q).
    - right; right; right. split; [tauto|]. split; [tauto|]. exists ds. split; auto. eapply lres_same; eauto.
  Qed.

  Lemma collect_tx {A} (f : A -> outcome (option (list dnf))) (inst : A -> list (Prop * Prop)) (q : A -> reading) l :
    (forall a, In a l -> tx (stops (inst a)) (exists t n, In (t, n) (inst a) /\ n) (q a) (f a)) ->
    tx (stops (flat_map inst l)) (exists t n, In (t, n) (flat_map inst l) /\ n)
       (all_of (fun r => exists a, In a l /\ r = q a)) (collect true f l).
  Proof.
    induction l as [|a l IH]; intros H; cbn [collect flat_map].
    - right; right; right. cbn [stops]. split; [tauto|]. split; [intros (t & n & [] & _)|].
      exists []. split; auto. apply lres_nil.
    - destruct (H a (or_introl eq_refl)) as [E|[(T & E)|[(T & N & E & M & C)|(T & N & ds & E & K)]]]; rewrite E; cbn [bind].
      + left; auto.
      + right; left. split; auto. rewrite stops_app. auto.
      + right; right; left. rewrite stops_app. split; [|split; [|split; [|split]]]; auto.
        * intros [Q|[Q _]]; [auto|]. destruct N as (t & n & I & N). exact (Q t n I N).
        * destruct N as (t & n & I & N). exists t, n. rewrite in_app_iff. auto.
        * intros S Q. apply (M S), Q. exists a. split; [left|]; auto.
        * intros Q. apply C, Q. exists a. split; [left|]; auto.
      + assert (NN : forall t n, In (t, n) (inst a) -> ~ n) by (intros t n I Q; apply N; eauto).
        assert (SA : stops (inst a ++ flat_map inst l) <-> stops (flat_map inst l)) by (rewrite stops_app; tauto).
        assert (NA : (exists t n, In (t, n) (inst a ++ flat_map inst l) /\ n) <-> exists t n, In (t, n) (flat_map inst l) /\ n).
        { split; intros (t & n & I & Q); exists t, n; rewrite in_app_iff in *; [|auto].
          destruct I as [I|I]; [destruct (NN t n I Q)|auto]. }
        destruct (IH (fun x I => H x (or_intror I))) as [E'|[(T' & E')|[(T' & N' & E' & M' & C')|(T' & N' & ds' & E' & K')]]];
          cbn [collect] in E'; rewrite E'; cbn [bind option_map].
        * left; auto.
        * right; left. tauto.
        * right; right; left. split; [tauto|]. split; [tauto|]. split; auto. cbn in *. split.
          -- intros S Q. apply (M' S). intros r (x & I & ->). apply Q. eauto.
          -- intros Q. apply C'. intros r (x & I & ->). apply Q. eauto.
        * right; right; right. split; [tauto|]. split; [tauto|]. exists (ds ++ ds'). split; auto.
          eapply lres_same; [apply both_all|]. apply lres_app; auto.
  Qed.

  Lemma one_tx (t : Prop) q o : (o = OutOfFuel \/ (t /\ o = Throw ERuntime) \/ (~ t /\ xok q o)) ->
    tx (stops [(t, never q)]) (exists t' n, In (t', n) [(t, never q)] /\ n) q (one o).
  Proof.
    assert (NE : (exists t' n : Prop, In (t', n) [(t, never q)] /\ n) <-> never q).
    { split; [intros (t' & n & [Q|[]] & N); injection Q as <- <-; exact N|intros N; exists t, (never q); cbn; auto]. }
    intros [E|[(T & E)|(T & X)]].
    - left. unfold one. rewrite E. auto.
    - right; left. unfold one. rewrite E. cbn. auto.
    - pose proof (one_lx q o X) as Y. destruct Y as [E|[(E & N & C)|(ds & E & K)]]; [left; auto| |].
      + right; right; left. cbn [stops]. rewrite NE. tauto.
      + right; right; right. cbn [stops]. rewrite NE. split; [tauto|]. split; [|eauto].
        destruct X as [E'|(r & E' & X)]; unfold one in E; rewrite E' in E; cbn [bind] in E; [discriminate|].
        intros N. apply (xres_none _ _ X) in N. subst r. discriminate.
  Qed.

  Definition instances_of (env : assignment) (f : list object * effs) : list (Prop * Prop) :=
    map (fun t => (rejects objects (bind_vars (fst f) t env) (snd f), never (reads_effs objects (bind_vars (fst f) t env) (snd f))))
        (tuples objects (fst f)).

  Lemma rejects_unfold env fs adds dels cs : rejects objects env (Effs fs adds dels cs) <->
    stops (flat_map (instances_of env) fs) \/
    ((forall t n, In (t, n) (flat_map (instances_of env) fs) -> ~ n) /\
     exists c, In c cs /\ ~ never (reads objects env (fst c)) /\
       (rejects objects env (snd c) \/ (constant (reads objects env (fst c)) /\ never (reads_effs objects env (snd c))))).
  Proof.
    cbn [rejects].
    assert (Q : (fix go fs := match fs with
                      | [] => []
                      | (vars, b) :: fs' =>
                          map (fun t => (rejects objects (bind_vars vars t env) b,
                                         never (reads_effs objects (bind_vars vars t env) b)))
                              (tuples objects vars) ++ go fs'
                      end) fs = flat_map (instances_of env) fs).
    { induction fs as [|[vars b] fs IH]; auto. rewrite IH. reflexivity. }
    rewrite Q. rewrite (any_pairs (fun g b => ~ never (reads objects env g) /\
      (rejects objects env b \/ (constant (reads objects env g) /\ never (reads_effs objects env b))))). tauto.
  Qed.

  Theorem create_effs_outcome ef : forall params args e, length params = length args ->
    Forall (fun o => In o objects) args ->
    wf_effs objects (map oname params) ef -> declared_effs objects ef ->
    ordinary_effs objects ef -> (forall g, In g (eff_conds ef) -> forall n, In n (goal_preds g) -> ordinary objects n) ->
    let env := bind_vars params args e in
    let o := create_effs om None ef params args in
    o = OutOfFuel \/ (rejects objects env ef /\ o = Throw ERuntime) \/
    (~ rejects objects env ef /\ xok (reads_effs objects env ef) o).
  Proof.
    induction ef as [fs adds dels cs IHf IHc] using effs_ind'. intros params args e L Ia Wf D O Og.
    destruct Wf as (Wfs & Wa & Wd & Wc). destruct D as (Df & Da & Dd & Dc).
    rewrite (all_pairs (fun vars b => vars <> [] /\ (tuple_count objects vars < 2 ^ 31)%Z /\
                 wf_effs objects (map oname params ++ map oname vars) b)) in Wfs.
    rewrite (all_pairs (fun g b => wf_goal objects (map oname params) g /\ wf_effs objects (map oname params) b)) in Wc.
    rewrite (all_pairs (fun (_ : list object) b => declared_effs objects b)) in Df.
    rewrite (all_pairs (fun g b => declared objects g /\ declared_effs objects b)) in Dc.
    assert (Of : forall vars b, In (vars, b) fs -> ordinary_effs objects b /\
              (forall g, In g (eff_conds b) -> forall n, In n (goal_preds g) -> ordinary objects n)).
    { intros vars b I. split.
      - intros s Is. apply O. cbn [eff_sigs]. rewrite !in_app_iff. left.
        apply in_flat_map. exists (vars, b). auto.
      - intros g Ig. apply Og. cbn [eff_conds]. apply in_app_iff. left. apply in_flat_map. exists (vars, b). auto. }
    assert (Oc : forall g b, In (g, b) cs -> ordinary_effs objects b /\
              (forall n, In n (goal_preds g) -> ordinary objects n) /\
              (forall g, In g (eff_conds b) -> forall n, In n (goal_preds g) -> ordinary objects n)).
    { intros g b I. split; [|split].
      - intros s Is. apply O. cbn [eff_sigs]. rewrite !in_app_iff.
        assert (In s (flat_map (fun c => eff_sigs (snd c)) cs)) by (apply in_flat_map; exists (g, b); auto). tauto.
      - apply Og. cbn [eff_conds]. apply in_app_iff. right. apply in_flat_map. exists (g, b). cbn. auto.
      - intros g' Ig. apply Og. cbn [eff_conds]. apply in_app_iff. right. apply in_flat_map. exists (g, b). cbn. auto. }
    assert (Oa : forall p, In p adds -> ordinary objects (pname p)).
    { intros p I. apply (O (true, pname p)). cbn [eff_sigs]. rewrite !in_app_iff, !in_map_iff. eauto 6. }
    assert (Od : forall p, In p dels -> ordinary objects (pname p)).
    { intros p I. apply (O (false, pname p)). cbn [eff_sigs]. rewrite !in_app_iff, !in_map_iff. eauto 7. }
    cbv zeta. cbn [create_effs].
    set (env := bind_vars params args e) in *. rewrite (rejects_unfold env fs adds dels cs).
    match goal with |- context [and_then (collect true ?fn fs) _] =>
      assert (HF : tx (stops (flat_map (instances_of env) fs)) (exists t n, In (t, n) (flat_map (instances_of env) fs) /\ n)
        (all_of (fun r => exists f, In f fs /\ r = all_of (fun r => exists objs, well_typed objects (fst f) objs /\
                  r = reads_effs objects (bind_vars (fst f) objs env) (snd f)))) (collect true fn fs)) end.
    { apply (collect_tx (fun f : list object * effs => let (vars, b) := f in
             let* ts := var_tuples om vars in
             collect true (fun t => one (create_effs om None b (params ++ vars) (args ++ t))) ts) (instances_of env)
             (fun f => all_of (fun r => exists objs, well_typed objects (fst f) objs /\
                  r = reads_effs objects (bind_vars (fst f) objs env) (snd f)))).
      intros [vars b] I. cbn [fst snd]. destruct (Wfs _ _ I) as (Nv & C & Wb).
      rewrite (tuples_exact objects W vars Nv C : var_tuples om vars = _). cbn [bind].
      assert (EI : instances_of env (vars, b) = flat_map (fun t => [(rejects objects (bind_vars (params ++ vars) (args ++ t) e) b,
          never (reads_effs objects (bind_vars (params ++ vars) (args ++ t) e) b))]) (tuples objects vars)).
      { unfold instances_of. cbn [fst snd]. unfold env. induction (tuples objects vars) as [|t ts IH]; auto.
        cbn [map flat_map List.app]. rewrite IH, bind_vars_app by auto. reflexivity. }
      rewrite EI.
      eapply tx_same; [reflexivity|reflexivity| |
        apply (collect_tx (fun t => one (create_effs om None b (params ++ vars) (args ++ t)))
          (fun t => [(rejects objects (bind_vars (params ++ vars) (args ++ t) e) b,
          never (reads_effs objects (bind_vars (params ++ vars) (args ++ t) e) b))])
        (fun t => reads_effs objects (bind_vars (params ++ vars) (args ++ t) e) b))].
      - apply all_same. intros r. unfold env. split.
        + intros (t & Ht & ->). rewrite bind_vars_app by auto. exists t. split; auto. apply tuples_In; auto.
        + intros (t & Ht & ->). exists t. rewrite bind_vars_app by auto. split; auto. apply tuples_In; auto.
      - intros t Ht. apply tuples_In in Ht. apply one_tx. destruct (Of _ _ I). apply (IHf vars b I); auto.
        + rewrite !app_length. apply FormulaFacts.well_typed_length in Ht. lia.
        + apply Forall_app. split; auto. eapply well_typed_In; eauto.
        + rewrite map_app. auto.
        + apply (Df _ _ I). }
    destruct HF as [E|[(T & E)|[(T & N & E & M & C)|(T & N & foralls & E & Lf)]]]; unfold and_then; rewrite E; cbn [bind].
    { left; auto. }
    { right; left. auto. }
    { right; right. split.
      { intros [Q|[Q _]]; [auto|]. destruct N as (t & n & I & N). exact (Q t n I N). }
      eapply xok_same; [apply reads_effs_same|].
      right. exists None. split; auto. split; [discriminate|]. split.
      - intros S. cbn [result_sat both meaning]. split; [tauto|]. intros [K _]. exact (M S K).
      - cbn [both constant]. split; [discriminate|]. tauto. }
    assert (NN : forall t n, In (t, n) (flat_map (instances_of env) fs) -> ~ n) by (intros t n I Q; apply N; eauto).
    destruct (literals_x adds dels params args e L Ia Wa Wd Da Dd Oa Od) as (pos & neg & Ep & En & Ll).
    rewrite Ep, En. cbn [bind].
    match goal with |- context [mapM ?f cs] => set (cf := f) end.
    set (rj := fun c : goal * effs => ~ never (reads objects env (fst c)) /\
       (rejects objects env (snd c) \/ (constant (reads objects env (fst c)) /\ never (reads_effs objects env (snd c))))).
    assert (HC : forall cb, In cb cs -> cf cb = OutOfFuel \/ (rj cb /\ cf cb = Throw ERuntime) \/ (~ rj cb /\ exists ds, cf cb = Ok ds /\
               lres (when_of (reads objects env (fst cb)) (reads_effs objects env (snd cb))) ds)).
    { intros [g b] I. unfold rj. cbn [fst snd]. unfold cf.
      destruct (Wc _ _ I) as [Wg Wb]. destruct (Dc _ _ I) as [Dg Db]. destruct (Oc _ _ I) as (Ob & Ogg & Ogb).
      destruct (create_reads g params args e L Ia Wg Dg Ogg) as [Eg|(r & Eg & Xg)];
        rewrite Eg; cbn [bind]; [left; auto|].
      fold env in Xg. pose proof (xres_none _ _ Xg) as XN.
      destruct r as [cond|].
      - assert (Ng : ~ never (reads objects env g)) by (intros Q; apply XN in Q; discriminate).
        pose proof (IHc g b I params args e L Ia Wb Db Ob Ogb) as X. cbv zeta in X. fold env in X.
        destruct X as [Eb|[(Rb & Eb)|(Rb & Xb)]].
        + rewrite Eb. left; auto.
        + rewrite Eb. right; left. auto.
        + assert (D : constant (reads objects env g) /\ never (reads_effs objects env b) \/
            ~ (constant (reads objects env g) /\ never (reads_effs objects env b)) \/
            create_effs om None b params args = OutOfFuel).
          { destruct Xb as [Eb|(rb & Eb & Xb)]; [auto|].
            destruct (xres_kinds _ _ Xg) as [(_ & _ & C)|[(_ & C & _)|(_ & _ & _ & C & _)]]; [tauto| |tauto].
            destruct (xres_kinds _ _ Xb) as [(_ & N' & _)|[(_ & _ & _ & N')|(_ & _ & _ & _ & N')]]; tauto. }
          destruct D as [[C N']|[D|Eb]].
          * destruct Xb as [Eb|(rb & Eb & Xb)]; rewrite Eb; cbn [bind]; [left; auto|]. right; left.
            split; [auto|]. apply Xg in C. injection C as ->. rewrite (proj2 (xres_none _ _ Xb) N'). auto.
          * destruct (when_x _ _ cond _ Xg Xb D) as [Ew|(ds & Ew & Lw)]; [left; exact Ew|right; right].
            split; [tauto|]. exists ds. split; auto.
          * rewrite Eb. left; auto.
      - pose proof (proj1 XN eq_refl) as Nv.
        assert (Cg : ~ constant (reads objects env g)) by (intros Q; apply Xg in Q; discriminate).
        right; right. split; [tauto|]. exists []. split; auto. split; [constructor|]. cbn [constant meaning when_of]. split.
        + intros S. split; [|intros _ d []]. intros _. split; [tauto|]. intros _. right; left. apply Nv.
        + split; [auto|]. intros _ d []. }
    assert (HM : mapM cf cs = OutOfFuel \/ ((exists c, In c cs /\ rj c) /\ mapM cf cs = Throw ERuntime) \/
        (~ (exists c, In c cs /\ rj c) /\ exists dss, mapM cf cs = Ok dss /\
        lres (all_of (fun r => exists c, In c cs /\ r = when_of (reads objects env (fst c)) (reads_effs objects env (snd c)))) (concat dss))).
    { clear -HC. clearbody cf rj. induction cs as [|c cs IH]; cbn [mapM].
      - right; right. split; [intros (c & [] & _)|]. exists []. split; auto.
        apply (lres_nil (fun c : goal * effs => when_of (reads objects env (fst c)) (reads_effs objects env (snd c)))).
      - destruct (HC c (or_introl eq_refl)) as [E|[(R & E)|(R & ds & E & X)]]; rewrite E; cbn [bind]; [left; auto| |].
        { right; left. split; auto. exists c. cbn; auto. }
        destruct IH as [E'|[((c' & I & R') & E')|(R' & dss & E' & X')]]; [intros x I; apply HC; right; auto| | |];
          rewrite E'; cbn [bind]; [left; auto| |].
        { right; left. split; auto. exists c'. cbn; auto. }
        right; right. split; [intros (x & [<-|I] & Q); [auto|]; apply R'; eauto|].
        exists (ds :: dss). split; auto. cbn [concat].
        eapply lres_same; [apply (both_all (fun c : goal * effs => when_of (reads objects env (fst c)) (reads_effs objects env (snd c))))|].
        apply lres_app; auto. }
    fold rj.
    destruct HM as [E'|[(R & E')|(R & dss & E' & Ld)]]; rewrite E'; cbn [bind]; [left; auto|right; left; auto|].
    right; right. split; [intros [Q|[_ Q]]; [auto|exact (R Q)]|].
    eapply xok_same; [apply reads_effs_same|].
    pose proof (wres_app _ _ _ _ (lres_wres _ _ Lf) (wres_app _ _ _ _ Ll (lres_wres _ _ Ld))) as (G & NE & S & C).
    destruct (conjoin_ok om None grd (Val objects) ET ES _ G) as [Ec|(r & Ec & Sr & Pr)]; [left; auto|].
    right. exists r. split; auto. split; [|split].
    - intros d Q. destruct (Pr d Q) as (G' & Ne & _). split; auto.
    - intros S0. rewrite (Sr _ (Vv S0)). apply S.
    - rewrite <- C. rewrite <- conjoin_empty by (auto; congruence). rewrite Ec.
      split; [intros ->; auto|intros Q; injection Q; auto].
  Qed.

  Lemma askable_taken ef : forall env, askable objects env ef -> ~ rejects objects env ef.
  Proof.
    induction ef as [fs adds dels cs IHf IHc] using effs_ind'. intros env [Af Ac].
    rewrite (all_pairs (fun vars b => forall objs, well_typed objects vars objs -> askable objects (bind_vars vars objs env) b)) in Af.
    rewrite (all_pairs (fun g b => never (reads objects env g) \/ (askable objects env b /\
                  ~ (constant (reads objects env g) /\ never (reads_effs objects env b))))) in Ac.
    rewrite rejects_unfold. intros [H|(_ & [g b] & I & Ng & H)].
    - assert (K : forall l, (forall t n, In (t, n) l -> ~ t) -> ~ stops l).
      { induction l as [|[t n] l IH]; cbn [stops]; auto. intros Q [T|[_ S]]; [apply (Q t n); cbn; auto|].
        revert S. apply IH. intros t' n' J. apply (Q t' n'). right; auto. }
      revert H. apply K. intros t n I. apply in_flat_map in I. destruct I as ([vars b] & I & J).
      unfold instances_of in J. apply in_map_iff in J. cbn [fst snd] in J. destruct J as (objs & Q & J).
      injection Q as <- _. apply (IHf vars b I). apply (Af _ _ I), (tuples_In objects); auto.
    - cbn [fst snd] in *. destruct (Ac _ _ I) as [N|[Ab N]]; [auto|]. destruct H as [H|H]; [|auto].
      revert H. apply (IHc g b I); auto.
  Qed.

  Lemma C59_throws_lemma ef params args e : length params = length args ->
    Forall (fun o => In o objects) args ->
    wf_effs objects (map oname params) ef -> declared_effs objects ef ->
    ordinary_effs objects ef -> (forall g, In g (eff_conds ef) -> forall n, In n (goal_preds g) -> ordinary objects n) ->
    let o := create_effs (create_object_map objects) None ef params args in
    let env := bind_vars params args e in
    let q := reads_effs objects env ef in
    o = OutOfFuel \/ (rejects objects env ef /\ o = Throw ERuntime) \/
    (~ rejects objects env ef /\ exists r, o = Ok r /\
      (forall S : atom -> bool, result_sat (truth objects (set_of S)) r <-> meaning q (set_of S)) /\
      (r = None <-> never q) /\ (r = Some [] <-> constant q)).
  Proof.
    intros L Ia Wf D O Og. cbv zeta.
    destruct (create_effs_outcome ef params args e L Ia Wf D O Og) as [E|[H|[R X]]]; [left; exact E|right; left; exact H|].
    destruct (xok_spec _ _ X) as [E|K]; [left; exact E|right; right]. split; auto.
  Qed.
End WithHash.
