(** Lemmas behind C75: the plans that are printed, step by step. *)
From Coq Require Import Ascii String List Bool NArith ZArith Arith Lia Sorted.
From Verif.Model Require Import Base Object Proposition State ParameterGenerator Syntax Formula
  Effects Derived Consistency Text Pddl Objects Load Planner Search Print App.
From Verif.Spec Require Import SetSpec TypingSpec FormulaSpec EffectSpec DerivedSpec TextSpec AxiomSpec PddlSpec
  SearchSpec PlannerSpec DirectSpec LoadSpec PrintSpec AppSpec.
From Verif.Proofs Require Import FormulaFacts PddlFacts TextFacts ProblemFacts PrintState
  PlannerFacts PlannerTheorems DirectFacts AppFacts.
Import ListNotations.
Local Open Scope string_scope.
Local Open Scope list_scope.
Local Infix "+++" := String.append (at level 60, right associativity).

(** ** Nodes know how deep they are *)
Lemma stripe_eq n : String.concat "" (repeat "-" n) = fold_right (fun _ s => String "-" s) EmptyString (seq 0 n).
Proof.
  change (String.concat "" (repeat "-" n) = dashes n). induction n as [|n IH]; [reflexivity|]. rewrite dashes_S, <- IH. cbn [repeat].
  destruct n; reflexivity.
Qed.
Lemma unlines_app a b : unlines (a ++ b) = unlines a +++ unlines b.
Proof. induction a as [|x a IH]; [reflexivity|]. cbn [app unlines fold_right]. fold (unlines (a ++ b)) (unlines a). rewrite IH, app_assoc_s. reflexivity. Qed.
Lemma unlines_inj l : forall l', Forall (free_of "010") l -> Forall (free_of "010") l' -> unlines l = unlines l' -> l = l'.
Proof.
  induction l as [|x l IH]; intros [|y l'] H H' E; auto; cbn in E.
  - destruct y; discriminate.
  - destruct x; discriminate.
  - inversion H; subst. inversion H'; subst. apply app_char_inj in E as [-> E]; auto. f_equal; auto.
Qed.
Lemma concat_cons x l : String.concat "" (x :: l) = x +++ String.concat "" l.
Proof. destruct l; cbn [String.concat]; [rewrite app_nil_s|]; reflexivity. Qed.
Lemma line_unlines s : line s = unlines [s].
Proof. reflexivity. Qed.

Section Listing.
  Context `{SH : StdHash}.
  Definition listed_plan (time : string) (plan : list node) : listed :=
    mkListed time (match plan with n :: _ => state_text (nd_state n) | [] => "" end)
      (map (fun n => (nd_action n, state_text (nd_state n))) (tl plan)).
  (** The nodes of [l] lie below one another, the first at depth [i]. *)
  Fixpoint descending (i : nat) (l : list node) : Prop :=
    match l with [] => True | n :: l' => nd_depth n = i /\ descending (S i) l' end.
  Lemma descending_app l : forall i l', descending i (l ++ l') <-> descending i l /\ descending (i + length l) l'.
  Proof.
    induction l as [|n l IH]; intros i l'; cbn [app descending length].
    - rewrite Nat.add_0_r. tauto.
    - rewrite IH. replace (i + S (length l)) with (S i + length l) by lia. tauto.
  Qed.
  Lemma steps_text l : forall i, descending (S i) l ->
    String.concat "" (map (fun n => line (node_text n)) l) = unlines (step_lines (S i) (map (fun n => (nd_action n, state_text (nd_state n))) l)).
  Proof.
    induction l as [|n l IH]; intros i H; [reflexivity|]. destruct H as [Hd H]. cbn [map step_lines].
    rewrite concat_cons, (IH (S i) H). cbn [unlines fold_right]. fold (unlines (step_lines (S (S i)) (map (fun n => (nd_action n, state_text (nd_state n))) l))).
    unfold line, endl, node_text. rewrite Hd, stripe_eq. cbn [Nat.ltb Nat.leb]. fold bold_on bold_off. rewrite !app_assoc_s. reflexivity.
  Qed.
  Lemma report_listing (seconds : nat -> string) k n l : nd_depth n = 0 -> nd_action n = "" -> descending 1 l ->
    plan_report seconds k (n :: l) = unlines (listing (listed_plan (seconds k) (n :: l))).
  Proof.
    intros H0 Ha H. unfold plan_report, listing, listed_plan. cbn [li_time li_start li_steps tl]. cbn [map].
    rewrite concat_cons, (steps_text l 0 H), !unlines_app. generalize (unlines (step_lines 1 (map (fun n => (nd_action n, state_text (nd_state n))) l))).
    intros u. unfold node_text. rewrite H0, Ha. generalize (state_text (nd_state n)). intros v.
    change (unlines [seconds k +++ "s"; ?x]) with ((seconds k +++ "s") +++ String "010" (x +++ endl)).
    unfold line, endl. rewrite !app_assoc_s. cbn [append]. rewrite !app_assoc_s. reflexivity.
  Qed.
End Listing.

(** ** The paths of the search *)
Section Paths.
  Context `{SH : StdHash} (L : limits) (p : pddl) (ar : list (string * nat)) (rank drank : string -> nat).
  Context (isgoal : node -> bool) (kids : node -> list node) (d : nat) (root : node).
  Context (P : node -> Prop) (Proot : P root) (Droot : nd_depth root = 0).
  Context (Pkids : forall n c, P n -> isgoal n = false -> In c (kids n) -> P c /\ nd_depth c = S (nd_depth n)).
  Lemma last_snoc (l : list node) x : last (l ++ [x]) root = x.
  Proof. induction l as [|y l IH]; [reflexivity|]. cbn [app last]. destruct l; auto. Qed.
  Lemma level_descending k : forall path, In path (level isgoal kids root k) ->
    length path = S k /\ (exists r, path = root :: r) /\ descending 0 path /\ P (last path root) /\ nd_depth (last path root) = k.
  Proof.
    induction k as [|k IH]; intros path H; cbn [level] in H.
    - destruct H as [<-|[]]. split; [reflexivity|]. split; [exists []; reflexivity|]. cbn. auto 6.
    - apply in_flat_map in H as (q & Hq & H). destruct (IH q Hq) as (Hl & (r & ->) & Hd & Hp & Hk).
      cbv zeta in H. destruct (isgoal (last (root :: r) root)) eqn:E; [destruct H|]. apply in_map_iff in H as (c & <- & Hc).
      destruct (Pkids _ _ Hp E Hc) as [Pc Dc]. rewrite last_snoc.
      split; [rewrite app_length, Hl; cbn; lia|]. split; [exists (r ++ [c]); reflexivity|]. split; [|split; [auto|]].
      + apply (proj2 (descending_app (root :: r) 0 [c])). split; auto. cbn [descending Nat.add]. split; auto. rewrite Dc, Hk, Hl. reflexivity.
      + rewrite Dc, Hk. reflexivity.
  Qed.
  Lemma visits_descending path : In path (visits isgoal kids d root) -> exists r, path = root :: r /\ descending 1 r.
  Proof.
    intros H. apply in_flat_map in H as (k & _ & H). destruct (level_descending _ _ H) as (_ & (r & ->) & [_ Hd] & _). eauto.
  Qed.
End Paths.
Section Same.
  Context {N : Type} (isgoal : N -> bool) (kids : N -> list N) (d : nat) (root : N).
  Context (show : N -> string) (count : nat -> string) (report report' : nat -> list N -> string).
  Lemma reports_same l : (forall k plan, In plan l -> report k plan = report' k plan) -> forall k, reports report k l = reports report' k l.
  Proof. induction l as [|x l IH]; intros H k; cbn [reports]; auto. rewrite (H k x), IH; cbn; auto. intros; apply H; cbn; auto. Qed.
  Lemma narrate_same l : (forall k plan, In plan l -> report k plan = report' k plan) -> forall k known,
    narrate isgoal kids d root show count report k known l = narrate isgoal kids d root show count report' k known l.
  Proof.
    induction l as [|x l IH]; intros H k known; cbn [narrate]; auto. cbv zeta.
    rewrite (H k x), !IH; cbn; auto; intros; apply H; cbn; auto.
  Qed.
End Same.

(** ** Reading the list of plans *)
Lemma stripe_free c n : c <> "-"%char -> free_of c (String.concat "" (repeat "-" n)).
Proof.
  intros H. induction n as [|n IH]; [intros []|]. cbn [repeat]. rewrite concat_cons. apply free_app. split; auto.
  intros [J|[]]. congruence.
Qed.
Ltac plain_text := let J := fresh in intros J; cbn in J; intuition discriminate.
Lemma steps_one_line l : forall i, Forall (fun st => free_of "010" (fst st) /\ free_of "027" (fst st) /\ free_of "010" (snd st)) l ->
  Forall (free_of "010") (step_lines i l).
Proof.
  induction l as [|[c s] l IH]; intros i H; [constructor|]. inversion H as [|? ? (H1 & H2 & H3) H4]; subst. cbn [fst snd step_lines] in *.
  constructor; auto. rewrite !free_app. repeat split; auto; try plain_text. apply stripe_free. discriminate.
Qed.
Lemma listing_one_line x : legible x -> Forall (free_of "010") (listing x).
Proof.
  intros (_ & H1 & H2 & H3). unfold listing. constructor.
  { apply free_app. split; auto. plain_text. }
  constructor. { rewrite !free_app. repeat split; auto; plain_text. }
  apply Forall_app. split; [apply steps_one_line; auto|]. constructor; [plain_text|constructor].
Qed.
Lemma steps_inj l : forall l' i r r',
  Forall (fun st => free_of "010" (fst st) /\ free_of "027" (fst st) /\ free_of "010" (snd st)) l ->
  Forall (fun st => free_of "010" (fst st) /\ free_of "027" (fst st) /\ free_of "010" (snd st)) l' ->
  step_lines i l ++ "" :: r = step_lines i l' ++ "" :: r' -> l = l' /\ r = r'.
Proof.
  induction l as [|[c s] l IH]; intros [|[c' s'] l'] i r r' H H' E; cbn [step_lines app] in E.
  - injection E as E. auto.
  - discriminate E.
  - discriminate E.
  - inversion H as [|? ? (H1 & H2 & H3) H4]; subst. inversion H' as [|? ? (H1' & H2' & H3') H4']; subst. cbn [fst snd] in *.
    apply (f_equal (fun l => (hd "" l, tl l))) in E. cbn [hd tl] in E. apply pair_equal_spec in E as [E1 E2].
    destruct (IH _ _ _ _ H4 H4' E2) as [-> ->]. split; auto. f_equal.
    apply append_inj in E1. apply append_inj in E1. apply append_inj in E1.
    assert (A : forall c s, c +++ " -> " +++ String "027" "[0m" +++ s = (c +++ " -> ") +++ String "027" ("[0m" +++ s)) by (intros; rewrite !app_assoc_s; reflexivity).
    rewrite !A in E1. apply app_char_inj in E1 as [E1 E3]; [|apply free_app; split; auto; plain_text..].
    apply append_inj in E3 as ->. f_equal. change " -> " with (" " +++ "-" +++ ">" +++ " ") in E1. rewrite <- !app_assoc_s in E1.
    do 4 apply app_last_inj in E1. exact E1.
Qed.
Lemma readable_lemma x : forall y last last', Forall legible x -> Forall legible y ->
  free_of "010" last -> free_of "010" last' -> (exists s, last = String "F" s) -> (exists s, last' = String "F" s) ->
  unlines (flat_map listing x) +++ line last = unlines (flat_map listing y) +++ line last' -> x = y /\ last = last'.
Proof.
  intros y last last' Hx Hy F F' B B' E. rewrite !line_unlines, <- !unlines_app in E.
  assert (Fl : forall l z, Forall legible l -> free_of "010" z -> Forall (free_of "010") (flat_map listing l ++ [z])).
  { intros l z Hl Hz. apply Forall_app. split; [|constructor; [exact Hz|constructor]]. apply Forall_forall. intros t Ht. apply in_flat_map in Ht as (u & Hu & Ht).
    rewrite Forall_forall in Hl. pose proof (listing_one_line _ (Hl _ Hu)) as X. rewrite Forall_forall in X. auto. }
  apply unlines_inj in E; [|apply Fl; auto..]. clear Fl. revert y Hx Hy E.
  assert (Nf : forall z s, legible z -> (exists r, s = String "F" r) -> li_time z +++ "s" <> s).
  { intros z s ((c & k & u & Ez & Dc) & _) (r & ->) J. rewrite Ez in J. cbn in J. injection J as -> _.
    pose proof (digit_lt _ _ Dc). apply digit_code in Dc. do 10 (destruct k as [|k]; [discriminate Dc|]). lia. }
  induction x as [|a x IH]; intros [|b y] Hx Hy E; cbn [flat_map app] in E.
  - injection E as ->. auto.
  - inversion Hy; subst. exfalso. apply (f_equal (hd "")) in E. exact (Nf b last ltac:(assumption) B (eq_sym E)).
  - inversion Hx; subst. exfalso. apply (f_equal (hd "")) in E. exact (Nf a last' ltac:(assumption) B' E).
  - inversion Hx as [|? ? Ha Hx']; subst. inversion Hy as [|? ? Hb Hy']; subst.
    destruct a as [ta sa la], b as [tb sb lb]. unfold listing in E. cbn [li_time li_start li_steps] in E.
    rewrite <- !app_assoc in E. cbn [app] in E.
    apply (f_equal (fun l => (hd "" l, (hd "" (tl l), tl (tl l))))) in E. cbn [hd tl] in E.
    apply pair_equal_spec in E as [E1 E]. apply pair_equal_spec in E as [E2 E]. apply app_last_inj in E1 as ->.
    do 2 apply append_inj in E2. subst sb.
    destruct Ha as (_ & _ & _ & Ha). destruct Hb as (_ & _ & _ & Hb). cbn [li_steps] in Ha, Hb.
    apply steps_inj in E as [-> E]; auto. destruct (IH _ Hx' Hy' E) as [-> ->]. auto.
Qed.

(** ** The whole program *)
Lemma main_listing `{SH : StdHash} domain_in problem_in check seconds L argv a l st text ok ar rank drank :
  command argv a -> load domain_in problem_in L (ar_domain a) (ar_problem a) true = Ok (l, st) ->
  check l = (text, Ok ok) ->
  let p := ld_pddl l in
  good_domain L p ar rank drank -> Forall (wf_axiom (pd_symbols p)) (pd_axioms p) ->
  Forall (fun o => okind o = KConst) (pd_symbols p) ->
  Forall (fun o => (tuple_count (pd_symbols p) (op_params o) < 2 ^ 31)%Z) (pd_ops p) -> pd_actions p <> [] ->
  Forall word (map oname (pd_symbols p)) -> Forall (fun o => free_of "("%char (op_name o)) (pd_ops p) ->
  NoDup (map op_name (pd_ops p)) -> ordinary_domain p ->
  exists K0, forall K, K0 <= K ->
  exists P I isgoal kids M depth count,
    let root := root_node (pd_init p) in
    let d := N.to_nat (ar_depth a) in
    let plans := found isgoal kids d root in
    let report k plan := unlines (listing (mkListed (seconds k) (state_text (pd_init p))
                           (map (fun n => (nd_action n, state_text (nd_state n))) (tl plan)))) in
    steady (node_goal p) (node_children L p K) P I isgoal kids /\ P root /\ I st /\
    digits depth (Z.of_N (ar_depth a)) /\ (forall n, numeral (count n) n) /\
    (forall fuel calls, M <= fuel -> M <= calls ->
       main domain_in problem_in check seconds L K fuel calls argv =
         (heading a depth +++ text +++ line "Planning:" +++
          (if ar_verbose a then narrate isgoal kids d root node_text count report 0 0 (visits isgoal kids d root)
           else reports report 0 plans) +++
          summary (count (length plans)) (seconds (length plans)), Ok tt)) /\
    NoDup (map plan_calls plans) /\ StronglySorted (fun a b => length a <= length b) (map plan_calls plans) /\
    forall t, represents (pd_init p) t -> forall cs, In cs (map plan_calls plans) <-> direct L p [] d t cs.
Proof.
  intros C Hl Hc p G Wa Kc Hcount Ha Hw Hops Nops Ho.
  destruct (main_lemma domain_in problem_in check seconds L argv a l st text ok ar rank drank C Hl Hc G Wa Kc Hcount Ha Hw Hops Nops Ho) as (K0 & H).
  exists (Nat.max K0 (enough p)). intros K HK. destruct (H K ltac:(lia)) as (P & I & isgoal & kids' & M & depth & count & X).
  cbv zeta in X. destruct X as (St & Bl & Pr & Is & Hd & Hn & Hm & Hp). fold p in St, Pr, Is, Hm, Hp.
  exists P, I, isgoal, kids', M, depth, count. cbv zeta. repeat (split; [assumption|]). split; [|exact Hp].
  assert (E : forall k plan, In plan (visits isgoal kids' (N.to_nat (ar_depth a)) (root_node (pd_init p))) ->
    plan_report seconds k plan = unlines (listing (mkListed (seconds k) (state_text (pd_init p))
      (map (fun n => (nd_action n, state_text (nd_state n))) (tl plan))))).
  { intros k plan Hplan. destruct (visits_descending isgoal kids' (N.to_nat (ar_depth a)) (root_node (pd_init p)) P Pr eq_refl) with (path := plan) as (r & -> & Hr); auto.
    - intros n c Pn Gn Ic. split; [eapply (st_nodes _ _ _ _ _ _ St); eauto|].
      destruct (st_kids _ _ _ _ _ _ St n st Pn Gn Is) as (w' & Ek & _).
      apply (children_fresh _ _ _ _ _ _ _ (Bl _ Pn) Ek c Ic).
    - apply report_listing; auto. }
  intros fuel calls Lf Lc. rewrite (Hm fuel calls Lf Lc). destruct (ar_verbose a).
  - erewrite narrate_same; [reflexivity|exact E].
  - erewrite reports_same; [reflexivity|]. intros k plan Ip. apply filter_In in Ip as [Ip _]. exact (E k plan Ip).
Qed.

(** ** The plans can be read from what is printed *)
Section Read.
  Context (seconds : nat -> string) (start : string).
  Fixpoint numbered (k : nat) (plans : list (list (string * string))) : list listed :=
    match plans with [] => [] | x :: l => mkListed (seconds k) start x :: numbered (S k) l end.
  Lemma numbered_steps plans : forall k, map li_steps (numbered k plans) = plans.
  Proof. induction plans as [|x l IH]; intros k; cbn [numbered map li_steps]; f_equal; auto. Qed.
  Lemma reports_numbered plans : forall k,
    reports (fun k steps => unlines (listing (mkListed (seconds k) start steps))) k plans = unlines (flat_map listing (numbered k plans)).
  Proof. induction plans as [|x l IH]; intros k; cbn [reports numbered flat_map]; [reflexivity|]. rewrite IH, unlines_app. reflexivity. Qed.
  Lemma numbered_legible plans : (forall k steps, In steps plans -> legible (mkListed (seconds k) start steps)) ->
    forall k, Forall legible (numbered k plans).
  Proof. induction plans as [|x l IH]; intros H k; cbn [numbered]; constructor; [apply H; cbn; auto|]. apply IH. intros; apply H; cbn; auto. Qed.
End Read.
Lemma reports_readable seconds seconds' start start' plans plans' count count' time time' :
  (forall k steps, In steps plans -> legible (mkListed (seconds k) start steps)) ->
  (forall k steps, In steps plans' -> legible (mkListed (seconds' k) start' steps)) ->
  Forall (free_of "010") [count; count'; time; time'] ->
  reports (fun k steps => unlines (listing (mkListed (seconds k) start steps))) 0 plans +++ summary count time =
  reports (fun k steps => unlines (listing (mkListed (seconds' k) start' steps))) 0 plans' +++ summary count' time' ->
  plans = plans'.
Proof.
  intros H H' F E. rewrite !reports_numbered in E. unfold summary in E.
  inversion F as [|? ? F1 F']; subst. inversion F' as [|? ? F2 F'']; subst. inversion F'' as [|? ? F3 F3']; subst. inversion F3' as [|? ? F4 _]; subst.
  apply readable_lemma in E as [E _]; try (eexists; reflexivity); try (apply numbered_legible; assumption);
    try (rewrite !free_app; repeat split; auto; plain_text).
  rewrite <- (numbered_steps seconds start plans 0), <- (numbered_steps seconds' start' plans' 0), E. reflexivity.
Qed.
