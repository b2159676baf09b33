(** Lemmas on the listing of a domain: when there is one, and what can be read
    from it. *)
From Coq Require Import Ascii String List Bool Arith Lia.
From Verif.Model Require Import Base Object Proposition State Syntax Derived Print Listing.
From Verif.Spec Require Import TextSpec EffectSpec ConstructSpec ListingSpec.
From Verif.Proofs Require Import FormulaFacts EffectLink TextFacts PrintState.
Import ListNotations.
Local Open Scope string_scope.
Local Open Scope list_scope.
Local Infix "+++" := String.append (at level 60, right associativity).

(** ** Outcomes *)
Definition verdict (o : outcome string) (T U : Prop) : Prop :=
  (exists t, o = Ok t /\ T /\ U) \/ (o = UB /\ ~ T) \/ (o = Throw ERuntime /\ ~ U).

Lemma verdict_iff o T U T' U' : (T <-> T') -> (U <-> U') -> verdict o T U -> verdict o T' U'.
Proof. unfold verdict. firstorder. Qed.
Lemma verdict_bind o f T U T' U' : verdict o T U -> (forall t, o = Ok t -> verdict (f t) T' U') ->
  verdict (bind o f) (T /\ T') (U /\ U').
Proof.
  intros [(t & E & A & B)|[(E & A)|(E & A)]] H.
  - specialize (H t E). rewrite E. cbn [bind]. unfold verdict in *. firstorder.
  - rewrite E. right; left. cbn. tauto.
  - rewrite E. right; right. cbn. tauto.
Qed.
Lemma verdict_done t : verdict (Ok t) True True.
Proof. left. eauto. Qed.
Lemma verdict_all {A} (f : address -> A -> outcome string) (T U : A -> Prop) l : forall ad,
  (forall x ad, In x l -> verdict (f ad x) (T x) (U x)) ->
  verdict (print_all f ad l) (forall x, In x l -> T x) (forall x, In x l -> U x).
Proof.
  induction l as [|x l IH]; intros ad H; cbn [print_all].
  - left. exists "". split; auto. split; intros x [].
  - eapply verdict_iff; [| |apply (verdict_bind _ _ (T x) (U x) (forall x, In x l -> T x) (forall x, In x l -> U x))].
    + cbn. split; [intros [A0 B] y [<-|I]; auto|]. intros K. split; auto.
    + cbn. split; [intros [A0 B] y [<-|I]; auto|]. intros K. split; auto.
    + apply H. left; auto.
    + intros t _. eapply verdict_iff; [| |apply verdict_bind; [apply IH; intros; apply H; right; auto|intros; apply verdict_done]]; tauto.
Qed.

Lemma type_verdict t : verdict (type_of t) (t <> []) True.
Proof. destruct t as [|n t]; cbn; [right; left|left; exists n]; split; auto. split; auto. discriminate. Qed.
Lemma typed_cons x l : typed (x :: l) <-> otype x <> [] /\ typed l.
Proof. unfold typed. cbn. split; [intros H; split; auto|]. intros [A B] y [<-|I]; auto. Qed.
Lemma typed_app l l' : typed (l ++ l') <-> typed l /\ typed l'.
Proof. unfold typed. setoid_rewrite in_app_iff. firstorder. Qed.
Lemma typed_flat {A} (f : A -> list object) l : typed (flat_map f l) <-> forall x, In x l -> typed (f x).
Proof. unfold typed. setoid_rewrite in_flat_map. firstorder. Qed.
Lemma typed_nil : typed []. Proof. intros x []. Qed.

Lemma args_verdict l : forall ad sep, verdict (print_args_loop ad sep l) (typed l) True.
Proof.
  induction l as [|x l IH]; intros ad sep; cbn [print_args_loop].
  - left. eexists. split; [reflexivity|]. split; auto. apply typed_nil.
  - eapply verdict_iff; [| |apply verdict_bind; [apply type_verdict|intros; apply verdict_bind; [apply IH|intros; apply verdict_done]]].
    + rewrite typed_cons. tauto.
    + tauto.
Qed.
Lemma print_args_verdict ad l : verdict (print_args ad l) (typed l) True.
Proof. unfold print_args. eapply verdict_iff; [| |apply verdict_bind; [apply args_verdict|intros; apply verdict_done]]; tauto. Qed.

Lemma understood_list gs (mk : list goal -> goal) : (forall g, In g gs -> occurs GOther g -> occurs GOther (mk gs)) ->
  (occurs GOther (mk gs) -> exists g, In g gs /\ occurs GOther g) ->
  (forall g, In g gs -> understood g) <-> understood (mk gs).
Proof.
  intros A B. unfold understood. split.
  - intros H K. destruct (B K) as (g & I & O). exact (H g I O).
  - intros H g I O. apply H. eauto.
Qed.
Lemma goal_verdict g : forall depth ad, verdict (print_goal depth ad g) (typed (goal_symbols g)) (understood g).
Proof.
  induction g as [n l|gs IH|gs IH|g IH|vs g IH|vs g IH|] using goal_ind'; intros depth ad; cbn [print_goal goal_symbols].
  - eapply verdict_iff; [| |apply verdict_bind; [apply print_args_verdict|intros; apply verdict_done]]; [tauto|].
    split; [intros _ O; inversion O|auto].
  - rewrite Forall_forall in IH.
    eapply verdict_iff; [| |apply verdict_bind; [apply verdict_all; intros; apply IH; auto|intros; apply verdict_done]].
    + rewrite typed_flat. tauto.
    + rewrite <- (understood_list gs GConj); [tauto|intros; econstructor; eauto|intros O; inversion O; eauto].
  - rewrite Forall_forall in IH.
    eapply verdict_iff; [| |apply verdict_bind; [apply verdict_all; intros; apply IH; auto|intros; apply verdict_done]].
    + rewrite typed_flat. tauto.
    + rewrite <- (understood_list gs GDisj); [tauto|intros; econstructor; eauto|intros O; inversion O; eauto].
  - eapply verdict_iff; [| |apply verdict_bind; [apply IH|intros; apply verdict_done]]; [tauto|].
    unfold understood. split; [intros [H _] O; inversion O; auto|]. intros H. split; auto. intros O. apply H. constructor; auto.
  - eapply verdict_iff; [| |apply verdict_bind; [apply print_args_verdict|intros; apply verdict_bind; [apply IH|intros; apply verdict_done]]].
    + rewrite typed_app. tauto.
    + unfold understood. split; [intros (_ & H & _) O; inversion O; auto|]. intros H. split; auto. split; auto. intros O. apply H. constructor; auto.
  - eapply verdict_iff; [| |apply verdict_bind; [apply print_args_verdict|intros; apply verdict_bind; [apply IH|intros; apply verdict_done]]].
    + rewrite typed_app. tauto.
    + unfold understood. split; [intros (_ & H & _) O; inversion O; auto|]. intros H. split; auto. split; auto. intros O. apply H. constructor; auto.
  - right; right. split; auto. intros H. apply H. constructor.
Qed.

Lemma literal_verdict depth sign ad p : verdict (print_literal depth sign ad p) (typed (pargs p)) True.
Proof. unfold print_literal. eapply verdict_iff; [| |apply verdict_bind; [apply print_args_verdict|intros; apply verdict_done]]; tauto. Qed.

Definition all_understood (l : list goal) : Prop := forall g, In g l -> understood g.
Lemma all_app l l' : all_understood (l ++ l') <-> all_understood l /\ all_understood l'.
Proof. unfold all_understood. setoid_rewrite in_app_iff. firstorder. Qed.
Lemma all_flat {A} (f : A -> list goal) l : all_understood (flat_map f l) <-> forall x, In x l -> all_understood (f x).
Proof. unfold all_understood. setoid_rewrite in_flat_map. firstorder. Qed.
Lemma all_cons g l : all_understood (g :: l) <-> understood g /\ all_understood l.
Proof. unfold all_understood. cbn. split; [intros H; split; auto|]. intros [A B] y [<-|I]; auto. Qed.

Lemma effs_verdict e : forall depth ad, verdict (print_effs depth ad e) (typed (effs_symbols e)) (all_understood (eff_conds e)).
Proof.
  induction e as [fs adds dels cs IHf IHc] using effs_ind'. intros depth ad. cbn [print_effs effs_symbols eff_conds].
  eapply verdict_iff; [| |apply verdict_bind; [apply verdict_all; intros; apply literal_verdict|
    intros; apply verdict_bind; [apply verdict_all; intros; apply literal_verdict|
    intros; apply verdict_bind; [apply (verdict_all _ (fun f => typed (fst f) /\ typed (effs_symbols (snd f))) (fun f => all_understood (eff_conds (snd f))))|
    intros; apply verdict_bind; [apply (verdict_all _ (fun f => typed (goal_symbols (fst f)) /\ typed (effs_symbols (snd f))) (fun f => understood (fst f) /\ all_understood (eff_conds (snd f))))|
    intros; apply verdict_done]]]]].
  - rewrite !typed_app, !typed_flat. setoid_rewrite typed_app. tauto.
  - rewrite all_app, !all_flat. setoid_rewrite all_cons. tauto.
  - intros [vars b] ad' I. cbn [fst snd].
    eapply verdict_iff; [| |apply verdict_bind; [apply print_args_verdict|intros; apply verdict_bind; [apply (IHf vars b I)|intros; apply verdict_done]]]; tauto.
  - intros [g b] ad' I. cbn [fst snd].
    eapply verdict_iff; [| |apply verdict_bind; [apply goal_verdict|intros; apply verdict_bind; [apply (IHc g b I)|intros; apply verdict_done]]]; tauto.
Qed.

Lemma domain_verdict ad d : verdict (print_domain ad d) (typed_domain d) (all_understood (domain_goals d)).
Proof.
  unfold print_domain.
  eapply verdict_iff; [| |apply verdict_bind; [apply (verdict_all _ (fun t => 2 <= List.length t) (fun _ => True))|
    intros; apply verdict_bind; [apply (verdict_all _ (fun x => otype x <> []) (fun _ => True))|
    intros; apply verdict_bind; [apply (verdict_all _ (fun p => typed (snd p)) (fun _ => True))|
    intros; apply verdict_bind; [apply (verdict_all _ (fun o => typed (op_params o) /\ typed (goal_symbols (op_pre o)) /\ typed (effs_symbols (op_effs o)))
       (fun o => understood (op_pre o) /\ all_understood (eff_conds (op_effs o))))|
    intros; apply verdict_done]]]]].
  - unfold typed_domain, domain_symbols. rewrite !typed_app, !typed_flat. setoid_rewrite typed_app. setoid_rewrite typed_app. unfold typed at 1 2. tauto.
  - unfold domain_goals. rewrite all_flat. unfold op_formulas. setoid_rewrite all_cons. tauto.
  - intros t ad' _. unfold print_type. destruct t as [|n [|m t]]; cbn.
    + right; left. split; auto. lia.
    + right; left. split; auto. lia.
    + left. eexists. split; auto. split; auto. lia.
  - intros x ad' _. unfold print_constant.
    eapply verdict_iff; [| |apply verdict_bind; [apply type_verdict|intros; apply verdict_done]]; tauto.
  - intros [n l] ad' _. unfold print_predicate. cbn [fst snd].
    eapply verdict_iff; [| |apply verdict_bind; [apply print_args_verdict|intros; apply verdict_done]]; tauto.
  - intros o ad' _. unfold print_op.
    eapply verdict_iff; [| |apply verdict_bind; [apply print_args_verdict|intros; apply verdict_bind; [apply goal_verdict|
      intros; apply verdict_bind; [apply effs_verdict|intros; apply verdict_done]]]]; tauto.
Qed.
Lemma problem_verdict ad p : verdict (print_problem ad p) (typed (problem_symbols p)) (all_understood (problem_goals p)).
Proof.
  unfold print_problem.
  eapply verdict_iff; [| |apply verdict_bind; [apply (verdict_all _ (fun x => otype x <> []) (fun _ => True))|
    intros; apply verdict_bind; [apply effs_verdict|intros; apply verdict_bind; [apply goal_verdict|intros; apply verdict_done]]]].
  - unfold problem_symbols. rewrite !typed_app. unfold typed at 4. tauto.
  - unfold problem_goals. rewrite all_app, all_cons. assert (all_understood []) by (intros g []). tauto.
  - intros x ad' _. unfold print_constant.
    eapply verdict_iff; [| |apply verdict_bind; [apply type_verdict|intros; apply verdict_done]]; tauto.
Qed.

(** ** Reading *)
Definition starts (s : string) : Prop := exists c t, s = String c t /\ In c (white ++ punctuation).
Lemma plain_cut w w' s s' : plain w -> plain w' -> starts s -> starts s' -> w +++ s = w' +++ s' -> w = w' /\ s = s'.
Proof.
  intros [_ P] [_ P'] (c & t & -> & I) (c' & t' & -> & I'). revert w' P'.
  induction w as [|a w IH]; intros [|a' w'] P' E; cbn in E.
  - auto.
  - injection E as <- E. destruct (P' c (or_introl eq_refl) I).
  - injection E as <- E. destruct (P a (or_introl eq_refl) I').
  - injection E as <- E. destruct (IH (fun x H => P x (or_intror H)) w' (fun x H => P' x (or_intror H)) E) as [-> ->]. auto.
Qed.
Ltac starts_tac := eexists; eexists; split; [reflexivity|cbn; tauto].
Lemma plain_first w s : plain w -> exists c t, w +++ s = String c t /\ ~ In c (white ++ punctuation).
Proof. intros [N P]. destruct w as [|c w]; [destruct (N eq_refl)|]. exists c, (w +++ s). split; auto. apply P. left; auto. Qed.
Ltac plain_tac := split; [discriminate|]; let c := fresh in let H := fresh in let K := fresh in
  intros c H; cbn in H; repeat (destruct H as [<-|H]; [intros K; cbn in K; intuition discriminate|]); destruct H.

Lemma pre_app a b c : prefix (a +++ b) (a +++ c) = prefix b c.
Proof. induction a as [|x a IH]; cbn; auto. destruct (ascii_dec x x); [auto|tauto]. Qed.
Lemma pre_mono a b r : prefix a r = false -> prefix (a +++ b) r = false.
Proof.
  revert r. induction a as [|x a IH]; intros [|y r]; cbn; auto; try discriminate.
  destruct (ascii_dec x y); auto.
Qed.
Lemma pre_other c a s : (exists d t, s = String d t /\ d <> c) -> prefix (String c a) s = false.
Proof. intros (d & t & -> & N). cbn. destruct (ascii_dec c d); [congruence|auto]. Qed.
Lemma padding_S d : padding (S d) = padding d +++ tab.
Proof. induction d as [|d IH]; [reflexivity|]. exact (f_equal (fun s => tab +++ s) IH). Qed.
Lemma deeper d r : prefix (padding d) r = false -> prefix (padding (S d)) r = false.
Proof. intros H. rewrite padding_S. apply pre_mono; auto. Qed.
Lemma not_deeper d s : (exists c t, s = String c t /\ c <> "009"%char) -> prefix (padding (S d)) (padding d +++ s) = false.
Proof. intros H. rewrite padding_S, pre_app. apply pre_other; auto. Qed.
Lemma pre_self a s : prefix a (a +++ s) = true.
Proof. induction a as [|x a IH]; cbn; [destruct s; auto|]. destruct (ascii_dec x x); [auto|tauto]. Qed.

Lemma plain_not_tab w s : plain w -> exists c t, w +++ s = String c t /\ c <> "009"%char.
Proof.
  intros P. destruct (plain_first w s P) as (c & t & E & N). exists c, t. split; auto.
  intros ->. apply N. cbn. tauto.
Qed.

Definition reads_back {A B} (f : address -> A -> outcome string) (sh : A -> B) (P : A -> Prop) (C : string -> Prop) : Prop :=
  forall x x' ad ad' t t' r r', P x -> P x' -> plain_addresses ad -> plain_addresses ad' ->
    f ad x = Ok t -> f ad' x' = Ok t' -> C r -> C r' -> t +++ r = t' +++ r' -> sh x = sh x' /\ r = r'.

Lemma plain_here ad : plain_addresses ad -> plain_addresses (here ad).
Proof. intros H p. apply H. Qed.
Lemma plain_beyond ad : plain_addresses ad -> plain_addresses (beyond ad).
Proof. intros H p. apply H. Qed.
Local Hint Resolve plain_here plain_beyond : core.

Tactic Notation "ok" hyp(E) ident(t) ident(X) := apply bind_Ok in E; destruct E as (t & X & E).

Lemma all_pre {A} (f : address -> A -> outcome string) (P : A -> Prop) q r l :
  (forall x ad t s, P x -> f ad x = Ok t -> prefix q (t +++ s) = false) -> prefix q r = false ->
  (forall x, In x l -> P x) -> forall ad t, print_all f ad l = Ok t -> prefix q (t +++ r) = false.
Proof.
  intros F R. destruct l as [|x l]; intros Hl ad t E; cbn [print_all] in E.
  - injection E as <-. exact R.
  - ok E u X. ok E us Xs. injection E as <-. rewrite app_assoc_s. eapply F; [|eauto]. apply Hl. left; auto.
Qed.

Lemma all_reads {A B} (f : address -> A -> outcome string) (sh : A -> B) (P : A -> Prop) (C : string -> Prop) k l :
  (forall x' ad ad' t t' r r' x, In x l -> P x -> P x' -> plain_addresses ad -> plain_addresses ad' ->
    f ad x = Ok t -> f ad' x' = Ok t' -> C r -> C r' -> t +++ r = t' +++ r' -> sh x = sh x' /\ r = r') ->
  (forall x ad t r, P x -> f ad x = Ok t -> prefix k (t +++ r) = true /\ C (t +++ r)) ->
  (forall x, In x l -> P x) ->
  forall l' ad ad' t t' r r', (forall x, In x l' -> P x) -> plain_addresses ad -> plain_addresses ad' ->
  print_all f ad l = Ok t -> print_all f ad' l' = Ok t' ->
  prefix k r = false -> prefix k r' = false -> C r -> C r' -> t +++ r = t' +++ r' -> map sh l = map sh l' /\ r = r'.
Proof.
  intros F K. induction l as [|x l IH]; intros Hl [|x' l'] ad ad' t t' r r' Hl' Ha Ha' E E' N N' Cr Cr' Q; cbn [print_all] in E, E'.
  - injection E as <-. injection E' as <-. auto.
  - injection E as <-. ok E' u X. ok E' us Xs. injection E' as <-. cbn [String.append] in Q. subst r.
    rewrite app_assoc_s in N. destruct (K x' _ _ (us +++ r') (Hl' _ (or_introl eq_refl)) X) as [Y _]. congruence.
  - injection E' as <-. ok E u X. ok E us Xs. injection E as <-. cbn [String.append] in Q. subst r'.
    rewrite app_assoc_s in N'. destruct (K x _ _ (us +++ r) (Hl _ (or_introl eq_refl)) X) as [Y _]. congruence.
  - ok E u X. ok E us Xs. injection E as <-. ok E' u' X'. ok E' us' Xs'. injection E' as <-. rewrite !app_assoc_s in Q.
    assert (CC : forall l ad t r, (forall x, In x l -> P x) -> print_all f ad l = Ok t -> C r -> C (t +++ r)).
    { intros [|y m] ad0 w s Hm Eu Cs; cbn [print_all] in Eu; [injection Eu as <-; exact Cs|].
      ok Eu v Y. ok Eu vs Ys. injection Eu as <-. rewrite app_assoc_s. eapply K; [|eauto]. apply Hm. left; auto. }
    destruct (F x' (here ad) (here ad') u u' (us +++ r) (us' +++ r') x) as [Sx Q']; auto with datatypes.
    1:{ eapply CC; [|eauto|auto]. intros; apply Hl; right; auto. }
    1:{ eapply CC; [|eauto|auto]. intros; apply Hl'; right; auto. }
    destruct (IH (fun y m ad t y' s r u I => F y m ad t y' s r u (or_intror I)) (fun y I => Hl y (or_intror I)) l' (beyond ad) (beyond ad') us us' r r') as [Sl R]; auto with datatypes.
    cbn [map]. split; congruence.
Qed.

Lemma Ok_inj {A} (a b : A) : Ok a = Ok b -> a = b.
Proof. intros [= ->]. reflexivity. Qed.
Tactic Notation "value" hyp(E) := apply Ok_inj in E; match type of E with _ = ?t => subst t end.

(** *** Symbols *)
Lemma plain_type x n l : plain (oname x) /\ Forall plain (otype x) -> otype x = n :: l -> plain n.
Proof. intros [_ H] E. rewrite E in H. inversion H; auto. Qed.
Lemma type_ok t n : type_of t = Ok n -> exists l, t = n :: l.
Proof. destruct t as [|m l]; cbn; [discriminate|]. intros [= ->]. eauto. Qed.
Lemma shown_eq x x' n l l' : oname x = oname x' -> otype x = n :: l -> otype x' = n :: l' -> shown_symbol x = shown_symbol x'.
Proof. intros N E E'. unfold shown_symbol. rewrite N, E, E'. reflexivity. Qed.

Lemma args_reads l : forall l' ad ad' sep t t' r r', (sep = "" \/ sep = ", ") -> plain_symbols l -> plain_symbols l' ->
  plain_addresses ad -> plain_addresses ad' ->
  print_args_loop ad sep l = Ok t -> print_args_loop ad' sep l' = Ok t' ->
  t +++ ")" +++ r = t' +++ ")" +++ r' -> map shown_symbol l = map shown_symbol l' /\ r = r'.
Proof.
  assert (Z : forall x ad sep t r l, (sep = "" \/ sep = ", ") -> plain (oname x) -> print_args_loop ad sep (x :: l) = Ok t ->
     forall s, t +++ r <> String ")" s).
  { intros x ad sep t r m S P E s Q. cbn [print_args_loop] in E. ok E n X. ok E ts Xs. value E.
    destruct S as [-> | ->]; [|discriminate]. rewrite !app_assoc_s in Q. change (oname x +++ (" [" +++ here ad [] +++ "]: " +++ n +++ ts +++ r) = String ")" s) in Q.
    destruct (plain_first (oname x) (" [" +++ here ad [] +++ "]: " +++ n +++ ts +++ r) P) as (c & u & E & N).
    rewrite E in Q. injection Q as -> _. apply N. cbn. tauto. }
  assert (Y : forall l ad t r, print_args_loop ad ", " l = Ok t -> starts (t +++ ")" +++ r)).
  { intros [|x m] ad t r E; cbn [print_args_loop] in E; [value E; starts_tac|].
    ok E n X. ok E ts Xs. value E. starts_tac. }
  induction l as [|x l IH]; intros [|x' l'] ad ad' sep t t' r r' S P P' A A' E E' Q.
  - cbn in E, E'. value E. value E'. injection Q as ->. auto.
  - exfalso. cbn in E. value E. symmetry in Q. revert Q. apply (Z x' ad' sep t' _ l' S); auto.
    apply (P' x' (or_introl eq_refl)).
  - exfalso. cbn in E'. value E'. revert Q. apply (Z x ad sep t _ l S); auto.
    apply (P x (or_introl eq_refl)).
  - cbn [print_args_loop] in E, E'. ok E n X. ok E ts Xs. value E. ok E' n' X'. ok E' ts' Xs'. value E'.
    rewrite !app_assoc_s in Q. apply append_inj in Q.
    destruct (P x (or_introl eq_refl)) as [Px Pt]. destruct (P' x' (or_introl eq_refl)) as [Px' Pt'].
    apply plain_cut in Q; auto; try starts_tac. destruct Q as [N Q].
    apply (append_inj " [") in Q.
    apply (app_char_inj "]"%char (here ad []) (here ad' [])) in Q; [|apply A|apply A']. destruct Q as [_ Q].
    injection Q as Q.
    apply type_ok in X. destruct X as [m X]. apply type_ok in X'. destruct X' as [m' X'].
    assert (S2 : (if String.eqb sep "" then ", " else sep) = ", ") by (destruct S as [-> | ->]; reflexivity).
    rewrite S2 in Xs, Xs'.
    apply plain_cut in Q; [|eapply (plain_type x); eauto|eapply (plain_type x'); eauto|eapply Y; eauto|eapply Y; eauto].
    destruct Q as [-> Q].
    destruct (IH l' (beyond ad) (beyond ad') ", " ts ts' r r') as [M R]; auto.
    + intros y I. apply P. right; auto.
    + intros y I. apply P'. right; auto.
    + split; auto. cbn [map]. rewrite M. f_equal. eapply shown_eq; eauto.
Qed.
Lemma print_args_reads : reads_back print_args (map shown_symbol) plain_symbols (fun _ => True).
Proof.
  intros l l' ad ad' t t' r r' P P' A A' E E' _ _ Q. unfold print_args in E, E'.
  ok E ts X. ok E' ts' X'. value E. value E'.
  cbn [String.append] in Q. injection Q as Q. rewrite !app_assoc_s in Q.
  eapply (args_reads l l' ad ad' "" ts ts'); eauto.
Qed.
Lemma args_start ad l t r : print_args ad l = Ok t -> starts (t +++ r).
Proof. unfold print_args. intros E. ok E ts X. value E. starts_tac. Qed.

Lemma print_args_first ad l t : print_args ad l = Ok t -> exists s, t = String "(" s.
Proof. unfold print_args. intros E. ok E ts X. value E. cbn [String.append]. eauto. Qed.

(** Name and arguments, ended by the address. *)
Lemma call_reads n n' l l' ad ad' b b' a a' r r' : plain n -> plain n' -> plain_symbols l -> plain_symbols l' ->
  plain_addresses ad -> plain_addresses ad' -> plain_addresses b -> plain_addresses b' ->
  print_args ad l = Ok a -> print_args ad' l' = Ok a' ->
  n +++ a +++ " [" +++ b [] +++ "]" +++ endl +++ r = n' +++ a' +++ " [" +++ b' [] +++ "]" +++ endl +++ r' ->
  n = n' /\ map shown_symbol l = map shown_symbol l' /\ r = r'.
Proof.
  intros P P' L L' A A' B B' E E' Q.
  apply plain_cut in Q; auto; try (eapply args_start; eauto). destruct Q as [N Q]. split; auto.
  apply (print_args_reads l l' ad ad' a a') in Q; auto. destruct Q as [M Q]. split; auto.
  apply (append_inj " [") in Q. apply (app_char_inj "]"%char (b []) (b' [])) in Q; [|apply B|apply B']. destruct Q as [_ Q].
  injection Q as Q. exact Q.
Qed.

(** *** Goals *)
Definition plain_goal (g : goal) : Prop := plain_symbols (goal_symbols g) /\ Forall plain (goal_heads g).
Definition shallow (d : nat) (r : string) : Prop := prefix (padding d) r = false.

Lemma flat_plain {A} (f : A -> list object) l : plain_symbols (flat_map f l) <-> forall x, In x l -> plain_symbols (f x).
Proof. unfold plain_symbols. setoid_rewrite in_flat_map. firstorder. Qed.
Lemma app_plain l l' : plain_symbols (l ++ l') <-> plain_symbols l /\ plain_symbols l'.
Proof. unfold plain_symbols. setoid_rewrite in_app_iff. firstorder. Qed.
Lemma flat_heads {A} (f : A -> list string) l : Forall plain (flat_map f l) <-> forall x, In x l -> Forall plain (f x).
Proof. rewrite Forall_flat_map, Forall_forall. tauto. Qed.
Lemma plain_list gs : plain_symbols (flat_map goal_symbols gs) -> Forall plain (flat_map goal_heads gs) ->
  forall g, In g gs -> plain_goal g.
Proof. rewrite flat_plain, flat_heads. intros A B g I. split; auto. Qed.

(** Every line of a goal starts at its depth. *)
Lemma goal_head d ad g t : plain_goal g -> print_goal d ad g = Ok t -> exists w s, t = padding d +++ w +++ s /\ plain w.
Proof.
  intros [_ H] E. destruct g as [n l|gs|gs|g|vs g|vs g|]; cbn [print_goal] in E; [| | | | | |discriminate].
  1:{ ok E a X. value E. cbn [goal_heads] in H. inversion H. eauto. }
  1-3: ok E a X; value E.
  4-5: ok E a X; ok E b Y; value E.
  1: exists "and", (":" +++ endl +++ a).
  2: exists "or", (":" +++ endl +++ a).
  3: exists "neg", (":" +++ endl +++ a).
  4: exists "forall", (a +++ ":" +++ endl +++ b).
  5: exists "exists", (a +++ ":" +++ endl +++ b).
  all: split; [reflexivity|plain_tac].
Qed.
Lemma goal_prefix d ad g t r : plain_goal g -> print_goal d ad g = Ok t ->
  prefix (padding d) (t +++ r) = true /\ shallow (S d) (t +++ r).
Proof.
  intros P E. destruct (goal_head d ad g t P E) as (w & s & -> & Pw). rewrite !app_assoc_s. split; [apply pre_self|].
  apply not_deeper. apply plain_not_tab; auto.
Qed.

Lemma word_reads w w' s s' : plain w -> plain w' -> starts s -> starts s' ->
  forall d, padding d +++ w +++ s = padding d +++ w' +++ s' -> w = w' /\ s = s'.
Proof. intros P P' S S' d E. apply append_inj in E. apply plain_cut; auto. Qed.

Theorem goal_reads g : forall d g' ad ad' t t' r r', plain_goal g -> plain_goal g' -> plain_addresses ad -> plain_addresses ad' ->
  print_goal d ad g = Ok t -> print_goal d ad' g' = Ok t' -> shallow (S d) r -> shallow (S d) r' ->
  t +++ r = t' +++ r' -> shown_goal g = shown_goal g' /\ r = r'.
Proof.
  assert (pand : plain "and") by plain_tac. assert (por : plain "or") by plain_tac. assert (pneg : plain "neg") by plain_tac.
  assert (pall : plain "forall") by plain_tac. assert (pex : plain "exists") by plain_tac.
  assert (Hlist : forall gs gs' d ad ad' t t' r r',
    Forall (fun g => forall d g' ad ad' t t' r r', plain_goal g -> plain_goal g' -> plain_addresses ad -> plain_addresses ad' ->
      print_goal d ad g = Ok t -> print_goal d ad' g' = Ok t' -> shallow (S d) r -> shallow (S d) r' ->
      t +++ r = t' +++ r' -> shown_goal g = shown_goal g' /\ r = r') gs ->
    (forall g, In g gs -> plain_goal g) -> (forall g, In g gs' -> plain_goal g) -> plain_addresses ad -> plain_addresses ad' ->
    print_all (print_goal d) ad gs = Ok t -> print_all (print_goal d) ad' gs' = Ok t' -> shallow d r -> shallow d r' ->
    t +++ r = t' +++ r' -> map shown_goal gs = map shown_goal gs' /\ r = r').
  { intros gs gs' d ad ad' t t' r r' IH P P' A A' E E' N N' Q. rewrite Forall_forall in IH.
    refine (all_reads (print_goal d) shown_goal plain_goal (shallow (S d)) (padding d) gs _ _ P gs' ad ad' t t' r r' P' A A' E E' N N' _ _ Q).
    - intros x' b b' u u' v v' x I Px Px' B B' Eu Eu' Cv Cv' K. exact (IH x I d x' b b' u u' v v' Px Px' B B' Eu Eu' Cv Cv' K).
    - intros x b u v Px Eu. exact (goal_prefix d b x u v Px Eu).
    - apply deeper; auto.
    - apply deeper; auto. }
  induction g as [n l|gs IH|gs IH|g IH|vs g IH|vs g IH|] using goal_ind';
    intros d g' ad ad' t t' r r' [P1 P2] [P1' P2'] A A' E E' N N' Q; [| | | | | |discriminate];
    destruct g' as [n' l'|gs'|gs'|g'|vs' g'|vs' g'|]; try discriminate;
    cbn [print_goal goal_symbols goal_heads] in *;
    repeat match goal with H : bind _ _ = Ok _ |- _ => let u := fresh "u" in let X := fresh "X" in
      apply bind_Ok in H; destruct H as (u & X & H) end;
    value E; value E'; rewrite !app_assoc_s in Q;
    repeat match goal with H : Forall plain [_] |- _ => inversion_clear H end;
    try change "and:" with ("and" +++ ":") in Q; try change "or:" with ("or" +++ ":") in Q; try change "neg:" with ("neg" +++ ":") in Q;
    rewrite ?app_assoc_s in Q;
    (apply word_reads in Q; [destruct Q as [W Q]|assumption|assumption|first [starts_tac|eapply args_start; eassumption]|first [starts_tac|eapply args_start; eassumption]]);
    try discriminate W.

  1:{ subst n'. apply (print_args_reads l l' (beyond ad) (beyond ad')) in Q; auto. destruct Q as [M Q].
      apply (append_inj " [") in Q. apply (app_char_inj "]"%char (here ad []) (here ad' [])) in Q; [|apply plain_here; auto|apply plain_here; auto].
      destruct Q as [_ Q]. injection Q as Q. split; auto. unfold shown_goal. cbn [map_goal]. rewrite M. reflexivity. }
  all: try (exfalso; match goal with X : print_args _ _ = Ok ?u |- _ => match type of Q with
      | u +++ _ = ":" +++ _ => destruct (print_args_first _ _ _ X) as [s ->]; discriminate Q
      | ":" +++ _ = u +++ _ => destruct (print_args_first _ _ _ X) as [s ->]; discriminate Q
      end end).
  all: try (exfalso; match type of Q with ?u +++ _ = ?v +++ _ =>
      match goal with X : print_args ?b ?m = Ok u, X' : print_args ?b' ?m' = Ok v |- _ =>
        apply (print_args_reads m m' b b') in Q; auto; try (apply app_plain in P1; tauto); try (apply app_plain in P1'; tauto);
        destruct Q as [_ Q]; discriminate Q end end).
  - apply (append_inj ":"), (append_inj endl) in Q.
    destruct (Hlist gs gs' (S d) ad ad' u0 u r r') as [M R]; try (apply plain_list; auto); auto.
    split; auto. unfold shown_goal in *. cbn [map_goal]. congruence.
  - apply (append_inj ":"), (append_inj endl) in Q.
    destruct (Hlist gs gs' (S d) ad ad' u0 u r r') as [M R]; try (apply plain_list; auto); auto.
    split; auto. unfold shown_goal in *. cbn [map_goal]. congruence.
  - apply (append_inj ":"), (append_inj endl) in Q.
    destruct (IH (S d) g' ad ad' u0 u r r') as [M R]; auto; try (apply deeper; assumption); try (split; assumption).
    split; auto. unfold shown_goal in *. cbn [map_goal]. congruence.
  - apply app_plain in P1. apply app_plain in P1'. destruct P1, P1'.
    apply (print_args_reads vs vs' (here ad) (here ad')) in Q; auto. destruct Q as [V Q].
    apply (append_inj ":"), (append_inj endl) in Q.
    destruct (IH (S d) g' (beyond ad) (beyond ad') u2 u0 r r') as [M R]; auto; try (apply deeper; assumption); try (split; assumption).
    split; auto. unfold shown_goal in *. cbn [map_goal]. congruence.
  - apply app_plain in P1. apply app_plain in P1'. destruct P1, P1'.
    apply (print_args_reads vs vs' (here ad) (here ad')) in Q; auto. destruct Q as [V Q].
    apply (append_inj ":"), (append_inj endl) in Q.
    destruct (IH (S d) g' (beyond ad) (beyond ad') u2 u0 r r') as [M R]; auto; try (apply deeper; assumption); try (split; assumption).
    split; auto. unfold shown_goal in *. cbn [map_goal]. congruence.
Qed.

(** *** Effects *)
Definition plain_effs (e : effs) : Prop := plain_symbols (effs_symbols e) /\ Forall plain (effs_heads e).
Definition plain_prop (p : prop) : Prop := plain (pname p) /\ plain_symbols (pargs p).
Definition shown_prop (p : prop) : prop := mkProp (pname p) (map shown_symbol (pargs p)).

Lemma literal_reads d sign : reads_back (print_literal d sign) shown_prop plain_prop (fun _ => True).
Proof.
  intros p p' ad ad' t t' r r' [P Pa] [P' Pa'] A A' E E' _ _ Q. unfold print_literal in E, E'.
  ok E a X. value E. ok E' a' X'. value E'. rewrite !app_assoc_s in Q. apply append_inj, append_inj, (append_inj " ") in Q.
  eapply call_reads in Q; [| | | | | | | | |exact X|exact X']; auto.
  destruct Q as (N & M & R). split; auto. unfold shown_prop. congruence.
Qed.
Lemma literal_prefix d sign ad p t r : print_literal d sign ad p = Ok t -> prefix (padding d +++ sign) (t +++ r) = true.
Proof. unfold print_literal. intros E. ok E a X. value E. rewrite !app_assoc_s, pre_app. apply pre_self. Qed.

Lemma pre_false_app d a s : prefix a s = false -> prefix (padding d +++ a) (padding d +++ s) = false.
Proof. rewrite pre_app. auto. Qed.

Definition forall_text (d : nat) (ad : address) (f : list object * effs) : outcome string :=
  let (vars, b) := f in
  let* a := print_args (here ad) vars in
  let* t := print_effs (S d) (beyond ad) b in
  Ok (padding d +++ "forall" +++ a +++ ":" +++ endl +++ t).
Definition when_text (d : nat) (ad : address) (c : goal * effs) : outcome string :=
  let (g, b) := c in
  let* t := print_goal (S d) (here ad) g in
  let* t' := print_effs (S d) (beyond ad) b in
  Ok (padding d +++ "when:" +++ endl +++ t +++ padding d +++ "then:" +++ endl +++ t').
Lemma print_effs_eq d ad fs adds dels cs : print_effs d ad (Effs fs adds dels cs) =
  let* t1 := print_all (print_literal d "(+)") (here ad) adds in
  let* t2 := print_all (print_literal d "(-)") (here (beyond ad)) dels in
  let* t3 := print_all (forall_text d) (here (beyond (beyond ad))) fs in
  let* t4 := print_all (when_text d) (beyond (beyond (beyond ad))) cs in
  Ok (t1 +++ t2 +++ t3 +++ t4).
Proof. reflexivity. Qed.

Lemma forall_prefix d ad f t r : forall_text d ad f = Ok t ->
  prefix (padding d +++ "forall") (t +++ r) = true /\ shallow (S d) (t +++ r).
Proof.
  destruct f as [vs b]. unfold forall_text. intros E. ok E a X. ok E u Y. value E. rewrite !app_assoc_s. split.
  - rewrite pre_app. apply pre_self.
  - apply not_deeper. cbn. eexists; eexists; split; [reflexivity|discriminate].
Qed.
Lemma when_prefix d ad f t r : when_text d ad f = Ok t ->
  prefix (padding d +++ "when:") (t +++ r) = true /\ shallow (S d) (t +++ r).
Proof.
  destruct f as [vs b]. unfold when_text. intros E. ok E a X. ok E u Y. value E. rewrite !app_assoc_s. split.
  - rewrite pre_app. apply pre_self.
  - apply not_deeper. cbn. eexists; eexists; split; [reflexivity|discriminate].
Qed.

(** Text that starts like none of these. *)
Lemma literal_not d sign q ad p t r : prefix q (sign +++ " ") = false -> (forall s, prefix q ((sign +++ " ") +++ s) = false) ->
  print_literal d sign ad p = Ok t -> prefix (padding d +++ q) (t +++ r) = false.
Proof.
  intros _ N E. unfold print_literal in E. ok E a X. value E. rewrite !app_assoc_s, pre_app.
  specialize (N (pname p +++ a +++ " [" +++ here ad [] +++ "]" +++ endl +++ r)). rewrite app_assoc_s in N. exact N.
Qed.
Lemma minus_not q ad d p t r : In q ["(+)"; "forall"; "when:"] -> print_literal d "(-)" ad p = Ok t ->
  prefix (padding d +++ q) (t +++ r) = false.
Proof. intros I E. eapply literal_not; [| |exact E]; destruct I as [<-|[<-|[<-|[]]]]; intros; reflexivity. Qed.
Lemma forall_not q ad d f t r : In q ["(+)"; "(-)"; "when:"] -> forall_text d ad f = Ok t ->
  prefix (padding d +++ q) (t +++ r) = false.
Proof.
  intros I E. destruct f as [vs b]. unfold forall_text in E. ok E a X. ok E u Y. value E. rewrite !app_assoc_s, pre_app.
  destruct I as [<-|[<-|[<-|[]]]]; reflexivity.
Qed.
Lemma when_not q ad d f t r : In q ["(+)"; "(-)"; "forall"] -> when_text d ad f = Ok t ->
  prefix (padding d +++ q) (t +++ r) = false.
Proof.
  intros I E. destruct f as [vs b]. unfold when_text in E. ok E a X. ok E u Y. value E. rewrite !app_assoc_s, pre_app.
  destruct I as [<-|[<-|[<-|[]]]]; reflexivity.
Qed.
Lemma rest_not {A} (f : address -> A -> outcome string) q r l ad t :
  (forall x ad t s, f ad x = Ok t -> prefix q (t +++ s) = false) -> prefix q r = false ->
  print_all f ad l = Ok t -> prefix q (t +++ r) = false.
Proof. intros F R E. eapply (all_pre f (fun _ => True)); eauto. Qed.
Lemma rest_shallow {A} (f : address -> A -> outcome string) d r l ad t :
  (forall x ad t s, f ad x = Ok t -> shallow (S d) (t +++ s)) -> shallow d r ->
  print_all f ad l = Ok t -> shallow (S d) (t +++ r).
Proof. intros F R E. eapply rest_not; eauto. apply deeper; auto. Qed.

Theorem effs_reads e : forall d e' ad ad' t t' r r', plain_effs e -> plain_effs e' -> plain_addresses ad -> plain_addresses ad' ->
  print_effs d ad e = Ok t -> print_effs d ad' e' = Ok t' -> shallow d r -> shallow d r' ->
  t +++ r = t' +++ r' -> shown_effs e = shown_effs e' /\ r = r'.
Proof.
  induction e as [fs adds dels cs IHf IHc] using effs_ind'.
  intros d [fs' adds' dels' cs'] ad ad' t t' r r' [P H] [P' H'] A A' E E' N N' Q.
  cbn [effs_symbols effs_heads] in *. rewrite !app_plain, !flat_plain in P, P'.
  rewrite !Forall_app, !Forall_map, !flat_heads in H, H'. rewrite !Forall_forall in H, H'.
  destruct P as (Pa & Pd & Pf & Pc). destruct P' as (Pa' & Pd' & Pf' & Pc').
  destruct H as (Ha & Hd & Hf & Hc). destruct H' as (Ha' & Hd' & Hf' & Hc').
  rewrite print_effs_eq in E, E'.
  ok E t1 X1. ok E t2 X2. ok E t3 X3. ok E t4 X4. value E. ok E' t1' X1'. ok E' t2' X2'. ok E' t3' X3'. ok E' t4' X4'. value E'.
  rewrite !app_assoc_s in Q.
  assert (W : forall q, In q ["(+)"; "(-)"; "forall"; "when:"] -> forall r, shallow d r -> prefix (padding d +++ q) r = false)
    by (intros q _ s Ns; apply pre_mono; exact Ns).
  (* additions *)
  apply (all_reads (print_literal d "(+)") shown_prop plain_prop (fun _ => True) (padding d +++ "(+)") adds) with (l' := adds') (ad := here ad) (ad' := here ad') in Q; auto.
  2:{ intros x' b b' u u' v v' x I Px Px' B B' Eu Eu' _ _ K. exact (literal_reads d "(+)" x x' b b' u u' v v' Px Px' B B' Eu Eu' Logic.I Logic.I K). }
  2:{ intros x b u v _ Eu. split; [eapply literal_prefix; eauto|exact Logic.I]. }
  2:{ intros x I. split; auto. }
  2:{ intros x I. split; auto. }
  2,3: eapply rest_not; [intros; eapply minus_not; [|eassumption]; cbn; tauto| |eassumption];
       eapply rest_not; [intros; eapply forall_not; [|eassumption]; cbn; tauto| |eassumption];
       eapply rest_not; [intros; eapply when_not; [|eassumption]; cbn; tauto| |eassumption]; apply W; cbn; tauto.
  destruct Q as [Sa Q].
  (* deletions *)
  apply (all_reads (print_literal d "(-)") shown_prop plain_prop (fun _ => True) (padding d +++ "(-)") dels) with (l' := dels') (ad := here (beyond ad)) (ad' := here (beyond ad')) in Q; auto.
  2:{ intros x' b b' u u' v v' x I Px Px' B B' Eu Eu' _ _ K. exact (literal_reads d "(-)" x x' b b' u u' v v' Px Px' B B' Eu Eu' Logic.I Logic.I K). }
  2:{ intros x b u v _ Eu. split; [eapply literal_prefix; eauto|exact Logic.I]. }
  2:{ intros x I. split; auto. }
  2:{ intros x I. split; auto. }
  2,3: eapply rest_not; [intros; eapply forall_not; [|eassumption]; cbn; tauto| |eassumption];
       eapply rest_not; [intros; eapply when_not; [|eassumption]; cbn; tauto| |eassumption]; apply W; cbn; tauto.
  destruct Q as [Sd Q].
  (* forall *)
  apply (all_reads (forall_text d) (fun f => (map shown_symbol (fst f), shown_effs (snd f)))
    (fun f => plain_symbols (fst f) /\ plain_effs (snd f)) (shallow (S d)) (padding d +++ "forall") fs)
    with (l' := fs') (ad := here (beyond (beyond ad))) (ad' := here (beyond (beyond ad'))) in Q; auto.
  2:{ intros [vs' b'] a a' u u' v v' [vs b] I [Pv Pb] [Pv' Pb'] B B' Eu Eu' Cv Cv' K. cbn [fst snd] in *.
      unfold forall_text in Eu, Eu'. ok Eu p Y. ok Eu q Z. value Eu. ok Eu' p' Y'. ok Eu' q' Z'. value Eu'.
      rewrite !app_assoc_s in K. apply append_inj, (append_inj "forall") in K.
      apply (print_args_reads vs vs' (here a) (here a')) in K; auto. destruct K as [V K].
      apply (append_inj ":"), (append_inj endl) in K.
      destruct (IHf vs b I (S d) b' (beyond a) (beyond a') q q' v v') as [M R]; auto. split; congruence. }
  2:{ intros x b u v _ Eu. apply (forall_prefix d b x u v Eu). }
  2:{ intros x I. specialize (Pf x I). rewrite app_plain in Pf. destruct Pf. split; auto. split; auto. }
  2:{ intros x I. specialize (Pf' x I). rewrite app_plain in Pf'. destruct Pf'. split; auto. split; auto. }
  2,3: eapply rest_not; [intros; eapply when_not; [|eassumption]; cbn; tauto| |eassumption]; apply W; cbn; tauto.
  2,3: eapply rest_shallow; [intros x b u v Eu; apply (when_prefix d b x u v Eu)| |eassumption]; auto.
  destruct Q as [Sf Q].
  (* when *)
  apply (all_reads (when_text d) (fun f => (shown_goal (fst f), shown_effs (snd f)))
    (fun f => plain_goal (fst f) /\ plain_effs (snd f)) (shallow (S d)) (padding d +++ "when:") cs)
    with (l' := cs') (ad := beyond (beyond (beyond ad))) (ad' := beyond (beyond (beyond ad'))) in Q; auto.
  2:{ intros [g' b'] a a' u u' v v' [g b] I [Pv Pb] [Pv' Pb'] B B' Eu Eu' Cv Cv' K. cbn [fst snd] in *.
      unfold when_text in Eu, Eu'. ok Eu p Y. ok Eu q Z. value Eu. ok Eu' p' Y'. ok Eu' q' Z'. value Eu'.
      rewrite !app_assoc_s in K. apply append_inj, (append_inj "when:"), (append_inj endl) in K.
      apply (goal_reads g (S d) g' (here a) (here a')) in K; auto.
      2,3: apply deeper, not_deeper; cbn; eexists; eexists; split; [reflexivity|discriminate].
      destruct K as [V K]. apply append_inj, (append_inj "then:"), (append_inj endl) in K.
      destruct (IHc g b I (S d) b' (beyond a) (beyond a') q q' v v') as [M R]; auto. split; congruence. }
  2:{ intros x b u v _ Eu. apply (when_prefix d b x u v Eu). }
  2:{ intros x I. specialize (Pc x I). rewrite app_plain in Pc. specialize (Hc x I). apply Forall_app in Hc.
      destruct Pc, Hc. split; split; auto. }
  2:{ intros x I. specialize (Pc' x I). rewrite app_plain in Pc'. specialize (Hc' x I). apply Forall_app in Hc'.
      destruct Pc', Hc'. split; split; auto. }
  2,3: apply W; [cbn; tauto|assumption].
  2,3: apply deeper; assumption.
  destruct Q as [Sc Q]. split; auto. unfold shown_effs in *. cbn [map_effs]. unfold shown_goal, shown_prop in *. congruence.
Qed.

(** *** Domains and problems *)
Definition unindented (r : string) : Prop := prefix tab r = false.
Lemma unindented_shallow r : unindented r -> shallow 1 r.
Proof. intros H. exact H. Qed.

Definition shown_constants := map shown_symbol.
Definition plain_object (x : object) : Prop := plain (oname x) /\ Forall plain (otype x).
Lemma constant_reads : reads_back print_constant shown_symbol plain_object (fun _ => True).
Proof.
  intros x x' ad ad' t t' r r' [P Pt] [P' Pt'] A A' E E' _ _ Q. unfold print_constant in E, E'.
  ok E n X. value E. ok E' n' X'. value E'. rewrite !app_assoc_s in Q. apply (append_inj tab) in Q.
  apply plain_cut in Q; auto; try starts_tac. destruct Q as [N Q]. apply (append_inj " [") in Q.
  apply (app_char_inj "]"%char (here ad []) (here ad' [])) in Q; [|apply plain_here; auto|apply plain_here; auto]. destruct Q as [_ Q].
  apply (append_inj ": ") in Q. apply type_ok in X. destruct X as [m X]. apply type_ok in X'. destruct X' as [m' X'].
  apply plain_cut in Q; [|eapply (plain_type x); eauto; split; auto|eapply (plain_type x'); eauto; split; auto|starts_tac|starts_tac].
  destruct Q as [-> Q]. split; [eapply shown_eq; eauto|]. injection Q as Q. exact Q.
Qed.
Lemma type_reads : reads_back print_type (firstn 2) (Forall plain) (fun _ => True).
Proof.
  intros x x' ad ad' t t' r r' P P' A A' E E' _ _ Q.
  destruct x as [|n [|m x]]; cbn in E; try discriminate. destruct x' as [|n' [|m' x']]; cbn in E'; try discriminate.
  value E. value E'. inversion_clear P as [|? ? Pn Pm]. inversion_clear Pm as [|? ? Pm' _]. rename Pm' into Pm.
  inversion_clear P' as [|? ? Pn' Pm0]. inversion_clear Pm0 as [|? ? Pm' _].
  change (tab +++ (n +++ ": " +++ m +++ " [" +++ here ad [] +++ "]" +++ endl) +++ r =
          tab +++ (n' +++ ": " +++ m' +++ " [" +++ here ad' [] +++ "]" +++ endl) +++ r') in Q.
  rewrite !app_assoc_s in Q. apply append_inj in Q.
  apply plain_cut in Q; auto; try starts_tac. destruct Q as [-> Q]. apply (append_inj ": ") in Q.
  apply plain_cut in Q; auto; try starts_tac. destruct Q as [-> Q]. apply (append_inj " [") in Q.
  apply (app_char_inj "]"%char (here ad []) (here ad' [])) in Q; [|apply plain_here; auto|apply plain_here; auto]. destruct Q as [_ Q].
  injection Q as Q. auto.
Qed.
Lemma predicate_reads : reads_back print_predicate (fun p => (fst p, map shown_symbol (snd p)))
  (fun p => plain (fst p) /\ plain_symbols (snd p)) (fun _ => True).
Proof.
  intros [n l] [n' l'] ad ad' t t' r r' [P Pl] [P' Pl'] A A' E E' _ _ Q. unfold print_predicate in E, E'. cbn [fst snd] in *.
  ok E a X. value E. ok E' a' X'. value E'. rewrite !app_assoc_s in Q. apply (append_inj tab) in Q.
  eapply call_reads in Q; [| | | | | | | | |exact X|exact X']; auto.
  destruct Q as (N & M & R). split; congruence.
Qed.
Definition plain_op (o : op) : Prop :=
  plain (op_name o) /\ plain_symbols (op_params o) /\ plain_goal (op_pre o) /\ plain_effs (op_effs o).
Lemma op_reads : reads_back print_op shown_op plain_op (shallow 2).
Proof.
  intros o o' ad ad' t t' r r' (P & Pl & Pg & Pe) (P' & Pl' & Pg' & Pe') A A' E E' C C' Q. unfold print_op in E, E'.
  ok E a X. ok E g Y. ok E e Z. value E. ok E' a' X'. ok E' g' Y'. ok E' e' Z'. value E'.
  rewrite !app_assoc_s in Q. apply (append_inj tab) in Q.
  apply plain_cut in Q; auto; try (eapply args_start; eassumption). destruct Q as [N Q].
  apply (print_args_reads (op_params o) (op_params o') (here ad) (here ad')) in Q; auto. destruct Q as [M Q].
  apply (append_inj endl), (append_inj tab), (append_inj tab), (append_inj "Preconditions:"), (append_inj endl) in Q.
  apply (goal_reads (op_pre o) 3 (op_pre o') (here (beyond ad)) (here (beyond ad'))) in Q; auto.
  2,3: reflexivity.
  destruct Q as [G Q].
  apply (append_inj tab), (append_inj tab), (append_inj "Effects:"), (append_inj endl) in Q.
  apply (effs_reads (op_effs o) 3 (op_effs o') (beyond (beyond ad)) (beyond (beyond ad'))) in Q; auto.
  2,3: apply deeper; auto.
  destruct Q as [F Q]. split; auto. unfold shown_op. congruence.
Qed.
Lemma op_prefix ad o t r : plain_op o -> print_op ad o = Ok t -> prefix tab (t +++ r) = true /\ shallow 2 (t +++ r).
Proof.
  intros (P & _) E. unfold print_op in E. ok E a X. ok E g Y. ok E e Z. value E. rewrite !app_assoc_s. split; [apply pre_self|].
  apply (not_deeper 1). apply plain_not_tab; auto.
Qed.

Lemma rows_reads {A B} (f : address -> A -> outcome string) (sh : A -> B) (P : A -> Prop) l l' ad ad' t t' r r' :
  reads_back f sh P (fun _ => True) -> (forall x ad t s, f ad x = Ok t -> prefix tab (t +++ s) = true) ->
  (forall x, In x l -> P x) -> (forall x, In x l' -> P x) -> plain_addresses ad -> plain_addresses ad' ->
  print_all f ad l = Ok t -> print_all f ad' l' = Ok t' -> unindented r -> unindented r' -> t +++ r = t' +++ r' ->
  map sh l = map sh l' /\ r = r'.
Proof.
  intros F T Hl Hl' Ha Ha' E E' N N' Q.
  refine (all_reads f sh P (fun _ => True) tab l _ _ Hl l' ad ad' t t' r r' Hl' Ha Ha' E E' N N' Logic.I Logic.I Q).
  - intros x' b b' u u' v v' x I Px Px' B0 B0' Eu Eu' _ _ K. exact (F x x' b b' u u' v v' Px Px' B0 B0' Eu Eu' Logic.I Logic.I K).
  - intros x b u v _ Eu. split; [eapply T; eauto|exact Logic.I].
Qed.
Lemma constant_tab x ad t s : print_constant ad x = Ok t -> prefix tab (t +++ s) = true.
Proof. unfold print_constant. intros E. ok E n X. value E. rewrite !app_assoc_s. apply pre_self. Qed.
Lemma type_tab x ad t s : print_type ad x = Ok t -> prefix tab (t +++ s) = true.
Proof. destruct x as [|n [|m x]]; cbn [print_type type_of bind]; try discriminate. intros E. value E. rewrite !app_assoc_s. apply pre_self. Qed.
Lemma predicate_tab x ad t s : print_predicate ad x = Ok t -> prefix tab (t +++ s) = true.
Proof. unfold print_predicate. intros E. ok E n X. value E. rewrite !app_assoc_s. apply pre_self. Qed.

Lemma domain_reads d d' ad ad' t t' r r' : plain_domain d -> plain_domain d' -> plain_addresses ad -> plain_addresses ad' ->
  print_domain ad d = Ok t -> print_domain ad' d' = Ok t' -> unindented r -> unindented r' -> t +++ r = t' +++ r' ->
  shown_domain d = shown_domain d' /\ r = r'.
Proof.
  intros (Fn & Fr & Pt & Ps & Pp & Po) (Fn' & Fr' & Pt' & Ps' & Pp' & Po') A A' E E' N N' Q. unfold print_domain in E, E'.
  ok E tt X1. ok E tc X2. ok E tp X3. ok E to X4. value E. ok E' tt' X1'. ok E' tc' X2'. ok E' tp' X3'. ok E' to' X4'. value E'.
  unfold domain_symbols in Ps, Ps'. rewrite !app_plain, !flat_plain in Ps, Ps'.
  destruct Ps as (Pc & Pq & Pm). destruct Ps' as (Pc' & Pq' & Pm').
  rewrite !app_assoc_s in Q.
  apply (append_inj "DOMAIN"), (append_inj endl), (append_inj "======"), (append_inj endl), (append_inj "Name: ") in Q.
  apply (app_char_inj "010"%char (vd_name d) (vd_name d')) in Q; auto. destruct Q as [En Q].
  apply (append_inj "Requirements: ") in Q.
  apply (app_char_inj "010"%char (vd_reqs d) (vd_reqs d')) in Q; auto. destruct Q as [Er Q].
  apply (append_inj "Types: "), (append_inj endl) in Q.
  apply (rows_reads print_type (firstn 2) (Forall plain) (vd_types d) (vd_types d') (here ad) (here ad')) in Q; auto using type_reads;
    [|exact type_tab|reflexivity|reflexivity].
  destruct Q as [Et Q]. apply (append_inj "Constants: "), (append_inj endl) in Q.
  apply (rows_reads print_constant shown_symbol plain_object (vd_constants d) (vd_constants d') (here (beyond ad)) (here (beyond ad'))) in Q;
    auto using constant_reads; [|exact constant_tab|reflexivity|reflexivity].
  destruct Q as [Ec Q]. apply (append_inj "Predicates:"), (append_inj endl) in Q.
  apply (rows_reads print_predicate (fun p => (fst p, map shown_symbol (snd p))) (fun p => plain (fst p) /\ plain_symbols (snd p))
    (vd_predicates d) (vd_predicates d') (here (beyond (beyond ad))) (here (beyond (beyond ad')))) in Q;
    auto using predicate_reads; [|exact predicate_tab|reflexivity|reflexivity].
  destruct Q as [Ep Q]. apply (append_inj "Actions: "), (append_inj endl) in Q.
  assert (PO : forall o, In o (vd_ops d) -> plain_op o).
  { intros o I. specialize (Pm o I). rewrite !app_plain in Pm. destruct Pm as (M1 & M2 & M3). destruct (Po o I) as (O1 & O2 & O3).
    split; [auto|split; [auto|split; split; auto]]. }
  assert (PO' : forall o, In o (vd_ops d') -> plain_op o).
  { intros o I. specialize (Pm' o I). rewrite !app_plain in Pm'. destruct Pm' as (M1 & M2 & M3). destruct (Po' o I) as (O1 & O2 & O3).
    split; [auto|split; [auto|split; split; auto]]. }
  apply (all_reads print_op shown_op plain_op (shallow 2) tab (vd_ops d)) with (l' := vd_ops d')
    (ad := beyond (beyond (beyond ad))) (ad' := beyond (beyond (beyond ad'))) in Q; auto.
  2:{ intros x' b b' u u' v v' x I Px Px' B0 B0' Eu Eu' Cv Cv' K. exact (op_reads x x' b b' u u' v v' Px Px' B0 B0' Eu Eu' Cv Cv' K). }
  2:{ intros x b u v Px Eu. exact (op_prefix b x u v Px Eu). }
  2,3: apply (deeper 1); assumption.
  destruct Q as [Eo Q]. split; auto. unfold shown_domain. f_equal; assumption.
Qed.

Lemma problem_reads p p' ad ad' t t' : plain_problem p -> plain_problem p' -> plain_addresses ad -> plain_addresses ad' ->
  print_problem ad p = Ok t -> print_problem ad' p' = Ok t' -> t = t' -> shown_problem p = shown_problem p'.
Proof.
  intros (Fn & Fd & Fr & Ps & Hi & Hg) (Fn' & Fd' & Fr' & Ps' & Hi' & Hg') A A' E E' Q. unfold print_problem in E, E'.
  ok E to X1. ok E ti X2. ok E tg X3. value E. ok E' to' X1'. ok E' ti' X2'. ok E' tg' X3'. value E'.
  unfold problem_symbols in Ps, Ps'. rewrite !app_plain in Ps, Ps'.
  destruct Ps as (Pc & Pi & Pg). destruct Ps' as (Pc' & Pi' & Pg').
  rewrite <- (app_nil_s tg), <- (app_nil_s tg') in Q.
  apply (append_inj "PROBLEM"), (append_inj endl), (append_inj "======="), (append_inj endl), (append_inj "Name: ") in Q.
  apply (app_char_inj "010"%char (vp_name p) (vp_name p')) in Q; auto. destruct Q as [En Q].
  apply (append_inj "Domain: ") in Q.
  apply (app_char_inj "010"%char (vp_domain p) (vp_domain p')) in Q; auto. destruct Q as [Ed Q].
  apply (append_inj "Requirements: ") in Q.
  apply (app_char_inj "010"%char (vp_reqs p) (vp_reqs p')) in Q; auto. destruct Q as [Er Q].
  apply (append_inj "Objects:"), (append_inj endl) in Q.
  apply (rows_reads print_constant shown_symbol plain_object (vp_objects p) (vp_objects p') (here ad) (here ad')) in Q;
    auto using constant_reads; [|exact constant_tab|reflexivity|reflexivity].
  destruct Q as [Eo Q]. apply (append_inj "Initial State:"), (append_inj endl) in Q.
  apply (effs_reads (vp_init p) 1 (vp_init p') (here (beyond ad)) (here (beyond ad'))) in Q; auto; try (split; assumption); try reflexivity.
  destruct Q as [Ei Q]. apply (append_inj "Goal:"), (append_inj endl) in Q.
  apply (goal_reads (vp_goal p) 1 (vp_goal p') (beyond (beyond ad)) (beyond (beyond ad'))) in Q; auto; try (split; assumption); try reflexivity.
  destruct Q as [Eg _]. unfold shown_problem. rewrite En, Ed, Er, Eo, Ei, Eg. reflexivity.
Qed.
