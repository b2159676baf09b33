(** Proofs about the text of problems. *)
From Coq Require Import Ascii String List Bool Arith Lia.
From Verif.Model Require Import Base Object Proposition State Text Problem.
From Verif.Spec Require Import TextSpec ProblemSpec.
From Verif.Proofs Require Import TextFacts.
Import ListNotations.
Local Open Scope string_scope.
Local Open Scope list_scope.
Local Infix "+++" := String.append (at level 60, right associativity).

(** ** Induction over nested lists *)
Section Induction.
  Context (P : pyform -> Prop) (H1 : forall s, P (PStr s)) (H2 : forall l, Forall P l -> P (PSeq l)).
  Fixpoint pyform_nested (f : pyform) : P f :=
    match f with
    | PStr s => H1 s
    | PSeq l => H2 l ((fix go l : Forall P l :=
        match l with [] => Forall_nil P | g :: l' => Forall_cons g (pyform_nested g) (go l') end) l)
    end.
End Induction.
Section Induction2.
  Context (P : pddl_formula -> Prop) (H1 : forall s, P (FRaw s)) (H2 : forall n a, P (FPred n a))
    (H3 : forall l, Forall P l -> P (FAnd l)) (H4 : forall l, Forall P l -> P (FOr l))
    (H5 : forall f, P f -> P (FNot f)) (H6 : forall c f, P c -> P f -> P (FWhen c f))
    (H7 : forall v t f, P f -> P (FForall v t f)) (H8 : forall v t f, P f -> P (FExists v t f)).
  Fixpoint formula_nested (f : pddl_formula) : P f :=
    let go := fix go l : Forall P l :=
      match l with [] => Forall_nil P | g :: l' => Forall_cons g (formula_nested g) (go l') end in
    match f with
    | FRaw s => H1 s
    | FPred n a => H2 n a
    | FAnd l => H3 l (go l)
    | FOr l => H4 l (go l)
    | FNot f => H5 f (formula_nested f)
    | FWhen c f => H6 c f (formula_nested c) (formula_nested f)
    | FForall v t f => H7 v t f (formula_nested f)
    | FExists v t f => H8 v t f (formula_nested f)
    end.
End Induction2.
Section Induction3.
  Context (P : sexp -> Prop) (H1 : forall w, P (Atom w)) (H2 : forall l, Forall P l -> P (Group l)).
  Fixpoint sexp_nested (e : sexp) : P e :=
    match e with
    | Atom w => H1 w
    | Group l => H2 l ((fix go l : Forall P l :=
        match l with [] => Forall_nil P | g :: l' => Forall_cons g (sexp_nested g) (go l') end) l)
    end.
End Induction3.

(** ** Balance *)
Lemma balanced_app s t : balanced s -> balanced t -> balanced (s +++ t).
Proof.
  intros B C. induction B as [|c s N1 N2 B IH|s u B1 IH1 B2 IH2]; cbn; auto.
  - constructor; auto.
  - rewrite app_assoc_s. cbn. apply bal_group; auto.
Qed.
Lemma balanced_group s : balanced s -> balanced (String "(" (s +++ ")")).
Proof. intros B. change ")" with (String ")" ""). apply bal_group; auto. constructor. Qed.
Lemma balanced_free s : free_of "(" s -> free_of ")" s -> balanced s.
Proof.
  induction s as [|c s IH]; intros F1 F2; [constructor|].
  apply free_cons in F1. apply free_cons in F2. apply bal_other; tauto.
Qed.
Ltac plain := apply balanced_free; intros I; cbn in I; intuition discriminate.
Lemma tabs_balanced n : balanced (tabs n).
Proof. induction n; cbn; constructor; auto; discriminate. Qed.
Lemma newline_balanced : balanced newline. Proof. plain. Qed.
Lemma inline_balanced n t : balanced n -> balanced t -> balanced (inline_group n t).
Proof.
  intros Hn Ht. unfold inline_group. cbn.
  replace (n +++ String " " (t +++ ")")) with ((n +++ String " " t) +++ ")") by (rewrite app_assoc_s; reflexivity).
  apply balanced_group. apply balanced_app; auto. constructor; auto; discriminate.
Qed.
Lemma repr_balanced n t : balanced n -> balanced t -> balanced (object_repr n t).
Proof.
  intros. unfold object_repr. destruct (String.eqb t ""); auto. apply balanced_app; auto.
  cbn. repeat (constructor; [discriminate|discriminate|]). auto.
Qed.

(** A formula prints balanced text at every indentation. *)
Definition prints_balanced (f : pyform) : Prop := forall n, balanced (pprint n f).
Lemma str_balanced s : balanced s -> prints_balanced (PStr s).
Proof. intros B n. cbn. repeat apply balanced_app; auto using tabs_balanced, newline_balanced. Qed.
Lemma seq_balanced l : Forall prints_balanced l -> prints_balanced (PSeq l).
Proof. intros F n. cbn. induction F as [|f l H F IH]; cbn; [constructor|apply balanced_app; auto]. Qed.

(** The three lines of a group, between two pieces of text. *)
Lemma items_balanced name f k rest : balanced name -> prints_balanced f -> balanced rest ->
  balanced (fold_right (fun g t => pprint k g +++ t) "" (group_items name f) +++ rest).
Proof.
  intros Bn Bf Br. cbn [group_items fold_right pprint].
  replace _ with (tabs (k - 1) +++ String "(" ((name +++ newline +++ pprint k f +++ tabs (k - 1)) +++ String ")" (newline +++ rest)));
    [|cbn [String.append]; rewrite !app_assoc_s; cbn [String.append]; rewrite !app_assoc_s; reflexivity].
  apply balanced_app; [apply tabs_balanced|].
  apply bal_group; repeat apply balanced_app; auto using tabs_balanced, newline_balanced.
Qed.
Lemma group_balanced name f : balanced name -> prints_balanced f -> prints_balanced (group name f).
Proof.
  intros Bn Bf k. cbn [pprint group]. rewrite <- (app_nil_s (fold_right _ _ _)). apply items_balanced; auto. constructor.
Qed.

Lemma join_balanced l : Forall balanced l -> balanced (join " " l).
Proof.
  induction 1 as [|a l H F IH]; [constructor|]. destruct l as [|b l]; auto.
  change (join " " (a :: b :: l)) with (a +++ " " +++ join " " (b :: l)). apply balanced_app; auto.
  cbn [String.append]. constructor; auto; discriminate.
Qed.

Lemma build_balanced_both f : pieces_balanced f ->
  prints_balanced (build f) /\ forall s, build f = PStr s -> balanced s.
Proof.
  induction f as [s|n a|l IH|l IH|f IH|c f IHc IHf|v t f IH|v t f IH] using formula_nested; cbn [build pieces_balanced].
  - intros H. split; [apply str_balanced; auto|]. intros ? [= <-]. auto.
  - intros [Hn Ha]. assert (B : balanced (py_P n a)) by (apply inline_balanced; auto; apply join_balanced; auto).
    split; [apply str_balanced; auto|]. intros ? [= <-]. auto.
  - intros Hl. split; [|discriminate]. apply group_balanced; [plain|]. apply seq_balanced. apply Forall_map.
    induction IH as [|f l H F IH]; cbn in Hl; constructor; tauto.
  - intros Hl. split; [|discriminate]. apply group_balanced; [plain|]. apply seq_balanced. apply Forall_map.
    induction IH as [|f l H F IH]; cbn in Hl; constructor; tauto.
  - intros H. destruct (IH H) as [B S]. unfold py_not. destruct (build f) as [s|l] eqn:E.
    + assert (B' : balanced (inline_group "not" s)) by (apply inline_balanced; [plain|auto]).
      split; [apply str_balanced; auto|]. intros ? [= <-]. auto.
    + split; [|discriminate]. apply group_balanced; auto. plain.
  - intros [Hc Hf]. split; [|discriminate]. apply group_balanced; [plain|]. apply seq_balanced.
    repeat constructor; [apply IHc; auto|apply IHf; auto].
  - intros (Hv & Ht & Hf). split; [|discriminate]. apply group_balanced; [|apply IH; auto].
    apply balanced_app; [plain|]. apply repr_balanced; auto. constructor; auto; discriminate.
  - intros (Hv & Ht & Hf). split; [|discriminate]. apply group_balanced; [|apply IH; auto].
    apply balanced_app; [plain|]. apply repr_balanced; auto. constructor; auto; discriminate.
Qed.

Lemma items_balanced' name f k : balanced name -> prints_balanced f ->
  balanced (fold_right (fun g t => pprint k g +++ t) "" (group_items name f)).
Proof. intros. rewrite <- (app_nil_s (fold_right _ _ _)). apply items_balanced; auto. constructor. Qed.

Lemma fold_app k l l' : fold_right (fun g t => pprint k g +++ t) "" (l ++ l') =
  fold_right (fun g t => pprint k g +++ t) "" l +++ fold_right (fun g t => pprint k g +++ t) "" l'.
Proof. induction l as [|a l IH]; cbn; auto. rewrite IH, app_assoc_s. auto. Qed.

Lemma problem_balanced b g : pb_goal b = build g -> pieces_balanced g ->
  balanced (pb_name b) -> balanced (pb_domain b) ->
  Forall (fun o => balanced (fst o) /\ balanced (snd o)) (pb_objects b) -> Forall balanced (pb_init b) ->
  balanced (problem_text b).
Proof.
  intros Eg Hg Hn Hd Ho Hi. destruct (build_balanced_both g Hg) as [Bg Sg]. rewrite <- Eg in Bg, Sg.
  unfold problem_text, definition_of. apply group_balanced.
  { apply balanced_app; [plain|]. apply inline_balanced; auto. plain. }
  intros k. cbn [pprint fold_right]. apply balanced_app.
  { apply (str_balanced (inline_group ":domain" (pb_domain b))). apply inline_balanced; auto. plain. }
  rewrite !fold_app. apply balanced_app; [|apply balanced_app].
  - apply items_balanced'; [plain|]. apply seq_balanced. apply Forall_map. eapply Forall_impl; [|exact Ho].
    cbn. intros o [H1 H2]. apply str_balanced, repr_balanced; auto.
  - apply items_balanced'; [plain|]. apply seq_balanced. apply Forall_map. eapply Forall_impl; [|exact Hi].
    cbn. apply str_balanced.
  - unfold goal_items. destruct (pb_goal b) as [s|l] eqn:E.
    + cbn [fold_right]. rewrite app_nil_s. apply (str_balanced (inline_group ":goal" s)).
      apply inline_balanced; [plain|auto].
    + apply items_balanced'; [plain|auto].
Qed.

(** ** Tokens *)
Definition delim (c : ascii) : Prop := c = "("%char \/ c = ")"%char \/ In c white.
Lemma blankb_spec c : blankb c = true <-> In c white.
Proof.
  unfold blankb. rewrite existsb_exists. split.
  - intros (d & I & E). apply Ascii.eqb_eq in E. congruence.
  - intros I. exists c. split; auto. apply Ascii.eqb_refl.
Qed.
Lemma lex_delim c s : delim c -> fst (lex (String c s)) = "".
Proof.
  intros D. cbn [lex]. destruct (lex s) as [w ts]. destruct (Ascii.eqb_spec c "("); auto. destruct (Ascii.eqb_spec c ")"); auto.
  destruct D as [D|[D|D]]; try congruence. apply blankb_spec in D. rewrite D. auto.
Qed.
Lemma flush_app w ts x : flush_word w (ts ++ x) = flush_word w ts ++ x.
Proof. destruct w; auto. Qed.
Lemma lex_app a c s : delim c ->
  lex (a +++ String c s) = (fst (lex a), snd (lex a) ++ tokens (String c s)).
Proof.
  intros D. induction a as [|d a IH].
  - cbn [String.append fst snd lex app]. pose proof (lex_delim c s D) as F. unfold tokens.
    cbn [lex] in *. destruct (lex s) as [w ts].
    destruct (Ascii.eqb c "("); auto. destruct (Ascii.eqb c ")"); auto. destruct (blankb c); auto. discriminate.
  - cbn [String.append lex]. rewrite IH. destruct (lex a) as [w ts]. cbn [fst snd].
    rewrite flush_app. destruct (Ascii.eqb d "("); auto. destruct (Ascii.eqb d ")"); auto. destruct (blankb d); auto.
Qed.
Lemma tokens_app a c s : delim c -> tokens (a +++ String c s) = tokens a ++ tokens (String c s).
Proof.
  intros D. unfold tokens at 1. rewrite lex_app by auto. rewrite flush_app. unfold tokens.
  destruct (lex a); reflexivity.
Qed.
Lemma tokens_open s : tokens (String "(" s) = TOpen :: tokens s.
Proof. unfold tokens. cbn. destruct (lex s); reflexivity. Qed.
Lemma tokens_close s : tokens (String ")" s) = TClose :: tokens s.
Proof. unfold tokens. cbn. destruct (lex s); reflexivity. Qed.
Lemma tokens_blank c s : In c white -> tokens (String c s) = tokens s.
Proof.
  intros W. unfold tokens. cbn [lex]. destruct (lex s) as [w ts].
  destruct (Ascii.eqb_spec c "(") as [->|_]; [cbn in W; intuition discriminate|].
  destruct (Ascii.eqb_spec c ")") as [->|_]; [cbn in W; intuition discriminate|].
  apply blankb_spec in W. rewrite W. reflexivity.
Qed.
Lemma sp_white : In " "%char white. Proof. cbn; auto. Qed.
Lemma nl_white : In "010"%char white. Proof. cbn; auto. Qed.
Lemma tab_white : In "009"%char white. Proof. cbn; auto. Qed.
Lemma tokens_space a s : tokens (a +++ String " " s) = tokens a ++ tokens s.
Proof. rewrite tokens_app by (right; right; apply sp_white). rewrite tokens_blank by apply sp_white. auto. Qed.
Lemma tokens_newline a s : tokens (a +++ newline +++ s) = tokens a ++ tokens s.
Proof.
  unfold newline. cbn [String.append]. rewrite tokens_app by (right; right; apply nl_white).
  rewrite tokens_blank by apply nl_white. auto.
Qed.
Lemma tokens_closed a s : tokens (a +++ String ")" s) = tokens a ++ TClose :: tokens s.
Proof. rewrite tokens_app by (right; left; auto). rewrite tokens_close. auto. Qed.
Lemma tokens_tabs n s : tokens (tabs n +++ s) = tokens s.
Proof. induction n; cbn; auto. rewrite tokens_blank; auto using tab_white. Qed.

Lemma tokens_inline n t : tokens (inline_group n t) = TOpen :: tokens n ++ tokens t ++ [TClose].
Proof.
  unfold inline_group. cbn [String.append]. rewrite tokens_open. f_equal.
  rewrite tokens_space. f_equal. change ")" with (String ")" ""). rewrite tokens_closed. reflexivity.
Qed.

Lemma tokens_word w : w <> "" -> (forall c, In c (chars w) -> ~ delim c) -> tokens w = [TWord w].
Proof.
  intros N F. unfold tokens. enough (E : lex w = (w, [])) by (rewrite E; destruct w; [congruence|reflexivity]).
  clear N. induction w as [|c w IH]; auto. cbn [lex]. rewrite IH by (intros; apply F; right; auto).
  assert (D : ~ delim c) by (apply F; left; auto). unfold delim in D.
  destruct (Ascii.eqb_spec c "("); [tauto|]. destruct (Ascii.eqb_spec c ")"); [tauto|].
  destruct (blankb c) eqn:B; auto. apply blankb_spec in B. tauto.
Qed.
Lemma tokens_clean w : clean w -> tokens w = [TWord w].
Proof.
  intros ((N & S) & F1 & F2). apply tokens_word; auto. intros c I D. apply (S c I). right.
  destruct D as [->|[->|D]]; auto; contradiction.
Qed.

(** The tokens of the printed form are those of its strings. *)
Fixpoint leaves (f : pyform) : list tok :=
  match f with
  | PStr s => tokens s
  | PSeq l => flat_map leaves l
  end.
Lemma pprint_tokens f : forall n rest, tokens (pprint n f +++ rest) = leaves f ++ tokens rest.
Proof.
  induction f as [s|l IH] using pyform_nested; intros n rest.
  - cbn [pprint leaves]. rewrite !app_assoc_s, tokens_tabs, tokens_newline. auto.
  - cbn [pprint leaves]. induction IH as [|f l H F IH]; cbn [fold_right flat_map]; auto.
    rewrite app_assoc_s, H, IH, app_assoc. auto.
Qed.
Lemma pprint_tokens' n f : tokens (pprint n f) = leaves f.
Proof. rewrite <- (app_nil_s (pprint n f)), pprint_tokens. apply app_nil_r. Qed.

Lemma leaves_items name f : flat_map leaves (group_items name f) = TOpen :: tokens name ++ leaves f ++ [TClose].
Proof.
  cbn [group_items flat_map leaves]. cbn [String.append]. rewrite tokens_open, app_nil_r. reflexivity.
Qed.

(** *** Expressions are determined by their tokens *)
Lemma flat_nonempty e : flat e <> []. Proof. destruct e; discriminate. Qed.
Lemma flat_inj_app e : forall e' x y, flat e ++ x = flat e' ++ y -> e = e' /\ x = y.
Proof.
  induction e as [w|l IH] using sexp_nested; intros [w'|l'] x y E; cbn in E; try discriminate.
  - injection E as <- <-. auto.
  - injection E as E. rewrite <- !app_assoc in E. cbn in E.
    enough (H : l = l' /\ x = y) by (destruct H; subst; auto).
    revert l' E. induction IH as [|e l H F IH]; intros [|e' l'] E; cbn in E.
    + injection E as <-. auto.
    + destruct e'; cbn in E; discriminate.
    + destruct e; cbn in E; discriminate.
    + rewrite <- !app_assoc in E. apply H in E as [<- E]. apply IH in E as [<- <-]. auto.
Qed.
Lemma flat_all_inj l : forall l', flat_map flat l = flat_map flat l' -> l = l'.
Proof.
  induction l as [|e l IH]; intros [|e' l'] E; cbn in E; auto.
  - destruct e'; cbn in E; discriminate.
  - destruct e; cbn in E; discriminate.
  - apply flat_inj_app in E as [<- E]. f_equal; auto.
Qed.
Lemma reads_unique text es es' : reads text es -> reads text es' -> es = es'.
Proof. unfold reads. intros H H'. apply flat_all_inj. congruence. Qed.

(** *** Formulas *)
Lemma tokens_join args : Forall clean args -> tokens (join " " args) = map TWord args.
Proof.
  induction 1 as [|a l H F IH]; auto. destruct l as [|b l].
  - cbn. apply tokens_clean; auto.
  - change (join " " (a :: b :: l)) with (a +++ String " " (join " " (b :: l))).
    rewrite tokens_space, IH, tokens_clean by auto. reflexivity.
Qed.
Lemma atoms_flat ws : flat_map flat (map Atom ws) = map TWord ws.
Proof. induction ws as [|w ws IH]; cbn; congruence. Qed.
Lemma tokens_P n args : clean n -> Forall clean args ->
  tokens (py_P n args) = flat (Group (Atom n :: map Atom args)).
Proof.
  intros Hn Ha. unfold py_P. rewrite tokens_inline, tokens_clean, tokens_join by auto. cbn. rewrite atoms_flat. reflexivity.
Qed.

Lemma leaves_group name f : leaves (group name f) = TOpen :: tokens name ++ leaves f ++ [TClose].
Proof. apply leaves_items. Qed.

Lemma all_leaves l es :
  Forall (fun f => forall e, written f e -> no_quantifier f -> leaves (build f) = flat e) l ->
  Forall2 written l es -> fold_right (fun f P => no_quantifier f /\ P) True l ->
  flat_map leaves (map build l) = flat_map flat es.
Proof.
  intros IH F. induction F as [|f e l es H F IHF]; intros Q; auto. inversion IH as [|? ? IH1 IH2]; subst.
  cbn in Q. cbn [map flat_map]. rewrite (IH1 e), IHF by tauto. reflexivity.
Qed.
Lemma build_leaves f : forall e, written f e -> no_quantifier f -> leaves (build f) = flat e.
Proof.
  induction f as [s|n a|l IH|l IH|f IH|c f IHc IHf|v t f IH|v t f IH] using formula_nested;
    intros e W Q; inversion W; subst; cbn [build].
  - cbn. match goal with H : reads _ _ |- _ => unfold reads in H; rewrite H end. cbn. apply app_nil_r.
  - apply tokens_P; auto.
  - unfold py_and. rewrite leaves_group. cbn [leaves]. rewrite (all_leaves l es) by auto. reflexivity.
  - unfold py_or. rewrite leaves_group. cbn [leaves]. rewrite (all_leaves l es) by auto. reflexivity.
  - match goal with H : written f _ |- _ => specialize (IH _ H Q) end. unfold py_not.
    destruct (build f) as [s|l] eqn:E.
    + cbn [leaves] in *. rewrite tokens_inline, IH. cbn. rewrite app_nil_r. reflexivity.
    + rewrite leaves_group, IH. cbn. rewrite app_nil_r. reflexivity.
  - destruct Q as [Q1 Q2]. unfold py_when. rewrite leaves_group. cbn [leaves flat_map].
    rewrite (IHc _ H1 Q1), (IHf _ H3 Q2). cbn. rewrite !app_nil_r, <- !app_assoc. reflexivity.
  - destruct Q.
  - destruct Q.
Qed.

(** *** Objects *)
Lemma tokens_repr o : clean_object o -> tokens (object_repr (fst o) (snd o)) = map TWord (object_words o).
Proof.
  intros (Hn & _ & Ht). unfold object_repr, object_words. destruct (String.eqb_spec (snd o) "") as [E|E].
  - rewrite tokens_clean by auto. reflexivity.
  - destruct Ht as [Ht|Ht]; [congruence|]. change (fst o +++ " - " +++ snd o) with (fst o +++ String " " ("-" +++ String " " (snd o))).
    rewrite !tokens_space, (tokens_clean (fst o)), (tokens_clean (snd o)) by auto. reflexivity.
Qed.

Lemma typed_untyped os : Forall clean_object os -> Forall (fun o => snd o = "") os -> forall pending,
  typed_list pending (flat_map object_words os) = map (fun n => (n, None)) pending ++ map declared os.
Proof.
  intros C. induction C as [|o os H C IH]; intros U pending; cbn; [rewrite app_nil_r; auto|].
  inversion U as [|? ? U1 U2]; subst. unfold object_words at 1. rewrite U1. cbn [String.eqb app flat_map typed_list].
  destruct (String.eqb_spec (fst o) "-") as [E|E]; [destruct H as (_ & H & _); congruence|].
  rewrite IH by auto. rewrite map_app, <- app_assoc. cbn. unfold declared at 2. rewrite U1. reflexivity.
Qed.
Lemma typed_typed os us : Forall clean_object os -> Forall (fun o => snd o <> "") os ->
  Forall clean_object us -> Forall (fun o => snd o = "") us ->
  typed_list [] (flat_map object_words (os ++ us)) = map declared (os ++ us).
Proof.
  intros C T Cu U. induction C as [|o os H C IH]; [apply (typed_untyped us Cu U [])|].
  inversion T as [|? ? T1 T2]; subst. cbn [app flat_map map]. unfold object_words at 1, declared at 1.
  destruct (String.eqb_spec (snd o) "") as [E|E]; [congruence|]. cbn [app typed_list].
  destruct (String.eqb_spec (fst o) "-") as [Q|Q]; [destruct H as (_ & H & _); congruence|].
  cbn. f_equal. auto.
Qed.

(** *** Problems *)
Lemma problem_reads b es g e :
  clean (pb_name b) -> clean (pb_domain b) -> Forall clean_object (pb_objects b) ->
  Forall2 (fun s e => reads s [e]) (pb_init b) es -> pb_goal b = build g -> written g e -> no_quantifier g ->
  reads (problem_text b) [problem_sexp (pb_name b) (pb_domain b) (pb_objects b) es e].
Proof.
  intros Hn Hd Ho Hi Eg Wg Qg. pose proof (build_leaves g e Wg Qg) as Lg. rewrite <- Eg in Lg.
  unfold reads, problem_text. rewrite pprint_tokens'. unfold definition_of. rewrite leaves_group.
  change ("define " ++ inline_group "problem" (pb_name b))%string
    with ("define" +++ String " " (inline_group "problem" (pb_name b))).
  rewrite tokens_space, tokens_inline, (tokens_clean _ Hn). cbn [leaves flat_map].
  rewrite !flat_map_app. rewrite tokens_inline, (tokens_clean _ Hd). unfold objects_items, init_items.
  rewrite !leaves_items.
  assert (Lo : leaves (PSeq (map (fun o => PStr (object_repr (fst o) (snd o))) (pb_objects b))) =
    map TWord (flat_map object_words (pb_objects b))).
  { cbn [leaves]. clear -Ho. induction Ho as [|o os H C IH]; auto. cbn [map flat_map leaves].
    rewrite tokens_repr, IH, map_app by auto. reflexivity. }
  assert (Li : leaves (PSeq (map PStr (pb_init b))) = flat_map flat es).
  { cbn [leaves]. clear -Hi. induction Hi as [|s e' l es H F IH]; auto. cbn [map flat_map leaves].
    rewrite IH. unfold reads in H. rewrite H. cbn. rewrite app_nil_r. reflexivity. }
  assert (Lgo : flat_map leaves (goal_items b) = flat (Group [Atom ":goal"; e])).
  { unfold goal_items. destruct (pb_goal b) as [s|l].
    - cbn [flat_map leaves] in *. rewrite tokens_inline, Lg. cbn. rewrite !app_nil_r. reflexivity.
    - rewrite leaves_items, Lg. cbn. rewrite !app_nil_r. reflexivity. }
  rewrite Lo, Li, Lgo. unfold problem_sexp. cbn [flat flat_map app]. rewrite atoms_flat.
  cbn. rewrite !app_nil_r, <- !app_assoc. cbn. rewrite <- !app_assoc. cbn. rewrite <- ?app_assoc. reflexivity.
Qed.

(** *** Quantifiers *)
Definition is_open (t : tok) : bool := match t with TOpen => true | _ => false end.
Definition opens (ts : list tok) : nat := List.length (filter is_open ts).
Lemma opens_app a b : opens (a ++ b) = opens a + opens b.
Proof. unfold opens. rewrite filter_app, app_length. auto. Qed.
Lemma opens_cons t a : opens (t :: a) = (if is_open t then 1 else 0) + opens a.
Proof. unfold opens. cbn. destruct (is_open t); auto. Qed.
Fixpoint quantifiers (f : pddl_formula) : nat :=
  match f with
  | FRaw _ | FPred _ _ => 0
  | FAnd l | FOr l => fold_right (fun f n => quantifiers f + n) 0 l
  | FNot f => quantifiers f
  | FWhen c f => quantifiers c + quantifiers f
  | FForall _ _ f | FExists _ _ f => S (quantifiers f)
  end.
Lemma quantifiers_zero f : quantifiers f = 0 -> no_quantifier f.
Proof.
  induction f as [s|n a|l IH|l IH|f IH|c f IHc IHf|v t f IH|v t f IH] using formula_nested;
    cbn [quantifiers no_quantifier]; auto; try discriminate.
  - induction IH as [|f l H F IH]; cbn; auto. intros E. split; [apply H|apply IH]; lia.
  - induction IH as [|f l H F IH]; cbn; auto. intros E. split; [apply H|apply IH]; lia.
  - intros E. split; [apply IHc|apply IHf]; lia.
Qed.
Lemma all_opens l es :
  Forall (fun f => forall e, written f e -> opens (leaves (build f)) + quantifiers f = opens (flat e)) l ->
  Forall2 written l es ->
  opens (flat_map leaves (map build l)) + fold_right (fun f n => quantifiers f + n) 0 l = opens (flat_map flat es).
Proof.
  intros IH F. induction F as [|f e l es H F IHF]; auto. inversion IH as [|? ? IH1 IH2]; subst.
  cbn [map flat_map fold_right]. rewrite !opens_app. specialize (IH1 _ H). specialize (IHF IH2). lia.
Qed.
Lemma word_var v : clean v -> tokens ("?" +++ v) = [TWord ("?" +++ v)].
Proof.
  intros ((N & S) & F1 & F2). apply tokens_word; [discriminate|]. intros c I D. cbn in I. destruct I as [<-|I].
  - destruct D as [D|[D|D]]; try discriminate. cbn in D. intuition discriminate.
  - apply (S c I). right. destruct D as [->|[->|D]]; auto; contradiction.
Qed.
Lemma tokens_quant q v t : clean v -> clean t -> tokens q = [TWord q] ->
  tokens (q +++ String " " (object_repr ("?" +++ v) t)) = [TWord q; TWord ("?" +++ v); TWord "-"; TWord t].
Proof.
  intros Hv Ht Hq. rewrite tokens_space, Hq. unfold object_repr. destruct (String.eqb_spec t "") as [->|E].
  { destruct Ht as ((N & _) & _). congruence. }
  change (("?" +++ v) +++ " - " +++ t) with (("?" +++ v) +++ String " " ("-" +++ String " " t)).
  rewrite !tokens_space, (tokens_clean t), word_var by auto. reflexivity.
Qed.
Lemma leaves_forall v t f : clean v -> clean t ->
  leaves (py_forall v t f) = [TOpen; TWord "forall"; TWord ("?" +++ v); TWord "-"; TWord t] ++ leaves f ++ [TClose].
Proof.
  intros Hv Ht. unfold py_forall. rewrite leaves_group.
  change ("forall " ++ object_repr ("?" ++ v) t)%string with ("forall" +++ String " " (object_repr ("?" +++ v) t)).
  rewrite tokens_quant by (auto; reflexivity). reflexivity.
Qed.
Lemma leaves_exists v t f : clean v -> clean t ->
  leaves (py_exists v t f) = [TOpen; TWord "exists"; TWord ("?" +++ v); TWord "-"; TWord t] ++ leaves f ++ [TClose].
Proof.
  intros Hv Ht. unfold py_exists. rewrite leaves_group.
  change ("exists " ++ object_repr ("?" ++ v) t)%string with ("exists" +++ String " " (object_repr ("?" +++ v) t)).
  rewrite tokens_quant by (auto; reflexivity). reflexivity.
Qed.

(** Every quantifier loses one parenthesis. *)
Lemma build_opens f : forall e, written f e -> opens (leaves (build f)) + quantifiers f = opens (flat e).
Proof.
  induction f as [s|n a|l IH|l IH|f IH|c f IHc IHf|v t f IH|v t f IH] using formula_nested;
    intros e W; inversion W; subst; cbn [build quantifiers].
  - match goal with H : reads _ _ |- _ => unfold reads in H; cbn [leaves]; rewrite H end. cbn [flat_map].
    rewrite app_nil_r. lia.
  - cbn [leaves]. rewrite tokens_P by auto. lia.
  - unfold py_and. rewrite leaves_group. cbn [leaves flat flat_map].
    rewrite ?opens_cons, ?opens_app, <- (all_opens l es) by auto. cbn. lia.
  - unfold py_or. rewrite leaves_group. cbn [leaves flat flat_map].
    rewrite ?opens_cons, ?opens_app, <- (all_opens l es) by auto. cbn. lia.
  - match goal with H : written f _ |- _ => specialize (IH _ H) end. unfold py_not.
    destruct (build f) as [s|l] eqn:E.
    + cbn [leaves] in *. rewrite tokens_inline. cbn [flat flat_map app].
      rewrite ?opens_cons, ?opens_app, <- IH. cbn. lia.
    + rewrite leaves_group. cbn [flat flat_map app].
      rewrite ?opens_cons, ?opens_app, <- IH. cbn. lia.
  - unfold py_when. rewrite leaves_group. cbn [leaves flat flat_map app].
    rewrite ?opens_cons, ?opens_app. rewrite <- (IHc _ H1), <- (IHf _ H3). cbn. lia.
  - rewrite leaves_forall by auto. match goal with H : written f _ |- _ => specialize (IH _ H) end.
    cbn [flat flat_map app]. rewrite ?opens_cons, ?opens_app, <- IH. cbn. lia.
  - rewrite leaves_exists by auto. match goal with H : written f _ |- _ => specialize (IH _ H) end.
    cbn [flat flat_map app]. rewrite ?opens_cons, ?opens_app, <- IH. cbn. lia.
Qed.
Lemma formula_reads n f e : written f e -> (reads (pprint n (build f)) [e] <-> no_quantifier f).
Proof.
  intros W. unfold reads. rewrite pprint_tokens'. cbn [flat_map]. rewrite app_nil_r. split.
  - intros E. apply quantifiers_zero. pose proof (build_opens f e W) as O. rewrite E in O. lia.
  - apply build_leaves. auto.
Qed.
Lemma forall_printed n v t f e : clean v -> clean t -> written f e -> no_quantifier f ->
  reads (pprint n (build (FForall v t f))) [Group [Atom "forall"; Atom ("?" ++ v); Atom "-"; Atom t; e]] /\
  reads (pprint n (build (FExists v t f))) [Group [Atom "exists"; Atom ("?" ++ v); Atom "-"; Atom t; e]].
Proof.
  intros Hv Ht W Q. unfold reads. rewrite !pprint_tokens'. cbn [build].
  rewrite leaves_forall, leaves_exists, (build_leaves f e) by auto. cbn. rewrite !app_nil_r. auto.
Qed.

(** *** Calls *)
Lemma remove_app a b : remove_spaces (a +++ b) = remove_spaces a +++ remove_spaces b.
Proof. induction a as [|c a IH]; cbn; auto. destruct (Ascii.eqb c " "); rewrite IH; auto. Qed.
Lemma remove_blanks g : blanks g -> remove_spaces g = "".
Proof.
  induction g as [|c g IH]; intros B; auto. cbn. rewrite (B c) by (left; auto). cbn. apply IH.
  intros d I. apply B. right. auto.
Qed.
Lemma remove_free w : free_of " " w -> remove_spaces w = w.
Proof.
  induction w as [|c w IH]; intros F; auto. apply free_cons in F as [F1 F2]. cbn.
  destruct (Ascii.eqb_spec c " "); [congruence|]. f_equal. auto.
Qed.
Lemma clean_free c w : clean w -> separator c -> free_of c w.
Proof. intros ((_ & S) & _) D I. apply (S c I D). Qed.
Lemma sep_space : separator " ". Proof. right. left. auto. Qed.
Lemma sep_comma : separator ",". Proof. left. auto. Qed.
Lemma split_free w : free_of "," w -> split_commas w = [w].
Proof.
  induction w as [|c w IH]; intros F; auto. apply free_cons in F as [F1 F2]. cbn.
  destruct (Ascii.eqb_spec c ","); [congruence|]. rewrite IH; auto.
Qed.
Lemma split_app w s : free_of "," w -> split_commas (w +++ String "," s) = w :: split_commas s.
Proof.
  induction w as [|c w IH]; intros F; auto. apply free_cons in F as [F1 F2]. cbn.
  destruct (Ascii.eqb_spec c ","); [congruence|]. rewrite IH; auto.
Qed.
Lemma comma_split ws body : comma_list ws body -> split_commas (remove_spaces body) = ws.
Proof.
  induction 1 as [g w h Hg Hw Hh|g w h ws rest Hg Hw Hh H IH]; rewrite !remove_app, (remove_blanks g), (remove_free w) by auto using clean_free, sep_space.
  - rewrite (remove_blanks h) by auto. rewrite app_nil_s. apply split_free. auto using clean_free, sep_comma.
  - rewrite (remove_blanks h) by auto. cbn. rewrite split_app by auto using clean_free, sep_comma. f_equal. auto.
Qed.
Lemma blanks_gap g : blanks g -> gap g.
Proof. intros B c I. rewrite (B c I). apply sep_space. Qed.
Lemma spelled_gaps g ws s : gap g -> spelled ws s -> spelled ws (g +++ s).
Proof.
  induction g as [|c g IH]; intros G H; auto. cbn. apply spelled_gap; [apply G; left; auto|]. apply IH; auto.
  intros d I. apply G. right. auto.
Qed.
Lemma spelled_after w h ws rest : word w -> gap h -> h <> "" \/ ws = [] /\ rest = "" \/ (exists c r, rest = String c r /\ separator c) ->
  spelled ws rest -> spelled (w :: ws) (w +++ h +++ rest).
Proof.
  intros Hw Gh N H. destruct h as [|c h].
  - cbn. destruct N as [N|[[-> ->]|(c & r & -> & S)]]; [congruence| |].
    + rewrite app_nil_s. apply (spelled_last ""); auto; intros ? [].
    + apply (spelled_word "" w); auto; intros ? [].
  - cbn. apply (spelled_word "" w); [intros ? []|auto|apply Gh; left; auto|].
    apply spelled_gap; [apply Gh; left; auto|]. apply spelled_gaps; auto. intros d I. apply Gh. right. auto.
Qed.
Lemma comma_spelled ws body : comma_list ws body -> spelled ws body.
Proof.
  induction 1 as [g w h Hg Hw Hh|g w h ws rest Hg Hw Hh H IH]; apply spelled_gaps; auto using blanks_gap.
  - rewrite <- (app_nil_s h). apply spelled_after; auto using blanks_gap; [apply Hw|apply spelled_end; intros ? []].
  - apply spelled_after; auto using blanks_gap; [apply Hw| |apply spelled_gap; auto using sep_comma].
    right. right. eauto using sep_comma.
Qed.
Lemma blanks_free c g : c <> " "%char -> blanks g -> free_of c g.
Proof. intros N B I. apply N. auto. Qed.
Lemma comma_free ws body : comma_list ws body -> free_of ")" body.
Proof.
  induction 1 as [g w h Hg Hw Hh|g w h ws rest Hg Hw Hh H IH]; rewrite !free_app, ?free_cons; destruct Hw as (_ & _ & Hw);
    repeat split; auto; try (apply blanks_free; auto); discriminate.
Qed.
Lemma comma_clean ws body : comma_list ws body -> Forall clean ws.
Proof. induction 1; auto. Qed.

Lemma call_parsed name ws body junk : free_of "(" name -> comma_list ws body ->
  parse_proposition (name ++ "(" ++ body ++ ")" ++ junk) = Ok (name, ws) /\
  py_parse_head (name ++ "(" ++ body ++ ")" ++ junk) = Ok name /\
  py_parse_args (name ++ "(" ++ body ++ ")" ++ junk) = Ok ws.
Proof.
  intros F C. unfold parse_proposition, py_parse_head, py_parse_args. cbn [String.append].
  change (name ++ String "(" (body ++ String ")" junk))%string with (name +++ String "(" (body +++ String ")" junk)).
  rewrite after_app, before_app, before_app by eauto using comma_free.
  rewrite (comma_split _ _ C). auto.
Qed.
Lemma call_same name ws body : free_of "(" name -> comma_list ws body ->
  call_text (name ++ "(" ++ body ++ ")") name ws.
Proof.
  intros F C. apply (call_paren name (body +++ String ")" "") body); auto; [|apply comma_spelled; auto].
  apply args_closed. intros [].
Qed.

Lemma add_call prop n ws b : clean n -> parse_proposition prop = Ok (n, ws) ->
  before "(" prop = n -> add_initial_prop prop b = Ok (with_init b (pb_init b ++ [py_P n ws])).
Proof.
  intros Hn P B. unfold add_initial_prop. rewrite P. destruct prop as [|c s]; [discriminate|].
  destruct (Ascii.eqb_spec c "(") as [->|N]; [|reflexivity].
  cbn in B. subst n. destruct Hn as ((N & _) & _). congruence.
Qed.
Lemma call_added name ws body junk b : clean name -> comma_list ws body ->
  exists text, add_initial_prop (name ++ "(" ++ body ++ ")" ++ junk) b = Ok (with_init b (pb_init b ++ [text])) /\
    reads text [atom_sexp name ws].
Proof.
  intros Hn C. assert (F : free_of "(" name) by apply Hn. exists (py_P name ws). split.
  - apply add_call; auto; [apply call_parsed; auto|]. cbn [String.append]. apply before_app. auto.
  - unfold reads. rewrite tokens_P; eauto using comma_clean. cbn. rewrite app_nil_r. reflexivity.
Qed.

Lemma join_comma ws : Forall clean ws -> ws <> [] -> comma_list ws (join ", " ws).
Proof.
  assert (B0 : blanks "") by (intros ? []). assert (B1 : blanks " ") by (intros c [<-|[]]; auto).
  induction 1 as [|w ws H F IH]; [congruence|]. intros _. destruct ws as [|v ws].
  - cbn. rewrite <- (app_nil_s w) at 2. apply (cl_last "" w ""); auto.
  - change (join ", " (w :: v :: ws)) with ("" +++ w +++ "" +++ String "," (" " +++ join ", " (v :: ws))).
    apply cl_more; auto. specialize (IH ltac:(discriminate)). remember (v :: ws) as l eqn:E. clear -IH B1.
    destruct IH as [g w h Hg Hw Hh|g w h ws rest Hg Hw Hh H]; [apply (cl_last (String " " g))|apply (cl_more (String " " g))];
      auto; intros c [<-|I]; auto.
Qed.

Lemma prop_added p b : clean_prop p ->
  exists text, add_initial_prop (prop_to_string p) b = Ok (with_init b (pb_init b ++ [text])) /\
    reads text [prop_sexp p].
Proof.
  intros [Hn Ha]. unfold prop_to_string, print_call. destruct (pargs p) as [|a l] eqn:E.
  - assert (F : free_of "(" (pname p)) by apply Hn. exists (py_P (pname p) [""]). split.
    + apply add_call; auto.
      * unfold parse_proposition. cbn [map join String.append].
        change (pname p ++ String "(" ")")%string with (pname p +++ String "(" ")").
        rewrite after_app, before_app by auto; reflexivity.
      * cbn [map join String.append]. apply before_app. auto.
    + unfold reads, py_P, prop_sexp. rewrite E, tokens_inline, tokens_clean by auto. reflexivity.
  - rewrite <- E in *. unfold prop_sexp. apply (call_added (pname p) (map oname (pargs p)) (join ", " (map oname (pargs p))) "" b); auto.
    apply join_comma; auto. rewrite E. discriminate.
Qed.
Lemma state_added ps : Forall clean_prop ps -> forall b,
  exists texts, set_initial_state (map prop_to_string ps) b = Ok (with_init b (pb_init b ++ texts)) /\
    Forall2 (fun p t => reads t [prop_sexp p]) ps texts.
Proof.
  induction 1 as [|p ps H F IH]; intros b; unfold set_initial_state; cbn [map foldM].
  - exists []. split; auto. rewrite app_nil_r. destruct b; reflexivity.
  - destruct (prop_added p b H) as (t & E & R). rewrite E. cbn [bind].
    destruct (IH (with_init b (pb_init b ++ [t]))) as (ts & E' & R'). exists (t :: ts).
    split; [|constructor; auto]. unfold set_initial_state in E'. rewrite E'. unfold with_init. cbn.
    rewrite <- app_assoc. reflexivity.
Qed.

Lemma objects_added objs : forall b,
  fold_left (fun b o => pb_add_object (fst o) (snd o) b) objs b =
  mkProblem (pb_name b) (pb_domain b) (pb_objects b ++ objs) (pb_init b) (pb_goal b).
Proof.
  induction objs as [|[n t] objs IH]; intros b; cbn [fold_left]; [rewrite app_nil_r; destruct b; reflexivity|].
  rewrite IH. unfold pb_add_object. cbn. rewrite <- app_assoc. reflexivity.
Qed.
Lemma session_reads name domain objs ps g e :
  clean name -> clean domain -> Forall clean_object objs -> Forall clean_prop ps -> written g e -> no_quantifier g ->
  exists b, set_initial_state (map prop_to_string ps)
      (fold_left (fun b o => pb_add_object (fst o) (snd o) b) objs (new_problem name domain)) = Ok b /\
    reads (problem_text (set_goal (build g) b)) [problem_sexp name domain objs (map prop_sexp ps) e].
Proof.
  intros Hn Hd Ho Hp W Q. rewrite objects_added. cbn [app new_problem pb_name pb_domain pb_objects pb_init pb_goal].
  match goal with |- context [set_initial_state _ ?b0] => destruct (state_added ps Hp b0) as (ts & E & R) end.
  eexists. split; [exact E|]. apply (problem_reads (mkProblem name domain objs ts (build g)) (map prop_sexp ps) g e); auto.
  cbn. clear -R. induction R; cbn; constructor; auto.
Qed.

Lemma typed_captured n o : clean n -> n <> "-" -> clean_object o -> snd o <> "" ->
  typed_list [] (flat_map object_words [(n, ""); o]) = [(n, Some (snd o)); (fst o, Some (snd o))].
Proof.
  intros Hn N (Ho & Nd & _) T. cbn [flat_map]. unfold object_words at 1. cbn [fst snd String.eqb app].
  unfold object_words. destruct (String.eqb_spec (snd o) ""); [congruence|]. cbn [app typed_list].
  destruct (String.eqb_spec n "-"); [congruence|]. destruct (String.eqb_spec (fst o) "-"); [congruence|]. reflexivity.
Qed.
Lemma pddl_reads p : clean_prop p -> reads (prop_to_pddl p) [prop_sexp p].
Proof.
  intros [Hn Ha]. unfold reads, prop_to_pddl, prop_sexp, atom_sexp. cbn [String.append]. rewrite tokens_open.
  cbn [flat_map flat app]. rewrite app_nil_r, atoms_flat. f_equal.
  assert (X : forall w, tokens w = [TWord w] -> tokens (w +++ fold_right (fun o s => " " ++ oname o ++ s)%string "" (pargs p) +++ String ")" "") =
    TWord w :: map TWord (map oname (pargs p)) ++ [TClose]).
  { clear Hn. induction (pargs p) as [|o l IH]; intros w Hw; cbn [fold_right].
    - cbn [String.append]. rewrite tokens_closed, Hw. reflexivity.
    - inversion Ha; subst. rewrite !app_assoc_s. cbn [String.append]. rewrite tokens_space, Hw.
      rewrite IH by auto using tokens_clean. reflexivity. }
  apply (X (pname p)). apply tokens_clean; auto.
Qed.
Lemma no_call s b : free_of "(" s -> s <> "" ->
  parse_proposition s = Throw EInvalidArgument /\ add_initial_prop s b = Throw EInvalidArgument.
Proof.
  intros F N. assert (P : parse_proposition s = Throw EInvalidArgument) by (unfold parse_proposition; rewrite after_free; auto).
  split; auto. unfold add_initial_prop. rewrite P. destruct s as [|c s]; [congruence|]. apply free_cons in F as [F _].
  destruct (Ascii.eqb_spec c "("); [congruence|]. reflexivity.
Qed.
