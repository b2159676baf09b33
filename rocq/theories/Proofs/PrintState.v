(** Facts about the text of states, normal forms and nodes. *)
From Coq Require Import Ascii String List Bool Arith Lia Permutation.
From Verif.Model Require Import Base Object Proposition HashSet State CombinationGenerator
  ParameterGenerator Syntax Formula Text NormalForm Planner Print.
From Verif.Spec Require Import SetSpec TypingSpec FormulaSpec TextSpec ProblemSpec PrintSpec.
From Verif.Proofs Require Import OrderFacts HashSetFacts StateFacts StateHistory FormulaFacts TextFacts ProblemFacts PrintFormula.
Import ListNotations.
Local Open Scope string_scope.
Local Open Scope list_scope.
Local Infix "+++" := String.append (at level 60, right associativity).

(** ** Sorting *)
Lemma insert_string_perm x l : Permutation (x :: l) (insert_string x l).
Proof.
  induction l as [|y l IH]; cbn; [reflexivity|]. destruct (String.ltb y x); [|reflexivity].
  rewrite perm_swap. apply perm_skip. exact IH.
Qed.
Lemma sort_perm l : Permutation l (sort_strings l).
Proof.
  induction l as [|x l IH]; cbn; [constructor|]. rewrite <- insert_string_perm. apply perm_skip. exact IH.
Qed.
Definition below (x : string) (l : list string) : Prop := forall y, In y l -> String.ltb x y = true.
Lemma increasing_cons x l : increasing (x :: l) <-> below x l /\ increasing l.
Proof.
  split.
  - revert x. induction l as [|y l IH]; intros x H.
    + split; [intros ? []|constructor].
    + inversion H as [| |? ? ? L I]; subst. split; [|exact I]. intros z [<-|Z]; [exact L|].
      apply IH in I as [B _]. apply (ord_trans _ _ string_ltb_ok _ y _ L). apply B. exact Z.
  - intros [B I]. destruct l; [constructor|]. constructor; auto. apply B. cbn. auto.
Qed.
Lemma increasing_nodup l : increasing l -> NoDup l.
Proof.
  induction l as [|x l IH]; intros H; [constructor|]. apply increasing_cons in H as [B I]. constructor; auto.
  intros X. apply B in X. rewrite (ord_irrefl _ _ string_ltb_ok x x eq_refl) in X. discriminate.
Qed.
Lemma increasing_unique l : forall l', increasing l -> increasing l' -> (forall x, In x l <-> In x l') -> l = l'.
Proof.
  induction l as [|x l IH]; intros [|y l'] H H' E; auto.
  - exfalso. apply (E y). cbn. auto.
  - exfalso. apply (E x). cbn. auto.
  - apply increasing_cons in H as [B I]. apply increasing_cons in H' as [B' I'].
    assert (X : forall a b m, below a m -> In b m -> In a m -> False).
    { intros a b m Ba _ Ha. apply Ba in Ha. rewrite (ord_irrefl _ _ string_ltb_ok a a eq_refl) in Ha. discriminate. }
    assert (x = y) as ->.
    { destruct (proj1 (E x)) as [->|Hx]; [cbn; auto|auto|]. destruct (proj2 (E y)) as [->|Hy]; [cbn; auto|auto|].
      apply B' in Hx. apply B in Hy. rewrite (ord_asym _ _ string_ltb_ok _ _ Hx) in Hy. discriminate. }
    f_equal. apply IH; auto. intros z. specialize (E z). cbn in E. split; intros Z.
    + destruct E as [[<-|?] _]; auto. exfalso. eauto.
    + destruct E as [_ [<-|?]]; auto. exfalso. eauto.
Qed.
Lemma insert_increasing x l : increasing l -> ~ In x l -> increasing (insert_string x l).
Proof.
  induction l as [|y l IH]; intros H N; cbn; [constructor|]. destruct (String.ltb y x) eqn:E.
  - apply increasing_cons in H as [B I]. apply increasing_cons. split; [|apply IH; auto; intros X; apply N; cbn; auto].
    intros z Z. apply (Permutation_in _ (Permutation_sym (insert_string_perm x l))) in Z as [<-|Z]; auto.
  - constructor; auto. destruct (ord_total _ _ string_ltb_ok x y) as [K|K]; auto; [|congruence].
    intros ->. apply N. cbn. auto.
Qed.
Lemma sort_increasing l : NoDup l -> increasing (sort_strings l).
Proof.
  induction 1 as [|x l N _ IH]; [constructor|]. cbn. apply insert_increasing; auto.
  intros X. apply N. apply (Permutation_in _ (Permutation_sym (sort_perm l))). exact X.
Qed.

(** ** Lists of calls *)
Lemma app_char_inj c a b s t : free_of c a -> free_of c b -> a +++ String c s = b +++ String c t -> a = b /\ s = t.
Proof.
  intros A B E. split.
  - rewrite <- (before_app c a s A), E. apply before_app; auto.
  - pose proof (after_app c a s A) as X. rewrite E, (after_app c b t B) in X. congruence.
Qed.
Definition ends_call (t : string) : Prop := exists u, t = u +++ ")" /\ free_of ")" u.
Lemma join_concat l : join ", " l = String.concat ", " l.
Proof. reflexivity. Qed.
Lemma join_calls_inj l : forall l', Forall ends_call l -> Forall ends_call l' -> join ", " l = join ", " l' -> l = l'.
Proof.
  assert (K : forall u l, join ", " ((u +++ ")") :: l) = u +++ String ")" (match l with [] => "" | _ => ", " +++ join ", " l end)).
  { intros u [|y m]; cbn [join]; [reflexivity|]. rewrite app_assoc_s. reflexivity. }
  induction l as [|x l IH]; intros [|y l'] H H' E; auto.
  - exfalso. inversion H' as [|? ? (u & -> & _) _]; subst. rewrite K in E. destruct u; discriminate E.
  - exfalso. inversion H as [|? ? (u & -> & _) _]; subst. rewrite K in E. destruct u; discriminate E.
  - inversion H as [|? ? (u & -> & Fu) Hl]; subst. inversion H' as [|? ? (v & -> & Fv) Hl']; subst.
    rewrite !K in E. apply app_char_inj in E as [-> E]; auto. f_equal. apply IH; auto.
    destruct l, l'; auto; try discriminate E. injection E. auto.
Qed.
Lemma braces_inj l l' : Forall ends_call l -> Forall ends_call l' -> braces l = braces l' -> l = l'.
Proof.
  intros H H' E. apply join_calls_inj; auto. unfold braces in E. injection E as E.
  change " }" with (" " +++ "}") in E. rewrite <- !app_assoc_s in E. do 2 apply app_last_inj in E. exact E.
Qed.

(** ** Propositions *)
Definition clean_prop (p : prop) : Prop := clean (pname p) /\ Forall clean (map oname (pargs p)).
Definition spelling (p : prop) : string := pname p +++ "(" +++ String.concat ", " (map oname (pargs p)) +++ ")".
Lemma spelling_eq p : prop_to_string p = spelling p.
Proof. unfold prop_to_string, spelling, print_call. rewrite join_concat. reflexivity. Qed.
Lemma clean_word w : clean w -> word w. Proof. intros (H & _ & _). exact H. Qed.
Lemma prop_text_inj p q : clean_prop p -> clean_prop q -> prop_to_string p = prop_to_string q -> prop_key p = prop_key q.
Proof.
  intros [Cp Ap] [Cq Aq] E. apply print_inj in E as [E1 E2].
  - unfold prop_key. rewrite E1, E2. reflexivity.
  - apply Cp.
  - apply Cq.
  - eapply Forall_impl; [|exact Ap]. apply clean_word.
  - eapply Forall_impl; [|exact Aq]. apply clean_word.
Qed.
Lemma free_both c a b : free_of c a -> free_of c b -> free_of c (a +++ b).
Proof. intros A B. apply free_app. auto. Qed.
Lemma free_join c sep l : free_of c sep -> Forall (free_of c) l -> free_of c (join sep l).
Proof.
  intros S. induction 1 as [|x l H Hl IH]; [intros []|]. destruct l; [exact H|].
  change (join sep (x :: s :: l)) with (x +++ sep +++ join sep (s :: l)). apply free_both; auto. apply free_both; auto.
Qed.
Lemma clean_no_white w c : clean w -> In c white -> free_of c w.
Proof. intros ((_ & H) & _) I X. apply (H c X). right. exact I. Qed.
Lemma prop_ends p : clean_prop p -> ends_call (prop_to_string p).
Proof.
  intros [C A]. exists (pname p +++ "(" +++ join ", " (map oname (pargs p))). split.
  - unfold prop_to_string, print_call. rewrite !app_assoc_s. reflexivity.
  - apply free_both; [apply C|]. apply free_both; [intros I; cbn in I; intuition discriminate|].
    apply free_join; [intros I; cbn in I; intuition discriminate|]. eapply Forall_impl; [|exact A]. intros w W. apply W.
Qed.
Lemma prop_one_line p : clean_prop p -> free_of "010" (prop_to_string p).
Proof.
  intros [C A]. assert (I : In "010"%char white) by (cbn; auto).
  unfold prop_to_string, print_call. apply free_both; [apply clean_no_white; auto|].
  apply free_both; [intros J; cbn in J; intuition discriminate|]. apply free_both; [|intros J; cbn in J; intuition discriminate].
  apply free_join; [intros J; cbn in J; intuition discriminate|]. eapply Forall_impl; [|exact A]. intros w W. apply clean_no_white; auto.
Qed.

Section WithHash.
  Context `{SH : StdHash}.

  Lemma built_st_wf s : built s -> st_wf s.
  Proof. intros [ops ->]. apply run_wf. Qed.
  Lemma clean_elements s : built s -> clean_state s -> Forall clean_prop (st_elements s).
  Proof.
    intros B C. apply Forall_forall. intros p I. apply C. apply (contains_mem s p (built_st_wf s B)). apply in_map. exact I.
  Qed.
  Lemma keys_eqb a b : built a -> built b -> map prop_key (st_elements a) = map prop_key (st_elements b) -> st_eqb a b = true.
  Proof.
    intros Ba Bb E. apply st_eqb_spec; [apply built_st_wf; auto|apply built_st_wf; auto|].
    intros x. unfold mem. rewrite E. tauto.
  Qed.
  Lemma texts_keys l : forall l', Forall clean_prop l -> Forall clean_prop l' ->
    map prop_to_string l = map prop_to_string l' -> map prop_key l = map prop_key l'.
  Proof.
    induction l as [|p l IH]; intros [|q l'] H H' E; cbn [map] in *; try discriminate E; auto.
    injection E as E1 E2. inversion H; subst. inversion H'; subst. f_equal; auto. apply prop_text_inj; auto.
  Qed.
  Lemma keys_texts l : forall l', map prop_key l = map prop_key l' -> map prop_to_string l = map prop_to_string l'.
  Proof.
    induction l as [|p l IH]; intros [|q l'] E; cbn [map] in *; try discriminate E; auto.
    inversion E. f_equal; auto. apply to_string_key. unfold prop_key. congruence.
  Qed.
  Lemma texts_nodup s : built s -> clean_state s -> NoDup (map prop_to_string (st_elements s)).
  Proof.
    intros B C. pose proof (clean_elements s B C) as F. pose proof (st_nodup s (built_st_wf s B)) as N.
    induction (st_elements s) as [|p l IH]; [constructor|]. cbn [map] in *. inversion N as [|? ? N1 N2]; subst. inversion F as [|? ? F1 F2]; subst.
    constructor; auto. intros I. apply N1. apply in_map_iff in I as (q & E & I). rewrite Forall_forall in F2.
    rewrite <- (prop_text_inj q p); auto. apply in_map. exact I.
  Qed.

  (** ** States *)
  Lemma C68_text_lemma s : built s -> clean_state s -> exists l,
    state_text s = "{ " +++ String.concat ", " l +++ " }" /\ increasing l /\
    forall t, In t l <-> exists p, st_contains s p = true /\
      t = pname p +++ "(" +++ String.concat ", " (map oname (pargs p)) +++ ")".
  Proof.
    intros B C. exists (sort_strings (map prop_to_string (st_elements s))). split; [|split].
    - unfold state_text, braces. rewrite join_concat. reflexivity.
    - apply sort_increasing, texts_nodup; auto.
    - intros t. pose proof (sort_perm (map prop_to_string (st_elements s))) as P. split.
      + intros I. apply (Permutation_in _ (Permutation_sym P)) in I. apply in_map_iff in I as (p & <- & I).
        exists p. split; [|apply spelling_eq]. apply (contains_mem s p (built_st_wf s B)). apply in_map. exact I.
      + intros (p & H & ->). apply (Permutation_in _ P). fold (spelling p). rewrite <- spelling_eq.
        apply (contains_mem s p (built_st_wf s B)) in H. apply mem_exists in H as (q & I & K).
        rewrite <- (to_string_key q p K). apply in_map. exact I.
  Qed.
  Lemma C68_equal_lemma a b : st_eqb a b = true -> state_text a = state_text b.
  Proof. intros E. unfold state_text. rewrite (keys_texts _ _ (elements_keys a b E)). reflexivity. Qed.
  Lemma C68_state_lemma a b : built a -> built b -> clean_state a -> clean_state b ->
    (state_text a = state_text b <-> st_eqb a b = true).
  Proof.
    intros Ba Bb Ca Cb. split; [|apply C68_equal_lemma].
    intros E. unfold state_text in E. apply braces_inj in E.
    - apply st_eqb_spec; [apply built_st_wf; auto|apply built_st_wf; auto|].
      assert (K : forall s t, Forall clean_prop (st_elements s) -> Forall clean_prop (st_elements t) ->
        sort_strings (map prop_to_string (st_elements s)) = sort_strings (map prop_to_string (st_elements t)) ->
        forall x, mem s x -> mem t x).
      { intros s t Fs Ft Est x M. apply mem_exists in M as (p & I & <-).
        assert (J : In (prop_to_string p) (map prop_to_string (st_elements t))).
        { apply (Permutation_in _ (Permutation_sym (sort_perm _))). rewrite <- Est. apply (Permutation_in _ (sort_perm _)). apply in_map. exact I. }
        apply in_map_iff in J as (q & E1 & J). rewrite Forall_forall in Fs, Ft. rewrite <- (prop_text_inj q p); auto.
        apply in_map. exact J. }
      pose proof (clean_elements a Ba Ca). pose proof (clean_elements b Bb Cb). split; apply K; auto.
    - apply (Permutation_Forall (sort_perm _)). apply Forall_forall. intros t I. apply in_map_iff in I as (p & <- & I).
      apply prop_ends. pose proof (clean_elements a Ba Ca) as F. rewrite Forall_forall in F. auto.
    - apply (Permutation_Forall (sort_perm _)). apply Forall_forall. intros t I. apply in_map_iff in I as (p & <- & I).
      apply prop_ends. pose proof (clean_elements b Bb Cb) as F. rewrite Forall_forall in F. auto.
  Qed.

  (** ** Lines *)
  Definition text_of_lines (l : list string) : string := fold_right (fun x s => x +++ String "010" s) "" l.
  Lemma text_cons x l : text_of_lines (x :: l) = x +++ endl +++ text_of_lines l.
  Proof. reflexivity. Qed.
  Lemma text_of_lines_app l l' : text_of_lines (l ++ l') = text_of_lines l +++ text_of_lines l'.
  Proof.
    induction l as [|x l IH]; [reflexivity|]. cbn [app]. rewrite !text_cons, IH, !app_assoc_s. reflexivity.
  Qed.
  Lemma lines_inj l : forall l', Forall (free_of "010") l -> Forall (free_of "010") l' ->
    text_of_lines l = text_of_lines l' -> l = l'.
  Proof.
    induction l as [|x l IH]; intros [|y l'] H H' E; auto; cbn in E.
    - destruct y; discriminate.
    - destruct x; discriminate.
    - inversion H; subst. inversion H'; subst. apply app_char_inj in E as [-> E]; auto. f_equal; auto.
  Qed.
  Lemma lines_text indent l : lines indent l = text_of_lines (map (fun p => indent +++ prop_to_string p) l).
  Proof.
    induction l as [|p l IH]; [reflexivity|]. cbn [map]. change (lines indent (p :: l)) with (line indent p +++ lines indent l).
    rewrite text_cons, IH. unfold line. rewrite !app_assoc_s. reflexivity.
  Qed.
  (** The lines of the positive and the negative propositions. *)
  Definition literal_lines (indent : string) (c : partial_state) : list string :=
    map (fun p => indent +++ prop_to_string p) (st_elements (ps_pos c)) ++
    map (fun p => (indent +++ "not ") +++ prop_to_string p) (st_elements (ps_neg c)).
  Lemma append_inj a s t : a +++ s = a +++ t -> s = t.
  Proof. induction a as [|c a IH]; cbn; auto. intros [= E]. auto. Qed.
  Lemma pos_not_neg p q : clean_prop p -> prop_to_string p <> "not " +++ prop_to_string q.
  Proof.
    intros [C _] E. apply (f_equal (before "(")) in E. unfold prop_to_string, print_call in E.
    change (pname p +++ "(" +++ ?s) with (pname p +++ String "(" s) in E.
    rewrite (before_app "(" (pname p)) in E by apply C.
    assert (F : free_of " " (pname p)) by (apply clean_no_white; [exact C|cbn; auto]).
    apply F. rewrite E. cbn. auto.
  Qed.
  Lemma literals_inj indent a b : built_partial a -> built_partial b -> clean_partial a -> clean_partial b ->
    literal_lines indent a = literal_lines indent b -> ps_eqb a b = true.
  Proof.
    intros [Ba1 Ba2] [Bb1 Bb2] [Ca1 Ca2] [Cb1 Cb2] E. unfold literal_lines in E.
    pose proof (clean_elements _ Ba1 Ca1) as Fa. pose proof (clean_elements _ Bb1 Cb1) as Fb.
    pose proof (clean_elements _ Ba2 Ca2) as Ga. pose proof (clean_elements _ Bb2 Cb2) as Gb.
    assert (K : map prop_to_string (st_elements (ps_pos a)) = map prop_to_string (st_elements (ps_pos b)) /\
                map prop_to_string (st_elements (ps_neg a)) = map prop_to_string (st_elements (ps_neg b))).
    { revert E Fa Fb. generalize (st_elements (ps_pos b)). induction (st_elements (ps_pos a)) as [|p l IH]; intros [|q l'] E Fa Fb; cbn [map app] in E.
      - split; auto. clear -E. revert E. generalize (st_elements (ps_neg b)).
        induction (st_elements (ps_neg a)) as [|p l IH]; intros [|q l'] E; cbn [map] in *; try discriminate E; auto.
        injection E as E1 E2. apply append_inj in E1. f_equal; auto.
      - exfalso. inversion Fb; subst. destruct (st_elements (ps_neg a)) as [|r m]; [discriminate E|]. cbn [map] in E. injection E as E _.
        rewrite app_assoc_s in E. apply append_inj in E. apply (pos_not_neg q r); auto.
      - exfalso. inversion Fa; subst. destruct (st_elements (ps_neg b)) as [|r m]; [discriminate E|]. cbn [map] in E. injection E as E _.
        rewrite app_assoc_s in E. apply append_inj in E. apply (pos_not_neg p r); auto.
      - injection E as E1 E2. apply append_inj in E1. inversion Fa; subst. inversion Fb; subst.
        destruct (IH _ E2) as [I1 I2]; auto. split; auto. cbn [map]. f_equal; auto. }
    destruct K as [K1 K2]. unfold ps_eqb. rewrite (keys_eqb (ps_pos a)), (keys_eqb (ps_neg a)); auto using texts_keys.
  Qed.
  Lemma literals_equal indent a b : ps_eqb a b = true -> literal_lines indent a = literal_lines indent b.
  Proof.
    unfold ps_eqb. rewrite andb_true_iff. intros [E1 E2]. apply elements_keys in E1. apply elements_keys in E2.
    apply keys_texts in E1. apply keys_texts in E2. unfold literal_lines.
    rewrite <- !(map_map prop_to_string (fun s => _ +++ s)), E1, E2. reflexivity.
  Qed.
  Lemma literals_one_line indent c : free_of "010" indent -> built_partial c -> clean_partial c ->
    Forall (free_of "010") (literal_lines indent c).
  Proof.
    intros I [B1 B2] [C1 C2]. pose proof (clean_elements _ B1 C1) as F. pose proof (clean_elements _ B2 C2) as G.
    apply Forall_app. split; apply Forall_forall; intros t T; apply in_map_iff in T as (p & <- & P).
    - apply free_both; auto. apply prop_one_line. rewrite Forall_forall in F. auto.
    - apply free_both; [apply free_both; auto; intros J; cbn in J; intuition discriminate|]. apply prop_one_line. rewrite Forall_forall in G. auto.
  Qed.
  Lemma partial_lines s : partial_text s = text_of_lines ("(and" :: literal_lines tab s ++ [")"]).
  Proof.
    unfold partial_text, literal_lines. rewrite !lines_text, text_cons, !text_of_lines_app, text_cons, !app_assoc_s. reflexivity.
  Qed.
  Lemma C68_partial_lemma a b : built_partial a -> built_partial b -> clean_partial a -> clean_partial b ->
    (partial_text a = partial_text b <-> ps_eqb a b = true).
  Proof.
    intros Ba Bb Ca Cb. rewrite !partial_lines.
    assert (K : forall c, built_partial c -> clean_partial c -> Forall (free_of "010") ("(and" :: literal_lines tab c ++ [")"])).
    { intros c B C. constructor; [intros J; cbn in J; intuition discriminate|]. apply Forall_app. split.
      - apply literals_one_line; auto. intros J; cbn in J; intuition discriminate.
      - constructor; [intros J; cbn in J; intuition discriminate|constructor]. }
    split.
    - intros E. apply lines_inj in E; auto. injection E as E. apply app_inj_tail in E as [E _].
      apply (literals_inj tab); auto.
    - intros E. rewrite (literals_equal tab a b E). reflexivity.
  Qed.

  (** ** Normal forms *)
  Definition term_lines (inner : string) (c : partial_state) : list string :=
    ("    (" +++ inner) :: literal_lines "        " c ++ ["    )"].
  Lemma term_text_lines inner c : term_text inner c = text_of_lines (term_lines inner c).
  Proof.
    unfold term_text, term_lines, literal_lines. rewrite !lines_text, text_cons, !text_of_lines_app, text_cons, !app_assoc_s. reflexivity.
  Qed.
  Lemma nf_lines outer inner d : nf_text outer inner d =
    text_of_lines (("(" +++ outer) :: flat_map (term_lines inner) d ++ [")"]).
  Proof.
    unfold nf_text. rewrite text_cons, text_of_lines_app, text_cons, !app_assoc_s. do 3 f_equal. f_equal.
    induction d as [|c d IH]; [reflexivity|]. cbn [fold_right flat_map]. rewrite text_of_lines_app, <- IH, term_text_lines. reflexivity.
  Qed.
  Lemma split_at (stop : string) l1 l2 r1 r2 : ~ In stop l1 -> ~ In stop l2 -> l1 ++ stop :: r1 = l2 ++ stop :: r2 -> l1 = l2 /\ r1 = r2.
  Proof.
    revert l2. induction l1 as [|x l1 IH]; intros [|y l2] N1 N2 E; cbn in E.
    - injection E. auto.
    - injection E as -> _. exfalso. apply N2. cbn. auto.
    - injection E as -> _. exfalso. apply N1. cbn. auto.
    - injection E as -> E. destruct (IH l2) as [-> ->]; auto; intros I; [apply N1|apply N2]; cbn; auto.
  Qed.
  Lemma not_literal c : ~ In "    )" (literal_lines "        " c).
  Proof.
    intros I. apply in_app_or in I as [I|I]; apply in_map_iff in I as (p & E & _); cbn in E; discriminate E.
  Qed.
  Lemma terms_inj inner d : forall d', Forall built_partial d -> Forall built_partial d' -> Forall clean_partial d -> Forall clean_partial d' ->
    flat_map (term_lines inner) d ++ [")"] = flat_map (term_lines inner) d' ++ [")"] ->
    Forall2 (fun a b => ps_eqb a b = true) d d'.
  Proof.
    induction d as [|c d IH]; intros [|c' d'] B B' C C' E; [constructor| | |].
    - exfalso. cbn in E. discriminate E.
    - exfalso. cbn in E. discriminate E.
    - cbn [flat_map] in E. unfold term_lines in E at 1 3. cbn [app] in E. injection E as E. rewrite <- !app_assoc in E. cbn [app] in E.
      apply split_at in E as [E1 E2]; auto using not_literal.
      inversion B; subst. inversion B'; subst. inversion C; subst. inversion C'; subst. constructor; [|apply IH; auto].
      apply (literals_inj "        "); auto.
  Qed.
  Lemma terms_equal inner d d' : Forall2 (fun a b => ps_eqb a b = true) d d' ->
    flat_map (term_lines inner) d = flat_map (term_lines inner) d'.
  Proof. induction 1 as [|a b d d' E _ IH]; cbn [flat_map]; auto. unfold term_lines at 1 3. rewrite (literals_equal _ a b E), IH. reflexivity. Qed.
  Lemma nf_one_line outer inner d : free_of "010" outer -> free_of "010" inner -> Forall built_partial d -> Forall clean_partial d ->
    Forall (free_of "010") (("(" +++ outer) :: flat_map (term_lines inner) d ++ [")"]).
  Proof.
    intros O I B C. assert (S : forall s t, free_of "010" s -> free_of "010" t -> free_of "010" (s +++ t)) by (intros; apply free_both; auto).
    constructor; [apply S; auto; intros J; cbn in J; intuition discriminate|].
    apply Forall_app. split; [|constructor; [intros J; cbn in J; intuition discriminate|constructor]].
    induction B as [|c d Bc _ IH]; cbn [flat_map]; [constructor|]. inversion C; subst. apply Forall_app. split; auto.
    constructor; [apply S; auto; intros J; cbn in J; intuition discriminate|].
    apply Forall_app. split; [apply literals_one_line; auto; intros J; cbn in J; intuition discriminate|].
    constructor; [intros J; cbn in J; intuition discriminate|constructor].
  Qed.
  Lemma nf_iff outer inner d d' : free_of "010" outer -> free_of "010" inner ->
    Forall built_partial d -> Forall built_partial d' -> Forall clean_partial d -> Forall clean_partial d' ->
    (nf_text outer inner d = nf_text outer inner d' <-> Forall2 (fun a b => ps_eqb a b = true) d d').
  Proof.
    intros O I B B' C C'. rewrite !nf_lines. split.
    - intros E. apply lines_inj in E; auto using nf_one_line. injection E as E. eapply terms_inj; eauto.
    - intros E. rewrite (terms_equal inner d d' E). reflexivity.
  Qed.
  Lemma C68_dnf_lemma d d' : Forall built_partial d -> Forall built_partial d' -> Forall clean_partial d -> Forall clean_partial d' ->
    (dnf_text d = dnf_text d' <-> Forall2 (fun a b => ps_eqb a b = true) d d') /\
    (cnf_text d = cnf_text d' <-> Forall2 (fun a b => ps_eqb a b = true) d d') /\
    dnf_text d <> cnf_text d'.
  Proof.
    intros B B' C C'. split; [|split].
    - apply nf_iff; auto; intros J; cbn in J; intuition discriminate.
    - apply nf_iff; auto; intros J; cbn in J; intuition discriminate.
    - discriminate.
  Qed.

  (** ** Layout *)
  Lemma unlines_eq l : unlines l = text_of_lines l.
  Proof. reflexivity. Qed.
  Lemma elements_spell s : built s -> clean_state s -> spells s (map prop_to_string (st_elements s)).
  Proof.
    intros B C. split; [apply texts_nodup; auto|]. intros t. split.
    - intros I. apply in_map_iff in I as (p & <- & I). exists p. split; [|apply spelling_eq].
      apply (contains_mem s p (built_st_wf s B)). apply in_map. exact I.
    - intros (p & H & ->). fold (spelling p). rewrite <- spelling_eq.
      apply (contains_mem s p (built_st_wf s B)) in H. apply mem_exists in H as (q & I & K).
      rewrite <- (to_string_key q p K). apply in_map. exact I.
  Qed.
  Lemma block_lines indent c : literal_lines indent c =
    block indent (map prop_to_string (st_elements (ps_pos c))) (map prop_to_string (st_elements (ps_neg c))).
  Proof.
    unfold literal_lines, block. rewrite !map_map. f_equal. apply map_ext. intros p. apply app_assoc_s.
  Qed.
  Lemma C68_partial_text_lemma s : built_partial s -> clean_partial s -> exists pos neg,
    spells (ps_pos s) pos /\ spells (ps_neg s) neg /\
    partial_text s = unlines (["(and"] ++ block (String "009" "") pos neg ++ [")"]).
  Proof.
    intros [B1 B2] [C1 C2]. exists (map prop_to_string (st_elements (ps_pos s))), (map prop_to_string (st_elements (ps_neg s))).
    split; [apply elements_spell; auto|]. split; [apply elements_spell; auto|].
    rewrite partial_lines, block_lines. reflexivity.
  Qed.
  Lemma nf_layout outer inner d : Forall built_partial d -> Forall clean_partial d -> exists ls,
    Forall2 (fun c l => spells (ps_pos c) (fst l) /\ spells (ps_neg c) (snd l)) d ls /\
    nf_text outer inner d = unlines ([("(" +++ outer)] ++
      flat_map (fun l => [("    (" +++ inner)] ++ block "        " (fst l) (snd l) ++ ["    )"]) ls ++ [")"]).
  Proof.
    intros B C. exists (map (fun c => (map prop_to_string (st_elements (ps_pos c)), map prop_to_string (st_elements (ps_neg c)))) d). split.
    - induction d as [|c d IH]; cbn [map]; constructor.
      + inversion B as [|? ? [B1 B2] _]; subst. inversion C as [|? ? [C1 C2] _]; subst. cbn [fst snd].
        split; apply elements_spell; auto.
      + inversion B; subst. inversion C; subst. auto.
    - rewrite nf_lines. change (unlines ?x) with (text_of_lines x). f_equal. cbn [app]. f_equal. f_equal. clear B C. induction d as [|c d IH]; [reflexivity|].
      cbn [flat_map map fst snd]. rewrite IH. unfold term_lines. rewrite block_lines. reflexivity.
  Qed.
  Lemma C68_dnf_text_lemma d : Forall built_partial d -> Forall clean_partial d -> exists ls,
    Forall2 (fun c l => spells (ps_pos c) (fst l) /\ spells (ps_neg c) (snd l)) d ls /\
    dnf_text d = unlines (["(or"] ++ flat_map (fun l => ["    (and"] ++ block "        " (fst l) (snd l) ++ ["    )"]) ls ++ [")"]).
  Proof. exact (nf_layout "or" "and" d). Qed.
  Lemma C68_cnf_text_lemma d : Forall built_partial d -> Forall clean_partial d -> exists ls,
    Forall2 (fun c l => spells (ps_pos c) (fst l) /\ spells (ps_neg c) (snd l)) d ls /\
    cnf_text d = unlines (["(and"] ++ flat_map (fun l => ["    (or"] ++ block "        " (fst l) (snd l) ++ ["    )"]) ls ++ [")"]).
  Proof. exact (nf_layout "and" "or" d). Qed.

  (** ** Nodes *)
  Definition dashes (n : nat) : string := fold_right (fun _ s => String "-" s) EmptyString (seq 0 n).
  Lemma dashes_S n : dashes (S n) = String "-" (dashes n).
  Proof.
    unfold dashes. cbn [seq fold_right]. f_equal. rewrite <- seq_shift.
    generalize (seq 0 n). induction l as [|x l IH]; cbn; auto. f_equal. exact IH.
  Qed.
  Lemma dashes_free n : free_of " " (dashes n) /\ free_of "027" (dashes n).
  Proof.
    unfold dashes. induction (seq 0 n) as [|x l IH]; cbn [fold_right].
    - split; intros [].
    - destruct IH as [A B]. split; apply free_cons; split; auto; discriminate.
  Qed.
  Lemma dashes_inj n m : dashes n = dashes m -> n = m.
  Proof. revert m. induction n as [|n IH]; intros [|m] E; rewrite ?dashes_S in E; try discriminate E; auto. injection E as E. auto. Qed.
  Lemma C68_node_lemma a b : clean_node a -> clean_node b ->
    (node_text a = node_text b <->
     nd_depth a = nd_depth b /\ nd_action a = nd_action b /\ st_eqb (nd_state a) (nd_state b) = true).
  Proof.
    intros (Ba & Ca & Fa & Ra) (Bb & Cb & Fb & Rb). unfold node_text. fold (dashes (nd_depth a)) (dashes (nd_depth b)). split.
    - intros E. apply append_inj in E.
      set (x := if Nat.ltb 0 (nd_depth a) then " " else "") in *. set (y := if Nat.ltb 0 (nd_depth b) then " " else "") in *.
      assert (Fx : free_of "027" x) by (unfold x; destruct (Nat.ltb _ _); [intros [J|[]]; discriminate J|intros []]).
      assert (Fy : free_of "027" y) by (unfold y; destruct (Nat.ltb 0 (nd_depth b)); [intros [J|[]]; discriminate J|intros []]).
      assert (A : forall n u z t, dashes n +++ u +++ z +++ " -> " +++ bold_off +++ t =
        (dashes n +++ u +++ z +++ " -> ") +++ String "027" ("[0m" +++ t)) by (intros; rewrite !app_assoc_s; reflexivity).
      rewrite !A in E. clear A. apply app_char_inj in E as [E S].
      2: { do 3 (apply free_both; [first [apply dashes_free|auto]|]). intros J; cbn in J; intuition discriminate. }
      2: { do 3 (apply free_both; [first [apply dashes_free|auto]|]). intros J; cbn in J; intuition discriminate. }
      apply append_inj in S. apply (C68_state_lemma _ _ Ba Bb Ca Cb) in S.
      assert (D : dashes (nd_depth a) +++ x +++ nd_action a = dashes (nd_depth b) +++ y +++ nd_action b).
      { change " -> " with (" " +++ "-" +++ ">" +++ " ") in E. rewrite <- !app_assoc_s in E. do 4 apply app_last_inj in E.
        rewrite !app_assoc_s in E. exact E. }
      subst x y. destruct (nd_depth a) as [|n], (nd_depth b) as [|m]; cbn [Nat.ltb Nat.leb] in D.
      + rewrite (proj1 Ra eq_refl), (proj1 Rb eq_refl). auto.
      + exfalso. rewrite (proj1 Ra eq_refl), dashes_S in D. discriminate D.
      + exfalso. rewrite (proj1 Rb eq_refl), dashes_S in D. discriminate D.
      + apply (app_char_inj " ") in D as [D1 D2]; try apply dashes_free. apply dashes_inj in D1. auto.
    - intros (-> & -> & E). rewrite (C68_equal_lemma _ _ E). reflexivity.
  Qed.
End WithHash.
