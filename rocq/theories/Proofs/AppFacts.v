(** Lemmas behind C75: the command line, and what the program prints. *)
From Coq Require Import Ascii String List Bool NArith ZArith Arith Lia Sorted.
From Verif.Model Require Import Base Object Proposition State ParameterGenerator Syntax Formula
  Effects Derived Consistency Text Pddl Objects Load Planner Search Print App.
From Verif.Spec Require Import SetSpec TypingSpec FormulaSpec EffectSpec DerivedSpec TextSpec AxiomSpec PddlSpec
  SearchSpec PlannerSpec DirectSpec LoadSpec AppSpec.
From Verif.Proofs Require Import FormulaFacts EffectFacts EffectLink DerivedFacts PddlFacts PddlTheorems TextFacts ProblemFacts LoadFacts StateHistory AxiomLoops SearchFacts SearchTheorems PddlHistory
  PlannerFacts PlannerTheorems DirectFacts.
Import ListNotations.
Local Open Scope string_scope.
Local Open Scope list_scope.
Local Infix "+++" := String.append (at level 60, right associativity).

(** ** Digits *)
Lemma digit_lt c k : digit c k -> k < 10.
Proof. unfold digit. intros H. change (k < length (chars "0123456789")). apply nth_error_Some. congruence. Qed.
Lemma digit_code c k : digit c k -> c = ascii_of_nat (48 + k).
Proof. intros H. pose proof (digit_lt _ _ H). unfold digit in H. do 10 (destruct k as [|k]; [injection H as <-; reflexivity|]). lia. Qed.
Lemma code_digit k : k < 10 -> digit (ascii_of_nat (48 + k)) k.
Proof. intros H. do 10 (destruct k as [|k]; [reflexivity|]). lia. Qed.
Lemma digit_of_spec c z : digit_of c = Some z <-> exists k, digit c k /\ z = Z.of_nat k.
Proof.
  unfold digit_of. split.
  - destruct (Z.leb 48 (Z.of_nat (nat_of_ascii c)) && Z.leb (Z.of_nat (nat_of_ascii c)) 57)%bool eqn:E; [|discriminate].
    apply andb_prop in E as [E1 E2]. apply Z.leb_le in E1, E2. intros [= <-].
    exists (nat_of_ascii c - 48). split; [|lia].
    replace c with (ascii_of_nat (48 + (nat_of_ascii c - 48))) at 1; [apply code_digit; lia|].
    replace (48 + (nat_of_ascii c - 48)) with (nat_of_ascii c) by lia. apply ascii_nat_embedding.
  - intros (k & H & ->). pose proof (digit_lt _ _ H). apply digit_code in H as ->.
    rewrite nat_ascii_embedding by lia.
    replace (Z.leb 48 (Z.of_nat (48 + k)) && Z.leb (Z.of_nat (48 + k)) 57)%bool with true; [f_equal; lia|].
    symmetry. apply andb_true_intro. split; apply Z.leb_le; lia.
Qed.
Lemma digit_of_none c : digit_of c = None <-> forall k, ~ digit c k.
Proof.
  split.
  - intros E k H. assert (digit_of c = Some (Z.of_nat k)) by (apply digit_of_spec; eauto). congruence.
  - intros H. destruct (digit_of c) as [z|] eqn:E; auto. apply digit_of_spec in E as (k & D & _). destruct (H k D).
Qed.

(** ** Rows of digits, read from the left *)
Fixpoint row_value (acc : Z) (l : list ascii) : Z :=
  match l with [] => acc | c :: l' => row_value (10 * acc + match digit_of c with Some k => k | None => 0%Z end) l' end.
Definition row (s : string) : Prop := forall c, In c (chars s) -> exists k, digit c k.

Lemma row_value_snoc l c acc :
  row_value acc (l ++ [c]) = (10 * row_value acc l + match digit_of c with Some k => k | None => 0 end)%Z.
Proof. revert acc. induction l as [|x l IH]; intros acc; [reflexivity|]. cbn [app row_value]. apply IH. Qed.
Lemma digits_row s v : digits s v -> s <> "" /\ row s /\ row_value 0 (chars s) = v.
Proof.
  induction 1 as [c k D|s v c k H (N & R & V) D].
  - split; [discriminate|]. split; [intros x [<-|[]]; eauto|].
    cbn [chars list_ascii_of_string row_value]. rewrite (proj2 (digit_of_spec c _) (ex_intro _ k (conj D eq_refl))). lia.
  - split; [destruct s; discriminate|]. unfold row. rewrite chars_app. cbn [chars list_ascii_of_string]. split.
    + intros x I. apply in_app_or in I as [I|[<-|[]]]; eauto.
    + rewrite row_value_snoc, V, (proj2 (digit_of_spec c _) (ex_intro _ k (conj D eq_refl))). lia.
Qed.
Lemma chars_inj s t : chars s = chars t -> s = t.
Proof. intros H. rewrite <- (string_of_list_ascii_of_string s), <- (string_of_list_ascii_of_string t). unfold chars in H. congruence. Qed.
Lemma row_digits s : s <> "" -> row s -> digits s (row_value 0 (chars s)).
Proof.
  intros N R. remember (chars s) as l eqn:E. revert s E N R. induction l as [|c l IH] using rev_ind; intros s E N R.
  - destruct s; [congruence|discriminate].
  - assert (Es : s = string_of_list_ascii l +++ String c "").
    { apply chars_inj. rewrite chars_app, <- E. unfold chars. rewrite list_ascii_of_string_of_list_ascii. reflexivity. }
    destruct (R c) as [k D]; [rewrite <- E; apply in_or_app; right; left; auto|].
    rewrite row_value_snoc, (proj2 (digit_of_spec c _) (ex_intro _ k (conj D eq_refl))). subst s.
    destruct l as [|x l].
    + cbn. constructor. auto.
    + constructor; auto. apply IH.
      * unfold chars. rewrite list_ascii_of_string_of_list_ascii. auto.
      * discriminate.
      * intros y I. apply R. rewrite <- E. apply in_or_app. left. unfold chars in I.
        rewrite list_ascii_of_string_of_list_ascii in I. auto.
Qed.

Lemma read_digits_row r : forall acc any rest, row r -> no_digit_first rest -> (any = true \/ r <> "") ->
  read_digits acc any (r +++ rest) = Some (row_value acc (chars r)).
Proof.
  induction r as [|c r IH]; intros acc any rest R Nf H.
  - destruct H as [->|H]; [|congruence]. cbn [String.append chars list_ascii_of_string row_value].
    destruct rest as [|x rest]; cbn [read_digits]; auto.
    rewrite (proj2 (digit_of_none x)); auto. intros k. apply (Nf x rest k eq_refl).
  - cbn [String.append read_digits]. destruct (R c) as [k D]; [left; auto|].
    pose proof (proj2 (digit_of_spec c _) (ex_intro _ k (conj D eq_refl))) as E. rewrite E.
    cbn [chars list_ascii_of_string row_value]. rewrite E. apply IH; auto. intros x I. apply R. right. auto.
Qed.
Lemma read_digits_inv s : forall acc any v, read_digits acc any s = Some v -> exists r rest, s = r +++ rest /\ row r /\
  no_digit_first rest /\ (any = true \/ r <> "") /\ v = row_value acc (chars r).
Proof.
  induction s as [|c s IH]; intros acc any v; cbn [read_digits].
  - destruct any; [|discriminate]. intros [= <-]. exists "", "". split; auto. split; [intros c []|]. split; [intros c s' k; discriminate|]. auto.
  - destruct (digit_of c) as [k|] eqn:E.
    + intros H. apply IH in H as (r & rest & -> & R & Nf & _ & ->). exists (String c r), rest. split; auto.
      split; [intros x [<-|I]; auto; apply digit_of_spec in E as (k' & D & _); eauto|]. split; auto.
      split; [right; discriminate|]. cbn [chars list_ascii_of_string row_value]. rewrite E. auto.
    + destruct any; [|discriminate]. intros [= <-]. exists "", (String c s). split; auto. split; [intros x []|].
      split; [|auto]. intros x s' k [= <- <-]. apply (proj1 (digit_of_none c) E).
Qed.
Lemma read_digits_iff s v : read_digits 0 false s = Some v <->
  exists r rest, s = r +++ rest /\ digits r v /\ no_digit_first rest.
Proof.
  split.
  - intros H. apply read_digits_inv in H as (r & rest & -> & R & Nf & [H|H] & ->); [discriminate|].
    exists r, rest. split; auto. split; auto. apply row_digits; auto.
  - intros (r & rest & -> & D & Nf). apply digits_row in D as (Ne & R & <-). apply read_digits_row; auto.
Qed.

(** ** stoi *)
Lemma stoi_blank_iff c : stoi_blank c = true <-> In c [" "; "009"; "010"; "011"; "012"; "013"]%char.
Proof.
  unfold stoi_blank. rewrite existsb_exists. split.
  - intros (x & I & E). apply Ascii.eqb_eq in E as ->. auto.
  - intros I. exists c. split; auto. apply Ascii.eqb_refl.
Qed.
Lemma skip_blanks_spec s : exists b, s = b +++ skip_blanks s /\ blank_text b.
Proof.
  induction s as [|c s (b & E & B)]; [exists ""; split; auto; intros c []|]. cbn [skip_blanks].
  destruct (stoi_blank c) eqn:K; [|exists ""; split; auto; intros x []].
  exists (String c b). split; [cbn [String.append]; congruence|]. intros x [<-|I]; auto. apply stoi_blank_iff. auto.
Qed.
Lemma skip_blanks_app b s : blank_text b -> (forall c s', s = String c s' -> stoi_blank c = false) ->
  skip_blanks (b +++ s) = s.
Proof.
  intros B H. induction b as [|c b IH].
  - cbn [String.append]. destruct s as [|c s]; auto. cbn [skip_blanks]. rewrite (H c s eq_refl). auto.
  - cbn [String.append skip_blanks]. rewrite (proj2 (stoi_blank_iff c)) by (apply B; left; auto).
    apply IH. intros x I. apply B. right. auto.
Qed.
Lemma digit_not_blank c k : digit c k -> stoi_blank c = false.
Proof. intros H. pose proof (digit_lt _ _ H). apply digit_code in H as ->. do 10 (destruct k as [|k]; [reflexivity|]). lia. Qed.
Lemma digit_not_sign c k : digit c k -> c <> "-"%char /\ c <> "+"%char.
Proof. intros H. pose proof (digit_lt _ _ H). apply digit_code in H as ->. do 10 (destruct k as [|k]; [split; discriminate|]). lia. Qed.
Lemma digits_first r v : digits r v -> exists c k r', r = String c r' /\ digit c k.
Proof.
  intros D. apply digits_row in D as (Ne & R & _). destruct r as [|c r]; [congruence|].
  destruct (R c) as [k D]; [left; auto|]. eauto.
Qed.
Lemma read_signed_plain c s : c <> "-"%char -> c <> "+"%char -> read_signed (String c s) = read_digits 0 false (String c s).
Proof.
  intros N1 N2. unfold read_signed. destruct c as [[] [] [] [] [] [] [] []]; try reflexivity; exfalso; [apply N2|apply N1]; reflexivity.
Qed.
Lemma read_signed_iff s z : read_signed s = Some z <-> exists sign r rest v, s = sign +++ r +++ rest /\ digits r v /\
  no_digit_first rest /\ ((sign = "" /\ z = v) \/ (sign = "+" /\ z = v) \/ (sign = "-" /\ z = - v)%Z).
Proof.
  split.
  - intros H. destruct s as [|c s].
    + discriminate.
    + destruct (Ascii.eqb c "-") eqn:E1.
      { apply Ascii.eqb_eq in E1 as ->. cbn [read_signed] in H. destruct (read_digits 0 false s) as [v|] eqn:E; [|discriminate].
        injection H as <-. apply read_digits_iff in E as (r & rest & -> & D & Nf). exists "-", r, rest, v. auto 8. }
      destruct (Ascii.eqb c "+") eqn:E2.
      { apply Ascii.eqb_eq in E2 as ->. cbn [read_signed] in H.
        apply read_digits_iff in H as (r & rest & -> & D & Nf). exists "+", r, rest, z. auto 8. }
      apply Ascii.eqb_neq in E1, E2. rewrite read_signed_plain in H by auto.
      apply read_digits_iff in H as (r & rest & E & D & Nf). exists "", r, rest, z. auto 8.
  - intros (sign & r & rest & v & -> & D & Nf & [[-> ->]|[[-> ->]|[-> ->]]]).
    + destruct (digits_first _ _ D) as (c & k & r' & Er & Dc). cbn [String.append].
      rewrite Er. cbn [String.append]. rewrite read_signed_plain.
      * apply read_digits_iff. exists r, rest. rewrite Er at 1. auto.
      * apply (digit_not_sign _ _ Dc).
      * apply (digit_not_sign _ _ Dc).
    + cbn [String.append read_signed]. apply read_digits_iff. eauto.
    + cbn [String.append read_signed]. rewrite (proj2 (read_digits_iff (r +++ rest) v)); eauto.
Qed.

Lemma stoi_reads s z : read_signed (skip_blanks s) = Some z <-> starts_with_number s z.
Proof.
  split.
  - intros H. destruct (skip_blanks_spec s) as (b & E & B). apply read_signed_iff in H as (sign & r & rest & v & Es & D & Nf & H).
    exists b, sign, r, rest, v. rewrite <- Es. auto.
  - intros (b & sign & r & rest & v & -> & B & D & Nf & H).
    rewrite skip_blanks_app; [apply read_signed_iff; exists sign, r, rest, v; auto|auto|].
    intros c s' E. destruct (digits_first _ _ D) as (x & k & r' & -> & Dx).
    destruct H as [[-> _]|[[-> _]|[-> _]]]; cbn [String.append] in E; injection E as <- _; [eapply digit_not_blank; eauto|reflexivity|reflexivity].
Qed.
Lemma an_int_b z : (Z.leb (- 2 ^ 31) z && Z.ltb z (2 ^ 31))%bool = true <-> an_int z.
Proof. unfold an_int. rewrite andb_true_iff, Z.leb_le, Z.ltb_lt. change (2 ^ 31)%Z with 2147483648%Z. lia. Qed.
Lemma stoi_ok s z : stoi s = Ok z <-> starts_with_number s z /\ an_int z.
Proof.
  rewrite <- stoi_reads, <- an_int_b. unfold stoi. destruct (read_signed (skip_blanks s)) as [y|].
  - destruct (_ && _)%bool eqn:E; split; try discriminate.
    + intros [= <-]. auto.
    + intros [[= <-] _]. auto.
    + intros [[= <-] F]. congruence.
  - split; [discriminate|]. intros [? _]. discriminate.
Qed.
Lemma stoi_cases s :
  (exists z, stoi s = Ok z) \/
  (stoi s = Throw EInvalidArgument /\ forall z, ~ starts_with_number s z) \/
  (stoi s = Throw EOutOfRange /\ exists z, starts_with_number s z /\ ~ an_int z).
Proof.
  unfold stoi. destruct (read_signed (skip_blanks s)) as [y|] eqn:R.
  - destruct (_ && _)%bool eqn:E; eauto. right. right. split; auto. exists y. split; [apply stoi_reads; auto|].
    rewrite <- an_int_b. congruence.
  - right. left. split; auto. intros z H. apply stoi_reads in H. congruence.
Qed.
Lemma starts_unique s y z : starts_with_number s y -> starts_with_number s z -> y = z.
Proof. rewrite <- !stoi_reads. congruence. Qed.

(** ** Options *)
Lemma size_of_int_spec z : an_int z -> Z.of_N (size_of_int z) = depth_of [] z.
Proof.
  intros H. unfold an_int in H. unfold size_of_int, depth_of. change (2 ^ 64)%Z with 18446744073709551616%Z.
  assert (M := Z.mod_pos_bound z 18446744073709551616 eq_refl). rewrite Z2N.id by lia.
  destruct (Z.ltb_spec z 0).
  - symmetry. apply (Z.mod_unique _ _ (-1)); lia.
  - apply Z.mod_small. lia.
Qed.

(** What the loop makes of well-formed items. *)
Definition set_item (i : item) (a : args) : args :=
  match i with
  | Depth z => mkArgs (ar_domain a) (ar_problem a) (size_of_int z) (ar_verbose a)
  | Verbose => mkArgs (ar_domain a) (ar_problem a) (ar_depth a) true
  end.
Lemma parse_depth s l a : parse_options ("--depth" :: s :: l) a = let* z := stoi s in parse_options l (set_item (Depth z) a).
Proof. reflexivity. Qed.
Lemma parse_verbose l a : parse_options ("--verbose" :: l) a = parse_options l (set_item Verbose a).
Proof. reflexivity. Qed.
Lemma parse_written l items r : written l items -> forall a,
  parse_options (l ++ r) a = parse_options r (fold_left (fun a i => set_item i a) items a).
Proof.
  induction 1 as [|s z l items N I _ IH|l items _ IH]; intros a; auto.
  - cbn [app fold_left]. rewrite parse_depth. rewrite (proj2 (stoi_ok s z)) by auto. cbn [bind]. apply IH.
  - cbn [app fold_left]. rewrite parse_verbose. apply IH.
Qed.
Lemma fold_items items : forall a z, Z.of_N (ar_depth a) = depth_of [] z ->
  (forall y, In (Depth y) items -> an_int y) ->
  let b := fold_left (fun a i => set_item i a) items a in
  ar_domain b = ar_domain a /\ ar_problem b = ar_problem a /\ Z.of_N (ar_depth b) = depth_of items z /\
  (ar_verbose b = true <-> ar_verbose a = true \/ In Verbose items).
Proof.
  induction items as [|i items IH]; intros a z Hd Hi b.
  - repeat split; auto. intros [H|[]]; auto.
  - destruct i as [y|].
    + destruct (IH (set_item (Depth y) a) y) as (H1 & H2 & H3 & H4).
      * cbn [set_item ar_depth]. apply size_of_int_spec, Hi. left. auto.
      * intros x I. apply Hi. right. auto.
      * split; [exact H1|]. split; [exact H2|]. split; [exact H3|]. cbn [In]. unfold b. cbn [fold_left].
        rewrite H4. cbn [set_item ar_verbose]. intuition discriminate.
    + destruct (IH (set_item Verbose a) z) as (H1 & H2 & H3 & H4); auto.
      * intros x I. apply Hi. right. auto.
      * split; [exact H1|]. split; [exact H2|]. split; [exact H3|]. cbn [In]. unfold b. cbn [fold_left].
        rewrite H4. cbn [set_item ar_verbose]. intuition.
Qed.
Lemma written_ints l items : written l items -> forall y, In (Depth y) items -> an_int y.
Proof. induction 1 as [|s z l items N I _ IH|l items _ IH]; intros y; [intros []|intros [[= <-]|J]; auto|intros [J|J]; [discriminate|auto]]. Qed.

(** Every list of arguments is well written up to its first fault. *)
Inductive tail_fault : list string -> fault -> Prop :=
| tf_depth : tail_fault ["--depth"] Malformed
| tf_unknown x r : x <> "--depth" -> x <> "--verbose" -> tail_fault (x :: r) Malformed
| tf_number s r : (forall z, ~ starts_with_number s z) -> tail_fault ("--depth" :: s :: r) NoNumber
| tf_large s z r : starts_with_number s z -> ~ an_int z -> tail_fault ("--depth" :: s :: r) TooLarge.
Definition fault_exn (f : fault) : exn :=
  match f with Malformed => ERuntime | NoNumber => EInvalidArgument | TooLarge => EOutOfRange end.
Lemma parse_tail r f a : tail_fault r f -> parse_options r a = Throw (fault_exn f).
Proof.
  intros [|x r' N1 N2|s r' H|s z r' H1 H2].
  - reflexivity.
  - cbn [parse_options]. apply String.eqb_neq in N1, N2. rewrite N1, N2. auto.
  - rewrite parse_depth.
    destruct (stoi_cases s) as [(z & E)|[[E _]|[_ (z & Hz & _)]]].
    + apply stoi_ok in E as [E _]. destruct (H z E).
    + rewrite E. auto.
    + destruct (H z Hz).
  - rewrite parse_depth.
    destruct (stoi_cases s) as [(y & E)|[[_ E]|[E _]]].
    + apply stoi_ok in E as [E I]. rewrite (starts_unique _ _ _ E H1) in I. contradiction.
    + destruct (E z H1).
    + rewrite E. auto.
Qed.
Lemma options_split n : forall l, length l <= n -> exists w items r, l = w ++ r /\ written w items /\
  (r = [] \/ exists f, tail_fault r f).
Proof.
  induction n as [|n IH]; intros l Hl.
  - destruct l; [|cbn in Hl; lia]. exists [], [], []. split; auto. split; [constructor|auto].
  - destruct l as [|x l]; [exists [], [], []; split; auto; split; [constructor|auto]|]. cbn in Hl.
    destruct (String.eqb_spec x "--depth") as [->|N1].
    + destruct l as [|s l].
      { exists [], [], ["--depth"]. split; auto. split; [constructor|]. right. exists Malformed. constructor. }
      destruct (stoi_cases s) as [(z & E)|[[_ E]|[_ (z & E & F)]]].
      * apply stoi_ok in E as [E I]. destruct (IH l) as (w & items & r & -> & W & H); [cbn in Hl; lia|].
        exists ("--depth" :: s :: w), (Depth z :: items), r. split; auto. split; [constructor; auto|auto].
      * exists [], [], ("--depth" :: s :: l). split; auto. split; [constructor|]. right. exists NoNumber. constructor; auto.
      * exists [], [], ("--depth" :: s :: l). split; auto. split; [constructor|]. right. exists TooLarge. econstructor; eauto.
    + destruct (String.eqb_spec x "--verbose") as [->|N2].
      * destruct (IH l) as (w & items & r & -> & W & H); [lia|]. exists ("--verbose" :: w), (Verbose :: items), r.
        split; auto. split; [constructor; auto|auto].
      * exists [], [], (x :: l). split; auto. split; [constructor|]. right. exists Malformed. constructor; auto.
Qed.
Lemma wrong_tail prog d p l items r f : written l items -> tail_fault r f -> wrong (prog :: d :: p :: l ++ r) f.
Proof.
  intros W T. inversion T; subst; cbn [wrong].
  - right. exists prog, d, p, l, items, ["--depth"]. auto.
  - right. exists prog, d, p, l, items, (x :: r0). split; auto. split; auto. right. eauto.
  - exists prog, d, p, l, items, s, r0. auto.
  - exists prog, d, p, l, items, s, z, r0. auto.
Qed.
Lemma wrong_parse argv f : wrong argv f -> parse_argv argv = Throw (fault_exn f).
Proof.
  destruct f; cbn [wrong].
  - intros [H|(prog & d & p & l & items & r & -> & W & H)].
    + destruct argv as [|? [|? [|? ?]]]; cbn in H; try lia; reflexivity.
    + cbn [parse_argv]. rewrite (parse_written _ _ _ W).
      destruct H as [->|(x & r' & -> & N1 & N2)]; (rewrite parse_tail with (f := Malformed); [reflexivity|constructor; auto]).
  - intros (prog & d & p & l & items & s & r & -> & W & H). cbn [parse_argv]. rewrite (parse_written _ _ _ W).
    rewrite parse_tail with (f := NoNumber); [reflexivity|constructor; auto].
  - intros (prog & d & p & l & items & s & z & r & -> & W & H1 & H2). cbn [parse_argv]. rewrite (parse_written _ _ _ W).
    rewrite parse_tail with (f := TooLarge); [reflexivity|econstructor; eauto].
Qed.
Lemma args_eq a b : ar_domain a = ar_domain b -> ar_problem a = ar_problem b ->
  Z.of_N (ar_depth a) = Z.of_N (ar_depth b) -> (ar_verbose a = true <-> ar_verbose b = true) -> a = b.
Proof.
  destruct a as [d p n v], b as [d' p' n' v']. cbn. intros -> -> H E. apply N2Z.inj in H as ->. f_equal.
  destruct v, v'; auto; [symmetry|]; tauto.
Qed.
Lemma command_parse argv a : command argv a -> parse_argv argv = Ok a.
Proof.
  intros (prog & l & items & -> & W & Hd & Hv). cbn [parse_argv]. rewrite <- (app_nil_r l), (parse_written _ _ _ W).
  cbn [parse_options]. f_equal.
  destruct (fold_items items (mkArgs (ar_domain a) (ar_problem a) default_depth false) 5 eq_refl (written_ints _ _ W)) as (H1 & H2 & H3 & H4).
  apply args_eq; auto; [congruence|]. rewrite H4, Hv. cbn. intuition discriminate.
Qed.
Lemma parse_total argv : (exists a, command argv a) \/ exists f, wrong argv f.
Proof.
  destruct argv as [|prog [|d [|p l]]]; try (right; exists Malformed; left; cbn; lia).
  destruct (options_split _ l (le_n _)) as (w & items & r & -> & W & [->|(f & T)]).
  - left. destruct (fold_items items (mkArgs d p default_depth false) 5 eq_refl (written_ints _ _ W)) as (H1 & H2 & H3 & H4).
    exists (fold_left (fun a i => set_item i a) items (mkArgs d p default_depth false)).
    exists prog, w, items. rewrite H1, H2. cbn [ar_domain ar_problem]. rewrite app_nil_r. split; auto. split; auto. split; auto.
    rewrite H4. cbn. intuition discriminate.
  - right. exists f. eapply wrong_tail; eauto.
Qed.
Lemma command_iff argv a : parse_args argv = ("", Ok a) <-> command argv a.
Proof.
  unfold parse_args. split.
  - intros H. destruct (parse_total argv) as [(b & C)|(f & F)].
    + pose proof C as E. apply command_parse in E. rewrite E in H. injection H as <-. auto.
    + apply wrong_parse in F. rewrite F in H. destruct f; discriminate.
  - intros C. rewrite (command_parse _ _ C). auto.
Qed.
Lemma wrong_iff argv f : parse_args argv = (match f with Malformed => usage | _ => "" end, Throw (fault_exn f)) <-> wrong argv f.
Proof.
  unfold parse_args. split.
  - intros H. destruct (parse_total argv) as [(b & C)|(g & F)].
    + apply command_parse in C. rewrite C in H. discriminate.
    + pose proof F as E. apply wrong_parse in E. rewrite E in H. destruct f, g; try discriminate; auto.
  - intros F. rewrite (wrong_parse _ _ F). destruct f; auto.
Qed.

(** ** Numerals *)
Lemma digit_text_digits n : (n < 10)%N -> digits (digit_text n) (Z.of_N n) /\ exists c, digit_text n = String c "".
Proof.
  intros H. split; [|eexists; reflexivity]. unfold digit_text.
  replace (Z.of_N n) with (Z.of_nat (N.to_nat n)) by lia. constructor.
  replace (ascii_of_N (48 + n)) with (ascii_of_nat (48 + N.to_nat n)); [apply code_digit; lia|].
  unfold ascii_of_nat. f_equal. lia.
Qed.
Lemma decimal_digits f : forall n, (n < 2 ^ N.of_nat f)%N -> digits (decimal (S f) n) (Z.of_N n) /\
  (forall s', decimal (S f) n = String "0" s' -> s' = "").
Proof.
  induction f as [|f IH]; intros n H.
  - assert (n = 0%N) as -> by (cbn in H; lia). cbn [decimal]. change (N.ltb 0 10) with true. cbv iota.
    split; [apply digit_text_digits; lia|]. intros s' E. injection E as <-. auto.
  - remember (Datatypes.S f) as f1 eqn:F1. cbn [decimal]. destruct (N.ltb_spec n 10) as [Ln|Ln].
    + destruct (digit_text_digits n Ln) as [D (c & E)]. split; auto. intros s'. rewrite E. intros [= _ <-]. auto.
    + subst f1. assert (Lq : (n / 10 < 2 ^ N.of_nat f)%N).
      { apply N.div_lt_upper_bound; [lia|]. rewrite Nat2N.inj_succ, N.pow_succ_r' in H. lia. }
      destruct (IH _ Lq) as [D Hz]. assert (Lm : (n mod 10 < 10)%N) by (apply N.mod_lt; lia).
      destruct (digit_text_digits _ Lm) as [Dm (c & E)]. rewrite E in *. split.
      * assert (Dc : exists k, digit c k /\ Z.of_N (n mod 10) = Z.of_nat k).
        { apply digits_row in Dm as (_ & R & V). destruct (R c) as [k Dk]; [left; auto|]. exists k. split; auto.
          rewrite <- V. cbn [chars list_ascii_of_string row_value].
          rewrite (proj2 (digit_of_spec c _) (ex_intro _ k (conj Dk eq_refl))). lia. }
        destruct Dc as (k & Dk & Ek).
        replace (Z.of_N n) with (10 * Z.of_N (n / 10) + Z.of_nat k)%Z; [constructor; auto|].
        rewrite <- Ek. assert (Q := N.div_mod n 10 ltac:(lia)). lia.
      * intros s' Es. exfalso. destruct (decimal (Datatypes.S f) (n / 10)) as [|x rest] eqn:Ed.
        { apply digits_row in D as (Ne & _). congruence. }
        cbn [String.append] in Es. injection Es as -> Es. rewrite (Hz rest eq_refl) in *.
        apply digits_row in D as (_ & _ & V). change (0%Z = Z.of_N (n / 10)) in V.
        assert (1 <= n / 10)%N by (apply N.div_le_lower_bound; lia). lia.
Qed.
Lemma size_text_digits n : digits (size_text n) (Z.of_N n) /\ (forall s', size_text n = String "0" s' -> s' = "").
Proof. unfold size_text. apply decimal_digits. rewrite N2Nat.id. apply N.size_gt. Qed.
Lemma size_text_numeral n : numeral (size_text (N.of_nat n)) n.
Proof. unfold numeral. rewrite <- nat_N_Z. apply size_text_digits. Qed.

(** ** Printing *)
Definition prepend {A} (t : string) (y : printing A) : printing A := (t +++ fst y, snd y).
Lemma pbind_text {A B} (x : printing A) (f : A -> printing B) t a : x = (t, Ok a) -> pbind x f = prepend t (f a).
Proof. intros ->. cbn [pbind]. unfold prepend. destruct (f a). reflexivity. Qed.
Lemma pbind_say {A} t (f : unit -> printing A) : pbind (say t) f = prepend t (f tt).
Proof. apply pbind_text. reflexivity. Qed.
Lemma prepend_nil {A} (y : printing A) : prepend "" y = y.
Proof. symmetry. apply surjective_pairing. Qed.
Lemma pbind_mute {A B} (a : A) (f : A -> printing B) : pbind (mute (Ok a)) f = f a.
Proof. rewrite (pbind_text _ _ "" a eq_refl). apply prepend_nil. Qed.
Lemma pbind_prepend {A B} t (x : printing A) (f : A -> printing B) : pbind (prepend t x) f = prepend t (pbind x f).
Proof.
  destruct x as [t' [a| | | |]]; unfold prepend; cbn [fst snd pbind]; auto. destruct (f a). cbn [fst snd].
  rewrite app_assoc_s. auto.
Qed.
Lemma pbind_assoc {A B C} (x : printing A) (f : A -> printing B) (g : B -> printing C) :
  pbind (pbind x f) g = pbind x (fun a => pbind (f a) g).
Proof.
  destruct x as [t [a| | | |]]; auto. rewrite (pbind_text (t, Ok a) f t a eq_refl), pbind_prepend.
  symmetry. exact (pbind_text (t, Ok a) (fun a => pbind (f a) g) t a eq_refl).
Qed.
Lemma snd_pbind {A B} (x : printing A) (f : A -> printing B) : snd (pbind x f) = let* a := snd x in snd (f a).
Proof. destruct x as [t [a| | | |]]; auto. cbn [pbind snd bind]. destruct (f a). reflexivity. Qed.

(** ** Printing does not change the search *)
Section Erase.
  Context {N W : Type} (goal : N -> outcome bool) (children : N -> W -> outcome (list N * W)).
  Context (d : nat) (show : N -> string).
  Lemma print_erase v f : forall late i depth q w,
    snd (print_incr goal children d show v f late i depth q w) = bfs_incr goal children d f late i q w.
  Proof.
    induction f as [|f IH]; intros late i depth [|[n anc] q] w; try reflexivity.
    cbn [print_incr bfs_incr]. destruct (late i); [reflexivity|]. cbv zeta. rewrite snd_pbind.
    transitivity (snd (pbind (mute (goal n)) (fun g : bool =>
      if g then pbind (tell v (line ("Goal state reached: " +++ show n))) (fun _ => mute (Ok (mkBfs q (Some (anc ++ [n])), w)))
      else if Nat.ltb d (length (anc ++ [n])) then print_incr goal children d show v f late (S i)
             (if (v && Nat.ltb depth (length (anc ++ [n])))%bool then length (anc ++ [n]) else depth) q w
      else pbind (tell v (String.concat "" (map (fun m => line (show m)) (anc ++ [n])) +++ line "===================="))
        (fun _ => pbind (mute (children n w)) (fun x =>
           pbind (tell v (String.concat "" (map (fun c => line (show c) +++ endl) (fst x)))) (fun _ =>
           print_incr goal children d show v f late (S i)
             (if (v && Nat.ltb depth (length (anc ++ [n])))%bool then length (anc ++ [n]) else depth)
             (q ++ map (fun c => (c, anc ++ [n])) (fst x)) (snd x))))))).
    { destruct (v && Nat.ltb depth (length (anc ++ [n])))%bool; reflexivity. }
    rewrite snd_pbind. cbn [snd mute]. destruct (goal n) as [[]| | | |]; cbn [bind]; auto.
    - rewrite snd_pbind. destruct v; reflexivity.
    - destruct (Nat.ltb d (length (anc ++ [n]))); [apply IH|].
      rewrite snd_pbind. replace (snd (tell v _)) with (@Ok unit tt) by (destruct v; reflexivity). cbn [bind].
      rewrite snd_pbind. cbn [snd mute]. destruct (children n w) as [[cs w']| | | |]; cbn [bind]; auto.
      rewrite snd_pbind. replace (snd (tell v _)) with (@Ok unit tt) by (destruct v; reflexivity). cbn [bind fst snd]. apply IH.
  Qed.
  Lemma print_silent f : forall late i depth q w,
    fst (print_incr goal children d show false f late i depth q w) = "".
  Proof.
    induction f as [|f IH]; intros late i depth [|[n anc] q] w; try reflexivity.
    cbn [print_incr]. destruct (late i); [reflexivity|]. cbv zeta. cbn [andb]. rewrite pbind_mute.
    destruct (goal n) as [[]| | | |]; try reflexivity. rewrite pbind_mute.
    destruct (Nat.ltb d (length (anc ++ [n]))); [apply IH|]. unfold tell. rewrite pbind_mute.
    destruct (children n w) as [[cs w']| | | |]; try reflexivity. rewrite !pbind_mute. apply IH.
  Qed.
End Erase.

(** ** The order of the visits *)
Section Order.
  Context {N : Type} (isgoal : N -> bool) (kids : N -> list N) (d : nat) (root : N).
  Notation top path := (last path root).
  (** The paths put into the queue when a path is visited. *)
  Definition grow (path : list N) : list (list N) :=
    if isgoal (top path) then []
    else if Nat.ltb d (length path) then [] else map (fun c => path ++ [c]) (kids (top path)).
  Inductive ordered : list (list N) -> list (list N) -> Prop :=
  | od_nil : ordered [] []
  | od_cons path Q r : ordered (Q ++ grow path) r -> ordered (path :: Q) (path :: r).

  Lemma ordered_app A : forall B r, ordered (B ++ flat_map grow A) r -> ordered (A ++ B) (A ++ r).
  Proof.
    induction A as [|a A IH]; intros B r H; cbn [app flat_map] in *; [rewrite app_nil_r in H; auto|].
    constructor. rewrite <- app_assoc. apply IH. rewrite <- app_assoc. auto.
  Qed.
  Lemma level_length k : Forall (fun path => length path = S k) (level isgoal kids root k).
  Proof.
    induction k as [|k IH]; cbn [level]; [repeat constructor|]. apply Forall_flat_map.
    eapply Forall_impl; [|exact IH]. intros path H. cbv beta zeta. destruct (isgoal (top path)); [constructor|].
    apply Forall_map, Forall_forall. intros c _. rewrite app_length, H. cbn [length]. lia.
  Qed.
  Lemma level_grow k : k < d -> flat_map grow (level isgoal kids root k) = level isgoal kids root (S k).
  Proof.
    intros Lk. cbn [level]. assert (H := level_length k). induction H as [|path l H _ IH]; cbn [flat_map]; auto.
    rewrite IH. f_equal. unfold grow. rewrite H. destruct (Nat.ltb_spec d (S k)); [lia|]. auto.
  Qed.
  Lemma level_last : flat_map grow (level isgoal kids root d) = [].
  Proof.
    assert (H := level_length d). induction H as [|path l H _ IH]; cbn [flat_map]; auto. rewrite IH. unfold grow.
    rewrite H. destruct (Nat.ltb_spec d (S d)); [|lia]. destruct (isgoal (top path)); auto.
  Qed.
  Lemma ordered_levels j : forall k, k + j = d ->
    ordered (level isgoal kids root k) (flat_map (level isgoal kids root) (seq k (S j))).
  Proof.
    induction j as [|j IH]; intros k E; cbn [seq flat_map].
    - assert (k = d) as -> by lia. rewrite <- (app_nil_r (level _ _ _ d)) at 1. apply ordered_app. cbn [app].
      rewrite level_last. constructor.
    - rewrite <- (app_nil_r (level _ _ _ k)) at 1. apply ordered_app. cbn [app]. rewrite level_grow by lia.
      apply (IH (S k)). lia.
  Qed.
  Lemma ordered_visits : ordered [[root]] (visits isgoal kids d root).
  Proof. apply (ordered_levels d 0). auto. Qed.
End Order.

Section Narrate.
  Context `{SH : StdHash} (seconds : nat -> string) (L : limits) (K fuel : nat) (p : pddl) (d : nat) (v : bool).
  Context (P : node -> Prop) (I : store -> Prop) (isgoal : node -> bool) (kids : node -> list node) (root : node).
  Context (St : steady (node_goal p) (node_children L p K) P I isgoal kids).
  Notation print := (print_incr (node_goal p) (node_children L p K) d node_text v).
  Notation loop := (app_loop seconds L K fuel p d v).
  Notation text k depth r := (if v then narrate isgoal kids d root node_text (fun n => size_text (N.of_nat n)) (plan_report seconds) k depth r
    else reports (plan_report seconds) k (filter (fun path => isgoal (last path root)) r)).
  Definition queue_paths (q : list (node * list node)) : list (list node) := map (fun e => snd e ++ [fst e]) q.

  Lemma loop_text Q r : ordered isgoal kids d root Q r -> forall q, queue_paths q = Q -> Forall (fun e => P (fst e)) q ->
    forall f i depth k m w, I w -> length r <= f -> length r <= fuel -> length r <= m ->
    pbind (print f (fun _ => false) i depth q w) (fun x => loop m k (fst x) (snd x)) =
    (text k depth r, Ok (k + length (filter (fun path => isgoal (last path root)) r))).
  Proof.
    induction 1 as [|path Q r H IH]; intros q Eq Pq f i depth k m w Iw Lf Lfu Lm.
    - destruct q; [|discriminate]. assert (print f (fun _ => false) i depth [] w = mute (Ok (mkBfs [] None, w))) as -> by (destruct f; reflexivity).
      rewrite pbind_mute. cbn [fst snd]. destruct m; cbn [app_loop bfs_finished bi_queue bi_plan]; unfold mute; f_equal;
      try (destruct v; reflexivity); f_equal; cbn; lia.
    - destruct q as [|[n anc] q]; [discriminate|]. cbn [queue_paths map fst snd] in Eq. injection Eq as <- Eq.
      inversion Pq as [|? ? Pn Pq']; subst. cbn [fst] in Pn. cbn [length] in Lf, Lfu, Lm.
      destruct f as [|f]; [lia|]. cbn [print_incr]. cbv zeta.
      set (path := anc ++ [n]) in *. assert (Et : last path root = n) by apply last_last.
      set (dl := if Nat.ltb depth (length path) then line ("BFS depth: " +++ size_text (N.of_nat (length path - 1))) else "").
      set (depth' := if (v && Nat.ltb depth (length path))%bool then length path else depth).
      match goal with |- pbind (pbind _ ?F) ?G = ?R =>
        assert (X : forall y, pbind (F tt) G = y -> prepend (if v then dl else "") y = R -> pbind (pbind
          (if (v && Nat.ltb depth (length path))%bool then say (line ("BFS depth: " +++ size_text (N.of_nat (length path - 1)))) else mute (Ok tt)) F) G = R) end.
      { intros y Hy Hr. rewrite pbind_assoc. unfold dl in Hr. destruct v; cbn [andb].
        - destruct (Nat.ltb depth (length path)); [rewrite pbind_say, Hy; exact Hr|rewrite pbind_mute, Hy, <- Hr, prepend_nil; auto].
        - rewrite pbind_mute, Hy, <- Hr, prepend_nil. auto. }
      eapply X; clear X; [reflexivity|]. rewrite pbind_assoc, (st_goal _ _ _ _ _ _ St n Pn), pbind_mute.
      unfold grow in H, IH. rewrite Et in H, IH. cbn [narrate filter]. rewrite Et. fold dl.
      destruct (isgoal n) eqn:Gn.
      + rewrite app_nil_r in IH. rewrite pbind_assoc.
        assert (Y : forall y, pbind (mute (Ok (mkBfs q (Some path), w))) (fun x => loop m k (fst x) (snd x)) = y ->
          pbind (tell v (line ("Goal state reached: " +++ node_text n))) (fun _ => pbind (mute (Ok (mkBfs q (Some path), w))) (fun x => loop m k (fst x) (snd x)))
            = prepend (if v then line ("Goal state reached: " +++ node_text n) else "") y).
        { intros y <-. unfold tell. destruct v; [apply pbind_say|rewrite pbind_mute, prepend_nil; auto]. }
        erewrite Y; [|reflexivity]. clear Y. rewrite pbind_mute. cbn [fst snd].
        destruct m as [|m]; [lia|]. cbn [app_loop]. replace (bfs_finished (mkBfs q (Some path))) with false by (destruct q; reflexivity).
        cbn [bfs_deref bi_plan bi_queue]. rewrite pbind_mute, pbind_say. unfold app_incr.
        rewrite (IH q eq_refl Pq' fuel 0 0 (S k) m w Iw) by lia. unfold prepend. cbn [fst snd length].
        f_equal; [|f_equal; lia]. destruct v; cbn [String.append reports]; rewrite ?app_assoc_s; auto.
      + cbn [reports]. assert (Ed : v = true -> depth' = Nat.max depth (length path)).
        { intros ->. unfold depth'. cbn [andb]. destruct (Nat.ltb_spec depth (length path)); lia. }
        destruct (Nat.ltb_spec d (length path)) as [Ld|Ld].
        * rewrite app_nil_r in IH. destruct (Nat.leb_spec (length path) d); [lia|].
          rewrite (IH q eq_refl Pq' f (S i) depth' k m w Iw) by lia. unfold prepend. cbn [fst snd]. f_equal.
          destruct v; auto. rewrite <- Ed by auto. auto.
        * destruct (Nat.leb_spec (length path) d); [|lia].
          destruct (st_kids _ _ _ _ _ _ St n w Pn Gn Iw) as (w' & Ek & Iw').
          rewrite pbind_assoc. 
          set (t1 := String.concat "" (map (fun m0 => line (node_text m0)) path) +++ line "====================").
          set (t2 := String.concat "" (map (fun c => line (node_text c) +++ endl) (kids n))).
          match goal with |- prepend ?a (pbind (tell v t1) ?F) = ?R =>
            assert (Y : pbind (tell v t1) F = prepend (if v then t1 else "") (F tt))
              by (unfold tell; destruct v; [apply pbind_say|rewrite pbind_mute, prepend_nil; auto]) end.
          rewrite Y. clear Y. rewrite Ek, pbind_assoc, pbind_mute. cbn [fst snd]. rewrite pbind_assoc. fold t2.
          match goal with |- context[pbind (tell v t2) ?F] =>
            assert (Y : pbind (tell v t2) F = prepend (if v then t2 else "") (F tt))
              by (unfold tell; destruct v; [apply pbind_say|rewrite pbind_mute, prepend_nil; auto]) end.
          rewrite Y. clear Y. rewrite (IH (q ++ map (fun c => (c, path)) (kids n))) with (f := f) (w := w'); auto; try lia.
          { unfold prepend. cbn [fst snd]. f_equal. destruct v; auto. rewrite <- Ed by auto. unfold t1, t2. rewrite !app_assoc_s. auto. }
          { unfold queue_paths. rewrite map_app, map_map. f_equal. }
          { apply Forall_app. split; auto. apply Forall_map, Forall_forall. intros c Ic. cbn [fst].
            apply (st_nodes _ _ _ _ _ _ St n); auto. }
  Qed.
End Narrate.

(** ** The plans in order *)
Section Plans.
  Context {N W : Type} (goal : N -> outcome bool) (children : N -> W -> outcome (list N * W)) (d : nat) (fuel : nat).
  Context (P : N -> Prop) (I : W -> Prop) (isgoal : N -> bool) (kids : N -> list N) (root : N).
  Context (St : steady goal children P I isgoal kids).
  Lemma loop_plans Q r : ordered isgoal kids d root Q r -> forall q, map (fun e => snd e ++ [fst e]) q = Q ->
    Forall (fun e => P (fst e)) q ->
    forall f i c m w, I w -> length r <= f -> length r <= fuel -> length r <= m ->
    exists w', I w' /\ (let* ' (it, w1) := bfs_incr goal children d f (fun _ => false) i q w in
      bfs_loop goal children d m fuel never c it w1) = Ok (filter (fun path => isgoal (last path root)) r, w').
  Proof.
    induction 1 as [|path Q r H IH]; intros q Eq Pq f i c m w Iw Lf Lfu Lm.
    - destruct q; [|discriminate]. exists w. split; auto. destruct f, m; reflexivity.
    - destruct q as [|[n anc] q]; [discriminate|]. cbn [map fst snd] in Eq. injection Eq as <- Eq.
      inversion Pq as [|? ? Pn Pq']; subst. cbn [fst] in Pn. cbn [length] in Lf, Lfu, Lm.
      destruct f as [|f]; [lia|]. cbn [bfs_incr]. cbv zeta.
      set (path := anc ++ [n]) in *. assert (Et : last path root = n) by apply last_last.
      unfold grow in H, IH. rewrite Et in H, IH. cbn [filter]. rewrite Et, (st_goal _ _ _ _ _ _ St n Pn). cbn [bind].
      destruct (isgoal n) eqn:Gn.
      + rewrite app_nil_r in IH. cbn [bind]. destruct m as [|m]; [lia|].
        destruct (IH q eq_refl Pq' fuel 0 (S c) m w Iw) as (w' & Iw' & E); try lia. exists w'. split; auto.
        cbn [bfs_loop]. replace (bfs_finished (mkBfs q (Some path))) with false by (destruct q; reflexivity).
        cbn [bfs_deref bi_plan bi_queue bind]. change (never c) with (fun _ : nat => false).
        apply bind_Ok in E as ((it & w1) & E1 & E2). rewrite E1. cbn [bind]. rewrite E2. reflexivity.
      + destruct (Nat.ltb_spec d (length path)) as [Ld|Ld].
        * rewrite app_nil_r in IH. apply IH; auto; lia.
        * destruct (st_kids _ _ _ _ _ _ St n w Pn Gn Iw) as (w' & Ek & Iw'). rewrite Ek. cbn [bind].
          apply IH; auto; try lia.
          { rewrite map_app, map_map. f_equal. }
          { apply Forall_app. split; auto. apply Forall_map, Forall_forall. intros x Ix. cbn [fst].
            apply (st_nodes _ _ _ _ _ _ St n); auto. }
  Qed.
End Plans.

(** ** The whole program *)
Section Program.
  Context `{SH : StdHash} (domain_in : string -> option domain_syntax)
    (problem_in : domain_syntax -> source -> option problem_syntax) (check : loaded -> printing bool)
    (seconds : nat -> string) (L : limits).
  Notation run_main K fuel calls argv := (main domain_in problem_in check seconds L K fuel calls argv).

  Lemma main_lemma argv a l st text ok ar rank drank :
    command argv a -> load domain_in problem_in L (ar_domain a) (ar_problem a) true = Ok (l, st) ->
    check l = (text, Ok ok) ->
    let p := ld_pddl l in
    good_domain L p ar rank drank -> Forall (wf_axiom (pd_symbols p)) (pd_axioms p) ->
    Forall (fun o => okind o = KConst) (pd_symbols p) ->
    Forall (fun o => (tuple_count (pd_symbols p) (op_params o) < 2 ^ 31)%Z) (pd_ops p) -> pd_actions p <> [] ->
    Forall word (map oname (pd_symbols p)) -> Forall (fun o => free_of "("%char (op_name o)) (pd_ops p) ->
    NoDup (map op_name (pd_ops p)) -> ordinary_domain p ->
    exists K0, forall K, K0 <= K ->
    exists P I isgoal kids M depth count,
      let root := root_node (pd_init p) in
      let d := N.to_nat (ar_depth a) in
      let plans := found isgoal kids d root in
      steady (node_goal p) (node_children L p K) P I isgoal kids /\ (forall n, P n -> built (nd_state n)) /\ P root /\ I st /\
      digits depth (Z.of_N (ar_depth a)) /\ (forall n, numeral (count n) n) /\
      (forall fuel calls, M <= fuel -> M <= calls ->
         run_main K fuel calls argv =
           (heading a depth +++ text +++ line "Planning:" +++
            (if ar_verbose a then narrate isgoal kids d root node_text count (plan_report seconds) 0 0 (visits isgoal kids d root)
             else reports (plan_report seconds) 0 plans) +++
            summary (count (length plans)) (seconds (length plans)), Ok tt)) /\
      NoDup (map plan_calls plans) /\ StronglySorted (fun a b => length a <= length b) (map plan_calls plans) /\
      forall t, represents (pd_init p) t -> forall cs, In cs (map plan_calls plans) <-> direct L p [] d t cs.
  Proof.
    intros C Hl Hc p G Wa Kc Hcount Ha Hw Hops Nops Ho. exists (enough p). intros K HK.
    set (d := N.to_nat (ar_depth a)). set (root := root_node (pd_init p)).
    destruct (with_problem domain_in problem_in L _ _ _ _ _ Hl) as (ds & b & _ & _ & Em & _). fold p in Em.
    destruct (C61_lemma _ _ _ _ _ _ _ _ _ _ Em) as (B & _ & V & _). specialize (V eq_refl).
    destruct (make_members _ _ _ _ _ _ _ _ _ _ Em) as (Es & _).
    assert (Rs : reachable_store (pd_symbols p) ar (pd_axioms p) st).
    { eapply make_reachable; [| |exact Em|auto].
      - rewrite <- Es. apply (gd_types _ _ _ _ _ G).
      - rewrite <- Es. auto. }
    assert (Lr : exists r, l_rounds L = S r).
    { unfold make_pddl, make_from in Em. apply bind_Ok in Em as (ax & _ & Em). apply bind_Ok in Em as (x & Em & _).
      destruct (l_rounds L); [discriminate|eauto]. }
    destruct Lr as (r & Lr).
    assert (Er : make_planner L p (pd_init p, st) = Ok (root, st)).
    { unfold make_planner. rewrite Lr, (C30_returns_lemma _ _ _ r _ _ B (V st)). reflexivity. }
    pose proof (planner_steady L p ar rank drank G Hcount Ha K HK Ho) as St.
    pose proof (root_ok _ B) as Pr. fold root in Pr.
    pose proof (ordered_visits (is_goal p) (kids L p K) d root) as Ov.
    assert (Fq : Forall (fun e : node * list node => node_ok (fst e)) [(root, [])]) by (constructor; [exact Pr|constructor]).
    exists node_ok, (reachable_store (pd_symbols p) ar (pd_axioms p)), (is_goal p), (kids L p K),
      (length (visits (is_goal p) (kids L p K) d root)), (size_text (ar_depth a)), (fun n => size_text (N.of_nat n)).
    cbv zeta. split; [exact St|]. split; [intros n N; apply N|]. split; [exact Pr|]. split; [exact Rs|].
    split; [apply size_text_digits|]. split; [apply size_text_numeral|]. split.
    - intros fuel calls Lf Lc. unfold main. apply command_iff in C. change (@pair string (outcome args) "" (Ok a)) with (mute (Ok a)) in C.
      rewrite C, pbind_mute, pbind_say, Hl, pbind_mute. cbn [fst snd]. fold p.
      rewrite (pbind_text _ _ _ _ Hc), Er, pbind_mute, pbind_say. cbn [fst snd]. fold d. unfold app_incr.
      pose proof (loop_text seconds L K fuel p d (ar_verbose a) node_ok (reachable_store (pd_symbols p) ar (pd_axioms p)) (is_goal p) (kids L p K) root St
        _ _ Ov [(root, [])] eq_refl Fq fuel 0 0 0 calls st Rs Lf Lf Lc) as X.
      rewrite <- pbind_assoc, (pbind_text _ _ _ _ X). cbn [Nat.add]. unfold prepend, say. cbn [fst snd].
      unfold heading, summary, found. rewrite !app_assoc_s. reflexivity.
    - pose proof (set_in_represents _ B) as R0.
      destruct (loop_plans (node_goal p) (node_children L p K) d (length (visits (is_goal p) (kids L p K) d root)) node_ok
        (reachable_store (pd_symbols p) ar (pd_axioms p)) (is_goal p) (kids L p K) root St _ _ Ov [(root, [])] eq_refl
        Fq _ 0 1 _ st Rs (le_n _) (le_n _) (le_n _)) as (w' & _ & E).
      pose proof (fun t R => bfs_direct_any L p ar rank drank G Hcount Ha Hw Hops Nops Ho K HK d (pd_init p) t _ _ st _ w' R Rs E) as X.
      destruct (X _ R0) as (X1 & _ & X3). split; [exact X1|]. split; [exact X3|]. intros t R. apply (X t R).
  Qed.

  (** *** What does not matter *)
  Ltac results := repeat (progress (rewrite ?snd_pbind; cbn [snd fst say mute bind])).
  Lemma loop_result K fuel p d v v' m : forall k it st,
    snd (app_loop seconds L K fuel p d v m k it st) = snd (app_loop seconds L K fuel p d v' m k it st).
  Proof.
    induction m as [|m IH]; intros k it st; cbn [app_loop]; destruct (bfs_finished it); auto.
    results. destruct (bfs_deref it); results; auto. unfold app_incr. rewrite !print_erase.
    destruct (bfs_incr _ _ _ _ _ _ _ _) as [x| | | |]; cbn [bind]; auto.
  Qed.
  Lemma main_result K fuel calls argv argv' a a' :
    command argv a -> command argv' a' -> ar_domain a = ar_domain a' -> ar_problem a = ar_problem a' -> ar_depth a = ar_depth a' ->
    snd (run_main K fuel calls argv) = snd (run_main K fuel calls argv').
  Proof.
    intros C C' E1 E2 E3. unfold main. apply command_iff in C, C'. rewrite C, C'. results. rewrite E1, E2, E3.
    destruct (load _ _ _ _ _ _) as [x| | | |]; results; auto. destruct (snd (check (fst x))); results; auto.
    destruct (make_planner _ _ _) as [y| | | |]; results; auto. unfold app_incr. rewrite !print_erase.
    destruct (bfs_incr _ _ _ _ _ _ _ _) as [z| | | |]; results; auto.
    rewrite (loop_result _ _ _ _ (ar_verbose a) (ar_verbose a')). auto.
  Qed.
  Lemma main_empty K fuel calls argv a ds : command argv a -> ar_problem a = "" -> domain_in (ar_domain a) = Some ds ->
    exists depth, digits depth (Z.of_N (ar_depth a)) /\ run_main K fuel calls argv = (heading a depth, UB).
  Proof.
    intros C E Ed. exists (size_text (ar_depth a)). split; [apply size_text_digits|]. unfold main. apply command_iff in C. rewrite C.
    change (@pair string (outcome args) "" (Ok a)) with (mute (Ok a)). rewrite pbind_mute, pbind_say, E.
    rewrite (load_empty domain_in problem_in L _ _ true Ed). unfold prepend, heading. cbn [mute pbind fst snd]. rewrite E, app_nil_s. reflexivity.
  Qed.
End Program.
Lemma main_check `{SH : StdHash} domain_in problem_in check check' seconds L K fuel calls argv :
  (forall l, exists text b b', check l = (text, Ok b) /\ check' l = (text, Ok b')) ->
  main domain_in problem_in check seconds L K fuel calls argv = main domain_in problem_in check' seconds L K fuel calls argv.
Proof.
  intros H. unfold main. destruct (parse_args argv) as [t [a| | | |]]; auto. cbn [pbind].
  destruct (load _ _ _ _ _ _) as [[l st]| | | |]; auto. rewrite !pbind_mute. cbn [fst snd].
  destruct (H l) as (text & b & b' & -> & ->). reflexivity.
Qed.
