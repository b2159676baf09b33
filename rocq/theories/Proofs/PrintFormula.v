(** Proofs about the text of formulas. *)
From Coq Require Import Ascii String List Bool Arith Lia.
From Verif.Model Require Import Base Object Proposition State CombinationGenerator ParameterGenerator
  Syntax Formula Text Problem Print.
From Verif.Spec Require Import TextSpec ProblemSpec PrintSpec.
From Verif.Proofs Require Import TextFacts ProblemFacts.
Import ListNotations.
Local Open Scope string_scope.
Local Open Scope list_scope.
Local Infix "+++" := String.append (at level 60, right associativity).

Section Induction.
  Context (P : goal -> Prop) (H1 : forall n a, P (GSimple n a))
    (H2 : forall l, Forall P l -> P (GConj l)) (H3 : forall l, Forall P l -> P (GDisj l))
    (H4 : forall g, P g -> P (GNeg g)) (H5 : forall v g, P g -> P (GForall v g))
    (H6 : forall v g, P g -> P (GExists v g)) (H7 : P GOther).
  Fixpoint goal_nested (g : goal) : P g :=
    let go := fix go l : Forall P l :=
      match l with [] => Forall_nil P | g :: l' => Forall_cons g (goal_nested g) (go l') end in
    match g with
    | GSimple n a => H1 n a
    | GConj l => H2 l (go l)
    | GDisj l => H3 l (go l)
    | GNeg g => H4 g (goal_nested g)
    | GForall v g => H5 v g (goal_nested g)
    | GExists v g => H6 v g (goal_nested g)
    | GOther => H7
    end.
End Induction.

(** ** Without quantifiers *)
Lemma terms_tokens l : Forall (fun x => clean (oname x)) l ->
  tokens (fold_right (fun o s => " " +++ oname o +++ s) ")" l) =
  map (fun x => TWord (oname x)) l ++ [TClose].
Proof.
  induction 1 as [|x l C _ IH]; [reflexivity|]. cbn [fold_right map]. rewrite <- app_comm_cons, <- IH. clear IH.
  change (" " +++ ?s) with (String " " s). rewrite (tokens_blank " " _ sp_white).
  destruct l as [|y l]; cbn [fold_right].
  - change ")" with (String ")" ""). rewrite tokens_closed, (tokens_clean _ C). reflexivity.
  - change (" " +++ ?s) with (String " " s). rewrite tokens_space, (tokens_clean _ C), (tokens_blank " " _ sp_white).
    reflexivity.
Qed.
Lemma pddl_fold n l : prop_to_pddl (mkProp n l) =
  String "(" (n +++ fold_right (fun o s => " " +++ oname o +++ s) ")" l).
Proof.
  unfold prop_to_pddl. cbn [pname pargs]. change ("(" +++ ?s) with (String "(" s). f_equal. f_equal.
  induction l as [|x l IH]; [reflexivity|]. cbn [fold_right]. rewrite <- IH, !app_assoc_s. reflexivity.
Qed.
Lemma atom_tokens n l : clean n -> Forall (fun x => clean (oname x)) l ->
  tokens (prop_to_pddl (mkProp n l)) = TOpen :: TWord n :: map (fun x => TWord (oname x)) l ++ [TClose].
Proof.
  intros C F. rewrite pddl_fold, tokens_open. f_equal. destruct l as [|x l].
  - cbn [fold_right map]. change ")" with (String ")" ""). rewrite tokens_closed, (tokens_clean _ C). reflexivity.
  - rewrite <- (terms_tokens _ F). cbn [fold_right]. change (" " +++ ?s) with (String " " s).
    rewrite tokens_space, (tokens_clean _ C), (tokens_blank " " _ sp_white). reflexivity.
Qed.

Definition items_text (params : list object) (gs : list goal) : string :=
  fold_right (fun g s => " " +++ goal_text params g +++ s) ")" gs.
(** The text of a goal ends with a parenthesis or the like, so tokens of what
    follows are not glued to it. *)
Lemma tokens_closing a s : tokens ((a +++ ")") +++ s) = tokens (a +++ ")") ++ tokens s.
Proof.
  rewrite app_assoc_s. cbn [append]. change ")" with (String ")" ""). rewrite !tokens_closed, <- app_assoc. reflexivity.
Qed.
Lemma items_closing params gs : exists a, items_text params gs = a +++ ")".
Proof.
  induction gs as [|g gs [a IH]]; [exists ""; reflexivity|]. cbn [items_text fold_right].
  fold (items_text params gs). rewrite IH. exists (" " +++ goal_text params g +++ a). rewrite !app_assoc_s. reflexivity.
Qed.
Lemma text_closing params g : quantifier_free g -> exists a, goal_text params g = a +++ ")".
Proof.
  destruct g; cbn [goal_text quantifier_free]; intros Q; try tauto.
  - unfold prop_to_pddl. cbn [pname pargs].
    exists ("(" +++ name +++ fold_right (fun o s => " " +++ oname o +++ s) "" args). rewrite !app_assoc_s. reflexivity.
  - destruct (items_closing params gs) as [a E]. unfold items_text in E. rewrite E. exists ("(and" +++ a). rewrite app_assoc_s. reflexivity.
  - destruct (items_closing params gs) as [a E]. unfold items_text in E. rewrite E. exists ("(or" +++ a). rewrite app_assoc_s. reflexivity.
  - exists ("(not " +++ goal_text params g). rewrite app_assoc_s. reflexivity.
Qed.
Lemma text_tokens params g s : quantifier_free g ->
  tokens (goal_text params g +++ s) = tokens (goal_text params g) ++ tokens s.
Proof. intros Q. destruct (text_closing params g Q) as [a E]. rewrite E. apply tokens_closing. Qed.

Lemma items_reads params gs :
  Forall (fun g => clean_goal g -> quantifier_free g -> tokens (goal_text params g) = flat (goal_sexp (forget_variables g))) gs ->
  fold_right (fun g P => clean_goal g /\ P) True gs -> fold_right (fun g P => quantifier_free g /\ P) True gs ->
  tokens (items_text params gs) = flat_map flat (map goal_sexp (map forget_variables gs)) ++ [TClose].
Proof.
  induction 1 as [|g gs H _ IH]; cbn [fold_right]; [reflexivity|]. intros [C Cs] [Q Qs].
  cbn [items_text fold_right map flat_map]. fold (items_text params gs).
  change (" " +++ ?s) with (String " " s). rewrite (tokens_blank " " _ sp_white), (text_tokens _ _ _ Q), H, IH, app_assoc; auto.
Qed.
Lemma text_reads g : forall params, clean_goal g -> quantifier_free g ->
  tokens (goal_text params g) = flat (goal_sexp (forget_variables g)).
Proof.
  induction g as [n a|l IH|l IH|g IH|v g IH|v g IH|] using goal_nested; intros params; cbn [clean_goal quantifier_free]; intros C Q; try tauto.
  - destruct C as (C1 & _ & C2). cbn [goal_text]. rewrite (atom_tokens _ _ C1 C2). cbn [forget_variables goal_sexp flat].
    cbn [flat_map flat app]. do 2 f_equal. f_equal. rewrite map_map. clear C2. induction a as [|x a IHa]; [reflexivity|].
    cbn. f_equal. auto.
  - cbn [goal_text forget_variables goal_sexp flat flat_map]. fold (items_text params l).
    change ("(and" +++ ?s) with (String "(" ("and" +++ s)). rewrite tokens_open. f_equal.
    cbn [flat app]. rewrite <- (items_reads params l); auto.
    + destruct l as [|g l]; [reflexivity|]. cbn [items_text fold_right]. change (" " +++ ?s) with (String " " s).
      rewrite tokens_space, (tokens_blank " " _ sp_white). reflexivity.
    + eapply Forall_impl; [|exact IH]. auto.
  - cbn [goal_text forget_variables goal_sexp flat flat_map]. fold (items_text params l).
    change ("(or" +++ ?s) with (String "(" ("or" +++ s)). rewrite tokens_open. f_equal.
    cbn [flat app]. rewrite <- (items_reads params l); auto.
    + destruct l as [|g l]; [reflexivity|]. cbn [items_text fold_right]. change (" " +++ ?s) with (String " " s).
      rewrite tokens_space, (tokens_blank " " _ sp_white). reflexivity.
    + eapply Forall_impl; [|exact IH]. auto.
  - cbn [goal_text forget_variables goal_sexp flat flat_map].
    change ("(not " +++ ?s) with (String "(" ("not" +++ String " " s)). rewrite tokens_open, tokens_space, (text_tokens _ _ _ Q).
    cbn [flat app]. rewrite (IH params C Q), app_nil_r. reflexivity.
Qed.

(** ** Quantifiers: there are too many closing parentheses *)
Fixpoint count (c : ascii) (s : string) : nat :=
  match s with
  | EmptyString => 0
  | String d s' => (if Ascii.eqb d c then 1 else 0) + count c s'
  end.
Lemma count_app c a b : count c (a +++ b) = count c a + count c b.
Proof. induction a as [|d a IH]; cbn; [reflexivity|]. rewrite IH. lia. Qed.
Lemma count_free c s : free_of c s -> count c s = 0.
Proof.
  induction s as [|d s IH]; cbn; [reflexivity|]. intros F. apply free_cons in F as [N F]. rewrite IH by auto.
  destruct (Ascii.eqb_spec d c); [contradiction|reflexivity].
Qed.
Lemma balanced_count s : balanced s -> count "(" s = count ")" s.
Proof.
  induction 1 as [|c s N1 N2 B IH|s t B1 IH1 B2 IH2]; [reflexivity| |].
  - cbn [count]. apply Ascii.eqb_neq in N1, N2. rewrite N1, N2. auto.
  - cbn [count]. rewrite !count_app. cbn [count]. cbn. lia.
Qed.

Definition is_close (t : tok) : bool := match t with TClose => true | _ => false end.
Definition closes (ts : list tok) : nat := List.length (filter is_close ts).
Lemma closes_app a b : closes (a ++ b) = closes a + closes b.
Proof. unfold closes. rewrite filter_app, app_length. reflexivity. Qed.
Lemma lex_count s : let (w, ts) := lex s in count "(" s = opens ts /\ count ")" s = closes ts.
Proof.
  assert (F : forall w ts, opens (flush_word w ts) = opens ts /\ closes (flush_word w ts) = closes ts)
    by (intros [|c w] ts; split; reflexivity).
  induction s as [|c s IH]; [split; reflexivity|]. cbn [lex count]. destruct (lex s) as [w ts]. destruct IH as [H1 H2].
  destruct (F w ts) as [F1 F2].
  destruct (Ascii.eqb_spec c "(") as [->|N1]; [|destruct (Ascii.eqb_spec c ")") as [->|N2]; [|destruct (blankb c)]].
  - change (Ascii.eqb "(" ")") with false. unfold opens, closes in *. cbn. rewrite F1, F2, H1, H2. auto.
  - unfold opens, closes in *. cbn. rewrite F1, F2, H1, H2. auto.
  - rewrite F1, F2, H1, H2. auto.
  - rewrite H1, H2. auto.
Qed.
Lemma tokens_count s : count "(" s = opens (tokens s) /\ count ")" s = closes (tokens s).
Proof.
  pose proof (lex_count s) as H. unfold tokens. destruct (lex s) as [w ts]. destruct H as [H1 H2].
  rewrite H1, H2. destruct w; split; reflexivity.
Qed.
Lemma flat_count e : opens (flat e) = closes (flat e).
Proof.
  induction e as [w|l IH] using sexp_nested; [reflexivity|]. cbn [flat]. change (TOpen :: ?x) with ([TOpen] ++ x).
  rewrite !opens_app, !closes_app.
  assert (E : opens (flat_map flat l) = closes (flat_map flat l)).
  { induction IH as [|e l H _ IHl]; [reflexivity|]. cbn [flat_map]. rewrite opens_app, closes_app. lia. }
  unfold opens, closes in *. cbn. lia.
Qed.
Lemma reads_count text es : reads text es -> count "(" text = count ")" text.
Proof.
  intros R. destruct (tokens_count text) as [-> ->]. rewrite R. clear R. induction es as [|e es IH]; [reflexivity|].
  cbn [flat_map]. rewrite opens_app, closes_app, flat_count. lia.
Qed.

(** Number of quantifiers. *)
Fixpoint nquant (g : goal) : nat :=
  match g with
  | GSimple _ _ | GOther => 0
  | GConj gs | GDisj gs => fold_right (fun g n => nquant g + n) 0 gs
  | GNeg g => nquant g
  | GForall _ g | GExists _ g => S (nquant g)
  end.
Lemma clean_count c w : clean w -> c = "("%char \/ c = ")"%char -> count c w = 0.
Proof. intros (_ & H1 & H2) [-> | ->]; apply count_free; auto. Qed.
Lemma params_count c params : Forall clean_var params -> c = "("%char \/ c = ")"%char ->
  count c (join " " (map param_text params)) = 0.
Proof.
  intros F D. assert (P : forall x, clean_var x -> count c (param_text x) = 0).
  { intros x [C1 C2]. unfold param_text. rewrite !count_app, (clean_count c (oname x)), (clean_count c (type_name _)) by auto.
    destruct D as [-> | ->]; reflexivity. }
  induction F as [|x l H F IH]; [reflexivity|]. cbn [map]. destruct l as [|y l]; [apply P; auto|].
  cbn [map] in *. change (join " " (param_text x :: param_text y :: map param_text l)) with
    (param_text x +++ " " +++ join " " (param_text y :: map param_text l)).
  rewrite !count_app, IH, (P x H). destruct D as [-> | ->]; reflexivity.
Qed.
Lemma substring_S n m c s : substring (S n) m (String c s) = substring n m s.
Proof. reflexivity. Qed.
(** What remains of the initial text after at least one character. *)
Lemma overwrite_count init w c : String.length w <> 0 ->
  count c (overwrite (String "(" init) w) <= count c w + count c init /\ count c w <= count c (overwrite (String "(" init) w).
Proof.
  intros N. unfold overwrite. rewrite count_app. destruct (String.length w) as [|n] eqn:L; [lia|].
  rewrite substring_S. cbn [String.length Nat.sub].
  assert (H : forall s n m, count c (substring n m s) <= count c s).
  { clear. induction s as [|d s IH]; intros [|n] [|m]; cbn; auto; try lia.
    - specialize (IH 0 m). lia.
    - specialize (IH n 0). lia.
    - specialize (IH n (S m)). lia. }
  specialize (H init n (String.length init - n)). lia.
Qed.
Lemma quantifier_count init params body : Forall clean_var params ->
  count "(" init <= 1 -> count ")" init = 0 ->
  count "(" (quantifier_text (String "(" init) params body) + count ")" body <
  count ")" (quantifier_text (String "(" init) params body) + count "(" body.
Proof.
  intros F I1 I2. unfold quantifier_text.
  set (w := join " " (map param_text params) +++ ")" +++ endl +++ body +++ endl +++ ")").
  assert (N : String.length w <> 0).
  { unfold w. intros E. destruct (join " " (map param_text params)); discriminate E. }
  pose proof (overwrite_count init w "(" N) as [A1 _]. pose proof (overwrite_count init w ")" N) as [_ A2].
  assert (W1 : count "(" w = count "(" body).
  { unfold w. rewrite !count_app, params_count by auto. cbn. lia. }
  assert (W2 : count ")" w = count ")" body + 2).
  { unfold w. rewrite !count_app, params_count by auto. cbn. lia. }
  lia.
Qed.
Lemma items_count params gs :
  Forall (fun g => clean_goal g -> count "(" (goal_text params g) + nquant g <= count ")" (goal_text params g) /\
    (nquant g = 0 -> count "(" (goal_text params g) = count ")" (goal_text params g))) gs ->
  fold_right (fun g P => clean_goal g /\ P) True gs ->
  count "(" (items_text params gs) + 1 + fold_right (fun g n => nquant g + n) 0 gs <= count ")" (items_text params gs) /\
  (fold_right (fun g n => nquant g + n) 0 gs = 0 -> count "(" (items_text params gs) + 1 = count ")" (items_text params gs)).
Proof.
  induction 1 as [|g gs H _ IH]; [cbn; lia|]. cbn [fold_right]. intros [C Cs]. specialize (H C). specialize (IH Cs).
  cbn [items_text fold_right]. fold (items_text params gs). rewrite !count_app. cbn [count].
  change (Ascii.eqb " " "(") with false. change (Ascii.eqb " " ")") with false. cbn [Nat.add]. lia.
Qed.
Lemma text_count g : forall params, Forall clean_var params -> clean_goal g ->
  count "(" (goal_text params g) + nquant g <= count ")" (goal_text params g) /\
  (nquant g = 0 -> count "(" (goal_text params g) = count ")" (goal_text params g)).
Proof.
  induction g as [n a|l IH|l IH|g IH|v g IH|v g IH|] using goal_nested; intros params V; cbn [clean_goal]; intros C.
  - cbn [goal_text nquant]. destruct C as (C1 & _ & C2). destruct (tokens_count (prop_to_pddl (mkProp n a))) as [E1 E2].
    rewrite E1, E2, (atom_tokens _ _ C1 C2). change (TOpen :: TWord n :: ?x) with ([TOpen; TWord n] ++ x).
    rewrite !opens_app, !closes_app.
    assert (Z : opens (map (fun x => TWord (oname x)) a) = 0 /\ closes (map (fun x => TWord (oname x)) a) = 0).
    { clear. induction a as [|x a [H1 H2]]; [split; reflexivity|]. unfold opens, closes in *. cbn. auto. }
    destruct Z as [-> ->]. cbn. lia.
  - cbn [goal_text nquant]. fold (items_text params l). rewrite !count_app. 
    destruct (items_count params l) as [H1 H2]; auto. { eapply Forall_impl; [|exact IH]. auto. }
    change (count "(" "(and") with 1. change (count ")" "(and") with 0. lia.
  - cbn [goal_text nquant]. fold (items_text params l). rewrite !count_app. 
    destruct (items_count params l) as [H1 H2]; auto. { eapply Forall_impl; [|exact IH]. auto. }
    change (count "(" "(or") with 1. change (count ")" "(or") with 0. lia.
  - cbn [goal_text nquant]. rewrite !count_app. specialize (IH params V C).
    change (count "(" "(not ") with 1. change (count ")" "(not ") with 0. cbn [count]. cbn. lia.
  - destruct C as [C1 C2]. cbn [goal_text nquant].
    assert (V' : Forall clean_var (params ++ v)) by (apply Forall_app; auto). specialize (IH _ V' C2).
    pose proof (quantifier_count "forall (" params (goal_text (params ++ v) g) V (le_n _) eq_refl). lia.
  - destruct C as [C1 C2]. cbn [goal_text nquant].
    assert (V' : Forall clean_var (params ++ v)) by (apply Forall_app; auto). specialize (IH _ V' C2).
    pose proof (quantifier_count "exists (" params (goal_text (params ++ v) g) V (le_n _) eq_refl). lia.
  - cbn. lia.
Qed.

(** ** Theorems *)
Lemma nquant_zero g : quantifier_free g -> nquant g = 0.
Proof.
  induction g as [n a|l IH|l IH|g IH|v g IH|v g IH|] using goal_nested; cbn [quantifier_free nquant]; try tauto.
  - induction IH as [|g l H _ IHl]; [reflexivity|]. cbn [fold_right]. intros [Q Qs]. rewrite H, IHl; auto.
  - induction IH as [|g l H _ IHl]; [reflexivity|]. cbn [fold_right]. intros [Q Qs]. rewrite H, IHl; auto.
Qed.
Lemma compile_free `{SH : StdHash} partial om g : forall params r,
  compile partial om g params = Ok r -> nquant g = 0 -> quantifier_free g.
Proof.
  induction g as [n a|l IH|l IH|g IH|v g IH|v g IH|] using goal_nested; intros params r E Z; cbn [nquant quantifier_free] in *; auto; try discriminate.
  - cbn [compile] in E. destruct (mapM _ l) as [rs| | | |] eqn:M; try discriminate E. apply mapM_spec in M. clear E.
    revert rs M. induction IH as [|g l H _ IHl]; intros rs M; cbn [fold_right] in *; [exact Logic.I|].
    inversion M; subst. split; [eapply H; [eauto|lia]|eapply IHl; [lia|eauto]].
  - cbn [compile] in E. destruct (mapM _ l) as [rs| | | |] eqn:M; try discriminate E. apply mapM_spec in M. clear E.
    revert rs M. induction IH as [|g l H _ IHl]; intros rs M; cbn [fold_right] in *; [exact Logic.I|].
    inversion M; subst. split; [eapply H; [eauto|lia]|eapply IHl; [lia|eauto]].
  - destruct (compile partial om g params) as [x| | | |] eqn:C; [exact (IH _ _ C Z)|..];
      destruct g; cbn [quantifier_free]; auto; cbn in C, E; rewrite ?C in E; discriminate E.
Qed.
Lemma items_bal params gs :
  Forall (fun g => clean_goal g -> quantifier_free g -> balanced (goal_text params g)) gs ->
  fold_right (fun g P => clean_goal g /\ P) True gs -> fold_right (fun g P => quantifier_free g /\ P) True gs ->
  exists a, items_text params gs = a +++ ")" /\ balanced a.
Proof.
  induction 1 as [|g gs H _ IH]; cbn [fold_right]; [exists ""; split; [reflexivity|constructor]|].
  intros [C Cs] [Q Qs]. destruct (IH Cs Qs) as (a & E & B). cbn [items_text fold_right]. fold (items_text params gs). rewrite E.
  exists (" " +++ goal_text params g +++ a). split; [rewrite !app_assoc_s; reflexivity|].
  apply (balanced_app " "); [plain|]. apply balanced_app; auto.
Qed.
Lemma text_balanced g : forall params, clean_goal g -> quantifier_free g -> balanced (goal_text params g).
Proof.
  assert (K : forall w, clean w -> balanced w) by (intros w (_ & H1 & H2); apply balanced_free; auto).
  induction g as [n a|l IH|l IH|g IH|v g IH|v g IH|] using goal_nested; intros params; cbn [clean_goal quantifier_free]; intros C Q; try tauto.
  - cbn [goal_text]. destruct C as (C1 & _ & C2). unfold prop_to_pddl. cbn [pname pargs].
    set (x := fold_right _ _ a). change ("(" +++ n +++ x +++ ")") with (String "(" (n +++ x +++ ")")).
    replace (n +++ x +++ ")") with ((n +++ x) +++ ")") by (rewrite app_assoc_s; reflexivity). subst x.
    apply balanced_group, balanced_app; auto. clear C1. induction C2 as [|x a H _ IH]; [constructor|]. cbn [fold_right].
    apply (balanced_app " "); [plain|]. apply balanced_app; auto.
  - cbn [goal_text]. fold (items_text params l). destruct (items_bal params l) as (a & E & B); auto.
    { eapply Forall_impl; [|exact IH]. auto. }
    rewrite E. change ("(and" +++ a +++ ")") with (String "(" ("and" +++ a +++ ")")). rewrite <- app_assoc_s.
    apply balanced_group, balanced_app; auto. plain.
  - cbn [goal_text]. fold (items_text params l). destruct (items_bal params l) as (a & E & B); auto.
    { eapply Forall_impl; [|exact IH]. auto. }
    rewrite E. change ("(or" +++ a +++ ")") with (String "(" ("or" +++ a +++ ")")). rewrite <- app_assoc_s.
    apply balanced_group, balanced_app; auto. plain.
  - cbn [goal_text]. change ("(not " +++ ?x) with (String "(" ("not " +++ x)). rewrite <- app_assoc_s.
    apply balanced_group, balanced_app; auto. plain.
Qed.

Lemma to_string_ok `{SH : StdHash} om g params text : formula_to_string om g params = Ok text ->
  text = goal_text params g /\ (nquant g = 0 -> quantifier_free g).
Proof.
  unfold formula_to_string. destruct (compile false om g params) as [r| | | |] eqn:C; cbn; try discriminate.
  destruct (compile true om g params); cbn; try discriminate. intros [= <-]. split; [reflexivity|]. eapply compile_free; eauto.
Qed.
Lemma C67_readable_lemma `{SH : StdHash} om g params text : formula_to_string om g params = Ok text ->
  Forall clean_var params -> clean_goal g ->
  ((exists es, reads text es) <-> quantifier_free g) /\ (balanced text <-> quantifier_free g).
Proof.
  intros E V C. apply to_string_ok in E as [-> S]. destruct (text_count g params V C) as [H _]. split; split.
  - intros [es R]. apply S. apply reads_count in R. lia.
  - intros Q. exists [goal_sexp (forget_variables g)]. unfold reads. rewrite (text_reads g params C Q). cbn. rewrite app_nil_r. reflexivity.
  - intros B. apply S. apply balanced_count in B. lia.
  - intros Q. apply text_balanced; auto.
Qed.
Lemma C67_forget_lemma `{SH : StdHash} om g params text : formula_to_string om g params = Ok text ->
  clean_goal g -> quantifier_free g -> reads text [goal_sexp (forget_variables g)].
Proof.
  intros E C Q. apply to_string_ok in E as [-> S]. unfold reads. rewrite (text_reads g params C Q). cbn. rewrite app_nil_r. reflexivity.
Qed.

Lemma term_word_plain x : term_word x = oname x <-> constant x.
Proof.
  unfold term_word, constant. destruct (okind x); split; try congruence; try reflexivity.
  intros E. exfalso. assert (L : String.length ("?" +++ oname x) = String.length (oname x)) by (f_equal; exact E). cbn in L. lia.
Qed.
Lemma sexp_ground g : quantifier_free g -> goal_sexp g = goal_sexp (forget_variables g) <-> Forall constant (goal_args g).
Proof.
  assert (L : forall l, Forall (fun g => quantifier_free g -> goal_sexp g = goal_sexp (forget_variables g) <-> Forall constant (goal_args g)) l ->
    fold_right (fun g P => quantifier_free g /\ P) True l ->
    (map goal_sexp l = map goal_sexp (map forget_variables l) <-> Forall constant (flat_map goal_args l))).
  { clear g. induction 1 as [|g l H _ IHl]; cbn [fold_right map flat_map]; [split; [constructor|reflexivity]|].
    intros [Q Qs]. rewrite Forall_app, <- (H Q), <- (IHl Qs). split; [intros E; injection E as -> ->; auto|intros [-> ->]; auto]. }
  induction g as [n a|l IH|l IH|g IH|v g IH|v g IH|] using goal_nested; cbn [quantifier_free]; intros Q; try tauto.
  - cbn [goal_sexp forget_variables goal_args]. rewrite map_map. induction a as [|x a IHa]; cbn [map]; [split; [constructor|reflexivity]|].
    rewrite Forall_cons_iff, <- (term_word_plain x). destruct IHa as [I1 I2]. split.
    + intros E. injection E as E1 E2. split; [exact E1|]. apply I1. rewrite E2. reflexivity.
    + intros [E F]. specialize (I2 F). injection I2 as I2. rewrite E, I2. reflexivity.
  - cbn [goal_sexp forget_variables goal_args]. rewrite <- (L l IH Q). split; [intros E; injection E; auto|intros ->; auto].
  - cbn [goal_sexp forget_variables goal_args]. rewrite <- (L l IH Q). split; [intros E; injection E; auto|intros ->; auto].
  - cbn [goal_sexp forget_variables goal_args]. rewrite <- (IH Q). split; [intros E; injection E; auto|intros ->; auto].
Qed.
Lemma C67_pddl_lemma `{SH : StdHash} om g params text : formula_to_string om g params = Ok text ->
  Forall clean_var params -> clean_goal g -> (reads text [goal_sexp g] <-> ground g).
Proof.
  intros E V C. pose proof (C67_forget_lemma om g params text E C) as F. pose proof (proj1 (C67_readable_lemma om g params text E V C)) as H.
  split.
  - intros R. assert (Q : quantifier_free g) by (apply H; eauto). split; auto. apply (sexp_ground g Q).
    pose proof (reads_unique _ _ _ R (F Q)) as U. injection U. auto.
  - intros [Q K]. apply (sexp_ground g Q) in K. rewrite K. auto.
Qed.

Lemma known_args (known a b : list object) : NoDup (map oname known) -> incl a known -> incl b known ->
  map oname a = map oname b -> a = b.
Proof.
  intros N. revert b. induction a as [|x a IH]; intros [|y b] A B E; cbn in E; try discriminate; auto.
  injection E as E1 E2. f_equal.
  - assert (X : In x known) by (apply A; cbn; auto). assert (Y : In y known) by (apply B; cbn; auto).
    clear -N X Y E1. induction known as [|z known IH]; [destruct X|]. cbn in N. inversion N as [|? ? H H']; subst.
    destruct X as [->|X], Y as [->|Y]; auto.
    + exfalso. apply H. rewrite E1. apply in_map. auto.
    + exfalso. apply H. rewrite <- E1. apply in_map. auto.
  - apply IH; auto; intros z Z; [apply A|apply B]; cbn; auto.
Qed.
Lemma sexp_inj known : NoDup (map oname known) -> forall g g', clean_goal g -> clean_goal g' ->
  quantifier_free g -> quantifier_free g' -> incl (goal_args g) known -> incl (goal_args g') known ->
  goal_sexp (forget_variables g) = goal_sexp (forget_variables g') -> g = g'.
Proof.
  intros N.
  assert (L : forall l, Forall (fun g => forall g', clean_goal g -> clean_goal g' ->
      quantifier_free g -> quantifier_free g' -> incl (goal_args g) known -> incl (goal_args g') known ->
      goal_sexp (forget_variables g) = goal_sexp (forget_variables g') -> g = g') l ->
    forall l', fold_right (fun g P => clean_goal g /\ P) True l -> fold_right (fun g P => clean_goal g /\ P) True l' ->
      fold_right (fun g P => quantifier_free g /\ P) True l -> fold_right (fun g P => quantifier_free g /\ P) True l' ->
      incl (flat_map goal_args l) known -> incl (flat_map goal_args l') known ->
      map goal_sexp (map forget_variables l) = map goal_sexp (map forget_variables l') -> l = l').
  { induction 1 as [|g l H _ IH]; intros [|g' l'] C C' Q Q' K K' E; cbn [map] in E; try discriminate E; auto.
    injection E as E1 E2. cbn [fold_right flat_map] in *. apply incl_app_inv in K as [K1 K2]. apply incl_app_inv in K' as [K1' K2'].
    f_equal; [apply H|apply IH]; tauto. }
  induction g as [n a|l IH|l IH|g IH|v g IH|v g IH|] using goal_nested;
    intros [n' a'|l'|l'|g'|v' g'|v' g'|] C C' Q Q' K K' E; cbn [quantifier_free clean_goal goal_args] in *; try tauto;
    cbn [forget_variables goal_sexp] in E; try discriminate E.
  - injection E as E1 E2. subst n'. f_equal. apply (known_args known); auto. rewrite !map_map in E2. clear -E2.
    revert a' E2. induction a as [|x a IH]; intros [|y a'] E; try discriminate E; auto. cbn in *. injection E as E1 E2. f_equal; auto.
  - exfalso. injection E as E1 _. apply C. subst. cbn. auto.
  - exfalso. injection E as E1 _. apply C. subst. cbn. auto.
  - exfalso. injection E as E1 _. apply C. subst. cbn. auto.
  - exfalso. injection E as E1 _. apply C'. subst. cbn. auto.
  - injection E as E. f_equal. apply (L l IH l'); auto.
  - exfalso. injection E as E1 _. apply C'. subst. cbn. auto.
  - injection E as E. f_equal. apply (L l IH l'); auto.
  - exfalso. injection E as E1 _. apply C'. subst. cbn. auto.
  - injection E as E. f_equal. apply IH; auto.
Qed.
Lemma C67_identify_lemma `{SH : StdHash} om om' known params params' g g' text text' :
  formula_to_string om g params = Ok text -> formula_to_string om' g' params' = Ok text' ->
  clean_goal g -> clean_goal g' -> quantifier_free g -> quantifier_free g' ->
  NoDup (map oname known) -> incl (goal_args g) known -> incl (goal_args g') known ->
  (text = text' <-> g = g').
Proof.
  intros E E' C C' Q Q' N K K'.
  pose proof (C67_forget_lemma _ _ _ _ E C Q) as R. pose proof (C67_forget_lemma _ _ _ _ E' C' Q') as R'. split.
  - intros <-. apply (sexp_inj known N); auto. pose proof (reads_unique _ _ _ R R') as U. injection U. auto.
  - intros <-. apply to_string_ok in E as [-> _]. apply to_string_ok in E' as [-> _].
    clear -Q. revert params params'.
    assert (L : forall l, Forall (fun g => quantifier_free g -> forall params params', goal_text params g = goal_text params' g) l ->
      fold_right (fun g P => quantifier_free g /\ P) True l -> forall params params', items_text params l = items_text params' l).
    { clear g Q. induction 1 as [|g l H _ IH]; intros Ql params params'; [reflexivity|]. cbn [items_text fold_right] in *.
      fold (items_text params l). fold (items_text params' l). rewrite (H (proj1 Ql) params params'), (IH (proj2 Ql) params params'). reflexivity. }
    induction g as [n a|l IH|l IH|g IH|v g IH|v g IH|] using goal_nested; cbn [quantifier_free] in Q; try tauto; intros params params'; cbn [goal_text].
    + fold (items_text params l). fold (items_text params' l). rewrite (L l IH Q params params'). reflexivity.
    + fold (items_text params l). fold (items_text params' l). rewrite (L l IH Q params params'). reflexivity.
    + rewrite (IH Q params params'). reflexivity.
Qed.
