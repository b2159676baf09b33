(** Lemmas on the text of propositions and calls. *)
From Coq Require Import String Ascii List Bool NArith Arith Lia.
From Verif.Model Require Import Base HashSet Object Proposition State Syntax Text.
From Verif.Spec Require Import SetSpec TypingSpec FormulaSpec TextSpec.
From Verif.Proofs Require Import OrderFacts HashSetFacts StateFacts StateHistory FormulaFacts EffectTheorems.
Import ListNotations.
Local Open Scope string_scope.
Local Open Scope list_scope.

Notation "a +++ b" := (String.append a b) (at level 60, right associativity).

Lemma app_assoc_s a b c : (a +++ b) +++ c = a +++ (b +++ c).
Proof. induction a; cbn; congruence. Qed.
Lemma app_nil_s a : a +++ "" = a.
Proof. induction a; cbn; congruence. Qed.
Lemma chars_app a b : chars (a +++ b) = (chars a ++ chars b)%list.
Proof. unfold chars. induction a; cbn; congruence. Qed.
Lemma free_cons c d s : free_of c (String d s) <-> d <> c /\ free_of c s.
Proof. unfold free_of, chars. cbn. intuition congruence. Qed.
Lemma free_app c a b : free_of c (a +++ b) <-> free_of c a /\ free_of c b.
Proof. unfold free_of. rewrite chars_app, in_app_iff. tauto. Qed.

(** ** Cutting *)
Lemma before_app c a t : free_of c a -> before c (a +++ String c t) = a.
Proof.
  induction a as [|d a IH]; cbn; intros F.
  - rewrite Ascii.eqb_refl. reflexivity.
  - apply free_cons in F. destruct F as [N F]. apply Ascii.eqb_neq in N. rewrite N, IH; auto.
Qed.
Lemma before_free c a : free_of c a -> before c a = a.
Proof.
  induction a as [|d a IH]; cbn; intros F; auto.
  apply free_cons in F. destruct F as [N F]. apply Ascii.eqb_neq in N. rewrite N, IH; auto.
Qed.
Lemma after_app c a t : free_of c a -> after c (a +++ String c t) = Some t.
Proof.
  induction a as [|d a IH]; cbn; intros F.
  - rewrite Ascii.eqb_refl. reflexivity.
  - apply free_cons in F. destruct F as [N F]. apply Ascii.eqb_neq in N. rewrite N, IH; auto.
Qed.
Lemma after_free c a : free_of c a -> after c a = None.
Proof.
  induction a as [|d a IH]; cbn; intros F; auto.
  apply free_cons in F. destruct F as [N F]. apply Ascii.eqb_neq in N. rewrite N, IH; auto.
Qed.
Lemma cut_first c s : (exists t, s = before c s +++ String c t /\ free_of c (before c s) /\ after c s = Some t) \/
  (free_of c s /\ before c s = s /\ after c s = None).
Proof.
  induction s as [|d s IH]; cbn.
  - right. repeat split; auto. intros [].
  - destruct (Ascii.eqb_spec d c) as [->|N].
    + left. exists s. repeat split. intros [].
    + destruct IH as [(t & E & F & A)|(F & B & A)].
      * left. exists t. repeat split; auto.
        -- cbn. congruence.
        -- apply free_cons. auto.
      * right. rewrite B. repeat split; auto. apply free_cons. auto.
Qed.

Lemma last_free c a : free_of c a -> before_last c a = None.
Proof.
  induction a as [|d a IH]; cbn; intros F; auto.
  apply free_cons in F. destruct F as [N F]. rewrite IH by auto. apply Ascii.eqb_neq in N. rewrite N. reflexivity.
Qed.
Lemma last_app c a t : free_of c t -> before_last c (a +++ String c t) = Some a.
Proof.
  intros F. induction a as [|d a IH]; cbn.
  - rewrite last_free, Ascii.eqb_refl; auto.
  - rewrite IH. reflexivity.
Qed.
Lemma cut_last c s : (exists a t, s = a +++ String c t /\ free_of c t /\ before_last c s = Some a) \/
  (free_of c s /\ before_last c s = None).
Proof.
  induction s as [|d s IH]; cbn.
  - right. split; auto. intros [].
  - destruct IH as [(a & t & E & F & B)|(F & B)]; rewrite B.
    + left. exists (String d a), t. cbn. repeat split; auto. congruence.
    + destruct (Ascii.eqb_spec d c) as [->|N].
      * left. exists "", s. auto.
      * right. split; auto. apply free_cons. auto.
Qed.

(** ** Words *)
Lemma space_white c : is_space c = true <-> In c white.
Proof.
  split.
  - unfold is_space. intros E.
    destruct c as [[] [] [] [] [] [] [] []]; vm_compute in E; try discriminate; cbn; auto 10.
  - intros I. cbn in I. repeat (destruct I as [<-|I]; [reflexivity|]). destruct I.
Qed.

Lemma word_app w s : (forall c, In c (chars w) -> is_space c = false) ->
  split (w +++ s) = (w +++ fst (split s), snd (split s)).
Proof.
  induction w as [|c w IH]; intros F.
  - cbn. destruct (split s); reflexivity.
  - cbn in *. rewrite IH by (intros; apply F; auto). rewrite F by auto. reflexivity.
Qed.
Lemma words_space c s : is_space c = true -> words (String c s) = words s.
Proof. intros E. unfold words. cbn. destruct (split s). rewrite E. reflexivity. Qed.
Lemma words_gap g s : (forall c, In c (chars g) -> is_space c = true) -> words (g +++ s) = words s.
Proof.
  induction g as [|c g IH]; intros F; auto. cbn. rewrite words_space by (apply F; left; auto).
  apply IH. intros; apply F. right. auto.
Qed.
Lemma words_word w c s : w <> "" -> (forall c, In c (chars w) -> is_space c = false) -> is_space c = true ->
  words (w +++ String c s) = w :: words (String c s).
Proof.
  intros N F E. unfold words. rewrite word_app by auto. cbn. destruct (split s) as [v vs]. rewrite E. cbn.
  rewrite app_nil_s. destruct w; [congruence|reflexivity].
Qed.
Lemma words_last w : w <> "" -> (forall c, In c (chars w) -> is_space c = false) -> words w = [w].
Proof.
  intros N F. unfold words. rewrite <- (app_nil_s w), word_app by auto. cbn. rewrite app_nil_s.
  destruct w; [congruence|reflexivity].
Qed.

Lemma replace_app a b s t : replace a b (s +++ t) = replace a b s +++ replace a b t.
Proof. induction s; cbn; congruence. Qed.
Lemma replace_chars a b s : chars (replace a b s) = map (fun c => if Ascii.eqb c a then b else c) (chars s).
Proof. unfold chars. induction s; cbn; congruence. Qed.
Lemma replace_free a b s : free_of a s -> replace a b s = s.
Proof.
  induction s as [|d s IH]; cbn; intros F; auto.
  apply free_cons in F. destruct F as [N F]. apply Ascii.eqb_neq in N. rewrite N, IH; auto.
Qed.

Notation blank := (replace "," " ").
Definition sepb (c : ascii) : bool := Ascii.eqb c "," || is_space c.
Lemma sepb_spec c : sepb c = true <-> separator c.
Proof.
  unfold sepb, separator. rewrite orb_true_iff, Ascii.eqb_eq, space_white. tauto.
Qed.
Lemma blank_char c : is_space (if Ascii.eqb c "," then " "%char else c) = sepb c.
Proof. unfold sepb. destruct (Ascii.eqb_spec c ","); reflexivity. Qed.
Lemma blank_gap g : gap g -> forall c, In c (chars (blank g)) -> is_space c = true.
Proof.
  intros G c. rewrite replace_chars, in_map_iff. intros (d & <- & I). rewrite blank_char. apply sepb_spec. auto.
Qed.
Lemma word_free w : word w -> free_of "," w.
Proof. intros [_ F] I. apply (F _ I). left. reflexivity. Qed.
Lemma word_blank w : word w -> blank w = w.
Proof. intros H. apply replace_free, word_free, H. Qed.
Lemma word_nospace w : word w -> forall c, In c (chars w) -> is_space c = false.
Proof.
  intros [_ F] c I. destruct (is_space c) eqn:E; auto. destruct (F c I). right. apply space_white. auto.
Qed.

Lemma spelled_words ws body : spelled ws body -> words (blank body) = ws.
Proof.
  induction 1 as [g G|g w G Hw|g w c ws rest G Hw Hc Hs IH].
  - rewrite <- (app_nil_s (blank g)), words_gap by (apply blank_gap; auto). reflexivity.
  - rewrite replace_app, words_gap by (apply blank_gap; auto). rewrite word_blank by auto.
    apply words_last; [apply Hw|apply word_nospace; auto].
  - rewrite !replace_app, words_gap by (apply blank_gap; auto). rewrite word_blank by auto.
    cbn [replace] in *. rewrite words_word; [congruence|apply Hw|apply word_nospace; auto|].
    rewrite blank_char. apply sepb_spec; auto.
Qed.

(** Every text is spelled by its words. *)
Lemma spelled_gap c ws s : separator c -> spelled ws s -> spelled ws (String c s).
Proof.
  intros Hc H.
  assert (G : forall g, gap g -> gap (String c g)).
  { intros g G d [<-|I]; auto. }
  inversion H; subst.
  - apply spelled_end; auto.
  - apply (spelled_last (String c g)); auto.
  - apply (spelled_word (String c g)); auto.
Qed.

Lemma spelled_total body : exists ws, spelled ws body.
Proof.
  enough (X : forall s, (exists ws, spelled ws s) /\
     (exists w s', s = w +++ s' /\ (forall c, In c (chars w) -> ~ separator c) /\
        (s' = "" \/ exists c r, s' = String c r /\ separator c) /\ exists ws, spelled ws s')) by apply X.
  induction s as [|c s [IH1 (w & s' & -> & Fw & Hs' & ws' & Hw')]].
  - split; [exists []; apply spelled_end; intros ? []|]. exists "", "". split; auto. split; [intros ? []|].
    split; auto. exists []. apply spelled_end. intros ? [].
  - destruct (sepb c) eqn:E.
    + apply sepb_spec in E. assert (X : exists ws, spelled ws (String c (w +++ s'))).
      { destruct IH1 as [ws H]. exists ws. apply spelled_gap; auto. }
      split; auto. exists "", (String c (w +++ s')). split; auto. split; [intros ? []|]. split; [right; eauto|auto].
    + assert (N : ~ separator c) by (intros S; apply sepb_spec in S; congruence).
      assert (Hw : word (String c w)).
      { split; [discriminate|]. intros d [<-|I]; auto. }
      split.
      * destruct Hs' as [->|(d & r & -> & Sd)].
        -- exists [String c w]. rewrite app_nil_s. apply (spelled_last ""); auto. intros ? [].
        -- exists (String c w :: ws'). apply (spelled_word "" (String c w)); auto. intros ? [].
      * exists (String c w), s'. split; auto. split; [intros d [<-|I]; auto|]. split; auto. exists ws'. auto.
Qed.

Lemma spelled_iff ws body : spelled ws body <-> words (blank body) = ws.
Proof.
  split; [apply spelled_words|]. intros <-. destruct (spelled_total body) as [ws H].
  rewrite (spelled_words _ _ H). exact H.
Qed.

Lemma args_text_iff t body : args_text t body <->
  body = match before_last ")" t with Some u => u | None => t end.
Proof.
  split.
  - intros [b j F|b F]; [rewrite last_app; auto|rewrite last_free; auto].
  - intros ->. destruct (cut_last ")" t) as [(a & j & -> & F & ->)|(F & ->)]; constructor; auto.
Qed.

Lemma call_text_iff call name ws : call_text call name ws <-> name = parse_head call /\ ws = tokenize call.
Proof.
  split.
  - intros [n t body w F A S|c body w F A S]; apply args_text_iff in A; apply spelled_words in S; subst;
      unfold parse_head, tokenize.
    + rewrite before_app, after_app; auto.
    + rewrite before_free, after_free; auto.
  - intros [-> ->]. unfold parse_head, tokenize.
    destruct (cut_first "(" call) as [(t & E & F & A)|(F & B & A)]; rewrite A.
    + rewrite E at 1. apply (call_paren (before "(" call) t (match before_last ")" t with Some u => u | None => t end)).
      * exact F.
      * apply args_text_iff. reflexivity.
      * apply spelled_iff. reflexivity.
    + rewrite B. apply (call_bare call (match before_last ")" call with Some u => u | None => call end)).
      * exact F.
      * apply args_text_iff. reflexivity.
      * apply spelled_iff. reflexivity.
Qed.

(** ** Printing *)
Lemma join_spelled l : Forall word l -> spelled l (join ", " l).
Proof.
  assert (G0 : gap "") by (intros ? []).
  induction 1 as [|x l Hx Hl IH]; [apply spelled_end; auto|].
  destruct l as [|y l].
  - apply (spelled_last ""); auto.
  - change (join ", " (x :: y :: l)) with (x +++ String "," (String " " (join ", " (y :: l)))).
    apply (spelled_word "" x "," (y :: l)); auto.
    + left. reflexivity.
    + apply spelled_gap; [left; reflexivity|]. apply spelled_gap; [right; left; reflexivity|]. exact IH.
Qed.

Lemma print_text name args : free_of "(" name -> Forall word (map oname args) ->
  call_text (print_call name args) name (map oname args).
Proof.
  intros F H. unfold print_call.
  apply (call_paren name (join ", " (map oname args) +++ String ")" "") (join ", " (map oname args))); auto.
  - apply args_closed. intros [].
  - apply join_spelled; auto.
Qed.

Lemma C15_lemma name args : free_of "(" name -> Forall word (map oname args) ->
  parse_head (print_call name args) = name /\ tokenize (print_call name args) = map oname args.
Proof. intros F H. pose proof (print_text name args F H) as T. apply call_text_iff in T. intuition. Qed.

Lemma print_inj n1 a1 n2 a2 : free_of "(" n1 -> free_of "(" n2 ->
  Forall word (map oname a1) -> Forall word (map oname a2) ->
  print_call n1 a1 = print_call n2 a2 -> n1 = n2 /\ map oname a1 = map oname a2.
Proof.
  intros F1 F2 H1 H2 E. destruct (C15_lemma n1 a1 F1 H1) as [A B], (C15_lemma n2 a2 F2 H2) as [A' B'].
  rewrite E in A, B. split; congruence.
Qed.

(** ** to_pddl *)
Definition pddl_args (args : list object) : string :=
  fold_right (fun o s => (" " ++ oname o ++ s)%string) "" args.

Lemma pddl_spelled args : forall g w, gap g -> word w -> Forall word (map oname args) ->
  spelled (w :: map oname args) (g ++ w ++ pddl_args args)%string.
Proof.
  induction args as [|a args IH]; intros g w Hg Hw H; cbn [map pddl_args fold_right].
  - rewrite app_nil_s. apply spelled_last; auto.
  - inversion H; subst. apply (spelled_word g w " "); auto; [right; left; auto|].
    apply (IH (String " " "") (oname a)); auto. intros c [<-|[]]. right; left; auto.
Qed.

Lemma C60_lemma p : word (pname p) -> Forall word (map oname (pargs p)) ->
  exists body, prop_to_pddl p = ("(" ++ body ++ ")")%string /\ spelled (pname p :: map oname (pargs p)) body.
Proof.
  intros Hw H. exists (pname p ++ pddl_args (pargs p))%string. split.
  - unfold prop_to_pddl, pddl_args. f_equal. rewrite app_assoc_s. reflexivity.
  - apply (pddl_spelled (pargs p) ""); auto. intros ? [].
Qed.

Lemma app_last_inj a b c : (a ++ String c "")%string = (b ++ String c "")%string -> a = b.
Proof.
  revert b. induction a as [|x a IH]; intros [|y b]; cbn; auto.
  - intros [= -> E]. destruct b; discriminate.
  - intros [= <- E]. destruct a; discriminate.
  - intros [= <- E]. f_equal. auto.
Qed.
Lemma C60_inj p q : word (pname p) -> Forall word (map oname (pargs p)) ->
  word (pname q) -> Forall word (map oname (pargs q)) ->
  prop_to_pddl p = prop_to_pddl q <-> prop_key p = prop_key q.
Proof.
  intros Wp Ap Wq Aq. split.
  - intros E. destruct (C60_lemma p Wp Ap) as (b1 & E1 & S1), (C60_lemma q Wq Aq) as (b2 & E2 & S2).
    rewrite E1, E2 in E. injection E as E. apply app_last_inj in E. subst b2.
    apply spelled_words in S1. apply spelled_words in S2. unfold prop_key. congruence.
  - unfold prop_key, prop_to_pddl. intros [= -> E].
    assert (X : forall a b, map oname a = map oname b -> pddl_args a = pddl_args b).
    { induction a as [|x a IH]; intros [|y b] K; try discriminate; auto. injection K as K1 K2.
      unfold pddl_args in *. cbn [fold_right]. rewrite K1, (IH b K2). reflexivity. }
    unfold pddl_args in X. rewrite (X _ _ E). reflexivity.
Qed.

(** ** Lookup *)
Lemma first_named_nil {A} (nm : A -> string) name x : ~ first_named nm [] name x.
Proof. intros (l1 & l2 & E & _). destruct l1; discriminate. Qed.
Lemma first_named_cons {A} (nm : A -> string) y l name x : first_named nm (y :: l) name x <->
  (nm y = name /\ x = y) \/ (nm y <> name /\ first_named nm l name x).
Proof.
  split.
  - intros ([|z l1] & l2 & E & N & F); inversion E; subst; auto.
    right. split; [apply F; left; auto|]. exists l1, l2. split; auto. split; auto. intros; apply F; right; auto.
  - intros [[N ->]|[N (l1 & l2 & -> & M & F)]].
    + exists [], l. split; [reflexivity|]. split; [exact N|intros ? []].
    + exists (y :: l1), l2. split; [reflexivity|]. split; [exact M|intros z [<-|I]; auto].
Qed.
Lemma first_named_fun {A} (nm : A -> string) l name x y : first_named nm l name x -> first_named nm l name y -> x = y.
Proof.
  induction l as [|z l IH]; intros H1 H2; [destruct (first_named_nil _ _ _ H1)|].
  apply first_named_cons in H1. apply first_named_cons in H2. intuition congruence.
Qed.

Lemma get_object_spec objects name o : get_object objects name = Ok o <-> first_named oname objects name o.
Proof.
  induction objects as [|x l IH]; cbn.
  - split; [discriminate|]. intros H. destruct (first_named_nil _ _ _ H).
  - rewrite first_named_cons, <- IH. destruct (String.eqb_spec (oname x) name); intuition congruence.
Qed.
Lemma get_object_else objects name : (exists o, get_object objects name = Ok o) \/ get_object objects name = Throw ERuntime.
Proof. induction objects as [|x l IH]; cbn; auto. destruct (String.eqb (oname x) name); eauto. Qed.
Lemma get_op_spec ops name o : get_op ops name = Ok o <-> first_named op_name ops name o.
Proof.
  induction ops as [|x l IH]; cbn.
  - split; [discriminate|]. intros H. destruct (first_named_nil _ _ _ H).
  - rewrite first_named_cons, <- IH. destruct (String.eqb_spec (op_name x) name); intuition congruence.
Qed.
Lemma get_op_else ops name : (exists o, get_op ops name = Ok o) \/ get_op ops name = Throw ERuntime.
Proof. induction ops as [|x l IH]; cbn; auto. destruct (String.eqb (op_name x) name); eauto. Qed.

Lemma mapM_spec {A B} (f : A -> outcome B) l r : mapM f l = Ok r <-> Forall2 (fun a b => f a = Ok b) l r.
Proof.
  revert r. induction l as [|a l IH]; intros r; cbn.
  - split; [intros [= <-]; constructor|]. inversion 1. reflexivity.
  - split.
    + destruct (f a) as [b| | | |] eqn:E; try discriminate. cbn.
      destruct (mapM f l) as [bs| | | |] eqn:E'; try discriminate. cbn. intros [= <-]. constructor; auto. apply IH; auto.
    + inversion 1 as [|? b ? bs H1 H2]; subst. rewrite H1. cbn. apply IH in H2. rewrite H2. reflexivity.
Qed.
Lemma parse_arguments_spec objects s args : parse_arguments objects s = Ok args <->
  Forall2 (first_named oname objects) (tokenize s) args.
Proof.
  unfold parse_arguments. rewrite mapM_spec. split; intros H; induction H; constructor; auto; apply get_object_spec; auto.
Qed.
Lemma parse_arguments_else objects s : (exists args, parse_arguments objects s = Ok args) \/
  parse_arguments objects s = Throw ERuntime.
Proof.
  unfold parse_arguments. induction (tokenize s) as [|n l IH]; cbn; eauto.
  destruct (get_object_else objects n) as [[o ->]| ->]; cbn; auto.
  destruct IH as [[args ->]| ->]; cbn; eauto.
Qed.

Lemma subtype_spec o ty : is_subtype (otype o) ty = true <-> has_type o ty.
Proof.
  unfold is_subtype, has_type. rewrite orb_true_iff, String.eqb_eq, existsb_exists. split.
  - intros [H|(x & I & E)]; auto. apply String.eqb_eq in E. subst. auto.
  - intros [H|I]; auto. right. exists ty. split; auto. apply String.eqb_refl.
Qed.
Lemma check_types_spec params args : length params = length args ->
  (check_types params args = Ok tt /\ Forall2 (fun a p => has_type a (type_name (otype p))) args params) \/
  (check_types params args = Throw EInvalidArgument /\ ~ Forall2 (fun a p => has_type a (type_name (otype p))) args params).
Proof.
  revert args. induction params as [|p params IH]; intros [|a args] L; try discriminate; cbn.
  - left. split; constructor.
  - injection L as L. destruct (is_subtype (otype a) (type_name (otype p))) eqn:E.
    + apply subtype_spec in E. destruct (IH args L) as [[X F]|[X F]]; [left|right]; split; auto.
      inversion 1; auto.
    + right. split; auto. inversion 1 as [|? ? ? ? H1]; subst. apply subtype_spec in H1. congruence.
Qed.

Lemma parse_action_spec objects ops call o args : parse_action objects ops call = Ok (o, args) <->
  good_call objects ops (parse_head call) (tokenize call) o args.
Proof.
  unfold parse_action, good_call. rewrite <- get_op_spec, <- parse_arguments_spec. split.
  - destruct (get_op ops (parse_head call)) as [o'| | | |]; try discriminate.
    destruct (parse_arguments objects call) as [args'| | | |]; try discriminate. cbn.
    destruct (Nat.eqb_spec (length (op_params o')) (length args')) as [L|]; try discriminate.
    destruct (check_types_spec _ _ L) as [[-> F]|[-> F]]; try discriminate. cbn. intros [= <- <-]. auto.
  - intros (-> & -> & F). cbn.
    assert (L : length (op_params o) = length args) by (clear -F; induction F; cbn; congruence).
    rewrite L, Nat.eqb_refl. destruct (check_types_spec _ _ L) as [[-> _]|[_ N]]; [reflexivity|tauto].
Qed.
Lemma parse_action_else objects ops call : (exists o args, parse_action objects ops call = Ok (o, args)) \/
  parse_action objects ops call = Throw ERuntime \/ parse_action objects ops call = Throw EInvalidArgument.
Proof.
  unfold parse_action. destruct (get_op_else ops (parse_head call)) as [[o ->]| ->]; cbn; auto.
  destruct (parse_arguments_else objects call) as [[args ->]| ->]; cbn; auto.
  destruct (Nat.eqb_spec (length (op_params o)) (length args)) as [L|]; auto.
  destruct (check_types_spec _ _ L) as [[-> F]|[-> F]]; cbn; eauto.
Qed.

Lemma parse_action_invalid objects ops call : parse_action objects ops call = Throw EInvalidArgument <->
  exists name ws o args, call_text call name ws /\ first_named op_name ops name o /\
    Forall2 (first_named oname objects) ws args /\
    ~ Forall2 (fun a p => has_type a (type_name (otype p))) args (op_params o).
Proof.
  split.
  - unfold parse_action. destruct (get_op_else ops (parse_head call)) as [[o E]|E]; rewrite E; cbn; [|discriminate].
    destruct (parse_arguments_else objects call) as [[args E']|E']; rewrite E'; cbn; [|discriminate].
    intros H. exists (parse_head call), (tokenize call), o, args. split; [apply call_text_iff; auto|].
    split; [apply get_op_spec; auto|]. split; [apply parse_arguments_spec; auto|].
    destruct (Nat.eqb_spec (length (op_params o)) (length args)) as [L|N].
    + destruct (check_types_spec _ _ L) as [[E2 F]|[E2 F]]; auto. rewrite E2 in H. discriminate.
    + intros F. apply N. clear -F. induction F; cbn; congruence.
  - intros (name & ws & o & args & T & Ho & Ha & N). apply call_text_iff in T. destruct T as [-> ->].
    apply get_op_spec in Ho. apply parse_arguments_spec in Ha. unfold parse_action. rewrite Ho, Ha. cbn.
    destruct (Nat.eqb_spec (length (op_params o)) (length args)) as [L|_]; auto.
    destruct (check_types_spec _ _ L) as [[_ F]|[-> F]]; [tauto|reflexivity].
Qed.

Lemma C17_lemma objects ops call o args : parse_action objects ops call = Ok (o, args) <->
  exists name ws, call_text call name ws /\ good_call objects ops name ws o args.
Proof.
  rewrite parse_action_spec. split.
  - intros H. exists (parse_head call), (tokenize call). split; auto. apply call_text_iff. auto.
  - intros (n & ws & T & G). apply call_text_iff in T. destruct T as [-> ->]. exact G.
Qed.

Lemma C17_print_lemma objects ops o args : free_of "(" (op_name o) -> Forall word (map oname args) ->
  first_named op_name ops (op_name o) o -> (forall a, In a args -> first_named oname objects (oname a) a) ->
  Forall2 (fun a p => has_type a (type_name (otype p))) args (op_params o) ->
  parse_action objects ops (action_to_string o args) = Ok (o, args).
Proof.
  intros F H Ho Ha T. apply C17_lemma. exists (op_name o), (map oname args). split; [apply print_text; auto|].
  split; auto. split; auto. clear -Ha. induction args as [|a args IH]; constructor.
  - apply Ha. left. auto.
  - apply IH. intros; apply Ha. right. auto.
Qed.

(** ** States *)
Section WithHash.
  Context `{SH : StdHash}.

  Lemma parse_prop_key objects p : free_of "(" (pname p) -> Forall word (map oname (pargs p)) ->
    (forall o, In o (pargs p) -> exists o', In o' objects /\ oname o' = oname o) ->
    exists q, parse_prop objects (prop_to_string p) = Ok q /\ prop_key q = prop_key p.
  Proof.
    intros F H D. destruct (C15_lemma (pname p) (pargs p) F H) as [Eh Et].
    unfold parse_prop, prop_to_string.
    assert (X : exists args, parse_arguments objects (print_call (pname p) (pargs p)) = Ok args /\
                map oname args = map oname (pargs p)).
    { unfold parse_arguments. rewrite Et. clear -D. induction (pargs p) as [|a l IH]; cbn; [exists []; auto|].
      destruct IH as (args & -> & E); [intros; apply D; right; auto|].
      destruct (D a (or_introl eq_refl)) as (o' & I & N).
      assert (Y : exists o, get_object objects (oname a) = Ok o /\ oname o = oname a).
      { clear -I N. induction objects as [|x l IH]; [destruct I|]. cbn.
        destruct (String.eqb_spec (oname x) (oname a)); eauto. destruct I as [->|I]; [congruence|auto]. }
      destruct Y as (o & -> & En). cbn. exists (o :: args). cbn. split; congruence. }
    destruct X as (args & -> & E). cbn. rewrite Eh. eexists. split; [reflexivity|]. unfold prop_key. cbn. congruence.
  Qed.

  (** Parsing strings of propositions: the state has their atoms. *)
  Lemma parse_state_fold objects strs : forall s, built s ->
    (forall x, In x strs -> exists q, parse_prop objects x = Ok q) ->
    exists s', foldM (fun s str => let* p := parse_prop objects str in Ok (snd (st_insert p s))) strs s = Ok s' /\
      built s' /\ forall a, atoms s' a <-> atoms s a \/ exists x q, In x strs /\ parse_prop objects x = Ok q /\ prop_key q = a.
  Proof.
    induction strs as [|x strs IH]; intros s B H; cbn [foldM].
    - exists s. split; auto. split; auto. intros a. split; auto. intros [A|(x & q & [] & _)]; auto.
    - destruct (H x (or_introl eq_refl)) as [q E]. rewrite E. cbn [bind].
      assert (B' : built (snd (st_insert q s))).
      { exact (built_run_from s [Ins q] B). }
      destruct (IH (snd (st_insert q s)) B' (fun y I => H y (or_intror I))) as (s' & E' & Bs & A).
      exists s'. split; auto. split; auto. intros a. rewrite A.
      assert (Q : atoms (snd (st_insert q s)) a <-> atoms s a \/ prop_key q = a).
      { destruct (insert_spec q s (built_wf s B)) as (_ & _ & M & _).
        rewrite (atoms_mem _ a (built_wf _ B')), (atoms_mem _ a (built_wf _ B)). rewrite M. intuition. }
      rewrite Q. split.
      + intros [[X|X]|(y & r & I & Ey & K)]; auto.
        * right. exists x, q. split; [left; auto|auto].
        * right. exists y, r. split; [right; auto|auto].
      + intros [X|(y & r & [<-|I] & Ey & K)]; auto.
        * left. right. congruence.
        * right. eauto.
  Qed.

  Lemma C16_lemma objects s strs : built s -> printable objects s ->
    (forall x, In x strs <-> exists p, st_contains s p = true /\ x = prop_to_string p) ->
    exists s', parse_state objects strs = Ok s' /\ built s' /\ st_eqb s' s = true.
  Proof.
    intros B P H.
    assert (K : forall x, In x strs -> exists p q, st_contains s p = true /\ parse_prop objects x = Ok q /\ prop_key q = prop_key p).
    { intros x I. apply H in I. destruct I as (p & C & ->). destruct (P p C) as (F & Wd & D).
      destruct (parse_prop_key objects p F Wd D) as (q & E & K). eauto. }
    destruct (parse_state_fold objects strs st_empty) as (s' & E & B' & A).
    - exists []. reflexivity.
    - intros x I. destruct (K x I) as (p & q & _ & E & _). eauto.
    - exists s'. split; auto. split; auto. apply st_eqb_spec; auto using built_wf. intros a.
      rewrite <- !atoms_mem by auto using built_wf. rewrite A. split.
      + intros [(p & _ & C)|(x & q & I & Eq & <-)]; [exfalso; apply contains_mem in C; [destruct C|apply (built_wf _ (ex_intro _ [] eq_refl))]|].
        destruct (K x I) as (p & q' & C & Eq' & Kq). assert (q' = q) by congruence. subst q'. exists p. split; congruence.
      + intros (p & <- & C). right. destruct (P p C) as (F & Wd & D).
        destruct (parse_prop_key objects p F Wd D) as (q & Eq & Kq). exists (prop_to_string p), q. split; auto.
        apply H. eauto.
  Qed.

  Lemma to_string_key p q : prop_key p = prop_key q -> prop_to_string p = prop_to_string q.
  Proof. unfold prop_key, prop_to_string, print_call. intros [= -> ->]. reflexivity. Qed.

  Lemma stringify_keys a b : map prop_key (st_elements a) = map prop_key (st_elements b) -> stringify a = stringify b.
  Proof.
    unfold stringify. generalize (st_elements a) (st_elements b). induction l as [|p l IH]; intros [|q l'] E; try discriminate; auto.
    cbn [map] in *. injection E as E1 E2 E3. f_equal; auto. apply to_string_key. unfold prop_key. congruence.
  Qed.

  (** The same for the strings returned by Stringify, and back. *)
  Lemma C16_stringify_lemma objects s : built s -> printable objects s ->
    exists s', parse_state objects (stringify s) = Ok s' /\ built s' /\ st_eqb s' s = true /\
      stringify s' = stringify s.
  Proof.
    intros B P. destruct (C16_lemma objects s (stringify s) B P) as (s' & E & B' & Q).
    - intros x. unfold stringify. rewrite in_map_iff. split.
      + intros (p & <- & I). exists p. split; auto. apply contains_mem; [apply built_wf; auto|]. apply in_map. exact I.
      + intros (p & C & ->). apply contains_mem in C; [|apply built_wf; auto].
        destruct (mem_exists _ _ C) as (q & I & K). exists q. split; auto. apply to_string_key; auto.
    - exists s'. split; auto. split; auto. split; auto. apply stringify_keys, elements_keys. exact Q.
  Qed.
End WithHash.
