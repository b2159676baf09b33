(** Argument tuples and calls in Python (C81). *)
From Coq Require Import Ascii String List Bool NArith ZArith Arith Lia.
From Verif.Model Require Import Base Object Proposition State CombinationGenerator ParameterGenerator Syntax Formula Effects Text PyArgs.
From Verif.Spec Require Import CartesianSpec TypingSpec TextSpec EffectSpec PyArgsSpec.
From Verif.Proofs Require Import CombinationFacts ParameterFacts TextFacts FormulaFacts EffectLink PlannerCursor CursorTheorems PyNodeFacts.
Import ListNotations.
Local Open Scope string_scope.
Local Open Scope list_scope.

(** The tuples of a generator: none without parameters (C57). *)
Definition tuples_for (objects params : list object) : list (list object) :=
  match params with [] => [] | _ => tuples objects params end.

(** What the programs need of a generator. *)
Record a_gen (ts : list (list object)) (g : gen object) : Prop := {
  ag_size : g_size g = Z.of_nat (length ts);
  ag_begin : gen_begin null_object g = Ok (iter_at 0 (hd [] ts));
  ag_end : gen_end null_object g = Ok (iter_at (length ts) []);
  ag_next : forall ts1 a a' ts2, ts = ts1 ++ a :: a' :: ts2 ->
    it_move null_object g 1 (iter_at (length ts1) a) = Ok (iter_at (S (length ts1)) a');
  ag_past : forall ts1 a, ts = ts1 ++ [a] ->
    it_move null_object g 1 (iter_at (length ts1) a) = Ok (iter_at (S (length ts1)) a);
  ag_at : forall i, (- 2 ^ 31 <= i < 2 ^ 31)%Z ->
    gen_at null_object g i =
    match (let j := if i <? 0 then i + Z.of_nat (length ts) else i in if j <? 0 then None else nth_error ts (Z.to_nat j))%Z with
    | Some c => Ok c
    | None => Throw EOutOfRange
    end
}.

Lemma a_gen_none : a_gen [] (mkGen [] [] 0%Z).
Proof.
  constructor; try reflexivity.
  - intros [|? ?] ? ? ? H; discriminate.
  - intros [|? ?] ? H; discriminate.
  - intros i R. cbn zeta. cbn [length Z.of_nat].
    replace (if (i <? 0)%Z then (i + 0)%Z else i) with i by (destruct (i <? 0)%Z; lia).
    replace (if (i <? 0)%Z then None else nth_error (@nil (list object)) (Z.to_nat i)) with (@None (list object))
      by (destruct (i <? 0)%Z; auto; destruct (Z.to_nat i); auto).
    unfold gen_at. cbn [g_size].
    assert (X : forall z, out_of_bounds (mkGen (A := object) [] [] 0%Z) z = true).
    { intros z. unfold out_of_bounds. cbn [g_size]. rewrite (proj2 (Z.leb_le _ _)); [reflexivity|].
      unfold to_size_t. apply Z.mod_pos_bound. reflexivity. }
    rewrite X. reflexivity.
Qed.

Lemma a_gen_good opts : good_options opts -> exists g, make_gen opts = Ok g /\ a_gen (cart opts) g.
Proof.
  intros G. pose proof (cart_length opts) as CL. pose proof G as (N & NE & LT).
  exists (mkGen opts (groups_spec opts) (product opts)). split; [apply make_gen_ok; auto|]. constructor.
  - symmetry. exact CL.
  - destruct (at_zero opts G) as [c C]. unfold gen_begin. rewrite (new_iter_ok null_object opts G _ _ C).
    unfold combination_at in C. cbn in C. destruct (cart opts); cbn in *; congruence.
  - rewrite (end_iter null_object opts G). rewrite CL. reflexivity.
  - intros ts1 a a' ts2 Et. rewrite Nat2Z.inj_succ, <- Z.add_1_r. apply (move_ok null_object opts G).
    + eapply cart_at; eauto.
    + replace (Z.of_nat (length ts1) + 1)%Z with (Z.of_nat (length (ts1 ++ [a]))) by (rewrite app_length; cbn; lia).
      eapply cart_at. rewrite Et, <- app_assoc. reflexivity.
  - intros ts1 a Et. rewrite Nat2Z.inj_succ, <- Z.add_1_r.
    assert (X : (product opts = Z.of_nat (length ts1) + 1)%Z) by (rewrite <- CL, Et, app_length; cbn; lia).
    apply (move_out null_object opts G); lia.
  - intros i R. destruct (C12_lemma null_object opts i G R) as (g & Eg & Ea).
    rewrite (make_gen_ok opts G) in Eg. injection Eg as <-. rewrite Ea, CL. reflexivity.
Qed.

Lemma gen_for objects params : Forall (fun o => wf_type (otype o)) objects -> (tuple_count objects params < 2 ^ 31)%Z ->
  exists g, param_gen (create_object_map objects) params = Ok g /\ a_gen (tuples_for objects params) g.
Proof.
  intros W C. unfold tuples_for. pose proof (param_types_spec objects params W []) as T. cbn zeta in T.
  destruct params as [|v vs] eqn:E.
  - exists (mkGen [] [] 0%Z). split; [reflexivity|apply a_gen_none].
  - rewrite <- E in T, C |- *. set (opts := map _ params) in T. change (tuples objects params) with (cart opts).
    cbn [app] in T. unfold param_gen, param_types. rewrite T. destruct (existsb _ opts) eqn:Ex.
    + rewrite (existsb_empty_product _ Ex). exists (mkGen [] [] 0%Z). split; [reflexivity|apply a_gen_none].
    + apply a_gen_good. split; [subst opts; rewrite E; discriminate|]. split; [apply existsb_empty_false; auto|exact C].
Qed.

Section Programs.
  Context `{SH : StdHash} (objects : list object) (gens : list (gen object)) (T : nat -> option (list (list object))).
  Context (Hg : forall k, match T k with
                          | Some ts => exists g, nth_error gens k = Some g /\ a_gen ts g
                          | None => True
                          end).

  Definition loop_rel (ts : list (list object)) (it : iter object) (waiting : bool) (given : nat) : Prop :=
    match given with
    | 0 => waiting = true /\ it = iter_at 0 (hd [] ts)
    | S j => exists ts1 a ts2, ts = ts1 ++ a :: ts2 /\ length ts1 = j /\
        (waiting = false /\ it = iter_at j a \/ waiting = true /\ ts2 = [] /\ it = iter_at (S j) a)
    end.
  Definition args_rel (c : pa_cell) (x : g_cell) : Prop :=
    match c, x with
    | PaArgs l, GArgs l' => l' = l
    | PaIter k it waiting, GLoop k' given => k' = k /\ exists ts, T k = Some ts /\ loop_rel ts it waiting given
    | _, _ => False
    end.

  Lemma args_at cells acells j x : Forall2 args_rel cells acells -> nth_error acells j = Some x ->
    exists c, nth_error cells j = Some c /\ args_rel c x.
  Proof.
    intros F. revert j. induction F as [|c b cs bs H _ IH]; intros [|j]; cbn; try discriminate.
    - intros [= <-]. eauto.
    - apply IH.
  Qed.
  Lemma args_length cells acells : Forall2 args_rel cells acells -> length cells = length acells.
  Proof. induction 1; cbn; auto. Qed.
  Lemma args_set cells acells i c x : Forall2 args_rel cells acells -> args_rel c x ->
    Forall2 args_rel (set_nth i c cells) (set_nth i x acells).
  Proof. intros F H. revert i. induction F; intros [|i]; cbn; constructor; auto. Qed.
  Lemma set_nth_id {A} (l : list A) i x : nth_error l i = Some x -> set_nth i x l = l.
  Proof. revert i. induction l as [|y l IH]; intros [|i]; cbn; try discriminate; [congruence|]. intros H. rewrite IH; auto. Qed.

  Lemma shown_rel cells acells x l : Forall2 args_rel cells acells -> g_shows T acells x = Some l ->
    shown_args cells x = Ok l.
  Proof.
    intros F H. destruct x as [j|j]; cbn in H |- *.
    - destruct (nth_error acells j) as [[m|k g]|] eqn:E; try discriminate. injection H as ->.
      destruct (args_at _ _ _ _ F E) as (c & -> & Hc). destruct c; cbn in Hc; [congruence|contradiction].
    - destruct (nth_error acells j) as [[m|k [|g]]|] eqn:E; try discriminate.
      destruct (args_at _ _ _ _ F E) as (c & -> & Hc). destruct c as [|k' it wt]; cbn in Hc; [contradiction|].
      destruct Hc as (<- & ts & Et & ts1 & a & ts2 & -> & Lt & Hi). rewrite Et in H.
      rewrite nth_error_app2, Lt, Nat.sub_diag in H by lia. cbn in H. injection H as <-.
      destruct Hi as [(_ & ->)|(_ & _ & ->)]; reflexivity.
  Qed.

  Lemma next_rel ts g it wt given : a_gen ts g -> loop_rel ts it wt given ->
    exists it', (if wt : bool then Ok it else it_move null_object g 1 it) = Ok it' /\
      let stop := it_eqb it' (iter_at (length ts) []) in
      stop = match nth_error ts given with Some _ => false | None => true end /\
      loop_rel ts it' stop (if stop then given else S given).
  Proof.
    intros A R. destruct given as [|j]; cbn [loop_rel] in R.
    - destruct R as [-> ->]. eexists. split; [reflexivity|]. unfold it_eqb. cbn [it_idx]. destruct ts as [|a ts]; cbn zeta.
      + cbn. auto.
      + cbn [length nth_error hd]. rewrite (proj2 (Z.eqb_neq _ _)) by lia. split; auto.
        exists [], a, ts. cbn. auto.
    - destruct R as (ts1 & a & ts2 & E & Lt & [(-> & ->)|(-> & -> & ->)]).
      + destruct ts2 as [|a' ts2].
        * rewrite <- Lt. rewrite (ag_past _ _ A ts1 a E). eexists. split; [reflexivity|]. unfold it_eqb. cbn [it_idx].
          rewrite E, app_length. cbn [length]. rewrite (proj2 (Z.eqb_eq _ _)) by lia. cbn zeta. split.
          -- rewrite (proj2 (nth_error_None (ts1 ++ [a]) (S (length ts1)))); auto. rewrite app_length. cbn. lia.
          -- exists ts1, a, []. auto 8.
        * rewrite <- Lt. rewrite (ag_next _ _ A ts1 a a' ts2 E). eexists. split; [reflexivity|]. unfold it_eqb. cbn [it_idx].
          rewrite E, app_length. cbn [length]. rewrite (proj2 (Z.eqb_neq _ _)) by lia. cbn zeta. split.
          -- rewrite nth_error_app2 by lia. replace (S (length ts1) - length ts1) with 1 by lia. reflexivity.
          -- exists (ts1 ++ [a]), a', ts2. rewrite <- app_assoc, app_length. cbn. split; auto. split; [lia|]. left. auto.
      + eexists. split; [reflexivity|]. unfold it_eqb. cbn [it_idx]. rewrite E, app_length. cbn [length].
        rewrite (proj2 (Z.eqb_eq _ _)) by lia. cbn zeta. split.
        * rewrite (proj2 (nth_error_None (ts1 ++ [a]) (S j))); auto. rewrite app_length. cbn. lia.
        * exists ts1, a, []. auto 8.
  Qed.

  Lemma args_step o cells acells r acells' : Forall2 args_rel cells acells -> g_step T o acells = Some (r, acells') ->
    exists cells', pa_step objects gens o cells = Ok (r, cells') /\ Forall2 args_rel cells' acells'.
  Proof.
    intros F H. destruct o as [k|k i|k|i|x|k names]; cbn [g_step pa_step] in *.
    - pose proof (Hg k) as G. destruct (T k) as [ts|] eqn:Et; [|discriminate]. destruct G as (g & -> & A). cbn [bind].
      cbn in H. injection H as <- <-. rewrite (ag_size _ _ A). eauto.
    - pose proof (Hg k) as G. destruct (T k) as [ts|] eqn:Et; [|discriminate]. destruct G as (g & -> & A). cbn [bind].
      destruct ((- 2 ^ 31 <=? i) && (i <? 2 ^ 31))%Z eqn:Ri; [|discriminate].
      apply andb_true_iff in Ri as [R1 R2]. apply Z.leb_le in R1. apply Z.ltb_lt in R2.
      rewrite (ag_at _ _ A i (conj R1 R2)). cbn zeta.
      match type of H with match ?x with _ => _ end = _ => destruct x as [l|] eqn:El end.
      + injection H as <- <-. rewrite (args_length _ _ F). eexists. split; [reflexivity|].
        apply Forall2_app; auto. constructor; [reflexivity|constructor].
      + injection H as <- <-. eauto.
    - pose proof (Hg k) as G. destruct (T k) as [ts|] eqn:Et; [|discriminate]. destruct G as (g & -> & A). cbn [bind].
      cbn in H. injection H as <- <-. rewrite (ag_begin _ _ A). cbn [bind]. rewrite (ag_end _ _ A). cbn [bind].
      rewrite (args_length _ _ F). eexists. split; [reflexivity|].
      apply Forall2_app; auto. constructor; [|constructor]. cbn. split; auto. exists ts. cbn. auto.
    - destruct (nth_error acells i) as [[m|k g]|] eqn:E; try discriminate.
      destruct (args_at _ _ _ _ F E) as (c & -> & Hc). destruct c as [|k' it wt]; cbn in Hc; [contradiction|].
      destruct Hc as (<- & ts & Et & R). pose proof (Hg k) as G. rewrite Et in G, H. destruct G as (gn & -> & A). cbn [bind].
      destruct (next_rel ts gn it wt g A R) as (it' & -> & Hs & R'). cbn [bind]. rewrite (ag_end _ _ A). cbn [bind]. cbn zeta.
      destruct (nth_error ts g) as [y|]; injection H as <- <-; rewrite Hs in *.
      + eexists. split; [reflexivity|]. apply args_set; auto. cbn. eauto.
      + eexists. split; [reflexivity|]. rewrite <- (set_nth_id acells i _ E). apply args_set; auto. cbn. eauto.
    - destruct (g_shows T acells x) as [l|] eqn:E; [|discriminate]. cbn in H. injection H as <- <-.
      rewrite (shown_rel _ _ _ _ F E). cbn [bind]. eauto.
    - discriminate.
  Qed.

  Lemma args_run ops : forall cells acells rs, Forall2 args_rel cells acells -> g_run T ops acells = Some rs ->
    exists cells', pa_run objects gens ops cells = Ok (rs, cells').
  Proof.
    induction ops as [|o ops IH]; intros cells acells rs F H; cbn [g_run pa_run] in *.
    - injection H as <-. eauto.
    - destruct (g_step T o acells) as [[r acells']|] eqn:E; [|discriminate].
      destruct (args_step _ _ _ _ _ F E) as (cells1 & -> & F1). cbn [bind].
      destruct (g_run T ops acells') as [rs'|] eqn:Er; [|discriminate]. cbn in H. injection H as <-.
      destruct (IH _ _ _ F1 Er) as (cells2 & ->). cbn [bind]. eauto.
  Qed.
End Programs.

Section Theorems.
  Context `{SH : StdHash} (objects : list object) (paramss : list (list object)).
  Context (W : Forall (fun o => wf_type (otype o)) objects).
  Context (C : Forall (fun params => (tuple_count objects params < 2 ^ 31)%Z) paramss).

  Lemma gens_for : exists gens, mapM (param_gen (create_object_map objects)) paramss = Ok gens /\
    forall k params, nth_error paramss k = Some params -> exists g, nth_error gens k = Some g /\ a_gen (tuples_for objects params) g.
  Proof.
    induction C as [|params l Hp Hl IH]; cbn [mapM].
    - exists []. split; auto. intros [|k] ?; discriminate.
    - destruct (gen_for objects params W Hp) as (g & -> & A). cbn [bind]. destruct (IH Hl) as (gs & Em & H).
      rewrite Em. cbn [bind].
      exists (g :: gs). split; auto. intros [|k] ps; cbn; [intros [= <-]; eauto|apply H].
  Qed.

  Lemma C81_programs_lemma : exists gens T, mapM (param_gen (create_object_map objects)) paramss = Ok gens /\
    (forall k params, nth_error paramss k = Some params -> exists ts, T k = Some ts /\
      (params = [] -> ts = []) /\ (params <> [] -> forall args, In args ts <-> well_typed objects params args) /\
      (NoDup objects -> NoDup ts)) /\
    forall ops rs, g_run T ops [] = Some rs -> exists cells, pa_run objects gens ops [] = Ok (rs, cells).
  Proof.
    destruct gens_for as (gens & E & H). exists gens, (fun k => option_map (tuples_for objects) (nth_error paramss k)).
    split; auto. split.
    - intros k params Ek. rewrite Ek. eexists. split; [reflexivity|]. unfold tuples_for. destruct params as [|v vs].
      + split; [auto|]. split; [congruence|]. constructor.
      + split; [discriminate|]. split; [intros _ args; apply tuples_In|]. intros ND. unfold tuples. apply NoDup_cart.
        apply Forall_map, Forall_forall. intros p _. unfold objects_of. apply NoDup_filter; auto.
    - intros ops rs R. eapply (args_run objects gens); [|constructor|exact R].
      intros k. cbn beta. destruct (nth_error paramss k) as [params|] eqn:Ek; cbn; [apply (H k params Ek)|exact Logic.I].
  Qed.
End Theorems.

(** ** Loops *)
Section Loops.
  Context (T : nat -> option (list (list object))) (ts : list (list object)) (HT : T 0 = Some ts).
  Lemma skipn_step {A} (l : list A) g x r : skipn g l = x :: r -> nth_error l g = Some x /\ skipn (S g) l = r.
  Proof.
    revert g. induction l as [|y l IH]; intros [|g] H; cbn in *; try discriminate.
    - injection H as -> ->. auto.
    - apply IH in H. exact H.
  Qed.
  Lemma loop_names rest : forall l g, skipn g ts = l ->
    g_run T (concat (repeat [PaNext 0; PaShow (SlotsOf 0)] (length l)) ++ rest) [GLoop 0 g] =
    option_map (app (flat_map (fun c => [PaList (SlotsOf 0); PaNames (map oname c)]) l)) (g_run T rest [GLoop 0 (g + length l)]).
  Proof.
    induction l as [|c l IH]; intros g E; cbn [length repeat concat flat_map app].
    - rewrite Nat.add_0_r. destruct (g_run T rest _); reflexivity.
    - apply skipn_step in E as [Ec El]. cbn [g_run g_step nth_error]. rewrite HT, Ec.
      cbn [set_nth g_run g_step g_shows nth_error]. rewrite HT, Ec. cbn [option_map g_run].
      rewrite (IH (S g) El). rewrite Nat.add_succ_comm. destruct (g_run T rest _); reflexivity.
  Qed.
  Lemma loop_lists rest : forall l g, skipn g ts = l ->
    g_run T (repeat (PaNext 0) (length l) ++ rest) [GLoop 0 g] =
    option_map (app (repeat (PaList (SlotsOf 0)) (length l))) (g_run T rest [GLoop 0 (g + length l)]).
  Proof.
    induction l as [|c l IH]; intros g E; cbn [length repeat app].
    - rewrite Nat.add_0_r. destruct (g_run T rest _); reflexivity.
    - apply skipn_step in E as [Ec El]. cbn [g_run g_step nth_error]. rewrite HT, Ec.
      cbn [set_nth]. rewrite (IH (S g) El). rewrite Nat.add_succ_comm. destruct (g_run T rest _); reflexivity.
  Qed.
  Lemma stop_names m : g_run T (repeat (PaNext 0) m) [GLoop 0 (length ts)] = Some (repeat PaStop m).
  Proof.
    induction m as [|m IH]; cbn [repeat g_run g_step nth_error]; auto.
    rewrite HT, (proj2 (nth_error_None ts (length ts)) (le_n _)), IH. reflexivity.
  Qed.
  Lemma run_loop m : g_run T (PaLoop 0 :: concat (repeat [PaNext 0; PaShow (SlotsOf 0)] (length ts)) ++ repeat (PaNext 0) m) [] =
    Some (PaIterator 0 :: flat_map (fun c => [PaList (SlotsOf 0); PaNames (map oname c)]) ts ++ repeat PaStop m).
  Proof.
    cbn [g_run g_step]. rewrite HT. cbn [option_map length app]. rewrite (loop_names _ ts 0 eq_refl). cbn [Nat.add].
    rewrite stop_names. reflexivity.
  Qed.
  Lemma run_list pre last : ts = pre ++ [last] ->
    g_run T (PaLoop 0 :: repeat (PaNext 0) (length ts) ++ [PaNext 0; PaShow (SlotsOf 0)]) [] =
    Some (PaIterator 0 :: repeat (PaList (SlotsOf 0)) (length ts) ++ [PaStop; PaNames (map oname last)]).
  Proof.
    intros E. cbn [g_run g_step]. rewrite HT. cbn [option_map length app]. rewrite (loop_lists _ ts 0 eq_refl). cbn [Nat.add].
    cbn [g_run g_step nth_error]. rewrite HT, (proj2 (nth_error_None ts (length ts)) (le_n _)). cbn [g_run g_step g_shows nth_error].
    assert (X : length ts = S (length pre)) by (rewrite E, app_length; cbn; lia). rewrite X. rewrite HT.
    rewrite E at 1. rewrite nth_error_app2, Nat.sub_diag by lia. reflexivity.
  Qed.
  Lemma run_index cells : forall ks l, map (fun k => nth_error ts k) ks = map Some l -> Forall (fun k => (Z.of_nat k < 2 ^ 31)%Z) ks ->
    g_run T (map (fun k => PaAt 0 (Z.of_nat k)) ks ++ map (fun j => PaShow (OwnArgs j)) (seq (length cells) (length ks))) cells =
    Some (map (fun j => PaList (OwnArgs j)) (seq (length cells) (length ks)) ++ map (fun c => PaNames (map oname c)) l).
  Proof.
    assert (Sh : forall l (a b : list g_cell), g_run T (map (fun j => PaShow (OwnArgs j)) (seq (length a) (length l))) (a ++ map GArgs l ++ b) =
      Some (map (fun c => PaNames (map oname c)) l)).
    { induction l as [|c l IH]; intros a b; cbn [length seq map]; auto. cbn [g_run g_step g_shows].
      rewrite nth_error_app2, Nat.sub_diag by lia. cbn [map app nth_error option_map].
      specialize (IH (a ++ [GArgs c]) b). rewrite app_length, <- app_assoc in IH. cbn [length app] in IH.
      rewrite Nat.add_1_r in IH. rewrite IH. reflexivity. }
    assert (Gen : forall ks l done (a : list g_cell), map (fun k => nth_error ts k) ks = map Some l -> Forall (fun k => (Z.of_nat k < 2 ^ 31)%Z) ks ->
      g_run T (map (fun k => PaAt 0 (Z.of_nat k)) ks ++ map (fun j => PaShow (OwnArgs j)) (seq (length a) (length done + length ks)))
        (a ++ map GArgs done) =
      Some (map (fun j => PaList (OwnArgs j)) (seq (length a + length done) (length ks)) ++ map (fun c => PaNames (map oname c)) (done ++ l))).
    { induction ks as [|k ks IH]; intros [|c l] done a E F; try discriminate; cbn [map length seq app].
      - rewrite Nat.add_0_r, app_nil_r. specialize (Sh done a []). rewrite app_nil_r in Sh. exact Sh.
      - cbn [map] in E. injection E as Ek E. inversion F as [|? ? Fk F']; subst. cbn [g_run g_step]. rewrite HT. cbn zeta.
        rewrite (proj2 (Z.ltb_ge (Z.of_nat k) 0)) by lia. rewrite (proj2 (Z.leb_le (- 2 ^ 31) (Z.of_nat k))) by lia.
        rewrite (proj2 (Z.ltb_lt (Z.of_nat k) (2 ^ 31))) by lia. cbn [andb].
        rewrite (proj2 (Z.ltb_ge (Z.of_nat k) 0)) by lia. rewrite Nat2Z.id, Ek.
        specialize (IH l (done ++ [c]) a E F'). rewrite map_app, !app_length in IH. cbn [map length] in IH.
        rewrite <- !app_assoc in IH |- *. cbn [app] in IH |- *. rewrite <- Nat.add_assoc in IH. cbn [Nat.add] in IH.
        rewrite IH. rewrite app_length, map_length. cbn [option_map]. rewrite Nat.add_assoc, Nat.add_1_r. reflexivity. }
    intros ks l E F. specialize (Gen ks l [] cells E F). cbn [map length app Nat.add] in Gen.
    rewrite app_nil_r, Nat.add_0_r in Gen. exact Gen.
  Qed.
End Loops.

Section Texts.
  Context (objects : list object).
  Lemma mapM_get names : (exists args, mapM (get_object objects) names = Ok args /\ Forall2 (first_named oname objects) names args) \/
    (exists n, In n names /\ ~ In n (map oname objects)) /\ mapM (get_object objects) names = Throw ERuntime.
  Proof.
    induction names as [|n names IH]; cbn [mapM].
    - left. exists []. auto.
    - assert (G : (exists o, get_object objects n = Ok o) \/ (~ In n (map oname objects) /\ get_object objects n = Throw ERuntime)).
      { clear. induction objects as [|o l IH]; cbn; auto. destruct (String.eqb_spec (oname o) n); [eauto|].
        destruct IH as [|[H ?]]; [auto|right]. split; auto. intros [|]; auto. }
      destruct G as [(o & E)|[N E]]; rewrite E; cbn [bind].
      + destruct IH as [(args & -> & F)|((m & I & N) & ->)]; cbn [bind].
        * left. exists (o :: args). split; auto. constructor; auto. apply get_object_spec. auto.
        * right. split; auto. exists m. split; [right|]; auto.
      + right. split; auto. exists n. split; [left|]; auto.
  Qed.
  Lemma named_declared n o : first_named oname objects n o -> In n (map oname objects) /\ oname o = n.
  Proof. intros (l1 & l2 & -> & E & _). split; auto. rewrite map_app. apply in_or_app. right. left. auto. Qed.

  Lemma C81_text_lemma name names :
    match py_call_text objects BpPddl name names with
    | Ok s => Forall (fun n => In n (map oname objects)) names /\
        exists args, Forall2 (first_named oname objects) names args /\ s = print_call name args /\
          (free_of "("%char name -> Forall word names -> parse_head s = name /\ parse_arguments objects s = Ok args)
    | Throw ERuntime => exists n, In n names /\ ~ In n (map oname objects)
    | _ => False
    end.
  Proof.
    unfold py_call_text, parse_names.
    replace (match names with [] => Ok [] | _ :: _ => mapM (get_object objects) names end) with (mapM (get_object objects) names)
      by (destruct names; reflexivity).
    destruct (mapM_get names) as [(args & E & F)|(H & ->)]; [|exact H]. rewrite E. cbn [bind].
    assert (Ms : map oname args = names).
    { clear -F. induction F; cbn; auto. f_equal; auto. apply (named_declared _ _ H). }
    split.
    - clear -F. induction F; constructor; auto. apply (named_declared _ _ H).
    - exists args. split; auto. split; auto. intros Fn Wn. rewrite <- Ms in Wn. destruct (C15_lemma name args Fn Wn) as [Hh Ht].
      split; auto. unfold parse_arguments. rewrite Ht, Ms. exact E.
  Qed.
End Texts.

Lemma C81_loop_lemma `{SH : StdHash} objects params : Forall (fun o => wf_type (otype o)) objects ->
  (tuple_count objects params < 2 ^ 31)%Z ->
  exists g ts, param_gen (create_object_map objects) params = Ok g /\
    (params = [] -> ts = []) /\ (params <> [] -> forall args, In args ts <-> well_typed objects params args) /\
    (NoDup objects -> NoDup ts) /\
    (forall m, exists cells,
      pa_run objects [g] (PaLoop 0 :: concat (repeat [PaNext 0; PaShow (SlotsOf 0)] (length ts)) ++ repeat (PaNext 0) m) [] =
      Ok (PaIterator 0 :: flat_map (fun c => [PaList (SlotsOf 0); PaNames (map oname c)]) ts ++ repeat PaStop m, cells)) /\
    (forall pre last, ts = pre ++ [last] -> exists cells,
      pa_run objects [g] (PaLoop 0 :: repeat (PaNext 0) (length ts) ++ [PaNext 0; PaShow (SlotsOf 0)]) [] =
      Ok (PaIterator 0 :: repeat (PaList (SlotsOf 0)) (length ts) ++ [PaStop; PaNames (map oname last)], cells)) /\
    exists cells,
      pa_run objects [g] (PaLen 0 :: map (fun k => PaAt 0 (Z.of_nat k)) (seq 0 (length ts)) ++
        map (fun j => PaShow (OwnArgs j)) (seq 0 (length ts))) [] =
      Ok (PaNumber (Z.of_nat (length ts)) :: map (fun j => PaList (OwnArgs j)) (seq 0 (length ts)) ++
          map (fun c => PaNames (map oname c)) ts, cells).
Proof.
  intros W C. destruct (gen_for objects params W C) as (g & E & A).
  set (ts := tuples_for objects params) in *. exists g, ts. split; auto.
  assert (Hg : forall k, match (fun k => match k with 0 => Some ts | _ => None end) k with
                          | Some ts => exists g', nth_error [g] k = Some g' /\ a_gen ts g'
                          | None => True
                          end) by (intros [|k]; cbn; eauto).
  assert (Lt : (Z.of_nat (length ts) < 2 ^ 31)%Z).
  { subst ts. unfold tuples_for. destruct params as [|v vs]; [reflexivity|]. unfold tuples. rewrite cart_length. exact C. }
  split; [|split; [|split; [|split; [|split]]]].
  - intros ->. reflexivity.
  - intros N args. subst ts. unfold tuples_for. destruct params; [congruence|]. apply tuples_In.
  - intros ND. subst ts. unfold tuples_for. destruct params as [|v vs]; [constructor|]. unfold tuples. apply NoDup_cart.
    apply Forall_map, Forall_forall. intros p _. unfold objects_of. apply NoDup_filter; auto.
  - intros m. apply (args_run objects [g] _ Hg _ [] []); [constructor|]. apply run_loop. reflexivity.
  - intros pre last El. apply (args_run objects [g] _ Hg _ [] []); [constructor|]. eapply run_list; [reflexivity|exact El].
  - apply (args_run objects [g] _ Hg _ [] []); [constructor|]. cbn [g_run g_step option_map].
    pose proof (run_index (fun k => match k with 0 => Some ts | _ => None end) ts eq_refl [] (seq 0 (length ts)) ts) as X.
    rewrite seq_length in X. cbn [length] in X. rewrite X; [reflexivity| |].
    + clear. assert (G : forall l pre, map (fun k => nth_error (pre ++ l) k) (seq (length pre) (length l)) = map (@Some (list object)) l).
      { induction l as [|a l IH]; intros pre; cbn [length seq map]; auto. f_equal.
        - rewrite nth_error_app2, Nat.sub_diag by lia. reflexivity.
        - specialize (IH (pre ++ [a])). rewrite <- app_assoc, app_length in IH. cbn [app length] in IH.
          rewrite Nat.add_1_r in IH. exact IH. }
      exact (G ts []).
    + apply Forall_forall. intros k I. apply in_seq in I. lia.
Qed.
