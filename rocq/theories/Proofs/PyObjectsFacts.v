(** Objects from pddl.objects while objects are added and removed. *)
From Coq Require Import String List Bool Arith Lia.
From Verif.Model Require Import Base Object Pddl Objects PyObjects.
From Verif.Spec Require Import ObjectsSpec PyObjectsSpec.
Import ListNotations.

(** ** Removing *)

Lemma splits_fun n l b o a b' o' a' : splits n l b o a -> splits n l b' o' a' -> b = b' /\ o = o' /\ a = a'.
Proof.
  unfold splits. intros (-> & E & N) (Q & E' & N'). revert b' N' Q. induction b as [|x b IH]; intros [|y b'] N' Q; cbn in *.
  - injection Q as -> ->. auto.
  - injection Q as -> _. tauto.
  - injection Q as -> _. tauto.
  - injection Q as -> Q. destruct (IH (fun H => N (or_intror H)) b') as (-> & -> & ->); auto.
Qed.

Lemma find_slot_some n l k : find_slot n l = Some k ->
  exists l1 s l2, l = l1 ++ s :: l2 /\ length l1 = k /\ oname (sl_obj s) = n /\ ~ In n (map oname (map sl_obj l1)).
Proof.
  revert k. induction l as [|s l IH]; intros k; cbn; [discriminate|]. destruct (String.eqb_spec (oname (sl_obj s)) n) as [E|E].
  - intros [= <-]. exists [], s, l. cbn. auto.
  - destruct (find_slot n l) as [i|]; cbn; [|discriminate]. intros [= <-].
    destruct (IH i eq_refl) as (l1 & t & l2 & -> & L & Q & N). exists (s :: l1), t, l2. cbn. rewrite L.
    repeat split; auto. intros [H|H]; auto.
Qed.
Lemma find_slot_none n l : find_slot n l = None -> ~ In n (map oname (map sl_obj l)).
Proof.
  induction l as [|s l IH]; cbn; [tauto|]. destruct (String.eqb_spec (oname (sl_obj s)) n) as [E|E]; [discriminate|].
  destruct (find_slot n l); [discriminate|]. intros _ [H|H]; auto. apply IH; auto.
Qed.

(** Either there is none of that name, or the vector loses its first one. *)
Lemma remove_cases n w :
  (~ In n (map oname (the_objects w)) /\ ow_remove n w = w) \/
  (exists l1 s l2, ow_slots w = l1 ++ s :: l2 /\
     splits n (the_objects w) (map sl_obj l1) (sl_obj s) (map sl_obj l2) /\
     ow_remove n w = mkOW (l1 ++ l2) (ow_buffer w) (ow_capacity w) (ow_next w) (sl_sym s :: ow_deleted w)).
Proof.
  unfold ow_remove, the_objects. destruct (find_slot n (ow_slots w)) as [k|] eqn:F.
  - right. destruct (find_slot_some _ _ _ F) as (l1 & s & l2 & E & L & Q & N). exists l1, s, l2.
    split; auto. split; [rewrite E, map_app; repeat split; auto|]. rewrite E, <- L.
    rewrite firstn_app, Nat.sub_diag, firstn_all, app_nil_r.
    replace (skipn (S (length l1)) (l1 ++ s :: l2)) with l2.
    2: { rewrite skipn_app, skipn_all2 by lia. replace (S (length l1) - length l1) with 1 by lia. auto. }
    rewrite nth_error_app2, Nat.sub_diag by lia. auto.
  - left. split; auto. apply find_slot_none; auto.
Qed.

Lemma remove_ok n w : world_ok w -> world_ok (ow_remove n w).
Proof.
  intros O. destruct (remove_cases n w) as [(_ & ->)|(l1 & s & l2 & E & _ & ->)]; auto.
  destruct O as [F S O L G]. rewrite E in *. rewrite map_app in S. cbn [map] in S. rewrite app_length in F. cbn [length] in F.
  constructor; cbn [ow_slots ow_buffer ow_capacity ow_next ow_deleted].
  - rewrite app_length. lia.
  - rewrite map_app. eapply NoDup_remove_1; eauto.
  - intros t I. apply O. apply in_app_iff in I. apply in_app_iff. cbn. tauto.
  - intros t I [Q|Q].
    + apply NoDup_remove_2 in S. apply S. rewrite Q, <- map_app. apply in_map; auto.
    + revert Q. apply L. apply in_app_iff in I. apply in_app_iff. cbn. tauto.
  - intros k [<-|I]; [|auto]. apply O. apply in_app_iff. right. left. auto.
Qed.

(** ** Reading *)

Lemma live_false w s : world_ok w -> In s (ow_slots w) -> existsb (Nat.eqb (sl_sym s)) (ow_deleted w) = false.
Proof.
  intros O I. destruct (existsb _ _) eqn:E; auto. apply existsb_exists in E. destruct E as (x & J & Q).
  apply Nat.eqb_eq in Q. subst x. destruct (wo_live w O s I J).
Qed.

Lemma ref_name_nth w i : world_ok w ->
  ref_name w (ow_buffer w, i) = match nth_error (the_objects w) i with Some o => Ok (oname o) | None => UB end.
Proof.
  intros O. unfold ref_name, deref, the_objects. cbn [fst snd]. rewrite Nat.eqb_refl, nth_error_map.
  destruct (nth_error (ow_slots w) i) as [s|] eqn:E; cbn [bind option_map]; auto.
  rewrite live_false; auto. eapply nth_error_In; eauto.
Qed.
Lemma ref_type_nth w i :
  ref_type w (ow_buffer w, i) = match nth_error (the_objects w) i with Some o => Ok (type_name (otype o)) | None => UB end.
Proof.
  unfold ref_type, deref, the_objects. cbn [fst snd]. rewrite Nat.eqb_refl, nth_error_map.
  destruct (nth_error (ow_slots w) i) as [s|]; auto.
Qed.
Lemma ref_gone w b i : b <> ow_buffer w -> ref_name w (b, i) = UB /\ ref_type w (b, i) = UB.
Proof. intros H. apply Nat.eqb_neq in H. unfold ref_name, ref_type, deref. cbn [fst]. rewrite H. auto. Qed.

(** ** Adding *)
Section Growth.
  Context (grow : nat -> nat) (G : forall n, n < grow n).

  Lemma add_ok types n t w : world_ok w -> exists w', ow_add grow (Some types) n t w = Ok w' /\ world_ok w' /\
    the_objects w' = the_objects w ++ [new_obj types n t] /\
    (if Nat.eqb (length (ow_slots w)) (ow_capacity w) then ow_buffer w' = S (ow_buffer w)
     else ow_buffer w' = ow_buffer w /\ ow_capacity w' = ow_capacity w).
  Proof.
    intros [F S O L D]. eexists. split; [reflexivity|]. split; [|split].
    - constructor; cbn [ow_slots ow_buffer ow_capacity ow_next ow_deleted].
      + rewrite app_length. cbn [length]. destruct (Nat.eqb_spec (length (ow_slots w)) (ow_capacity w)) as [E|E]; [|lia].
        specialize (G (ow_capacity w)). lia.
      + rewrite map_app. cbn [map sl_sym]. apply NoDup_rev in S. rewrite <- (rev_involutive (map sl_sym (ow_slots w) ++ _)).
        apply NoDup_rev. rewrite rev_app_distr. cbn. constructor; auto. intros I. apply in_rev in I.
        apply in_map_iff in I. destruct I as (s & Q & I). apply O in I. lia.
      + intros s I. apply in_app_iff in I. destruct I as [I|[<-|[]]]; [apply O in I; lia|cbn; lia].
      + intros s I. apply in_app_iff in I. destruct I as [I|[<-|[]]]; [apply L; auto|]. cbn. intros Q. apply D in Q. lia.
      + intros k I. apply D in I. lia.
    - unfold the_objects. cbn [ow_slots]. rewrite map_app. reflexivity.
    - cbn [ow_buffer ow_capacity]. destruct (Nat.eqb (length (ow_slots w)) (ow_capacity w)); auto.
  Qed.

  (** ** Values *)
  Definition shows (w : objects_world) (h : held_object) (r : object_ref) : Prop :=
    hd_safe h = true -> r = (ow_buffer w, hd_at h) /\ nth_error (the_objects w) (hd_at h) = Some (hd_obj h).
  Definition same_world (s : list object * list held_object) (wh : objects_world * list object_ref) : Prop :=
    world_ok (fst wh) /\ the_objects (fst wh) = fst s /\ Forall2 (shows (fst wh)) (snd s) (snd wh).

  Lemma f2_at {A B} (P : A -> B -> Prop) l l' k a : Forall2 P l l' -> nth_error l k = Some a ->
    exists b, nth_error l' k = Some b /\ P a b.
  Proof.
    intros F. revert k. induction F as [|x y l l' H F IH]; intros [|k] Q; cbn in *; try discriminate.
    - injection Q as <-. eauto.
    - eauto.
  Qed.

  Lemma all_shown w : world_ok w -> Forall2 (shows w) (all_from (the_objects w)) (py_objects w).
  Proof.
    intros O. unfold all_from, py_objects.
    assert (L : length (the_objects w) = length (ow_slots w)) by (unfold the_objects; apply map_length).
    rewrite <- L. clear L.
    assert (K : forall os k, (forall i, nth_error os i = nth_error (the_objects w) (k + i)) ->
      Forall2 (shows w) (map (fun io => mkHeld (fst io) (snd io) true) (combine (seq k (length os)) os))
        (map (fun i => (ow_buffer w, i)) (seq k (length os)))).
    { induction os as [|o os IH]; intros k H; cbn; constructor.
      - intros _. cbn. split; auto. rewrite <- (Nat.add_0_r k), <- H. auto.
      - apply IH. intros i. rewrite Nat.add_succ_comm, <- H. auto. }
    apply (K _ 0). auto.
  Qed.

  Lemma weaken_zero w held hs : Forall2 (shows w) hs held ->
    forall w', Forall2 (shows w') (map (weaken 0) hs) held.
  Proof.
    intros F w'. induction F as [|h r hs held H F IH]; cbn; constructor; auto.
    intros Q. cbn in Q. rewrite andb_false_r in Q. discriminate.
  Qed.

  Lemma step_values types o s r s' wh : v_step types o s r s' -> same_world s wh ->
    exists wh', ob_step grow (Some types) o wh = Ok (r, wh') /\ same_world s' wh'.
  Proof.
    destruct wh as [w held]. intros V (O & E & F). cbn [fst snd] in *.
    destruct V as [os hs|n t os hs|n os hs before x after Sp|n os hs N|k os hs h I Sf|k os hs h I Sf]; cbn [fst snd] in *; subst os; cbn [ob_step].
    - exists (w, held ++ py_objects w). split.
      + unfold py_objects, the_objects. rewrite !map_length, seq_length. reflexivity.
      + split; [exact O|]. split; [reflexivity|]. cbn [fst snd]. apply Forall2_app; auto. apply all_shown; auto.
    - destruct (add_ok types n t w O) as (w' & Q & O' & E' & _). rewrite Q. cbn [bind]. eexists. split; [reflexivity|].
      split; [exact O'|]. split; [exact E'|]. cbn [fst snd]. eapply weaken_zero; eauto.
    - eexists. split; [reflexivity|]. pose proof (remove_ok n w O) as O'.
      destruct (remove_cases n w) as [(N & Q)|(l1 & s & l2 & El & Sp' & Q)].
      + exfalso. apply N. destruct Sp as (-> & <- & _). rewrite map_app. apply in_app_iff. right. left. auto.
      + destruct (splits_fun _ _ _ _ _ _ _ _ Sp Sp') as (-> & -> & ->). split; [exact O'|]. cbn [fst snd]. rewrite Q.
        split; [unfold the_objects; cbn [ow_slots]; apply map_app|].
        clear -F El. induction F as [|h r hs held H F IH]; cbn [map]; constructor; auto.
        intros Z. cbn [weaken hd_safe hd_at hd_obj] in *. apply andb_true_iff in Z as [Z K]. apply Nat.ltb_lt in K.
        destruct (H Z) as [-> N]. split; auto. unfold the_objects in *. cbn [ow_slots]. rewrite El, map_app in N.
        rewrite nth_error_app1 in N by auto. rewrite map_app, nth_error_app1 by auto. exact N.
    - eexists. split; [reflexivity|]. destruct (remove_cases n w) as [(_ & ->)|(l1 & s & l2 & _ & (Q & Q' & _) & _)].
      + split; [exact O|split; auto].
      + exfalso. apply N. rewrite Q, map_app. apply in_app_iff. right. left. auto.
    - destruct (f2_at _ _ _ _ _ F I) as (ref & -> & H). destruct (H Sf) as [-> N]. rewrite ref_name_nth, N by auto.
      eexists. split; [reflexivity|]. split; [exact O|split; auto].
    - destruct (f2_at _ _ _ _ _ F I) as (ref & -> & H). destruct (H Sf) as [-> N]. rewrite ref_type_nth, N.
      eexists. split; [reflexivity|]. split; [exact O|split; auto].
  Qed.

  Lemma run_values types ops s rs s' : v_run types ops s rs s' -> forall wh, same_world s wh ->
    exists wh', ob_run grow (Some types) ops wh = Ok (rs, wh') /\ same_world s' wh'.
  Proof.
    induction 1 as [s|o ops s r s1 rs s2 V R IH]; intros wh W.
    - exists wh. auto.
    - destruct (step_values _ _ _ _ _ _ V W) as (wh1 & E & W1). destruct (IH _ W1) as (wh2 & E2 & W2).
      exists wh2. split; auto. cbn [ob_run]. rewrite E. cbn [bind]. rewrite E2. reflexivity.
  Qed.

  Lemma C83_values_lemma types w ops rs os hs : world_ok w -> v_run types ops (the_objects w, []) rs (os, hs) ->
    exists w' held, ob_run grow (Some types) ops (w, []) = Ok (rs, (w', held)) /\ the_objects w' = os /\ world_ok w'.
  Proof.
    intros O R. destruct (run_values _ _ _ _ _ R (w, [])) as ([w' held] & E & O' & Q & _).
    - split; [exact O|]. split; [reflexivity|constructor].
    - exists w', held. auto.
  Qed.

  (** ** The list of objects is that of Objects.v *)
  Lemma erase_absent n l : ~ In n (map oname l) -> erase_first n l = l.
  Proof.
    induction l as [|o l IH]; cbn; auto. intros N. destruct (String.eqb_spec (oname o) n); [tauto|]. rewrite IH; auto.
  Qed.
  Lemma erase_splits n l b o a : splits n l b o a -> erase_first n l = b ++ a.
  Proof.
    intros (-> & E & N). induction b as [|x b IH]; cbn in *.
    - rewrite E, String.eqb_refl. auto.
    - destruct (String.eqb_spec (oname x) n); [tauto|]. rewrite IH; auto.
  Qed.

  Lemma edit_objects types e w ed ed' : world_ok w -> the_objects w = pd_objects (ed_pddl ed) ->
    do_edit types ed e = Ok ed' -> exists w', ow_edit grow types w e = Ok w' /\ world_ok w' /\
      the_objects w' = pd_objects (ed_pddl ed').
  Proof.
    intros O E. destruct e as [n t|n]; cbn [do_edit ow_edit].
    - intros [= <-]. destruct (add_ok types n t w O) as (w' & Q & O' & E' & _). exists w'. split; [auto|split; [exact O'|]].
      rewrite E', E. reflexivity.
    - intros [= <-]. eexists. split; [reflexivity|]. split; [apply remove_ok; auto|]. unfold remove_object.
      destruct (remove_cases n w) as [(N & ->)|(l1 & s & l2 & El & Sp & ->)].
      + rewrite E in N. replace (existsb _ _) with false; auto. symmetry. apply not_true_is_false. intros Q.
        apply existsb_exists in Q. destruct Q as (x & I & Q). apply String.eqb_eq in Q. apply N. rewrite <- Q. apply in_map; auto.
      + rewrite E in Sp. replace (existsb _ _) with true.
        2: { symmetry. destruct Sp as (-> & Q & _). apply existsb_exists. exists (sl_obj s).
             split; [apply in_app_iff; right; left; auto|apply String.eqb_eq; auto]. }
        cbn [ed_pddl pd_objects]. rewrite (erase_splits _ _ _ _ _ Sp). unfold the_objects. cbn [ow_slots]. apply map_app.
  Qed.

  Lemma C83_edits_lemma types es : forall w ed ed', world_ok w -> the_objects w = pd_objects (ed_pddl ed) ->
    do_edits types es ed = Ok ed' -> exists w', foldM (ow_edit grow types) es w = Ok w' /\ world_ok w' /\
      the_objects w' = pd_objects (ed_pddl ed').
  Proof.
    unfold do_edits. induction es as [|e es IH]; intros w ed ed' O E; cbn [foldM].
    - intros [= <-]. exists w. auto.
    - destruct (do_edit types ed e) as [ed1| | | |] eqn:Q; cbn [bind]; try discriminate. intros R.
      destruct (edit_objects _ _ _ _ _ O E Q) as (w1 & Q1 & O1 & E1). rewrite Q1. cbn [bind]. eapply IH; eauto.
  Qed.

  (** ** One edit *)
  Lemma C83_removed_lemma w n before o after i : world_ok w -> splits n (the_objects w) before o after ->
    ref_name (ow_remove n w) (ow_buffer w, i) =
      match nth_error (before ++ after) i with Some x => Ok (oname x) | None => UB end /\
    ref_type (ow_remove n w) (ow_buffer w, i) =
      match nth_error (before ++ after) i with Some x => Ok (type_name (otype x)) | None => UB end.
  Proof.
    intros O Sp. pose proof (remove_ok n w O) as O'.
    destruct (remove_cases n w) as [(N & Q)|(l1 & s & l2 & El & Sp' & Q)].
    - exfalso. apply N. destruct Sp as (-> & <- & _). rewrite map_app. apply in_app_iff. right. left. auto.
    - destruct (splits_fun _ _ _ _ _ _ _ _ Sp Sp') as (-> & -> & ->).
      assert (B : ow_buffer (ow_remove n w) = ow_buffer w) by (rewrite Q; auto).
      rewrite <- B, ref_name_nth, ref_type_nth by auto.
      replace (the_objects (ow_remove n w)) with (map sl_obj l1 ++ map sl_obj l2); auto.
      rewrite Q. unfold the_objects. cbn [ow_slots]. symmetry. apply map_app.
  Qed.

  Lemma C83_added_lemma types w n t w' r : world_ok w -> ow_add grow (Some types) n t w = Ok w' -> In r (py_objects w) ->
    (length (the_objects w) = ow_capacity w -> ref_name w' r = UB /\ ref_type w' r = UB) /\
    (length (the_objects w) < ow_capacity w -> ref_name w' r = ref_name w r /\ ref_type w' r = ref_type w r).
  Proof.
    intros O A I. destruct (add_ok types n t w O) as (w1 & Q & O' & E & B). rewrite A in Q. injection Q as <-.
    assert (L : length (the_objects w) = length (ow_slots w)) by (unfold the_objects; apply map_length). rewrite L.
    unfold py_objects in I. apply in_map_iff in I. destruct I as (i & <- & I). apply in_seq in I. split; intros H.
    - apply Nat.eqb_eq in H. rewrite H in B. apply ref_gone. lia.
    - destruct (Nat.eqb_spec (length (ow_slots w)) (ow_capacity w)) as [Z|_]; [lia|]. destruct B as [B _].
      rewrite <- B at 1 3. rewrite !ref_name_nth, !ref_type_nth, E, nth_error_app1 by (auto; lia). auto.
  Qed.

  (** ** Loops *)
  Lemma remove_length n w : In n (map oname (the_objects w)) ->
    S (length (ow_slots (ow_remove n w))) = length (ow_slots w) /\ ow_buffer (ow_remove n w) = ow_buffer w.
  Proof.
    intros I. destruct (remove_cases n w) as [(N & _)|(l1 & s & l2 & E & _ & ->)]; [tauto|].
    cbn. rewrite E, !app_length. cbn. split; auto.
  Qed.

  Lemma clear_loop m : forall j w, world_ok w -> length (ow_slots w) = m -> 1 <= m -> 2 <= j + m ->
    remove_each (map (fun i => (ow_buffer w, i)) (seq j m)) w = UB.
  Proof.
    induction m as [|m IH]; intros j w O L H H2; [lia|]. cbn [seq map remove_each foldM]. rewrite ref_name_nth by auto.
    destruct (nth_error (the_objects w) j) as [o|] eqn:E; cbn [bind]; auto.
    assert (J : j < S m). { rewrite <- L. assert (K : nth_error (the_objects w) j <> None) by congruence.
      apply nth_error_Some in K. unfold the_objects in K. rewrite map_length in K. auto. }
    destruct (remove_length (oname o) w) as [L' B']; [apply in_map; eapply nth_error_In; eauto|].
    rewrite <- B'. apply IH; [apply remove_ok; auto|lia|lia|lia].
  Qed.

  Lemma C83_clear_lemma w : world_ok w -> 2 <= length (the_objects w) -> remove_each (py_objects w) w = UB.
  Proof.
    intros O H. unfold the_objects in H. rewrite map_length in H. unfold py_objects. apply clear_loop; auto; lia.
  Qed.

  Lemma clear_back l : forall w, world_ok w -> the_objects w = l -> NoDup (map oname l) ->
    exists w', remove_each (map (fun i => (ow_buffer w, i)) (rev (seq 0 (length l)))) w = Ok w' /\ the_objects w' = [].
  Proof.
    induction l as [|o l IH] using rev_ind; intros w O E N.
    - exists w. auto.
    - rewrite app_length, Nat.add_comm. cbn [length plus]. rewrite seq_S, rev_app_distr. cbn [rev app map remove_each foldM plus].
      rewrite ref_name_nth, E, nth_error_app2, Nat.sub_diag by auto. cbn [nth_error bind].
      rewrite map_app in N. cbn [map] in N. pose proof (NoDup_remove_2 _ _ _ N) as N2. apply NoDup_remove_1 in N.
      rewrite app_nil_r in N, N2.
      assert (Sp : splits (oname o) (the_objects w) l o []) by (rewrite E; repeat split; auto).
      destruct (remove_cases (oname o) w) as [(X & Q)|(l1 & s & l2 & El & Sp' & Q)].
      + exfalso. apply X. rewrite E, map_app. apply in_app_iff. right. left. auto.
      + destruct (splits_fun _ _ _ _ _ _ _ _ Sp Sp') as (E1 & _ & E2).
        assert (B : ow_buffer (ow_remove (oname o) w) = ow_buffer w) by (rewrite Q; auto).
        rewrite <- B. apply IH; auto; [apply remove_ok; auto|].
        rewrite Q. unfold the_objects. cbn [ow_slots]. rewrite map_app, <- E1, <- E2, app_nil_r. auto.
  Qed.

  Lemma C83_reversed_lemma w : world_ok w -> NoDup (map oname (the_objects w)) ->
    exists w', remove_each (rev (py_objects w)) w = Ok w' /\ the_objects w' = [].
  Proof.
    intros O N. unfold py_objects. rewrite <- map_rev. destruct (clear_back _ w O eq_refl N) as (w' & E & Q).
    unfold the_objects in E. rewrite map_length in E. eauto.
  Qed.

  Lemma names_lemma w : world_ok w -> mapM (ref_name w) (py_objects w) = Ok (map oname (the_objects w)).
  Proof.
    intros O. unfold py_objects.
    assert (L : length (the_objects w) = length (ow_slots w)) by (unfold the_objects; apply map_length).
    rewrite <- L. clear L.
    assert (K : forall os k, (forall i, nth_error os i = nth_error (the_objects w) (k + i)) ->
      mapM (ref_name w) (map (fun i => (ow_buffer w, i)) (seq k (length os))) = Ok (map oname os)).
    { induction os as [|o os IH]; intros k H; cbn [length seq map mapM]; auto.
      rewrite ref_name_nth by auto. rewrite <- (Nat.add_0_r k) at 1. rewrite <- H. cbn [nth_error bind].
      rewrite IH; auto. intros i. rewrite Nat.add_succ_comm, <- H. auto. }
    apply (K _ 0). auto.
  Qed.

  Lemma C83_names_lemma w : world_ok w -> exists names, mapM (ref_name w) (py_objects w) = Ok names /\
    the_objects (fold_left (fun w n => ow_remove n w) names w) = [].
  Proof.
    intros O. exists (map oname (the_objects w)). split; [apply names_lemma; auto|]. clear O.
    remember (the_objects w) as os eqn:E. revert w E. induction os as [|o os IH]; intros w E; cbn [map fold_left]; auto.
    apply IH. destruct (remove_cases (oname o) w) as [(X & Q)|(l1 & s & l2 & El & Sp & Q)].
    - exfalso. apply X. rewrite <- E. left. auto.
    - rewrite <- E in Sp. destruct Sp as (Z & Y & N). rewrite Q. unfold the_objects. cbn [ow_slots]. rewrite map_app.
      destruct l1 as [|x l1]; cbn [map app] in *.
      + injection Z as _ ->. auto.
      + injection Z as -> _. exfalso. apply N. left. auto.
  Qed.

  Lemma copy_loop types f ty m : forall j w os, world_ok w -> j + m <= length (ow_slots w) ->
    os = firstn m (skipn j (the_objects w)) ->
    (m <> 0 -> ow_capacity w + 1 < length (ow_slots w) + m ->
       add_each grow (Some types) f ty (map (fun i => (ow_buffer w, i)) (seq j m)) w = UB) /\
    (m = 0 \/ length (ow_slots w) + m <= ow_capacity w + 1 ->
       exists w', add_each grow (Some types) f ty (map (fun i => (ow_buffer w, i)) (seq j m)) w = Ok w' /\
         the_objects w' = the_objects w ++ map (fun o => new_obj types (f (oname o)) ty) os).
  Proof.
    induction m as [|m IH]; intros j w os O J E.
    - split; [tauto|]. intros _. exists w. subst os. cbn. rewrite app_nil_r. auto.
    - assert (L : length (the_objects w) = length (ow_slots w)) by (unfold the_objects; apply map_length).
      cbn [seq map add_each foldM]. rewrite ref_name_nth by auto.
      destruct (nth_error (the_objects w) j) as [o|] eqn:N; [|apply nth_error_None in N; lia]. cbn [bind].
      assert (E' : os = o :: firstn m (skipn (S j) (the_objects w))).
      { subst os. clear -N. revert j N. induction (the_objects w) as [|x l IHl]; intros [|j] N; cbn in *; try discriminate.
        - injection N as ->. auto.
        - apply IHl; auto. }
      destruct (add_ok types (f (oname o)) ty w O) as (w1 & Q & O1 & E1 & B). rewrite Q. cbn [bind].
      assert (L1 : length (ow_slots w1) = S (length (ow_slots w))).
      { rewrite <- L. unfold the_objects in *. rewrite <- (map_length sl_obj), E1, app_length. cbn. lia. }
      pose proof (wo_fits w O) as Fw.
      destruct (Nat.eqb_spec (length (ow_slots w)) (ow_capacity w)) as [Z|Z].
      + destruct m as [|m].
        * split; [lia|]. intros _. exists w1. cbn. split; auto. rewrite E1, E'. cbn. auto.
        * split; [|lia]. intros _ _. cbn [seq map foldM]. destruct (ref_gone w1 (ow_buffer w) (S j)) as [-> _]; [lia|]. auto.
      + destruct B as [B C]. rewrite <- B.
        destruct (IH (S j) w1 (firstn m (skipn (S j) (the_objects w)))) as [U K]; auto; [lia| |].
        { rewrite E1, skipn_app, firstn_app.
          replace (m - length (skipn (S j) (the_objects w))) with 0 by (rewrite skipn_length; lia).
          rewrite firstn_O, app_nil_r. auto. }
        split.
        * intros _ H. apply U; lia.
        * intros H. destruct K as (w' & K1 & K2); [destruct m; [left; auto|right; lia]|].
          exists w'. split; auto. rewrite K2, E1, E'. cbn [map]. rewrite <- app_assoc. auto.
  Qed.

  Lemma C83_copy_lemma types f ty w : world_ok w ->
    (ow_capacity w + 1 < 2 * length (the_objects w) ->
       add_each grow (Some types) f ty (py_objects w) w = UB) /\
    (2 * length (the_objects w) <= ow_capacity w + 1 ->
       exists w', add_each grow (Some types) f ty (py_objects w) w = Ok w' /\
         the_objects w' = the_objects w ++ map (fun o => new_obj types (f (oname o)) ty) (the_objects w)).
  Proof.
    intros O. assert (L : length (the_objects w) = length (ow_slots w)) by (unfold the_objects; apply map_length).
    destruct (copy_loop types f ty (length (ow_slots w)) 0 w (the_objects w) O) as [U K]; [lia| |].
    - cbn [skipn]. rewrite <- L, firstn_all. auto.
    - unfold py_objects. split; intros H; [apply U; lia|apply K; right; lia].
  Qed.
End Growth.

Lemma new_world_ok objects c : length objects <= c ->
  world_ok (new_world objects c) /\ the_objects (new_world objects c) = objects.
Proof.
  intros H. unfold new_world.
  assert (K : forall os k, map sl_sym (map (fun io => mkSlot (fst io) (snd io)) (combine (seq k (length os)) os)) = seq k (length os) /\
    map sl_obj (map (fun io => mkSlot (fst io) (snd io)) (combine (seq k (length os)) os)) = os).
  { induction os as [|o os IH]; intros k; cbn; auto. destruct (IH (S k)) as [-> ->]. auto. }
  destruct (K objects 0) as [K1 K2]. split; [|exact K2]. constructor; cbn [ow_slots ow_buffer ow_capacity ow_next ow_deleted].
  - rewrite map_length, combine_length, seq_length. lia.
  - rewrite K1. apply seq_NoDup.
  - intros s I. apply (in_map sl_sym) in I. rewrite K1 in I. apply in_seq in I. lia.
  - intros s _ [].
  - intros k [].
Qed.
