(** Normal forms: meaning of the operations of normal_form.cc (C52-C54). *)
From Coq Require Import String List Bool NArith ZArith Arith Lia Permutation.
From Verif.Model Require Import Base Order HashSet Object Proposition State CombinationGenerator
  ParameterGenerator Syntax Formula NormalForm.
From Verif.Spec Require Import SetSpec CartesianSpec TypingSpec FormulaSpec NormalFormSpec.
From Verif.Proofs Require Import OrderFacts HashSetFacts StateFacts StateHistory CombinationFacts ParameterFacts
  FormulaFacts.
Import ListNotations.
Local Open Scope string_scope.
Local Open Scope list_scope.

Section WithHash.
  Context `{SH : StdHash}.

  (** ** Sets of propositions *)

  Lemma insert_elements p s q : st_wf s ->
    In q (st_elements (snd (st_insert p s))) -> q = p \/ In q (st_elements s).
  Proof.
    intros W I.
    destruct (hs_insert_spec prop_key atom_dec _ _ _ prop_ltb_ok prop_eqb_ok prop_hash_key p s W)
      as [[C E]|(C & s' & E & W' & P)].
    - unfold st_insert in I. rewrite E in I. auto.
    - unfold st_insert in I. rewrite E in I. cbn in I.
      apply (Permutation_in _ P) in I. destruct I; auto.
  Qed.

  Lemma of_list_one p : st_wf (st_of_list [p]) /\ st_elements (st_of_list [p]) = [p].
  Proof.
    assert (E : st_of_list [p] = snd (st_insert p st_empty)) by reflexivity.
    pose proof st_empty_wf as W.
    destruct (hs_insert_spec prop_key atom_dec _ _ _ prop_ltb_ok prop_eqb_ok prop_hash_key p st_empty W)
      as [[C H]|(C & s' & H & W' & P)].
    - change (st_contains st_empty p = true) in C. apply contains_mem in C; auto. destruct C.
    - rewrite E. unfold st_insert. rewrite H. cbn. split; auto.
      apply Permutation_sym, Permutation_length_1_inv in P. exact P.
  Qed.

  Lemma insert_range_spec l : forall s, st_wf s ->
    st_wf (snd (st_insert_range l s)) /\
    (forall a, mem (snd (st_insert_range l s)) a <-> In a (map prop_key l) \/ mem s a) /\
    (forall q, In q (st_elements (snd (st_insert_range l s))) -> In q l \/ In q (st_elements s)).
  Proof.
    unfold st_insert_range. generalize false.
    induction l as [|p l IH]; intros b s W; cbn [fold_left map In snd].
    - split; auto. split; [intros a; tauto|auto].
    - destruct (st_insert p s) as [c s'] eqn:E. cbn [fst snd].
      replace s' with (snd (st_insert p s)) in * by (rewrite E; auto).
      destruct (insert_spec p s W) as (W' & _ & M & _).
      destruct (IH (b || c) (snd (st_insert p s)) W') as (W2 & M2 & I2). split; [|split].
      + rewrite E in *. exact W2.
      + intros a. rewrite M2, M. intuition (subst; auto).
      + intros q I. apply I2 in I. destruct I as [I|I]; auto.
        apply insert_elements in I; auto. destruct I; auto.
  Qed.

  (** ** Conjunctions *)

  Definition lits (c : partial_state) : list prop := st_elements (ps_pos c) ++ st_elements (ps_neg c).

  Lemma conj_sat_mem V c : conj_sat V c <->
    (forall a, mem (ps_pos c) a -> V a) /\ (forall a, mem (ps_neg c) a -> ~ V a).
  Proof.
    unfold conj_sat, mem. split; intros [P N]; split.
    - intros a I. apply in_map_iff in I. destruct I as (p & <- & I). auto.
    - intros a I. apply in_map_iff in I. destruct I as (p & <- & I). auto.
    - intros p I. apply P, in_map; auto.
    - intros p I. apply N, in_map; auto.
  Qed.

  Definition lit_incl (c d : partial_state) : Prop :=
    (forall a, mem (ps_pos c) a -> mem (ps_pos d) a) /\ (forall a, mem (ps_neg c) a -> mem (ps_neg d) a).

  Lemma incl_size s t : st_wf s -> st_wf t -> (forall a, mem s a -> mem t a) -> st_size s <= st_size t.
  Proof.
    intros Ws Wt I. rewrite !st_size_elements by auto.
    rewrite <- (map_length prop_key (st_elements s)), <- (map_length prop_key (st_elements t)).
    apply NoDup_incl_length; [apply st_nodup; auto|exact I].
  Qed.

  Lemma is_subset_spec c d : ps_wf c -> ps_wf d -> is_subset c d = true <-> lit_incl c d.
  Proof.
    intros [Wp Wn] [Wp' Wn']. unfold is_subset, lit_incl.
    assert (K : forall s t, st_wf t -> forallb (st_contains t) (st_elements s) = true <->
                  (forall a, mem s a -> mem t a)).
    { intros s t W. rewrite forallb_forall. split.
      - intros F a M. apply mem_exists in M. destruct M as (p & I & <-). apply contains_mem; auto.
      - intros F p I. apply contains_mem; auto. apply F. unfold mem. apply in_map; auto. }
    destruct (Nat.ltb_spec (ps_size d) (ps_size c)) as [L|L].
    - split; [discriminate|]. intros [P N]. unfold ps_size in L.
      pose proof (incl_size _ _ Wp Wp' P). pose proof (incl_size _ _ Wn Wn' N). lia.
    - rewrite andb_true_iff, !K by auto. tauto.
  Qed.

  Lemma lit_incl_sat V c d : lit_incl c d -> conj_sat V d -> conj_sat V c.
  Proof. rewrite !conj_sat_mem. intros [P N] [P' N']. split; auto. Qed.

  Lemma ps_eqb_mem c d : ps_eqb c d = true -> lit_incl c d /\ lit_incl d c.
  Proof.
    unfold ps_eqb, lit_incl. rewrite andb_true_iff. intros [P N].
    assert (K : forall s t, st_eqb s t = true -> forall a, mem s a <-> mem t a).
    { intros s t E a. apply st_eqb_keys in E. unfold mem, st_elements, hs_elements.
      rewrite !concat_map, E. tauto. }
    pose proof (K _ _ P). pose proof (K _ _ N). repeat split; firstorder.
  Qed.

  Lemma ps_eqb_sat V c d : ps_eqb c d = true -> conj_sat V c <-> conj_sat V d.
  Proof. intros E. destruct (ps_eqb_mem _ _ E). split; apply lit_incl_sat; auto. Qed.

  Lemma ps_eqb_refl c : ps_eqb c c = true.
  Proof. apply ps_eqb_keys; auto. Qed.
  Lemma ps_eqb_sym c d : ps_eqb c d = true -> ps_eqb d c = true.
  Proof. rewrite !ps_eqb_keys. auto. Qed.
  Lemma ps_eqb_trans a b c : ps_eqb a b = true -> ps_eqb b c = true -> ps_eqb a c = true.
  Proof. rewrite !ps_eqb_keys. intros -> ->. auto. Qed.

  Lemma incl_eqb c d : ps_wf c -> ps_wf d -> lit_incl c d -> lit_incl d c -> ps_eqb c d = true.
  Proof.
    intros [Wp Wn] [Wp' Wn'] [P N] [P' N']. unfold ps_eqb. apply andb_true_iff.
    split; apply st_eqb_spec; auto; intros a; split; auto.
  Qed.

  (** ** SortUnique *)

  Lemma sort_insert_perm c l : Permutation (sort_insert c l) (c :: l).
  Proof.
    induction l as [|d l IH]; cbn; auto. destruct (ps_ltb d c); auto.
    rewrite IH. apply perm_swap.
  Qed.
  Lemma sort_perm l : Permutation (sort l) l.
  Proof. induction l as [|c l IH]; cbn; auto. rewrite sort_insert_perm, IH. auto. Qed.

  Inductive sorted_by (R : partial_state -> partial_state -> Prop) : dnf -> Prop :=
  | sb_nil : sorted_by R []
  | sb_cons c l : Forall (R c) l -> sorted_by R l -> sorted_by R (c :: l).

  Definition leq (c d : partial_state) : Prop := ps_ltb d c = false.
  Definition lt (c d : partial_state) : Prop := ps_ltb c d = true.

  Lemma pskey_dec : forall a b : list (list atom) * list (list atom), {a = b} + {a <> b}.
  Proof. intros [a b] [c d]. decide equality; apply statekey_dec. Qed.

  Lemma ltb_trichotomy c d : lt c d \/ ps_eqb c d = true \/ lt d c.
  Proof.
    destruct (pskey_dec (statekey (ps_pos c), statekey (ps_neg c)) (statekey (ps_pos d), statekey (ps_neg d))) as [E|N].
    - right; left. apply ps_eqb_keys; auto.
    - destruct (ord_total _ _ ps_ltb_ok _ _ N); unfold lt; auto.
  Qed.
  Lemma leq_cases c d : leq c d <-> lt c d \/ ps_eqb c d = true.
  Proof.
    unfold leq. split.
    - intros H. destruct (ltb_trichotomy c d) as [T|[T|T]]; auto. unfold lt in T. congruence.
    - intros [H|H].
      + apply (ord_asym _ _ ps_ltb_ok); auto.
      + apply ps_eqb_keys in H. apply (ord_irrefl _ _ ps_ltb_ok); auto.
  Qed.
  Lemma lt_trans a b c : lt a b -> lt b c -> lt a c.
  Proof. apply (ord_trans _ _ ps_ltb_ok). Qed.
  Lemma lt_eq_l a b c : ps_eqb a b = true -> lt b c -> lt a c.
  Proof. intros E H. unfold lt. apply ps_eqb_keys in E. rewrite (ord_resp_l _ _ ps_ltb_ok a b c E). exact H. Qed.
  Lemma lt_eq_r a b c : lt a b -> ps_eqb b c = true -> lt a c.
  Proof. intros H E. unfold lt. apply ps_eqb_keys in E. rewrite <- (ord_resp_r _ _ ps_ltb_ok a b c E). exact H. Qed.
  Lemma leq_trans a b c : leq a b -> leq b c -> leq a c.
  Proof.
    rewrite !leq_cases. intros [H|H] [K|K].
    - left; eapply lt_trans; eauto.
    - left; eapply lt_eq_r; eauto.
    - left; eapply lt_eq_l; eauto.
    - right; eapply ps_eqb_trans; eauto.
  Qed.
  Lemma lt_neq a b : lt a b -> ps_eqb a b = false.
  Proof.
    intros H. destruct (ps_eqb a b) eqn:E; auto. apply ps_eqb_keys in E.
    unfold lt in H. rewrite (ord_irrefl _ _ ps_ltb_ok a b E) in H. discriminate.
  Qed.

  Lemma sort_insert_sorted c l : sorted_by leq l -> sorted_by leq (sort_insert c l).
  Proof.
    induction 1 as [|d l F S IH]; cbn.
    - constructor; constructor.
    - destruct (ps_ltb d c) eqn:E.
      + constructor; auto. rewrite Forall_forall in *. intros x I.
        apply (Permutation_in _ (sort_insert_perm c l)) in I. destruct I as [<-|I]; auto.
        apply leq_cases. left. exact E.
      + constructor; [|constructor; auto]. constructor; auto.
        rewrite Forall_forall in *. intros x I. apply (leq_trans _ d); auto.
  Qed.
  Lemma sort_sorted l : sorted_by leq (sort l).
  Proof. induction l; cbn; [constructor|]. apply sort_insert_sorted; auto. Qed.

  Lemma unique_from_In c l x : In x (unique_from c l) -> In x (c :: l).
  Proof.
    revert c. induction l as [|d l IH]; intros c I; cbn in *; auto.
    destruct (ps_eqb c d).
    - apply IH in I. cbn in I. intuition.
    - destruct I as [I|I]; auto.
  Qed.
  Lemma unique_from_covers c l x : In x (c :: l) -> exists y, In y (unique_from c l) /\ ps_eqb x y = true.
  Proof.
    revert c x. induction l as [|d l IH]; intros c x I; cbn [unique_from].
    - destruct I as [<-|[]]. exists c. split; [left; auto|apply ps_eqb_refl].
    - destruct (ps_eqb c d) eqn:E.
      + destruct I as [<-|[<-|I]].
        * exact (IH c c (or_introl eq_refl)).
        * destruct (IH c c (or_introl eq_refl)) as (y & J & Q). exists y. split; auto.
          eapply ps_eqb_trans; [apply ps_eqb_sym; exact E|exact Q].
        * exact (IH c x (or_intror I)).
      + destruct I as [<-|I].
        * exists c. split; [left; auto|apply ps_eqb_refl].
        * destruct (IH d x I) as (y & J & Q). exists y. split; [right|]; auto.
  Qed.
  Lemma unique_from_sorted c l : sorted_by leq (c :: l) -> sorted_by lt (unique_from c l).
  Proof.
    revert c. induction l as [|d l IH]; intros c S; cbn.
    - repeat constructor.
    - inversion S as [|? ? F S']; subst. inversion S' as [|? ? F' S2]; subst.
      inversion F as [|? ? L F2]; subst. destruct (ps_eqb c d) eqn:E.
      + apply IH. constructor; auto.
      + constructor; auto. rewrite Forall_forall. intros x I. apply unique_from_In in I.
        apply leq_cases in L. destruct L as [L|L]; [|congruence].
        destruct I as [<-|I]; auto. rewrite Forall_forall in F'. specialize (F' _ I).
        apply leq_cases in F'. destruct F' as [H|H]; [eapply lt_trans|eapply lt_eq_r]; eauto.
  Qed.

  Lemma sort_unique_In l x : In x (sort_unique l) -> In x l.
  Proof.
    unfold sort_unique, unique. intros I. apply (Permutation_in _ (sort_perm l)).
    destruct (sort l) as [|c l']; auto. apply unique_from_In; auto.
  Qed.
  Lemma sort_unique_covers l x : In x l -> exists y, In y (sort_unique l) /\ ps_eqb x y = true.
  Proof.
    intros I. apply (Permutation_in _ (Permutation_sym (sort_perm l))) in I.
    unfold sort_unique, unique. destruct (sort l) as [|c l']; [destruct I|]. apply unique_from_covers; auto.
  Qed.
  Lemma sort_unique_sorted l : sorted_by lt (sort_unique l).
  Proof.
    unfold sort_unique, unique. pose proof (sort_sorted l) as S. destruct (sort l); [constructor|].
    apply unique_from_sorted; auto.
  Qed.
  Lemma sort_unique_sat V l : list_sat V (sort_unique l) <-> list_sat V l.
  Proof.
    split; intros (c & I & H).
    - exists c. split; auto. apply sort_unique_In; auto.
    - destruct (sort_unique_covers l c I) as (y & J & E). exists y. split; auto.
      apply (ps_eqb_sat _ _ _ E); auto.
  Qed.

  (** ** TryInsertSubset *)

  Definition antichain (l : dnf) : Prop :=
    forall c d, In c l -> In d l -> lit_incl c d -> ps_eqb c d = true.

  Definition inserted (c : partial_state) (l : dnf) : dnf :=
    let '(b, l') := try_insert_subset c l in if b then l' else l' ++ [c].

  Lemma inserted_In c l x : In x (inserted c l) -> x = c \/ In x l.
  Proof.
    unfold inserted, try_insert_subset. destruct (existsb _ l); auto. destruct (existsb _ l).
    - intros I. apply sort_unique_In in I. apply in_map_iff in I. destruct I as (d & <- & I).
      destruct (is_subset c d); auto.
    - rewrite in_app_iff. cbn. intuition.
  Qed.

  Lemma inserted_sat V c l : ps_wf c -> Forall ps_wf l ->
    list_sat V (inserted c l) <-> list_sat V l \/ conj_sat V c.
  Proof.
    intros W Wl. rewrite Forall_forall in Wl. unfold inserted, try_insert_subset.
    destruct (existsb (fun d => is_subset d c) l) eqn:E1.
    - split; auto. intros [H|H]; auto. apply existsb_exists in E1. destruct E1 as (d & I & E).
      apply is_subset_spec in E; auto. exists d. split; auto. eapply lit_incl_sat; eauto.
    - destruct (existsb (is_subset c) l) eqn:E2.
      + rewrite sort_unique_sat. split.
        * intros (x & I & H). apply in_map_iff in I. destruct I as (d & <- & I).
          destruct (is_subset c d); auto. left. exists d; auto.
        * intros [(d & I & H)|H].
          -- exists (if is_subset c d then c else d). split; [apply in_map_iff; eauto|].
             destruct (is_subset c d) eqn:E; auto. apply is_subset_spec in E; auto. eapply lit_incl_sat; eauto.
          -- apply existsb_exists in E2. destruct E2 as (d & I & E). exists c. split; auto.
             apply in_map_iff. exists d. rewrite E. auto.
      + split.
        * intros (d & I & H). apply in_app_iff in I. destruct I as [I|[<-|[]]]; auto. left; exists d; auto.
        * intros [(d & I & H)|H]; [exists d|exists c]; rewrite in_app_iff; cbn; auto.
  Qed.

  Lemma inserted_antichain c l : ps_wf c -> Forall ps_wf l -> antichain l -> antichain (inserted c l).
  Proof.
    intros W Wl A. rewrite Forall_forall in Wl. unfold inserted, try_insert_subset.
    destruct (existsb (fun d => is_subset d c) l) eqn:E1; auto.
    assert (N1 : forall d, In d l -> ~ lit_incl d c).
    { intros d I H. apply is_subset_spec in H; auto.
      assert (existsb (fun d => is_subset d c) l = true) by (apply existsb_exists; eauto). congruence. }
    destruct (existsb (is_subset c) l) eqn:E2.
    - intros x y Ix Iy H. apply sort_unique_In in Ix. apply sort_unique_In in Iy.
      apply in_map_iff in Ix. destruct Ix as (d & <- & Ix).
      apply in_map_iff in Iy. destruct Iy as (d' & <- & Iy).
      destruct (is_subset c d) eqn:Ed, (is_subset c d') eqn:Ed'.
      + apply ps_eqb_refl.
      + apply is_subset_spec in H; auto. congruence.
      + exfalso. exact (N1 d Ix H).
      + apply A; auto.
    - assert (N2 : forall d, In d l -> ~ lit_incl c d).
      { intros d I H. apply is_subset_spec in H; auto.
        assert (existsb (is_subset c) l = true) by (apply existsb_exists; eauto). congruence. }
      intros x y Ix Iy H. apply in_app_iff in Ix. apply in_app_iff in Iy.
      destruct Ix as [Ix|[<-|[]]], Iy as [Iy|[<-|[]]].
      + apply A; auto.
      + exfalso. exact (N1 _ Ix H).
      + exfalso. exact (N2 _ Iy H).
      + apply ps_eqb_refl.
  Qed.

  Lemma inserted_nonempty c l : inserted c l <> [].
  Proof.
    unfold inserted, try_insert_subset. destruct (existsb (fun d => is_subset d c) l) eqn:E1.
    - intros ->. discriminate.
    - destruct (existsb (is_subset c) l) eqn:E2.
      + apply existsb_exists in E2. destruct E2 as (d & I & E). intros Q.
        destruct (sort_unique_covers (map (fun d => if is_subset c d then c else d) l) c) as (y & J & _).
        * apply in_map_iff. exists d. rewrite E. auto.
        * rewrite Q in J. destruct J.
      + destruct l; discriminate.
  Qed.

  (** ** Simplify *)
  Section Simplify.
    Variable om : object_map.
    Variable ax : axiom_check.
    (** Conjunctions the evaluation accepts, and valuations it is sound for. *)
    Variable good : partial_state -> Prop.
    Variable Val : (atom -> Prop) -> Prop.
    Hypothesis good_wf : forall c, good c -> ps_wf c.
    Hypothesis eval_total : forall c, good c -> exists v, evaluate om ax c = Ok v.
    Hypothesis eval_sound : forall c V b, good c -> Val V -> evaluate om ax c = Ok (Some b) ->
      b = true <-> conj_sat V c.

    Lemma loop_step c l ret : simplify_loop om ax (c :: l) ret =
      let* v := evaluate om ax c in
      match v with
      | None => simplify_loop om ax l (inserted c ret)
      | Some true => Ok None
      | Some false => simplify_loop om ax l ret
      end.
    Proof.
      cbn [simplify_loop]. destruct (evaluate om ax c) as [[[|]|]| | | |]; auto. cbn.
      unfold inserted. destruct (try_insert_subset c ret); auto.
    Qed.

    Lemma loop_ok l : forall ret, Forall good l -> Forall good ret ->
      exists r, simplify_loop om ax l ret = Ok r /\
        match r with
        | None => forall V, Val V -> list_sat V l
        | Some ret' =>
            incl ret' (l ++ ret) /\ (antichain ret -> antichain ret') /\
            (forall c, In c ret' -> In c ret \/ evaluate om ax c = Ok None) /\
            forall V, Val V -> list_sat V ret' <-> list_sat V l \/ list_sat V ret
        end.
    Proof.
      induction l as [|c l IH]; intros ret G Gr.
      - exists (Some ret). split; auto. split; [apply incl_refl|]. split; auto. split; auto.
        intros V _. split; auto. intros [(c & [] & _)|]; auto.
      - inversion G as [|? ? Gc Gl]; subst. rewrite loop_step.
        destruct (eval_total c Gc) as (v & E). pose proof (fun V b HV Q => eval_sound c V b Gc HV Q) as Sd.
        rewrite E in *. cbn [bind]. destruct v as [[|]|].
        + exists None. split; auto. intros V HV. exists c. split; [left; auto|]. apply (Sd V true); auto.
        + destruct (IH ret Gl Gr) as (r & -> & H). exists r. split; auto.
          assert (N : forall V, Val V -> ~ conj_sat V c).
          { intros V HV Q. apply (Sd V false HV eq_refl) in Q. discriminate. }
          assert (K : forall V, Val V -> list_sat V (c :: l) <-> list_sat V l).
          { intros V HV. split.
            - intros (d & [<-|I] & S); [destruct (N V HV S)|exists d; auto].
            - intros (d & I & S). exists d. split; [right|]; auto. }
          destruct r as [ret'|].
          * destruct H as (I & A & N' & S). split; [|split; [|split]]; auto.
            -- intros x Hx. cbn. apply I in Hx. auto.
            -- intros V HV. rewrite S, K by auto. tauto.
          * intros V HV. apply K; auto.
        + assert (Gi : Forall good (inserted c ret)).
          { rewrite Forall_forall in *. intros x I. apply inserted_In in I. destruct I as [->|I]; auto. }
          assert (Wr : Forall ps_wf ret) by (eapply Forall_impl; eauto).
          destruct (IH _ Gl Gi) as (r & -> & H). exists r. split; auto.
          destruct r as [ret'|].
          * destruct H as (I & A & N' & S). split; [|split; [|split]].
            -- intros x Hx. apply I in Hx. cbn. rewrite in_app_iff in *.
               destruct Hx as [Hx|Hx]; auto. apply inserted_In in Hx. destruct Hx; auto.
            -- intros AA. apply A, inserted_antichain; auto.
            -- intros x Hx. apply N' in Hx. destruct Hx as [Hx|Hx]; auto.
               apply inserted_In in Hx. destruct Hx as [->|Hx]; auto.
            -- intros V HV. rewrite S, inserted_sat by auto. split.
               ++ intros [(d & J & Q)|[H|H]]; auto; left; [exists d|exists c]; cbn; auto.
               ++ intros [(d & [<-|J] & Q)|H]; auto. left; exists d; auto.
          * intros V HV. destruct (H V HV) as (d & J & Q). exists d. split; [right|]; auto.
    Qed.

    Theorem simplify_ok d : Forall good d ->
      exists r, simplify om ax d = Ok r /\
        (forall V, Val V -> result_sat V r <-> dnf_sat V d) /\
        (forall d', r = Some d' -> incl d' d /\ sorted_by lt d' /\ antichain d' /\
           forall c, In c d' -> evaluate om ax c = Ok None).
    Proof.
      intros G. destruct d as [|c0 d0].
      - exists (Some []). split; auto. split; [intros; cbn; tauto|]. intros d' E. injection E as <-.
        split; [apply incl_refl|]. split; [constructor|]. split; [intros c d []|intros c []].
      - remember (c0 :: d0) as d eqn:D.
        assert (U : simplify om ax d = let* r := simplify_loop om ax d [] in
                    match r with
                    | None => Ok (Some [])
                    | Some [] => Ok None
                    | Some ret => Ok (Some (sort_unique ret))
                    end) by (rewrite D; reflexivity).
        assert (NE : forall V, dnf_sat V d <-> list_sat V d).
        { intros V. unfold dnf_sat. rewrite D. split; auto. intros [|]; [discriminate|auto]. }
        destruct (loop_ok d [] G (Forall_nil _)) as (r & E & H). rewrite E in U. cbn [bind] in U.
        destruct r as [[|c ret]|].
        + exists None. split; auto. split; [|discriminate].
          destruct H as (_ & _ & _ & S). intros V HV. rewrite NE. cbn. split; [tauto|].
          intros Q. destruct (proj2 (S V HV) (or_introl Q)) as (x & [] & _).
        + exists (Some (sort_unique (c :: ret))). split; auto.
          destruct H as (I & A & N & S). rewrite app_nil_r in I. split.
          * intros V HV. rewrite NE. cbn [result_sat]. unfold dnf_sat.
            rewrite sort_unique_sat, (S V HV). split.
            -- intros [H|[H|(x & [] & _)]]; auto.
               destruct (sort_unique_covers (c :: ret) c (or_introl eq_refl)) as (y & J & _).
               rewrite H in J. destruct J.
            -- auto.
          * intros d' Q. injection Q as <-. split; [|split; [|split]].
            -- intros x Hx. apply I. apply sort_unique_In; auto.
            -- apply sort_unique_sorted.
            -- intros x y Hx Hy. apply A; [intros ? ? []| |]; apply sort_unique_In; auto.
            -- intros x Hx. apply sort_unique_In in Hx. destruct (N x Hx) as [[]|]; auto.
        + exists (Some []). split; auto. split.
          * intros V HV. rewrite NE. cbn. split; auto. intros _. left; auto.
          * intros d' Q. injection Q as <-. split; [intros x []|]. split; [constructor|]. split; [intros x y []|intros x []].
    Qed.
  End Simplify.
End WithHash.
