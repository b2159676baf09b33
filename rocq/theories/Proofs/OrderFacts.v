(** Order lemmas: [lex_ltb] and [list_eqb] inherit the laws of the element
    comparison.  Values are compared through a key. *)
From Coq Require Import String Ascii List Bool Arith Lia.
From Verif.Model Require Import Order.
Import ListNotations.

(** [ltb] is a strict total order on the keys, and respects them. *)
Record ord_ok {A K : Type} (key : A -> K) (ltb : A -> A -> bool) : Prop := {
  ord_irrefl : forall x y, key x = key y -> ltb x y = false;
  ord_trans : forall x y z, ltb x y = true -> ltb y z = true -> ltb x z = true;
  ord_total : forall x y, key x <> key y -> ltb x y = true \/ ltb y x = true;
  ord_resp_l : forall x x' y, key x = key x' -> ltb x y = ltb x' y;
  ord_resp_r : forall x y y', key y = key y' -> ltb x y = ltb x y'
}.

Definition eq_ok {A K : Type} (key : A -> K) (eqb : A -> A -> bool) : Prop :=
  forall x y, eqb x y = true <-> key x = key y.

Lemma ord_asym {A K} (key : A -> K) ltb :
  ord_ok key ltb -> forall x y, ltb x y = true -> ltb y x = false.
Proof.
  intros O x y H. destruct (ltb y x) eqn:E; [|reflexivity].
  pose proof (ord_trans _ _ O _ _ _ H E) as C.
  rewrite (ord_irrefl _ _ O x x eq_refl) in C. discriminate.
Qed.

Lemma ord_neither {A K} (key : A -> K) ltb (eqd : forall a b : K, {a = b} + {a <> b}) :
  ord_ok key ltb -> forall x y, ltb x y = false -> ltb y x = false -> key x = key y.
Proof.
  intros O x y H1 H2. destruct (eqd (key x) (key y)) as [E|N]; [exact E|].
  destruct (ord_total _ _ O _ _ N); congruence.
Qed.

Lemma list_eqb_ok {A K} (key : A -> K) eqb :
  eq_ok key eqb -> eq_ok (map key) (list_eqb eqb).
Proof.
  intros E l1; induction l1 as [|x l1 IH]; intros [|y l2]; cbn; try (split; congruence).
  rewrite andb_true_iff, (E x y), (IH l2). split.
  - intros [-> ->]; reflexivity.
  - intros H; injection H; auto.
Qed.

Lemma lex_ltb_ok {A K} (key : A -> K) ltb (eqd : forall a b : K, {a = b} + {a <> b}) :
  ord_ok key ltb -> ord_ok (map key) (lex_ltb ltb).
Proof.
  intros O. constructor.
  - induction x as [|a x IH]; intros [|b y] H; cbn in *; try congruence; try reflexivity.
    injection H as H1 H2.
    rewrite (ord_irrefl _ _ O a b H1), (ord_irrefl _ _ O b a (eq_sym H1)). auto.
  - induction x as [|a x IH]; intros [|b y] [|c z]; cbn; try congruence.
    destruct (ltb a b) eqn:Eab.
    + intros _. destruct (ltb b c) eqn:Ebc.
      * intros _. rewrite (ord_trans _ _ O _ _ _ Eab Ebc). reflexivity.
      * destruct (ltb c b) eqn:Ecb; [discriminate|]. intros _.
        pose proof (ord_neither _ _ eqd O _ _ Ebc Ecb) as K1.
        rewrite <- (ord_resp_r _ _ O a b c K1), Eab. reflexivity.
    + destruct (ltb b a) eqn:Eba; [discriminate|].
      pose proof (ord_neither _ _ eqd O _ _ Eab Eba) as K1. intros H1.
      rewrite (ord_resp_l _ _ O a b c K1), (ord_resp_r _ _ O c a b K1).
      destruct (ltb b c); [reflexivity|]. destruct (ltb c b); [discriminate|].
      intros H2. eapply IH; eauto.
  - induction x as [|a x IH]; intros [|b y] H; cbn in *; try tauto.
    destruct (ltb a b) eqn:Eab; [tauto|].
    destruct (ltb b a) eqn:Eba; [tauto|].
    apply IH. intros C. apply H. f_equal; [|exact C].
    eapply ord_neither; eauto.
  - induction x as [|a x IH]; intros [|a' x'] [|b y] H; cbn in *; try congruence; try reflexivity.
    injection H as H1 H2.
    rewrite (ord_resp_l _ _ O _ _ b H1), (ord_resp_r _ _ O b _ _ H1), (IH _ y H2). reflexivity.
  - induction x as [|a x IH]; intros [|b y] [|b' y'] H; cbn in *; try congruence; try reflexivity.
    injection H as H1 H2.
    rewrite (ord_resp_r _ _ O a _ _ H1), (ord_resp_l _ _ O _ _ a H1), (IH _ _ H2). reflexivity.
Qed.

(** [std::tie] comparison of two fields. *)
Lemma pair_ltb_ok {A B C K L} (f : C -> A) (g : C -> B) (keyA : A -> K) (keyB : B -> L) ltA ltB
    (eqd : forall a b : K, {a = b} + {a <> b}) :
  ord_ok keyA ltA -> ord_ok keyB ltB ->
  ord_ok (fun c => (keyA (f c), keyB (g c)))
         (fun c d => pair_ltb ltA ltB (f c) (g c) (f d) (g d)).
Proof.
  intros OA OB. unfold pair_ltb. constructor.
  - intros x y H; injection H as H1 H2.
    rewrite (ord_irrefl _ _ OA _ _ H1), (ord_irrefl _ _ OB _ _ H2), andb_false_r. reflexivity.
  - intros x y z H1 H2.
    destruct (ltA (f x) (f y)) eqn:E1, (ltA (f y) (f z)) eqn:E2; cbn in *.
    + rewrite (ord_trans _ _ OA _ _ _ E1 E2). reflexivity.
    + apply andb_true_iff in H2 as [H2 _]. apply negb_true_iff in H2.
      pose proof (ord_neither _ _ eqd OA _ _ E2 H2) as K1.
      rewrite <- (ord_resp_r _ _ OA (f x) _ _ K1), E1. reflexivity.
    + apply andb_true_iff in H1 as [H1 _]. apply negb_true_iff in H1.
      pose proof (ord_neither _ _ eqd OA _ _ E1 H1) as K1.
      rewrite (ord_resp_l _ _ OA _ _ (f z) K1), E2. reflexivity.
    + apply andb_true_iff in H1 as [H1 H1'], H2 as [H2 H2'].
      apply negb_true_iff in H1, H2.
      pose proof (ord_neither _ _ eqd OA _ _ E1 H1) as K1.
      rewrite (ord_resp_l _ _ OA _ _ (f z) K1), (ord_resp_r _ _ OA (f z) _ _ K1), E2, H2. cbn.
      eapply ord_trans; eauto.
  - intros x y H.
    destruct (ltA (f x) (f y)) eqn:E1; cbn; [tauto|].
    destruct (ltA (f y) (f x)) eqn:E2; cbn; [tauto|].
    pose proof (ord_neither _ _ eqd OA _ _ E1 E2) as K1.
    apply (ord_total _ _ OB). intros K2. apply H. congruence.
  - intros x x' y H; injection H as H1 H2.
    rewrite (ord_resp_l _ _ OA _ _ (f y) H1), (ord_resp_r _ _ OA (f y) _ _ H1),
            (ord_resp_l _ _ OB _ _ (g y) H2). reflexivity.
  - intros x y y' H; injection H as H1 H2.
    rewrite (ord_resp_r _ _ OA (f x) _ _ H1), (ord_resp_l _ _ OA _ _ (f x) H1),
            (ord_resp_r _ _ OB (g x) _ _ H2). reflexivity.
Qed.

(** ** Strings *)

Lemma ascii_compare_refl a : Ascii.compare a a = Eq.
Proof. unfold Ascii.compare. apply BinNat.N.compare_refl. Qed.

Lemma string_compare_refl s : String.compare s s = Eq.
Proof. induction s as [|a s IH]; cbn; [reflexivity|]. rewrite ascii_compare_refl. exact IH. Qed.

Lemma string_compare_trans : forall x y z,
  String.compare x y = Lt -> String.compare y z = Lt -> String.compare x z = Lt.
Proof.
  induction x as [|a x IH]; intros [|b y] [|c z]; cbn; try congruence.
  unfold Ascii.compare.
  destruct (BinNat.N.compare_spec (N_of_ascii a) (N_of_ascii b)) as [E1|E1|E1];
  destruct (BinNat.N.compare_spec (N_of_ascii b) (N_of_ascii c)) as [E2|E2|E2];
    try congruence; intros H1 H2.
  - rewrite E1, E2, BinNat.N.compare_refl. eauto.
  - rewrite E1. destruct (BinNat.N.compare_spec (N_of_ascii b) (N_of_ascii c)); try lia; reflexivity.
  - rewrite <- E2. destruct (BinNat.N.compare_spec (N_of_ascii a) (N_of_ascii b)); try lia; reflexivity.
  - destruct (BinNat.N.compare_spec (N_of_ascii a) (N_of_ascii c)); try lia; reflexivity.
Qed.

Lemma string_ltb_ok : ord_ok (fun s : string => s) String.ltb.
Proof.
  unfold String.ltb. constructor.
  - intros x y ->. rewrite string_compare_refl. reflexivity.
  - intros x y z H1 H2.
    destruct (String.compare x y) eqn:E1; try discriminate.
    destruct (String.compare y z) eqn:E2; try discriminate.
    rewrite (string_compare_trans _ _ _ E1 E2). reflexivity.
  - intros x y N. rewrite (String.compare_antisym y x).
    destruct (String.compare x y) eqn:E; cbn; auto.
    apply String.compare_eq_iff in E. contradiction.
  - intros x x' y ->; reflexivity.
  - intros x y y' ->; reflexivity.
Qed.

Lemma ord_map {A B K} (f : B -> A) (key : A -> K) ltb :
  ord_ok key ltb -> ord_ok (fun b => key (f b)) (fun x y => ltb (f x) (f y)).
Proof.
  intros [a b c d e]. constructor; intros; eauto.
Qed.
