(** Lemmas about types, the object map and ParameterGenerator. *)
From Coq Require Import String List Bool ZArith Lia.
From Verif.Model Require Import Base Object CombinationGenerator ParameterGenerator.
From Verif.Spec Require Import CartesianSpec TypingSpec.
From Verif.Proofs Require Import CombinationFacts.
Import ListNotations.
Local Open Scope string_scope.
Local Open Scope list_scope.

Lemma last_name_last t : last_name t = match t with [] => None | _ => Some (last t "") end.
Proof. induction t as [|a [|b t] IH]; auto. Qed.

Lemma last_In {A} (l : list A) d : l <> [] -> In (last l d) l.
Proof.
  induction l as [|a [|b l] IH]; intros N; [congruence|left; auto|].
  right. apply IH. congruence.
Qed.

Lemma is_subtype_spec t ty : is_subtype t ty = true <-> ty = default_type \/ In ty t.
Proof.
  unfold is_subtype. rewrite orb_true_iff, String.eqb_eq, existsb_exists.
  split; (intros [E|E]; [left; auto|right]).
  - destruct E as (n & I & E). apply String.eqb_eq in E. subst; auto.
  - exists ty. split; auto. apply String.eqb_refl.
Qed.

Lemma has_type_spec o ty : is_subtype (otype o) ty = true <-> has_type o ty.
Proof. apply is_subtype_spec. Qed.

Lemma list_types_In t ty : In ty (list_types t) <-> ty = default_type \/ In ty t.
Proof.
  unfold list_types. rewrite last_name_last. destruct t as [|a t].
  - cbn. intuition.
  - destruct (String.eqb_spec (last (a :: t) "") default_type) as [E|E].
    + split; auto. intros [-> |I]; auto. rewrite <- E. apply last_In. discriminate.
    + rewrite in_app_iff. cbn [In]. intuition.
Qed.

Lemma list_types_NoDup t : wf_type t -> NoDup (list_types t).
Proof.
  intros [N D]. unfold list_types. rewrite last_name_last. destruct t as [|a t].
  - repeat constructor; intros [].
  - destruct (String.eqb_spec (last (a :: t) "") default_type) as [E|E]; auto.
    assert (NI : ~ In default_type (a :: t)) by auto.
    revert NI N. generalize (a :: t). intros l. clear.
    induction l as [|x l IH]; cbn; intros NI N.
    + repeat constructor; intros [].
    + inversion N; subst. constructor.
      * rewrite in_app_iff. cbn. intuition.
      * apply IH; auto.
Qed.

(** ** Object map *)

Definition om_get (m : object_map) ty : list object :=
  match om_find m ty with Some v => v | None => [] end.

Lemma om_push_get m ty o ty' :
  om_get (om_push m ty o) ty' = if String.eqb ty ty' then om_get m ty' ++ [o] else om_get m ty'.
Proof.
  unfold om_get. induction m as [|[k v] m IH]; cbn [om_push om_find].
  - destruct (String.eqb ty ty'); auto.
  - destruct (String.eqb_spec k ty) as [->|N]; cbn [om_find].
    + destruct (String.eqb ty ty'); auto.
    + destruct (String.eqb_spec k ty') as [->|N'].
      * destruct (String.eqb_spec ty ty'); [congruence|auto].
      * apply IH.
Qed.

Definition om_ok (m : object_map) := forall ty v, om_find m ty = Some v -> v <> [].

(** The map only grows by non-empty vectors; stated through [om_find]. *)
Lemma om_push_find m ty o ty' :
  om_find (om_push m ty o) ty' =
  if String.eqb ty ty' then Some (om_get m ty' ++ [o]) else om_find m ty'.
Proof.
  unfold om_get. induction m as [|[k v] m IH]; cbn [om_push om_find].
  - destruct (String.eqb ty ty'); auto.
  - destruct (String.eqb_spec k ty) as [->|N]; cbn [om_find].
    + destruct (String.eqb ty ty'); auto.
    + destruct (String.eqb_spec k ty') as [->|N'].
      * destruct (String.eqb_spec ty ty'); [congruence|auto].
      * apply IH.
Qed.

Lemma om_push_ok m ty o : om_ok m -> om_ok (om_push m ty o).
Proof.
  intros H ty' v. rewrite om_push_find. destruct (String.eqb ty ty').
  - intros Q; inversion Q. destruct (om_get m ty'); discriminate.
  - apply H.
Qed.

Lemma om_push_all_get tys o : NoDup tys -> forall m ty,
  om_get (fold_left (fun m ty => om_push m ty o) tys m) ty =
  om_get m ty ++ (if existsb (String.eqb ty) tys then [o] else []).
Proof.
  induction 1 as [|t tys N _ IH]; intros m ty; cbn [fold_left existsb].
  - rewrite app_nil_r; auto.
  - rewrite IH, om_push_get. rewrite (String.eqb_sym ty t).
    destruct (String.eqb_spec t ty) as [->|D]; cbn [orb]; auto.
    replace (existsb (String.eqb ty) tys) with false; [rewrite app_nil_r; auto|].
    symmetry. apply not_true_iff_false. intros E. apply existsb_exists in E.
    destruct E as (x & I & E). apply String.eqb_eq in E. subst. auto.
Qed.

Lemma om_push_all_ok tys o : forall m, om_ok m -> om_ok (fold_left (fun m ty => om_push m ty o) tys m).
Proof. induction tys; cbn; auto. intros. apply IHtys. apply om_push_ok; auto. Qed.

Lemma create_get_from objects : Forall (fun o => wf_type (otype o)) objects -> forall m ty,
  om_get (fold_left (fun m o => fold_left (fun m ty => om_push m ty o) (list_types (otype o)) m) objects m) ty =
  om_get m ty ++ filter (fun o => is_subtype (otype o) ty) objects.
Proof.
  induction 1 as [|o os W _ IH]; intros m ty; cbn [fold_left filter].
  - rewrite app_nil_r; auto.
  - rewrite IH, om_push_all_get by (apply list_types_NoDup; auto).
    replace (existsb (String.eqb ty) (list_types (otype o))) with (is_subtype (otype o) ty).
    + destruct (is_subtype (otype o) ty); cbn [app]; rewrite <- app_assoc; auto.
    + apply eq_true_iff_eq. rewrite is_subtype_spec, <- list_types_In, existsb_exists.
      split.
      * intros I. exists ty. split; auto. apply String.eqb_refl.
      * intros (x & I & E). apply String.eqb_eq in E. subst; auto.
Qed.

Lemma create_ok_from objects : forall m, om_ok m ->
  om_ok (fold_left (fun m o => fold_left (fun m ty => om_push m ty o) (list_types (otype o)) m) objects m).
Proof. induction objects; cbn; auto. intros. apply IHobjects. apply om_push_all_ok; auto. Qed.

(** The object map lists, under each type, the objects of that type in order;
    types without objects are absent. *)
Lemma create_find objects ty : Forall (fun o => wf_type (otype o)) objects ->
  om_find (create_object_map objects) ty =
  match filter (fun o => is_subtype (otype o) ty) objects with [] => None | v => Some v end.
Proof.
  intros W. pose proof (create_get_from objects W [] ty) as G.
  assert (OK : om_ok (create_object_map objects)) by (apply create_ok_from; intros ? ? Q; discriminate).
  fold (create_object_map objects) in G. unfold om_get in G. cbn [om_find app] in G.
  destruct (om_find (create_object_map objects) ty) as [v|] eqn:E.
  - rewrite <- G. apply OK in E. destruct v; congruence.
  - rewrite <- G. reflexivity.
Qed.

Lemma filter_objects_of objects ty :
  filter (fun o => is_subtype (otype o) ty) objects = objects_of objects ty.
Proof.
  unfold objects_of. apply filter_ext. intros o. apply eq_true_iff_eq.
  rewrite is_subtype_spec, orb_true_iff, String.eqb_eq, existsb_exists.
  split; (intros [E|E]; [left; auto|right]).
  - exists ty. split; auto. apply String.eqb_refl.
  - destruct E as (x & I & E). apply String.eqb_eq in E. subst; auto.
Qed.

Lemma objects_of_In objects ty o : In o (objects_of objects ty) <-> In o objects /\ has_type o ty.
Proof. rewrite <- filter_objects_of, filter_In, has_type_spec. tauto. Qed.

(** ** ParameterGenerator *)

Lemma param_types_spec objects params : Forall (fun o => wf_type (otype o)) objects ->
  forall acc,
  param_types_from (create_object_map objects) params acc =
  let opts := map (fun p => objects_of objects (type_name (otype p))) params in
  if existsb (fun o => match o with [] => true | _ => false end) opts then [] else acc ++ opts.
Proof.
  intros W. induction params as [|p ps IH]; intros acc; cbn [param_types_from map existsb].
  - rewrite app_nil_r; auto.
  - rewrite create_find by auto. rewrite filter_objects_of.
    destruct (objects_of objects (type_name (otype p))) as [|o os]; cbn [orb]; auto.
    rewrite IH. cbn zeta. destruct (existsb _ _); auto. rewrite <- app_assoc. reflexivity.
Qed.

Lemma existsb_empty_product {A} (opts : list (list A)) :
  existsb (fun o => match o with [] => true | _ => false end) opts = true -> cart opts = [].
Proof.
  induction opts as [|o os IH]; cbn; [discriminate|]. destruct o; cbn [orb]; auto.
  intros E. rewrite (IH E). clear. cbn. induction o; auto.
Qed.

Lemma existsb_empty_false {A} (opts : list (list A)) :
  existsb (fun o => match o with [] => true | _ => false end) opts = false ->
  Forall (fun o => o <> []) opts.
Proof.
  induction opts as [|o os IH]; cbn; [constructor|]. destruct o; cbn [orb]; [discriminate|].
  constructor; [discriminate|auto].
Qed.

Lemma param_gen_list objects params :
  Forall (fun o => wf_type (otype o)) objects -> params <> [] ->
  (tuple_count objects params < 2 ^ 31)%Z ->
  exists g, param_gen (create_object_map objects) params = Ok g /\
    g_size g = tuple_count objects params /\
    gen_list null_object g = Ok (cart (map (fun p => objects_of objects (type_name (otype p))) params)).
Proof.
  intros W N L. unfold param_gen, param_types. rewrite param_types_spec by auto. cbn zeta.
  unfold tuple_count in *. set (opts := map _ params) in *.
  destruct (existsb _ opts) eqn:E.
  - destruct (C09_no_options_lemma null_object (Z.to_nat 0)) as (g & G & S & T).
    exists g. split; auto. pose proof (cart_length opts) as CL.
    rewrite (existsb_empty_product _ E) in *. cbn in CL. split; [congruence|].
    unfold gen_list. rewrite S. exact T.
  - cbn [app]. assert (G : good_options opts).
    { split; [|split; auto]. - subst opts. destruct params; [congruence|discriminate].
      - apply existsb_empty_false; auto. }
    destruct (C09_traverse_lemma null_object opts (Z.to_nat (product opts)) G) as (g & Mk & S & T).
    + pose proof (product_pos _ (proj1 (proj2 G))). lia.
    + exists g. split; auto. split; auto. unfold gen_list. rewrite S. exact T.
Qed.

Lemma param_gen_none m : exists g, param_gen m [] = Ok g /\ gen_list null_object g = Ok [].
Proof.
  destruct (C09_no_options_lemma null_object (Z.to_nat 0)) as (g & G & S & T). exists g.
  split; auto. unfold gen_list. rewrite S. exact T.
Qed.

Lemma Forall2_map_r {A B C} (P : A -> C -> Prop) (f : B -> C) l l' :
  Forall2 P l (map f l') <-> Forall2 (fun a b => P a (f b)) l l'.
Proof.
  revert l. induction l' as [|b l' IH]; intros l; cbn [map].
  - split; intros F; inversion F; constructor.
  - split; intros F; inversion F; subst; constructor; auto; apply IH; auto.
Qed.

Lemma Forall2_impl {A B} (P Q : A -> B -> Prop) l l' :
  (forall a b, P a b -> Q a b) -> Forall2 P l l' -> Forall2 Q l l'.
Proof. intros H F. induction F; constructor; auto. Qed.

Lemma C13_lemma objects params : Forall (fun o => wf_type (otype o)) objects -> params <> [] ->
  (tuple_count objects params < 2 ^ 31)%Z ->
  exists g l, param_gen (create_object_map objects) params = Ok g /\
    gen_list null_object g = Ok l /\ length l = Z.to_nat (g_size g) /\
    (NoDup objects -> NoDup l) /\
    forall args, In args l <-> well_typed objects params args.
Proof.
  intros W N L. destruct (param_gen_list objects params W N L) as (g & G & S & T).
  exists g. eexists. split; [exact G|]. split; [exact T|]. split; [|split].
  - rewrite S. unfold tuple_count. rewrite <- cart_length. rewrite Nat2Z.id. reflexivity.
  - intros ND. apply NoDup_cart. apply Forall_map. apply Forall_forall. intros p _.
    unfold objects_of. apply NoDup_filter; auto.
  - intros args. rewrite In_cart, Forall2_map_r. unfold well_typed.
    split; intros F; (eapply Forall2_impl; [|exact F]); intros a p; cbn; rewrite objects_of_In; auto.
Qed.

Lemma C14_lemma objects o ty : Forall (fun o => wf_type (otype o)) objects -> In o objects ->
  (is_subtype (otype o) ty = true <-> has_type o ty) /\
  (is_subtype (otype o) ty = true <-> In ty (list_types (otype o))) /\
  (is_subtype (otype o) ty = true <->
   exists v, om_find (create_object_map objects) ty = Some v /\ In o v).
Proof.
  intros W I. split; [apply has_type_spec|]. split; [rewrite list_types_In; apply is_subtype_spec|].
  rewrite create_find by auto. split.
  - intros S. exists (filter (fun o => is_subtype (otype o) ty) objects).
    assert (IF : In o (filter (fun o => is_subtype (otype o) ty) objects)) by (apply filter_In; auto).
    destruct (filter _ objects); [destruct IF|auto].
  - intros (v & E & J).
    assert (V : filter (fun o => is_subtype (otype o) ty) objects = v).
    { destruct (filter _ objects); congruence. }
    subst v. apply filter_In in J. tauto.
Qed.

Lemma C14_order_lemma objects ty : Forall (fun o => wf_type (otype o)) objects ->
  om_find (create_object_map objects) ty =
  match objects_of objects ty with [] => None | v => Some v end.
Proof. intros W. rewrite create_find by auto. rewrite filter_objects_of. auto. Qed.
