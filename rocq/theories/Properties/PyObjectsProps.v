(** C83: Objects from pddl.objects in Python while objects are added and removed. *)
From Coq Require Import Ascii String List Bool Arith.
From Verif.Model Require Import Base Object Pddl Objects PyObjects.
From Verif.Spec Require Import ObjectsSpec PyObjectsSpec.
From Verif.Proofs Require Import PyObjectsFacts.
Import ListNotations.
Local Open Scope string_scope.
Local Open Scope list_scope.

(** C83. Programs that read an Object only if, since it was obtained, nothing was
    added and neither it nor one before it was removed: Objects are the declared
    ones, whatever the capacity and the growth of the vector. *)
Theorem C83_values : forall grow, (forall n, n < grow n) -> forall types w ops rs os hs, world_ok w ->
  v_run types ops (the_objects w, []) rs (os, hs) ->
  exists w' held, ob_run grow (Some types) ops (w, []) = Ok (rs, (w', held)) /\ the_objects w' = os /\ world_ok w'.
Proof. exact C83_values_lemma. Qed.
Print Assumptions C83_values.

(** A new Pddl has such a vector; the objects after any edits are those of C55 and
    C56, and no element has a deleted symbol. *)
Theorem C83_edits : forall grow, (forall n, n < grow n) -> forall types p c es ed,
  List.length (pd_objects p) <= c -> do_edits types es (unedited p) = Ok ed ->
  exists w, foldM (ow_edit grow types) es (new_world (pd_objects p) c) = Ok w /\ world_ok w /\
    the_objects w = pd_objects (ed_pddl ed).
Proof.
  intros grow G types p c es ed H. destruct (new_world_ok (pd_objects p) c H) as [O E].
  exact (C83_edits_lemma grow G types es _ (unedited p) ed O E).
Qed.
Print Assumptions C83_edits.

(** The natural claim, that an Object stays what it was, is false.  After a
    removal, references show what is at their position now: those after the removed
    one show the next object, the last one reads past the end. *)
Theorem C83_removed_refuted : forall w n before o after i, world_ok w -> splits n (the_objects w) before o after ->
  ref_name (ow_remove n w) (ow_buffer w, i) =
    match nth_error (before ++ after) i with Some x => Ok (oname x) | None => UB end /\
  ref_type (ow_remove n w) (ow_buffer w, i) =
    match nth_error (before ++ after) i with Some x => Ok (type_name (otype x)) | None => UB end.
Proof. exact C83_removed_lemma. Qed.
Print Assumptions C83_removed_refuted.

(** After an addition to a full vector every Object is gone; otherwise all stay. *)
Theorem C83_added_refuted : forall grow, (forall n, n < grow n) -> forall types w n t w' r, world_ok w ->
  ow_add grow (Some types) n t w = Ok w' -> In r (py_objects w) ->
  (List.length (the_objects w) = ow_capacity w -> ref_name w' r = UB /\ ref_type w' r = UB) /\
  (List.length (the_objects w) < ow_capacity w -> ref_name w' r = ref_name w r /\ ref_type w' r = ref_type w r).
Proof. exact C83_added_lemma. Qed.
Print Assumptions C83_added_refuted.

(** for o in pddl.objects: pddl.remove_object(o.name) is undefined for every Pddl
    with two objects or more ... *)
Theorem C83_clear_refuted : forall w, world_ok w -> 2 <= List.length (the_objects w) ->
  remove_each (py_objects w) w = UB.
Proof. exact C83_clear_lemma. Qed.
Print Assumptions C83_clear_refuted.

(** ... but removes all objects if it goes backwards, or if the names are read
    first. *)
Theorem C83_clear : forall w, world_ok w ->
  (NoDup (map oname (the_objects w)) ->
   exists w', remove_each (rev (py_objects w)) w = Ok w' /\ the_objects w' = []) /\
  (exists names, mapM (ref_name w) (py_objects w) = Ok names /\
     the_objects (fold_left (fun w n => ow_remove n w) names w) = []).
Proof. intros w O. split; [exact (C83_reversed_lemma w O)|exact (C83_names_lemma w O)]. Qed.
Print Assumptions C83_clear.

(** for o in pddl.objects: pddl.add_object(f(o.name), type) is defined if and only
    if there is room for all additions but the last. *)
Theorem C83_copy : forall grow, (forall n, n < grow n) -> forall types f ty w, world_ok w ->
  (ow_capacity w + 1 < 2 * List.length (the_objects w) ->
     add_each grow (Some types) f ty (py_objects w) w = UB) /\
  (2 * List.length (the_objects w) <= ow_capacity w + 1 ->
     exists w', add_each grow (Some types) f ty (py_objects w) w = Ok w' /\
       the_objects w' = the_objects w ++ map (fun o => new_obj types (f (oname o)) ty) (the_objects w)).
Proof. exact C83_copy_lemma. Qed.
Print Assumptions C83_copy.

(** ** Examples *)
Definition ob_types : list pddl_type := [["thing"; "object"]; ["object"]].
Definition ob_objects : list object :=
  [mkObj "box" ["thing"; "object"] KConst; mkObj "cup" ["thing"; "object"] KConst; mkObj "hook" ["object"] KConst].

Example C83_ok : world_ok (new_world ob_objects 3) /\ the_objects (new_world ob_objects 3) = ob_objects.
Proof. apply new_world_ok. auto. Qed.

(** A program that keeps to the rule: it removes the last object, reads the first
    two, adds one and asks for the objects again. *)
Example C83_example :
  let ops := [ObList; ObRemove "hook"; ObName 0; ObType 1; ObAdd "pan" "thing"; ObList; ObName 5; ObRemove "rack"] in
  let rs := [ObCount 3; ObDone; ObText "box"; ObText "thing"; ObDone; ObCount 3; ObText "pan"; ObDone] in
  (exists os hs, v_run ob_types ops (ob_objects, []) rs (os, hs)) /\
  exists wh, ob_run (fun n => n + n + 1) (Some ob_types) ops (new_world ob_objects 3, []) = Ok (rs, wh).
Proof.
  split; [|eexists; vm_compute; reflexivity].
  do 2 eexists.
  eapply v_cons; [apply v_list|]. eapply v_cons.
  { eapply v_remove. instantiate (1 := []). instantiate (1 := mkObj "hook" ["object"] KConst).
    instantiate (1 := firstn 2 ob_objects). split; [reflexivity|]. split; [reflexivity|]. cbn. intuition discriminate. }
  eapply v_cons; [refine (v_name _ 0 _ _ (mkHeld 0 (mkObj "box" ["thing"; "object"] KConst) true) _ _); reflexivity|].
  eapply v_cons; [refine (v_type _ 1 _ _ (mkHeld 1 (mkObj "cup" ["thing"; "object"] KConst) true) _ _); reflexivity|].
  eapply v_cons; [apply v_add|]. eapply v_cons; [apply v_list|].
  eapply v_cons; [refine (v_name _ 5 _ _ (mkHeld 2 (mkObj "pan" ["thing"; "object"] KConst) true) _ _); reflexivity|].
  eapply v_cons; [apply v_absent; cbn; intuition discriminate|]. apply v_nil.
Qed.

(** Objects that changed, and objects that are gone. *)
Example C83_wrong_example :
  (exists wh, ob_run S (Some ob_types) [ObList; ObRemove "box"; ObName 0] (new_world ob_objects 3, []) =
     Ok ([ObCount 3; ObDone; ObText "cup"], wh)) /\
  ob_run S (Some ob_types) [ObList; ObRemove "box"; ObName 2] (new_world ob_objects 3, []) = UB /\
  ob_run S (Some ob_types) [ObList; ObAdd "pan" "thing"; ObName 0] (new_world ob_objects 3, []) = UB /\
  (exists wh, ob_run S (Some ob_types) [ObList; ObAdd "pan" "thing"; ObName 0] (new_world ob_objects 4, []) =
     Ok ([ObCount 3; ObDone; ObText "box"], wh)) /\
  remove_each (py_objects (new_world ob_objects 3)) (new_world ob_objects 3) = UB /\
  add_each S (Some ob_types) (fun n => n ++ "2")%string "thing" (py_objects (new_world ob_objects 4)) (new_world ob_objects 4) = UB /\
  (exists w, add_each S (Some ob_types) (fun n => n ++ "2")%string "thing" (py_objects (new_world ob_objects 5))
     (new_world ob_objects 5) = Ok w).
Proof. repeat split; try (eexists; vm_compute; reflexivity); vm_compute; reflexivity. Qed.
