(** What Objects from pddl.objects should show. *)
From Coq Require Import String List Bool Arith.
From Verif.Model Require Import Base Object Objects PyObjects.
From Verif.Spec Require Import ObjectsSpec.
Import ListNotations.

(** An object in Python is the declared object itself.  [hd_at] is where it was in
    the list; [hd_safe] becomes false with the first edit that may move or destroy
    what the reference points to: any addition, or the removal of the object or of
    one before it. *)
Record held_object : Set := mkHeld { hd_at : nat; hd_obj : object; hd_safe : bool }.

(** The first object of the name, with the ones before and after it. *)
Definition splits (name : string) (l before : list object) (o : object) (after : list object) : Prop :=
  l = before ++ o :: after /\ oname o = name /\ ~ In name (map oname before).

Definition weaken (k : nat) (h : held_object) : held_object :=
  mkHeld (hd_at h) (hd_obj h) (hd_safe h && Nat.ltb (hd_at h) k).
Definition all_from (objects : list object) : list held_object :=
  map (fun io => mkHeld (fst io) (snd io) true) (combine (seq 0 (length objects)) objects).

Definition new_obj (types : list pddl_type) (n t : string) : object :=
  mkObj n (get_type_symbol types (find_type types t)) KConst.

Inductive v_step (types : list pddl_type) : ob_op -> list object * list held_object ->
    ob_result -> list object * list held_object -> Prop :=
| v_list os hs : v_step types ObList (os, hs) (ObCount (length os)) (os, hs ++ all_from os)
| v_add n t os hs :
    v_step types (ObAdd n t) (os, hs) ObDone
      (os ++ [new_obj types n t], map (weaken 0) hs)
| v_remove n os hs before o after : splits n os before o after ->
    v_step types (ObRemove n) (os, hs) ObDone (before ++ after, map (weaken (length before)) hs)
| v_absent n os hs : ~ In n (map oname os) -> v_step types (ObRemove n) (os, hs) ObDone (os, hs)
| v_name k os hs h : nth_error hs k = Some h -> hd_safe h = true ->
    v_step types (ObName k) (os, hs) (ObText (oname (hd_obj h))) (os, hs)
| v_type k os hs h : nth_error hs k = Some h -> hd_safe h = true ->
    v_step types (ObType k) (os, hs) (ObText (type_name (otype (hd_obj h)))) (os, hs).
Inductive v_run (types : list pddl_type) : list ob_op -> list object * list held_object ->
    list ob_result -> list object * list held_object -> Prop :=
| v_nil s : v_run types [] s [] s
| v_cons o ops s r s' rs s'' : v_step types o s r s' -> v_run types ops s' rs s'' ->
    v_run types (o :: ops) s (r :: rs) s''.

(** Vectors as they occur: the elements fit, every element has its own symbol,
    which is not deleted. *)
Record world_ok (w : objects_world) : Prop := {
  wo_fits : length (ow_slots w) <= ow_capacity w;
  wo_syms : NoDup (map sl_sym (ow_slots w));
  wo_old : forall s, In s (ow_slots w) -> sl_sym s < ow_next w;
  wo_live : forall s, In s (ow_slots w) -> ~ In (sl_sym s) (ow_deleted w);
  wo_gone : forall k, In k (ow_deleted w) -> k < ow_next w
}.
Definition the_objects (w : objects_world) : list object := map sl_obj (ow_slots w).

(** The edits of ObjectsSpec.v. *)
Definition ow_edit (grow : nat -> nat) (types : list pddl_type) (w : objects_world) (e : edit) : outcome objects_world :=
  match e with
  | Add n t => ow_add grow (Some types) n t w
  | Remove n => Ok (ow_remove n w)
  end.
