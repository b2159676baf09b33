(** C13-C14: argument generation and types. *)
From Coq Require Import String List ZArith Bool.
From Verif.Model Require Import Base Object CombinationGenerator ParameterGenerator.
From Verif.Spec Require Import CartesianSpec TypingSpec.
From Verif.Proofs Require Import CombinationFacts ParameterFacts.
Import ListNotations.
Local Open Scope string_scope.

Definition ex_objects : list object :=
  [mkObj "table" ["surface"; "thing"; "object"] KConst; mkObj "hook" ["tool"; "thing"; "object"] KConst;
   mkObj "box" ["tool"; "thing"; "object"] KConst; mkObj "here" [] KConst].
Definition ex_params : list object :=
  [mkObj "a" ["tool"; "thing"; "object"] (KVar 0); mkObj "b" ["thing"; "object"] (KVar 1)].

Lemma ex_objects_wf : Forall (fun o => wf_type (otype o)) ex_objects.
Proof.
  repeat constructor; cbn; intuition (congruence || auto).
Qed.

(** C13. The generator lists exactly the well-typed tuples, each once. *)
Theorem C13_arguments : forall objects params,
  Forall (fun o => wf_type (otype o)) objects -> params <> [] ->
  (tuple_count objects params < 2 ^ 31)%Z ->
  exists g l, param_gen (create_object_map objects) params = Ok g /\
    gen_list null_object g = Ok l /\ length l = Z.to_nat (g_size g) /\
    (NoDup objects -> NoDup l) /\
    forall args, In args l <-> well_typed objects params args.
Proof. exact C13_lemma. Qed.
Print Assumptions C13_arguments.

Example C13_example : Forall (fun o => wf_type (otype o)) ex_objects /\
  (tuple_count ex_objects ex_params < 2 ^ 31)%Z /\
  option_map (map (map oname))
    (match bind (param_gen (create_object_map ex_objects) ex_params) (gen_list null_object) with
     | Ok l => Some l | _ => None end) =
  Some [["hook"; "table"]; ["hook"; "hook"]; ["hook"; "box"];
        ["box"; "table"]; ["box"; "hook"]; ["box"; "box"]].
Proof. split; [exact ex_objects_wf|]. split; reflexivity. Qed.

(** C14. The three type tests agree. *)
Theorem C14_types : forall objects o ty,
  Forall (fun o => wf_type (otype o)) objects -> In o objects ->
  (is_subtype (otype o) ty = true <-> has_type o ty) /\
  (is_subtype (otype o) ty = true <-> In ty (list_types (otype o))) /\
  (is_subtype (otype o) ty = true <->
   exists v, om_find (create_object_map objects) ty = Some v /\ In o v).
Proof. exact C14_lemma. Qed.
Print Assumptions C14_types.

(** C14. Under each type the map lists its objects in declaration order. *)
Theorem C14_order : forall objects ty,
  Forall (fun o => wf_type (otype o)) objects ->
  om_find (create_object_map objects) ty =
  match objects_of objects ty with [] => None | v => Some v end.
Proof. exact C14_order_lemma. Qed.
Print Assumptions C14_order.

Example C14_example :
  option_map (map oname) (om_find (create_object_map ex_objects) "thing") = Some ["table"; "hook"; "box"] /\
  option_map (map oname) (om_find (create_object_map ex_objects) "object") = Some ["table"; "hook"; "box"; "here"] /\
  om_find (create_object_map ex_objects) "robot" = None.
Proof. repeat split. Qed.
