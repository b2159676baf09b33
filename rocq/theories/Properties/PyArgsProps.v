(** C81: argument tuples and calls in Python. *)
From Coq Require Import Ascii String List Bool ZArith.
From Verif.Model Require Import Base Object CombinationGenerator ParameterGenerator Syntax Text PyArgs.
From Verif.Spec Require Import CartesianSpec TypingSpec TextSpec PyArgsSpec.
From Verif.Proofs Require Import PyArgsFacts.
From Verif.Properties Require Import StateProps ParameterProps.
Import ListNotations.
Local Open Scope string_scope.
Local Open Scope list_scope.

(** C81. Any program with any number of loops over generators and indexed accesses,
    interleaved in any way: lists from gen[i] keep their tuple, all lists from one
    loop always show the tuple the loop returned last. *)
Theorem C81_programs : forall (SH : StdHash) objects paramss,
  Forall (fun o => wf_type (otype o)) objects ->
  Forall (fun params => (tuple_count objects params < 2 ^ 31)%Z) paramss ->
  exists gens T, mapM (param_gen (create_object_map objects)) paramss = Ok gens /\
    (forall k params, nth_error paramss k = Some params -> exists ts, T k = Some ts /\
      (params = [] -> ts = []) /\ (params <> [] -> forall args, In args ts <-> well_typed objects params args) /\
      (NoDup objects -> NoDup ts)) /\
    forall ops rs, g_run T ops [] = Some rs -> exists cells, pa_run objects gens ops [] = Ok (rs, cells).
Proof. exact @C81_programs_lemma. Qed.
Print Assumptions C81_programs.

(** A loop sees every well-typed tuple once, then only StopIteration; list(gen) is
    one list of objects as often as there are tuples, which shows the last one;
    [gen[i] for i in range(len(gen))] holds all tuples. *)
Theorem C81_loop : forall (SH : StdHash) objects params,
  Forall (fun o => wf_type (otype o)) objects -> (tuple_count objects params < 2 ^ 31)%Z ->
  exists g ts, param_gen (create_object_map objects) params = Ok g /\
    (params = [] -> ts = []) /\ (params <> [] -> forall args, In args ts <-> well_typed objects params args) /\
    (NoDup objects -> NoDup ts) /\
    (forall m, exists cells,
      pa_run objects [g] (PaLoop 0 :: concat (repeat [PaNext 0; PaShow (SlotsOf 0)] (List.length ts)) ++ repeat (PaNext 0) m) [] =
      Ok (PaIterator 0 :: flat_map (fun c => [PaList (SlotsOf 0); PaNames (map oname c)]) ts ++ repeat PaStop m, cells)) /\
    (forall pre last, ts = pre ++ [last] -> exists cells,
      pa_run objects [g] (PaLoop 0 :: repeat (PaNext 0) (List.length ts) ++ [PaNext 0; PaShow (SlotsOf 0)]) [] =
      Ok (PaIterator 0 :: repeat (PaList (SlotsOf 0)) (List.length ts) ++ [PaStop; PaNames (map oname last)], cells)) /\
    exists cells,
      pa_run objects [g] (PaLen 0 :: map (fun k => PaAt 0 (Z.of_nat k)) (seq 0 (List.length ts)) ++
        map (fun j => PaShow (OwnArgs j)) (seq 0 (List.length ts))) [] =
      Ok (PaNumber (Z.of_nat (List.length ts)) :: map (fun j => PaList (OwnArgs j)) (seq 0 (List.length ts)) ++
          map (fun c => PaNames (map oname c)) ts, cells).
Proof. exact @C81_loop_lemma. Qed.
Print Assumptions C81_loop.

(** action.to_string(names) gives a text if and only if all names are declared,
    whatever their number and types; the text names the action and the objects. *)
Theorem C81_text : forall objects name names,
  match py_call_text objects BpPddl name names with
  | Ok s => Forall (fun n => In n (map oname objects)) names /\
      exists args, Forall2 (first_named oname objects) names args /\ s = print_call name args /\
        (free_of "("%char name -> Forall word names -> parse_head s = name /\ parse_arguments objects s = Ok args)
  | Throw ERuntime => exists n, In n names /\ ~ In n (map oname objects)
  | _ => False
  end.
Proof. exact C81_text_lemma. Qed.
Print Assumptions C81_text.

(** list(gen) does not hold the tuples. *)
Theorem C81_list_refuted : exists (SH : StdHash) objects params g l1 l2 cells,
  Forall (fun o => wf_type (otype o)) objects /\ param_gen (create_object_map objects) params = Ok g /\
  gen_list null_object g = Ok [l1; l2] /\
  pa_run objects [g] [PaLoop 0; PaNext 0; PaShow (SlotsOf 0); PaNext 0; PaNext 0; PaShow (SlotsOf 0)] [] =
    Ok ([PaIterator 0; PaList (SlotsOf 0); PaNames (map oname l1); PaList (SlotsOf 0); PaStop; PaNames (map oname l2)], cells) /\
  map oname l1 <> map oname l2.
Proof.
  exists collide, ex_objects, [mkObj "a" ["tool"; "thing"; "object"] (KVar 0)]. do 4 eexists.
  split; [exact ex_objects_wf|]. split; [reflexivity|]. split; [vm_compute; reflexivity|]. split; [vm_compute; reflexivity|].
  discriminate.
Qed.
Print Assumptions C81_list_refuted.

(** gen.index(names) is not the inverse of gen[i] (C10): it uses a null pointer, for
    every generator and all names; so does predicate.to_string(names), and
    action.to_string(names) uses a pointer to a Pddl that is gone in a Pddl that was
    unpickled. *)
Theorem C81_index_refuted : exists (SH : StdHash) objects params g args,
  Forall (fun o => wf_type (otype o)) objects /\ param_gen (create_object_map objects) params = Ok g /\
  gen_at null_object g 3 = Ok args /\ gen_find obj_eqb g args = Ok 3%Z /\ py_index objects g (map oname args) = UB.
Proof.
  exists collide, ex_objects, ex_params. do 2 eexists. split; [exact ex_objects_wf|].
  split; [reflexivity|]. split; [vm_compute; reflexivity|]. split; vm_compute; reflexivity.
Qed.
Print Assumptions C81_index_refuted.
Theorem C81_pointer_refuted : forall objects bp name n names, bp <> BpPddl -> py_call_text objects bp name (n :: names) = UB.
Proof. intros objects [| |] name n names H; [reflexivity|reflexivity|congruence]. Qed.
Print Assumptions C81_pointer_refuted.

Example C81_example :
  Forall (fun o => wf_type (otype o)) ex_objects /\ (tuple_count ex_objects ex_params < 2 ^ 31)%Z /\
  (let* g := param_gen (create_object_map ex_objects) ex_params in
   let* h := param_gen (create_object_map ex_objects) [mkObj "a" ["tool"; "thing"; "object"] (KVar 0)] in
   let* ' (rs, _) := pa_run (SH := collide) ex_objects [g; h]
     [PaLen 0; PaAt 0 (-1); PaShow (OwnArgs 0); PaAt 0 6; PaLoop 1; PaNext 1; PaShow (SlotsOf 1); PaLoop 0; PaNext 2; PaNext 2;
      PaShow (SlotsOf 2); PaNext 1; PaShow (SlotsOf 1); PaNext 1; PaNext 1; PaShow (SlotsOf 1); PaShow (OwnArgs 0)] [] in Ok rs) =
  Ok [PaNumber 6; PaList (OwnArgs 0); PaNames ["box"; "box"]; PaIndexError; PaIterator 1; PaList (SlotsOf 1); PaNames ["hook"];
      PaIterator 2; PaList (SlotsOf 2); PaList (SlotsOf 2); PaNames ["hook"; "hook"]; PaList (SlotsOf 1); PaNames ["box"];
      PaStop; PaStop; PaNames ["box"]; PaNames ["box"; "box"]] /\
  py_call_text ex_objects BpPddl "place" ["hook"; "table"] = Ok "place(hook, table)" /\
  py_call_text ex_objects BpPddl "place" ["table"] = Ok "place(table)" /\
  py_call_text ex_objects BpPddl "place" ["shelf"] = Throw ERuntime.
Proof. split; [exact ex_objects_wf|]. vm_compute. repeat split. Qed.
