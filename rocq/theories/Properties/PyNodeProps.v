(** C80: nodes and loops over their children in Python. *)
From Coq Require Import Ascii String List Bool NArith ZArith Arith Lia.
From Verif.Model Require Import Base Object Proposition State CombinationGenerator ParameterGenerator Syntax Formula
  Effects Derived Consistency Text Search Pddl Planner PlannerSteps PyNode.
From Verif.Spec Require Import SetSpec TypingSpec FormulaSpec EffectSpec DerivedSpec TextSpec PddlSpec PlannerSpec PyNodeSpec.
From Verif.Proofs Require Import EffectExamples AxiomExamples DerivedExamples PddlExamples PlannerExamples PyNodeFacts.
From Verif.Properties Require Import StateProps.
Import ListNotations.
Local Open Scope string_scope.
Local Open Scope list_scope.

(** C80. Any program with any number of nodes and loops over their children, nested
    in any way, that does not use a child object after its loop has ended, does
    not go on with a loop over the children of a child object after that loop's
    iterator has moved on, and does not drop the Pddl, sees nodes as values and
    iterators as lists of the successors.  The memo tables that the loops share do
    not show. *)
Theorem C80_programs : forall (SH : StdHash) L p ar rank drank, good_domain L p ar rank drank ->
  Forall (fun o => (tuple_count (pd_symbols p) (op_params o) < 2 ^ 31)%Z) (pd_ops p) -> pd_actions p <> [] ->
  Forall (fun o => oname o <> "") (pd_symbols p) -> ordinary_domain p ->
  exists K0, forall K, K0 <= K -> exists kids : node -> list node,
    (forall n, built (nd_state n) -> Forall built (nd_ancestors n) ->
      (forall t, represents (nd_state n) t -> successors L p n t (applicable p t) (kids n)) /\
      forall st, reachable_store (pd_symbols p) ar (pd_axioms p) st ->
        exists st', node_children L p K n st = Ok (kids n, st')) /\
    forall roots ops rs st, Forall (fun n => built (nd_state n) /\ Forall built (nd_ancestors n)) roots ->
      reachable_store (pd_symbols p) ar (pd_axioms p) st ->
      a_run kids ops (map ANode roots) = Some rs -> exists w', pn_run L p K ops (pn_start roots st) = Ok (rs, w').
Proof. exact @C80_programs_lemma. Qed.
Print Assumptions C80_programs.

(** A loop over a node sees the children in order and then only StopIteration;
    what it gets is the same object every time; copies made in the loop stay. *)
Theorem C80_loop : forall (SH : StdHash) L p ar rank drank, good_domain L p ar rank drank ->
  Forall (fun o => (tuple_count (pd_symbols p) (op_params o) < 2 ^ 31)%Z) (pd_ops p) -> pd_actions p <> [] ->
  Forall (fun o => oname o <> "") (pd_symbols p) -> ordinary_domain p ->
  exists K0, forall K n cs st0 st0' st m, K0 <= K -> built (nd_state n) -> Forall built (nd_ancestors n) ->
    reachable_store (pd_symbols p) ar (pd_axioms p) st0 -> reachable_store (pd_symbols p) ar (pd_axioms p) st ->
    node_children L p K n st0 = Ok (cs, st0') ->
    (exists w', pn_run L p K (PnIter (Owned 0) :: concat (repeat [PnNext 1; PnShow (ViewOf 1)] (List.length cs)) ++
        repeat (PnNext 1) m) (pn_start [n] st) =
      Ok (PnIterator 1 :: flat_map (fun c => [PnRef (ViewOf 1); PnValue c]) cs ++ repeat PnStop m, w')) /\
    exists w', pn_run L p K (PnIter (Owned 0) :: concat (repeat [PnNext 1; PnCopy (ViewOf 1)] (List.length cs)) ++ PnNext 1 ::
        map (fun j => PnShow (Owned j)) (seq 2 (List.length cs))) (pn_start [n] st) =
      Ok (PnIterator 1 :: flat_map (fun j => [PnRef (ViewOf 1); PnRef (Owned j)]) (seq 2 (List.length cs)) ++
          PnStop :: map PnValue cs, w').
Proof. exact @C80_loop_lemma. Qed.
Print Assumptions C80_loop.

(** Nothing keeps the Pddl alive: in a program that goes well, after its end there
    are no loops, and only States without propositions are read. *)
Theorem C80_dropped : forall (SH : StdHash) L p K ops1 ops2 w rs w',
  pn_run L p K (ops1 ++ PnDrop :: ops2) w = Ok (rs, w') ->
  exists rs1 rs2, rs = rs1 ++ PnDone :: rs2 /\ List.length rs1 = List.length ops1 /\
    Forall2 (fun o r => match o with
                        | PnCopy _ | PnDrop => True
                        | PnShow _ => exists n, r = PnValue n /\ st_elements (nd_state n) = []
                        | PnIter _ | PnNext _ => False
                        end) ops2 rs2.
Proof. exact @C80_dropped_lemma. Qed.
Print Assumptions C80_dropped.

(** From b there are roads to a and c, from a to c and d, and from c to d. *)
Definition ex_root : node := root_node (run (SH := collide) (map Ins
  [sp "far" "a"; sp "far" "c"; sp "far" "d"; sp "at" "b"; sp "seen" "a"; sp "seen" "b"; sp "seen" "c"; sp "seen" "d";
   road "b" "a"; road "b" "c"; road "a" "c"; road "a" "d"; road "c" "d"])).
Definition ex_result (r : pn_result) : string :=
  match r with
  | PnRef (Owned _) => "node"
  | PnRef (ViewOf _) => "child"
  | PnIterator _ => "iterator"
  | PnValue n => nd_action n
  | PnStop => "stop"
  | PnDone => "done"
  end.
Definition ex_program (ops : list pn_op) : outcome (list string) :=
  let* ' (rs, _) := pn_run (SH := collide) ex_limits (map_pddl true "c") 60 ops (pn_start [ex_root] no_store) in
  Ok (map ex_result rs).

(** list(node): the objects in the list are one object, which shows what was tried
    last; that need not be a child. *)
Theorem C80_list_refuted : exists (SH : StdHash) L p ar rank drank n c1 c2 x st w,
  good_domain L p ar rank drank /\ built (nd_state n) /\ nd_ancestors n = [] /\
  node_children L p 60 n no_store = Ok ([c1; c2], st) /\
  pn_run L p 60 [PnIter (Owned 0); PnNext 1; PnNext 1; PnNext 1; PnShow (ViewOf 1)] (pn_start [n] no_store) =
    Ok ([PnIterator 1; PnRef (ViewOf 1); PnRef (ViewOf 1); PnStop; PnValue x], w) /\
  ~ In (nd_action x) (map nd_action [c1; c2]).
Proof.
  exists collide, ex_limits, (map_pddl true "c"), map_arity, (fun _ => 0), (fun _ => 0), ex_root. do 5 eexists.
  split; [apply map_good; cbn; auto|]. split; [eexists; reflexivity|]. split; [reflexivity|].
  split; [vm_compute; reflexivity|]. split; [vm_compute; reflexivity|]. cbn. intuition discriminate.
Qed.
Print Assumptions C80_list_refuted.

(** A loop over the children of a child, interrupted by a step of the outer
    loop, goes on from another node. *)
Theorem C80_inner_refuted : exists (SH : StdHash) L p ar rank drank n c1 c2 d1 d2 x st st' w,
  good_domain L p ar rank drank /\ built (nd_state n) /\ nd_ancestors n = [] /\
  node_children L p 60 n no_store = Ok ([c1; c2], st) /\ node_children L p 60 c1 st = Ok ([d1; d2], st') /\
  pn_run L p 60 [PnIter (Owned 0); PnNext 1; PnIter (ViewOf 1); PnNext 2; PnShow (ViewOf 2); PnNext 1; PnNext 2; PnShow (ViewOf 2)]
      (pn_start [n] no_store) =
    Ok ([PnIterator 1; PnRef (ViewOf 1); PnIterator 2; PnRef (ViewOf 2); PnValue d1; PnRef (ViewOf 1); PnRef (ViewOf 2); PnValue x], w) /\
  is_valid_action p (nd_state c1) (nd_action d2) = Ok true /\ is_valid_action p (nd_state c1) (nd_action x) = Ok false.
Proof.
  exists collide, ex_limits, (map_pddl true "c"), map_arity, (fun _ => 0), (fun _ => 0), ex_root. do 8 eexists.
  split; [apply map_good; cbn; auto|]. split; [eexists; reflexivity|]. split; [reflexivity|].
  split; [vm_compute; reflexivity|]. split; [vm_compute; reflexivity|]. split; [vm_compute; reflexivity|].
  split; vm_compute; reflexivity.
Qed.
Print Assumptions C80_inner_refuted.

Example C80_example :
  let p := map_pddl true "c" in
  good_domain ex_limits p map_arity (fun _ => 0) (fun _ => 0) /\
  Forall (fun o => (tuple_count (pd_symbols p) (op_params o) < 2 ^ 31)%Z) (pd_ops p) /\ pd_actions p <> [] /\
  Forall (fun o => oname o <> "") (pd_symbols p) /\ ordinary_domain p /\ built (SH := collide) (nd_state ex_root) /\
  (** for c in node: for d in c: ... *)
  ex_program [PnIter (Owned 0); PnNext 1; PnShow (ViewOf 1);
              PnIter (ViewOf 1); PnNext 2; PnShow (ViewOf 2); PnNext 2; PnShow (ViewOf 2); PnNext 2;
              PnNext 1; PnShow (ViewOf 1);
              PnIter (ViewOf 1); PnNext 3; PnShow (ViewOf 3); PnNext 3;
              PnNext 1; PnNext 1] =
    Ok ["iterator"; "child"; "go(b, a)"; "iterator"; "child"; "go(a, c)"; "child"; "go(a, d)"; "stop";
        "child"; "go(b, c)"; "iterator"; "child"; "go(c, d)"; "stop"; "stop"; "stop"] /\
  (** copies *)
  ex_program [PnIter (Owned 0); PnNext 1; PnCopy (ViewOf 1); PnNext 1; PnCopy (ViewOf 1); PnNext 1; PnShow (Owned 2); PnShow (Owned 3)] =
    Ok ["iterator"; "child"; "node"; "child"; "node"; "stop"; "go(b, a)"; "go(b, c)"] /\
  ex_program [PnIter (Owned 0); PnDrop; PnCopy (Owned 0)] = Ok ["iterator"; "done"; "node"] /\
  ex_program [PnIter (Owned 0); PnDrop; PnNext 1] = UB.
Proof.
  cbn zeta. split; [apply map_good; cbn; auto|]. destruct (map_words true "c") as (_ & _ & _ & Hc & Ha & Ho).
  split; [exact Hc|]. split; [exact Ha|]. split; [repeat constructor; discriminate|]. split; [exact Ho|].
  split; [eexists; reflexivity|]. vm_compute. repeat split.
Qed.
