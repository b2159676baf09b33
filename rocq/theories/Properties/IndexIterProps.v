(** C82: iterators over state indexes. *)
From Coq Require Import String Ascii List Bool ZArith Lia.
From Verif.Model Require Import Base Object Proposition State StateIndex IndexIter.
From Verif.Spec Require Import TypingSpec EffectSpec SetSpec IndexSpec IndexIterSpec.
From Verif.Proofs Require Import IndexTheorems IndexRound IndexExamples IndexIterFacts.
From Verif.Properties Require Import StateProps.
Import ListNotations.
Local Open Scope string_scope.
Local Open Scope list_scope.
Local Open Scope Z_scope.

(** C82. Any program with any number of iterators over any number of indexes that
    keeps them between begin and end: they are positions in the numbered lists of
    propositions, whatever was asked of the indexes before. *)
Theorem C82_programs : forall (SH : StdHash) doms sis qss,
  Forall2 (fun d si => indexable (fst d) (snd d) /\ ground_count (fst d) (snd d) < 2 ^ 31 /\
                       exists use, index_of (fst d) (snd d) use = Ok si) doms sis ->
  Forall (Forall plain_query) qss -> List.length qss = List.length sis ->
  forall ops rs, p_run (nth_error (map (fun d => numbering (fst d) (snd d)) doms)) ops [] = Some rs ->
  exists w, x_run sis ops (mkXWorld (map (fun sq => caches_after (fst sq) (snd sq)) (combine sis qss)) []) = Ok (rs, w).
Proof. exact @C82_programs_lemma. Qed.
Print Assumptions C82_programs.

(** Loops upwards and downwards see the list and the reversed list; end - begin is
    its length and begin[n] its elements. *)
Theorem C82_loops : forall (SH : StdHash) objects decls use si qs,
  indexable objects decls -> ground_count objects decls < 2 ^ 31 ->
  index_of objects decls use = Ok si -> Forall plain_query qs ->
  let l := numbering objects decls in
  let run ops rs := exists w, x_run [si] ops (mkXWorld [caches_after si qs] []) = Ok (rs, w) in
  run (XBegin 0 :: concat (repeat [XDeref 0; XRead (Some 0%nat); XMove 0 1] (List.length l)) ++ [XEnd 0; XEq 0 1])
      (XIter 0 :: flat_map (fun p => [XRef (Some 0%nat); XProp p; XDone]) l ++ [XIter 1; XBool true]) /\
  run (XEnd 0 :: concat (repeat [XMove 0 (-1); XDeref 0; XRead (Some 0%nat)] (List.length l)) ++ [XBegin 0; XEq 0 1])
      (XIter 0 :: flat_map (fun p => [XDone; XRef (Some 0%nat); XProp p]) (rev l) ++ [XIter 1; XBool true]) /\
  run (XBegin 0 :: XEnd 0 :: XDiff 1 0 :: map (fun n => XAt 0 (Z.of_nat n)) (seq 0 (List.length l)))
      (XIter 0 :: XIter 1 :: XNumber (Z.of_nat (List.length l)) :: map XProp l).
Proof. exact @C82_loops_lemma. Qed.
Print Assumptions C82_loops.

(** The iterator says that it is a random access iterator, but
    std::reverse_iterator returns a reference into an iterator that is gone. *)
Theorem C82_reverse_refuted : forall (SH : StdHash) objects decls use si qs n,
  indexable objects decls -> ground_count objects decls < 2 ^ 31 ->
  index_of objects decls use = Ok si -> Forall plain_query qs -> 1 <= n <= ground_count objects decls ->
  let w := mkXWorld [caches_after si qs] [] in
  (exists w', x_run [si] [XBegin 0; XMove 0 n; XReverse 0] w = Ok ([XIter 0; XDone; XRef None], w')) /\
  x_run [si] [XBegin 0; XMove 0 n; XReverse 0; XRead None] w = UB.
Proof. exact @C82_reverse_lemma. Qed.
Print Assumptions C82_reverse_refuted.

(** References are not to elements: what one shows changes when its iterator is
    read elsewhere, and equal iterators refer to different objects. *)
Theorem C82_reference_refuted : exists (SH : StdHash) objects decls si p q,
  indexable objects decls /\ ground_count objects decls < 2 ^ 31 /\ index_of objects decls true = Ok si /\
  (exists w, x_run [si] [XBegin 0; XDeref 0; XRead (Some 0%nat); XMove 0 1; XRead (Some 0%nat); XDeref 0; XRead (Some 0%nat)]
     (mkXWorld [no_caches] []) =
   Ok ([XIter 0; XRef (Some 0%nat); XProp p; XDone; XProp p; XRef (Some 0%nat); XProp q], w)) /\ p <> q /\
  (exists w, x_run [si] [XBegin 0; XCopy 0; XEq 0 1; XDeref 0; XDeref 1] (mkXWorld [no_caches] []) =
     Ok ([XIter 0; XIter 1; XBool true; XRef (Some 0%nat); XRef (Some 1%nat)], w)).
Proof.
  exists collide, ix_objs, ix_decls. do 3 eexists. split; [exact ex_indexable|]. split; [reflexivity|].
  split; [reflexivity|]. split; [eexists; vm_compute; reflexivity|]. split; [discriminate|]. eexists. vm_compute. reflexivity.
Qed.
Print Assumptions C82_reference_refuted.

(** Two indexes, the second of one predicate. *)
Example C82_example :
  indexable ix_objs ix_decls /\ ground_count ix_objs ix_decls < 2 ^ 31 /\
  indexable ix_objs [("open", [va "?x" "room"])] /\
  p_run (nth_error [numbering ix_objs ix_decls; numbering ix_objs [("open", [va "?x" "room"])]])
    [XBegin 0; XEnd 1; XBack 1 1; XDeref 1; XPost 0 1; XMove 0 5; XDeref 0; XRead (Some 0%nat); XRead (Some 1%nat);
     XEq 0 1; XNe 0 1; XLt 2 0; XGe 2 0; XLt 0 1; XLe 1 0; XDiff 0 2; XAt 2 6; XPlus 0 (-6); XEq 3 2] [] =
  Some [XIter 0; XIter 1; XDone; XRef (Some 1%nat); XIter 2; XDone; XRef (Some 0%nat);
        XProp (mkProp "open" [ob "r" "room"]); XProp (mkProp "open" [ob "r" "room"]);
        XBool false; XBool true; XBool true; XBool false; XBool false; XBool false; XNumber 6;
        XProp (mkProp "open" [ob "r" "room"]); XIter 3; XBool true] /\
  p_run (nth_error [numbering ix_objs ix_decls]) [XBegin 0; XMove 0 8] [] = None.
Proof.
  split; [exact ex_indexable|]. split; [reflexivity|]. split.
  - split; try discriminate; try reflexivity.
    + apply (ix_types _ _ ex_indexable).
    + apply (ix_objects _ _ ex_indexable).
    + repeat constructor. intros [].
    + repeat constructor. discriminate.
    + repeat constructor.
  - vm_compute. split; reflexivity.
Qed.
