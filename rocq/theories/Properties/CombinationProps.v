(** C09-C12: CombinationGenerator. *)
From Coq Require Import List ZArith.
From Verif.Model Require Import Base CombinationGenerator.
From Verif.Spec Require Import CartesianSpec.
From Verif.Proofs Require Import CombinationFacts CombinationMoves.
Import ListNotations.
Local Open Scope Z_scope.

Definition ex_options : list (list nat) := [[1; 2]; [3; 4; 5]; [6; 7]]%nat.
Lemma ex_options_good : good_options ex_options.
Proof. repeat split; try discriminate. repeat constructor; discriminate. Qed.

(** C09. Traversal yields the cartesian product; [fuel] bounds the loop. *)
Theorem C09_enumerates : forall A (dflt : A) options fuel,
  good_options options -> product options <= Z.of_nat fuel ->
  exists g, make_gen options = Ok g /\ g_size g = product options /\
    gen_traverse dflt fuel g = Ok (cart options).
Proof. exact @C09_traverse_lemma. Qed.
Print Assumptions C09_enumerates.

(** C09. What the list [cart options] is: exactly the combinations, as many as
    the product of the sizes, without repetition if the options have none. *)
Theorem C09_product_members : forall A (options : list (list A)) c,
  In c (cart options) <-> Forall2 (fun x o => In x o) c options.
Proof. exact @In_cart. Qed.
Print Assumptions C09_product_members.

Theorem C09_product_distinct : forall A (options : list (list A)),
  Forall (@NoDup A) options -> NoDup (cart options).
Proof. exact @NoDup_cart. Qed.
Print Assumptions C09_product_distinct.

Theorem C09_product_count : forall A (options : list (list A)),
  Z.of_nat (length (cart options)) = product options.
Proof. exact @cart_length. Qed.
Print Assumptions C09_product_count.

(** C09. No options: nothing is generated (not one empty combination). *)
Theorem C09_no_options : forall A (dflt : A) fuel,
  exists g : gen A, make_gen [] = Ok g /\ g_size g = 0 /\ gen_traverse dflt fuel g = Ok [].
Proof. exact @C09_no_options_lemma. Qed.
Print Assumptions C09_no_options.

(** C09. An empty option is rejected. *)
Theorem C09_empty_option : forall A (options : list (list A)),
  In [] options -> make_gen options = Throw EInvalidArgument.
Proof. exact @C09_empty_option_lemma. Qed.
Print Assumptions C09_empty_option.

Example C09_example : good_options ex_options /\
  bind (make_gen ex_options) (gen_traverse 0%nat 12) =
  Ok [[1;3;6]; [1;3;7]; [1;4;6]; [1;4;7]; [1;5;6]; [1;5;7];
      [2;3;6]; [2;3;7]; [2;4;6]; [2;4;7]; [2;5;6]; [2;5;7]]%nat.
Proof. split; [exact ex_options_good|reflexivity]. Qed.

(** C10. find returns the least index of an equal combination, and raises
    out_of_range exactly when some element is missing from its option.
    [key] is what == compares. *)
Theorem C10_find : forall A (dflt : A) eqb K (key : A -> K) options comb,
  (forall x y, eqb x y = true <-> key x = key y) ->
  good_options options -> length comb = length options ->
  exists g, make_gen options = Ok g /\
    ((Forall2 (fun x o => In (key x) (map key o)) comb options /\
      exists j c', gen_find eqb g comb = Ok j /\ gen_index dflt g j = Ok c' /\
        map key c' = map key comb /\
        forall j' c'', 0 <= j' < j -> gen_index dflt g j' = Ok c'' -> map key c'' <> map key comb) \/
     (~ Forall2 (fun x o => In (key x) (map key o)) comb options /\
      gen_find eqb g comb = Throw EOutOfRange)).
Proof. exact @C10_least_lemma. Qed.
Print Assumptions C10_find.

Theorem C10_inverse : forall A (dflt : A) eqb K (key : A -> K) options,
  (forall x y, eqb x y = true <-> key x = key y) ->
  good_options options -> Forall (fun o => NoDup (map key o)) options ->
  exists g, make_gen options = Ok g /\
    forall i, 0 <= i < g_size g ->
      exists c, gen_index dflt g i = Ok c /\ gen_find eqb g c = Ok i.
Proof. exact @C10_inverse_lemma. Qed.
Print Assumptions C10_inverse.

Example C10_example :
  bind (make_gen ex_options) (fun g => gen_find Nat.eqb g [2; 3; 7]%nat) = Ok 7 /\
  bind (make_gen ex_options) (fun g => gen_index 0%nat g 7) = Ok [2; 3; 7]%nat /\
  bind (make_gen ex_options) (fun g => gen_find Nat.eqb g [2; 9; 7]%nat) = Throw EOutOfRange.
Proof. repeat split. Qed.

(** C11. Any moves that stay within [0, size).  Missing for the full claim:
    sequences that visit a position outside the range and come back. *)
Theorem C11_moves_partial : forall A (dflt : A) options ns,
  good_options options -> stays_in_range options 0 ns ->
  exists g b it, make_gen options = Ok g /\ gen_begin dflt g = Ok b /\
    it_moves dflt g ns b = Ok it /\ it_idx it = fold_left Z.add ns 0 /\
    Some (it_comb it) = combination_at options (fold_left Z.add ns 0).
Proof. exact @C11_lemma. Qed.
Print Assumptions C11_moves_partial.

(** C11. Reverse iteration is correct if every option after the first has at
    least two elements. *)
Theorem C11_reverse_partial : forall A (dflt : A) options fuel,
  good_options options -> Forall (fun o : list A => (2 <= length o)%nat) (tl options) ->
  product options <= Z.of_nat fuel ->
  exists g, make_gen options = Ok g /\ gen_rtraverse dflt fuel g = Ok (rev (cart options)).
Proof. exact @C11_reverse_lemma. Qed.
Print Assumptions C11_reverse_partial.

(** C11. Steps of ++ and -- within [begin, end] from begin() always show the
    combination of the position; from end() the slots with a single choice,
    except the first, stay default-constructed. *)
Theorem C11_steps_partial : forall A (dflt : A) options (back : bool) ns, good_options options ->
  let start := if back then product options else 0 in
  Forall (fun n => n = 1 \/ n = -1) ns ->
  (forall k, (k <= length ns)%nat -> 0 <= fold_left Z.add (firstn k ns) start <= product options) ->
  fold_left Z.add ns start < product options ->
  exists g it0 it c, make_gen options = Ok g /\ (if back then gen_end dflt g else gen_begin dflt g) = Ok it0 /\
    it_moves dflt g ns it0 = Ok it /\ it_idx it = fold_left Z.add ns start /\
    combination_at options (fold_left Z.add ns start) = Some c /\
    it_comb it = if back then blank_tail dflt options c else c.
Proof. exact @C11_steps_lemma. Qed.
Print Assumptions C11_steps_partial.

(** C11. Reverse iteration, whatever the sizes of the options. *)
Theorem C11_reverse_exact : forall A (dflt : A) options fuel,
  good_options options -> product options <= Z.of_nat fuel ->
  exists g, make_gen options = Ok g /\
    gen_rtraverse dflt fuel g = Ok (rev (map (blank_tail dflt options) (cart options))).
Proof. exact @C11_reverse_exact_lemma. Qed.
Print Assumptions C11_reverse_exact.

(** C11. What any moves among positions that are not negative show: every slot
    shows what was last written to it, see [written]. *)
Theorem C11_exact : forall A (dflt : A) options (back : bool) ns, good_options options ->
  let start := if back then product options else 0 in
  Forall (fun p => 0 <= p < 2 ^ 31) (positions start ns) ->
  hd 0 (positions start ns) < product options ->
  exists g it0 it, make_gen options = Ok g /\ (if back then gen_end dflt g else gen_begin dflt g) = Ok it0 /\
    it_moves dflt g ns it0 = Ok it /\ it_idx it = hd 0 (positions start ns) /\
    length (it_comb it) = length options /\
    forall k o, nth_error options k = Some o ->
      nth_error (it_comb it) k =
      match written options k (positions start ns) with
      | Some p => nth_error o (Z.to_nat (digit_at options k p))
      | None => Some dflt
      end.
Proof. exact @C11_exact_lemma. Qed.
Print Assumptions C11_exact.

(** C11. The digits are those of the combination at a position. *)
Theorem C11_digits : forall A (options : list (list A)) i c k o,
  Forall (fun o => o <> []) options ->
  combination_at options i = Some c -> nth_error options k = Some o ->
  nth_error c k = nth_error o (Z.to_nat (digit_at options k i)).
Proof. intros A options i c k o H. exact (combination_slot options H i c k o). Qed.
Print Assumptions C11_digits.

Example C11_exact_example :
  bind (make_gen ex_options) (fun g => bind (gen_begin 0%nat g) (it_moves 0%nat g [11; 1; -1; -3; 5; -4])) =
  Ok (mkIter 9 [2; 4; 6]%nat) /\ combination_at ex_options 9 = Some [2; 4; 7]%nat /\
  map (fun k => written ex_options k (positions 0 [11; 1; -1; -3; 5; -4])) [0; 1; 2]%nat = [Some 9; Some 9; Some 8] /\
  bind (make_gen [[1; 2]; [3]; [4; 5]]%nat) (gen_rtraverse 0%nat 4) = Ok [[2; 0; 5]; [2; 0; 4]; [1; 0; 5]; [1; 0; 4]]%nat /\
  bind (make_gen [[1; 2]; [3]]%nat) (fun g => bind (gen_begin 0%nat g) (it_moves 0%nat g [1; 1; -1; -1; 1])) =
  Ok (mkIter 1 [2; 3]%nat).
Proof. repeat split. Qed.

(** C11. False for reverse iteration in general: a slot with one element keeps
    its default-constructed value. *)
Theorem C11_reverse_refuted : exists (options : list (list nat)) fuel l,
  good_options options /\ product options <= Z.of_nat fuel /\
  bind (make_gen options) (gen_rtraverse 0%nat fuel) = Ok l /\ l <> rev (cart options).
Proof.
  exists [[1; 2]; [3]]%nat, 5%nat, [[2; 0]; [1; 0]]%nat. repeat split; try discriminate.
  repeat constructor; discriminate.
Qed.
Print Assumptions C11_reverse_refuted.

(** C11. False when the iterator walks past the end and back: the combination
    at position 2 shows a stale digit. *)
Theorem C11_moves_refuted : exists (options : list (list nat)) ns it,
  good_options options /\ 0 <= fold_left Z.add ns 0 < product options /\
  bind (make_gen options) (fun g => bind (gen_begin 0%nat g) (it_moves 0%nat g ns)) = Ok it /\
  it_idx it = fold_left Z.add ns 0 /\
  Some (it_comb it) <> combination_at options (fold_left Z.add ns 0).
Proof.
  exists [[1; 2]; [3; 4]]%nat, [3; 1; -2], (mkIter 2 [2; 4]%nat). repeat split; try discriminate.
  repeat constructor; discriminate.
Qed.
Print Assumptions C11_moves_refuted.

Example C11_example : stays_in_range ex_options 0 [5; -3; 1; 7] /\
  bind (make_gen ex_options) (fun g => bind (gen_begin 0%nat g) (it_moves 0%nat g [5; -3; 1; 7])) =
  Ok (mkIter 10 [2; 5; 6]%nat).
Proof. split; [cbn; repeat split; discriminate|reflexivity]. Qed.

(** C12. at(i) for every int. *)
Theorem C12_at : forall A (dflt : A) options i,
  good_options options -> - 2 ^ 31 <= i < 2 ^ 31 ->
  exists g, make_gen options = Ok g /\
    gen_at dflt g i =
    match combination_at options (if i <? 0 then i + product options else i) with
    | Some c => Ok c
    | None => Throw EOutOfRange
    end.
Proof. exact @C12_lemma. Qed.
Print Assumptions C12_at.

Example C12_example :
  bind (make_gen ex_options) (fun g => gen_at 0%nat g (-1)) = Ok [2; 5; 7]%nat /\
  bind (make_gen ex_options) (fun g => gen_at 0%nat g (-12)) = Ok [1; 3; 6]%nat /\
  bind (make_gen ex_options) (fun g => gen_at 0%nat g (-13)) = Throw EOutOfRange /\
  bind (make_gen ex_options) (fun g => gen_at 0%nat g 12) = Throw EOutOfRange.
Proof. repeat split. Qed.
