(** A domain with all constructs that are printed. *)
From Coq Require Import Ascii String List Bool Arith Lia.
From Verif.Model Require Import Base Object Proposition State Syntax Derived Print Listing.
From Verif.Spec Require Import TextSpec EffectSpec ConstructSpec ListingSpec.
From Verif.Proofs Require Import ListingFacts.
Import ListNotations.
Local Open Scope string_scope.
Local Open Scope list_scope.

(** ** Deciding the hypotheses *)
Definition plain_b (w : string) : bool :=
  negb (String.eqb w "") && forallb (fun c => negb (existsb (Ascii.eqb c) (white ++ punctuation))) (chars w).
Lemma plain_b_ok w : plain_b w = true -> plain w.
Proof.
  unfold plain_b. rewrite andb_true_iff, negb_true_iff, String.eqb_neq, forallb_forall. intros [N F]. split; auto.
  intros c I K. specialize (F c I). rewrite negb_true_iff in F.
  assert (X : existsb (Ascii.eqb c) (white ++ punctuation) = true) by (apply existsb_exists; exists c; split; auto; apply Ascii.eqb_refl).
  congruence.
Qed.
Lemma words_ok l : forallb plain_b l = true -> Forall plain l.
Proof. rewrite forallb_forall, Forall_forall. intros H x I. apply plain_b_ok; auto. Qed.
Lemma symbols_ok l : forallb (fun x => plain_b (oname x) && forallb plain_b (otype x)) l = true -> plain_symbols l.
Proof.
  rewrite forallb_forall. intros H x I. specialize (H x I). apply andb_true_iff in H. destruct H as [A B].
  split; [apply plain_b_ok; auto|apply words_ok; auto].
Qed.
Lemma typed_ok l : forallb (fun x => match otype x with [] => false | _ => true end) l = true -> typed l.
Proof. rewrite forallb_forall. intros H x I E. specialize (H x I). rewrite E in H. discriminate. Qed.
Lemma understood_ok g : supported g = true -> understood g.
Proof.
  intros H O. remember GOther as h eqn:Eh. revert H. induction O; subst; cbn [supported]; try discriminate; auto; intros H';
    rewrite ?forallb_forall in H'; auto.
Qed.

(** ** The domain *)
Definition l_type : pddl_type := ["thing"; "object"].
Definition l_var (n : string) (i : nat) : object := mkObj n l_type (KVar i).
Definition l_room : object := mkObj "room" l_type KConst.
Definition tidy : op :=
  mkOp "tidy" false [l_var "x" 0]
    (GConj [GNeg (GSimple "in" [l_var "x" 0; l_room]);
            GDisj [GForall [l_var "y" 1] (GSimple "light" [l_var "y" 1]); GExists [l_var "z" 2] (GConj [])]])
    (Effs [([l_var "y" 3], Effs [] [mkProp "seen" [l_var "y" 3]] [] [])]
       [mkProp "in" [l_var "x" 0; l_room]] [mkProp "dusty" []]
       [(GSimple "light" [l_var "x" 0], Effs [] [] [mkProp "light" [l_var "x" 0]] [])]).
Definition demo : val_domain :=
  mkValDomain "demo" ":strips" [l_type] [l_room] [("in", [l_var "x" 4; l_var "y" 5]); ("dusty", [])] [tidy] [].
Definition demo_problem : val_problem :=
  mkValProblem "p" "demo" "" [mkObj "box" l_type KConst]
    (Effs [] [mkProp "in" [mkObj "box" l_type KConst; l_room]] [] []) (GNeg (GSimple "dusty" [])).
(** The same printed otherwise: an axiom in place of the action, a constant in
    place of the variable, another supertype, a derived predicate. *)
Definition demo_axiom : val_domain :=
  mkValDomain "demo" ":strips" [["thing"; "object"; "root"]] [mkObj "room" ["thing"] KConst] (vd_predicates demo)
    [mkOp "tidy" true [mkObj "x" l_type KConst] (op_pre tidy) (op_effs tidy)]
    [mkDer "dusty" [] (GConj [])].
(** Without types. *)
Definition demo_untyped : val_domain :=
  mkValDomain "demo" ":strips" [] [mkObj "room" [] KConst] [] [] [].
(** An unknown kind of formula. *)
Definition demo_other : val_domain :=
  mkValDomain "demo" ":strips" [] [] [] [mkOp "go" false [] (GConj [GConj []; GOther]) (Effs [] [] [] [])] [].

Definition ex_address : address := fun _ => "0x5".
Lemma ex_address_plain : plain_addresses ex_address.
Proof. intros p I. cbn in I. intuition discriminate. Qed.

Lemma free_ok c s : existsb (Ascii.eqb c) (chars s) = false -> free_of c s.
Proof. intros H I. assert (X : existsb (Ascii.eqb c) (chars s) = true) by (apply existsb_exists; exists c; split; auto; apply Ascii.eqb_refl). congruence. Qed.

Lemma demo_plain : plain_domain demo.
Proof.
  split; [apply free_ok; reflexivity|]. split; [apply free_ok; reflexivity|].
  split; [intros t [<-|[]]; apply words_ok; reflexivity|]. split; [apply symbols_ok; reflexivity|].
  split; [intros p [<-|[<-|[]]]; apply plain_b_ok; reflexivity|].
  intros o [<-|[]]. split; [apply plain_b_ok; reflexivity|]. split; apply words_ok; reflexivity.
Qed.
Lemma demo_axiom_plain : plain_domain demo_axiom.
Proof.
  split; [apply free_ok; reflexivity|]. split; [apply free_ok; reflexivity|].
  split; [intros t [<-|[]]; apply words_ok; reflexivity|]. split; [apply symbols_ok; reflexivity|].
  split; [intros p [<-|[<-|[]]]; apply plain_b_ok; reflexivity|].
  intros o [<-|[]]. split; [apply plain_b_ok; reflexivity|]. split; apply words_ok; reflexivity.
Qed.
Lemma demo_problem_plain : plain_problem demo_problem.
Proof.
  split; [apply free_ok; reflexivity|]. split; [apply free_ok; reflexivity|]. split; [apply free_ok; reflexivity|].
  split; [apply symbols_ok; reflexivity|]. split; apply words_ok; reflexivity.
Qed.
Lemma demo_typed : typed_domain demo.
Proof. split; [intros t [<-|[]]; cbn; lia|apply typed_ok; reflexivity]. Qed.
Lemma demo_understood : Forall understood (domain_goals demo).
Proof. repeat apply Forall_cons; try apply Forall_nil; apply understood_ok; reflexivity. Qed.

(** The lines of a text. *)
Definition tabs (n : nat) (s : string) : string := (padding n ++ s)%string.
Definition demo_lines : list string :=
  ["DOMAIN"; "======"; "Name: demo"; "Requirements: :strips"; "Types: "; tabs 1 "thing: object [0x5]";
   "Constants: "; tabs 1 "room [0x5]: thing";
   "Predicates:"; tabs 1 "in(x [0x5]: thing, y [0x5]: thing) [0x5]"; tabs 1 "dusty() [0x5]";
   "Actions: "; tabs 1 "tidy(x [0x5]: thing)";
   tabs 2 "Preconditions:"; tabs 3 "and:"; tabs 4 "neg:"; tabs 5 "in(x [0x5]: thing, room [0x5]: thing) [0x5]";
   tabs 4 "or:"; tabs 5 "forall(y [0x5]: thing):"; tabs 6 "light(y [0x5]: thing) [0x5]";
   tabs 5 "exists(z [0x5]: thing):"; tabs 6 "and:";
   tabs 2 "Effects:"; tabs 3 "(+) in(x [0x5]: thing, room [0x5]: thing) [0x5]"; tabs 3 "(-) dusty() [0x5]";
   tabs 3 "forall(y [0x5]: thing):"; tabs 4 "(+) seen(y [0x5]: thing) [0x5]";
   tabs 3 "when:"; tabs 4 "light(x [0x5]: thing) [0x5]"; tabs 3 "then:"; tabs 4 "(-) light(x [0x5]: thing) [0x5]"].
