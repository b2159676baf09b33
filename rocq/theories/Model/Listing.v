(** Printing a Pddl: src/pddl.cc 592-800.  A stream is the text written to it;
    what was written before an exception is not kept.

    Objects stand for the symbols of VAL as parsed, before Object replaces a
    missing type (object.cc 24-36): [otype] is [[]] if the pointer to the type is
    null. *)
From Coq Require Import Ascii String List Bool.
From Verif.Model Require Import Base Object Proposition State Syntax Derived Print.
Import ListNotations.
Local Open Scope string_scope.
Local Open Scope list_scope.
Local Infix "+++" := String.append (at level 60, right associativity).

(** Addresses are printed: any text for every place where one is printed.
    Places are given by the path to them. *)
Definition address : Type := list bool -> string.
Definition here (ad : address) : address := fun p => ad (false :: p).
Definition beyond (ad : address) : address := fun p => ad (true :: p).

(** The domain as parsed (VAL::domain), as far as it is printed, and its derived
    predicates (drvs).  [vd_reqs] is pddl_req_flags_string of the requirements.  A
    null list is printed like an empty one (721, 729, 737, 745). *)
Record val_domain : Type := mkValDomain {
  vd_name : string;
  vd_reqs : string;
  vd_types : list pddl_type;
  vd_constants : list object;
  vd_predicates : list (string * list object);
  vd_ops : list op;
  vd_derived : list derived
}.
(** VAL::problem *)
Record val_problem : Type := mkValProblem {
  vp_name : string;
  vp_domain : string;
  vp_reqs : string;
  vp_objects : list object;
  vp_init : effs;
  vp_goal : goal
}.

(** Loops that print one thing after the other. *)
Definition print_all {A} (f : address -> A -> outcome string) : address -> list A -> outcome string :=
  fix go ad l :=
    match l with
    | [] => Ok ""
    | x :: l' =>
        let* t := f (here ad) x in
        let* ts := go (beyond ad) l' in
        Ok (t +++ ts)
    end.

(** type->getName() *)
Definition type_of (t : pddl_type) : outcome string :=
  match t with [] => UB | n :: _ => Ok n end.

(** 697-707, PrintArgs, with 790-798 *)
Fixpoint print_args_loop (ad : address) (separator : string) (args : list object) : outcome string :=
  match args with
  | [] => Ok ""
  | x :: args' =>
      let* t := type_of (otype x) in
      let* ts := print_args_loop (beyond ad) (if String.eqb separator "" then ", " else separator) args' in
      Ok (separator +++ oname x +++ " [" +++ here ad [] +++ "]: " +++ t +++ ts)
  end.
Definition print_args (ad : address) (args : list object) : outcome string :=
  let* ts := print_args_loop ad "" args in Ok ("(" +++ ts +++ ")").

(** std::string padding(depth, '\t') *)
Fixpoint padding (depth : nat) : string :=
  match depth with O => "" | S d => tab +++ padding d end.

(** 602-674, PrintGoal *)
Fixpoint print_goal (depth : nat) (ad : address) (g : goal) : outcome string :=
  match g with
  | GSimple name args =>
      let* a := print_args (beyond ad) args in
      Ok (padding depth +++ name +++ a +++ " [" +++ here ad [] +++ "]" +++ endl)
  | GConj gs =>
      let* t := print_all (print_goal (S depth)) ad gs in
      Ok (padding depth +++ "and:" +++ endl +++ t)
  | GDisj gs =>
      let* t := print_all (print_goal (S depth)) ad gs in
      Ok (padding depth +++ "or:" +++ endl +++ t)
  | GNeg g =>
      let* t := print_goal (S depth) ad g in
      Ok (padding depth +++ "neg:" +++ endl +++ t)
  | GForall vars g =>
      let* a := print_args (here ad) vars in
      let* t := print_goal (S depth) (beyond ad) g in
      Ok (padding depth +++ "forall" +++ a +++ ":" +++ endl +++ t)
  | GExists vars g =>
      let* a := print_args (here ad) vars in
      let* t := print_goal (S depth) (beyond ad) g in
      Ok (padding depth +++ "exists" +++ a +++ ":" +++ endl +++ t)
  | GOther => Throw ERuntime
  end.

(** 784-788 with 680 and 683 *)
Definition print_literal (depth : nat) (sign : string) (ad : address) (p : prop) : outcome string :=
  let* a := print_args (beyond ad) (pargs p) in
  Ok (padding depth +++ sign +++ " " +++ pname p +++ a +++ " [" +++ here ad [] +++ "]" +++ endl).

(** 676-695, PrintEffects *)
Fixpoint print_effs (depth : nat) (ad : address) (e : effs) : outcome string :=
  match e with
  | Effs fs adds dels cs =>
      let* t1 := print_all (print_literal depth "(+)") (here ad) adds in
      let* t2 := print_all (print_literal depth "(-)") (here (beyond ad)) dels in
      let* t3 := print_all (fun ad (f : list object * effs) =>
                   let (vars, b) := f in
                   let* a := print_args (here ad) vars in
                   let* t := print_effs (S depth) (beyond ad) b in
                   Ok (padding depth +++ "forall" +++ a +++ ":" +++ endl +++ t))
                 (here (beyond (beyond ad))) fs in
      let* t4 := print_all (fun ad (c : goal * effs) =>
                   let (g, b) := c in
                   let* t := print_goal (S depth) (here ad) g in
                   let* t' := print_effs (S depth) (beyond ad) b in
                   Ok (padding depth +++ "when:" +++ endl +++ t +++ padding depth +++ "then:" +++ endl +++ t'))
                 (beyond (beyond (beyond ad))) cs in
      Ok (t1 +++ t2 +++ t3 +++ t4)
  end.

(** 722-725: [type->type->getName()] *)
Definition print_type (ad : address) (t : pddl_type) : outcome string :=
  match t with
  | [] => UB
  | n :: parent =>
      let* m := type_of parent in
      Ok (tab +++ n +++ ": " +++ m +++ " [" +++ here ad [] +++ "]" +++ endl)
  end.
(** 730-733 and 770-773 *)
Definition print_constant (ad : address) (x : object) : outcome string :=
  let* t := type_of (otype x) in
  Ok (tab +++ oname x +++ " [" +++ here ad [] +++ "]" +++ ": " +++ t +++ endl).
(** 738-741 *)
Definition print_predicate (ad : address) (p : string * list object) : outcome string :=
  let* a := print_args (beyond ad) (snd p) in
  Ok (tab +++ fst p +++ a +++ " [" +++ here ad [] +++ "]" +++ endl).
(** 746-754 *)
Definition print_op (ad : address) (o : op) : outcome string :=
  let* a := print_args (here ad) (op_params o) in
  let* g := print_goal 3 (here (beyond ad)) (op_pre o) in
  let* e := print_effs 3 (beyond (beyond ad)) (op_effs o) in
  Ok (tab +++ op_name o +++ a +++ endl +++
      tab +++ tab +++ "Preconditions:" +++ endl +++ g +++
      tab +++ tab +++ "Effects:" +++ endl +++ e).

(** 713-758 *)
Definition print_domain (ad : address) (d : val_domain) : outcome string :=
  let* t := print_all print_type (here ad) (vd_types d) in
  let* c := print_all print_constant (here (beyond ad)) (vd_constants d) in
  let* p := print_all print_predicate (here (beyond (beyond ad))) (vd_predicates d) in
  let* o := print_all print_op (beyond (beyond (beyond ad))) (vd_ops d) in
  Ok ("DOMAIN" +++ endl +++ "======" +++ endl +++
      "Name: " +++ vd_name d +++ endl +++
      "Requirements: " +++ vd_reqs d +++ endl +++
      "Types: " +++ endl +++ t +++
      "Constants: " +++ endl +++ c +++
      "Predicates:" +++ endl +++ p +++
      "Actions: " +++ endl +++ o).

(** 760-782; not called by anything in /repo *)
Definition print_problem (ad : address) (p : val_problem) : outcome string :=
  let* o := print_all print_constant (here ad) (vp_objects p) in
  let* i := print_effs 1 (here (beyond ad)) (vp_init p) in
  let* g := print_goal 1 (beyond (beyond ad)) (vp_goal p) in
  Ok ("PROBLEM" +++ endl +++ "=======" +++ endl +++
      "Name: " +++ vp_name p +++ endl +++
      "Domain: " +++ vp_domain p +++ endl +++
      "Requirements: " +++ vp_reqs p +++ endl +++
      "Objects:" +++ endl +++ o +++
      "Initial State:" +++ endl +++ i +++
      "Goal:" +++ endl +++ g).

(** 592-596: the domain is printed in place of the problem. *)
Definition print_pddl (ad : address) (d : val_domain) (p : val_problem) : outcome string :=
  let* t := print_domain ad d in
  let* t' := print_domain ad d in
  Ok (t +++ endl +++ t' +++ endl).
