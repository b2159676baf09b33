(** The program pddl: apps/pddl.cc, and what breadth_first_search.h prints if it
    is verbose. *)
From Coq Require Import Ascii String List Bool NArith ZArith Arith.
From Verif.Model Require Import Base Object Proposition State ParameterGenerator Syntax Formula
  Effects Derived Consistency Text Pddl Objects Load Planner Search Print.
Import ListNotations.
Local Open Scope string_scope.
Local Open Scope list_scope.
Local Infix "+++" := String.append (at level 60, right associativity).

(** Code that writes to std::cout: what it has written when it returns or
    throws, and its result. *)
Definition printing (A : Type) : Type := string * outcome A.
Definition say (text : string) : printing unit := (text, Ok tt).
Definition mute {A} (r : outcome A) : printing A := (EmptyString, r).
Definition pbind {A B} (x : printing A) (f : A -> printing B) : printing B :=
  match x with
  | (text, Ok a) => let (text', r) := f a in (text +++ text', r)
  | (text, Throw e) => (text, Throw e)
  | (text, UB) => (text, UB)
  | (text, AssertFail) => (text, AssertFail)
  | (text, OutOfFuel) => (text, OutOfFuel)
  end.
Local Notation "'do' x '<-' a ';' b" := (pbind a (fun x => b))
  (at level 200, x name, a at level 100, b at level 200).

(** std::endl *)
Definition endl : string := String "010" EmptyString.
Definition line (s : string) : string := s +++ endl.

(** operator<< of a size_t; [fuel] bounds the number of digits. *)
Definition digit_text (n : N) : string := String (ascii_of_N (48 + n)) EmptyString.
Fixpoint decimal (fuel : nat) (n : N) : string :=
  match fuel with
  | O => EmptyString
  | S f => if N.ltb n 10 then digit_text n else decimal f (n / 10) +++ digit_text (n mod 10)
  end.
Definition size_text (n : N) : string := decimal (S (N.to_nat (N.size n))) n.

(** ** std::stoi, as used in pddl.cc 52 *)

(** What strtol skips: isspace in the C locale. *)
Definition stoi_blank (c : ascii) : bool :=
  existsb (Ascii.eqb c) [" "; "009"; "010"; "011"; "012"; "013"]%char.
Definition digit_of (c : ascii) : option Z :=
  let n := Z.of_nat (nat_of_ascii c) in
  if (Z.leb 48 n && Z.leb n 57)%bool then Some (n - 48)%Z else None.
Fixpoint skip_blanks (s : string) : string :=
  match s with
  | EmptyString => EmptyString
  | String c s' => if stoi_blank c then skip_blanks s' else s
  end.
(** The number and whether there was a digit. *)
Fixpoint read_digits (acc : Z) (any : bool) (s : string) : option Z :=
  match s with
  | EmptyString => if any then Some acc else None
  | String c s' =>
      match digit_of c with
      | Some k => read_digits (10 * acc + k)%Z true s'
      | None => if any then Some acc else None
      end
  end.
Definition read_signed (s : string) : option Z :=
  match s with
  | String "-" s' => option_map Z.opp (read_digits 0 false s')
  | String "+" s' => read_digits 0 false s'
  | _ => read_digits 0 false s
  end.
(** libstdc++ throws std::invalid_argument if there is no number, and
    std::out_of_range if it is not an int; text behind the number is ignored. *)
Definition stoi (s : string) : outcome Z :=
  match read_signed (skip_blanks s) with
  | None => Throw EInvalidArgument
  | Some z => if (Z.leb (- 2 ^ 31) z && Z.ltb z (2 ^ 31))%bool then Ok z else Throw EOutOfRange
  end.

(** ** pddl.cc 26-67 *)
Record args : Type := mkArgs {
  ar_domain : string;
  ar_problem : string;
  ar_depth : N;       (* a size_t *)
  ar_verbose : bool
}.
(** 24 *)
Definition default_depth : N := 5.
(** The conversion from int to size_t in 52 *)
Definition size_of_int (z : Z) : N := Z.to_N (z mod 2 ^ 64).

(** 46-59, the while loop over the remaining arguments *)
Fixpoint parse_options (l : list string) (a : args) : outcome args :=
  match l with
  | [] => Ok a
  | arg :: l' =>
      match String.eqb arg "--depth", l' with
      | true, v :: l'' =>
          let* z := stoi v in
          parse_options l'' (mkArgs (ar_domain a) (ar_problem a) (size_of_int z) (ar_verbose a))
      | _, _ =>
          if String.eqb arg "--verbose" then
            parse_options l' (mkArgs (ar_domain a) (ar_problem a) (ar_depth a) true)
          else Throw ERuntime
      end
  end.
(** 36-59 *)
Definition parse_argv (argv : list string) : outcome args :=
  match argv with
  | _ :: d :: p :: l => parse_options l (mkArgs d p default_depth false)
  | _ => Throw ERuntime
  end.
(** 61-63 *)
Definition usage : string :=
  line "Usage:" +++ String "009" "./pddl domain.pddl problem.pddl [--depth INT (default "
  +++ size_text default_depth +++ line ")] [--verbose]".
(** 34-67, ParseArgs: only std::runtime_error is caught (60), and thrown again
    (64). *)
Definition parse_args (argv : list string) : printing args :=
  match parse_argv argv with
  | Throw ERuntime => (usage, Throw ERuntime)
  | r => mute r
  end.

(** ** breadth_first_search.h 83-141 with the printing *)
Section Verbose.
  Context {N W : Type} (goal : N -> outcome bool) (children : N -> W -> outcome (list N * W)).
  Context (max_depth : nat) (show : N -> string) (verbose : bool).

  (** std::cout if verbose_ *)
  Definition tell (s : string) : printing unit := if verbose then say s else mute (Ok tt).

  (** [depth] is the local variable of line 87; [late] and [fuel] are as in
      Search.v.  The children are printed when the loop over them is over (in
      the code, while it runs: 130-136). *)
  Fixpoint print_incr (fuel : nat) (late : nat -> bool) (i depth : nat) (q : list (N * list N)) (w : W)
      : printing (bfs_it (N := N) * W) :=
    match q with
    | [] => mute (Ok (mkBfs [] None, w))
    | (n, ancestors) :: q' =>
        match fuel with
        | O => mute OutOfFuel
        | S f =>
            if late i then mute (Ok (mkBfs [] None, w))
            else
              let path := ancestors ++ [n] in
              let deeper := (verbose && Nat.ltb depth (length path))%bool in
              let depth' := if deeper then length path else depth in
              do _ <- (if deeper then say (line ("BFS depth: " +++ size_text (N.of_nat (length path - 1))))
                       else mute (Ok tt));
              do g <- mute (goal n);
              if g : bool then
                do _ <- tell (line ("Goal state reached: " +++ show n));
                mute (Ok (mkBfs q' (Some path), w))
              else if Nat.ltb max_depth (length path) then print_incr f late (S i) depth' q' w
              else
                do _ <- tell (String.concat "" (map (fun m => line (show m)) path) +++ line "====================");
                do x <- mute (children n w);
                do _ <- tell (String.concat "" (map (fun c => line (show c) +++ endl) (fst x)));
                print_incr f late (S i) depth' (q' ++ map (fun c => (c, path)) (fst x)) (snd x)
        end
    end.
End Verbose.

(** ** pddl.cc 71-103 *)
Section WithHash.
  Context `{SH : StdHash}.
  (** The parser and the files (Load.v); what VAL's type checker prints, and
      whether it is content (pddl.cc 79, src/pddl.cc 304-318); the seconds since
      the start, as printed the k-th time (88-91, 100-103). *)
  Variable domain_in : string -> option domain_syntax.
  Variable problem_in : domain_syntax -> source -> option problem_syntax.
  Variable check : loaded -> printing bool.
  Variable seconds : nat -> string.
  (** Bounds of the model: [L] as in Pddl.v, [K] for the children of a node,
      [fuel] for the iterations of ++ and [calls] for the calls of ++. *)
  Variable L : limits.
  Variables K fuel calls : nat.

  (** 88-95 *)
  Definition plan_report (k : nat) (plan : list node) : string :=
    line (seconds k +++ "s") +++ String.concat "" (map (fun n => line (node_text n)) plan) +++ endl.

  Section Loop.
    Context (p : pddl) (depth : nat) (verbose : bool).
    Definition app_incr (q : list (node * list node)) (st : store) :=
      print_incr (node_goal p) (node_children L p K) depth node_text verbose fuel (fun _ => false) 0 0 q st.
    (** 86-97; there is no timeout.  [k] is num_plans. *)
    Fixpoint app_loop (m k : nat) (it : bfs_it (N := node)) (st : store) : printing nat :=
      if bfs_finished it then mute (Ok k)
      else
        match m with
        | O => mute OutOfFuel
        | S m' =>
            do plan <- mute (bfs_deref it);
            do _ <- say (plan_report k plan);
            do x <- app_incr (bi_queue it) st;
            app_loop m' (S k) (fst x) (snd x)
        end.
  End Loop.

  (** 71-103, main.  An exception that leaves main ends the program. *)
  Definition main (argv : list string) : printing unit :=
    do a <- parse_args argv;
    do _ <- say (line ("Domain: " +++ ar_domain a) +++ line ("Problem: " +++ ar_problem a)
                 +++ line ("Depth: " +++ size_text (ar_depth a)) +++ endl);
    do x <- mute (load domain_in problem_in L (ar_domain a) (ar_problem a) true);
    let p := ld_pddl (fst x) in
    do _ <- check (fst x);
    do y <- mute (make_planner L p (pd_init p, snd x));
    do _ <- say (line "Planning:");
    let depth := N.to_nat (ar_depth a) in
    do z <- app_incr p depth (ar_verbose a) [(fst y, [])] (snd y);
    do k <- app_loop p depth (ar_verbose a) calls 0 (fst z) (snd z);
    say (line ("Found " +++ size_text (N.of_nat k) +++ " plans in " +++ seconds k +++ "s")).
End WithHash.
