(** What adding and removing objects should do. *)
From Coq Require Import String List Bool.
From Verif.Model Require Import Base Object Proposition State ParameterGenerator Pddl Objects.
Import ListNotations.
Local Open Scope string_scope.
Local Open Scope list_scope.

Inductive edit := Add (name type : string) | Remove (name : string).

Definition do_edit (types : list pddl_type) (w : edited) (e : edit) : outcome edited :=
  match e with
  | Add n t => add_object (Some types) n t w
  | Remove n => Ok (remove_object n w)
  end.
Definition do_edits (types : list pddl_type) (es : list edit) (w : edited) : outcome edited :=
  foldM (do_edit types) es w.

(** The names present after an edit: a set. *)
Definition present_after (e : edit) (present : string -> Prop) (x : string) : Prop :=
  match e with
  | Add n _ => x = n \/ present x
  | Remove n => x <> n /\ present x
  end.
Fixpoint present_all (es : list edit) (present : string -> Prop) : string -> Prop :=
  match es with
  | [] => present
  | e :: es' => present_all es' (present_after e present)
  end.

(** Every added name is new at that time, and no constant of the domain is
    removed. *)
Fixpoint careful (constants : list string) (es : list edit) (present : string -> Prop) : Prop :=
  match es with
  | [] => True
  | e :: es' =>
      match e with
      | Add n _ => ~ present n
      | Remove n => ~ In n constants
      end /\ careful constants es' (present_after e present)
  end.

(** Only names that the Pddl did not have when it was constructed are edited. *)
Definition edits_new (p : pddl) (es : list edit) : Prop :=
  forall e, In e es -> match e with Add n _ | Remove n => ~ In n (map oname (pd_symbols p)) end.

Definition found (w : edited) (name : string) : Prop :=
  exists o, ed_object w name = Ok o /\ oname o = name.
Definition not_found (w : edited) (name : string) : Prop := ed_object w name = Throw ERuntime.
(** As listed by objects(). *)
Definition listed (w : edited) (name : string) : Prop := In name (map oname (pd_objects (ed_pddl w))).

(** The names met in the initial state are those of symbols. *)
Definition init_known (p : pddl) : Prop :=
  forall q a, In q (st_elements (pd_init p)) -> In a (pargs q) -> In (oname a) (map oname (pd_symbols p)).
Definition constructed (p : pddl) : Prop :=
  pd_objects p = pd_symbols p /\ NoDup (map oname (pd_symbols p)) /\ init_known p.
