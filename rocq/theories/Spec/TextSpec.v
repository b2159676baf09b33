(** What a call such as "name(a, b)" spells. *)
From Coq Require Import String Ascii List Bool.
From Verif.Model Require Import Base Object Proposition State Syntax.
From Verif.Spec Require Import TypingSpec.
Import ListNotations.
Local Open Scope string_scope.
Local Open Scope list_scope.

Definition chars (s : string) : list ascii := list_ascii_of_string s.
Definition free_of (c : ascii) (s : string) : Prop := ~ In c (chars s).

(** Space, tab, line feed, vertical tab, form feed, carriage return. *)
Definition white : list ascii := [" "; "009"; "010"; "011"; "012"; "013"]%char.
(** Arguments are separated by white space or commas. *)
Definition separator (c : ascii) : Prop := c = ","%char \/ In c white.

Definition word (w : string) : Prop := w <> EmptyString /\ forall c, In c (chars w) -> ~ separator c.
Definition gap (s : string) : Prop := forall c, In c (chars s) -> separator c.

(** Names without parentheses, commas and white space. *)
Definition clean (w : string) : Prop := word w /\ free_of "(" w /\ free_of ")" w.

(** [body] consists of the words [ws] with separators between them. *)
Inductive spelled : list string -> string -> Prop :=
| spelled_end g : gap g -> spelled [] g
| spelled_last g w : gap g -> word w -> spelled [w] (g ++ w)%string
| spelled_word g w c ws rest : gap g -> word w -> separator c -> spelled ws (String c rest) ->
    spelled (w :: ws) (g ++ w ++ String c rest)%string.

(** The arguments end at the last closing parenthesis, if any. *)
Inductive args_text : string -> string -> Prop :=
| args_closed body junk : free_of ")" junk -> args_text (body ++ String ")" junk)%string body
| args_open body : free_of ")" body -> args_text body body.

(** [call] calls [name] on the arguments [ws].  (Without parenthesis the whole
    text is the name and is also read as arguments.) *)
Inductive call_text : string -> string -> list string -> Prop :=
| call_paren name t body ws : free_of "(" name -> args_text t body -> spelled ws body ->
    call_text (name ++ String "(" t)%string name ws
| call_bare call body ws : free_of "(" call -> args_text call body -> spelled ws body ->
    call_text call call ws.

(** [x] is the first element of [l] with the name. *)
Definition first_named {A} (nm : A -> string) (l : list A) (name : string) (x : A) : Prop :=
  exists l1 l2, l = l1 ++ x :: l2 /\ nm x = name /\ forall y, In y l1 -> nm y <> name.

(** The call of operator [o] on declared objects of the right number and types. *)
Definition good_call (objects : list object) (ops : list op) (name : string) (ws : list string)
    (o : op) (args : list object) : Prop :=
  first_named op_name ops name o /\
  Forall2 (first_named oname objects) ws args /\
  Forall2 (fun a p => has_type a (type_name (otype p))) args (op_params o).

(** States whose text can be read back: clean names and declared objects. *)
Definition printable `{SH : StdHash} (objects : list object) (s : state) : Prop :=
  forall p, st_contains s p = true -> free_of "(" (pname p) /\ Forall word (map oname (pargs p)) /\
    (forall o, In o (pargs p) -> exists o', In o' objects /\ oname o' = oname o).
