(** * What the elementary functions on characters, texts and paths are expected to give (C92) *)
From Coq Require Import String Ascii ZArith Arith Bool List.
From Verif Require Import PyBase.
Import ListNotations.
Open Scope list_scope.

(** ** Characters *)
Definition among (s : string) (c : ascii) : Prop := In c (list_ascii_of_string s).
Definition White (c : ascii) : Prop := In (nat_of_ascii c) [9; 10; 11; 12; 13; 28; 29; 30; 31; 32].
Definition Digit : ascii -> Prop := among "0123456789".
Definition Capital : ascii -> Prop := among "ABCDEFGHIJKLMNOPQRSTUVWXYZ".
Definition Small : ascii -> Prop := among "abcdefghijklmnopqrstuvwxyz".
Definition Letter (c : ascii) : Prop := Capital c \/ Small c.
Definition Line_break (c : ascii) : Prop := In (nat_of_ascii c) [10; 11; 12; 28; 29; 30].

(** ** Texts *)
Fixpoint All (p : ascii -> Prop) (s : string) : Prop := match s with EmptyString => True | String c t => p c /\ All p t end.
Definition No (c : ascii) (s : string) : Prop := All (fun d => d <> c) s.
Definition starts (p : ascii -> Prop) (s : string) : Prop := exists c t, s = String c t /\ p c.
Definition ends (p : ascii -> Prop) (s : string) : Prop := exists t c, s = (t ++ String c "")%string /\ p c.
(** [t] is [s] without the white space around it. *)
Definition Stripped (s t : string) : Prop :=
  exists a b, s = (a ++ t ++ b)%string /\ All White a /\ All White b /\ ~ starts White t /\ ~ ends White t /\ (t = ""%string -> b = ""%string).

(** The number a text of digits stands for. *)
Definition digit_value (c : ascii) : nat := nat_of_ascii c - nat_of_ascii "0".
Fixpoint number (acc : nat) (s : string) : nat := match s with EmptyString => acc | String c t => number (10 * acc + digit_value c) t end.
Definition Decimal (n : nat) (s : string) : Prop :=
  All Digit s /\ s <> ""%string /\ number 0 s = n /\ (forall t, s = String "0" t -> t = ""%string).

(** ** Paths *)
(** The parts of a path. *)
Definition Parts (p : string) (l : list string) : Prop := l <> [] /\ Forall (No "/") l /\ p = join "/" l.
(** Following the parts from a directory (given by the names leading to it from the root). *)
Inductive Leads : list string -> list string -> list string -> Prop :=
| Leads_end d : Leads d [] d
| Leads_stay d c cs d' : c = ""%string \/ c = "."%string -> Leads d cs d' -> Leads d (c :: cs) d'
| Leads_up d x cs d' : Leads d cs d' -> Leads (d ++ [x]) (".."%string :: cs) d'
| Leads_root cs d' : Leads [] cs d' -> Leads [] (".."%string :: cs) d'
| Leads_down d c cs d' : ~ In c [""; "."; ".."]%string -> Leads (d ++ [c]) cs d' -> Leads d (c :: cs) d'.
Definition absolute (p : string) : Prop := exists q, p = String "/" q.
(** The place of a path: from the root, or from the current directory. *)
Definition Place (cwd p : string) (d : list string) : Prop :=
  exists l, Parts p l /\ ((absolute p /\ Leads [] l d) \/ (~ absolute p /\ exists k c, Parts cwd k /\ Leads [] k c /\ Leads c l d)).

(** The extension of the last part of a path, after its last dot; a part of leading dots has
    none. *)
Definition Extension (p e : string) : Prop :=
  exists b, p = (b ++ "." ++ e)%string /\ No "." e /\ No "/" e /\
    exists dir name, b = (dir ++ name)%string /\ (dir = ""%string \/ ends (eq "/"%char) dir) /\ No "/" name /\ ~ All (eq "."%char) name.
Definition Lower (c d : ascii) : Prop :=
  (Capital c /\ exists i, nth_error (list_ascii_of_string "ABCDEFGHIJKLMNOPQRSTUVWXYZ") i = Some c /\ nth_error (list_ascii_of_string "abcdefghijklmnopqrstuvwxyz") i = Some d) \/
  (~ Capital c /\ d = c).
Inductive Lowered : string -> string -> Prop :=
| Lowered_nil : Lowered "" ""
| Lowered_more c d s t : Lower c d -> Lowered s t -> Lowered (String c s) (String d t).

(** The value given to an option in a command: what follows the first [x]. *)
Definition Option_value (x : string) (command : list string) (v : string) : Prop :=
  exists pre post, command = pre ++ x :: v :: post /\ ~ In x pre.
