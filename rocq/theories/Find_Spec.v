(** * The text of a module, as LLVM writes it *)
From Coq Require Import String Ascii Bool List.
From Verif Require Import PyBase.
Import ListNotations.
Open Scope list_scope.

(** A line: the definition of a function with what is before and behind its name, a global variable (or an alias) with what is behind
    its name, or anything else *)
Inductive line :=
| Definition_of (pre name post : string)
| Global (name post : string)
| Other (s : string).
Definition line_text (l : line) : string :=
  match l with
  | Definition_of pre name post => "define" ++ pre ++ "@" ++ name ++ "(" ++ post
  | Global name post => "@" ++ name ++ " = " ++ post
  | Other s => s
  end%string.
Definition Has (c : ascii) (s : string) : Prop := exists a b, s = (a ++ String c b)%string.
Definition Begins (p s : string) : Prop := exists b, s = (p ++ b)%string.
(** A text of lines *)
Fixpoint text_of (ls : list line) : string :=
  match ls with [] => EmptyString | l :: ls' => (line_text l ++ String "010" (text_of ls'))%string end.
(** Letters, digits, underscores, hyphens, dots and dollars are written in names without quotes. *)
Definition letter (c : ascii) : bool :=
  let n := nat_of_ascii c in
  (Nat.leb 48 n && Nat.leb n 57) || (Nat.leb 65 n && Nat.leb n 90) || (Nat.leb 97 n && Nat.leb n 122) || Nat.eqb n 95 || Nat.eqb n 45.
Definition Plain (name : string) : Prop := forall c, Has c name -> letter c = true.
Definition Name (name : string) : Prop := forall c, Has c name -> letter c = true \/ c = "."%char \/ c = "$"%char.
(** Before the name of a defined function there is no @, and behind it no name that is followed by a parenthesis. *)
Definition Line_ok (l : line) : Prop :=
  ~ Has "010" (line_text l) /\
  match l with
  | Definition_of pre name post => ~ Has "@" pre /\ Name name /\ forall a n b, post = (a ++ "@" ++ n ++ "(" ++ b)%string -> ~ Name n
  | Global name post => Name name
  | Other s => ~ Begins "define" s /\ ~ Begins "@" s
  end.
(** Two names are the same but for characters at dots of the first. *)
Inductive Dots : string -> string -> Prop :=
| Dots_nil : Dots "" ""
| Dots_same c a b : Dots a b -> Dots (String c a) (String c b)
| Dots_dot c a b : Dots a b -> Dots (String "." a) (String c b).
