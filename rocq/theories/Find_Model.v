(** * Model of the search for definitions in the text of a module (diffkemp/llvm_ir/llvm_module.py:115-125) *)
From Coq Require Import String Ascii Bool List.
From Verif Require Import PyBase.
Import ListNotations.
Open Scope list_scope.

(** The line break *)
Definition newline : ascii := "010"%char.
(** What the characters of a name mean in a regular expression (it is formatted into the pattern without escaping).  Only characters that
    names have without quotes are modelled: a dot is any character but a line break, a dollar (with re.MULTILINE) the end of a line, letters,
    digits, underscores and hyphens are themselves. *)
Inductive item := Lit (c : ascii) | Any | End_of_line.
(** llvm_module.py:117, 123: the part of the pattern from the name *)
Fixpoint items (name : string) : list item :=
  match name with
  | EmptyString => []
  | String c s => (if Ascii.eqb c "." then Any else if Ascii.eqb c "$" then End_of_line else Lit c) :: items s
  end.
(** Python's re: what is left after the items at the beginning *)
Fixpoint after_items (p : list item) (s : string) : option string :=
  match p with
  | [] => Some s
  | Lit c :: p' => match s with String d s' => if Ascii.eqb c d then after_items p' s' else None | EmptyString => None end
  | Any :: p' => match s with String d s' => if Ascii.eqb d newline then None else after_items p' s' | EmptyString => None end
  | End_of_line :: p' => match s with String d _ => if Ascii.eqb d newline then after_items p' s else None | EmptyString => after_items p' s end
  end.
(** [.*@NAME\(] *)
Fixpoint somewhere_in_line (p : list item) (s : string) : bool :=
  (match after_items p s with Some _ => true | None => false end) ||
  match s with String c s' => negb (Ascii.eqb c newline) && somewhere_in_line p s' | EmptyString => false end.
(** [^] with re.MULTILINE: at the beginning and after line breaks *)
Fixpoint at_some_line (begin : bool) (f : string -> bool) (s : string) : bool :=
  (begin && f s) || match s with String c s' => at_some_line (Ascii.eqb c newline) f s' | EmptyString => false end.
(** [\s]: the white space of ASCII *)
Definition white (c : ascii) : bool :=
  let n := nat_of_ascii c in Nat.eqb n 32 || (Nat.leb 9 n && Nat.leb n 13) || (Nat.leb 28 n && Nat.leb n 31).
(** [\s*=] *)
Fixpoint equals_sign (s : string) : bool :=
  match s with EmptyString => false | String c s' => if white c then equals_sign s' else Ascii.eqb c "=" end.
(** The characters of a text as items *)
Definition lits (s : string) : list item := map Lit (list_ascii_of_string s).
(** llvm_module.py:115-119 *)
Definition has_function (text name : string) : bool :=
  at_some_line true (fun s => match after_items (lits "define") s with Some s' => somewhere_in_line (Lit "@" :: items name ++ [Lit "("]) s' | None => false end) text.
(** llvm_module.py:121-125 *)
Definition has_global (text name : string) : bool :=
  at_some_line true (fun s => match after_items (Lit "@" :: items name) s with Some s' => equals_sign s' | None => false end) text.
