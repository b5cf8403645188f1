(** * What building with the compiler wrapper is supposed to do *)
From Coq Require Import String Ascii ZArith Arith Bool Lia List.
From Verif Require Import PyBase Path_Model Syndiff_Model Wrapper_Model.
Import ListNotations.
Open Scope list_scope.

(** ** Command lines *)
Definition ends_in (a : string) (suffixes : list string) : Prop := exists s b, In s suffixes /\ a = (b ++ s)%string.
Definition object (a : string) : Prop := ends_in a [".o"; ".lo"; ".ko"]%string.
Definition ir_file (a : string) : Prop := ends_in a [".ll"; ".llw"]%string.
Definition source (a : string) : Prop := ends_in a [".c"]%string.

(** [b] is [a] with its extension replaced by ".ll". *)
Definition ll_name (a b : string) : Prop :=
  exists stem ext, a = (stem ++ "." ++ ext)%string /\ has_char "." ext = false /\ b = (stem ++ ".ll")%string.

(** The arguments that are not on the drop list, each with the argument before it. *)
Inductive Kept_args (drop : list string) : option string -> list string -> list (option string * string) -> Prop :=
| ka_nil p : Kept_args drop p [] []
| ka_drop p a l ks : In a drop -> Kept_args drop (Some a) l ks -> Kept_args drop p (a :: l) ks
| ka_keep p a l ks : ~ In a drop -> Kept_args drop (Some a) l ks -> Kept_args drop p (a :: l) ((p, a) :: ks).

Definition is_output (k : option string * string) : Prop := fst k = Some "-o"%string.
Definition is_input (k : option string * string) : Prop := ~ is_output k.

(** How an argument is passed on when compiling (-c) ... *)
Definition compile_arg (k : option string * string) (b : string) : Prop :=
  (is_output k /\ object (snd k) /\ ll_name (snd k) b) \/
  (~ (is_output k /\ object (snd k)) /\ b = snd k).
(** ... and when linking. *)
Definition link_arg (k : option string * string) (b : string) : Prop :=
  (is_output k /\ object (snd k) /\ b = snd k) \/
  (is_output k /\ ~ object (snd k) /\ b = (snd k ++ ".llw")%string) \/
  (is_input k /\ object (snd k) /\ ll_name (snd k) b) \/
  (is_input k /\ ~ object (snd k) /\ b = snd k).

(** The file given to the last -o. *)
Definition output_is (R : option string * string -> string -> Prop) (ks : list (option string * string)) (f : string) : Prop :=
  exists pre k post, ks = pre ++ k :: post /\ is_output k /\ Forall is_input post /\ R k f.
Definition no_output (ks : list (option string * string)) : Prop := Forall is_input ks.

(** Commands that are not repeated with clang: the output is no LLVM IR file after the
    renaming, or the command is a test of a configure script. *)
Definition not_repeated (R : option string * string -> string -> Prop) (args : list string) (ks : list (option string * string)) : Prop :=
  (exists f, output_is R ks f /\ (~ ir_file f \/ f = "conftest.ll"%string \/ f = "conftest.llw"%string)) \/
  In "conftest.c"%string args.

Definition links_objects (ks : list (option string * string)) : Prop := exists k, In k ks /\ is_input k /\ object (snd k).
Definition compiles_sources (ks : list (option string * string)) : Prop := exists k, In k ks /\ is_input k /\ source (snd k).

(** The renamed arguments as llvm-link gets them: only -o with its file and LLVM IR files that
    exist. *)
Inductive Link_args (ex : string -> bool) : list ((option string * string) * string) -> list string -> Prop :=
| la_nil : Link_args ex [] []
| la_output k b l out : is_output k \/ b = "-o"%string -> Link_args ex l out -> Link_args ex ((k, b) :: l) (b :: out)
| la_file k b l out : is_input k -> b <> "-o"%string -> ir_file b -> ex b = true -> Link_args ex l out -> Link_args ex ((k, b) :: l) (b :: out)
| la_other k b l out : is_input k -> b <> "-o"%string -> ~ (ir_file b /\ ex b = true) -> Link_args ex l out -> Link_args ex ((k, b) :: l) out.

(** ** The wrapper's environment *)
Definition provided (env : wenv) (db clang link : string) (append drop : list string) : Prop :=
  we_db env = Some db /\ we_clang env = Some clang /\ we_link env = Some link /\
  (exists a, we_append env = Some a /\ append = split_char "," a) /\
  (exists d, we_drop env = Some d /\ drop = split_char "," d).

(** ** Definitions in LLVM IR *)

Definition word (s : string) : Prop := s <> ""%string /\ all_chars word_char s = true.
(** [line] is a function definition, and the last "@name(" in it is that of [n]. *)
Definition defines_line (line n : string) : Prop :=
  exists a b, line = ("define" ++ a ++ "@" ++ n ++ "(" ++ b)%string /\ word n /\
    (forall a' m b', (n ++ "(" ++ b)%string = (a' ++ "@" ++ m ++ "(" ++ b')%string -> ~ word m).
Definition defines (text n : string) : Prop :=
  exists line, In line (split_char nl (universal text)) /\ defines_line line n.

(** The lines the wrappers appended, in the order of their appends. *)
Definition appended (acts : list action) : list string :=
  flat_map (fun a => match a with Append _ lines => lines | Run _ _ => [] end) acts.
Definition db_text (lines : list string) : string := String.concat "" (map (fun l => (l ++ String nl "")%string) lines).
(** A path that survives the database. *)
Definition recordable (p : string) : Prop :=
  has_char ":" p = false /\ has_char nl p = false /\ has_char cr p = false /\
  (forall q c, p = (q ++ String c "")%string -> is_space c = false).

(** Ordinary outputs: what follows -o is a file that is no object and is not dropped. *)
Definition ordinary_outputs (drop args : list string) : Prop :=
  ~ In "-o"%string drop /\
  forall pre a post, args = pre ++ "-o"%string :: a :: post -> ~ In a drop /\ a <> "-o"%string /\ ~ object a.
