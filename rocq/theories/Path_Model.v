(** * Model of the parts of Python's os.path (posixpath) used by diffkemp

    These are library functions, not diffkemp code: the definitions follow CPython 3's
    Lib/posixpath.py and Lib/genericpath.py.  Simplifications: no bytes paths, no embedded
    home or environment expansion. *)
From Coq Require Import String Ascii ZArith Arith Bool Lia List.
From Verif Require Import PyBase.
Import ListNotations.
Open Scope list_scope.

Definition slash : ascii := "/"%char.
(** posixpath.isabs *)
Definition isabs (p : string) : bool := startswith p "/".

(** posixpath.join of two parts. *)
Definition path_join (a b : string) : string :=
  if isabs b then b
  else if String.eqb a "" || endswith a "/" then (a ++ b)%string
  else (a ++ "/" ++ b)%string.

(** posixpath.normpath on the components of an absolute path: empty and "." components are
    dropped, ".." removes the previous component (and is dropped at the root).
    [acc] is the reversed list of kept components. *)
Fixpoint norm_comps (acc comps : list string) : list string :=
  match comps with
  | [] => rev acc
  | c :: cs =>
      if String.eqb c "" || String.eqb c "." then norm_comps acc cs
      else if String.eqb c ".." then norm_comps (match acc with [] => [] | _ :: a => a end) cs
      else norm_comps (c :: acc) cs
  end.

(** The components of posixpath.abspath; [cwd] is the current directory. *)
Definition abs_comps (cwd p : string) : list string :=
  norm_comps [] (split_char slash (if isabs p then p else path_join cwd p)).

(** genericpath.commonprefix of two strings: character-wise. *)
Fixpoint common_prefix (a b : string) : string :=
  match a, b with
  | String c a', String d b' => if Ascii.eqb c d then String c (common_prefix a' b') else ""
  | _, _ => ""
  end.
(** Length of the common prefix of two component lists. *)
Fixpoint common_len (a b : list string) : nat :=
  match a, b with
  | x :: a', y :: b' => if String.eqb x y then S (common_len a' b') else O
  | _, _ => O
  end.

(** posixpath.relpath; [ValueError] for an empty path. *)
Definition relpath (cwd p start : string) : res string :=
  if String.eqb p "" then Err ValueError
  else
    let sl := abs_comps cwd start in
    let pl := abs_comps cwd p in
    let i := common_len sl pl in
    let rel := repeat ".."%string (length sl - i) ++ skipn i pl in
    match rel with [] => Ok "."%string | _ => Ok (join "/" rel) end.
