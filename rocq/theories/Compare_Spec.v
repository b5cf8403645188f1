(** * Specification vocabulary for the compare command *)
From Coq Require Import String Ascii ZArith Arith Bool Lia List.
From Verif Require Import PyBase Result_Model Snapshot_Model Compare_Model.
Import ListNotations.
Open Scope list_scope.

(** The keys of a Python dictionary are distinct: in the snapshot and in every group. *)
Definition dict_like (s : groups) : Prop :=
  NoDup (dkeys s) /\ Forall (fun kg => NoDup (dkeys (snd kg))) s.

(** All functions of a snapshot, as pairs of group and name. *)
Definition all_functions (s : groups) : list (option string * string) :=
  flat_map (fun kg => map (fun fd => (fst kg, fst fd)) (snd kg)) s.

Section Spec.
  Context {G : Type}.
  Definition entry_key (e : entry G) : option string * string :=
    match e with
    | Skipped g f => (g, f)
    | NoModule g f => (g, f)
    | Compared c _ => (ca_group c, ca_fun c)
    end.

  (** What the property says must happen to a function. *)
  Definition rightly_handled (s1 s2 : groups) (e : entry G) : Prop :=
    match e with
    | Skipped g f => get_by_name s2 f g = None
    | NoModule g f => exists old new,
        get_by_name s1 f g = Some old /\ get_by_name s2 f g = Some new /\ (fd_mod old = None \/ fd_mod new = None)
    | Compared c _ =>
        get_by_name s1 (ca_fun c) (ca_group c) = Some (ca_old c) /\
        get_by_name s2 (ca_fun c) (ca_group c) = Some (ca_new c) /\
        fd_mod (ca_old c) <> None /\ fd_mod (ca_new c) <> None
    end.

  (** The result each entry contributes. *)
  Definition contributed (e : entry G) : list (result G) :=
    match e with
    | Skipped _ _ => []
    | NoModule _ f => [new_result UNKNOWN f f]
    | Compared _ r => [r]
    end.

  (** The result of the last comparison in the group, if there was one, and its graph. *)
  Fixpoint last_compared (g : option string) (t : list (entry G)) : option (result G) :=
    match t with
    | [] => None
    | e :: t' =>
        match last_compared g t' with
        | Some r => Some r
        | None => match e with
                  | Compared c r => if opt_eqb (ca_group c) g then Some r else None
                  | _ => None
                  end
        end
    end.
  Definition last_graph (g : option string) (t : list (entry G)) : option G :=
    match last_compared g t with Some r => r_graph r | None => None end.

  (** Everything of a result but its verdict. *)
  Definition same_but_verdict (a b : result G) : Prop :=
    r_first a = r_first b /\ r_second a = r_second b /\ r_diff a = r_diff b /\
    r_graph a = r_graph b /\ r_inner a = r_inner b.

  (** A function is mentioned to the user. *)
  Definition mentions (x : shown G) : Prop :=
    match x with ShowLine _ _ _ => True | ShowDiff _ _ _ => True | _ => False end.
End Spec.

(** Order of the comparisons: named groups by name, functions of a group by name. *)
Definition key_before (a b : option string * string) : Prop :=
  (fst a = fst b /\ String.ltb (snd a) (snd b) = true) \/
  (exists x y, fst a = Some x /\ fst b = Some y /\ String.ltb x y = true).

(** The directory names tried for the output: base, base-0, base-1, ... *)
Definition candidate (base : string) (i : nat) : string :=
  match i with O => base | S j => (base ++ "-" ++ dec j)%string end.

(** The references to modules made by the functions that are in both snapshots: one for the
    old and one for the new description of each. *)
Definition references (fs : list (string * fdesc)) (g : option string) (s2 : groups) : list string :=
  flat_map (fun fd => match get_by_name s2 (fst fd) g with
                      | None => []
                      | Some new =>
                          (match fd_mod (snd fd) with Some m => [m] | None => [] end) ++
                          (match fd_mod new with Some m => [m] | None => [] end)
                      end) fs.

(** White space only. *)
Fixpoint blank (s : string) : Prop :=
  match s with ""%string => True | String c s' => is_space c = true /\ blank s' end.
(** The first and the last character of a string. *)
Definition first_char (s : string) (c : ascii) : Prop := exists t, s = String c t.
Definition last_char (s : string) (c : ascii) : Prop := exists t, s = (t ++ String c "")%string.
(** The symbol on a line: what remains without the white space around it, if it begins with
    a letter or an underscore. *)
Definition symbol_on (line sym : string) : Prop :=
  exists a b c d, line = (a ++ sym ++ b)%string /\ blank a /\ blank b /\
    first_char sym c /\ (is_alpha c = true \/ c = "_"%char) /\
    last_char sym d /\ is_space d = false.

(** The lines of a text; a line ends with LF, CR LF, or a CR that no LF follows. *)
Definition no_line_end (s : string) : Prop := has_char newline s = false /\ has_char cr s = false.
Definition LF : string := String newline "".
Definition CR : string := String cr "".
Inductive lines_of : string -> list string -> Prop :=
| lo_last s : no_line_end s -> lines_of s [s]
| lo_lf s rest ls : no_line_end s -> lines_of rest ls -> lines_of (s ++ LF ++ rest) (s :: ls)
| lo_crlf s rest ls : no_line_end s -> lines_of rest ls -> lines_of (s ++ CR ++ LF ++ rest) (s :: ls)
| lo_cr s rest ls : no_line_end s -> ~ first_char rest newline -> lines_of rest ls ->
    lines_of (s ++ CR ++ rest) (s :: ls).
(** The symbols on the lines, in order. *)
Inductive symbols_of : list string -> list string -> Prop :=
| so_nil : symbols_of [] []
| so_symbol line sym ls syms : symbol_on line sym -> symbols_of ls syms -> symbols_of (line :: ls) (sym :: syms)
| so_none line ls syms : ~ (exists sym, symbol_on line sym) -> symbols_of ls syms -> symbols_of (line :: ls) syms.

Section Shown.
  Context {G : Type}.
  (** What is said about an entry, without --full-diff: the difference of a NOT_EQUAL
      function, one line for an UNKNOWN or ERROR function or one without a module; with it:
      the difference of every compared function. *)
  Definition about (full : bool) (e : entry G) (x : shown G) : Prop :=
    match e with
    | Skipped _ _ => False
    | NoModule g f => x = ShowLine g f UNKNOWN
    | Compared c r =>
        (x = ShowDiff (ca_group c) (ca_fun c) r /\ (full = true \/ r_kind r = NOT_EQUAL)) \/
        (x = ShowLine (ca_group c) (ca_fun c) (r_kind r) /\ full = false /\ (r_kind r = UNKNOWN \/ r_kind r = ERROR))
    end.
  (** The last group heading in the output. *)
  Fixpoint last_heading (l : list (shown G)) : option string :=
    match l with
    | [] => None
    | x :: l' => match last_heading l' with
                 | Some g => Some g
                 | None => match x with ShowGroup g => Some g | _ => None end
                 end
    end.
End Shown.
