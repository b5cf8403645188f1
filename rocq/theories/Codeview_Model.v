(** * Model of the code of a function in the result viewer
    (view/src/components/Code.jsx, view/src/components/DiffViewWrapper.jsx, view/src/components/Difference.jsx) *)
From Coq Require Import String Ascii ZArith Arith Bool List.
From Verif Require Import PyBase Show_Model.
Import ListNotations.
Open Scope list_scope.

(** ** Files of the code that is shown *)
Section Fetch.
  (** The file and whether there is a difference, from the definition of a function; the files of the result. *)
  Variable src : string -> string.
  Variable has_diff : string -> bool.
  Variable file : string -> string.

  (** Difference.jsx:78-89: the specification of code; the numbers of lines are in DiffViewWrapper below. *)
  Record spec := mkSpec { s_fun : string; s_src : string; s_diff : option string }.
  Definition spec_of (f : string) : spec :=
    mkSpec f (src (plain_name f)) (if has_diff (plain_name f) then Some (plain_name f ++ ".diff")%string else None).
  (** Difference.jsx:92 *)
  Definition code_key (comp f : string) : string := (comp ++ "-" ++ f)%string.

  (** The component: its key, its specification, what has come of the old code and of the difference, the number of
      its last effect. *)
  Record component := mkComponent { c_key : string; c_spec : spec; c_old : option string; c_diff : option string; c_effect : nat }.
  (** A file asked for: the effect that asked, whether it is the difference, its path. *)
  Record fetch := mkFetch { f_effect : nat; f_is_diff : bool; f_path : string }.
  Record page := mkPage { p_code : option component; p_next : nat; p_fetches : list fetch }.
  Definition empty_page : page := mkPage None 0 [].

  (** What happens: the difference is rendered with a function of a compared function; code is no longer shown; a file
      asked for comes; a file does not come. *)
  Inductive event := Render (comp f : string) | Away | Arrive (n : nat) | Lose (n : nat).

  (** Code.jsx:46-72: the files an effect asks for. *)
  Definition fetches (e : nat) (s : spec) : list fetch :=
    mkFetch e false ("src/" ++ s_src s)%string ::
    match s_diff s with Some d => [mkFetch e true ("diffs/" ++ d)%string] | None => [] end.
  (** Code.jsx:66-70 *)
  Definition no_diff (s : spec) (d : option string) : option string := match s_diff s with Some _ => d | None => Some ""%string end.
  Fixpoint remove_nth {A} (n : nat) (l : list A) : list A :=
    match l, n with [], _ => [] | _ :: l, 0 => l | x :: l, S n => x :: remove_nth n l end.

  (** Code.jsx:43-76.  React keeps the state of the component while its key stays; the specification is a new object at
      each rendering (Difference.jsx:78), so the effect is run anew and the files of the last one are ignored. *)
  Definition step (p : page) (e : event) : page :=
    match e with
    | Render comp f =>
      let s := spec_of f in
      let '(o, d) := match p_code p with
                     | Some c => if String.eqb (c_key c) (code_key comp f) then (c_old c, c_diff c) else (None, None)
                     | None => (None, None)
                     end in
      mkPage (Some (mkComponent (code_key comp f) s o (no_diff s d) (p_next p))) (S (p_next p))
             (p_fetches p ++ fetches (p_next p) s)
    | Away => mkPage None (p_next p) (p_fetches p)
    | Arrive n =>
      match nth_error (p_fetches p) n with
      | None => p
      | Some f =>
        mkPage (match p_code p with
                | Some c =>
                  if Nat.eqb (f_effect f) (c_effect c) then
                    Some (if f_is_diff f then mkComponent (c_key c) (c_spec c) (c_old c) (Some (file (f_path f))) (c_effect c)
                          else mkComponent (c_key c) (c_spec c) (Some (file (f_path f))) (c_diff c) (c_effect c))
                  else Some c
                | None => None
                end) (p_next p) (remove_nth n (p_fetches p))
      end
    | Lose n => mkPage (p_code p) (p_next p) (remove_nth n (p_fetches p))
    end.
  Definition run (es : list event) : page := fold_left step es empty_page.

  (** Code.jsx:78-80: nothing is shown until both have come; else the function, the code and the difference. *)
  Definition shown (p : page) : option (spec * string * string) :=
    match p_code p with
    | Some c => match c_old c, c_diff c with Some o, Some d => Some (c_spec c, o, d) | _, _ => None end
    | None => None
    end.
End Fetch.

(** ** Lines of a function that are shown *)
Section Lines.
  (** The number of lines of the old file. *)
  Variable n : nat.

  (** The lines of the old file that are in hunks.  react-diff-view joins hunks that touch, so the hunks are the largest
      runs of shown lines (simplified: also those of the difference itself). *)
  Definition lines := nat -> bool.
  (** expandFromRawCode(hunks, oldCode, first, last + 1): the lines of the file from [first] to [last]; taken to be
      none if [last] is before [first]. *)
  Definition expand (first last : nat) (l : lines) : lines :=
    fun x => l x || (Nat.leb first x && Nat.leb x last && Nat.leb 1 x && Nat.leb x n).
  (** The first and the last line of the hunk with the line [x]. *)
  Fixpoint run_start (l : lines) (x : nat) : nat :=
    match x with 0 => 0 | S y => if l y then run_start l y else x end.
  Fixpoint run_end (l : lines) (fuel x : nat) : nat :=
    match fuel with 0 => x | S k => if l (S x) then run_end l k (S x) else x end.

  (** DiffViewWrapper.jsx:149-153 getHunksInRange: [hunk.oldStart <= oldEnd && hunk.oldStart + hunk.oldLines >= oldStart] *)
  Definition in_range (old_start old_end : nat) (l : lines) : lines :=
    fun x => l x && (Nat.leb (run_start l x) old_end && Nat.leb old_start (S (run_end l (n - x) x))).
  (** DiffViewWrapper.jsx:137-141 addLineWithContext *)
  Definition with_context (old_start old_end : nat) (line : Z) (l : lines) : lines :=
    expand (Z.to_nat (Z.max (line - 10) (Z.of_nat old_start))) (Z.to_nat (Z.min (line + 10) (Z.of_nat old_end))) l.
  (** DiffViewWrapper.jsx:28-34 isFunctionLong *)
  Definition is_long (old_start old_end : nat) : bool := Nat.leb 25 (old_end - old_start).

  (** DiffViewWrapper.jsx:134-181: the lines shown first.  [hunks]: the lines of hunks of the difference (without one, only
      the first line of the function, DiffViewWrapper.jsx:43-53).  [calls]: the line of the call and the old line of the new
      line of the call (getCorrespondingOldLineNumber, -1 for none), for a function that calls the next one. *)
  Definition first_lines (hunks : lines) (old_start old_end : nat) (calls : option (Z * Z)) : lines :=
    let l := in_range old_start old_end (expand old_end old_end (expand old_start old_start hunks)) in
    match calls with
    | None => l
    | Some (c, c') =>
      if is_long old_start old_end then
        let l := with_context old_start old_end c l in
        if Z.eqb c' c then l else with_context old_start old_end c' l
      else expand old_start old_end l
    end.

  (** DiffViewWrapper.jsx:181-211 renderHunks: the ranges of the buttons, from the first to the last line of the file.
      [prev]: the line after the previous hunk, if any. *)
  Fixpoint buttons_from (l : lines) (prev : option nat) (fuel x : nat) : list (nat * nat) :=
    match fuel with
    | 0 => []
    | S k =>
      if l x then
        match prev with
        | Some a => if Nat.ltb a x then [(a, x - 1)] else []
        | None => []
        end ++ buttons_from l (Some (S x)) k (S x)
      else buttons_from l prev k (S x)
    end.
  Definition buttons (l : lines) : list (nat * nat) := buttons_from l None n 1.
  (** A button is pressed: [expandHunks(nextStart, currentHunk.oldStart - 1)]. *)
  Definition press (l : lines) (i : nat) : lines :=
    match nth_error (buttons l) i with Some (a, b) => expand a b l | None => l end.
  Definition presses (l : lines) (is : list nat) : lines := fold_left press is l.
End Lines.
