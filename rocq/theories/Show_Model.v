(** * Model of the components of the viewer (view/src/components): ResultViewer.jsx, ResultNavigation.jsx,
    FunctionListing.jsx, Callstack.jsx and Difference.jsx.
    What is modelled is which names, texts and line numbers are shown and what clicks do; not modelled: layout,
    the loading of files, React's identification of elements by keys (but for that of the difference), DiffViewWrapper.jsx. *)
From Coq Require Import String Ascii ZArith Arith Bool List.
From Verif Require Import PyBase Result_Model Output_Model.
Import ListNotations.
Open Scope list_scope.

(** ** ResultViewer.jsx, ResultNavigation.jsx *)
(** ResultViewer.jsx:26-27; [None] is null or undefined.  Simplified: names are not empty (an empty one would
    count as null). *)
Record location := mkLoc { l_comp : option string; l_diff : option string }.
(** ResultViewer.jsx:26-27: the start page *)
Definition start : location := mkLoc None None.
(** ResultViewer.jsx:42-84 the shown content *)
Inductive page :=
| Show_difference (comp : string) (d : ydiff)
| List_differing (comp : string) (l : list string)
| List_compared_of (diff : string) (l : list string)
| List_compared (l : list string)
| Crash.
(** ResultViewer.jsx:42-84 *)
Definition content (ix : index) (p : location) : page :=
  match l_comp p, l_diff p with
  | Some c, Some f => match get_diff ix c f with Ok (Some d) => Show_difference c d | _ => Crash end
  | Some c, None => match diff_funs_of ix c with Ok l => List_differing c l | Err _ => Crash end
  | None, Some f => match comp_funs_of ix f with Some l => List_compared_of f l | None => Crash end
  | None, None => List_compared (comp_funs ix)
  end.
(** FunctionListing.jsx:37-41 and ResultNavigation.jsx:28-69: the handlers of clicks *)
Inductive click := Select (f : string) | Next_compared | Prev_compared | Next_differing | Prev_differing
| To_results | To_compared | To_differing.
(** Result.js:98-115, 202-207: getDiffFuns without a name returns all differing functions. *)
Definition diff_list (ix : index) (c : option string) : list string :=
  match c with Some c => match diff_funs_of ix c with Ok l => l | Err _ => [] end | None => diff_funs ix end.
(** Which clicks are possible: the buttons of a list, the arrows that are not disabled and the items of the
    path (ResultNavigation.jsx:66-129, FunctionListing.jsx). *)
Definition possible (ix : index) (p : location) (k : click) : bool :=
  match k with
  | Select f =>
    match content ix p with
    | List_differing _ l | List_compared_of _ l | List_compared l => mem f l
    | _ => false
    end
  | Next_compared => match l_comp p with Some c => negb (is_last_in (comp_funs ix) c) | None => false end
  | Prev_compared => match l_comp p with Some c => negb (is_first_in (comp_funs ix) c) | None => false end
  | Next_differing => match l_comp p, l_diff p with Some c, Some f => negb (is_last_in (diff_list ix (Some c)) f) | _, _ => false end
  | Prev_differing => match l_comp p, l_diff p with Some c, Some f => negb (is_first_in (diff_list ix (Some c)) f) | _, _ => false end
  | To_results => true
  | To_compared => match l_comp p, l_diff p with None, None => false | _, _ => true end
  | To_differing => match l_diff p with Some _ => true | None => false end
  end.
(** ResultNavigation.jsx:28-63 and the [onFunctionSelect] of ResultViewer.jsx *)
Definition go_compared (ix : index) (p : location) (c : option string) : location :=
  mkLoc c (match l_diff p with Some _ => nth_error (diff_list ix c) 0 | None => None end).
(** ResultNavigation.jsx:28-69 *)
Definition follow (ix : index) (p : location) (k : click) : location :=
  match k with
  | Select f => match l_comp p with Some c => mkLoc (Some c) (Some f) | None => mkLoc (Some f) (l_diff p) end
  | Next_compared => match l_comp p with Some c => go_compared ix p (next_in (comp_funs ix) c) | None => p end
  | Prev_compared => match l_comp p with Some c => go_compared ix p (prev_in (comp_funs ix) c) | None => p end
  | Next_differing => match l_diff p with Some f => mkLoc (l_comp p) (next_in (diff_list ix (l_comp p)) f) | None => p end
  | Prev_differing => match l_diff p with Some f => mkLoc (l_comp p) (prev_in (diff_list ix (l_comp p)) f) | None => p end
  | To_results => start
  | To_compared => mkLoc (l_comp p) None
  | To_differing => mkLoc None (l_diff p)
  end.

(** ** FunctionListing.jsx *)
Section Listing.
  Variable letter : string -> string.     (* fun.charAt(0).toUpperCase() *)
  (** FunctionListing.jsx:25-47: what is listed *)
  Inductive item := Label (l : string) | Button (f : string).
  (** FunctionListing.jsx:25-47 *)
  Fixpoint items (last : option string) (funs : list string) : list item :=
    match funs with
    | [] => []
    | f :: funs' =>
      (match last with
       | Some l => if String.eqb l (letter f) then [] else [Label (letter f)]
       | None => [Label (letter f)]
       end) ++ Button f :: items (Some (letter f)) funs'
    end.
  (** [Array.prototype.slice] with indices in order *)
  Definition slice {A} (a b : nat) (l : list A) : list A := firstn (b - a) (skipn a l).
  (** FunctionListing.jsx:48-79 *)
  Definition step_size (n : nat) : nat := Nat.max 20 ((n + 3) / 4).
  (** FunctionListing.jsx:50-79 *)
  Definition columns (funs : list string) : list (list item) :=
    let rows := items None funs in
    let s := step_size (length rows) in
    [slice (0 * s) (1 * s) rows; slice (1 * s) (2 * s) rows; slice (2 * s) (3 * s) rows; slice (3 * s) (length rows) rows].
End Listing.

(** ** Callstack.jsx *)
Section Callstack.
  Variable new_name : string -> string.   (* Callstack.jsx:26-30 getNewName *)
  (** A row of the call stack: calls that belong together, or calls of both versions that do not *)
  Inductive row := Pair (old new : string) | Group (olds news : list string).
  (** Callstack.jsx:43-55; instead of indices the rests of the call stacks (their names) are used. *)
  Fixpoint find_pair (olds news : list string) : option (nat * nat) :=
    match olds with
    | [] => None
    | o :: olds' =>
      match index_of (new_name o) news with
      | Some j => Some (0, j)
      | None => match find_pair olds' news with Some (i, j) => Some (S i, j) | None => None end
      end
    end.
  (** Callstack.jsx:42-62 findCorespondingPair *)
  Definition corresponding (olds news : list string) : option (nat * nat) :=
    match find_pair olds news with
    | Some p => Some p
    | None => match olds, news with _ :: olds', _ :: news' => Some (length olds', length news') | _, _ => None end
    end.
  (** Callstack.jsx:76-121; the inner [None] is reading the name of a call that is not there, the outer
      one that [n] steps do not suffice. *)
  Fixpoint calls (n : nat) (olds news : list string) (acc : list row) : option (option (list row)) :=
    match n with
    | O => None
    | S n' =>
      match olds with
      | [] => Some (Some acc)
      | o :: olds' =>
        match news with
        | [] => Some None
        | w :: news' =>
          if String.eqb w (new_name o) || (match olds', news' with [], [] => true | _, _ => false end)
          then calls n' olds' news' (acc ++ [Pair o w])
          else
            match corresponding olds news with
            | Some (i, j) => calls n' (skipn i olds) (skipn j news) (acc ++ [Group (firstn i olds) (firstn j news)])
            | None => Some (Some acc)
            end
        end
      end
    end.
  (** Callstack.jsx:64-121: the compared function first *)
  Definition stack_rows (n : nat) (comp : string) (olds news : list string) : option (option (list row)) :=
    calls n olds news [Pair comp comp].
End Callstack.

(** Callstack.jsx:26-30 getNewName; an empty name is no name. *)
Definition get_new_name (defs : dict string ydef) (o : string) : string :=
  match dget defs o with
  | Some y => match yi_name (yf_new y) with Some n => if String.eqb n "" then o else n | None => o end
  | None => o
  end.
(** Difference.jsx:107-117: the call stack of a difference *)
Definition shown_stack (n : nat) (defs : dict string ydef) (comp : string) (d : ydiff) : option (option (list row)) :=
  stack_rows (get_new_name defs) n comp (map c_name (yd_old d)) (map c_name (yd_new d)).

(** ** Difference.jsx *)
(** Difference.jsx:35-39: what is shown first *)
Definition first_shown (comp : string) (d : ydiff) : string :=
  match rev (yd_old d) with c :: _ => c_name c | [] => comp end.
(** Difference.jsx:57-62: [findIndex(...) + 1] *)
Fixpoint after (f : string) (l : list call) : option nat :=
  match l with
  | [] => None
  | c :: l' => if String.eqb (c_name c) f then Some 1 else match after f l' with Some i => Some (S i) | None => None end
  end.
(** Difference.jsx:57-62; nothing found is index -1 *)
Definition index_after (f : string) (l : list call) : nat := match after f l with Some i => i | None => 0 end.
(** Difference.jsx:51-78 getCallingLine *)
Definition calling_lines (comp : string) (d : ydiff) (f : string) : option (Z * Z) :=
  let i := if String.eqb f comp then 0 else index_after f (yd_old d) in
  let j := if String.eqb f comp then 0 else index_after f (yd_new d) in
  match nth_error (yd_old d) i, nth_error (yd_new d) j with
  | Some c, Some c' => Some (c_line c, c_line c')
  | _, _ => None
  end.
(** Difference.jsx:78-104: a message or the specification of code *)
Inductive code :=
| Missing_definition
| Missing_end
| Code (old_file new_file : string) (old_line new_line : option Z) (old_end : Z) (calling : option (Z * Z)).
(** Difference.jsx:43: [functionToShow.split(' ')[0]] *)
Fixpoint plain_name (s : string) : string :=
  match s with EmptyString => EmptyString | String c s' => if Ascii.eqb c " " then EmptyString else String c (plain_name s') end.
(** Difference.jsx:40-104; simplified: [in] finds only the definitions. *)
Definition shown_code (defs : dict string ydef) (comp : string) (d : ydiff) (f : string) : code :=
  match dget defs (plain_name f) with
  | None => Missing_definition
  | Some y =>
    match yi_end (yf_old y), yi_end (yf_new y) with
    | Some e, Some _ => Code (yi_file (yf_old y)) (yi_file (yf_new y)) (yi_line (yf_old y)) (yi_line (yf_new y)) e (calling_lines comp d f)
    | _, _ => Missing_end
    end
  end.

(** ** The state of the component for a difference *)
(** The key of the component (ResultViewer.jsx:49) and the function it shows (Difference.jsx:34-39). React keeps the
    state of a component while its key stays the same and forgets it when the component is no longer shown; when it is
    shown again, it starts with [first_shown]. *)
Definition view := option (string * string).
(** ResultViewer.jsx:49 *)
Definition key (c f : string) : string := (c ++ f)%string.
(** ResultViewer.jsx:40-57: what is shown after going to a location *)
Definition visit (ix : index) (v : view) (p : location) : view :=
  match l_comp p, l_diff p, content ix p with
  | Some c, Some f, Show_difference _ d =>
    match v with
    | Some (k, s) => if String.eqb k (key c f) then Some (k, s) else Some (key c f, first_shown c d)
    | None => Some (key c f, first_shown c d)
    end
  | _, _, _ => None
  end.
(** Difference.jsx:111: a call is chosen in the call stack. *)
Definition choose (v : view) (f : string) : view := match v with Some (k, _) => Some (k, f) | None => None end.
