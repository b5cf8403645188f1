(** * What the reports are supposed to contain *)
From Coq Require Import String Ascii ZArith Arith Bool Lia Permutation Sorted List.
From Verif Require Import PyBase Path_Model Result_Model Graph_Model Syndiff_Model Output_Model.
Import ListNotations.
Open Scope list_scope.

(** A found difference is listed unless it is empty and explained by a nested difference. *)
Definition listed (r : result graph) : Prop := r_diff r <> Some ""%string \/ en_covered (r_first r) = false.

(** [l] consists of the elements of [l0] that satisfy [P] (in any order). *)
Definition selection {A} (P : A -> Prop) (l0 l : list A) : Prop :=
  exists rest, Permutation l0 (l ++ rest) /\ Forall P l /\ Forall (fun x => ~ P x) rest.

(** The calls of a call stack with every occurrence of the directory removed from the paths. *)
Definition calls_below (dir : string) (cs out : list call) : Prop :=
  Forall2 (fun c o => c_name o = c_name c /\ c_line o = c_line c /\ Replaced dir "" (c_file c) (c_file o)) cs out.
Definition stack_below (dir : string) (c : option callstack) (out : list call) : Prop :=
  match c with Some cs => calls_below dir cs out | None => out = [] end.

Definition describes (old_dir new_dir : string) (r : result graph) (d : ydiff) : Prop :=
  yd_function d = en_name (r_first r) /\
  stack_below old_dir (en_callstack (r_first r)) (yd_old d) /\
  stack_below new_dir (en_callstack (r_second r)) (yd_new d).

Definition name_le (a b : string) : Prop := String.leb a b = true.

(** The report entry of one compared function. *)
Definition entry_ok (old_dir new_dir : string) (fr : string * result graph) (y : yresult) : Prop :=
  yr_function y = fst fr /\
  exists rs, selection listed (dvals (r_inner (snd fr))) rs /\
    Forall2 (describes old_dir new_dir) rs (yr_diffs y) /\
    StronglySorted name_le (map yd_function (yr_diffs y)).

(** [l] is the list of the elements of [l0] that satisfy [P], in their order. *)
Inductive Kept {A} (P : A -> Prop) : list A -> list A -> Prop :=
| Kept_nil : Kept P [] []
| Kept_yes x l0 l : P x -> Kept P l0 l -> Kept P (x :: l0) (x :: l)
| Kept_no x l0 l : ~ P x -> Kept P l0 l -> Kept P (x :: l0) l.

(** ** Symbols on the listed call stacks *)
Definition differing (r : result graph) (name : string) (fr : result graph) : Prop :=
  In (name, fr) (r_inner r) /\ r_kind fr = NOT_EQUAL.
(** [cs] is the old call stack of a difference listed for the compared function [name]. *)
Definition listed_stack (r : result graph) (name : string) (cs : callstack) : Prop :=
  exists fr x, differing r name fr /\ In x (dvals (r_inner fr)) /\ listed x /\ en_callstack (r_first x) = Some cs.

Definition no_space (s : string) : Prop := has_char " " s = false.
(** The name in a call: a function name alone, or a symbol and its kind. *)
Definition names_function (c : call) (n : string) : Prop :=
  no_space n /\ (c_name c = n \/ c_name c = (n ++ " function")%string).
Definition names_type (c : call) (n : string) : Prop :=
  no_space n /\ c_name c = (n ++ " (type)")%string.

Definition listed_function (r : result graph) (n : string) : Prop :=
  (exists fr, differing r n fr) \/
  (exists name cs c, listed_stack r name cs /\ In c cs /\ names_function c n).
(** The type [n] is on a listed call stack; [p] is the name in the call before it, or the
    compared function if there is none. *)
Definition listed_type (r : result graph) (n p : string) : Prop :=
  exists name pre c post, listed_stack r name (pre ++ c :: post) /\ names_type c n /\
    p = match rev pre with b :: _ => c_name b | [] => name end.

(** The name in a call is readable: at most one space. *)
Definition readable (c : call) : Prop :=
  no_space (c_name c) \/ exists n k, c_name c = (n ++ " " ++ k)%string /\ no_space n /\ no_space k.

(** ** Definitions *)
Section Definitions.
  Variable cwd : string.
  Variable end_line : string -> option Z -> string -> res Z.

  (** Where a symbol is defined, according to the report: line, path relative to the snapshot,
      last line (left out if it is not found or the file is not readable as text). *)
  Definition place (line : option Z) (file : option string) (dir kind : string) (i : yinfo) : Prop :=
    yi_line i = line /\
    exists f, file = Some f /\ relpath cwd f dir = Ok (yi_file i) /\
      match yi_end i with
      | Some e => end_line f line kind = Ok e
      | None => end_line f line kind = Err UnicodeDecodeError \/ end_line f line kind = Err EndLineNotFound
      end.
  Definition has_place (line : option Z) (file : option string) (kind : string) : Prop :=
    exists f, file = Some f /\ f <> ""%string /\
      (forall e, end_line f line kind = Err e -> e = UnicodeDecodeError \/ e = EndLineNotFound).

  Variables old_dir new_dir : string.
  (** The definition of the function of a vertex. *)
  Definition function_definition (v : vertex) (d : ydef) : Prop :=
    yf_kind d = "function"%string /\
    place (fst (v_lines v)) (fst (v_files v)) old_dir "function" (yf_old d) /\
    place (snd (v_lines v)) (snd (v_files v)) new_dir "function" (yf_new d) /\
    yi_name (yf_old d) = None /\
    (fst (v_names v) = snd (v_names v) -> yi_name (yf_new d) = None) /\
    (fst (v_names v) <> snd (v_names v) -> yi_name (yf_new d) = Some (snd (v_names v))).
  Definition function_placed (v : vertex) : Prop :=
    has_place (fst (v_lines v)) (fst (v_files v)) "function" /\
    has_place (snd (v_lines v)) (snd (v_files v)) "function".

  (** The first type difference of the vertex with name [n]. *)
  Definition is_type_diff (n : string) (d : nonfun) : Prop := exists p st fi li, d = TypeDiff n p st fi li.
  Definition first_type_diff (v : vertex) (n : string) (file : string * string) (line : Z * Z) : Prop :=
    exists pre p st post, v_nonfun v = pre ++ TypeDiff n p st file line :: post /\
      Forall (fun d => ~ is_type_diff n d) pre.
  Definition type_definition (v : vertex) (n : string) (d : ydef) : Prop :=
    yf_kind d = "type"%string /\ yi_name (yf_old d) = None /\ yi_name (yf_new d) = None /\
    exists file line, first_type_diff v n file line /\
      place (Some (fst line)) (Some (fst file)) old_dir "type" (yf_old d) /\
      place (Some (snd line)) (Some (snd file)) new_dir "type" (yf_new d).
  Definition type_placed (v : vertex) (n : string) : Prop :=
    forall file line, first_type_diff v n file line ->
      has_place (Some (fst line)) (Some (fst file)) "type" /\
      has_place (Some (snd line)) (Some (snd file)) "type".
End Definitions.

(** The graph knows a function under this name. *)
Definition known (g : graph) (h : heap) (n : string) (v : vertex) : Prop :=
  exists i, dget (g_verts g) n = Some i /\ h i = v.

(** The type [n] is listed below a function known to the graph that records it as different. *)
Definition type_known (h : heap) (r : result graph) (g : graph) (n : string) : Prop :=
  exists p v file line, listed_type r n p /\ known g h p v /\ first_type_diff v n file line.

(** A set may be traversed in any order. *)
Definition any_set_order {A} (order : list A -> list A) : Prop := forall l, Permutation (order l) l.

(** ** Printed differences *)

(** The lines of a text: line ends only at the end of a line, and only the last line may lack
    one.  CR LF is one line end. *)
Definition line_end (s : string) : Prop :=
  s = String cr (String nl "") \/ exists c, s = String c "" /\ (c = cr \/ line_boundary c = true).
Definition plain (s : string) : Prop := forall c, c = cr \/ line_boundary c = true -> has_char c s = false.
Inductive text_lines : string -> list string -> Prop :=
| tl_nil : text_lines "" []
| tl_last s : plain s -> s <> ""%string -> text_lines s [s]
| tl_line s e rest ls : plain s -> line_end e ->
    ~ (e = String cr "" /\ exists t, rest = String nl t) ->
    text_lines rest ls -> text_lines (s ++ e ++ rest)%string ((s ++ e)%string :: ls).

(** [out] is [text] with every line moved to the right by [width] spaces. *)
Definition indented (width : nat) (text out : string) : Prop :=
  exists ls, text_lines text ls /\ out = String.concat "" (map (fun l => (spaces width ++ l)%string) ls).

(** The strings written for one difference: its heading first, then its call stacks (with
    paths relative to the snapshot directories) and its text, if texts are to be shown. *)
Definition printed_block (cwd dir_old dir_new : string) (width : nat) (show : bool) (r : result graph) (b : list string) : Prop :=
  exists heading body, b = heading :: body /\
    indented (width - 2) (en_name (r_first r) ++ " differs:" ++ lf) heading /\
    (forall cs, en_callstack (r_first r) = Some cs -> exists text out,
       Replaced (dir_prefix cwd dir_old) "" (callstack_str cs) text /\ indented width text out /\ In out body) /\
    (forall cs, en_callstack (r_second r) = Some cs -> exists text out,
       Replaced (dir_prefix cwd dir_new) "" (callstack_str cs) text /\ indented width text out /\ In out body) /\
    (show = true -> exists d out, r_diff r = Some d /\ indented width d out /\ In out body).

(** ** Viewer *)

(** The report was produced from dictionaries: no compared function and no differing function
    of a compared function occurs twice. *)
Definition distinct_report (ys : list yresult) : Prop :=
  NoDup (map yr_function ys) /\ Forall (fun y => NoDup (map yd_function (yr_diffs y))) ys.
Definition lists_diff (ys : list yresult) (comp diff : string) (d : ydiff) : Prop :=
  exists y, In y ys /\ yr_function y = comp /\ In d (yr_diffs y) /\ yd_function d = diff.

(** [leb] orders the names like a comparison function should. *)
Definition total_order (leb : string -> string -> bool) : Prop :=
  (forall a b, leb a b = true \/ leb b a = true) /\
  (forall a b c, leb a b = true -> leb b c = true -> leb a c = true).

(** ** Preparation of the viewer *)
Definition blank (s : string) : Prop := all_chars is_space s = true.
(** A relative path that names a file: it does not start with a slash and ends in a name. *)
Definition names_file (p : string) : Prop :=
  isabs p = false /\ exists dirs name, split_char slash p = dirs ++ [name] /\
    name <> ""%string /\ name <> "."%string /\ name <> ".."%string.
(** A relative path that stays below the directory it is read from. *)
Definition stays_below (p : string) : Prop :=
  p <> ""%string /\ Forall (fun c => c <> ""%string /\ c <> "."%string /\ c <> ".."%string) (split_char slash p).
(** [p] lies below the directory [d]. *)
Definition below (cwd d p : string) : Prop := exists c rest, abs_comps cwd p = abs_comps cwd d ++ c :: rest.

(** [t] is the unified difference of the lines of the definition in the two snapshots. *)
Definition difference_between (dt : difftool) (f : fs) (old_snapshot new_snapshot : string) (d : ydef) (t : string) : Prop :=
  exists l1 e1 l2 e2,
    yi_line (yf_old d) = Some l1 /\ yi_end (yf_old d) = Some e1 /\
    yi_line (yf_new d) = Some l2 /\ yi_end (yf_new d) = Some e2 /\
    unified_syntax_diff dt f (path_join old_snapshot (yi_file (yf_old d)))
      (path_join new_snapshot (yi_file (yf_new d))) l1 l2 e1 e2 = Ok t.

(** The results stored in a dictionary by add_inner: under their own names. *)
Definition named_by_function (d : dict string (result graph)) : Prop :=
  NoDup (dkeys d) /\ forall n x, In (n, x) d -> en_name (r_first x) = n.
