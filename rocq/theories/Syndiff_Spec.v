(** * Specification of the syntactic differences (C37-C39) *)
From Coq Require Import String Ascii ZArith Arith Bool Lia DecimalString List.
From Verif Require Import PyBase Result_Model Syndiff_Model.
Import ListNotations.
Open Scope list_scope.

(** Line [n] (counted from 1) of a list of lines. *)
Definition line_at (lines : list string) (n : Z) (l : string) : Prop :=
  (1 <= n)%Z /\ nth_error lines (Z.to_nat (n - 1)) = Some l.

(** A line that closes a definition of the given kind: the closing text at the beginning of
    the line, followed only by white space. *)
Definition closes (kind : string) (l : string) : Prop :=
  exists w, all_chars is_space w = true /\
    ((kind = "function"%string /\ (l = "}" ++ w \/ l = ");" ++ w)%string) \/
     (kind = "type"%string /\ (l = "};" ++ w)%string)).

(** ** Context differences as printed by GNU diff *)
Inductive mark := Same | Removed | Added | Changed.
Definition cmark (m : mark) : string :=
  match m with Same => "  " | Removed => "- " | Added => "+ " | Changed => "! " end.
(** A line of a hunk: a marked source line, or the remark that the text ends without a
    newline. *)
Inductive dline := Line (m : mark) (t : string) | NoNewline.
Definition cline (l : dline) : string :=
  match l with Line m t => (cmark m ++ t)%string | NoNewline => "\ No newline at end of file"%string end.
Record range := mkRange { from : Z; upto : option Z }.
Definition show_range (r : range) : string :=
  match upto r with Some b => (str_of_Z (from r) ++ "," ++ str_of_Z b)%string | None => str_of_Z (from r) end.
Record chunk := mkChunk { k_old : range; k_old_lines : list dline; k_new : range; k_new_lines : list dline }.
Record cdiff := mkCdiff { c_head1 : string; c_head2 : string; c_chunks : list chunk }.

Definition text_of_lines (ls : list string) : string := join (String nl "") (ls ++ [""%string]).
Definition chunk_lines (h : chunk) : list string :=
  ["***************"; "*** " ++ show_range (k_old h) ++ " ****"]%string ++ map cline (k_old_lines h) ++
  ["--- " ++ show_range (k_new h) ++ " ----"]%string ++ map cline (k_new_lines h).
(** What diff prints. *)
Definition print_cdiff (d : cdiff) : string :=
  text_of_lines ([c_head1 d; c_head2 d] ++ flat_map chunk_lines (c_chunks d)).
(** What diffkemp shows: no file names, the first line of the definition at every hunk. *)
Definition shown_chunk (title : string) (h : chunk) : list string :=
  ["*************** " ++ title; "*** " ++ show_range (k_old h) ++ " ***"]%string ++ map cline (k_old_lines h) ++
  ["--- " ++ show_range (k_new h) ++ " ---"]%string ++ map cline (k_new_lines h).
Definition shown_cdiff (title : string) (hs : list chunk) : string := text_of_lines (flat_map (shown_chunk title) hs).

(** Moving a hunk down by the given numbers of lines. *)
Definition shift_range (k : Z) (r : range) : range :=
  mkRange (from r + k) (match upto r with Some b => Some (b + k)%Z | None => None end).
Definition shift_chunk (k1 k2 : Z) (h : chunk) : chunk :=
  mkChunk (shift_range k1 (k_old h)) (k_old_lines h) (shift_range k2 (k_new h)) (k_new_lines h).

(** The source lines of a side of a hunk are the lines of the text from line [n] on. *)
Definition chomp (l : string) : string := if endswith l (String nl "") then chop 1 l else l.
Definition source_lines (ls : list dline) : list string :=
  flat_map (fun l => match l with Line _ t => [t] | NoNewline => [] end) ls.
Definition lines_from (lines : list string) (n : Z) (ts : list string) : Prop :=
  forall i t, nth_error ts i = Some t -> exists l, line_at lines (n + Z.of_nat i) l /\ chomp l = t.
Definition chunk_of (old new : list string) (h : chunk) : Prop :=
  (0 <= from (k_old h))%Z /\ (0 <= from (k_new h))%Z /\
  (forall b, upto (k_old h) = Some b -> (0 <= b)%Z) /\ (forall b, upto (k_new h) = Some b -> (0 <= b)%Z) /\
  lines_from old (from (k_old h)) (source_lines (k_old_lines h)) /\
  lines_from new (from (k_new h)) (source_lines (k_new_lines h)) /\
  (forall t, ~ In (Line Added t) (k_old_lines h)) /\ (forall t, ~ In (Line Removed t) (k_new_lines h)).

(** The diff utility with option -C: silent on equal texts, otherwise status 1 and hunks
    that quote the two texts under their line numbers. *)
Definition context_tool (dt : difftool) : Prop :=
  forall a b,
    dt "-C"%string a b = (0%Z, Ok ""%string) /\ a = b \/
    a <> b /\ exists d, dt "-C"%string a b = (1%Z, Ok (print_cdiff d)) /\ c_chunks d <> [] /\
      has_char nl (c_head1 d) = false /\ has_char nl (c_head2 d) = false /\
      isspace (c_head1 d) = false /\ c_head1 d <> ""%string /\
      Forall (chunk_of (readlines a) (readlines b)) (c_chunks d).

(** A source line made only of digits, blanks, commas, asterisks and hyphens, with a digit. *)
Definition numeric (t : string) : Prop :=
  (exists c, has_char c t = true /\ is_digit c = true) /\
  (forall c, has_char c t = true -> is_digit c = true \/ In c [" "; "*"; "-"; ","]%char).

(** ** Unified differences *)
Definition umark (m : mark) : string := match m with Same => " " | Removed => "-" | Added => "+" | Changed => "" end.
Definition uline (l : dline) : string :=
  match l with Line m t => (umark m ++ t)%string | NoNewline => "\ No newline at end of file"%string end.
(** A range: start and, unless it is one line, the number of lines. *)
Record hunk := mkHunk { u_old : range; u_new : range; u_lines : list dline }.
Record udiff := mkUdiff { u_head1 : string; u_head2 : string; u_hunks : list hunk }.
Definition hunk_lines (h : hunk) : list string :=
  ("@@ -" ++ show_range (u_old h) ++ " +" ++ show_range (u_new h) ++ " @@")%string :: map uline (u_lines h).
Definition print_udiff (d : udiff) : string :=
  text_of_lines ([("--- " ++ u_head1 d); ("+++ " ++ u_head2 d)]%string ++ flat_map hunk_lines (u_hunks d)).
Definition shift_start (k : Z) (r : range) : range := mkRange (from r + k) (upto r).
Definition shift_hunk (k1 k2 : Z) (h : hunk) : hunk :=
  mkHunk (shift_start k1 (u_old h)) (shift_start k2 (u_new h)) (u_lines h).
Definition keep (ms : list mark) (l : dline) : bool :=
  match l with
  | Line m _ => existsb (fun m' => match m, m' with Same, Same | Removed, Removed | Added, Added => true | _, _ => false end) ms
  | NoNewline => false
  end.
Definition hunk_of (old new : list string) (h : hunk) : Prop :=
  (0 <= from (u_old h))%Z /\ (0 <= from (u_new h))%Z /\
  (forall b, upto (u_old h) = Some b -> (0 <= b)%Z) /\ (forall b, upto (u_new h) = Some b -> (0 <= b)%Z) /\
  lines_from old (from (u_old h)) (source_lines (filter (keep [Same; Removed]) (u_lines h))) /\
  lines_from new (from (u_new h)) (source_lines (filter (keep [Same; Added]) (u_lines h))) /\
  (forall t, ~ In (Line Changed t) (u_lines h)).
Definition unified_tool (dt : difftool) : Prop :=
  forall a b,
    dt "-U"%string a b = (0%Z, Ok ""%string) /\ a = b \/
    a <> b /\ exists d, dt "-U"%string a b = (1%Z, Ok (print_udiff d)) /\ u_hunks d <> [] /\
      has_char nl (u_head1 d) = false /\ has_char nl (u_head2 d) = false /\
      Forall (hunk_of (readlines a) (readlines b)) (u_hunks d).
(** [upto] of a unified range is a number of lines, so moving keeps it. *)

(** Lines [s1..e1] of the first file are the same text as lines [s2..e2] of the second. *)
Definition same_part (l1 : list string) (s1 e1 : Z) (l2 : list string) (s2 e2 : Z) : Prop :=
  forall i l, (0 <= i)%Z ->
    (s1 + i <= e1)%Z /\ line_at l1 (s1 + i) l <-> (s2 + i <= e2)%Z /\ line_at l2 (s2 + i) l.

(** The lines of a text: LF, CR and CR LF end a line; every line but an unfinished last one is
    kept with one LF. *)
Definition plain (l : string) : Prop := has_char nl l = false /\ has_char cr l = false.
Inductive Lines : string -> list string -> Prop :=
| ln_none : Lines "" []
| ln_last l : plain l -> l <> ""%string -> Lines l [l]
| ln_lf l t ls : plain l -> Lines t ls -> Lines (l ++ String nl t) ((l ++ String nl "")%string :: ls)
| ln_crlf l t ls : plain l -> Lines t ls -> Lines (l ++ String cr (String nl t)) ((l ++ String nl "")%string :: ls)
| ln_cr l t ls : plain l -> (forall u, t <> String nl u) -> Lines t ls -> Lines (l ++ String cr t) ((l ++ String nl "")%string :: ls).
