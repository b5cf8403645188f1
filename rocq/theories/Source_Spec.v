(** * Specification vocabulary for the text utilities of SimpLL *)
From Coq Require Import String Ascii ZArith Arith Bool List.
From Verif Require Import PyBase Source_Model.
Import ListNotations.
Open Scope list_scope.

(** All characters satisfy [p]. *)
Inductive Every (p : ascii -> Prop) : string -> Prop :=
| every_nil : Every p ""
| every_cons c s : p c -> Every p s -> Every p (String c s).
Definition digit (c : ascii) : Prop := (48 <= nat_of_ascii c <= 57)%nat.
Definition letter (c : ascii) : Prop := (65 <= nat_of_ascii c <= 90)%nat \/ (97 <= nat_of_ascii c <= 122)%nat.
Definition word_char (c : ascii) : Prop := letter c \/ digit c \/ c = "_"%char.
Definition within (x s : string) : Prop := exists a b, s = (a ++ x ++ b)%string.

(** A name with a number (or nothing) after its last dot, and one ending in .void. *)
Definition numbered (name base : string) : Prop :=
  exists d, name = (base ++ "." ++ d)%string /\ Every digit d /\ exists c, within (String c "") base /\ ~ digit c /\ c <> "."%char.
Definition voided (name base : string) : Prop := name = (base ++ ".void")%string.
Definition base_of (name base : string) : Prop :=
  numbered name base \/ voided name base \/ (base = name /\ forall b, ~ numbered name b /\ ~ voided name b).

(** Opening minus closing brackets. *)
Fixpoint level (s : string) : Z :=
  match s with
  | EmptyString => 0
  | String c r => (if Ascii.eqb c "(" then 1 else if Ascii.eqb c ")" then -1 else 0) + level r
  end%Z.
(** [r] is the shortest non-empty beginning of [s] with as many opening as closing brackets. *)
Definition closes (s r : string) : Prop :=
  r <> ""%string /\ level r = 0%Z /\ (exists t, s = (r ++ t)%string) /\
  forall a b, r = (a ++ b)%string -> a <> ""%string -> b <> ""%string -> level a <> 0%Z.
Definition never_closes (s : string) : Prop := forall r t, s = (r ++ t)%string -> r <> ""%string -> level r <> 0%Z.
(** One argument: its brackets match, and it has no comma outside of them. *)
Definition argument (a : string) : Prop :=
  level a = 0%Z /\ (forall x y, a = (x ++ y)%string -> (0 <= level x)%Z) /\ (forall x y, a = (x ++ "," ++ y)%string -> (0 < level x)%Z).
Definition blank_only (s : string) : Prop := Every (fun c => c = " "%char) s.
(** Without the blanks at both ends; nothing but blanks is kept. *)
Inductive stripped : string -> string -> Prop :=
| st_blank s : blank_only s -> stripped s s
| st_text l s r : blank_only l -> blank_only r -> s <> ""%string -> (forall t, s <> (" " ++ t)%string) -> (forall t, s <> (t ++ " ")%string) ->
    stripped (l ++ s ++ r) s.

(** Composite names: the first occurrence of p## in [s] is after [pre]. *)
Definition first_occurrence (p s pre post : string) : Prop :=
  s = (pre ++ p ++ post)%string /\ forall a b, s = (a ++ p ++ b)%string -> (String.length pre <= String.length a)%nat.
(** The character before the text that follows [pre]. *)
Inductive preceded (prev : option ascii) : string -> option ascii -> Prop :=
| pre_start : preceded prev "" prev
| pre_last a c : preceded prev (a ++ String c "") (Some c).
Definition part_of_word (x : option ascii) : Prop := exists c, x = Some c /\ word_char c.
(** What the expansion of one parameter gives: occurrences of p## are replaced, but the two
    characters after one that was replaced are not looked at. *)
Inductive Composed (p a : string) : option ascii -> string -> string -> Prop :=
| cp_none prev s : ~ within (p ++ "##") s -> Composed p a prev s s
| cp_hit prev s pre x y post c r : first_occurrence (p ++ "##") s pre (String x (String y post)) -> preceded prev pre c -> ~ part_of_word c ->
    Composed p a (Some y) post r -> Composed p a prev s (pre ++ a ++ String x (String y r))
| cp_last prev s pre post c : first_occurrence (p ++ "##") s pre post -> preceded prev pre c -> ~ part_of_word c -> (String.length post <= 1)%nat ->
    Composed p a prev s (pre ++ a ++ post).
(** The expansion meets an occurrence that continues a word. *)
Inductive Stuck (p : string) : option ascii -> string -> Prop :=
| sk_here prev s pre post c : first_occurrence (p ++ "##") s pre post -> preceded prev pre c -> part_of_word c -> Stuck p prev s
| sk_later prev s pre x y post c : first_occurrence (p ++ "##") s pre (String x (String y post)) -> preceded prev pre c -> ~ part_of_word c ->
    Stuck p (Some y) post -> Stuck p prev s.

(** ** Macros *)

(** Identifiers as the analysis sees them: a maximal sequence of word characters, without
    leading digits; one of a single character at the very end is not seen.  [i] is where it
    ends. *)
Definition identifier (x : string) : Prop := exists c r, x = String c r /\ (letter c \/ c = "_"%char) /\ Every word_char r.
Definition word_break (pre : string) : Prop :=
  exists a d, pre = (a ++ d)%string /\ Every digit d /\ forall b c, a = (b ++ String c "")%string -> ~ word_char c.
Definition word_ends (post : string) : Prop := forall c t, post = String c t -> ~ word_char c.
Definition sees (text x : string) (i : nat) : Prop :=
  exists pre post, text = (pre ++ x ++ post)%string /\ word_break pre /\ identifier x /\ word_ends post /\
    (post = ""%string -> (2 <= String.length x)%nat) /\ i = (if String.eqb post "" then String.length text - 1 else String.length pre + String.length x)%nat.

(** Definitions are stored under their names. *)
Definition keyed (defs : dict string mdef) : Prop := forall k d, dget defs k = Some d -> d_name d = k.
(** The text of a macro body after the expansion of composite names. *)
Definition body_text (fuelc : nat) (u : muse) (text : string) : Prop :=
  expand_composite fuelc (d_params (u_def u)) (u_args u) (d_body (u_def u)) = Some text.
(** Arguments of a macro seen in a text at [i]; those of a macro with parameters are filled in. *)
Definition arguments_at (text : string) (i : nat) (parent : option muse) : list string :=
  let raw := bracket_loop 0 (drop i text) in
  split_arguments match parent with
                  | Some p => match d_params (u_def p) with [] => raw | _ => expand_macros (d_params (u_def p)) (u_args p) raw end
                  | None => raw
                  end.
(** A recorded use is justified by the line or by the body of its parent. *)
Inductive justified (fuelc : nat) (defs : dict string mdef) (loc : Z * string) (line : string) (uses : dict string muse) : string -> muse -> Prop :=
| j_line k u i : dget defs k = Some (u_def u) -> u_parent u = None -> sees line k i -> u_line u = fst loc -> u_file u = snd loc ->
    u_args u = arguments_at line i None -> justified fuelc defs loc line uses k u
| j_macro k u p pu text i : dget defs k = Some (u_def u) -> u_parent u = Some p -> dget uses p = Some pu -> body_text fuelc pu text -> sees text k i ->
    u_line u = d_line (u_def pu) -> u_file u = d_file (u_def pu) -> u_args u = arguments_at text i (Some pu) ->
    justified fuelc defs loc line uses k u.
(** The macros from the line to a use. *)
Inductive Path_to (uses : dict string muse) : string -> list (string * string * Z) -> Prop :=
| pt_line k u : dget uses k = Some u -> u_parent u = None -> Path_to uses k [((d_name (u_def u) ++ " (macro)")%string, u_file u, u_line u)]
| pt_macro k u p l : dget uses k = Some u -> u_parent u = Some p -> Path_to uses p l ->
    Path_to uses k (l ++ [((d_name (u_def u) ++ " (macro)")%string, u_file u, u_line u)]).
(** A definition somewhere in the files. *)
Inductive Defined : list mnode -> string -> string -> string -> Z -> Prop :=
| df_here nodes f elements full value line : In (MFile f elements) nodes -> In (MDef full value line) elements -> Defined nodes f full value line
| df_file nodes f elements g full value line : In (MFile f elements) nodes -> Defined elements g full value line -> Defined nodes g full value line.
Inductive macro_name : string -> string -> Prop :=
| mn_plain s : (forall a b, s <> (a ++ "(" ++ b)%string) -> macro_name s s
| mn_params a b : (forall x y, a <> (x ++ "(" ++ y)%string) -> macro_name (a ++ "(" ++ b) a.

(** ** Inline assembly *)

(** The text of quoted sections before the first colon outside of them, and the rest. *)
Inductive Sections : string -> string -> string -> Prop :=
| sc_end s : (forall a b, s <> (a ++ String quote b)%string) -> Sections s "" s
| sc_colon a b : (forall x y, a <> (x ++ String quote y)%string) -> (forall x y, a <> (x ++ ":" ++ y)%string) -> Sections (a ++ ":" ++ b) "" (a ++ ":" ++ b)
| sc_quote a q b body rest : (forall x y, a <> (x ++ String quote y)%string) -> (forall x y, a <> (x ++ ":" ++ y)%string) ->
    (forall x y, q <> (x ++ String quote y)%string) -> Sections b body rest ->
    Sections (a ++ String quote (q ++ String quote b)) (q ++ body) rest.
(** The first [n] bytes agree, the terminating zero included. *)
Definition agree (n : nat) (a b : string) : Prop := forall i, (i < n)%nat -> byte_at a i <> None /\ byte_at a i = byte_at b i.
(** Bracketed groups of the operands; the byte after a group is passed over. *)
Inductive Groups : string -> list string -> Prop :=
| gr_none s : (forall a b, s <> (a ++ "(" ++ b)%string) -> Groups s []
| gr_group pre y x post l : (forall a b, pre <> (a ++ "(" ++ b)%string) -> closes ("(" ++ y ++ ")") ("(" ++ y ++ ")") -> Groups post l ->
    Groups (pre ++ "(" ++ y ++ ")" ++ String x post) (y :: l)
| gr_last pre y : (forall a b, pre <> (a ++ "(" ++ b)%string) -> closes ("(" ++ y ++ ")") ("(" ++ y ++ ")") -> Groups (pre ++ "(" ++ y ++ ")") [y]
| gr_open pre y c : (forall a b, pre <> (a ++ "(" ++ b)%string) -> never_closes ("(" ++ y ++ String c "") -> Groups (pre ++ "(" ++ y ++ String c "") [y]
| gr_open_end pre : (forall a b, pre <> (a ++ "(" ++ b)%string) -> Groups (pre ++ "(") [""%string].

(** ** Order of definitions and uses *)

(** The definitions below a list of files in the order in which they are looked at: those of a
    file first, then those of the files included by it, the last of them first. *)
Definition own (f : string) (elements : list mnode) : list (string * string * string * Z) :=
  flat_map (fun n => match n with MDef full value line => [(f, full, value, line)] | MFile _ _ => [] end) elements.
Inductive Listed : list mnode -> list (string * string * string * Z) -> Prop :=
| ls_nil : Listed [] []
| ls_def full value line rest l : Listed rest l -> Listed (MDef full value line :: rest) l
| ls_file f elements rest l1 l2 : Listed (rev elements) l1 -> Listed rest l2 -> Listed (MFile f elements :: rest) (own f elements ++ l1 ++ l2).
(** The parameters in the full name of a macro. *)
Inductive parameters : string -> list string -> Prop :=
| pa_none s : (forall a b, s <> (a ++ "(" ++ b)%string) -> parameters s []
| pa_list a args bs rest : (forall x y, a <> (x ++ "(" ++ y)%string) -> args <> [] -> Forall argument args -> Forall2 stripped args bs ->
    parameters (a ++ "(" ++ join "," args ++ ")" ++ rest) bs.
(** A use that is recorded after its parent. *)
Inductive Ordered : dict string muse -> Prop :=
| or_nil : Ordered []
| or_use us k u : Ordered us -> ~ In k (dkeys us) -> (forall p, u_parent u = Some p -> In p (dkeys us)) -> Ordered (us ++ [(k, u)]).
(** Uses of macros of [defs], closed under the macros seen in their bodies. *)
Definition uses_of (fuelc : nat) (defs : dict string mdef) (uses : dict string muse) : Prop :=
  Ordered uses /\ (forall k u, dget uses k = Some u -> dget defs k = Some (u_def u)) /\
  forall p pu text k i, dget uses p = Some pu -> body_text fuelc pu text -> sees text k i -> dget defs k <> None -> dget uses k <> None.

(** ** The text of a location *)

Definition texts (l : list (Z * string)) : string := fold_right (fun x t => (snd x ++ t)%string) ""%string l.
(** A line with more closing than opening brackets continues the one before. *)
Definition continues (x : Z * string) : Prop := (level (snd x) < 0)%Z.
(** [seg] is what belongs to the line at its end, [before] the lines after the first one that
    come before it. *)
Definition beginning (before seg : list (Z * string)) : Prop :=
  (before = [] /\ Forall continues seg) \/ exists s r, seg = s :: r /\ ~ continues s /\ Forall continues r.
(** Lines are taken until the text is finished or there are no more. *)
Inductive Taken (finished : string -> Prop) : string -> list (Z * string) -> list (Z * string) -> list (Z * string) -> Prop :=
| tk_end t : Taken finished t [] [] []
| tk_done t y rest : finished (t ++ snd y)%string -> Taken finished t (y :: rest) [y] rest
| tk_more t y rest taken left : ~ finished (t ++ snd y)%string -> Taken finished (t ++ snd y)%string rest taken left -> Taken finished t (y :: rest) (y :: taken) left.
Fixpoint squeeze (t : string) : string :=
  match t with
  | EmptyString => ""%string
  | String c t => if Ascii.eqb c " " || Ascii.eqb c (ascii_of_nat 9) then squeeze t else String c (squeeze t)
  end.
Definition open_return (t : string) : Prop := (exists u, squeeze t = ("return" ++ u)%string) /\ ~ within ";" t.
Definition closed (t : string) : Prop := (level t <= 0)%Z.
(** The text for the segment [seg] followed by [rest]; [None] when the end of the file is
    passed. *)
Inductive Completed (seg rest : list (Z * string)) : option string -> Prop :=
| cm_line : closed (texts seg) -> ~ open_return (texts seg) -> Completed seg rest (Some (texts seg))
| cm_return taken left : closed (texts seg) -> open_return (texts seg) -> Taken (within ";") (texts seg) rest taken left ->
    Completed seg rest (Some (texts (seg ++ taken)))
| cm_brackets taken left : ~ closed (texts seg) -> Taken closed (texts seg) rest taken left -> ~ open_return (texts (seg ++ taken)) ->
    Completed seg rest (Some (texts (seg ++ taken)))
| cm_both taken left taken2 left2 : ~ closed (texts seg) -> Taken closed (texts seg) rest taken left -> open_return (texts (seg ++ taken)) ->
    closed (texts (seg ++ taken)) -> Taken (within ";") (texts (seg ++ taken)) left taken2 left2 ->
    Completed seg rest (Some (texts (seg ++ taken ++ taken2)))
| cm_past taken left : ~ closed (texts seg) -> Taken closed (texts seg) rest taken left -> open_return (texts (seg ++ taken)) ->
    ~ closed (texts (seg ++ taken)) -> Completed seg rest None.

(** ** Operands of inline assembly *)

Inductive operand_part : string -> string -> Prop :=
| op_none s : (forall a b, s <> (a ++ ":" ++ b)%string) -> operand_part s ""
| op_colon a b : (forall x y, a <> (x ++ ":" ++ y)%string) -> operand_part (a ++ ":" ++ b) (":" ++ b).
(** The candidates whose assembly agrees with the compiled one on the first [n] bytes. *)
Definition fits (n : nat) (asm : string) (c : string * string) : Prop := agree n (fst c) asm /\ ((0 < n)%nat -> fst c <> ""%string).
Inductive Kept (n : nat) (asm : string) : list (string * string) -> list (string * string) -> Prop :=
| kp_nil : Kept n asm [] []
| kp_keep c l r : fits n asm c -> Kept n asm l r -> Kept n asm (c :: l) (c :: r)
| kp_drop c l r : ~ fits n asm c -> Kept n asm l r -> Kept n asm (c :: l) r.
Definition no_zero (s : string) : Prop := ~ within (String zero "") s.

(** Texts that follow from each other by replacing everything, one pattern after the other. *)
Inductive Rewritten : list (string * string) -> string -> string -> Prop :=
| rw_done s : Rewritten [] s s
| rw_step find repl l s t u : Replaced find repl s t -> Rewritten l t u -> Rewritten ((find, repl) :: l) s u.
(** The operands %c0 to %c19 and the escapes, in this order. *)
Definition operand_rule (digits : string) : string * string := (("%c" ++ digits)%string, ("${" ++ digits ++ ":c}")%string).
Definition asm_rules : list (string * string) :=
  map operand_rule ["0"; "1"; "2"; "3"; "4"; "5"; "6"; "7"; "8"; "9"]%string ++
  map operand_rule ["10"; "11"; "12"; "13"; "14"; "15"; "16"; "17"; "18"; "19"]%string ++
  [("\t"%string, String (ascii_of_nat 9) ""); ("\n"%string, String (ascii_of_nat 10) "")].
