(** * Model of the text utilities of SimpLL (names, macros, calls and inline assembly in C
    sources).
    Sources: diffkemp/simpll/Utils.cpp, diffkemp/simpll/SourceCodeUtils.cpp.
    C++ strings are lists of bytes; positions do not overflow; reading past the terminating
    zero of a string is undefined behaviour and modelled as [None] where it can happen. *)
From Coq Require Import String Ascii ZArith Arith Bool List.
From Verif Require Import PyBase.
Import ListNotations.
Open Scope list_scope.
Open Scope nat_scope.

(** ** std::string *)

(** Position of the first occurrence of [pat], std::string::find from the start. *)
Fixpoint find_at (pat s : string) : option nat :=
  if startswith s pat then Some 0
  else match s with
       | EmptyString => None
       | String _ r => option_map S (find_at pat r)
       end.
(** std::string::find from a position. *)
Definition find_from (s pat : string) (pos : nat) : option nat :=
  if String.length s <? pos then None else option_map (Nat.add pos) (find_at pat (drop pos s)).
(** std::string::find_last_of and find_last_not_of. *)
Fixpoint last_index (p : ascii -> bool) (s : string) : option nat :=
  match s with
  | EmptyString => None
  | String c r => match last_index p r with
                  | Some n => Some (S n)
                  | None => if p c then Some 0 else None
                  end
  end.
Definition take (n : nat) (s : string) : string := substring 0 n s.
(** s.substr(1, s.size() - 2): the length wraps for a string of one byte. *)
Definition inner (s : string) : string := substring 1 (String.length s - 2) s.
Definition is_digit (c : ascii) : bool := (48 <=? nat_of_ascii c) && (nat_of_ascii c <=? 57).

(** ** Names *)

(** Utils.cpp:145-150 [hasSuffix]; [None] is npos, the largest position. *)
Definition has_suffix (name : string) : bool :=
  match last_index (Ascii.eqb ".") name with
  | None => false
  | Some dot =>
      match last_index (fun c => negb (is_digit c || Ascii.eqb c ".")) name with
      | Some n => n <? dot
      | None => false
      end || String.eqb (drop dot name) ".void"
  end.
(** Utils.cpp:154-156 [dropSuffix] *)
Definition drop_suffix (name : string) : string :=
  match last_index (Ascii.eqb ".") name with Some dot => take dot name | None => name end.
(** Utils.cpp:160-165 [joinPath] *)
Definition join_path (dir file : string) : string :=
  if startswith file dir then file else (dir ++ "/" ++ file)%string.
(** Utils.cpp:780-805 [namesMatch] with CustomPatternSet.cpp:55-59 (the prefixes). *)
Definition base_name (name : string) : string := if has_suffix name then drop_suffix name else name.
Definition names_match (l r : string) (left_side : bool) : bool :=
  let nl := base_name l in
  let nr := base_name r in
  if String.eqb nl nr then true
  else if negb (startswith nr "diffkemp.") then false
  else
    let prefix := if left_side then "old."%string else "new."%string in
    let real := drop 9 nr in
    let real := if startswith real prefix then drop 4 real else real in
    String.eqb nl real.

(** Utils.cpp:353-368 [isValidCharForIdentifier], [isValidCharForIdentifierStart] *)
Definition is_letter (c : ascii) : bool :=
  let n := nat_of_ascii c in ((65 <=? n) && (n <=? 90)) || ((97 <=? n) && (n <=? 122)).
Definition ident_start (c : ascii) : bool := is_letter c || Ascii.eqb c "_".
Definition ident_char (c : ascii) : bool := is_letter c || is_digit c || Ascii.eqb c "_".

(** Utils.cpp:372-381 [findAndReplace], with fuel for the loop. *)
Fixpoint replace_loop (fuel : nat) (input find repl : string) (pos : nat) : option string :=
  match fuel with
  | O => None
  | S n =>
      match find_from input find pos with
      | None => Some input
      | Some p => replace_loop n (take p input ++ repl ++ drop (p + String.length find) input)%string find repl (p + String.length repl)
      end
  end.
Definition find_and_replace (fuel : nat) (input find repl : string) : option string :=
  if String.eqb find "" then Some input else replace_loop fuel input find repl 0.
(** The same with enough fuel ([C50_terminates] shows that it is). *)
Definition replace_all (input find repl : string) : string :=
  match find_and_replace (S (String.length input)) input find repl with Some r => r | None => input end.

(** ** Brackets and arguments *)

(** SourceCodeUtils.cpp:390-408 [getSubstringToMatchingBracket]: the loop from a byte on. *)
Fixpoint bracket_loop (depth : Z) (s : string) : string :=
  match s with
  | EmptyString => EmptyString
  | String c r =>
      let depth := if Ascii.eqb c "(" then (depth + 1)%Z else if Ascii.eqb c ")" then (depth - 1)%Z else depth in
      String c (if (depth =? 0)%Z then EmptyString else bracket_loop depth r)
  end.
(** [pos] is [None] for npos; at the end the terminating zero is read and "" returned; a
    position after it is undefined behaviour. *)
Definition to_matching_bracket (s : string) (pos : option nat) : option string :=
  match pos with
  | None => Some ""%string
  | Some p => if String.length s <? p then None else Some (bracket_loop 0 (drop p s))
  end.

(** SourceCodeUtils.cpp:567-602 [splitArgumentsList] *)
Fixpoint split_loop (depth : Z) (current s : string) : list string :=
  match s with
  | EmptyString => []
  | String c r =>
      let depth := if Ascii.eqb c "(" then (depth + 1)%Z else if Ascii.eqb c ")" then (depth - 1)%Z else depth in
      if ((depth =? 0)%Z && Ascii.eqb c ",") || (depth =? -1)%Z then current :: split_loop depth "" r
      else split_loop depth (current ++ String c "")%string r
  end.
(** Without the blanks at both ends, unless there is nothing else. *)
Fixpoint strip_left (s : string) : string :=
  match s with String c r => if Ascii.eqb c " " then strip_left r else s | EmptyString => s end.
Definition strip_blanks (s : string) : string :=
  match last_index (fun c => negb (Ascii.eqb c " ")) s with
  | None => s
  | Some n => strip_left (take (S n) s)
  end.
Definition split_arguments (s : string) : list string := map strip_blanks (split_loop 0 "" (drop 1 s)).

(** ** Macros *)

Fixpoint zip {A B} (a : list A) (b : list B) : list (A * B) :=
  match a, b with x :: a, y :: b => (x, y) :: zip a b | _, _ => [] end.
(** SourceCodeUtils.cpp:643-651 [expandMacros] *)
Definition expand_macros (macros bodies : list string) (input : string) : string :=
  fold_left (fun out mb => replace_all out (fst mb) (snd mb)) (zip macros bodies) input.

(** SourceCodeUtils.cpp:138-153 [expandCompositeMacroNames], with fuel for the inner loop. *)
Definition char_before (s : string) (pos : nat) : option ascii :=
  match pos with O => None | S p => String.get p s end.
Fixpoint composite_loop (fuel : nat) (param arg body : string) (pos : nat) : option string :=
  match fuel with
  | O => None
  | S n =>
      match find_from body (param ++ "##") pos with
      | None => Some body
      | Some p =>
          match char_before body p with
          | Some c => if ident_char c then composite_loop n param arg body p
                      else composite_loop n param arg (take p body ++ arg ++ drop (p + String.length param + 2) body)%string (p + String.length arg + 2)
          | None => composite_loop n param arg (take p body ++ arg ++ drop (p + String.length param + 2) body)%string (p + String.length arg + 2)
          end
      end
  end.
Fixpoint composite_all (fuel : nat) (l : list (string * string)) (body : string) : option string :=
  match l with
  | [] => Some body
  | (p, a) :: l => match composite_loop fuel p a body 0 with Some b => composite_all fuel l b | None => None end
  end.
Definition expand_composite (fuel : nat) (params args : list string) (body : string) : option string :=
  composite_all fuel (zip params args) body.

(** SourceCodeUtils.h:29-58 [MacroDef], [MacroUse]; the parent is given by its name, which is
    the key of its use. *)
Record mdef := mkMdef { d_name : string; d_body : string; d_line : Z; d_file : string; d_params : list string }.
Record muse := mkMuse { u_def : mdef; u_parent : option string; u_line : Z; u_file : string; u_args : list string }.

(** The macro nodes of the debug information. *)
Inductive mnode :=
| MDef (full value : string) (line : Z)
| MFile (file : string) (elements : list mnode).
(** SourceCodeUtils.cpp:358-381: a definition found in a file. *)
Definition macro_def (file full value : string) (line : Z) : mdef :=
  match find_at "(" full with
  | Some p => mkMdef (take p full) value line file
                (match to_matching_bracket full (Some p) with Some raw => split_arguments raw | None => [] end)
  | None => mkMdef full value line file []
  end.
(** SourceCodeUtils.cpp:349-383: the elements of a file; insert keeps an existing entry. *)
Fixpoint add_elements (file : string) (l : list mnode) (defs : dict string mdef) (stack : list mnode) : dict string mdef * list mnode :=
  match l with
  | [] => (defs, stack)
  | MFile f e :: l => add_elements file l defs (MFile f e :: stack)
  | MDef full value line :: l =>
      let d := macro_def file full value line in
      add_elements file l (if dmem defs (d_name d) then defs else dset defs (d_name d) d) stack
  end.
(** SourceCodeUtils.cpp:324-386 [collectMacroDefs]; the top of the stack is the head. *)
Fixpoint collect_loop (fuel : nat) (stack : list mnode) (defs : dict string mdef) : option (dict string mdef) :=
  match stack with
  | [] => Some defs
  | node :: stack =>
      match fuel with
      | O => None
      | S n => match node with
               | MFile f e => let '(defs, stack) := add_elements f e defs stack in collect_loop n stack defs
               | MDef _ _ _ => collect_loop n stack defs
               end
      end
  end.
Definition is_file (n : mnode) : bool := match n with MFile _ _ => true | MDef _ _ _ => false end.
Definition collect_defs (fuel : nat) (nodes : list mnode) : option (dict string mdef) :=
  collect_loop fuel (rev (filter is_file nodes)) [].

(** SourceCodeUtils.cpp:64-81, 128-131: the identifiers found in a text, each with the position
    at which its end was noticed. *)
Fixpoint scan (name : string) (i : nat) (s : string) : list (string * nat) :=
  match s with
  | EmptyString => []
  | String c r =>
      if String.eqb name "" then scan (if ident_start c then String c "" else "")%string (S i) r
      else if negb (ident_char c) || String.eqb r "" then
        ((if String.eqb r "" && ident_char c then (name ++ String c "")%string else name), i) :: scan "" (S i) r
      else scan (name ++ String c "")%string (S i) r
  end.
(** SourceCodeUtils.cpp:82-127: one identifier. *)
Definition visit (defs : dict string mdef) (loc : Z * string) (parent : option muse) (text : string)
  (st : dict string muse * list (string * option string)) (x : string * nat) : dict string muse * list (string * option string) :=
  let '(uses, stack) := st in
  match dget uses (fst x), dget defs (fst x) with
  | None, Some d =>
      let raw := match to_matching_bracket text (Some (snd x)) with Some r => r | None => ""%string end in
      let raw := match parent with
                 | Some p => match d_params (u_def p) with [] => raw | _ :: _ => expand_macros (d_params (u_def p)) (u_args p) raw end
                 | None => raw
                 end in
      let use := mkMuse d (option_map (fun p => d_name (u_def p)) parent)
                   (match parent with Some p => d_line (u_def p) | None => fst loc end)
                   (match parent with Some p => d_file (u_def p) | None => snd loc end)
                   (split_arguments raw) in
      (dset uses (d_name d) use, (d_body d, Some (d_name d)) :: stack)
  | _, _ => (uses, stack)
  end.
(** SourceCodeUtils.cpp:27-134 [collectMacroUsesAtLocation] from the line of source on;
    [fuelc] is for the inner loops, [fuel] for the queue (used as a stack). *)
Fixpoint uses_loop (fuelc fuel : nat) (defs : dict string mdef) (loc : Z * string)
  (uses : dict string muse) (stack : list (string * option string)) : option (dict string muse) :=
  match stack with
  | [] => Some uses
  | (text, pname) :: stack =>
      match fuel with
      | O => None
      | S n =>
          let parent := match pname with Some p => dget uses p | None => None end in
          match (match parent with Some p => expand_composite fuelc (d_params (u_def p)) (u_args p) text | None => Some text end) with
          | None => None
          | Some text =>
              let '(uses, stack) := fold_left (visit defs loc parent text) (scan "" 0 text) (uses, stack) in
              uses_loop fuelc n defs loc uses stack
          end
      end
  end.
Definition collect_uses (fuelc : nat) (defs : dict string mdef) (loc : Z * string) (line : string) (uses : dict string muse)
  : option (dict string muse) :=
  if String.eqb line "" then Some uses else uses_loop fuelc (2 + length defs) defs loc uses [(line, None)].

(** SourceCodeUtils.cpp:262-276: the macros from a use to the one used on the line. *)
Fixpoint chain (fuel : nat) (uses : dict string muse) (name : string) : list (string * string * Z) :=
  match fuel, dget uses name with
  | S n, Some u => ((d_name (u_def u) ++ " (macro)")%string, u_file u, u_line u) ::
                   match u_parent u with Some p => chain n uses p | None => [] end
  | _, _ => []
  end.
(** Output.h/Result.h [SyntaxDifference]: name, bodies and stacks. *)
Record mdiff := mkMdiff { m_name : string; m_left : string; m_right : string; m_stack_left : list (string * string * Z); m_stack_right : list (string * string * Z) }.
(** SourceCodeUtils.cpp:250-309: one pass over the uses of the left location (the order of
    StringMap is not specified; here it is that of the uses). *)
Definition differences (l r : dict string muse) : list mdiff :=
  flat_map (fun kl =>
    match dget r (fst kl) with
    | Some ur =>
        if String.eqb (d_body (u_def (snd kl))) (d_body (u_def ur)) then []
        else [mkMdiff (d_name (u_def (snd kl))) (d_body (u_def (snd kl))) (d_body (u_def ur))
                (rev (chain (length l) l (fst kl))) (rev (chain (length r) r (fst kl)))]
    | None => []
    end) l.

(** ** The line of a location *)

(** SourceCodeUtils.cpp:156-216 [extractLineFromLocation] on the lines that are not empty with
    their numbers (llvm::line_iterator skips empty lines); at the end the line is "". *)
Fixpoint count (c : ascii) (s : string) : nat :=
  match s with EmptyString => 0 | String d r => (if Ascii.eqb d c then 1 else 0) + count c r end.
Definition current (it : list (Z * string)) : string := match it with (_, l) :: _ => l | [] => ""%string end.
Fixpoint go_to (target : Z) (it : list (Z * string)) (line : string) : string * list (Z * string) :=
  match it with
  | [] => (line, [])
  | (n, _) :: rest =>
      if (n =? target)%Z then (line, it)
      else go_to target rest (let l := current rest in if count "(" l <? count ")" l then (line ++ l)%string else l)
  end.
(** do { ++it; line += *it; } while (!at end && !finished); advancing at the end is undefined. *)
Fixpoint add_lines (finished : string -> bool) (it : list (Z * string)) (line : string) : option (string * list (Z * string)) :=
  match it with
  | [] => None
  | _ :: rest =>
      let line' := (line ++ current rest)%string in
      match rest with
      | [] => Some (line', [])
      | _ => if finished line' then Some (line', rest) else add_lines finished rest line'
      end
  end.
Definition brackets_closed (s : string) : bool := negb (count ")" s <? count "(" s).
Definition extract_line (lines : list (Z * string)) (target : Z) : option string :=
  let '(line, it) := go_to target lines "" in
  match (if brackets_closed line then Some (line, it) else add_lines brackets_closed it line) with
  | None => None
  | Some (line, it) =>
      let bare := replace_all (replace_all line " " "") (String (ascii_of_nat 9) "") "" in
      if startswith bare "return" && negb (contains line ";") then option_map fst (add_lines (fun s => contains s ";") it line)
      else Some line
  end.
(** The lines of a text as the iterator sees them. *)
Definition newline : ascii := ascii_of_nat 10.
Fixpoint number_lines (n : Z) (l : list string) : list (Z * string) :=
  match l with
  | [] => []
  | x :: l => (if String.eqb x "" then [] else [(n, x)]) ++ number_lines (n + 1) l
  end.
Definition source_lines (text : string) : list (Z * string) := number_lines 1 (split_char newline text).

(** ** Inline assembly *)

(** SourceCodeUtils.cpp:438-463: the quoted sections up to a colon outside of them; the state
    is the text after the last quotation mark.  With an even number of marks the second one is
    always found. *)
Definition quote : ascii := ascii_of_nat 34.
Fixpoint sections (fuel : nat) (rest body : string) : string * string :=
  match fuel with
  | O => (body, rest)
  | S n =>
      match find_at (String quote "") rest with
      | None => (body, rest)
      | Some q =>
          let colon_first := match find_at ":" rest with Some c => c <? q | None => false end in
          if colon_first then (body, rest)
          else
            let after := drop (S q) rest in
            match find_at (String quote "") after with
            | None => (body, rest)
            | Some q2 => sections n (drop (S q2) after) (body ++ take q2 after)%string
            end
      end
  end.
(** SourceCodeUtils.cpp:465-474: the operands and escapes. *)
Definition operands : list (string * string) :=
  map (fun i => ("%c" ++ i, "${" ++ i ++ ":c}")%string)
    ["0"; "1"; "2"; "3"; "4"; "5"; "6"; "7"; "8"; "9"; "10"; "11"; "12"; "13"; "14"; "15"; "16"; "17"; "18"; "19"]%string.
Definition asm_text (body : string) : string :=
  let body := fold_left (fun b x => replace_all b (fst x) (snd x)) operands body in
  let body := replace_all body "\t" (String (ascii_of_nat 9) "") in
  replace_all body "\n" (String newline "").
(** SourceCodeUtils.cpp:414-483 [convertInlineAsmToLLVMFormat] *)
Definition convert_asm (input : string) : string * string :=
  match find_at "asm" input with
  | None => ("", "")%string
  | Some p =>
      match find_from input "(" p with
      | None => ("", "")%string
      | Some p =>
          match to_matching_bracket input (Some p) with
          | None | Some EmptyString => ("", "")%string
          | Some ext =>
              let ext := inner ext in
              if Nat.odd (count quote ext) then ("", "")%string
              else
                let '(body, rest) := sections (String.length ext) ext "" in
                (asm_text body, match find_at ":" rest with Some c => drop c rest | None => ""%string end)
          end
      end
  end.
(** candidate.first[position]: the terminating zero may be read, nothing after it. *)
Definition byte_at (s : string) (pos : nat) : option ascii :=
  if pos =? String.length s then Some zero else String.get pos s.
(** SourceCodeUtils.cpp:521-536: one pass; [None] is undefined behaviour. *)
Fixpoint keep_matching (asm : string) (pos : nat) (l : list (string * string)) : option (list (string * string)) :=
  match l with
  | [] => Some []
  | c :: l =>
      match byte_at (fst c) pos, byte_at asm pos with
      | Some x, Some y =>
          match keep_matching asm pos l with
          | None => None
          | Some r => Some (if negb (Ascii.eqb x y) || String.eqb (fst c) "" then r else c :: r)
          end
      | _, _ => None
      end
  end.
Fixpoint choose (fuel : nat) (asm : string) (pos : nat) (l : list (string * string)) : option (list (string * string)) :=
  match l with
  | [] | [_] => Some l
  | _ => match fuel with
         | O => None
         | S n => match keep_matching asm pos l with None => None | Some l => choose n asm (S pos) l end
         end
  end.
(** SourceCodeUtils.cpp:544-562: the arguments in brackets; the search goes on one byte after
    the end of the last one. *)
Fixpoint asm_arguments (fuel : nat) (rest : string) : list string :=
  match fuel with
  | O => []
  | S n =>
      match find_at "(" rest with
      | None => []
      | Some p =>
          let arg := bracket_loop 0 (drop p rest) in
          inner arg :: asm_arguments n (drop (p + String.length arg + 1) rest)
      end
  end.
(** SourceCodeUtils.cpp:488-564 [findInlineAssemblySourceArguments] on the line and the bodies
    of the macros used there. *)
Definition is_candidate (c : string * string) : bool := negb (String.eqb (fst c) "" && String.eqb (snd c) "").
Definition find_asm_arguments (asm line : string) (bodies : list string) : option (list string) :=
  if String.eqb asm "" || String.eqb line "" then Some []
  else
    let candidates := filter is_candidate (map convert_asm (line :: bodies)) in
    match choose (String.length asm + 2) asm 0 candidates with
    | None => None
    | Some [] => Some []
    | Some (c :: _) => Some (asm_arguments (S (String.length (snd c))) (snd c))
    end.

(** ** Arguments of a call *)

(** SourceCodeUtils.cpp:606-639 [findFunctionCallSourceArguments]: the last input with the name
    counts. *)
Definition call_arguments (name : string) (acc input : string) : string :=
  match find_at name input with
  | None => acc
  | Some i => match to_matching_bracket input (find_from input "(" i) with Some r => r | None => ""%string end
  end.
Definition find_call_arguments (name line : string) (bodies : list string) : list string :=
  if String.eqb line "" then [] else split_arguments (fold_left (call_arguments name) (line :: bodies) ""%string).

(** ** Macro uses of locations, kept over the comparison *)

(** A location: its identity, line and file. *)
Record location := mkLocation { l_id : nat; l_line : Z; l_file : string }.
(** SourceCodeUtils.cpp:220-243 [getAllMacroUsesAtLocation]; [line_at] is the extracted text for
    an offset.  The uses already known for the location are kept and added to. *)
Definition get_uses (fuelc : nat) (defs : dict string mdef) (line_at : location -> Z -> string) (loc : location) (offset : Z)
  (st : dict nat (dict string muse)) : option (dict string muse * dict nat (dict string muse)) :=
  let known := dget st (l_id loc) in
  match known, (offset =? 0)%Z with
  | Some u, true => Some (u, st)
  | _, _ =>
      match collect_uses fuelc defs (l_line loc, l_file loc) (line_at loc offset) (match known with Some u => u | None => [] end) with
      | Some u => Some (u, dset st (l_id loc) u)
      | None => None
      end
  end.
(** SourceCodeUtils.cpp:245-320 [findMacroDifferences] *)
Definition differences_at (fuelc : nat) (defsl defsr : dict string mdef) (line_at : location -> Z -> string) (l r : location) (offset : Z)
  (st : dict nat (dict string muse)) : option (list mdiff * dict nat (dict string muse)) :=
  match get_uses fuelc defsl line_at l offset st with
  | None => None
  | Some (ul, st) =>
      match get_uses fuelc defsr line_at r offset st with
      | None => None
      | Some (ur, st) => Some (differences ul ur, st)
      end
  end.
Definition find_differences (fuelc : nat) (defsl defsr : dict string mdef) (line_at : location -> Z -> string) (l r : location)
  (st : dict nat (dict string muse)) : option (list mdiff * dict nat (dict string muse)) :=
  match differences_at fuelc defsl defsr line_at l r 0 st with
  | Some ([], st) => differences_at fuelc defsl defsr line_at l r (-1) st
  | x => x
  end.
