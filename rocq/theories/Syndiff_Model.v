(** * Model of the syntactic differences (diffkemp/utils.py:46-79,
    diffkemp/syndiff/function_syntax_diff.py) *)
From Coq Require Import String Ascii ZArith Arith Bool Lia DecimalString List.
From Verif Require Import PyBase Result_Model.
Import ListNotations.
Open Scope list_scope.

(** ** Text files *)
Definition nl : ascii := "010"%char.
Definition cr : ascii := "013"%char.

(** What [open(path, "r", encoding="utf-8").read()] meets: the decoded content, or the
    exception raised by opening or decoding. *)
Definition fs := string -> res string.

(** Universal newlines of text mode: CR LF and CR are read as LF. *)
Fixpoint universal (s : string) : string :=
  match s with
  | EmptyString => EmptyString
  | String c s' =>
      if Ascii.eqb c cr then
        match s' with
        | String d s'' => if Ascii.eqb d nl then String nl (universal s'') else String nl (universal s')
        | EmptyString => String nl EmptyString
        end
      else String c (universal s')
  end.

(** [file.readlines()]: the lines, each with its newline. *)
Fixpoint readlines (s : string) : list string :=
  match s with
  | EmptyString => []
  | String c s' =>
      if Ascii.eqb c nl then String nl "" :: readlines s'
      else match readlines s' with
           | [] => [String c ""]
           | l :: ls => String c l :: ls
           end
  end.
Definition file_lines (f : fs) (path : string) : res (list string) :=
  match f path with Ok s => Ok (readlines (universal s)) | Err e => Err e end.

(** Python's [str.isspace] for one character.  Simplification: only ASCII white space; a
    character above 127 stands for one that is not white space. *)
Definition is_space (c : ascii) : bool :=
  let n := nat_of_ascii c in
  ((9 <=? n) && (n <=? 13) || (28 <=? n) && (n <=? 32))%nat.
(** [s.rstrip()], [s.lstrip()], [s.strip()], [s.isspace()] *)
Fixpoint rstrip (s : string) : string :=
  match s with
  | EmptyString => EmptyString
  | String c s' =>
      match rstrip s' with
      | EmptyString => if is_space c then EmptyString else String c EmptyString
      | r => String c r
      end
  end.
Fixpoint lstrip (s : string) : string :=
  match s with
  | EmptyString => EmptyString
  | String c s' => if is_space c then lstrip s' else s
  end.
Definition strip (s : string) : string := lstrip (rstrip s).
Fixpoint all_chars (p : ascii -> bool) (s : string) : bool :=
  match s with EmptyString => true | String c s' => p c && all_chars p s' end.
Definition any_char (p : ascii -> bool) (s : string) : bool := negb (all_chars (fun c => negb (p c)) s).
Definition isspace (s : string) : bool := negb (String.eqb s "") && all_chars is_space s.

(** ** Lists with Python indices *)
Definition zlen {A} (l : list A) : Z := Z.of_nat (length l).
(** [l[i]] *)
Definition py_nth {A} (l : list A) (i : Z) : res A :=
  let j := if (i <? 0)%Z then (i + zlen l)%Z else i in
  if (j <? 0)%Z then Err IndexError
  else match nth_error l (Z.to_nat j) with Some x => Ok x | None => Err IndexError end.
(** [l[a:b]] *)
Definition clamp (n i : Z) : nat :=
  Z.to_nat (Z.max 0 (Z.min n (if (i <? 0)%Z then (i + n)%Z else i))).
Definition py_slice {A} (l : list A) (a b : Z) : list A :=
  let i := clamp (zlen l) a in
  firstn (clamp (zlen l) b - i) (skipn i l).

(** ** End of a definition *)

(** utils.py:59-62; any other kind leaves the variable unbound. *)
Definition terminators (kind : string) : option (list string) :=
  if String.eqb kind "function" then Some ["}"; ");"]%string
  else if String.eqb kind "type" then Some ["};"]%string
  else None.

(** utils.py:72-78 the loop; [fuel] bounds the iterations. *)
Fixpoint end_loop (fuel : nat) (terms : list string) (lines : list string) (n : Z) (line : string) : option (res Z) :=
  if mem (rstrip line) terms then Some (Ok n)
  else
    match fuel with
    | O => None
    | S fuel' =>
        if (zlen lines <? n + 1)%Z then Some (Err EndLineNotFound)
        else match py_nth lines (n + 1 - 1) with
             | Ok line' => end_loop fuel' terms lines (n + 1) line'
             | Err e => Some (Err e)
             end
    end.

(** utils.py:53-79 [get_end_line].  UnboundLocalError is a NameError. *)
Definition get_end_line (fuel : nat) (f : fs) (file : string) (start : Z) (kind : string) : option (res Z) :=
  match file_lines f file with
  | Err e => Some (Err e)
  | Ok lines =>
      match py_nth lines (start - 1) with
      | Err e => Some (Err e)
      | Ok line =>
          match terminators kind with
          | None => Some (Err NameError)
          | Some terms => end_loop fuel terms lines start line
          end
      end
  end.

(** ** Differences *)

(** function_syntax_diff.py:118-130 [extract_code]: the text written to the output file. *)
Definition extract_code (f : fs) (file : string) (start end_ : Z) : res string :=
  match file_lines f file with
  | Ok lines => Ok (String.concat "" (py_slice lines (start - 1) end_))
  | Err e => Err e
  end.

(** The diff utility called as [diff option 1 first second]: exit status and decoded output
    (decoding may fail), given the two texts. *)
Definition difftool := string -> string -> string -> Z * res string.

(** function_syntax_diff.py:78-115 [make_diff]: the difference and the text of the first
    fragment (the code returns the name of the file with it). *)
Definition make_diff (dt : difftool) (opt : string) (f : fs) (file1 file2 : string)
    (start1 start2 end1 end2 : Z) : res (string * string) :=
  do t1 <- extract_code f file1 start1 end1;
  do t2 <- extract_code f file2 start2 end2;
  let '(status, out) := dt opt t1 t2 in
  if ((status =? 0) || (status =? 1))%Z
  then match out with Ok d => Ok (d, t1) | Err e => Err e end
  else Err CalledProcessError.

Definition is_digit (c : ascii) : bool :=
  let n := nat_of_ascii c in ((48 <=? n) && (n <=? 57))%nat.
(** function_syntax_diff.py:53-54 *)
Definition number_char (c : ascii) : bool :=
  Ascii.eqb c " " || Ascii.eqb c "*" || Ascii.eqb c "-" || Ascii.eqb c "," || is_digit c.
(** function_syntax_diff.py:55-57 (negated) *)
Definition number_line (line : string) : bool :=
  all_chars number_char line && any_char is_digit line && negb (isspace line) && negb (String.eqb line "").

(** [s.replace(c, "")], [s.count(c)] for one character *)
Fixpoint remove_char (c : ascii) (s : string) : string :=
  match s with
  | EmptyString => EmptyString
  | String d s' => if Ascii.eqb d c then remove_char c s' else String d (remove_char c s')
  end.
Fixpoint count_char (c : ascii) (s : string) : nat :=
  match s with
  | EmptyString => O
  | String d s' => if Ascii.eqb d c then S (count_char c s') else count_char c s'
  end.

(** [int(x)] of a string of digits; ValueError for the empty string.  Simplification: no
    limit on the number of digits. *)
Definition py_int (x : string) : res Z :=
  match NilZero.uint_of_string x with Some u => Ok (Z.of_uint u) | None => Err ValueError end.
(** function_syntax_diff.py:43-45 *)
Definition fix_line (offset : Z) (x : string) : res string :=
  do n <- py_int x; Ok (str_of_Z (n + offset - 1)).

(** function_syntax_diff.py:42-68 the body of the loop for one line.  [head] is the first
    line of the first fragment. *)
Definition fix_diff_line (first_line second_line : Z) (head : string) (line0 : string) : res string :=
  let line := if negb (String.eqb line0 "") && all_chars (Ascii.eqb "*") line0
              then (line0 ++ " " ++ strip head)%string else line0 in
  if negb (number_line line) then Ok line
  else
    let star := (1 <? count_char "*" line)%nat in
    let offset := if star then first_line else second_line in
    let p := if star then "***"%string else "---"%string in
    let nums := remove_char " " (remove_char "-" (remove_char "*" line)) in
    do fixed <- map_res (fix_line offset) (split_char "," nums);
    Ok (p ++ " " ++ join "," fixed ++ " " ++ p)%string.

Definition DIFF_NOT_OBTAINED_MESSAGE : string := ("  [could not obtain diff]" ++ String nl "")%string.

(** function_syntax_diff.py:23-70 [syntax_diff] *)
Definition syntax_diff (fuel : nat) (dt : difftool) (f : fs) (file1 file2 kind : string) (line1 line2 : Z)
  : option (res string) :=
  let handle e := match e with
                  | UnicodeDecodeError | EndLineNotFound => Some (Ok DIFF_NOT_OBTAINED_MESSAGE)
                  | _ => Some (Err e)
                  end in
  match get_end_line fuel f file1 line1 kind with
  | None => None
  | Some (Err e) => handle e
  | Some (Ok end1) =>
      match get_end_line fuel f file2 line2 kind with
      | None => None
      | Some (Err e) => handle e
      | Some (Ok end2) =>
          match make_diff dt "-C" f file1 file2 line1 line2 end1 end2 with
          | Err e => handle e
          | Ok (diff, fragment1) =>
              if isspace diff || String.eqb diff "" then Some (Ok diff)
              else
                let head := match readlines (universal fragment1) with [] => ""%string | l :: _ => l end in
                Some (do ls <- map_res (fix_diff_line line1 line2 head) (skipn 2 (split_char nl diff));
                      Ok (join (String nl "") ls))
          end
      end
  end.

(** ** Unified differences *)

(** [\d+] as far as possible (greedy; what follows never starts with a digit). *)
Fixpoint take_digits (s : string) : string * string :=
  match s with
  | String c s' => if is_digit c then let '(a, b) := take_digits s' in (String c a, b) else (EmptyString, s)
  | EmptyString => (EmptyString, EmptyString)
  end.
Definition digits1 (s : string) : option (string * string) :=
  let '(a, b) := take_digits s in if String.eqb a "" then None else Some (a, b).
(** [((?:,\d+)?)] *)
Definition opt_count (s : string) : string * string :=
  match s with
  | String "," s' => match digits1 s' with Some (a, b) => (String "," a, b) | None => (EmptyString, s) end
  | _ => (EmptyString, s)
  end.
Definition expect (p s : string) : option string :=
  if startswith s p then Some (drop (String.length p) s) else None.
(** function_syntax_diff.py:15-20: the groups of a match of UNIFIED_HUNK_HEAD_REGEX. *)
Definition hunk_head (line : string) : option (string * string * string * string) :=
  match expect "@@ -" line with
  | None => None
  | Some s1 =>
      match digits1 s1 with
      | None => None
      | Some (a, s2) =>
          let '(ac, s3) := opt_count s2 in
          match expect " +" s3 with
          | None => None
          | Some s4 =>
              match digits1 s4 with
              | None => None
              | Some (b, s5) =>
                  let '(bc, s6) := opt_count s5 in
                  if String.eqb s6 " @@" then Some (a, ac, b, bc) else None
              end
          end
      end
  end.
Definition fix_unified_line (first_line second_line : Z) (line : string) : res string :=
  match hunk_head line with
  | None => Ok line
  | Some (a, ac, b, bc) =>
      do n <- py_int a; do m <- py_int b;
      Ok ("@@ -" ++ str_of_Z (n + first_line - 1) ++ ac ++ " +" ++ str_of_Z (m + second_line - 1) ++ bc ++ " @@")%string
  end.
(** function_syntax_diff.py:133-155 [unified_syntax_diff] *)
Definition unified_syntax_diff (dt : difftool) (f : fs) (file1 file2 : string) (line1 line2 end1 end2 : Z) : res string :=
  do r <- make_diff dt "-U" f file1 file2 line1 line2 end1 end2;
  let diff := fst r in
  if isspace diff || String.eqb diff "" then Ok diff
  else
    do ls <- map_res (fix_unified_line line1 line2) (split_char nl diff);
    Ok (join (String nl "") ls).
