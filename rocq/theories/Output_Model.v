(** * Model of the reports: the YAML report (diffkemp/output.py), the printed differences and
    the preparation of the viewer (diffkemp/diffkemp.py:515-716) and the viewer's index
    (view/src/Result.js) *)
From Coq Require Import String Ascii ZArith Arith Bool Lia List.
From Verif Require Import PyBase Path_Model Result_Model Graph_Model Syndiff_Model.
From Verif Require Compare_Model.
Import ListNotations.
Open Scope list_scope.

(** [sorted(rs, key=lambda r: r.first.name)] (output.py:46-47, diffkemp.py:557-558); Python's
    sort is stable. *)
Definition by_name {G} (rs : list (result G)) : list (result G) :=
  map snd (Compare_Model.sort_items (map (fun r => (en_name (r_first r), r)) rs)).

(** output.py:48, diffkemp.py:559 *)
Definition unlisted {G} (r : result G) : bool := diff_is_empty r && en_covered (r_first r).

(** ** YAML report *)

(** output.py:52-60 one element of "diffs" *)
Record ydiff := mkYdiff { yd_function : string; yd_old : list call; yd_new : list call }.
(** output.py:70-73 one element of "results" *)
Record yresult := mkYresult { yr_function : string; yr_diffs : list ydiff }.
(** output.py:137-145, 101-102: "line", "file", "end-line" and "name" *)
Record yinfo := mkYinfo { yi_line : option Z; yi_file : string; yi_end : option Z; yi_name : option string }.
(** output.py:89-102, 121-131 *)
Record ydef := mkYdef { yf_kind : string; yf_old : yinfo; yf_new : yinfo }.
Record report := mkReport {
  rp_old : string; rp_new : string; rp_results : list yresult; rp_definitions : dict string ydef }.

Section Yaml.
  (** The current directory; the outcome of get_end_line (Syndiff_Model; it always ends, see
      C37) for a line that may be None; the heap of vertices; the iteration order of the sets
      of function names and type names. *)
  Variable cwd : string.
  Variable end_line : string -> option Z -> string -> res Z.
  Variable h : heap.
  Variable order_funs : list string -> list string.
  Variable order_types : list (string * string) -> list (string * string).
  Variables old_dir new_dir : string.

  (** output.py:55-60.  A Callstack object is true even if it has no calls. *)
  Definition stack_yaml (dir : string) (c : option callstack) : list call :=
    match c with Some cs => callstack_rel_yaml dir cs | None => [] end.
  Definition ydiff_of (r : result graph) : ydiff :=
    mkYdiff (en_name (r_first r))
            (stack_yaml old_dir (en_callstack (r_first r)))
            (stack_yaml new_dir (en_callstack (r_second r))).

  (** [set.update] *)
  Definition set_update {K} `{EqB K} (acc l : list K) : list K := fold_left (fun a x => set_add x a) l acc.
  Definition add_symbols (acc s : symbol_names) : symbol_names :=
    mkSym (set_update (s_funs acc) (s_funs s)) (set_update (s_macros acc) (s_macros s))
          (set_update (s_types acc) (s_types s)).

  (** output.py:46-69 the body of the inner loop; the state is the list of differences and the
      three sets. *)
  Definition create_diff (fun_name : string) (st : list ydiff * symbol_names) (r : result graph)
    : res (list ydiff * symbol_names) :=
    if unlisted r then Ok st
    else
      match en_callstack (r_first r) with
      | None => Ok (fst st ++ [ydiff_of r], snd st)
      | Some cs => do s <- get_symbol_names fun_name cs; Ok (fst st ++ [ydiff_of r], add_symbols (snd st) s)
      end.

  (** output.py:40-73 the body of the outer loop. *)
  Definition create_result (st : list yresult * symbol_names) (fr : string * result graph)
    : res (list yresult * symbol_names) :=
    let '(name, r) := fr in
    if negb (kind_eqb (r_kind r) NOT_EQUAL) then Ok st
    else
      let sy := snd st in
      let sy1 := mkSym (set_add name (s_funs sy)) (s_macros sy) (s_types sy) in
      do ds <- fold_res (create_diff name) ([], sy1) (by_name (dvals (r_inner r)));
      Ok (fst st ++ [mkYresult name (fst ds)], snd ds).

  (** output.py:36-74 [_create_results] *)
  Definition create_results (r : result graph) : res (list yresult * symbol_names) :=
    fold_res create_result ([], mkSym [] [] []) (r_inner r).

  (** output.py:136-145 [_create_def_info].  [os.path.relpath(None, ...)] raises TypeError. *)
  Definition create_def_info (line : option Z) (file : option string) (dir kind : string) : res yinfo :=
    match file with
    | None => Err TypeError
    | Some f =>
        do p <- relpath cwd f dir;
        match end_line f line kind with
        | Ok e => Ok (mkYinfo line p (Some e) None)
        | Err UnicodeDecodeError | Err EndLineNotFound => Ok (mkYinfo line p None None)
        | Err e => Err e
        end
    end.

  (** output.py:88-103 *)
  Definition function_def (v : vertex) : res ydef :=
    do o <- create_def_info (fst (v_lines v)) (fst (v_files v)) old_dir "function";
    do n <- create_def_info (snd (v_lines v)) (snd (v_files v)) new_dir "function";
    Ok (mkYdef "function" o
          (if String.eqb (snd (v_names v)) (fst (v_names v)) then n
           else mkYinfo (yi_line n) (yi_file n) (yi_end n) (Some (snd (v_names v))))).

  (** output.py:81-104 [_create_function_defs] *)
  Definition add_function_def (g : graph) (defs : dict string ydef) (name : string) : res (dict string ydef) :=
    match dget (g_verts g) name with
    | None => Ok defs
    | Some v => do d <- function_def (h v); Ok (dset defs name d)
    end.
  Definition function_defs (g : graph) (names : list string) : res (dict string ydef) :=
    fold_res (add_function_def g) [] (order_funs names).

  (** output.py:118-133 the first type difference with this name *)
  Fixpoint find_type (l : list nonfun) (name : string) : option (string * string * (Z * Z)) :=
    match l with
    | [] => None
    | TypeDiff n _ _ file line :: l' => if String.eqb n name then Some (file, line) else find_type l' name
    | SyntaxDiff _ _ _ _ :: l' => find_type l' name
    end.
  Definition type_def (t : string * string * (Z * Z)) : res ydef :=
    let '(file, line) := t in
    do o <- create_def_info (Some (fst line)) (Some (fst file)) old_dir "type";
    do n <- create_def_info (Some (snd line)) (Some (snd file)) new_dir "type";
    Ok (mkYdef "type" o n).
  (** output.py:106-134 [_create_type_defs] *)
  Definition add_type_def (g : graph) (defs : dict string ydef) (tp : string * string) : res (dict string ydef) :=
    let '(name, parent) := tp in
    match dget (g_verts g) parent with
    | None => Ok defs
    | Some v =>
        match find_type (v_nonfun (h v)) name with
        | None => Ok defs
        | Some t => do d <- type_def t; Ok (dset defs name d)
        end
    end.
  Definition type_defs (g : graph) (types : list (string * string)) : res (dict string ydef) :=
    fold_res (add_type_def g) [] (order_types types).

  (** [dict.update] *)
  Definition dict_update (d e : dict string ydef) : dict string ydef :=
    fold_left (fun a kv => dset a (fst kv) (snd kv)) e d.

  (** output.py:28-34, 76-79 [_create_output] *)
  Definition create_output (r : result graph) : res report :=
    do rs <- create_results r;
    match r_graph r with
    | None => Ok (mkReport old_dir new_dir (fst rs) [])
    | Some g =>
        do fd <- function_defs g (s_funs (snd rs));
        do td <- type_defs g (s_types (snd rs));
        Ok (mkReport old_dir new_dir (fst rs) (dict_update (dict_update [] fd) td))
    end.
End Yaml.

(** ** Printed differences *)

(** Characters ending a line for [str.splitlines] besides CR.  Simplification: only ASCII. *)
Definition line_boundary (c : ascii) : bool :=
  let n := nat_of_ascii c in ((10 <=? n) && (n <=? 12) || (28 <=? n) && (n <=? 30))%nat.
(** [text.splitlines(True)] *)
Fixpoint splitlines (s : string) : list string :=
  match s with
  | EmptyString => []
  | String c s' =>
      if Ascii.eqb c cr then
        match s' with
        | String d s'' => if Ascii.eqb d nl then String cr (String nl "") :: splitlines s''
                          else String cr "" :: splitlines s'
        | EmptyString => [String cr ""]
        end
      else if line_boundary c then String c "" :: splitlines s'
      else match splitlines s' with
           | [] => [String c ""]
           | l :: ls => String c l :: ls
           end
  end.
Fixpoint spaces (n : nat) : string := match n with O => EmptyString | S n' => String " " (spaces n') end.
(** diffkemp.py:531-533 [text_indent] *)
Definition text_indent (text : string) (width : nat) : string :=
  String.concat "" (map (fun line => (spaces width ++ line)%string) (splitlines text)).

(** [os.path.join(os.path.abspath(p), "")].  Simplification: abspath keeps two leading slashes
    of a path that starts with exactly two. *)
Definition abspath (cwd p : string) : string := ("/" ++ join "/" (abs_comps cwd p))%string.
Definition dir_prefix (cwd p : string) : string := path_join (abspath cwd p) "".

Definition lf : string := String nl "".

Section Print.
  Variable cwd : string.
  Variables dir_old dir_new : string.

  (** diffkemp.py:569-584: one call stack *)
  Definition print_stack (dir : string) (c : option callstack) (indent : nat) : list string :=
    match c with
    | None => []
    | Some cs =>
        [text_indent ("Callstack (" ++ dir ++ "):" ++ lf) indent;
         text_indent (callstack_rel_str (dir_prefix cwd dir) cs) indent;
         (lf ++ lf)%string]
    end.

  (** diffkemp.py:557-598 the body of the loop: the strings written.  [macro_diff] is never set.
      [None.strip()] raises AttributeError. *)
  Definition print_called (to_file show_diff : bool) (indent : nat) (r : result graph) : res (list string) :=
    if unlisted r then Ok []
    else
      do d <- (if show_diff then
                 match r_diff r with
                 | None => Err AttributeError
                 | Some text => Ok [text_indent ("Diff:" ++ lf) indent; text_indent text indent]
                 end
               else Ok []);
      Ok ([text_indent (en_name (r_first r) ++ " differs:" ++ lf) (indent - 2)]
          ++ (if to_file then [] else [text_indent ("{{{" ++ lf) (indent - 2)])
          ++ print_stack dir_old (en_callstack (r_first r)) indent
          ++ print_stack dir_new (en_callstack (r_second r)) indent
          ++ d
          ++ (if to_file then [] else [text_indent ("}}}" ++ lf) (indent - 2)])
          ++ [lf]).

  (** diffkemp.py:538-539; a difference that is None or "" counts as false. *)
  Definition has_text (r : result graph) : bool :=
    match r_diff r with Some d => negb (String.eqb d "") | None => false end.
  Definition is_printed (full_diff : bool) (r : result graph) : bool :=
    kind_eqb (r_kind r) NOT_EQUAL || (full_diff && existsb has_text (dvals (r_inner r))).

  (** diffkemp.py:515-598 [print_syntax_diff]: nothing, or the file (None: standard output) and
      the strings written to it.  An output directory that is the empty string counts as none.
      Simplification: opening and writing the file succeed. *)
  Definition print_syntax_diff (fn : string) (r : result graph) (tag : option string) (output_dir : option string)
      (show_diff full_diff : bool) (initial_indent : nat) : res (option (option string * list string)) :=
    if negb (is_printed full_diff r) then Ok None
    else
      let dir := match output_dir with Some d => if String.eqb d "" then None else Some d | None => None end in
      let tag_text := match tag with Some t => (" (" ++ t ++ ")")%string | None => ""%string end in
      let '(dest, header, indent) :=
        match dir with
        | Some d => (Some (path_join d (fn ++ ".diff")),
                     ("Found differences in functions called by " ++ fn ++ tag_text ++ lf ++ lf)%string,
                     initial_indent + 2)
        | None => (None, text_indent (fn ++ tag_text ++ ":" ++ lf) initial_indent, initial_indent + 4)
        end in
      do bs <- map_res (print_called (match dir with Some _ => true | None => false end) show_diff indent)
                       (by_name (dvals (r_inner r)));
      Ok (Some (dest, header :: concat bs)).
End Print.

(** ** Preparation of the viewer *)

(** posixpath.basename and posixpath.dirname *)
Definition basename (p : string) : string := List.last (split_char slash p) ""%string.
Fixpoint strip_slashes (s : string) : string :=
  match s with
  | EmptyString => EmptyString
  | String c s' => match strip_slashes s' with
                   | EmptyString => if Ascii.eqb c slash then EmptyString else String c EmptyString
                   | r => String c r
                   end
  end.
Definition dirname (p : string) : string :=
  match removelast (split_char slash p) with
  | [] => ""%string
  | hs => let head := (join "/" hs ++ "/")%string in
          if all_chars (Ascii.eqb slash) head then head else strip_slashes head
  end.

(** What the viewer gets: the files copied (source and destination), the difference files and
    the definitions with their "diff" flag. *)
Record vstate := mkVstate {
  vs_processed : list string; vs_copies : list (string * string);
  vs_diffs : dict string string; vs_flags : dict string bool }.

Section View.
  Variable dt : difftool.
  Variable f : fs.
  (** [shutil.copy]: whether the source can be copied *)
  Variable copyable : string -> res unit.
  Variables source_directory diff_directory old_snapshot new_snapshot : string.

  (** diffkemp.py:684-693 *)
  Definition view_copy (st : vstate) (d : ydef) : res vstate :=
    let old_file := yi_file (yf_old d) in
    if mem old_file (vs_processed st) then Ok st
    else
      let src := path_join old_snapshot old_file in
      let dir := dirname (path_join source_directory old_file) in
      do _ <- copyable src;
      Ok (mkVstate (set_add old_file (vs_processed st)) (vs_copies st ++ [(src, path_join dir (basename src))])
                   (vs_diffs st) (vs_flags st)).

  (** diffkemp.py:695-712.  A definition that has an end line has a line. *)
  Definition view_diff (st : vstate) (name : string) (d : ydef) : res vstate :=
    match yi_end (yf_old d), yi_end (yf_new d) with
    | Some e1, Some e2 =>
        match yi_line (yf_old d), yi_line (yf_new d) with
        | Some l1, Some l2 =>
            do diff <- unified_syntax_diff dt f (path_join old_snapshot (yi_file (yf_old d)))
                         (path_join new_snapshot (yi_file (yf_new d))) l1 l2 e1 e2;
            if isspace diff || String.eqb diff ""
            then Ok (mkVstate (vs_processed st) (vs_copies st) (vs_diffs st) (dset (vs_flags st) name false))
            else Ok (mkVstate (vs_processed st) (vs_copies st)
                       (dset (vs_diffs st) (path_join diff_directory (name ++ ".diff")) diff)
                       (dset (vs_flags st) name true))
        | _, _ => Err TypeError
        end
    | _, _ => Ok (mkVstate (vs_processed st) (vs_copies st) (vs_diffs st) (dset (vs_flags st) name false))
    end.

  (** diffkemp.py:675-712 the loop over the definitions *)
  Definition view_definition (st : vstate) (nd : string * ydef) : res vstate :=
    do st1 <- view_copy st (snd nd);
    view_diff st1 (fst nd) (snd nd).
  Definition view_definitions (defs : dict string ydef) : res vstate :=
    fold_res view_definition (mkVstate [] [] [] []) defs.
End View.

(** ** The viewer's index (view/src/Result.js) *)
Section Viewer.
  (** Result.js:5-7 [compareFunctionNames(a, b) <= 0]: an arbitrary function, since the order of
      localeCompare depends on the browser. *)
  Variable leb : string -> string -> bool.

  (** [Array.prototype.sort] (stable since ES2019) by a name. *)
  Fixpoint insert_by {A} (name : A -> string) (x : A) (l : list A) : list A :=
    match l with
    | [] => [x]
    | y :: l' => if leb (name x) (name y) then x :: l else y :: insert_by name x l'
    end.
  Fixpoint sort_by {A} (name : A -> string) (l : list A) : list A :=
    match l with [] => [] | x :: l' => insert_by name x (sort_by name l') end.

  (** Result.js:25-28, 60-83: allCompFuns and allDiffFuns *)
  Record index := mkIndex {
    ix_comp : dict string (dict string ydiff); ix_diff : dict string (list string) }.

  (** Result.js:67-76: the body of the inner loop *)
  Definition index_diff (comp : string) (st : dict string ydiff * dict string (list string)) (d : ydiff) :=
    (dset (fst st) (yd_function d) d,
     match dget (snd st) (yd_function d) with
     | Some l => dset (snd st) (yd_function d) (l ++ [comp])
     | None => dset (snd st) (yd_function d) [comp]
     end).
  Definition index_result (ix : index) (r : yresult) : index :=
    let '(ds, dfs) := fold_left (index_diff (yr_function r)) (yr_diffs r) ([], ix_diff ix) in
    mkIndex (dset (ix_comp ix) (yr_function r) ds) dfs.

  (** Result.js:40-56 the constructor *)
  Definition make_index (results : list yresult) : index :=
    let sorted := map (fun r => mkYresult (yr_function r) (sort_by yd_function (yr_diffs r)))
                      (sort_by yr_function results) in
    let ix := fold_left index_result sorted (mkIndex [] []) in
    mkIndex (ix_comp ix) (sort_by fst (ix_diff ix)).

  (** Result.js:90-115 *)
  Definition comp_funs (ix : index) : list string := dkeys (ix_comp ix).
  Definition comp_funs_of (ix : index) (diff : string) : option (list string) := dget (ix_diff ix) diff.
  Definition diff_funs (ix : index) : list string := dkeys (ix_diff ix).
  (** for an unknown name [undefined.keys()] raises TypeError *)
  Definition diff_funs_of (ix : index) (comp : string) : res (list string) :=
    match dget (ix_comp ix) comp with Some m => Ok (dkeys m) | None => Err TypeError end.
  Definition get_diff (ix : index) (comp diff : string) : res (option ydiff) :=
    match dget (ix_comp ix) comp with Some m => Ok (dget m diff) | None => Err TypeError end.

  (** [Array.prototype.indexOf], None for -1 *)
  Fixpoint index_of (x : string) (l : list string) : option nat :=
    match l with
    | [] => None
    | y :: l' => if String.eqb y x then Some 0 else match index_of x l' with Some i => Some (S i) | None => None end
    end.
  (** Result.js:160-205: the four navigation functions are these two on the list of compared
      functions and on the list of differing functions of one compared function. *)
  Definition next_in (l : list string) (x : string) : option string :=
    nth_error l (match index_of x l with Some i => S i | None => 0 end).
  Definition prev_in (l : list string) (x : string) : option string :=
    match index_of x l with Some (S i) => nth_error l i | _ => None end.
  (** Result.js:121-153 *)
  Definition is_first_in (l : list string) (x : string) : bool := opt_eqb (nth_error l 0) (Some x).
  Definition is_last_in (l : list string) (x : string) : bool := opt_eqb (nth_error l (length l - 1)) (Some x).
End Viewer.
