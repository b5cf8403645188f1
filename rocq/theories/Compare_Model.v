(** * Model of the compare command (diffkemp/diffkemp.py:213-223, 325-512) *)
From Coq Require Import String Ascii ZArith Arith Bool Lia List.
From Coq Require Import DecimalString.
From Verif Require Import PyBase Path_Model Result_Model Snapshot_Model.
Import ListNotations.
Open Scope list_scope.

(** ** Sorting: [sorted] of the items of a dictionary with string keys, i.e. by key, code
    point by code point. *)
Section Sort.
  Context {V : Type}.
  Fixpoint insert_item (x : string * V) (l : list (string * V)) : list (string * V) :=
    match l with
    | [] => [x]
    | y :: l' => if String.leb (fst x) (fst y) then x :: l else y :: insert_item x l'
    end.
  Fixpoint sort_items (l : list (string * V)) : list (string * V) :=
    match l with [] => [] | x :: l' => insert_item x (sort_items l') end.
End Sort.

(** diffkemp.py:377: [sorted(config.snapshot_first.fun_groups.items())].  Comparing the name
    of a named group with None raises TypeError; with at least one of each kind every
    comparison sort makes such a comparison. *)
Definition named_groups (s : groups) : list (string * group) :=
  flat_map (fun kg => match fst kg with Some g => [(g, snd kg)] | None => [] end) s.
Definition unnamed_groups (s : groups) : list (option string * group) :=
  flat_map (fun kg => match fst kg with Some _ => [] | None => [kg] end) s.
Definition sorted_groups (s : groups) : res (list (option string * group)) :=
  match named_groups s, unnamed_groups s with
  | ns, [] => Ok (map (fun x => (Some (fst x), snd x)) (sort_items ns))
  | [], us => Ok us
  | _, _ => Err TypeError
  end.

Section Compare.
  Context {G : Type}.

  (** A call of functions_diff: group, function, its two descriptions and the graph passed
      on from the previous comparison. *)
  Record call_args := mkCallArgs {
    ca_group : option string; ca_fun : string; ca_old : fdesc; ca_new : fdesc; ca_prev : option G }.
  (** The comparison of one function pair (modelled in Driver_Model): an arbitrary function
      of the call and of all earlier calls, since files, modules and the SimpLL cache carry
      state from one to the next. *)
  Definition analysis := list call_args -> call_args -> res (result G).

  (** What happened to one function of the old snapshot. *)
  Inductive entry :=
  | Skipped (g : option string) (f : string)
      (** not in the new snapshot *)
  | NoModule (g : option string) (f : string)
      (** no module in one of the snapshots *)
  | Compared (c : call_args) (r : result G).
      (** compared, with the result that is reported *)

  (** What the user sees. *)
  Inductive shown :=
  | ShowGroup (g : string)                 (* "group:" *)
  | ShowLine (g : option string) (f : string) (k : kind)
      (* "fun: verdict"; the group is not part of the line but of the heading above it *)
  | ShowDiff (g : option string) (f : string) (r : result G) (* print_syntax_diff *)
  | MakeDir (d : string).                  (* os.mkdir *)

  (** diffkemp.py:427-434: the regex filter.  [rx] decides re.search; searching in a
      difference that is None raises TypeError. *)
  Definition with_verdict (r : result G) (k : kind) : result G :=
    mkResult k (r_first r) (r_second r) (r_diff r) (r_graph r) (r_inner r).
  Fixpoint search_inner (rx : string -> bool) (l : list (result G)) : res bool :=
    match l with
    | [] => Ok false
    | r :: l' =>
        match r_diff r with
        | None => Err TypeError
        | Some d => if rx d then Ok true else search_inner rx l'
        end
    end.
  Definition filter_result (rx : option (string -> bool)) (r : result G) : res (result G) :=
    match rx with
    | None => Ok r
    | Some m =>
        do hit <- search_inner m (dvals (r_inner r));
        Ok (if hit then r else with_verdict r EQUAL)
    end.

  (** The options that matter here. *)
  Record copts := mkCopts {
    o_regex : option (string -> bool); o_full : bool; o_output : option string }.

  (** State of the loops: the overall result, the graph of the previous comparison of the
      group, whether the group name was printed, the existing directories, the trace. *)
  Record cstate := mkCstate {
    c_result : result G; c_prev : option G; c_printed : bool;
    c_dirs : list string; c_shown : list shown; c_trace : list entry }.

  Definition calls_of (t : list entry) : list call_args :=
    flat_map (fun e => match e with Compared c _ => [c] | _ => [] end) t.

  (** Print the group name if needed (diffkemp.py:398-401, 449-451, 468-470). *)
  Definition show_group (g : option string) (st : cstate) : cstate :=
    match g with
    | Some n =>
        if c_printed st then st
        else mkCstate (c_result st) (c_prev st) true (c_dirs st) (c_shown st ++ [ShowGroup n]) (c_trace st)
    | None => st
    end.
  Definition show (x : shown) (st : cstate) : cstate :=
    mkCstate (c_result st) (c_prev st) (c_printed st) (c_dirs st) (c_shown st ++ [x]) (c_trace st).
  (** [if not os.path.isdir(d): os.mkdir(d)].  Simplification: mkdir succeeds. *)
  Definition make_dir (d : string) (st : cstate) : cstate :=
    if mem d (c_dirs st) then st
    else mkCstate (c_result st) (c_prev st) (c_printed st) (c_dirs st ++ [d]) (c_shown st ++ [MakeDir d]) (c_trace st).

  (** diffkemp.py:381-384 *)
  Definition group_dir (o : copts) (g : option string) : option string :=
    match o_output o, g with Some d, Some n => Some (path_join d n) | _, _ => None end.

  (** diffkemp.py:436-471: reporting of one compared function. *)
  Definition report (o : copts) (g : option string) (f : string) (r : result G) (st : cstate) : cstate :=
    if kind_eqb (r_kind r) NOT_EQUAL || kind_eqb (r_kind r) UNKNOWN || kind_eqb (r_kind r) ERROR || o_full o then
      if kind_eqb (r_kind r) NOT_EQUAL || o_full o then
        let st1 := match o_output o with Some d => make_dir d st | None => st end in
        let st2 := match group_dir o g with Some d => make_dir d st1 | None => show_group g st1 end in
        show (ShowDiff g f r) st2
      else show (ShowLine g f (r_kind r)) (show_group g st)
    else st.

  (** diffkemp.py:393-476: one function of a group. *)
  Definition compare_fun (an : analysis) (o : copts) (s2 : groups) (g : option string)
             (st : cstate) (fd : string * fdesc) : res cstate :=
    let '(f, old) := fd in
    match get_by_name s2 f g with
    | None => Ok (mkCstate (c_result st) (c_prev st) (c_printed st) (c_dirs st) (c_shown st)
                           (c_trace st ++ [Skipped g f]))
    | Some new =>
        match fd_mod old, fd_mod new with
        | Some _, Some _ =>
            let c := mkCallArgs g f old new (c_prev st) in
            do r <- an (calls_of (c_trace st)) c;
            do r2 <- filter_result (o_regex o) r;
            do total <- add_inner (c_result st) r2;
            Ok (report o g f r2
                  (mkCstate total (r_graph r) (c_printed st) (c_dirs st) (c_shown st)
                            (c_trace st ++ [Compared c r2])))
        | _, _ =>
            do total <- add_inner (c_result st) (new_result UNKNOWN f f);
            Ok (show (ShowLine g f UNKNOWN)
                 (show_group g (mkCstate total (c_prev st) (c_printed st) (c_dirs st) (c_shown st)
                                         (c_trace st ++ [NoModule g f]))))
        end
    end.

  (** diffkemp.py:377-391: one group; the previous graph and the "printed" flag start anew. *)
  Definition compare_group (an : analysis) (o : copts) (s2 : groups) (st : cstate)
             (kg : option string * group) : res cstate :=
    fold_res (compare_fun an o s2 (fst kg))
             (mkCstate (c_result st) None false (c_dirs st) (c_shown st) (c_trace st))
             (sort_items (snd kg)).

  (** diffkemp.py:371-479 [compare] after the configuration is read; [dirs] are the
      directories existing at the start.  The second component says whether the YAML output
      is written.  The overall result is created with the name of the old snapshot twice. *)
  Definition compare (an : analysis) (o : copts) (old_dir : string) (dirs : list string)
             (s1 s2 : groups) : res (cstate * bool) :=
    do gs <- sorted_groups s1;
    do st <- fold_res (compare_group an o s2)
               (mkCstate (new_result NONE old_dir old_dir) None false dirs [] []) gs;
    Ok (st, match o_output o with Some d => mem d (c_dirs st) | None => false end).
End Compare.
Arguments call_args : clear implicits.
Arguments entry : clear implicits.
Arguments shown : clear implicits.
Arguments cstate : clear implicits.
Arguments analysis : clear implicits.

(** config.py:175-177: with --function both snapshots are filtered, each in its unnamed
    group, before anything is compared. *)
Definition filtered_snapshots (only : option string) (s1 s2 : groups) : res (groups * groups) :=
  match only with
  | None => Ok (s1, s2)
  | Some f =>
      if String.eqb f "" then Ok (s1, s2) else
      do t1 <- filter_funs s1 [f] None;
      do t2 <- filter_funs s2 [f] None;
      Ok (t1, t2)
  end.

(** diffkemp.py:325-352 [_get_modules_to_cache] *)
Definition count_module (m : string) (freq : dict string nat) : dict string nat :=
  dset freq m (S (match dget freq m with Some n => n | None => 0 end)).
Definition count_desc (d : fdesc) (freq : dict string nat) : dict string nat :=
  match fd_mod d with None => freq | Some m => count_module m freq end.
Definition module_frequencies (fs : list (string * fdesc)) (g : option string) (s2 : groups) : dict string nat :=
  fold_left (fun freq fd => match get_by_name s2 (fst fd) g with
                            | None => freq
                            | Some new => count_desc new (count_desc (snd fd) freq)
                            end) fs [].
Definition modules_to_cache (fs : list (string * fdesc)) (g : option string) (s2 : groups) (min : nat) : list string :=
  map fst (filter (fun mn => min <=? snd mn) (module_frequencies fs g s2)).

(** diffkemp.py:500-512 [default_output_dir]; [base] is "diff-<old>-<new>", [isdir] the
    set of existing directories.  [None]: out of fuel. *)
Definition dec (n : nat) : string := NilZero.string_of_uint (Nat.to_uint n).
Fixpoint free_dir (fuel : nat) (isdir : string -> bool) (base : string) (dirname : string) (suffix : nat) : option string :=
  match fuel with
  | O => None
  | S n => if isdir dirname then free_dir n isdir base (base ++ "-" ++ dec suffix)%string (S suffix)
           else Some dirname
  end.
Definition default_output_dir (fuel : nat) (isdir : string -> bool) (base : string) : option string :=
  if isdir base then free_dir fuel isdir base base 0 else Some base.

(** diffkemp.py:360-371: the output directory.  [Err FileExistsError] stands for the error
    message and sys.exit(errno.EEXIST). *)
Definition output_dir (fuel : nat) (isdir : string -> bool) (stdout : bool) (arg : option string) (base : string)
  : option (res (option string)) :=
  if stdout then Some (Ok None)
  else match arg with
       | Some d => if String.eqb d "" then
                     match default_output_dir fuel isdir base with Some x => Some (Ok (Some x)) | None => None end
                   else if isdir d then Some (Err FileExistsError) else Some (Ok (Some d))
       | None => match default_output_dir fuel isdir base with Some x => Some (Ok (Some x)) | None => None end
       end.

(** ** Symbol lists.  [str.strip] removes ASCII white space: tab, line feed, vertical tab,
    form feed, carriage return, the separators 28-31 and space (simplification: no other
    Unicode white space); [isalpha] of an ASCII character is being a letter (simplification:
    no other Unicode letters). *)
Definition is_space (c : ascii) : bool :=
  let n := nat_of_ascii c in ((9 <=? n) && (n <=? 13)) || ((28 <=? n) && (n <=? 32)).
Definition is_alpha (c : ascii) : bool :=
  let n := nat_of_ascii c in ((65 <=? n) && (n <=? 90)) || ((97 <=? n) && (n <=? 122)).
Fixpoint lstrip (s : string) : string :=
  match s with
  | "" => ""
  | String c s' => if is_space c then lstrip s' else s
  end%string.
Fixpoint rstrip (s : string) : string :=
  match s with
  | "" => ""
  | String c s' => match rstrip s' with
                   | "" => if is_space c then "" else String c ""
                   | t => String c t
                   end
  end%string.
Definition strip (s : string) : string := rstrip (lstrip s).

Definition newline : ascii := ascii_of_nat 10.
Definition cr : ascii := ascii_of_nat 13.
(** Text mode of [open]: "\r\n" and "\r" are read as "\n".  [after_cr]: the previous
    character was a carriage return. *)
Fixpoint universal_newlines (after_cr : bool) (s : string) : string :=
  match s with
  | "" => ""
  | String c s' =>
      if Ascii.eqb c cr then String newline (universal_newlines true s')
      else if Ascii.eqb c newline && after_cr then universal_newlines false s'
      else String c (universal_newlines false s')
  end%string.

(** diffkemp.py:213-223 [read_symbol_list] on the text of the file.  [readlines] cuts after
    every newline; the newline itself is removed by [strip], so cutting at the newlines
    gives the same list. *)
Definition symbol_of_line (line : string) : list string :=
  let s := strip line in
  match s with
  | ""%string => []
  | String c _ => if is_alpha c || Ascii.eqb c "_" then [s] else []
  end.
Definition read_symbol_list (text : string) : list string :=
  flat_map symbol_of_line (split_char newline (universal_newlines false text)).
