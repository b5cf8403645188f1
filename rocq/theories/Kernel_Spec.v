(** * What building kernel sources is supposed to do *)
From Coq Require Import String Ascii ZArith Arith Bool Lia List Sorted.
From Verif Require Import PyBase Path_Model Syndiff_Model Kernel_Model.
Import ListNotations.
Open Scope list_scope.

(** ** Words and lines *)
Definition spaces_only (s : string) : Prop := all_chars is_space s = true.
Definition one_word (s : string) : Prop := s <> ""%string /\ all_chars (fun c => negb (is_space c)) s = true.
(** The words of a text: what is between white space. *)
Inductive words_of : string -> list string -> Prop :=
| wo_none b : spaces_only b -> words_of b []
| wo_last b w : spaces_only b -> one_word w -> words_of (b ++ w) [w]
| wo_more b w c rest ws : spaces_only b -> one_word w -> is_space c = true -> words_of rest ws ->
    words_of (b ++ w ++ String c rest) (w :: ws).

Definition is_end (c : ascii) : bool := Ascii.eqb c cr || line_end c.
(** The lines of a text; CR LF ends one line. *)
Inductive text_lines : string -> list string -> Prop :=
| tl_end : text_lines "" []
| tl_last s : s <> ""%string -> all_chars (fun c => negb (is_end c)) s = true -> text_lines s [s]
| tl_crlf s rest ls : all_chars (fun c => negb (is_end c)) s = true -> text_lines rest ls ->
    text_lines (s ++ String cr (String nl rest)) (s :: ls)
| tl_line s c rest ls : all_chars (fun c => negb (is_end c)) s = true -> is_end c = true ->
    ~ (c = cr /\ exists r, rest = String nl r) -> text_lines rest ls ->
    text_lines (s ++ String c rest) (s :: ls).

(** ** Candidate sources *)
Definition reports (line f : string) : Prop := exists ws, words_of line (f :: ws).
Definition reports_in (line f scope : string) : Prop := exists ws, words_of line (f :: scope :: ws).
Definition prefix_of (p s : string) : Prop := exists r, s = (p ++ r)%string.
Inductive rank : string -> nat -> Prop :=
| rank_driver f : prefix_of "drivers/" f -> rank f 1
| rank_x86 f : prefix_of "arch/x86" f -> rank f 2
| rank_arch f : prefix_of "arch/" f -> ~ prefix_of "arch/x86" f -> rank f 3
| rank_other f : ~ prefix_of "drivers/" f -> ~ prefix_of "arch/" f -> rank f 0.
(** Code point by code point order. *)
Definition name_le (f g : string) : Prop := String.leb f g = true.
Definition prior (f g : string) : Prop :=
  exists m n, rank f m /\ rank g n /\ (m < n \/ (m = n /\ name_le f g)).
(** A name that begins with a character before the closing brace (all kernel sources do). *)
Definition ordinary_name (f : string) : Prop := exists c r, f = String c r /\ nat_of_ascii c < 125.

(** ** What cscope reports *)

(** The entries of C files printed for a search ([] if cscope fails). *)
Inductive cscope_says (cs : cscope) (symbol : string) (definition : bool) : list string -> Prop :=
| says_nothing : cs_out cs symbol definition = None -> cscope_says cs symbol definition []
| says_lines out ls r : cs_out cs symbol definition = Some out -> text_lines out ls ->
    r = filter (fun line => match words line with w :: _ => endswith w "c" | [] => false end) ls ->
    (forall line, In line ls -> exists f, reports line f) ->
    cscope_says cs symbol definition r.
(** The cache holds only what cscope says. *)
Definition cache_valid (cs : cscope) (st : cstate) : Prop :=
  forall symbol d r, dget (cs_cache st) (symbol, d) = Some r -> cscope_says cs symbol d r /\ cs_out cs symbol d <> None.

(** Definitions cscope does not know: parameters and RCU come from macros, trace points from
    the lines exporting them, and vfree is known to be in mm/vmalloc.c. *)
Inductive further_defs (cs : cscope) (symbol : string) (defs uses : list string) : list string -> Prop :=
| fd_param : prefix_of "param_get_" symbol \/ prefix_of "param_set_" symbol \/ prefix_of "param_ops_" symbol ->
    further_defs cs symbol defs uses ["kernel/params.c"%string]
| fd_trace name exports : symbol = ("__tracepoint_" ++ name)%string -> cscope_says cs "EXPORT_TRACEPOINT_SYMBOL" false exports ->
    further_defs cs symbol defs uses (filter (fun line => endswith line ("(" ++ name ++ ");")) exports)
| fd_rcu : symbol = "rcu_barrier"%string -> further_defs cs symbol defs uses ["kernel/rcutree.c"%string]
| fd_vfree : symbol = "vfree"%string -> defs = [] -> uses = [] -> further_defs cs symbol defs uses ["mm/vmalloc.c"%string]
| fd_none : ~ prefix_of "param_get_" symbol -> ~ prefix_of "param_set_" symbol -> ~ prefix_of "param_ops_" symbol ->
    ~ prefix_of "__tracepoint_" symbol -> symbol <> "rcu_barrier"%string ->
    ~ (symbol = "vfree"%string /\ defs = [] /\ uses = []) -> further_defs cs symbol defs uses [].
(** The searches for a list of symbols, one after the other. *)
Fixpoint lookups (cs : cscope) (st : cstate) (symbols : list string) : cstate :=
  match symbols with [] => st | s :: l => lookups cs (snd (find_srcs cs st s)) l end.
Definition runs_of (st : cstate) (symbol : string) (d : bool) : nat :=
  length (filter (fun k => String.eqb (fst k) symbol && Bool.eqb (snd k) d) (cs_runs st)).

(** ** gcc commands *)
Definition suffix_of (p s : string) : Prop := exists r, s = (r ++ p)%string.
Definition inside (p s : string) : Prop := exists a b, s = (a ++ p ++ b)%string.
Definition omitted (p : string) : Prop :=
  p = "gcc"%string \/ p = "-DCC_HAVE_ASM_GOTO"%string \/ p = "-g"%string \/ p = "-o"%string \/ suffix_of ".o" p \/
  prefix_of "-f" p \/ prefix_of "-m" p \/ prefix_of "-O" p \/ (prefix_of "-W" p /\ ~ inside "-MD" p).
Inductive Kept_words : list string -> list string -> Prop :=
| kw_nil : Kept_words [] []
| kw_omit p l k : omitted p -> Kept_words l k -> Kept_words (p :: l) k
| kw_keep p l k : ~ omitted p -> Kept_words l k -> Kept_words (p :: l) (p :: k).
(** [q] is [p] without the characters [c]. *)
Inductive without (c : ascii) : string -> string -> Prop :=
| wi_nil : without c "" ""
| wi_drop s t : without c s t -> without c (String c s) t
| wi_keep x s t : x <> c -> without c s t -> without c (String x s) (String x t).
Definition unquoted (p q : string) : Prop :=
  (has_char "'" p = true /\ without "'" p q) \/ (has_char "'" p = false /\ without """" p q).
Definition hash1 : string := "-D""DEBUG_HASH=".
Definition hash2 : string := "-D""DEBUG_HASH2=".
(** An option as clang gets it: a generated debug hash becomes 1, quotes are removed. *)
Definition clang_param (p q : string) : Prop :=
  (prefix_of hash1 p /\ q = "-DDEBUG_HASH=1"%string) \/
  (prefix_of hash2 p /\ q = "-DDEBUG_HASH2=1"%string) \/
  (~ prefix_of hash1 p /\ ~ prefix_of hash2 p /\ unquoted p q).
Definition c_source (p stem : string) : Prop :=
  p = (stem ++ ".c")%string /\ ~ prefix_of hash1 p /\ ~ prefix_of hash2 p.
(** The stem of the last C source among the words. *)
Definition last_source (l : list string) (stem : string) : Prop :=
  exists pre p post, l = pre ++ p :: post /\ c_source p stem /\ forall q s, In q post -> ~ c_source q s.

(** ** ld commands *)
Inductive Link_words : list string -> list string -> Prop :=
| lw_nil : Link_words [] []
| lw_object s l k : Link_words l k -> Link_words ((s ++ ".o")%string :: l) ((s ++ ".ll")%string :: k)
| lw_output l k : Link_words l k -> Link_words ("-o"%string :: l) ("-o"%string :: k)
| lw_other p l k : ~ suffix_of ".o" p -> p <> "-o"%string -> Link_words l k -> Link_words (p :: l) k.

(** ** Headers *)
Fixpoint repeated {A} (n : nat) (f : A -> A) (x : A) : A := match n with O => x | S n => f (repeated n f x) end.

(** ** Building *)
(** Sources change only forward in time: a changed file gets the current time. *)
Definition clocked (f : files) : Prop := forall p t c, f_get f p = Some (t, c) -> (t < f_clock f)%Z.
Definition content_at (f : files) (p : string) (c : content) : Prop := exists t, f_get f p = Some (t, c).
Definition missing (f : files) (p : string) : Prop := f_get f p = None.
Definition older (f : files) (p q : string) : Prop := exists tp cp tq cq, f_get f p = Some (tp, cp) /\ f_get f q = Some (tq, cq) /\ (tp < tq)%Z.
(** All files except [p] are the same. *)
Definition same_but (p : string) (f g : files) : Prop := forall q, q <> p -> f_get g q = f_get f q.
(** make on the object of a source prints, as its last gcc command, one compiling the source. *)
Definition honest_make (t : tools) : Prop := forall f stem out c cmd, t_make t f (stem ++ ".o") = Some out ->
  object_command out = Ok c -> gcc_to_llvm c = Ok cmd -> after_arg "-c" cmd = Ok (stem ++ ".c")%string /\ after_arg "-o" cmd = Ok (stem ++ ".ll")%string.
(** The last line of the output of make that has a gcc command among its parts between
    semicolons, and the first such part. *)
Definition blank_start (p body : string) : Prop := exists b, p = (b ++ body)%string /\ spaces_only b /\ forall c r, body = String c r -> is_space c = false.
Definition begins_with (programs : list string) (body : string) : Prop := exists pr, In pr programs /\ prefix_of pr body.
Definition command_in (programs : list string) (line command : string) : Prop :=
  exists pre part post, line = join ";" (pre ++ part :: post) /\ Forall (fun q => has_char ";" q = false) (pre ++ part :: post) /\
    blank_start part command /\ begins_with programs command /\
    forall q b, In q pre -> blank_start q b -> ~ begins_with programs b.
Definition last_gcc (output command : string) : Prop :=
  exists pre line post, text_lines output (pre ++ line :: post) /\ command_in ["gcc"%string] line command /\
    forall l c, In l post -> ~ command_in ["gcc"%string] l c.

(** What happens to the sources tried without finding the symbol. *)
Inductive Visited (t : tools) (defines : files -> string -> string -> bool) (symbol : string) : files -> list string -> files -> Prop :=
| v_nil f : Visited t defines symbol f [] f
| v_fails f src f1 l g : build_source t f src = (Err BuildException, f1) -> Visited t defines symbol f1 l g -> Visited t defines symbol f (src :: l) g
| v_not f src p f1 l g : build_source t f src = (Ok p, f1) -> (missing f1 p \/ defines f1 p symbol = false) ->
    Visited t defines symbol f1 l g -> Visited t defines symbol f (src :: l) g.

(** Histories of one source: edits and builds, in time order. *)
Inductive event := Edit (c : content) | Build.
Definition happen (t : tools) (source : string) (f : files) (e : event) : files :=
  match e with Edit c => write f source c | Build => snd (build_source t f source) end.
Definition history (t : tools) (source : string) (f : files) (l : list event) : files := fold_left (happen t source) l f.

(** ** Kernel modules *)
(** Code, whether optimised or not. *)
Fixpoint code (c : content) : content :=
  match c with
  | Source v => Source v
  | Compiled c => Compiled (code c)
  | Optimised c => code c
  | Linked l => Linked (map code l)
  end.
(** What the commands of a module are to produce from the sources in [f]; each command writes
    a new file from sources or from what earlier commands have written. *)
Inductive Plan (f : files) : dict string content -> list (list string) -> dict string content -> Prop :=
| plan_done env : Plan f env [] env
| plan_clang env args src out t c rest env' :
    after_arg "-c" ("clang"%string :: args) = Ok src -> after_arg "-o" ("clang"%string :: args) = Ok out ->
    suffix_of ".c" src -> suffix_of ".ll" out -> f_get f src = Some (t, c) -> dget env out = None ->
    Plan f (dset env out (Compiled (code c))) rest env' -> Plan f env (("clang"%string :: args) :: rest) env'
| plan_link env args out cs rest env' :
    after_arg "-o" ("llvm-link"%string :: args) = Ok out -> suffix_of ".ll" out -> dget env out = None ->
    Forall2 (fun i c => dget env i = Some c) (link_inputs ("llvm-link"%string :: args) out) cs ->
    Plan f (dset env out (Linked cs)) rest env' -> Plan f env (("llvm-link"%string :: args) :: rest) env'.
(** A compilation that has to be done. *)
Definition to_compile (f : files) (c : list string) : Prop :=
  exists args src out, c = "clang"%string :: args /\ after_arg "-c" c = Ok src /\ after_arg "-o" c = Ok out /\ (missing f out \/ older f out src).
Definition links_to (c : list string) (out : string) : Prop := exists args, c = "llvm-link"%string :: args /\ after_arg "-o" c = Ok out.
Definition compiles_to (c : list string) (out : string) : Prop := exists args, c = "clang"%string :: args /\ after_arg "-o" c = Ok out.
(** What is there is right, except what is older than its source, and links after such. *)
Definition consistent (f : files) (cmds : list (list string)) : Prop :=
  exists env, Plan f [] cmds env /\
  forall pre c post out d, cmds = pre ++ c :: post -> content_at f out d ->
    (compiles_to c out -> ~ to_compile f c -> dget env out = Some (code d)) /\
    (links_to c out -> (forall b, In b pre -> ~ to_compile f b) -> dget env out = Some (code d)).
(** All is there and right. *)
Definition complete (f : files) (cmds : list (list string)) : Prop :=
  exists env, Plan f [] cmds env /\ forall out c, dget env out = Some c -> exists d, content_at f out d /\ code d = c.
(** Histories of a module: sources are edited and the module is built, without failures. *)
Inductive Reached (t : tools) (mod_dir mod_name : string) (cmds : list (list string)) : files -> Prop :=
| r_start f env : clocked f -> Plan f [] cmds env -> (forall out, dget env out <> None -> missing f out) -> Reached t mod_dir mod_name cmds f
| r_edit f src c : Reached t mod_dir mod_name cmds f -> suffix_of ".c" src -> ~ missing f src -> Reached t mod_dir mod_name cmds (write f src c)
| r_build f llvm g : Reached t mod_dir mod_name cmds f -> build_module t f mod_dir mod_name = (Ok llvm, g) -> Reached t mod_dir mod_name cmds g.
(** make always gives the same commands for the module. *)
Definition fixed_commands (t : tools) (mod_dir mod_name name : string) (cmds : list (list string)) : Prop :=
  forall f, exists raw, module_commands t f mod_dir mod_name = Ok (name, raw) /\ kbuild_to_llvm raw name = Ok cmds.
(** The translated commands of a module: of gcc unless they mention NAME.mod, of ld unless they
    mention NAME.ko, in order; the rest is left out. *)
Inductive Translated (name : string) : list string -> list (list string) -> Prop :=
| tr_nil : Translated name [] []
| tr_gcc c body x cs r : blank_start c body -> prefix_of "gcc" body -> ~ inside (name ++ ".mod") body -> gcc_to_llvm body = Ok x ->
    Translated name cs r -> Translated name (c :: cs) (x :: r)
| tr_ld c body cs r : blank_start c body -> prefix_of "ld" body -> ~ inside (name ++ ".ko") body ->
    Translated name cs r -> Translated name (c :: cs) (ld_to_llvm body :: r)
| tr_skip c body cs r : blank_start c body -> ~ (prefix_of "gcc" body /\ ~ inside (name ++ ".mod") body) ->
    ~ (prefix_of "ld" body /\ ~ inside (name ++ ".ko") body) -> Translated name cs r -> Translated name (c :: cs) r.
(** The modules found for the uses of a symbol. *)
Inductive Uses (t : tools) : files -> list string -> list string -> list string -> files -> Prop :=
| us_nil f found : Uses t f [] found found f
| us_skip f line w s ws l found r g : words_of line (w :: s :: ws) -> suffix_of ".h" w \/ s = "<global>"%string ->
    Uses t f l found r g -> Uses t f (line :: l) found r g
| us_header f line w l found r g : words_of line [w] -> suffix_of ".h" w -> Uses t f l found r g -> Uses t f (line :: l) found r g
| us_fails f line w s ws f1 l found r g : words_of line (w :: s :: ws) -> ~ suffix_of ".h" w -> s <> "<global>"%string ->
    build_source t f w = (Err BuildException, f1) -> Uses t f1 l found r g -> Uses t f (line :: l) found r g
| us_known f line w s ws p f1 l found r g : words_of line (w :: s :: ws) -> ~ suffix_of ".h" w -> s <> "<global>"%string ->
    build_source t f w = (Ok p, f1) -> (missing f1 p \/ In p found) -> Uses t f1 l found r g -> Uses t f (line :: l) found r g
| us_new f line w s ws p f1 l found r g : words_of line (w :: s :: ws) -> ~ suffix_of ".h" w -> s <> "<global>"%string ->
    build_source t f w = (Ok p, f1) -> ~ missing f1 p -> ~ In p found -> Uses t f1 l (found ++ [p]) r g -> Uses t f (line :: l) found r g.
