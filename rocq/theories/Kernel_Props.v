(** * Properties of building kernel sources (C42-C44, C78-C81) *)
From Coq Require Import String Ascii ZArith Arith Bool Lia List Sorted Permutation.
From Verif Require Import PyBase Path_Model Syndiff_Model Kernel_Model Kernel_Spec Kernel_Proofs.
Import ListNotations.
Open Scope list_scope.

(** ** C42: candidate sources *)

(** Whatever was searched before: the candidates are the files of the definitions, then those
    of the other uses at global scope, then those of the other uses, each file once, each group
    in the order of priority. *)
Theorem C42_candidates : forall cs before symbol files,
  cs_db cs = true ->
  fst (find_srcs cs (lookups cs (mkCstate [] []) before) symbol) = Ok files ->
  exists defs uses more, cscope_says cs symbol true defs /\ cscope_says cs symbol false uses /\ further_defs cs symbol defs uses more /\
  exists A B C, files = A ++ B ++ C /\ NoDup files /\
    (forall f, In f A <-> exists line, In line (more ++ defs) /\ reports line f) /\
    (forall f, In f B <-> ~ In f A /\ exists line, In line uses /\ reports_in line f "<global>") /\
    (forall f, In f C <-> ~ In f A /\ ~ In f B /\ exists line scope, In line uses /\ reports_in line f scope /\ scope <> "<global>"%string) /\
    (Forall ordinary_name files -> StronglySorted prior A /\ StronglySorted prior B /\ StronglySorted prior C).
Proof.
  intros cs before symbol fs DB E. rewrite find_srcs_lookup in E; [|exact DB|apply lookups_valid, cache_valid_initial].
  destruct (lookup_ok cs symbol fs E) as (defs & uses & more & S1 & S2 & F & C). exists defs, uses, more. repeat (split; [assumption|]).
  apply candidates_ok, C.
Qed.
Print Assumptions C42_candidates.
(** The search gives up exactly if nothing is reported. *)
Theorem C42_not_found : forall cs before symbol, cs_db cs = true ->
  (fst (find_srcs cs (lookups cs (mkCstate [] []) before) symbol) = Err SourceNotFoundException <->
   cscope_says cs symbol true [] /\ cscope_says cs symbol false [] /\ further_defs cs symbol [] [] []).
Proof.
  intros cs before symbol DB. rewrite find_srcs_lookup; [|exact DB|apply lookups_valid, cache_valid_initial]. rewrite lookup_not_found. split.
  - intros (d & u & A & B & -> & -> & C). auto.
  - intros (A & B & C). exists [], []. auto.
Qed.
Print Assumptions C42_not_found.
(** Without a database it is a build error. *)
Theorem C42_no_database : forall cs before symbol, cs_db cs = false ->
  fst (find_srcs cs (lookups cs (mkCstate [] []) before) symbol) = Err BuildException.
Proof.
  intros cs before symbol DB.
  assert (S : forall l, lookups cs (mkCstate [] []) l = mkCstate [] []).
  { induction l as [|s l IH]; [reflexivity|]. cbn [lookups]. unfold find_srcs, cscope_run. cbn [dget cs_cache]. rewrite DB. cbn [negb snd]. exact IH. }
  rewrite S. unfold find_srcs, cscope_run. cbn [dget cs_cache]. rewrite DB. reflexivity.
Qed.
Print Assumptions C42_no_database.
(** Otherwise it fails with an IndexError, and only if a line has no file or a use no scope. *)
Theorem C42_failures : forall cs before symbol e, cs_db cs = true ->
  fst (find_srcs cs (lookups cs (mkCstate [] []) before) symbol) = Err e -> e <> SourceNotFoundException ->
  e = IndexError /\
  ((exists s d out ls line, cs_out cs s d = Some out /\ text_lines out ls /\ In line ls /\ forall f, ~ reports line f) \/
   (exists line uses, cscope_says cs symbol false uses /\ In line uses /\ forall f scope, ~ reports_in line f scope)).
Proof.
  intros cs before symbol e DB E NS. rewrite find_srcs_lookup in E; [|exact DB|apply lookups_valid, cache_valid_initial].
  assert (AN : forall s d e', answer cs s d = Err e' -> e' = IndexError /\ exists s d out ls line, cs_out cs s d = Some out /\ text_lines out ls /\ In line ls /\ forall f, ~ reports line f).
  { intros s d e' A. unfold answer in A. destruct (cs_out cs s d) as [out|] eqn:O; [|discriminate]. split; [apply (cscope_lines_err _ _ A)|].
    unfold cscope_lines in A. destruct (map_res _ (splitlines out)) as [|e2] eqn:M; [discriminate|]. apply map_res_err in M as (line & I & X).
    exists s, d, out, (splitlines out), line. split; [exact O|]. split; [apply lines_iff; reflexivity|]. split; [exact I|]. intros f R. apply first_word_ok in R. rewrite R in X. discriminate. }
  unfold lookup in E. destruct (answer cs symbol true) as [defs|e1] eqn:A1; [|assert (e1 = e) by (cbn in E; congruence); subst; destruct (AN _ _ _ A1); auto].
  cbn [bind] in E. destruct (answer cs symbol false) as [uses|e1] eqn:A2; [|assert (e1 = e) by (cbn in E; congruence); subst; destruct (AN _ _ _ A2); auto].
  cbn [bind] in E. destruct (extra cs symbol) as [x|e1] eqn:X.
  - cbn [bind] in E. assert (C : exists l, candidates l uses = Err e /\ forall line, In line l -> exists f, reports line f).
    { assert (XL : forall line, In line (x ++ defs) -> exists f, reports line f).
      { assert (SAY : forall s d r, answer cs s d = Ok r -> forall line, In line r -> exists f, reports line f).
        { intros s d r A line I. apply says_answer in A. destruct A as [|out ls r O T R H]; [destruct I|]. subst r. apply filter_In in I as [I _]. apply H, I. }
        intros line I. apply in_app_or in I as [I|I]; [|apply (SAY _ _ _ A1 _ I)]. unfold extra in X. destruct (is_param symbol).
        - injection X as <-. destruct I as [<-|[]]. exists "kernel/params.c"%string. apply first_word_ok. reflexivity.
        - destruct (startswith symbol "__tracepoint_").
          + destruct (answer cs "EXPORT_TRACEPOINT_SYMBOL" false) as [ex|] eqn:A3; [|discriminate]. cbn [bind] in X. injection X as <-. apply filter_In in I as [I _]. apply (SAY _ _ _ A3 _ I).
          + destruct (String.eqb symbol "rcu_barrier"); injection X as <-; [|destruct I]. destruct I as [<-|[]]. exists "kernel/rcutree.c"%string. apply first_word_ok. reflexivity. }
      destruct (x ++ defs) as [|y l] eqn:XD; [destruct uses as [|u us]|].
      - destruct (String.eqb symbol "vfree"); [|congruence]. exists ["mm/vmalloc.c"%string]. split; [exact E|]. intros line [<-|[]]. exists "mm/vmalloc.c"%string. apply first_word_ok. reflexivity.
      - exists []. split; [exact E|intros line []].
      - exists (y :: l). split; [exact E|exact XL]. }
    destruct C as (l & C & L). split; [apply (candidates_err _ _ _ C)|]. right.
    unfold candidates in C. destruct (map_res first_word l) as [ds|e1] eqn:D.
    + cbn [bind] in C. destruct (unseen [] ds) as [a s1]. destruct (map_res two_words uses) as [us|e1] eqn:U.
      * cbn [bind] in C. destruct (unseen s1 _) as [b s2]. destruct (unseen s2 _). discriminate.
      * apply map_res_err in U as (line & I & U). exists line, uses. split; [apply says_answer, A2|]. split; [exact I|]. intros f sc R. apply two_words_ok in R. congruence.
    + exfalso. apply map_res_err in D as (line & I & D). destruct (L line I) as (f & R). apply first_word_ok in R. congruence.
  - assert (e1 = e) by (cbn in E; congruence). subst e1. unfold extra in X. destruct (is_param symbol); [discriminate|]. destruct (startswith symbol "__tracepoint_"); [|destruct (String.eqb symbol "rcu_barrier"); discriminate].
    destruct (answer cs "EXPORT_TRACEPOINT_SYMBOL" false) as [ex|e1] eqn:A3; [discriminate|]. cbn in X. assert (e1 = e) by congruence. subst. destruct (AN _ _ _ A3); auto.
Qed.
Print Assumptions C42_failures.
(** A search that cscope answers is run at most once, however many symbols are looked up, and
    does not change the results. *)
Theorem C42_searched_once : forall cs symbols s d out r,
  cs_out cs s d = Some out -> cscope_lines out = Ok r -> runs_of (lookups cs (mkCstate [] []) symbols) s d <= 1.
Proof.
  intros cs symbols s d out r O L. pose proof (lookups_once cs symbols _ (once_initial cs) s d) as H. rewrite H by eauto. destruct (dget _ _); lia.
Qed.
Print Assumptions C42_searched_once.
Theorem C42_independent_of_history : forall cs before before' symbol, cs_db cs = true ->
  fst (find_srcs cs (lookups cs (mkCstate [] []) before) symbol) = fst (find_srcs cs (lookups cs (mkCstate [] []) before') symbol).
Proof. intros. rewrite !find_srcs_lookup by (assumption || apply lookups_valid, cache_valid_initial). reflexivity. Qed.
Print Assumptions C42_independent_of_history.

(** Names beginning with a brace or tilde come after the drivers: the order is that of the
    characters. *)
Theorem C42_tilde_refuted : exists l, ~ StronglySorted prior (sort_files l).
Proof.
  exists ["~x.c"; "drivers/a.c"]%string. change (sort_files ["~x.c"; "drivers/a.c"]%string) with ["drivers/a.c"; "~x.c"]%string.
  intros S. inversion S as [|? ? ? F]; subst. inversion F as [|? ? P _]; subst. destruct P as (m & n & R1 & R2 & C).
  assert (m = 1) by (apply (rank_fun "drivers/a.c"); [exact R1|apply rank_driver; exists "a.c"%string; reflexivity]).
  assert (n = 0) by (apply (rank_fun "~x.c"); [exact R2|apply rank_other; intros (r & E); discriminate]). lia.
Qed.
Print Assumptions C42_tilde_refuted.
(** A form feed in the quoted source line makes the search fail. *)
Theorem C42_form_feed_refuted : exists cs symbol, cs_db cs = true /\
  cs_out cs symbol true = Some ("kernel/a.c f 1 int f(void)" ++ String (ascii_of_nat 12) (String nl ""))%string /\
  fst (find_srcs cs (mkCstate [] []) symbol) = Err IndexError.
Proof.
  exists (mkCscope true (fun _ d => if d then Some ("kernel/a.c f 1 int f(void)" ++ String (ascii_of_nat 12) (String nl ""))%string else None)), "f"%string.
  split; [reflexivity|]. split; [reflexivity|]. vm_compute. reflexivity.
Qed.
Print Assumptions C42_form_feed_refuted.
Definition ex_cscope : cscope := mkCscope true (fun s d =>
  if String.eqb s "f" then
    if d then Some ("drivers/d.c f 3 int f(void)" ++ String nl ("mm/m.c f 7 int f(void)" ++ String nl ("include/h.h f 1 int f(void);" ++ String nl "")))%string
    else Some ("arch/arm/a.c g 3 f();" ++ String nl ("arch/x86/b.c <global> 7 p = f;" ++ String nl ("mm/m.c h 1 f();" ++ String nl ("fs/a.c h 1 f();" ++ String nl ""))))%string
  else None).
Example C42_example : fst (find_srcs ex_cscope (lookups ex_cscope (mkCstate [] []) ["g"; "f"]%string) "f") =
  Ok ["mm/m.c"; "drivers/d.c"; "arch/x86/b.c"; "fs/a.c"; "arch/arm/a.c"]%string /\
  runs_of (lookups ex_cscope (mkCstate [] []) ["f"; "f"; "g"]%string) "f" true = 1 /\
  fst (find_srcs ex_cscope (mkCstate [] []) "g") = Err SourceNotFoundException /\
  fst (find_srcs ex_cscope (mkCstate [] []) "param_ops_int") = Ok ["kernel/params.c"%string].
Proof. vm_compute. auto. Qed.

(** ** C43: translation of commands *)

(** clang gets the fixed options and, in order, the kept parameters of gcc, and writes next to
    the last C source; it is an error exactly if there is none. *)
Theorem C43_gcc : forall command ws kept, words_of command ws -> Kept_words ws kept ->
  exists args, Forall2 clang_param kept args /\
  ((exists stem, last_source kept stem /\ gcc_to_llvm command =
      Ok (["clang"; "-S"; "-emit-llvm"; "-O1"; "-Xclang"; "-disable-llvm-passes"; "-g"; "-fdebug-macro"; "-Wno-format-security"]%string
          ++ args ++ ["-o"; stem ++ ".ll"]%string)) \/
   ((forall stem, ~ last_source kept stem) /\ gcc_to_llvm command = Err BuildException)).
Proof. exact gcc_to_llvm_spec. Qed.
Print Assumptions C43_gcc.
(** Every text has words and every list of words has kept ones. *)
Theorem C43_gcc_total : forall command, exists ws kept, words_of command ws /\ Kept_words ws kept.
Proof.
  intros command. destruct (words_total (String.length command) command (le_n _)) as [ws W]. destruct (kept_total ws) as [k K]. eauto.
Qed.
Print Assumptions C43_gcc_total.
(** The output of the translated command is found again. *)
Theorem C43_output_found : forall command ws kept cmd stem, words_of command ws -> Kept_words ws kept -> last_source kept stem ->
  Forall (fun p => has_char "'" p = false /\ has_char """" p = false) kept -> gcc_to_llvm command = Ok cmd -> after_arg "-o" cmd = Ok (stem ++ ".ll")%string.
Proof.
  intros command ws kept cmd stem W K L Q E. destruct (gcc_to_llvm_spec command ws kept W K) as (args & F & [(s & L' & G)|(N & G)]); [|congruence].
  assert (s = stem) by (eapply last_source_fun; eassumption). subst s. rewrite G in E. assert (EC := f_equal (fun r => match r with Ok x => x | Err _ => cmd end) E). cbv beta iota in EC. subst cmd. clear E.
  assert (NO : ~ In "-o"%string kept).
  { clear -K. induction K as [|p l k O K IH|p l k O K IH]; [intros []|exact IH|]. intros [->|I]; [|auto]. apply O. unfold omitted. tauto. }
  assert (NA : ~ In "-o"%string args).
  { intros I. destruct (Forall2_In_r _ _ _ _ F I) as (p & J & C). destruct C as [[_ C]|[[_ C]|[_ [_ C]]]]; [discriminate|discriminate|].
    rewrite Forall_forall in Q. destruct (Q p J) as [Q1 Q2]. destruct C as [[C _]|[_ C]]; [congruence|]. apply remove_char_iff in C.
    assert (R : remove_char """" p = p).
    { clear -Q2. induction p as [|x p IH]; [reflexivity|]. cbn [remove_char has_char] in *. apply orb_false_iff in Q2 as [Q1 Q2]. rewrite Ascii.eqb_sym in Q1. rewrite Q1, IH by exact Q2. reflexivity. }
    apply NO. rewrite R in C. subst p. exact J. }
  assert (S : forall l, ~ In "-o"%string l -> after_arg "-o" (l ++ ["-o"; stem ++ ".ll"]%string) = Ok (stem ++ ".ll")%string).
  { clear. induction l as [|a l IH]; intros N; cbn [app after_arg]; [reflexivity|]. destruct (String.eqb_spec a "-o") as [->|X]; [exfalso; apply N; left; reflexivity|]. apply IH. intros I. apply N. right. exact I. }
  rewrite app_assoc. apply S. intros I. apply in_app_or in I as [I|I]; [|exact (NA I)]. cbn in I. intuition discriminate.
Qed.
Print Assumptions C43_output_found.
(** llvm-link gets the IR of the objects and the output, in order. *)
Theorem C43_ld : forall command ws l, words_of command ws -> (ld_to_llvm command = ["llvm-link"; "-S"]%string ++ l <-> Link_words ws l).
Proof. exact ld_to_llvm_spec. Qed.
Print Assumptions C43_ld.
(** Of the output of make for an object, the last gcc command is used. *)
Theorem C43_last_command : forall output command,
  (object_command output = Ok command <-> last_gcc output command) /\
  (forall e, object_command output = Err e -> e = BuildException).
Proof. intros. split; [apply object_command_iff|apply object_command_err]. Qed.
Print Assumptions C43_last_command.
(** For a module all commands are translated, except those for its meta data. *)
Theorem C43_module_commands : forall name commands r, kbuild_to_llvm commands name = Ok r <-> Translated name commands r.
Proof. intros. apply kbuild_iff. Qed.
Print Assumptions C43_module_commands.
(** The module is looked for by its name; if make knows no such target (it returns 2), by the name
    with all underscores made dashes.  The commands are the ones make prints for that name. *)
Definition dashed (a b : string) : Prop := String.length b = String.length a /\
  forall n c, String.get n a = Some c -> String.get n b = Some (if Ascii.eqb c "_" then "-"%char else c).
Theorem C43_module_name : forall t f mod_dir mod_name name raw, module_commands t f mod_dir mod_name = Ok (name, raw) <->
  exists out, raw = extract_list ["gcc"; "ld"]%string (splitlines out) /\ t_module t f mod_dir name = (0%Z, out) /\
    (name = mod_name \/ fst (t_module t f mod_dir mod_name) = 2%Z /\ dashed mod_name name).
Proof.
  intros t f d m name raw.
  assert (DA : dashed m (replace_char "_" "-" m)).
  { induction m as [|x m [L G]]; [split; [reflexivity|intros n c; destruct n; discriminate]|]. split; [cbn; f_equal; exact L|].
    intros [|n] c; cbn; [intros H; injection H as <-; reflexivity|apply G]. }
  assert (DU : forall n, dashed m n -> n = replace_char "_" "-" m).
  { clear. induction m as [|x m IH]; intros [|y n] [L G]; try discriminate; [reflexivity|]. cbn in L. cbn [replace_char]. f_equal.
    - specialize (G 0 x eq_refl). cbn in G. injection G as ->. reflexivity.
    - apply IH. split; [lia|]. intros k c H. apply (G (S k) c H). }
  unfold module_commands. destruct (t_module t f d m) as [z out] eqn:E. split.
  - destruct z as [|[p|[p|p|]|]|p]; try discriminate.
    + intros H. injection H as <- <-. exists out. auto.
    + destruct (t_module t f d (replace_char "_" "-" m)) as [z out'] eqn:E'. destruct z; try discriminate. intros H. injection H as <- <-. exists out'. auto.
  - intros [o [-> [T [-> |[Z D]]]]].
    + rewrite E in T. injection T as -> ->. reflexivity.
    + cbn in Z. subst z. rewrite (DU _ D) in *. rewrite T. reflexivity.
Qed.
Print Assumptions C43_module_name.
Example C43_dashed : dashed "snd_hda_intel" "snd-hda-intel".
Proof. split; [reflexivity|]. intros n c H. do 13 (destruct n as [|n]; [injection H as <-; reflexivity|]). destruct n; discriminate. Qed.
(** A parameter with a blank inside quotes is cut. *)
Theorem C43_blank_refuted : exists command cmd, gcc_to_llvm command = Ok cmd /\
  contains command "-DNAME=""a b""" = true /\ In "-DNAME=a"%string cmd /\ In "b"%string cmd.
Proof.
  exists "gcc -DNAME=""a b"" -c -o x.o x.c"%string, (clang_base ++ ["-DNAME=a"; "b"; "-c"; "x.c"; "-o"; "x.ll"]%string).
  split; [vm_compute; reflexivity|]. split; [vm_compute; reflexivity|]. unfold clang_base. split; cbn [app In]; tauto.
Qed.
Print Assumptions C43_blank_refuted.
(** An object of a module whose name continues the module's name with .mod is left out. *)
Theorem C43_mod_refuted : exists command name, kbuild_to_llvm [command] name = Ok [] /\
  exists cmd, gcc_to_llvm command = Ok cmd /\ after_arg "-c" cmd = Ok "drivers/snd.modem.c"%string.
Proof.
  exists "gcc -c -o drivers/snd.modem.o drivers/snd.modem.c"%string, "snd"%string. split; [vm_compute; reflexivity|].
  eexists. split; vm_compute; reflexivity.
Qed.
Print Assumptions C43_mod_refuted.
Definition ex_gcc : string := "gcc -Wp,-MD,mm/.a.o.d -Wall -O2 -fno-x -m64 -I./include -D""DEBUG_HASH=33"" -D""KBUILD_STR(s)=#s"" -c -o mm/a.o mm/a.c".
Example C43_example : gcc_to_llvm ex_gcc = Ok (clang_base ++
    ["-Wp,-MD,mm/.a.o.d"; "-I./include"; "-DDEBUG_HASH=1"; "-DKBUILD_STR(s)=#s"; "-c"; "mm/a.c"; "-o"; "mm/a.ll"]%string) /\
  gcc_to_llvm "gcc -c -o a.o a.S" = Err BuildException /\
  ld_to_llvm "ld -m elf_x86_64 -r -o d/m.o d/a.o d/b.o" = ["llvm-link"; "-S"; "-o"; "d/m.ll"; "d/a.ll"; "d/b.ll"]%string /\
  object_command ("  CC a; gcc -c x.c" ++ String nl ("set -e;  gcc -c y.c; gcc z" ++ String nl "done")) = Ok "gcc -c y.c"%string.
Proof. vm_compute. auto. Qed.

(** The optimiser is told the passes in order: with LLVM 16 and newer by one option that names
    the unit of each pass, before by one option for each; it writes the text of the module
    over its input if that is asked for. *)
Theorem C43_opt : forall version passes file overwrite, exists opts,
  opt_command version passes file overwrite = ["opt"; file]%string ++ opts ++ (if overwrite then ["-S"; "-o"; file]%string else []) /\
  ((version < 16)%Z -> Forall2 (fun p o => o = ("-" ++ fst p)%string) passes opts) /\
  ((16 <= version)%Z -> exists items, Forall2 (fun p i => i = (snd p ++ "(" ++ fst p ++ ")")%string) passes items /\ opts = [("-passes=" ++ join "," items)%string]).
Proof.
  intros version passes file overwrite. unfold opt_command. eexists. split; [reflexivity|].
  assert (M : forall (g : string * string -> string), Forall2 (fun p o => o = g p) passes (map g passes)) by (intros g; induction passes; constructor; auto).
  split; intros V.
  - assert (Q : (16 <=? version)%Z = false) by (apply Z.leb_gt; exact V). rewrite Q. apply M.
  - assert (Q : (16 <=? version)%Z = true) by (apply Z.leb_le; exact V). rewrite Q. eexists. split; [|reflexivity]. apply M.
Qed.
Print Assumptions C43_opt.
Example C43_opt_example :
  opt_command 15 [("mem2reg", "function"); ("simplifycfg", "function")]%string "a.ll" true = ["opt"; "a.ll"; "-mem2reg"; "-simplifycfg"; "-S"; "-o"; "a.ll"]%string /\
  opt_command 16 [("mem2reg", "function"); ("globaldce", "module")]%string "a.ll" false = ["opt"; "a.ll"; "-passes=function(mem2reg),module(globaldce)"]%string.
Proof. split; reflexivity. Qed.

(** ** C44: kernel headers *)

(** After any number of interrupted runs, one that ends restores the header. *)
Theorem C44_restored : forall n h, ~ inside "asm (""goto("" #x "")"")" h -> ~ inside "#undef CONFIG_CC_HAS_ASM_INLINE // DiffKemp generated" h ->
  enable_header (repeated n disable_header h) = h.
Proof. exact round_trip. Qed.
Print Assumptions C44_restored.
(** The same for whole runs of build-kernel: failed ones leave the header changed, and the next
    one that reaches the end restores it. *)
Theorem C44_next_run_restores : forall h failed,
  ~ inside "asm (""goto("" #x "")"")" h -> ~ inside "#undef CONFIG_CC_HAS_ASM_INLINE // DiffKemp generated" h ->
  Forall (fun run => fst run = true \/ snd run = true) failed ->
  build_kernel_headers false false (fold_left (fun x run => build_kernel_headers (fst run) (snd run) x) failed (Some h)) = Some h.
Proof.
  intros h failed N1 N2 F.
  assert (X : forall l n, Forall (fun run : bool * bool => fst run = true \/ snd run = true) l ->
    exists m, fold_left (fun x run => build_kernel_headers (fst run) (snd run) x) l (Some (repeated n disable_header h)) = Some (repeated m disable_header h)).
  { induction l as [|[a b] l IH]; intros n G; [exists n; reflexivity|]. inversion G as [|? ? O G']; subst. cbn [fold_left fst snd] in *.
    assert (E : build_kernel_headers a b (Some (repeated n disable_header h)) = Some (repeated (S n) disable_header h)).
    { unfold build_kernel_headers, on_header, option_map. destruct a; [reflexivity|]. destruct O as [O|O]; [discriminate|]. rewrite O. reflexivity. }
    rewrite E. apply IH, G'. }
  destruct (X failed 0 F) as (m & E). cbn [repeated] in E. rewrite E. unfold build_kernel_headers, on_header, option_map.
  f_equal. exact (round_trip (S m) h N1 N2).
Qed.
Print Assumptions C44_next_run_restores.
(** In between, the header has no asm goto, and every line with the test for asm inline follows
    one that removes it. *)
Theorem C44_disabled : forall h, ~ inside "asm goto(x)" (disable_header h).
Proof. exact disabled_clean. Qed.
Print Assumptions C44_disabled.
Theorem C44_disabled_lines : forall ls, ls <> [] -> Forall (fun l => has_char nl l = false) ls ->
  disable_header (join (String nl "") ls) = join (String nl "") (flat_map (fun l =>
    let l' := replace "asm goto(x)" "asm (""goto("" #x "")"")" l in
    if contains l' "#ifdef CONFIG_CC_HAS_ASM_INLINE" then ["#undef CONFIG_CC_HAS_ASM_INLINE // DiffKemp generated"%string; l'] else [l']) ls).
Proof.
  intros ls N F. change (join (String nl "") ls) with (unpiece ls). rewrite (disabled_lines ls N F). unfold unpiece. f_equal. clear. induction ls as [|l ls IH]; [reflexivity|]. cbn [flat_map]. rewrite IH. f_equal.
  unfold goto_old, goto_new, ifdef_text, undef_line. destruct (contains _ _); reflexivity.
Qed.
Print Assumptions C44_disabled_lines.
(** A header with the replacement text is changed for good. *)
Theorem C44_replacement_text_refuted : exists h, enable_header (disable_header h) <> h.
Proof. exists "# define asm_volatile_goto(x...) asm (""goto("" #x "")"")"%string. vm_compute. discriminate. Qed.
Print Assumptions C44_replacement_text_refuted.
(** An empty list of functions, or an exception, leaves the headers of the kernel changed. *)
Theorem C44_left_changed_refuted : exists h h', ~ inside "asm (""goto("" #x "")"")" h /\ ~ inside "#undef CONFIG_CC_HAS_ASM_INLINE // DiffKemp generated" h /\
  build_kernel_headers true false (Some h) = Some h' /\ build_kernel_headers false true (Some h) = Some h' /\ h' <> h.
Proof.
  exists "#define asm_volatile_goto(x...) do { asm goto(x); } while (0)"%string. eexists.
  split; [rewrite <- inside_iff; vm_compute; discriminate|]. split; [rewrite <- inside_iff; vm_compute; discriminate|].
  split; [reflexivity|]. split; [reflexivity|]. vm_compute. discriminate.
Qed.
Print Assumptions C44_left_changed_refuted.
Definition ex_header : string := "#define g(x...) asm goto(x)" ++ String nl ("#ifdef CONFIG_CC_HAS_ASM_INLINE" ++ String nl "#endif").
Example C44_example :
  ~ inside "asm (""goto("" #x "")"")" ex_header /\ ~ inside "#undef CONFIG_CC_HAS_ASM_INLINE // DiffKemp generated" ex_header.
Proof. split; rewrite <- inside_iff; vm_compute; discriminate. Qed.
Example C44_example_text : disable_header ex_header =
  ("#define g(x...) asm (""goto("" #x "")"")" ++ String nl ("#undef CONFIG_CC_HAS_ASM_INLINE // DiffKemp generated" ++ String nl ("#ifdef CONFIG_CC_HAS_ASM_INLINE" ++ String nl "#endif")))%string /\
  enable_header (disable_header (disable_header ex_header)) = ex_header.
Proof. vm_compute. auto. Qed.

(** ** C78: definitions *)

(** The module found is that of the first candidate that builds and defines the symbol; those
    before it have been tried and failed, those after it have not been built. *)
Theorem C78_found : forall t defines symbol srcs f p g,
  find_def t defines symbol f srcs = (Ok (Some p), g) <->
  exists pre src post h, srcs = pre ++ src :: post /\ Visited t defines symbol f pre h /\
    build_source t h src = (Ok p, g) /\ ~ missing g p /\ defines g p symbol = true.
Proof. intros. apply find_def_some. Qed.
Print Assumptions C78_found.
(** Nothing is found exactly if all have been tried. *)
Theorem C78_not_found : forall t defines symbol srcs f g,
  find_def t defines symbol f srcs = (Ok None, g) <-> Visited t defines symbol f srcs g.
Proof. intros. apply find_def_none. Qed.
Print Assumptions C78_not_found.
(** Tools for the examples: make prints the command for two objects only. *)
Definition ex_tools (opt link : bool) : tools := mkTools
  (fun _ o => if String.eqb o "a.o" then Some "gcc -c -o a.o a.c"%string else if String.eqb o "b.o" then Some "gcc -c -o b.o b.c"%string else None)
  (fun _ _ _ => (0%Z, ("gcc -c -o d/a.o d/a.c" ++ String nl ("gcc -c -o d/b.o d/b.c" ++ String nl "ld -r -o d/m.o d/a.o d/b.o"))%string))
  (fun _ _ => true) (fun _ _ => opt) (fun _ _ => link).
Lemma ex_honest opt link : honest_make (ex_tools opt link).
Proof.
  intros f stem out c cmd TM OC GC. cbn in TM.
  destruct (String.eqb_spec (stem ++ ".o") "a.o") as [E|_]; [|destruct (String.eqb_spec (stem ++ ".o") "b.o") as [E|_]; [|discriminate]];
    [apply (app_inv_tail_s stem "a" ".o") in E|apply (app_inv_tail_s stem "b" ".o") in E]; subst stem; injection TM as <-; vm_compute in OC; injection OC as <-; vm_compute in GC; injection GC as <-; split; reflexivity.
Qed.
Definition ex_files : files := mkFiles [("a.c"%string, (1%Z, Source 1)); ("b.c"%string, (2%Z, Source 2))] 5.
Example C78_example : exists g, find_def (ex_tools true true) (fun _ p _ => String.eqb p "b.ll") "f" ex_files ["x.c"; "a.c"; "b.c"; "c.c"]%string = (Ok (Some "b.ll"%string), g) /\
  f_get g "a.ll" = Some (6%Z, Optimised (Compiled (Source 1))).
Proof. eexists. split; vm_compute; reflexivity. Qed.

(** ** C79: freshness *)

(** The IR is reused, and nothing is run, if it is not older than the source. *)
Theorem C79_reused : forall t f stem, ~ missing f (stem ++ ".ll") -> ~ missing f (stem ++ ".c") -> ~ older f (stem ++ ".ll") (stem ++ ".c") ->
  build_source t f (stem ++ ".c") = (Ok (stem ++ ".ll")%string, f).
Proof. exact build_source_reuse. Qed.
Print Assumptions C79_reused.
(** Otherwise a build that succeeds has compiled and optimised the source as it is now. *)
Theorem C79_rebuilt : forall t f stem p g, honest_make t -> missing f (stem ++ ".ll") \/ older f (stem ++ ".ll") (stem ++ ".c") ->
  build_source t f (stem ++ ".c") = (Ok p, g) ->
  p = (stem ++ ".ll")%string /\ exists c, content_at f (stem ++ ".c") c /\ content_at g p (Optimised (Compiled c)).
Proof.
  intros t f stem p g HM M B. destruct (build_source_rebuild t f stem p g HM M B) as (-> & t0 & c & G & ->). split; [reflexivity|].
  exists c. split; [exists t0; exact G|]. eexists. apply write_same.
Qed.
Print Assumptions C79_rebuilt.
(** Only the IR file is changed, whatever happens. *)
Theorem C79_only_the_ir : forall t f stem r g, honest_make t -> build_source t f (stem ++ ".c") = (r, g) -> same_but (stem ++ ".ll") f g.
Proof. intros t f stem r g HM B. apply (build_source_frame _ _ _ _ _ HM B). Qed.
Print Assumptions C79_only_the_ir.
(** Over any history of edits and builds (which may fail, but not in opt): a build that
    succeeds leaves the optimised IR of the source as it is then. *)
Theorem C79_history : forall t stem events f p g, honest_make t -> (forall h q, t_opt t h q = true) ->
  clocked f -> ~ missing f (stem ++ ".c") -> missing f (stem ++ ".ll") ->
  build_source t (history t (stem ++ ".c") f events) (stem ++ ".c") = (Ok p, g) ->
  p = (stem ++ ".ll")%string /\ exists c, content_at (history t (stem ++ ".c") f events) (stem ++ ".c") c /\ content_at g p (Optimised (Compiled c)).
Proof.
  intros t stem events f p g HM OP CL NM ML B.
  destruct (history_right t stem events HM OP f CL NM) as (C1 & C2 & C3); [intros d (td & D); unfold missing in ML; congruence|].
  destruct (right_build t _ stem p g HM C1 C2 C3 B) as (_ & c & A1 & A2). destruct (build_source_frame _ _ _ _ _ HM B) as (SB & _ & P). rewrite (P p eq_refl).
  split; [reflexivity|]. exists c. split; [|exact A2]. destruct A1 as (t0 & A1). exists t0. rewrite <- SB; [exact A1|]. intros E. symmetry in E. exact (ll_neq_c stem E).
Qed.
Print Assumptions C79_history.
(** If opt has failed, the IR that is not optimised is used the next time. *)
Theorem C79_opt_failure_refuted : exists t f g, honest_make t /\ clocked f /\ missing f "a.ll" /\
  build_source t f "a.c" = (Err BuildException, g) /\ build_source t g "a.c" = (Ok "a.ll"%string, g) /\ content_at g "a.ll" (Compiled (Source 1)).
Proof.
  exists (ex_tools false true), ex_files, (write ex_files "a.ll" (Compiled (Source 1))). split; [apply ex_honest|].
  split. { intros p t c. unfold f_get, ex_files. cbn. destruct (String.eqb p "a.c"); [intros E; injection E as <- _; reflexivity|]. destruct (String.eqb p "b.c"); [intros E; injection E as <- _; reflexivity|discriminate]. }
  split; [reflexivity|]. split; [vm_compute; reflexivity|]. split; [vm_compute; reflexivity|]. eexists. vm_compute. reflexivity.
Qed.
Print Assumptions C79_opt_failure_refuted.
(** IR without its source ends the search with a FileNotFoundError. *)
Theorem C79_source_gone : forall t f stem, ~ missing f (stem ++ ".ll") -> missing f (stem ++ ".c") ->
  build_source t f (stem ++ ".c") = (Err FileNotFoundError, f).
Proof.
  intros t f stem A B. unfold build_source. rewrite chop_c. unfold missing in *. destruct (f_get f (stem ++ ".ll")) as [[? ?]|]; [|congruence]. rewrite B. reflexivity.
Qed.
Print Assumptions C79_source_gone.
Example C79_example : exists g, honest_make (ex_tools true true) /\ missing ex_files "a.ll" /\
  build_source (ex_tools true true) (history (ex_tools true true) "a.c" ex_files [Build; Edit (Source 7); Build; Build; Edit (Source 9)]) "a.c" = (Ok "a.ll"%string, g) /\
  content_at g "a.ll" (Optimised (Compiled (Source 9))).
Proof. eexists. split; [apply ex_honest|]. split; [reflexivity|]. split; [vm_compute; reflexivity|]. eexists. vm_compute. reflexivity. Qed.

(** ** C80: kernel modules *)

(** Over any history of edits and successful builds, a build leaves the code of the sources as
    they are in all files of the module. *)
Theorem C80_module_current : forall t mod_dir mod_name name cmds f llvm g,
  fixed_commands t mod_dir mod_name name cmds -> Reached t mod_dir mod_name cmds f ->
  build_module t f mod_dir mod_name = (Ok llvm, g) ->
  llvm = path_join mod_dir (name ++ ".ll") /\ complete g cmds /\ forall src, suffix_of ".c" src -> f_get g src = f_get f src.
Proof.
  intros t dir mn name cmds f llvm g FX R B. destruct (build_module_parts _ _ _ _ _ _ _ _ FX B) as (E & _). split; [exact E|].
  exact (built_complete _ _ _ _ _ _ _ _ FX R B).
Qed.
Print Assumptions C80_module_current.
(** If nothing has to be compiled and all is there, nothing is compiled or linked. *)
Theorem C80_up_to_date : forall t f cmds, complete f cmds -> (forall c, In c cmds -> ~ to_compile f c) -> run_commands t f false cmds = (Ok tt, f).
Proof. exact up_to_date. Qed.
Print Assumptions C80_up_to_date.
Definition ex_cmds : list (list string) :=
  [clang_base ++ ["-c"; "d/a.c"; "-o"; "d/a.ll"]%string; clang_base ++ ["-c"; "d/b.c"; "-o"; "d/b.ll"]%string; ["llvm-link"; "-S"; "-o"; "d/m.ll"; "d/a.ll"; "d/b.ll"]%string].
Definition ex_module : files := mkFiles [("d/a.c"%string, (1%Z, Source 1)); ("d/b.c"%string, (2%Z, Source 2))] 5.
Lemma ex_fixed opt link : fixed_commands (ex_tools opt link) "d" "m" "m" ex_cmds.
Proof. intros f. eexists. split; [reflexivity|]. vm_compute. reflexivity. Qed.
Lemma ex_plan : exists env, Plan ex_module [] ex_cmds env /\ dget env "d/m.ll"%string = Some (Linked [Compiled (Source 1); Compiled (Source 2)]) /\ forall out, dget env out <> None -> missing ex_module out.
Proof.
  eexists. split; [|split].
  - eapply plan_clang; [reflexivity|reflexivity|exists "d/a"%string; reflexivity|exists "d/a"%string; reflexivity|reflexivity|reflexivity|].
    eapply plan_clang; [reflexivity|reflexivity|exists "d/b"%string; reflexivity|exists "d/b"%string; reflexivity|reflexivity|reflexivity|].
    eapply plan_link; [reflexivity|exists "d/m"%string; reflexivity|reflexivity| |apply plan_done].
    vm_compute link_inputs. repeat constructor.
  - reflexivity.
  - intros out. unfold missing, f_get, ex_module. cbn. repeat (match goal with |- context [String.eqb out ?s] => destruct (String.eqb_spec out s) as [->|] end); try congruence; cbn; try reflexivity; congruence.
Qed.
Lemma ex_reached opt link : Reached (ex_tools opt link) "d" "m" ex_cmds ex_module.
Proof.
  destruct ex_plan as (env & P & _ & M). apply (r_start _ _ _ _ _ env); [|exact P|exact M].
  intros p t c. unfold f_get, ex_module. cbn. destruct (String.eqb p "d/a.c"); [intros E; injection E as <- _; reflexivity|]. destruct (String.eqb p "d/b.c"); [intros E; injection E as <- _; reflexivity|discriminate].
Qed.
Example C80_example : exists g g2, build_module (ex_tools true true) ex_module "d" "m" = (Ok "d/m.ll"%string, g) /\
  content_at g "d/m.ll" (Optimised (Linked [Compiled (Source 1); Compiled (Source 2)])) /\
  build_module (ex_tools true true) (write g "d/b.c" (Source 3)) "d" "m" = (Ok "d/m.ll"%string, g2) /\
  content_at g2 "d/m.ll" (Optimised (Linked [Compiled (Source 1); Compiled (Source 3)])).
Proof. eexists. eexists. split; [vm_compute; reflexivity|]. split; [eexists; vm_compute; reflexivity|]. split; [vm_compute; reflexivity|]. eexists. vm_compute. reflexivity. Qed.
(** If linking has failed after a compilation, the next build that succeeds gives the module
    of the old source. *)
Definition fails_at (n : Z) : tools := mkTools (t_make (ex_tools true true)) (t_module (ex_tools true true)) (fun _ _ => true) (fun _ _ => true) (fun f _ => negb (f_clock f =? n)%Z).
Theorem C80_failed_link_refuted : exists t f g g2, Reached t "d" "m" ex_cmds f /\
  content_at f "d/b.c" (Source 3) /\
  build_module t f "d" "m" = (Err BuildException, g) /\ build_module t g "d" "m" = (Ok "d/m.ll"%string, g2) /\
  exists c, content_at g2 "d/m.ll" c /\ code c = Linked [Compiled (Source 1); Compiled (Source 2)].
Proof.
  exists (fails_at 11). eexists (write (snd (build_module (fails_at 11) ex_module "d" "m")) "d/b.c" (Source 3)). eexists. eexists. split; [|split; [|split; [|split]]].
  - apply r_edit.
    + apply (r_build _ _ _ _ ex_module "d/m.ll"%string); [|vm_compute; reflexivity]. destruct ex_plan as (env & P & _ & M). apply (r_start _ _ _ _ _ env); [|exact P|exact M].
      intros p t c. unfold f_get, ex_module. cbn. destruct (String.eqb p "d/a.c"); [intros E; injection E as <- _; reflexivity|]. destruct (String.eqb p "d/b.c"); [intros E; injection E as <- _; reflexivity|discriminate].
    + exists "d/b"%string. reflexivity.
    + vm_compute. discriminate.
  - eexists. vm_compute. reflexivity.
  - vm_compute. reflexivity.
  - vm_compute. reflexivity.
  - eexists. split; [eexists; vm_compute; reflexivity|reflexivity].
Qed.
Print Assumptions C80_failed_link_refuted.

(** ** C81: uses *)

(** The modules found for the uses of a symbol: those of the reported C files outside the
    global scope that build, each once, in the order of the first use. *)
Theorem C81_uses : forall cs t before f symbol r g st, cs_db cs = true ->
  (find_llvm_with_symbol_use cs t (lookups cs (mkCstate [] []) before) f symbol = (Ok r, g, st) ->
   exists lines, cscope_says cs symbol false lines /\ lines <> [] /\ Uses t f lines [] r g /\ NoDup r).
Proof.
  intros cs t before f symbol r g st DB. unfold find_llvm_with_symbol_use.
  pose proof (lookups_valid cs before _ (cache_valid_initial cs)) as V. pose proof (cscope_run_answer cs _ symbol false DB V) as A.
  destruct (cscope_run cs _ symbol false) as [x st1]. cbn [fst] in A. destruct x as [lines|]; [|discriminate]. destruct lines as [|l ls]; [discriminate|].
  intros E. assert (E' : find_uses t f (l :: ls) [] = (Ok r, g)) by (apply (f_equal fst) in E; exact E). clear E. rename E' into E. apply find_uses_ok in E. exists (l :: ls). split; [apply says_answer; symmetry; exact A|]. split; [discriminate|]. split; [exact E|].
  apply (uses_nodup _ _ _ _ _ _ E). constructor.
Qed.
Print Assumptions C81_uses.
(** If cscope reports no use, the search does not end with the exception its callers handle. *)
Theorem C81_no_use_refuted : forall cs t before f symbol, cs_db cs = true -> cscope_says cs symbol false [] ->
  fst (fst (find_llvm_with_symbol_use cs t (lookups cs (mkCstate [] []) before) f symbol)) = Err TypeError.
Proof.
  intros cs t before f symbol DB S. unfold find_llvm_with_symbol_use.
  pose proof (lookups_valid cs before _ (cache_valid_initial cs)) as V. pose proof (cscope_run_answer cs _ symbol false DB V) as A. apply says_answer in S.
  destruct (cscope_run cs _ symbol false) as [x st1]. cbn [fst] in A. rewrite S in A. subst x. reflexivity.
Qed.
Print Assumptions C81_no_use_refuted.
Definition ex_uses : cscope := mkCscope true (fun s d =>
  if String.eqb s "f" && negb d then Some ("b.c g 3 f();" ++ String nl ("a.c <global> 7 p = f;" ++ String nl ("b.c h 1 f();" ++ String nl ("a.c h 1 f();" ++ String nl ""))))%string else None).
Example C81_example :
  fst (fst (find_llvm_with_symbol_use ex_uses (ex_tools true true) (mkCstate [] []) ex_files "f")) = Ok ["b.ll"; "a.ll"]%string /\
  cscope_says ex_uses "g" false [].
Proof. split; [vm_compute; reflexivity|apply says_nothing; reflexivity]. Qed.
