(** * Properties of building with the compiler wrapper: C40, C41, C75, C76, C77 *)
From Coq Require Import String Ascii ZArith Arith Bool Lia List.
From Verif Require Import PyBase Path_Model Syndiff_Model Wrapper_Model Wrapper_Spec Wrapper_Proofs.
From Verif Require Compare_Model.
Import ListNotations.
Open Scope list_scope.

(** The command given to the wrapper, with the original compiler. *)
Definition native (args : list string) : action := Run "gcc" ("gcc"%string :: args).
Definition native_status (o : outside) (args : list string) : Z := o_run o [] "gcc" ("gcc"%string :: args).

(** ** C40 The native build *)

(** The original compiler is run first, once, with the original arguments; if it fails nothing
    else happens and the result is 1; if it succeeds at most one other program is run, the
    database is written only after that program succeeded, and the result is 0 (or an
    exception, only if "gcc" itself is on the drop list). *)
Theorem C40_native_command_first : forall o env db clang link append drop args acts r,
  provided env db clang link append drop -> wrapper o env args = (acts, r) ->
  exists rest, acts = native args :: rest /\
  (native_status o args <> 0%Z -> rest = [] /\ r = Ok 1%Z) /\
  (native_status o args = 0%Z ->
     (r = Ok 0%Z \/ (r = Err IndexError /\ In "gcc"%string drop)) /\
     (rest = [] \/
      (exists f argv, rest = [Run f argv]) \/
      (exists f argv lines, rest = [Run f argv; Append db lines] /\ o_run o [native args] f argv = 0%Z))).
Proof.
  intros o env db clang link append drop args acts r P E. rewrite (wrapper_provided _ _ _ _ _ _ _ _ P) in E. cbv zeta in E.
  fold (native args) in E. fold (native_status o args) in E.
  destruct (Z.eqb_spec (native_status o args) 0) as [Z0|Z0]; cbn [negb] in E.
  2:{ injection E as <- <-. exists []. split; [reflexivity|]. split; [auto|]. intros X. congruence. }
  set (st := analyse clang link drop args) in *.
  assert (G : exists rest, acts = native args :: rest /\ (r = Ok 0%Z \/ (r = Err IndexError /\ In "gcc"%string drop)) /\
     (rest = [] \/ (exists f argv, rest = [Run f argv]) \/
      (exists f argv lines, rest = [Run f argv; Append db lines] /\ o_run o [native args] f argv = 0%Z))).
  { destruct (skipped args (p_output st)); [injection E as <- <-; exists []; auto|].
    destruct (clang_command _ link append st) as [argv|e] eqn:C.
    - destruct (Z.eqb_spec (o_run o [native args] (p_clang st) argv) 0) as [R0|R0]; cbn [negb] in E.
      + destruct (entries_ok (o_exists o [Run (p_clang st) argv; native args]) (o_cwd o) link args st) as [lines L]. rewrite L in E.
        injection E as <- <-. exists [Run (p_clang st) argv; Append db lines]. split; [reflexivity|]. split; [auto|]. right. right. exists (p_clang st), argv, lines. auto.
      + injection E as <- <-. exists [Run (p_clang st) argv]. split; [reflexivity|]. split; [auto|]. right. left. eauto.
    - injection E as <- <-. exists []. split; [reflexivity|]. split; [|auto]. right.
      unfold clang_command in C. destruct (p_argv st) as [|x l] eqn:A.
      2:{ destruct (negb (String.eqb (p_clang st) link)); discriminate. }
      injection C as <-. split; [reflexivity|]. eapply analyse_nil. exact A. }
  destruct G as (rest & -> & A & B). exists rest. split; [reflexivity|]. split; [intros X; congruence|auto].
Qed.
Print Assumptions C40_native_command_first.

(** The exit status the build program sees: with the native executable it is 0 exactly if the
    original compiler succeeded. *)
Theorem C40_exit_status : forall o env db clang link append drop args,
  provided env db clang link append drop -> ~ In "gcc"%string drop ->
  (exit_status Native (snd (wrapper o env args)) = 0%Z <-> native_status o args = 0%Z) /\
  (native_status o args <> 0%Z -> exit_status Native (snd (wrapper o env args)) = 1%Z).
Proof.
  intros o env db clang link append drop args P N. destruct (wrapper o env args) as [acts r] eqn:E.
  destruct (C40_native_command_first _ _ _ _ _ _ _ _ _ _ P E) as (rest & _ & A & B). cbn [snd].
  destruct (Z.eq_dec (native_status o args) 0) as [Z0|Z0].
  - destruct (B Z0) as [[->|[_ X]] _]; [|contradiction]. split; [split; auto|]. intros X. congruence.
  - destruct (A Z0) as [_ ->]. split; [split; [discriminate|congruence]|]. reflexivity.
Qed.
Print Assumptions C40_exit_status.

(** Without the variables of the environment nothing is run and the build fails. *)
Theorem C40_missing_environment : forall o env args,
  we_db env = None \/ we_clang env = None \/ we_append env = None \/ we_drop env = None \/ we_link env = None ->
  wrapper o env args = ([], Ok 1%Z).
Proof.
  intros o [db clang append drop debug link] args. unfold wrapper. cbn [we_db we_clang we_append we_drop we_link].
  destruct db, clang, append, drop, link; intros H; try reflexivity. exfalso. intuition discriminate.
Qed.
Print Assumptions C40_missing_environment.

Definition C40_env : wenv := (mkWenv (Some "/tmp/wdb") (Some "clang") (Some "-O1") (Some "-Werror,-O2") None (Some "llvm-link"))%string.
Lemma C40_provided : provided C40_env "/tmp/wdb" "clang" "llvm-link" ["-O1"]%string ["-Werror"; "-O2"]%string.
Proof. repeat split; eexists; split; reflexivity. Qed.

(** The status itself is lost: the build program sees 1, whatever the compiler returned. *)
Theorem C40_exit_code_of_the_compiler_refuted : exists o args,
  native_status o args = 4%Z /\ exit_status Native (snd (wrapper o C40_env args)) <> 4%Z.
Proof. exists (mkOutside "/src" (fun _ _ _ => 4%Z) (fun _ _ => true)), ["-c"; "a.c"]%string. split; [reflexivity|]. vm_compute. discriminate. Qed.
Print Assumptions C40_exit_code_of_the_compiler_refuted.

(** The script (used if the executable is not installed, or with --no-native-cc-wrapper)
    reports success even if the compiler failed, for every command. *)
Theorem C40_script_hides_failures : forall o env db clang link append drop args,
  provided env db clang link append drop -> native_status o args <> 0%Z ->
  exit_status Script (snd (wrapper o env args)) = 0%Z.
Proof.
  intros o env db clang link append drop args P N. destruct (wrapper o env args) as [acts r] eqn:E.
  destruct (C40_native_command_first _ _ _ _ _ _ _ _ _ _ P E) as (rest & _ & A & _). destruct (A N) as [_ ->]. reflexivity.
Qed.
Print Assumptions C40_script_hides_failures.
Theorem C40_script_used : forall in_build in_path no_native,
  chosen_variant in_build in_path no_native = Script <-> (no_native = true \/ (in_build = false /\ in_path = false)).
Proof. intros [] [] []; cbn; intuition discriminate. Qed.
Print Assumptions C40_script_used.
Theorem C40_failure_fails_the_build_refuted : exists o args,
  native_status o args <> 0%Z /\
  exit_status (chosen_variant true true true) (snd (wrapper o C40_env args)) = 0%Z.
Proof. exists (mkOutside "/src" (fun _ _ _ => 1%Z) (fun _ _ => true)), ["-c"; "a.c"]%string. split; [discriminate|]. reflexivity. Qed.
Print Assumptions C40_failure_fails_the_build_refuted.

Example C40_example :
  wrapper (mkOutside "/src" (fun l f _ => if String.eqb f "clang" then 1%Z else 0%Z) (fun _ _ => true)) C40_env ["-O2"; "-c"; "a.c"; "-o"; "a.o"]%string =
  ([Run "gcc" ["gcc"; "-O2"; "-c"; "a.c"; "-o"; "a.o"]%string;
    Run "clang" ["clang"; "-c"; "a.c"; "-o"; "a.ll"; "-O1"; "-S"; "-emit-llvm"; "-g"]%string], Ok 0%Z).
Proof. vm_compute. reflexivity. Qed.

(** ** C41 The clang and llvm-link commands *)

(** What follows the run of the original compiler. *)
Definition then_runs (o : outside) (env : wenv) (args : list string) (f : string) (argv : list string) : Prop :=
  exists acts r, wrapper o env args = (native args :: Run f argv :: acts, r).
Definition then_nothing (o : outside) (env : wenv) (args : list string) : Prop :=
  wrapper o env args = ([native args], Ok 0%Z).

Lemma run_of o env db clang link append drop args : provided env db clang link append drop ->
  native_status o args = 0%Z ->
  let st := analyse clang link drop args in
  (skipped args (p_output st) = true -> then_nothing o env args) /\
  (skipped args (p_output st) = false -> forall argv,
     clang_command (o_exists o [native args]) link append st = Ok argv -> then_runs o env args (p_clang st) argv).
Proof.
  intros P N st. unfold then_nothing, then_runs. rewrite (wrapper_provided _ _ _ _ _ _ _ _ P). cbv zeta. fold (native args). fold (native_status o args).
  rewrite N. cbn [Z.eqb negb]. fold st. split; intros S; rewrite S; [reflexivity|]. intros argv C. rewrite C.
  destruct (o_run o [native args] (p_clang st) argv =? 0)%Z; cbn [negb]; [|eauto].
  destruct (entries_ok (o_exists o [Run (p_clang st) argv; native args]) (o_cwd o) link args st) as [lines L]. rewrite L. eauto.
Qed.
Lemma Forall2_R linking ks : Forall2 (R linking) ks (map (tr linking) ks).
Proof. induction ks as [|k ks IH]; cbn; constructor; [apply R_iff; reflexivity|exact IH]. Qed.
Lemma Forall2_R_eq linking ks out : Forall2 (R linking) ks out -> out = map (tr linking) ks.
Proof. induction 1 as [|k b ks out H F IH]; cbn; [reflexivity|]. apply R_iff in H as ->. rewrite IH. reflexivity. Qed.
Lemma ends_ll a : endswith a ".ll" = true <-> ends_in a [".ll"%string].
Proof. rewrite ends_in_iff. cbn [existsb]. rewrite orb_false_r. tauto. Qed.

(** A compilation is repeated with clang, with every argument that is not on the drop list, in
    order, the name of an object output changed to .ll, and the further options at the end;
    it is not repeated if the output is not LLVM IR then, or for a configure test. *)
Theorem C41_compilation : forall o env db clang link append drop args ks out,
  provided env db clang link append drop -> native_status o args = 0%Z ->
  ~ In "gcc"%string drop -> clang <> link -> In "-c"%string args ->
  Kept_args drop None args ks -> Forall2 compile_arg ks out ->
  (not_repeated compile_arg args ks -> then_nothing o env args) /\
  (~ not_repeated compile_arg args ks ->
     then_runs o env args clang (clang :: out ++ append ++ ["-S"; "-emit-llvm"; "-g"]%string)).
Proof.
  intros o env db clang link append drop args ks out P N G CL I K F. apply keep_iff in K as ->.
  apply (Forall2_R_eq false) in F as ->. destruct (run_of _ _ _ _ _ _ _ _ P N) as [A B].
  apply mem_In in I. rewrite (analyse_eq clang link drop args G) in *. cbv zeta in *. rewrite I in *. cbn [negb andb p_output p_clang] in *.
  rewrite (skipped_iff false) in A. split; [exact A|]. intros S. apply B.
  - destruct (skipped args _) eqn:E; [|reflexivity]. apply (skipped_iff false) in E. contradiction.
  - unfold clang_command. cbn [p_argv p_clang]. apply String.eqb_neq in CL. rewrite CL. cbn [negb]. reflexivity.
Qed.
Print Assumptions C41_compilation.

(** Linking of sources without objects: the same command, with the output suffixed. *)
Theorem C41_link_of_sources : forall o env db clang link append drop args ks out,
  provided env db clang link append drop -> native_status o args = 0%Z ->
  ~ In "gcc"%string drop -> clang <> link -> ~ In "-c"%string args ->
  Kept_args drop None args ks -> Forall2 link_arg ks out -> ~ links_objects ks ->
  (not_repeated link_arg args ks -> then_nothing o env args) /\
  (~ not_repeated link_arg args ks ->
     then_runs o env args clang (clang :: out ++ append ++ ["-S"; "-emit-llvm"; "-g"]%string)).
Proof.
  intros o env db clang link append drop args ks out P N G CL I K F L. apply keep_iff in K as ->.
  apply (Forall2_R_eq true) in F as ->. destruct (run_of _ _ _ _ _ _ _ _ P N) as [A B].
  assert (M : mem "-c"%string args = false) by (destruct (mem "-c"%string args) eqn:M; [apply mem_In in M; contradiction|reflexivity]).
  assert (LO : existsb in_object (keep drop None args) = false) by (destruct (existsb in_object (keep drop None args)) eqn:X; [apply links_objects_iff in X; contradiction|reflexivity]).
  rewrite (analyse_eq clang link drop args G) in *. cbv zeta in *. rewrite M, LO in *. cbn [negb andb p_output p_clang] in *.
  apply String.eqb_neq in CL. rewrite CL, ?andb_false_r in *. cbn [p_output p_clang] in *.
  rewrite (skipped_iff true) in A. split; [exact A|]. intros S. apply B.
  - destruct (skipped args _) eqn:E; [|reflexivity]. apply (skipped_iff true) in E. contradiction.
  - unfold clang_command. cbn [p_argv p_clang]. rewrite CL. cbn [negb]. reflexivity.
Qed.
Print Assumptions C41_link_of_sources.

(** Linking of sources together with objects: the objects (and every other argument ending in
    .ll) are left out. *)
Theorem C41_link_of_sources_and_objects : forall o env db clang link append drop args ks out,
  provided env db clang link append drop -> native_status o args = 0%Z ->
  ~ In "gcc"%string drop -> clang <> link -> ~ In "-c"%string args ->
  Kept_args drop None args ks -> Forall2 link_arg ks out -> links_objects ks -> compiles_sources ks ->
  (not_repeated link_arg args ks -> then_nothing o env args) /\
  (~ not_repeated link_arg args ks -> exists kept,
     (forall a, In a kept <-> In a out /\ ~ ends_in a [".ll"%string]) /\
     kept = filter (fun a => negb (endswith a ".ll")) out /\
     then_runs o env args clang (clang :: kept ++ append ++ ["-S"; "-emit-llvm"; "-g"]%string)).
Proof.
  intros o env db clang link append drop args ks out P N G CL I K F L C. apply keep_iff in K as ->.
  apply (Forall2_R_eq true) in F as ->. destruct (run_of _ _ _ _ _ _ _ _ P N) as [A B].
  assert (M : mem "-c"%string args = false) by (destruct (mem "-c"%string args) eqn:M; [apply mem_In in M; contradiction|reflexivity]).
  apply links_objects_iff in L. apply compiles_sources_iff in C.
  rewrite (analyse_eq clang link drop args G) in *. cbv zeta in *. rewrite M, L, C in *. cbn [negb andb p_output p_clang] in *.
  rewrite String.eqb_refl in *. cbn [p_output p_clang] in *.
  rewrite (skipped_iff true) in A. split; [exact A|]. intros S.
  exists (filter (fun a => negb (endswith a ".ll")) (map (tr true) (keep drop None args))). split; [|split; [reflexivity|]].
  - intros a. rewrite filter_In, negb_true_iff, <- ends_ll. destruct (endswith a ".ll"); intuition congruence.
  - apply B.
    + destruct (skipped args _) eqn:E; [|reflexivity]. apply (skipped_iff true) in E. contradiction.
    + unfold clang_command. cbn [p_argv p_clang filter]. replace (endswith "gcc" ".ll") with false by reflexivity. cbn [negb].
      apply String.eqb_neq in CL. rewrite CL. cbn [negb]. reflexivity.
Qed.
Print Assumptions C41_link_of_sources_and_objects.

(** Linking of objects: llvm-link gets -o with the suffixed output and the LLVM IR files of the
    objects, those that exist (after the original command). *)
Theorem C41_link_of_objects : forall o env db clang link append drop args ks bs,
  provided env db clang link append drop -> native_status o args = 0%Z ->
  ~ In "gcc"%string drop -> clang <> link -> ~ In "-c"%string args -> ~ In link args -> ordinary_outputs drop args ->
  Kept_args drop None args ks -> Forall2 link_arg ks bs -> links_objects ks -> ~ compiles_sources ks ->
  (not_repeated link_arg args ks -> then_nothing o env args) /\
  (~ not_repeated link_arg args ks -> exists out,
     Link_args (o_exists o [native args]) (combine ks bs) out /\
     then_runs o env args link (link :: "-S"%string :: out)).
Proof.
  intros o env db clang link append drop args ks bs P N G CL I NL [D OO] K F L C. apply keep_iff in K as ->.
  apply (Forall2_R_eq true) in F as ->. destruct (run_of _ _ _ _ _ _ _ _ P N) as [A B].
  assert (M : mem "-c"%string args = false) by (destruct (mem "-c"%string args) eqn:M; [apply mem_In in M; contradiction|reflexivity]).
  apply links_objects_iff in L.
  assert (CS : existsb in_source (keep drop None args) = false) by (destruct (existsb in_source (keep drop None args)) eqn:X; [apply compiles_sources_iff in X; contradiction|reflexivity]).
  rewrite (analyse_eq clang link drop args G) in *. cbv zeta in *. rewrite M, L, CS in *. cbn [negb andb p_output p_clang] in *.
  rewrite (skipped_iff true) in A. split; [exact A|]. intros S. eexists. split.
  - apply (link_cmd (o_exists o [native args]) link drop args None NL D).
    + discriminate.
    + exact OO.
  - apply B.
    + destruct (skipped args _) eqn:E; [|reflexivity]. apply (skipped_iff true) in E. contradiction.
    + unfold clang_command. cbn [p_argv p_clang]. rewrite String.eqb_refl. cbn [negb filter]. rewrite String.eqb_refl. cbn [orb]. reflexivity.
Qed.
Print Assumptions C41_link_of_objects.

(** These command lines are determined by the arguments. *)
Theorem C41_arguments_determined : forall drop args, exists ks, Kept_args drop None args ks /\
  (forall ks', Kept_args drop None args ks' -> ks' = ks) /\
  exists cs ls, Forall2 compile_arg ks cs /\ Forall2 link_arg ks ls /\
    (forall cs', Forall2 compile_arg ks cs' -> cs' = cs) /\ (forall ls', Forall2 link_arg ks ls' -> ls' = ls).
Proof.
  intros drop args. exists (keep drop None args). split; [apply keep_iff; reflexivity|]. split; [intros ks' K; apply keep_iff, K|].
  exists (map (tr false) (keep drop None args)), (map (tr true) (keep drop None args)).
  split; [apply (Forall2_R false)|]. split; [apply (Forall2_R true)|]. split; [apply (Forall2_R_eq false)|apply (Forall2_R_eq true)].
Qed.
Print Assumptions C41_arguments_determined.

(** The kept arguments are those not on the drop list, in order. *)
Theorem C41_kept_arguments : forall drop args ks, Kept_args drop None args ks ->
  map snd ks = filter (fun a => negb (if in_dec string_dec a drop then true else false)) args.
Proof.
  intros drop args ks. generalize (@None string). intros p K.
  induction K as [p|p a l ks I K IH|p a l ks N K IH]; cbn; [reflexivity| |]; destruct (in_dec string_dec a drop); cbn; try contradiction; [exact IH|f_equal; exact IH].
Qed.
Print Assumptions C41_kept_arguments.

Definition C41_outside : outside := mkOutside "/src" (fun _ _ _ => 0%Z) (fun _ f => negb (String.eqb f "asm.ll")).
Example C41_example_objects :
  wrapper C41_outside C40_env ["-Werror"; "x.o"; "asm.o"; "-lm"; "-o"; "prog"]%string =
  ([Run "gcc" ["gcc"; "-Werror"; "x.o"; "asm.o"; "-lm"; "-o"; "prog"]%string;
    Run "llvm-link" ["llvm-link"; "-S"; "x.ll"; "-o"; "prog.llw"]%string;
    Append "/tmp/wdb" ["f:/src/prog.llw"]%string], Ok 0%Z).
Proof. vm_compute. reflexivity. Qed.
Example C41_example_hypotheses :
  ordinary_outputs ["-Werror"; "-O2"]%string ["-Werror"; "x.o"; "asm.o"; "-lm"; "-o"; "prog"]%string /\
  ~ not_repeated link_arg ["-Werror"; "x.o"; "asm.o"; "-lm"; "-o"; "prog"]%string
      (keep ["-Werror"; "-O2"]%string None ["-Werror"; "x.o"; "asm.o"; "-lm"; "-o"; "prog"]%string).
Proof.
  split.
  - split; [cbn; intuition discriminate|]. intros pre a post E.
    do 4 (destruct pre as [|? pre]; [discriminate E|cbn in E; injection E as _ E]).
    destruct pre as [|? pre]; cbn in E.
    + injection E as <- <-. split; [cbn; intuition discriminate|]. split; [discriminate|]. intros X. apply object_iff in X. discriminate.
    + injection E as _ E. destruct pre as [|? [|? pre]]; discriminate E.
  - intros X. change link_arg with (R true) in X. apply skipped_iff in X. vm_compute in X. discriminate.
Qed.
Example C41_example_hybrid :
  wrapper C41_outside C40_env ["m.c"; "x.o"; "-o"; "prog"]%string =
  ([Run "gcc" ["gcc"; "m.c"; "x.o"; "-o"; "prog"]%string;
    Run "clang" ["clang"; "m.c"; "-o"; "prog.llw"; "-O1"; "-S"; "-emit-llvm"; "-g"]%string;
    Append "/tmp/wdb" ["o:/src/prog.llw"]%string], Ok 0%Z).
Proof. vm_compute. reflexivity. Qed.

(** Without further options clang gets an empty argument. *)
Theorem C41_empty_option_refuted : exists o args f argv,
  let env := seen (build_environment [] "/tmp/wdb" "clang" "llvm-link" None None) in
  then_runs o env args f argv /\ In ""%string argv /\ ~ In ""%string args.
Proof.
  exists C41_outside, ["-c"; "a.c"]%string, "clang"%string, ["clang"; "-c"; "a.c"; ""; "-S"; "-emit-llvm"; "-g"]%string.
  split; [eexists; eexists; vm_compute; reflexivity|]. split; [cbn; auto|]. cbn. intuition discriminate.
Qed.
Print Assumptions C41_empty_option_refuted.
(** With "gcc" on the drop list an argument is lost. *)
Theorem C41_gcc_dropped_refuted : exists o env clang link append drop args f argv,
  provided env "/tmp/wdb" clang link append drop /\ then_runs o env args f argv /\
  In "-c"%string args /\ ~ In "-c"%string drop /\ ~ In "-c"%string argv.
Proof.
  exists C41_outside, (mkWenv (Some "/tmp/wdb") (Some "clang") (Some "-O1") (Some "gcc") None (Some "llvm-link"))%string, "clang"%string, "llvm-link"%string, ["-O1"]%string, ["gcc"]%string,
    ["-c"; "a.c"]%string, "clang"%string, ["clang"; "a.c"; "-O1"; "-S"; "-emit-llvm"; "-g"]%string.
  split; [repeat split; eexists; split; reflexivity|]. split; [eexists; eexists; vm_compute; reflexivity|].
  cbn. intuition discriminate.
Qed.
Print Assumptions C41_gcc_dropped_refuted.

(** ** C75 The database of compiled files and the lookup of functions *)

(** A command with an output: a line is recorded iff the repeated command was run, succeeded
    and left the file; it has the kind "f" if llvm-link was run and "o" otherwise. *)
Theorem C75_recorded : forall o env db clang link append drop args ks f,
  provided env db clang link append drop -> native_status o args = 0%Z ->
  ~ In "gcc"%string drop -> clang <> link ->
  Kept_args drop None args ks ->
  output_is (if in_dec string_dec "-c"%string args then compile_arg else link_arg) ks f ->
  let p := path_join (o_cwd o) f in
  has_char ":" p = false ->
  forall line, In line (appended (fst (wrapper o env args))) <->
    exists c argv, In (Run c argv) (tl (fst (wrapper o env args))) /\ o_run o [native args] c argv = 0%Z /\
      o_exists o [Run c argv; native args] p = true /\
      line = ((if String.eqb c link then "f:" else "o:") ++ p)%string.
Proof.
  intros o env db clang link append drop args ks f P N G CL K OI p NC line. apply keep_iff in K as ->.
  assert (LO : last_output (negb (mem "-c"%string args)) (keep drop None args) None = Some f).
  { apply last_output_Some. destruct (in_dec string_dec "-c"%string args) as [I|I].
    - apply mem_In in I. rewrite I. exact OI.
    - assert (M : mem "-c"%string args = false) by (destruct (mem "-c"%string args) eqn:M; [apply mem_In in M; contradiction|reflexivity]). rewrite M. exact OI. }
  rewrite (wrapper_provided _ _ _ _ _ _ _ _ P). cbv zeta. fold (native args). fold (native_status o args). rewrite N. cbn [Z.eqb negb].
  set (st := analyse clang link drop args).
  assert (PO : p_output st = Some f) by (unfold st; rewrite (analyse_eq clang link drop args G); cbv zeta; cbn [p_output]; exact LO).
  destruct (skipped args (p_output st)); [unfold native; cbn; split; [tauto|intros (c & argv & [] & _)]|].
  destruct (clang_command (o_exists o [native args]) link append st) as [argv|e].
  2:{ unfold native; cbn. split; [tauto|intros (c & a & [] & _)]. }
  destruct (o_run o [native args] (p_clang st) argv =? 0)%Z eqn:RZ; cbn [negb].
  - apply Z.eqb_eq in RZ. unfold entries. rewrite PO.
    assert (EE : existing_entries (o_exists o [Run (p_clang st) argv; native args])
        [((if String.eqb (p_clang st) link then "f:" else "o:") ++ path_join (o_cwd o) f)%string] =
      Ok (if o_exists o [Run (p_clang st) argv; native args] p then [((if String.eqb (p_clang st) link then "f:" else "o:") ++ p)%string] else [])).
    { fold p. destruct (String.eqb (p_clang st) link).
      - exact (existing_entry _ "f" p eq_refl NC).
      - exact (existing_entry _ "o" p eq_refl NC). }
    rewrite EE. cbn [fst tl]. change (appended [native args; Run (p_clang st) argv; Append db (if o_exists o [Run (p_clang st) argv; native args] p then [((if String.eqb (p_clang st) link then "f:" else "o:") ++ p)%string] else [])])
      with ((if o_exists o [Run (p_clang st) argv; native args] p then [((if String.eqb (p_clang st) link then "f:" else "o:") ++ p)%string] else []) ++ []).
    rewrite app_nil_r. split.
    + destruct (o_exists o [Run (p_clang st) argv; native args] p) eqn:X; [|intros []]. intros [<-|[]]. exists (p_clang st), argv. cbn [In]. auto 6.
    + intros (c & a & [I|[I|[]]] & Z0 & X & ->); [|discriminate]. injection I as <- <-. rewrite X. left. reflexivity.
  - unfold native. cbn [fst tl appended flat_map app In]. fold (native args). split; [tauto|]. intros (c & a & [I|[]] & Z0 & _). injection I as <- <-. rewrite Z0 in RZ. discriminate.
Qed.
Print Assumptions C75_recorded.

(** Over a whole build: the lines appended by any number of commands, read back, give the
    recorded compiled files in the order of their recording, if their paths contain neither a
    colon nor a line end and do not end with white space. *)
Theorem C75_read_back : forall (runs : list (list action)) (l : list (string * string)),
  flat_map appended runs = map (fun kp => (fst kp ++ ":" ++ snd kp)%string) l ->
  Forall (fun kp => (fst kp = "o" \/ fst kp = "f")%string /\ recordable (snd kp)) l ->
  read_db (db_text (flat_map appended runs)) = Ok (map snd (filter (fun kp => String.eqb (fst kp) "o") l)).
Proof. intros runs l E F. rewrite E. apply (read_db_entries l F). Qed.
Print Assumptions C75_read_back.
(** Every line the wrapper appends has this form. *)
Theorem C75_lines : forall o env args line, In line (appended (fst (wrapper o env args))) ->
  exists k p, (k = "o" \/ k = "f")%string /\ line = (k ++ ":" ++ p)%string.
Proof.
  intros o env args line. unfold wrapper. destruct (we_db env) as [db|], (we_clang env) as [clang|], (we_append env) as [append|], (we_drop env) as [drop|], (we_link env) as [link|]; try (intros []).
  destruct (negb _); [intros []|]. cbv zeta. set (st := analyse clang link (split_char "," drop) args).
  destruct (skipped args (p_output st)); [intros []|]. destruct (clang_command _ _ _ st) as [argv|e]; [|intros []].
  destruct (negb _); [intros []|]. destruct (existing_entries _ _) as [lines|e] eqn:EE; [|intros []].
  cbn [fst appended flat_map app]. rewrite app_nil_r. intros I.
  assert (S : forall ex l acc out, fold_res (fun acc e => do p <- second_part ":" e; Ok (if ex p : bool then acc ++ [e] else acc)) acc l = Ok out ->
    forall x, In x out -> In x acc \/ In x l).
  { intros ex. induction l as [|e l IH]; intros acc out E x Ix; cbn [fold_res] in E.
    - injection E as <-. auto.
    - destruct (second_part ":" e) as [p|]; [|discriminate]. cbn [bind] in E. destruct (IH _ _ E x Ix) as [J|J]; [|right; right; exact J].
      destruct (ex p); [|auto]. apply in_app_or in J as [J|[<-|[]]]; [auto|]. right. left. reflexivity. }
  destruct (S _ _ _ _ EE line I) as [[]|J]. unfold entries in J. destruct (p_output st) as [f|].
  - destruct J as [<-|[]]. destruct (String.eqb (p_clang st) link); [exists "f"%string|exists "o"%string]; exists (path_join (o_cwd o) f); auto.
  - destruct (mem "-c"%string _); [|destruct J]. apply in_map_iff in J as (a & <- & _). exists "o"%string, (path_join (o_cwd o) (to_ll a)). auto.
Qed.
Print Assumptions C75_lines.

(** A path with a colon is not found again. *)
Theorem C75_colon_refuted : exists p, read_db (db_text ["o:" ++ p]%string) <> Ok [p].
Proof. exists "/src/a:b.ll"%string. vm_compute. discriminate. Qed.
Print Assumptions C75_colon_refuted.
(** A compilation without -o is not recorded, although its LLVM IR was made (the condition on
    the arguments is inverted: the sources are left out). *)
Theorem C75_default_output_refuted : exists o args,
  (forall acts, o_exists o acts "/src/a.ll" = true) /\
  wrapper o C40_env args = ([native args; Run "clang" ["clang"; "-c"; "a.c"; "-O1"; "-S"; "-emit-llvm"; "-g"]%string; Append "/tmp/wdb" []], Ok 0%Z) /\
  args = ["-c"; "a.c"]%string.
Proof.
  exists (mkOutside "/src" (fun _ _ _ => 0%Z) (fun _ f => String.eqb f "/src/a.ll" || String.eqb f "/src/a.c")), ["-c"; "a.c"]%string.
  split; [reflexivity|]. split; [vm_compute; reflexivity|reflexivity].
Qed.
Print Assumptions C75_default_output_refuted.

(** Lookup: every function is found in the last recorded file that defines it, and no other
    name is found. *)
Theorem C75_lookup : forall f db files d text,
  read_db db = Ok files -> build_finder f db = Ok (d, text) ->
  forall n file, dget d n = Some file <->
    exists pre post t, files = pre ++ file :: post /\ f file = Some t /\ defines t n /\
      forall file' t', In file' post -> f file' = Some t' -> ~ defines t' n.
Proof.
  intros f db files d text R B n file. unfold build_finder in B. rewrite R in B. cbn [bind] in B. rewrite functions_from_fold in B.
  pose proof (functions_fold f files []) as F. destruct (fold_res (functions_step f) [] files) as [d'|e]; [|discriminate]. cbn [bind] in B.
  injection B as -> _. destruct F as (_ & _ & F). rewrite F. cbn. split; [intros [H|[_ H]]; [exact H|discriminate]|auto].
Qed.
Print Assumptions C75_lookup.

(** It fails exactly if a recorded file is missing, with an AttributeError instead of the
    warning that was meant. *)
Theorem C75_missing_file : forall f db files, read_db db = Ok files ->
  ((exists file, In file files /\ f file = None) <-> build_finder f db = Err AttributeError) /\
  ((forall file, In file files -> f file <> None) <-> exists d text, build_finder f db = Ok (d, text)).
Proof.
  intros f db files R. unfold build_finder. rewrite R. cbn [bind]. rewrite functions_from_fold.
  pose proof (functions_fold f files []) as F. destruct (fold_res (functions_step f) [] files) as [d|e]; cbn [bind].
  - destruct F as (A & _). split; split.
    + intros (x & I & X). exfalso. exact (A x I X).
    + discriminate.
    + eauto.
    + intros _. exact A.
  - destruct F as (-> & x & I & X). split; split.
    + reflexivity.
    + eauto.
    + intros A. exfalso. exact (A x I X).
    + intros (d & t & E). discriminate.
Qed.
Print Assumptions C75_missing_file.

(** The written list, read as a list of symbols, names once each function found, without those
    whose names begin with a digit. *)
Theorem C75_function_list : forall f db d text, build_finder f db = Ok (d, text) ->
  NoDup (Compare_Model.read_symbol_list text) /\
  forall n, In n (Compare_Model.read_symbol_list text) <->
    ((exists file, dget d n = Some file) /\ forall c s, n = String c s -> is_digit c = false).
Proof.
  intros f db d text B. unfold build_finder in B. destruct (read_db db) as [files|]; [|discriminate]. cbn [bind] in B. rewrite functions_from_fold in B.
  pose proof (functions_fold f files []) as F. destruct (fold_res (functions_step f) [] files) as [d'|e]; [|discriminate]. cbn [bind] in B.
  injection B as -> <-. destruct F as (_ & ND & F). fold (names_text (dkeys d)).
  assert (W : Forall word (dkeys d)).
  { apply Forall_forall. intros n I. destruct (dget d n) as [file|] eqn:E; [|apply dget_None in E; contradiction].
    apply F in E as [(pre & post & t & _ & _ & D & _)|[_ E]]; [exact (defines_word _ _ D)|discriminate]. }
  rewrite (read_names _ W). split; [apply NoDup_filter, ND; constructor|]. intros n. rewrite filter_In, negb_true_iff. split.
  - intros [I B]. split.
    + destruct (dget d n) as [file|] eqn:E; [eauto|apply dget_None in E; contradiction].
    + intros c s ->. exact B.
  - intros [(file & E) B]. split; [eapply dget_Some_key; exact E|]. destruct n as [|c s]; [reflexivity|]. exact (B c s eq_refl).
Qed.
Print Assumptions C75_function_list.

Definition C75_files (p : string) : option string :=
  if String.eqb p "/src/a.ll" then Some ("declare void @h(i32)" ++ String nl ("define dso_local i32 @f(i32 %0) {" ++ String nl "define void @g() {"))%string
  else if String.eqb p "/src/b.ll" then Some "define i32 @f() {"%string else None.
Example C75_example :
  build_finder C75_files (db_text ["o:/src/a.ll"; "f:/src/prog.llw"; "o:/src/b.ll"]%string) =
  Ok ([("f"%string, "/src/b.ll"%string); ("g"%string, "/src/a.ll"%string)], ("f" ++ String nl ("g" ++ String nl ""))%string).
Proof. vm_compute. reflexivity. Qed.
Example C75_example_recordable : recordable "/src/a.ll".
Proof.
  repeat split. intros q c E. assert (X : PyBase.endswith (q ++ String c "") "l" = true) by (rewrite <- E; reflexivity).
  apply endswith_spec in X as (b & X). apply (snoc_char_inj q b c "l"%char) in X as [_ ->]. reflexivity.
Qed.
(** A function whose attributes contain another "@name(" on its line is not found under its
    name. *)
Theorem C75_definition_line_refuted : exists line, defines_line line "p" /\ ~ defines_line line "f" /\
  line = "define i32 @f() personality i32 (...)* @p(i32) {"%string.
Proof.
  exists "define i32 @f() personality i32 (...)* @p(i32) {"%string. split; [apply line_function_spec; reflexivity|]. split; [|reflexivity].
  intros X. apply line_function_spec in X. vm_compute in X. discriminate.
Qed.
Print Assumptions C75_definition_line_refuted.

(** ** C76 The options reach the wrapper *)

(** A wrapper run by the build sees the options of the command line: the compilers, and the
    lists of options to append and to drop element by element (the empty string if there are
    none), if no variable of the environment has one of the wrapper's names. *)
Theorem C76_options_reach_the_wrapper : forall os db clang link append drop, NoDup (dkeys os) ->
  (forall v, In v [var_db; var_clang; var_append; var_drop; var_link] -> ~ In v (dkeys os)) ->
  (forall l, append = Some l -> l <> [] /\ Forall (fun x => has_char "," x = false) l) ->
  (forall l, drop = Some l -> l <> [] /\ Forall (fun x => has_char "," x = false) l) ->
  provided (seen (build_environment os db clang link append drop)) db clang link
    (match append with Some l => l | None => [""%string] end)
    (match drop with Some l => l | None => [""%string] end).
Proof.
  intros os db clang link append drop ND NO A D.
  assert (G : forall v, In v [var_db; var_clang; var_append; var_drop; var_link] ->
    dget (build_environment os db clang link append drop) v = dget [(var_db, db); (var_clang, clang); (var_append, joined append); (var_drop, joined drop); (var_link, link)] v).
  { intros v I. unfold build_environment. rewrite (environ_get os _ v ND). apply NO, dget_None in I. rewrite I. reflexivity. }
  assert (J : forall x : option (list string), (forall l, x = Some l -> l <> [] /\ Forall (fun s => has_char "," s = false) l) ->
    (match x with Some l => l | None => [""%string] end) = split_char "," (joined x)).
  { intros [l|] H; [|reflexivity]. destruct (H l eq_refl) as [N F]. cbn [joined]. symmetry. exact (Syndiff_Proofs.split_join "," l N F). }
  unfold provided, seen. cbn [we_db we_clang we_append we_drop we_link]. rewrite !G by (cbn; tauto).
  split; [reflexivity|]. split; [reflexivity|]. split; [reflexivity|]. split; [exists (joined append)|exists (joined drop)]; (split; [reflexivity|apply J; assumption]).
Qed.
Print Assumptions C76_options_reach_the_wrapper.

(** A variable of the environment takes precedence over the options. *)
Theorem C76_environment_wins : forall os db clang link append drop v x, NoDup (dkeys os) ->
  dget os v = Some x -> dget (build_environment os db clang link append drop) v = Some x.
Proof. intros os db clang link append drop v x ND E. unfold build_environment. rewrite (environ_get os _ v ND), E. reflexivity. Qed.
Print Assumptions C76_environment_wins.
Theorem C76_option_wins_refuted : exists os, NoDup (dkeys os) /\
  we_clang (seen (build_environment os "/tmp/wdb" "clang-15" "llvm-link" None None)) = Some "clang-10"%string.
Proof. exists [(var_clang, "clang-10"%string)]. split; [constructor; [intros []|constructor]|reflexivity]. Qed.
Print Assumptions C76_option_wins_refuted.
(** An option containing a comma is split. *)
Theorem C76_comma_refuted : exists l,
  exists a, we_append (seen (build_environment [] "/tmp/wdb" "clang" "llvm-link" (Some l) None)) = Some a /\ split_char "," a <> l.
Proof. exists ["-Wl,-z"]%string, "-Wl,-z"%string. split; [reflexivity|]. vm_compute. discriminate. Qed.
Print Assumptions C76_comma_refuted.
Example C76_example :
  let env := seen (build_environment [("PATH"%string, "/bin"%string)] "/tmp/wdb" "clang" "llvm-link" (Some ["-O1"; "-w"]%string) None) in
  provided env "/tmp/wdb" "clang" "llvm-link" ["-O1"; "-w"]%string [""%string].
Proof. repeat split; eexists; split; reflexivity. Qed.

(** ** C77 config.log and the command to configure again *)

(** The cleaning of the project keeps config.log, whatever it does to it, if it leaves the
    backup; the same if the program was killed while cleaning and is started again. *)
Theorem C77_log_survives : forall clean c b,
  (forall s, l_bak (clean s) = l_bak s) ->
  clean_step clean (mkLogs (Some c) b) = mkLogs (Some c) None /\
  (l_log (clean (backup (mkLogs (Some c) b))) = None ->
     clean_step clean (clean (backup (mkLogs (Some c) b))) = mkLogs (Some c) None).
Proof.
  intros clean c b H. unfold clean_step. cbn [backup l_log].
  assert (E : forall s, l_bak s = Some c -> restore (clean s) = mkLogs (Some c) None) by (intros s X; unfold restore; rewrite H, X; reflexivity).
  split; [apply E; reflexivity|]. intros N. unfold backup at 1. rewrite N. apply E. rewrite H. reflexivity.
Qed.
Print Assumptions C77_log_survives.
(** Without a config.log and a left-over backup there is none afterwards, unless the cleaning
    makes one. *)
Theorem C77_no_log : forall clean, clean (mkLogs None None) = mkLogs None None -> clean_step clean (mkLogs None None) = mkLogs None None.
Proof. intros clean H. unfold clean_step. cbn [backup l_log]. rewrite H. reflexivity. Qed.
Print Assumptions C77_no_log.
(** A cleaning that makes no config.log of its own may be killed: the next one restores the original
    log, whatever a cleaning does to a config.log that it finds. *)
Theorem C77_killed_cleaning clean c b : (forall s, l_bak (clean s) = l_bak s) -> (forall s, l_log s = None -> l_log (clean s) = None) ->
  clean_step clean (clean (backup (mkLogs (Some c) b))) = mkLogs (Some c) None /\ clean_step clean (backup (mkLogs (Some c) b)) = mkLogs (Some c) None.
Proof.
  intros B L.
  assert (E : forall s, l_log s = None -> l_bak s = Some c -> clean_step clean s = mkLogs (Some c) None).
  { intros s H1 H2. unfold clean_step, backup. rewrite H1. unfold restore. rewrite B, H2. reflexivity. }
  split; apply E; cbn [backup l_log l_bak]; [apply L; reflexivity|rewrite B; reflexivity|reflexivity|reflexivity].
Qed.
Print Assumptions C77_killed_cleaning.
(** Such a cleaning, which would spoil a log that it finds. *)
Example C77_killed_cleaning_met : let clean := fun s => mkLogs (match l_log s with Some _ => Some "spoilt"%string | None => None end) (l_bak s) in
  (forall s, l_bak (clean s) = l_bak s) /\ (forall s, l_log s = None -> l_log (clean s) = None) /\ l_log (clean (mkLogs (Some "log"%string) None)) = Some "spoilt"%string.
Proof. cbv zeta. split; [reflexivity|]. split; [intros s H; cbn [l_log]; rewrite H; reflexivity|reflexivity]. Qed.
(** A config.log.bak of the user is lost. *)
Theorem C77_backup_of_the_user_refuted : exists clean c b,
  (forall s, clean s = s) /\ b <> c /\ l_bak (clean_step clean (mkLogs (Some c) (Some b))) <> Some b.
Proof. exists (fun s => s), "log"%string, "mine"%string. split; [reflexivity|]. split; discriminate. Qed.
Print Assumptions C77_backup_of_the_user_refuted.
(** If the killed cleaning had written a config.log, the original one is lost. *)
Theorem C77_killed_refuted : exists clean c,
  (forall s, l_bak (clean s) = l_bak s) /\
  clean_step clean (clean (backup (mkLogs (Some c) None))) <> mkLogs (Some c) None.
Proof. exists (fun s => mkLogs (Some "new"%string) (l_bak s)), "log"%string. split; [reflexivity|]. discriminate. Qed.
Print Assumptions C77_killed_refuted.
Example C77_example : clean_step (fun s => mkLogs None (l_bak s)) (mkLogs (Some "  $ ./configure"%string) None) = mkLogs (Some "  $ ./configure"%string) None.
Proof. reflexivity. Qed.

(** The line of the configure command: the first line with a dollar sign. *)
Definition configure_line (text line : string) : Prop :=
  exists pre post, readlines (universal text) = pre ++ line :: post /\
    Forall (fun x => has_char "$" x = false) pre /\ has_char "$" line = true.

(** The command is what follows the first "$ " of that line, with the setting of the compiler
    at its end; there is none if no line has a dollar sign or the setting is already there; it
    fails if the line has no "$ ". *)
Theorem C77_reconfigure : forall setting text line, configure_line text line ->
  (contains (strip line) setting = true -> reconfigure_command setting text = Ok None) /\
  (contains (strip line) setting = false ->
     (contains (strip line) "$ " = false -> reconfigure_command setting text = Err IndexError) /\
     forall a c, strip line = (a ++ "$ " ++ c)%string ->
       (forall a' c', strip line = (a' ++ "$ " ++ c')%string -> String.length a <= String.length a') ->
       reconfigure_command setting text = Ok (Some (c ++ " " ++ setting)%string)).
Proof.
  intros setting text line (pre & post & E & F & D). unfold reconfigure_command.
  assert (X : find_dollar (readlines (universal text)) = Some (strip line)) by (apply find_dollar_Some; exists pre, line, post; auto).
  rewrite X. split; intros C; rewrite C; [reflexivity|]. split.
  - intros N. apply split_once_None in N; [|discriminate]. rewrite N. reflexivity.
  - intros a c E2 M. assert (Y : split_once "$ " (strip line) = Some (a, c)) by (apply split_once_Some; [discriminate|split; assumption]). rewrite Y. reflexivity.
Qed.
Print Assumptions C77_reconfigure.
Theorem C77_no_configure_line : forall setting text,
  (forall line, ~ configure_line text line) -> reconfigure_command setting text = Ok None.
Proof.
  intros setting text N. unfold reconfigure_command. destruct (find_dollar _) as [cmd|] eqn:E; [|reflexivity]. exfalso.
  apply find_dollar_Some in E as (pre & l & post & E & F & D & _). apply (N l). exists pre, post. auto.
Qed.
Print Assumptions C77_no_configure_line.
(** A shell variable on an earlier line is taken for the command. *)
Theorem C77_earlier_dollar_refuted : exists text,
  contains text ("  $ ./configure --prefix=/usr") = true /\
  reconfigure_command "CC=""w""" text = Err IndexError.
Proof. exists ("uses $PATH" ++ String nl "  $ ./configure --prefix=/usr")%string. split; vm_compute; reflexivity. Qed.
Print Assumptions C77_earlier_dollar_refuted.
Example C77_example_command :
  reconfigure_command "CC=""w""" ("This file" ++ String nl ("  $ ./configure --prefix=/usr" ++ String nl "")) = Ok (Some "./configure --prefix=/usr CC=""w""")%string.
Proof. vm_compute. reflexivity. Qed.
