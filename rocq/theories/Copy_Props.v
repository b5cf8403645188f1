(** * Properties C124 to C126: the source files of a snapshot *)
From Coq Require Import String Ascii ZArith Arith Bool Lia List.
From Verif Require Import PyBase Path_Model Cache_Spec Cache_Proofs Output_Proofs Text_Spec Copy_Model Copy_Spec Copy_Text Copy_Files.
Import ListNotations.
Open Scope list_scope.

(** ** C124: which files are copied, and where to *)
Theorem C124_copied : forall cwd order dir target D T f modules g out,
  (forall l x, In x (order l) <-> In x l) -> usual cwd dir target D T f modules ->
  copy_source_files cwd order dir target f modules = Ok (g, out) ->
  copied cwd dir target D T f modules g out.
Proof.
  intros cwd order dir target D T f modules g out O U E.
  destruct (copy_spec cwd order O dir target D T (usual_dir _ _ _ _ _ _ _ U) (usual_target _ _ _ _ _ _ _ U) modules f [] g out U E) as (out1 & -> & C).
  exact C.
Qed.
Theorem C124_succeeds : forall cwd order dir target D T f modules,
  (forall l x, In x (order l) <-> In x l) -> usual cwd dir target D T f modules ->
  (forall m, In m modules -> content cwd f m <> None) -> (forall s, wanted cwd dir f modules s -> content cwd f s <> None) ->
  exists g out, copy_source_files cwd order dir target f modules = Ok (g, out).
Proof.
  intros cwd order dir target D T f modules O U. exact (copy_total cwd order O dir target D T (usual_dir _ _ _ _ _ _ _ U) (usual_target _ _ _ _ _ _ _ U) modules f [] U).
Qed.
(** One wanted file that does not exist and is not in the target stops the copying. *)
Theorem C124_missing : forall cwd order dir target D T f modules s r,
  (forall l x, In x (order l) <-> In x l) -> usual cwd dir target D T f modules ->
  wanted cwd dir f modules s -> at_place cwd D s r -> content cwd f s = None -> dget f (T ++ r) = None ->
  forall g out, copy_source_files cwd order dir target f modules <> Ok (g, out).
Proof.
  intros cwd order dir target D T f modules s r O U W P C N g out E. apply C124_copied with (D := D) (T := T) in E; try assumption.
  destruct (c_sources _ _ _ _ _ _ _ _ _ E s r W P) as [X Y]. rewrite N, C in X. congruence.
Qed.

Lemma within_Below d : forall p, within d p = true <-> Below d p.
Proof.
  unfold Below. induction d as [|x d IH]; intros p; cbn; [split; eauto|]. destruct p as [|y p].
  - split; [discriminate|intros (r & E); discriminate].
  - rewrite andb_true_iff, String.eqb_eq, IH. split.
    + intros (-> & r & ->). exists r. reflexivity.
    + intros (r & E). injection E as -> ->. split; [reflexivity|]. exists r. reflexivity.
Qed.
Lemma dget_filter (q : list string -> bool) (f : files) p : dget (filter (fun e => q (fst e)) f) p = if q p then dget f p else None.
Proof.
  induction f as [|[k v] f IH]; cbn; [destruct (q p); reflexivity|].
  destruct (q k) eqn:Q; cbn; destruct (list_eqb_spec p k) as [->|N]; try rewrite Q; auto.
  rewrite IH, Q. reflexivity.
Qed.
(** Making the output directory removes what was below it, and nothing else. *)
Theorem C124_setup : forall cwd f out,
  (dget f (abs_comps cwd out) <> None /\ setup_dir cwd f out = Err FileExistsError) \/
  (dget f (abs_comps cwd out) = None /\ exists g, setup_dir cwd f out = Ok g /\
     forall p, (Below (abs_comps cwd out) p -> dget g p = None) /\ (~ Below (abs_comps cwd out) p -> dget g p = dget f p)).
Proof.
  intros cwd f out. unfold setup_dir, dmem, place. destruct (dget f (abs_comps cwd out)) as [c|] eqn:E; [left; split; [discriminate|reflexivity]|right].
  split; [reflexivity|]. eexists. split; [reflexivity|]. intros p.
  rewrite (dget_filter (fun k => negb (within (abs_comps cwd out) k)) f p). rewrite <- within_Below.
  destruct (within _ p); cbn; split; intros H; congruence.
Qed.

(** *** A case that meets the hypotheses *)
Definition q : string := String mark "".
Definition nl : string := String line_end "".
Definition debug_line (n f d : string) : string := (n ++ " = !DIFile(filename: " ++ q ++ f ++ q ++ ", directory: " ++ q ++ d ++ q ++ ")" ++ nl)%string.
Definition ex_text : string :=
  ("source_filename = " ++ q ++ "/a/src/m.c" ++ q ++ nl ++
   debug_line "!1" "m.c" "/a/src" ++ debug_line "!2" "inc/x.h" "/a/src" ++ debug_line "!3" "/usr/include/stdio.h" "/a/src")%string.
Definition ex_files : files :=
  [(["a"; "src"; "m.ll"]%string, ex_text); (["a"; "src"; "m.c"]%string, "int f();"%string); (["a"; "src"; "inc"; "x.h"]%string, "extern int x;"%string);
   (["usr"; "include"; "stdio.h"]%string, "extern int printf();"%string)].
Lemma ex_wanted s : wanted "/" "/a/src" ex_files ["/a/src/m.ll"%string] s -> s = "/a/src/m.c"%string \/ s = "/a/src/inc/x.h"%string.
Proof.
  intros (S & m & t & [<-|[]] & C & I). vm_compute in C. injection C as <-. apply included_spec in I. vm_compute in I.
  destruct I as [<-|[<-|[<-|[]]]]; [left; reflexivity|right; reflexivity|discriminate S].
Qed.
Ltac plain := split; [reflexivity|]; split; [discriminate|]; repeat constructor; discriminate.
Example C124_met : usual "/" "/a/src" "/out" ["a"; "src"]%string ["out"]%string ex_files ["/a/src/m.ll"%string] /\
  exists g, copy_source_files "/" (fun l => l) "/a/src" "/out" ex_files ["/a/src/m.ll"%string] = Ok (g, ["/out/m.ll"%string])
    /\ dget g ["out"; "m.c"]%string = Some "int f();"%string /\ dget g ["out"; "inc"; "x.h"]%string = Some "extern int x;"%string
    /\ dget g ["out"; "usr"; "include"; "stdio.h"]%string = None
    /\ dget g ["out"; "m.ll"]%string = Some ("source_filename = " ++ q ++ "/out/m.c" ++ q ++ nl ++
         debug_line "!1" "m.c" "/out" ++ debug_line "!2" "inc/x.h" "/out" ++ debug_line "!3" "/usr/include/stdio.h" "/out")%string.
Proof.
  split.
  - split.
    + plain.
    + plain.
    + intros m [<-|[]]. split; [reflexivity|]. exists ["m.ll"%string]. reflexivity.
    + intros s W. destruct (ex_wanted s W) as [-> | ->]; [exists ["m.c"]%string|exists ["inc"; "x.h"]%string]; reflexivity.
    + intros p [[<-|[]]|W] r E; [discriminate E|]. destruct (ex_wanted p W) as [-> | ->]; discriminate E.
    + repeat constructor. intros [].
    + intros m s [<-|[]] W. destruct (ex_wanted s W) as [-> | ->]; discriminate.
  - eexists. split; [vm_compute; reflexivity|]. vm_compute. repeat split; reflexivity.
Qed.

(** *** What does not hold *)
(** A source next to the directory whose path begins with the same characters is copied out of the target. *)
Theorem C124_prefix_refuted : exists f g out, setup_dir "/" f "/b/out" = Ok f /\
  copy_source_files "/" (fun l => l) "/a/src" "/b/out" f ["/a/src/m.ll"%string] = Ok (g, out) /\
  exists p, ~ Below ["b"; "out"]%string p /\ dget f p = None /\ dget g p = Some "int y;"%string.
Proof.
  exists [(["a"; "src"; "m.ll"]%string, debug_line "!1" "y.h" "/a/src2"); (["a"; "src2"; "y.h"]%string, "int y;"%string)].
  eexists. eexists. split; [reflexivity|]. split; [vm_compute; reflexivity|]. exists ["b"; "src2"; "y.h"]%string.
  split; [intros (r & E); discriminate E|]. split; reflexivity.
Qed.
(** A source named by a path relative to the working directory is not copied, although it is in the directory. *)
Theorem C124_relative_refuted : exists f m text s, dget f (abs_comps "/a/src" m) = Some text /\ Included text s /\
  (exists r, abs_comps "/a/src" s = ["a"; "src"]%string ++ r) /\ dget f (abs_comps "/a/src" s) <> None /\
  exists g out, copy_source_files "/a/src" (fun l => l) "/a/src" "/out" f [m] = Ok (g, out) /\ dget g ["out"; "x.h"]%string = None.
Proof.
  exists [(["a"; "src"; "m.ll"]%string, debug_line "!1" "x.h" "."); (["a"; "src"; "x.h"]%string, "int x;"%string)], "/a/src/m.ll"%string, (debug_line "!1" "x.h" "."), "./x.h"%string.
  split; [reflexivity|]. split; [apply included_spec; vm_compute; auto|]. split; [exists ["x.h"%string]; reflexivity|]. split; [discriminate|].
  eexists. eexists. split; [vm_compute; reflexivity|]. reflexivity.
Qed.
(** A header that has been deleted since the build stops the copying. *)
Theorem C124_missing_refuted : exists f, setup_dir "/" f "/out" = Ok f /\ dget f ["a"; "src"; "m.ll"]%string <> None /\
  copy_source_files "/" (fun l => l) "/a/src" "/out" f ["/a/src/m.ll"%string] = Err FileNotFoundError.
Proof.
  exists [(["a"; "src"; "m.ll"]%string, debug_line "!1" "gen.h" "/a/src")]. split; [reflexivity|]. split; [discriminate|]. vm_compute. reflexivity.
Qed.
(** With the source directory as output, the sources are removed before they are copied. *)
Theorem C124_same_refuted : exists f g, setup_dir "/" f "/a/src" = Ok g /\
  dget f ["a"; "src"; "m.ll"]%string <> None /\ dget g ["a"; "src"; "m.ll"]%string = None /\
  copy_source_files "/" (fun l => l) "/a/src" "/a/src" g ["/a/src/m.ll"%string] = Err FileNotFoundError.
Proof. exists ex_files. eexists. split; [reflexivity|]. split; [discriminate|]. split; vm_compute; reflexivity. Qed.
(** Without that, a module is emptied. *)
Theorem C124_emptied_refuted : exists f g out,
  copy_source_files "/" (fun l => l) "/a/src" "/a/src" f ["/a/src/m.ll"%string] = Ok (g, out) /\
  dget f ["a"; "src"; "m.ll"]%string = Some ex_text /\ dget g ["a"; "src"; "m.ll"]%string = Some ""%string.
Proof. exists ex_files. eexists. eexists. split; [vm_compute; reflexivity|]. split; vm_compute; reflexivity. Qed.

(** ** C125: the text of a copied module *)
Theorem C125_moved : forall old O new N text, normal_path old O -> normal_path new N ->
  Moved (join "/" O) (join "/" N) text (moved_text old new text).
Proof. intros old O new N text HO HN. apply moved_spec; assumption. Qed.
(** There is one such text. *)
Theorem C125_unique : forall old new text a b, old <> ""%string -> Moved old new text a -> Moved old new text b -> a = b.
Proof.
  intros old new text a b N (ls & ls1 & L & F & ->) (ls' & ls2 & L' & F' & ->).
  rewrite <- (lines_unique _ _ L) in F. rewrite <- (lines_unique _ _ L') in F'. f_equal. clear L L'.
  revert ls2 F'. induction F as [|x y xs ys H F IH]; intros zs F'; inversion F' as [|? z ? zs' H' F'']; subst; [reflexivity|].
  f_equal; [|apply IH; assumption].
  destruct H as [[C ->]|[C R]], H' as [[C' ->]|[C' R']]; try tauto. exact (Replaced_fun old new x y z N R R').
Qed.
Lemma sapp_assoc (a b c : string) : ((a ++ b) ++ c = a ++ (b ++ c))%string.
Proof. induction a as [|x a IH]; cbn; [reflexivity|rewrite IH; reflexivity]. Qed.
Lemma Replaced_none old new s : ~ Occurs old s -> Replaced old new s s.
Proof.
  induction s as [|c s IH]; intros N; [constructor|]. apply Replaced_miss.
  - intros t E. apply N. exists ""%string, t. exact E.
  - apply IH. intros (a & b & ->). apply N. exists (String c a), b. reflexivity.
Qed.
Lemma Lines_concat s ls : Lines s ls -> String.concat "" ls = s.
Proof.
  induction 1 as [|s N E|l s ls N L IH]; [reflexivity|reflexivity|].
  destruct ls as [|k ls].
  - cbn [String.concat]. inversion L. reflexivity.
  - cbn [String.concat] in *. rewrite IH. cbn [append]. rewrite sapp_assoc. reflexivity.
Qed.
Lemma Lines_part s ls l : Lines s ls -> In l ls -> Occurs l s.
Proof.
  induction 1 as [|s N E|k s ls N L IH]; intros I; [destruct I| |].
  - destruct I as [<-|[]]. exists ""%string, ""%string. cbn [append]. clear. induction s as [|c s IH]; [reflexivity|]. cbn [append]. rewrite <- IH. reflexivity.
  - destruct I as [<-|I].
    + exists ""%string, s. cbn [append]. rewrite sapp_assoc. reflexivity.
    + destruct (IH I) as (a & b & ->). exists (k ++ String line_end a)%string, b. rewrite sapp_assoc. reflexivity.
Qed.
(** A module in which the path of the directory does not occur is copied as it is. *)
Theorem C125_kept : forall old O new N text, normal_path old O -> normal_path new N ->
  ~ Occurs (join "/" O) text -> moved_text old new text = text.
Proof.
  intros old O new N text HO HN NO. apply (C125_unique (join "/" O) (join "/" N) text).
  - destruct HO as (_ & A & B). apply Copy_Text.join_nonempty; assumption.
  - apply C125_moved; assumption.
  - exists (lines text), (lines text). split; [apply lines_spec|]. split; [|symmetry; apply Lines_concat, lines_spec].
    assert (H : forall l, In l (lines text) -> Moved_line (join "/" O) (join "/" N) l l).
    { intros l I. destruct (contains l "constant") eqn:C; [left; split; [apply contains_spec in C; exact C|reflexivity]|right].
      split; [intros X; apply contains_spec in X; congruence|]. apply Replaced_none. intros (a & b & ->).
      destruct (Lines_part _ _ _ (lines_spec text) I) as (a' & b' & E). apply NO. exists (a' ++ a)%string, (b ++ b')%string.
      rewrite E, !sapp_assoc. reflexivity. }
    revert H. generalize (lines text). clear. intros ls. induction ls as [|l ls IH]; intros H; constructor; [apply H; left; reflexivity|].
    apply IH. intros k I. apply H. right. exact I.
Qed.
(** A line without the word constant in which the path of the directory occurs once names the target instead. *)
Theorem C125_path : forall old new a b, old <> ""%string ->
  ~ Occurs "constant" (a ++ old ++ b) -> (forall a' b', (a ++ old ++ b = a' ++ old ++ b')%string -> a' = a) ->
  forall c, Moved_line old new (a ++ old ++ b) c <-> c = (a ++ new ++ b)%string.
Proof.
  intros old new a b N C U c.
  assert (R : Replaced old new (a ++ old ++ b) (a ++ new ++ b)).
  { clear C. induction a as [|x a IH].
    - cbn [append]. apply Replaced_hit, Replaced_none. intros (a & b' & ->).
      specialize (U (old ++ a)%string b'). cbn [append] in U. rewrite sapp_assoc in U. specialize (U eq_refl). destruct old; [congruence|discriminate U].
    - cbn [append]. apply Replaced_miss.
      + intros t E. specialize (U ""%string t E). discriminate U.
      + apply IH. intros a' b' E. specialize (U (String x a') b'). cbn [append] in U. rewrite E in U. specialize (U eq_refl). congruence. }
  split.
  - intros [[X _]|[_ R']]; [contradiction|]. exact (Replaced_fun _ _ _ _ _ N R' R).
  - intros ->. right. auto.
Qed.
Example C125_met :
  moved_text "/a/src" "/out" (debug_line "!1" "m.c" "/a/src") = debug_line "!1" "m.c" "/out" /\
  (~ Occurs "constant" (("!1 = !DIFile(filename: " ++ q ++ "m.c" ++ q ++ ", directory: " ++ q ++ "/") ++ "a/src" ++ q ++ ")"))%string.
Proof. split; [vm_compute; reflexivity|]. intros X. apply contains_spec in X. vm_compute in X. discriminate X. Qed.

(** *** What does not hold: other text is changed, too, and some paths are not *)
Theorem C125_names_refuted : exists text, ~ Occurs "/src" text /\ moved_text "/src" "/snapshot" text <> text.
Proof.
  exists "  %src = load i32, ptr %src.addr"%string. split; [|vm_compute; discriminate].
  intros X. apply contains_spec in X. vm_compute in X. discriminate X.
Qed.
Theorem C125_elsewhere_refuted : exists d d', moved_text "/a/src" "/out" (debug_line "!1" "x.h" d) = debug_line "!1" "x.h" d' /\
  ~ Below ["a"; "src"]%string (abs_comps "/" d) /\ d' <> d.
Proof.
  exists "/b/a/src"%string, "/b/out"%string. split; [vm_compute; reflexivity|]. split; [|discriminate]. intros (r & E). vm_compute in E. discriminate E.
Qed.
Theorem C125_constant_refuted : exists d, Below ["a"; "src"]%string (abs_comps "/" d) /\
  moved_text "/a/src" "/out" (debug_line "!1" "x.h" d) = debug_line "!1" "x.h" d.
Proof. exists "/a/src/constants"%string. split; [exists ["constants"%string]; reflexivity|vm_compute; reflexivity]. Qed.
Theorem C125_root_refuted : moved_text "/" "/out" "ret" = "outrouteouttout"%string.
Proof. vm_compute. reflexivity. Qed.

(** ** C126: the sources that are named in a module *)
Theorem C126_sources : forall text p, In p (included_sources text) <-> Included text p.
Proof. exact included_spec. Qed.
Theorem C126_once : forall text, NoDup (included_sources text).
Proof. intros text. apply dedup_NoDup. Qed.
Example C126_met : included_sources ex_text = ["/a/src/m.c"; "/a/src/inc/x.h"; "/usr/include/stdio.h"]%string /\
  Included ex_text "/a/src/inc/x.h".
Proof. split; [vm_compute; reflexivity|]. apply included_spec. vm_compute. auto. Qed.
(** Files of other kinds are not found, nor is a second one of a line. *)
Theorem C126_kinds_refuted : included_sources (debug_line "!1" "table.inc" "/a/src") = [] /\ included_sources (debug_line "!1" "entry.S" "/a/src") = [].
Proof. split; vm_compute; reflexivity. Qed.
Theorem C126_first_refuted : exists line, included_sources line = ["/a/x.h"%string] /\
  exists a b, line = (a ++ b)%string /\ Named_here b "y.h" "/a".
Proof.
  exists ("filename: " ++ q ++ "x.h" ++ q ++ ", directory: " ++ q ++ "/a" ++ q ++ " filename: " ++ q ++ "y.h" ++ q ++ ", directory: " ++ q ++ "/a" ++ q)%string.
  split; [vm_compute; reflexivity|].
  exists ("filename: " ++ q ++ "x.h" ++ q ++ ", directory: " ++ q ++ "/a" ++ q ++ " ")%string,
    ("filename: " ++ q ++ "y.h" ++ q ++ ", directory: " ++ q ++ "/a" ++ q)%string.
  split; [reflexivity|]. exists " "%string, " "%string, ""%string. split; [reflexivity|].
  repeat split; try (repeat constructor; discriminate); repeat constructor.
Qed.

Print Assumptions C124_copied.
Print Assumptions C124_succeeds.
Print Assumptions C124_missing.
Print Assumptions C124_setup.
Print Assumptions C124_met.
Print Assumptions C124_prefix_refuted.
Print Assumptions C124_relative_refuted.
Print Assumptions C124_missing_refuted.
Print Assumptions C124_same_refuted.
Print Assumptions C124_emptied_refuted.
Print Assumptions C125_moved.
Print Assumptions C125_unique.
Print Assumptions C125_kept.
Print Assumptions C125_path.
Print Assumptions C125_met.
Print Assumptions C125_names_refuted.
Print Assumptions C125_elsewhere_refuted.
Print Assumptions C125_constant_refuted.
Print Assumptions C125_root_refuted.
Print Assumptions C126_sources.
Print Assumptions C126_once.
Print Assumptions C126_met.
Print Assumptions C126_kinds_refuted.
Print Assumptions C126_first_refuted.
