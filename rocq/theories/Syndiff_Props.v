(** * Properties of the syntactic differences (C37, C38, C39) *)
From Coq Require Import String Ascii ZArith Arith Bool Lia DecimalString List.
From Verif Require Import PyBase Result_Model Graph_Spec Cache_Proofs Syndiff_Model Syndiff_Spec Syndiff_Proofs.
Import ListNotations.
Open Scope list_scope.
Local Arguments Ascii.eqb : simpl never.

(** ** C37 End-line detection *)

(** For a start line inside the file the first closing line from there on is found, and
    EndLineNotFound is raised iff there is none. *)
Theorem C37_first_closing_line : forall f file lines start kind,
  file_lines f file = Ok lines -> kind = "function"%string \/ kind = "type"%string -> (1 <= start <= zlen lines)%Z ->
  exists r, terminates_with (fun n => get_end_line n f file start kind) r /\
    ((exists m l, r = Ok m /\ (start <= m)%Z /\ line_at lines m l /\ closes kind l /\
        forall k x, (start <= k < m)%Z -> line_at lines k x -> ~ closes kind x) \/
     (r = Err EndLineNotFound /\ forall k x, (start <= k)%Z -> line_at lines k x -> ~ closes kind x)).
Proof.
  intros f file lines start kind FL K B. destruct (line_at_exists lines start B) as [l0 A].
  assert (T : exists terms, terminators kind = Some terms) by (destruct K as [-> | ->]; eexists; reflexivity).
  destruct T as [terms T].
  destruct (end_loop_some terms lines (S (Z.to_nat (zlen lines - start))) start l0) as [r R]; [lia|].
  exists r. split.
  - exists (S (Z.to_nat (zlen lines - start))). intros m L. unfold get_end_line. rewrite FL, (py_nth_line _ _ _ A), T. apply R. lia.
  - specialize (R _ (le_n _)). destruct (end_loop_spec kind terms lines T (S (Z.to_nat (zlen lines - start))) start l0 A ltac:(lia))
      as [(m & l & E & Q)|[E Q]]; rewrite R in E; injection E as ->; [left; exists m, l; auto|right; auto].
Qed.
Print Assumptions C37_first_closing_line.

(** It terminates on every file, start and kind. *)
Theorem C37_terminates : forall f file start kind, terminates (fun n => get_end_line n f file start kind).
Proof.
  intros f file start kind. unfold get_end_line, terminates, terminates_with.
  destruct (file_lines f file) as [lines|e]; [|exists (Err e), 0%nat; auto].
  destruct (py_nth lines (start - 1)) as [l|e]; [|exists (Err e), 0%nat; auto].
  destruct (terminators kind) as [terms|]; [|exists (Err NameError), 0%nat; auto].
  destruct (end_loop_some terms lines (S (Z.to_nat (zlen lines - start))) start l) as [r R]; [lia|].
  exists r, (S (Z.to_nat (zlen lines - start))). intros m L. apply R. lia.
Qed.
Print Assumptions C37_terminates.

(** The failures: an unreadable file, a start line behind the end of the file (IndexError,
    which the callers do not handle), any other kind such as macro (NameError). *)
Theorem C37_failures : forall f file start kind,
  (forall e, file_lines f file = Err e -> terminates_with (fun n => get_end_line n f file start kind) (Err e)) /\
  (forall lines, file_lines f file = Ok lines -> (zlen lines < start)%Z ->
     terminates_with (fun n => get_end_line n f file start kind) (Err IndexError)) /\
  (forall lines, file_lines f file = Ok lines -> (1 <= start <= zlen lines)%Z ->
     kind <> "function"%string -> kind <> "type"%string ->
     terminates_with (fun n => get_end_line n f file start kind) (Err NameError)).
Proof.
  intros f file start kind. unfold terminates_with, get_end_line. split; [|split].
  - intros e ->. exists 0%nat. auto.
  - intros lines -> L. exists 0%nat. intros m _. unfold py_nth. unfold zlen in *.
    destruct (Z.ltb_spec (start - 1) 0); [lia|]. destruct (Z.ltb_spec (start - 1) 0); [lia|].
    destruct (nth_error lines (Z.to_nat (start - 1))) as [x|] eqn:E; [|reflexivity].
    assert (N : nth_error lines (Z.to_nat (start - 1)) <> None) by congruence. apply nth_error_Some in N. lia.
  - intros lines -> B N1 N2. exists 0%nat. intros m _. destruct (line_at_exists lines start B) as [l A].
    rewrite (py_nth_line _ _ _ A). unfold terminators. destruct (String.eqb_spec kind "function"); [contradiction|].
    destruct (String.eqb_spec kind "type"); [contradiction|]. reflexivity.
Qed.
Print Assumptions C37_failures.

(** The lines of a file: LF, CR LF and CR end one. *)
Lemma universal_plain l t : plain l -> universal (l ++ t) = (l ++ universal t)%string.
Proof.
  intros [_ P]. induction l as [|c l IH]; [reflexivity|]. cbn [has_char] in P. apply orb_false_iff in P as [E P]. cbn [append universal]. rewrite Ascii.eqb_sym, E, (IH P). reflexivity.
Qed.
Lemma readlines_plain l t : plain l -> readlines (l ++ String nl t) = (l ++ String nl "")%string :: readlines t.
Proof.
  intros [P _]. induction l as [|c l IH]; [reflexivity|]. cbn [has_char] in P. apply orb_false_iff in P as [E P]. cbn [append readlines]. rewrite Ascii.eqb_sym, E, (IH P). reflexivity.
Qed.
Lemma readlines_last l : plain l -> l <> ""%string -> readlines l = [l].
Proof.
  intros [P _] N. assert (G : readlines l = match l with EmptyString => [] | _ => [l] end).
  { clear N. induction l as [|c l IH]; [reflexivity|]. cbn [has_char] in P. apply orb_false_iff in P as [E P]. cbn [readlines]. rewrite Ascii.eqb_sym, E, (IH P). destruct l; reflexivity. }
  rewrite G. destruct l; [destruct (N eq_refl)|reflexivity].
Qed.
Theorem C37_lines : forall f file s ls, f file = Ok s -> Lines s ls -> file_lines f file = Ok ls.
Proof.
  intros f file s ls E L. unfold file_lines. rewrite E. f_equal. clear E. induction L as [|l P N|l t ls P L IH|l t ls P L IH|l t ls P N L IH].
  - reflexivity.
  - rewrite universal_id by apply P. apply readlines_last; assumption.
  - rewrite universal_plain by exact P. cbn [universal]. change (Ascii.eqb nl cr) with false. cbv iota. rewrite readlines_plain by exact P. congruence.
  - rewrite universal_plain by exact P. cbn [universal]. change (Ascii.eqb cr cr) with true. cbv iota. change (Ascii.eqb nl nl) with true. cbv iota. rewrite readlines_plain by exact P. congruence.
  - rewrite universal_plain by exact P. cbn [universal]. change (Ascii.eqb cr cr) with true. cbv iota.
    assert (U : match t with | "" => String nl "" | String d s'' => if Ascii.eqb d nl then String nl (universal s'') else String nl (universal t) end%string = String nl (universal t)).
    { destruct t as [|d t]; [reflexivity|]. destruct (Ascii.eqb_spec d nl) as [->|]; [destruct (N t eq_refl)|reflexivity]. }
    rewrite U, readlines_plain by exact P. congruence.
Qed.
Print Assumptions C37_lines.
Theorem C37_lines_exist : forall s, exists ls, Lines s ls.
Proof.
  intros s. remember (String.length s) as n eqn:E. revert s E. induction n as [n IH] using lt_wf_ind. intros s E.
  assert (C : plain s \/ exists l c t, s = (l ++ String c t)%string /\ plain l /\ (c = nl \/ c = cr)).
  { clear. induction s as [|c s IH]; [left; split; reflexivity|]. destruct (Ascii.eqb_spec c nl) as [->|N1]; [right; exists ""%string, nl, s; split; [reflexivity|split; [split; reflexivity|auto]]|].
    destruct (Ascii.eqb_spec c cr) as [->|N2]; [right; exists ""%string, cr, s; split; [reflexivity|split; [split; reflexivity|auto]]|].
    assert (P : forall l, plain l -> plain (String c l)). { intros l [A B]. apply not_eq_sym in N1, N2. apply Ascii.eqb_neq in N1, N2. split; cbn [has_char]; [rewrite N1|rewrite N2]; assumption. }
    destruct IH as [H|(l & d & t & -> & H & D)]; [left; auto|right; exists (String c l), d, t; split; [reflexivity|split; [auto|exact D]]]. }
  assert (LEN : forall l t : string, String.length (l ++ t) = String.length l + String.length t) by (induction l; cbn; auto).
  destruct C as [P|(l & c & t & -> & P & [-> | ->])].
  - destruct s as [|c s]; [exists []; constructor|exists [String c s]; constructor; [exact P|discriminate]].
  - destruct (IH (String.length t) ltac:(rewrite LEN in E; cbn in E; lia) t eq_refl) as (ls & L). eexists. apply ln_lf; eassumption.
  - destruct t as [|d t]; [eexists; apply ln_cr; [exact P|discriminate|constructor]|]. destruct (Ascii.eqb_spec d nl) as [->|N].
    + destruct (IH (String.length t) ltac:(rewrite LEN in E; cbn in E; lia) t eq_refl) as (ls & L). eexists. apply ln_crlf; eassumption.
    + destruct (IH (String.length (String d t)) ltac:(rewrite LEN in E; cbn in E |- *; lia) (String d t) eq_refl) as (ls & L). eexists. apply ln_cr; [exact P|intros u X; congruence|exact L].
Qed.
Print Assumptions C37_lines_exist.

(** For start line 0 (no debug information) the search starts at the last line of the file,
    and the answer may be line 0. *)
Theorem C37_line_zero_refuted : exists f file lines,
  file_lines f file = Ok lines /\
  terminates_with (fun n => get_end_line n f file 0 "function") (Ok 0%Z).
Proof.
  exists (fun _ => Ok ("f(){" ++ String nl ("}" ++ String nl ""))%string), "f.c"%string. eexists. split; [reflexivity|].
  exists 3%nat. intros m L. do 3 (destruct m as [|m]; [lia|]). vm_compute. reflexivity.
Qed.
Print Assumptions C37_line_zero_refuted.

Example C37_example :
  let f : fs := fun _ => Ok ("int f() {" ++ String nl ("  g();" ++ String cr (String nl ("} " ++ String nl ("}" ++ String nl "")))))%string in
  file_lines f "a.c" = Ok ["int f() {" ++ String nl ""; "  g();" ++ String nl ""; "} " ++ String nl ""; "}" ++ String nl ""]%string /\
  terminates_with (fun n => get_end_line n f "a.c" 1 "function") (Ok 3%Z) /\
  terminates_with (fun n => get_end_line n f "a.c" 1 "type") (Err EndLineNotFound).
Proof.
  cbv zeta. split; [reflexivity|]. split; exists 10%nat; intros m L; do 10 (destruct m as [|m]; [lia|]); vm_compute; reflexivity.
Qed.

(** ** C38 Extracted code *)
Theorem C38_exactly_the_lines : forall f file lines start end_ t,
  file_lines f file = Ok lines -> (1 <= start)%Z -> (0 <= end_)%Z -> extract_code f file start end_ = Ok t ->
  forall i l, line_at (readlines t) i l <-> (1 <= i)%Z /\ (start + i - 1 <= end_)%Z /\ line_at lines (start + i - 1) l.
Proof. intros f file lines start end_ t FL S E X. apply (extract_spec _ _ _ _ _ _ FL S E X). Qed.
Print Assumptions C38_exactly_the_lines.

(** Nothing else is written, and extraction succeeds iff the file can be read. *)
Theorem C38_nothing_else : forall f file lines start end_ t,
  file_lines f file = Ok lines -> (1 <= start)%Z -> (0 <= end_)%Z -> extract_code f file start end_ = Ok t ->
  t = String.concat "" (readlines t) /\ has_char cr t = false.
Proof.
  intros f file lines start end_ t FL S E X. split; [symmetry; apply concat_readlines|].
  destruct (extract_spec _ _ _ _ _ _ FL S E X) as (_ & U & _). rewrite <- U. apply universal_no_cr.
Qed.
Print Assumptions C38_nothing_else.
Theorem C38_fails_iff_unreadable : forall f file start end_ e,
  extract_code f file start end_ = Err e <-> f file = Err e.
Proof.
  intros f file start end_ e. unfold extract_code, file_lines. destruct (f file); split; intros H; try discriminate; exact H || congruence.
Qed.
Print Assumptions C38_fails_iff_unreadable.
(** For start line 0 the code is lost (or the last line alone is taken). *)
Theorem C38_line_zero_refuted : exists f file,
  extract_code f file 0 2 = Ok ""%string /\ (exists t, t <> ""%string /\ extract_code f file 1 2 = Ok t) /\
  extract_code f file 0 3 = extract_code f file 3 3.
Proof.
  exists (fun _ => Ok ("f(){" ++ String nl ("g();" ++ String nl ("}" ++ String nl "")))%string), "f.c"%string.
  split; [reflexivity|]. split; [|reflexivity]. eexists. split; [|reflexivity]. discriminate.
Qed.
Print Assumptions C38_line_zero_refuted.

Example C38_example :
  let f : fs := fun _ => Ok ("a" ++ String nl ("b" ++ String nl ("c" ++ String nl "d")))%string in
  extract_code f "x" 2 3 = Ok ("b" ++ String nl ("c" ++ String nl ""))%string /\ extract_code f "x" 4 9 = Ok "d"%string.
Proof. vm_compute. auto. Qed.

(** ** C39 Line numbers of differences *)

(** A diff utility for examples: one hunk that removes everything and adds everything. *)
Definition all_lines (m : mark) (a : string) : list dline := map (fun l => Line m (chomp l)) (readlines a).
Definition whole_tool : difftool := fun opt a b =>
  if String.eqb a b then (0%Z, Ok ""%string)
  else (1%Z, Ok (
    if String.eqb opt "-C" then
      print_cdiff (mkCdiff "*** 1" "--- 2" [mkChunk (mkRange 1 (Some (zlen (readlines a)))) (all_lines Removed a)
                                                    (mkRange 1 (Some (zlen (readlines b)))) (all_lines Added b)])
    else
      print_udiff (mkUdiff "1" "2" [mkHunk (mkRange 1 (Some (zlen (readlines a)))) (mkRange 1 (Some (zlen (readlines b))))
                                           (all_lines Removed a ++ all_lines Added b)]))).
Lemma source_all m a : source_lines (all_lines m a) = map chomp (readlines a).
Proof. unfold source_lines, all_lines. induction (readlines a) as [|l ls IH]; [reflexivity|]. cbn. rewrite IH. reflexivity. Qed.
Lemma lines_from_all a : lines_from (readlines a) 1 (map chomp (readlines a)).
Proof.
  intros i t E. rewrite nth_error_map in E. destruct (nth_error (readlines a) i) as [l|] eqn:L; [|discriminate].
  injection E as <-. exists l. split; [|reflexivity]. split; [lia|]. replace (Z.to_nat (1 + Z.of_nat i - 1)) with i by lia. exact L.
Qed.
Lemma whole_context : context_tool whole_tool.
Proof.
  intros a b. unfold whole_tool. destruct (String.eqb_spec a b) as [E|N]; [left; auto|]. right. split; [exact N|].
  change (String.eqb "-C" "-C") with true. cbv iota. eexists. split; [reflexivity|]. split; [discriminate|].
  split; [reflexivity|]. split; [reflexivity|]. split; [reflexivity|]. split; [discriminate|].
  constructor; [|constructor]. unfold chunk_of. cbn [k_old k_new k_old_lines k_new_lines from upto].
  split; [lia|]. split; [lia|]. split; [intros x Q; injection Q as <-; unfold zlen; lia|]. split; [intros x Q; injection Q as <-; unfold zlen; lia|].
  rewrite !source_all. split; [apply lines_from_all|]. split; [apply lines_from_all|].
  split; intros t I; unfold all_lines in I; apply in_map_iff in I; destruct I as (l & Q & _); discriminate.
Qed.
Lemma whole_unified : unified_tool whole_tool.
Proof.
  intros a b. unfold whole_tool. destruct (String.eqb_spec a b) as [E|N]; [left; auto|]. right. split; [exact N|].
  change (String.eqb "-U" "-C") with false. cbv iota. eexists. split; [reflexivity|]. split; [discriminate|].
  split; [reflexivity|]. split; [reflexivity|]. constructor; [|constructor]. unfold hunk_of. cbn [u_old u_new u_lines from upto].
  split; [lia|]. split; [lia|]. split; [intros x Q; injection Q as <-; unfold zlen; lia|]. split; [intros x Q; injection Q as <-; unfold zlen; lia|].
  rewrite !filter_app.
  assert (F1 : forall m x, (m = Same \/ m = Removed) -> filter (keep [Same; Removed]) (all_lines m x) = all_lines m x).
  { intros m x M. unfold all_lines. induction (readlines x) as [|l ls IH]; [reflexivity|]. cbn [map filter]. rewrite IH.
    destruct M as [-> | ->]; reflexivity. }
  assert (F2 : forall x, filter (keep [Same; Removed]) (all_lines Added x) = []).
  { intros x. unfold all_lines. induction (readlines x) as [|l ls IH]; [reflexivity|]. exact IH. }
  assert (F3 : forall x, filter (keep [Same; Added]) (all_lines Removed x) = []).
  { intros x. unfold all_lines. induction (readlines x) as [|l ls IH]; [reflexivity|]. exact IH. }
  assert (F4 : forall x, filter (keep [Same; Added]) (all_lines Added x) = all_lines Added x).
  { intros x. unfold all_lines. induction (readlines x) as [|l ls IH]; [reflexivity|]. cbn [map filter]. rewrite IH. reflexivity. }
  rewrite (F1 Removed a) by auto. rewrite F2, F3, F4, app_nil_r. cbn [app]. rewrite !source_all.
  split; [apply lines_from_all|]. split; [apply lines_from_all|].
  intros t I. apply in_app_iff in I. destruct I as [I|I]; unfold all_lines in I; apply in_map_iff in I; destruct I as (l & Q & _); discriminate.
Qed.

(** The differences attached to a result: with a diff utility that quotes the two texts
    under their line numbers, the text is empty iff the two definitions are the same text, and
    otherwise consists of hunks that quote the two source files under their line numbers, each
    titled with the first line of the old definition.  This needs that no line of the two
    definitions looks like a hunk header of the diff utility. *)
Theorem C39_context_differences : forall dt f file1 file2 kind L1 L2 s1 s2 e1 e2,
  context_tool dt -> file_lines f file1 = Ok L1 -> file_lines f file2 = Ok L2 -> (1 <= s1)%Z -> (1 <= s2)%Z ->
  kind = "function"%string \/ kind = "type"%string ->
  terminates_with (fun n => get_end_line n f file1 s1 kind) (Ok e1) ->
  terminates_with (fun n => get_end_line n f file2 s2 kind) (Ok e2) ->
  (forall n l, (s1 <= n <= e1)%Z -> line_at L1 n l -> ~ numeric (chomp l)) ->
  (forall n l, (s2 <= n <= e2)%Z -> line_at L2 n l -> ~ numeric (chomp l)) ->
  (forall l, line_at L1 s1 l -> ~ numeric (strip l)) ->
  exists r, terminates_with (fun n => syntax_diff n dt f file1 file2 kind s1 s2) (Ok r) /\
    (r = ""%string /\ same_part L1 s1 e1 L2 s2 e2 \/
     ~ same_part L1 s1 e1 L2 s2 e2 /\
     exists hs first, hs <> [] /\ line_at L1 s1 first /\ r = shown_cdiff (strip first) hs /\ Forall (chunk_of L1 L2) hs).
Proof.
  intros dt f file1 file2 kind L1 L2 s1 s2 e1 e2 DT F1 F2 P1 P2 KD [n1 T1] [n2 T2] N1 N2 NF.
  assert (EB : forall file L s e n, file_lines f file = Ok L -> (1 <= s)%Z -> (forall m, (n <= m)%nat -> get_end_line m f file s kind = Some (Ok e)) ->
    (s <= e)%Z /\ (s <= zlen L)%Z).
  { intros file L s e n FL P T.
    assert (B : (s <= zlen L)%Z).
    { destruct (Z.le_gt_cases s (zlen L)) as [Q|Q]; [exact Q|]. destruct (C37_failures f file s kind) as (_ & X & _).
      destruct (X L FL Q) as [k K]. specialize (K (Nat.max k n) ltac:(lia)). rewrite T in K by lia. discriminate. }
    split; [|exact B]. destruct (C37_first_closing_line f file L s kind FL KD (conj P B)) as (r & [k K] & R).
    specialize (K (Nat.max k n) ltac:(lia)). rewrite T in K by lia. injection K as <-.
    destruct R as [(m & l & E & Q & _)|[E _]]; [|discriminate]. injection E as <-. exact Q. }
  destruct (EB _ _ _ _ _ F1 P1 T1) as [Q1 B1]. destruct (EB _ _ _ _ _ F2 P2 T2) as [Q2 B2]. clear EB.
  assert (Z1 : (0 <= e1)%Z) by lia. assert (Z2 : (0 <= e2)%Z) by lia.
  assert (X : forall file L s e, file_lines f file = Ok L -> exists t, extract_code f file s e = Ok t).
  { intros file L s e FL. unfold extract_code. rewrite FL. eauto. }
  destruct (X file1 L1 s1 e1 F1) as [t1 X1]. destruct (X file2 L2 s2 e2 F2) as [t2 X2].
  destruct (extract_spec _ _ _ _ _ _ F1 P1 Z1 X1) as (R1 & U1 & M1).
  destruct (extract_spec _ _ _ _ _ _ F2 P2 Z2 X2) as (R2 & U2 & M2).
  pose proof (fragments_equal _ _ _ _ _ _ _ _ _ _ _ F1 F2 P1 P2 Z1 Z2 X1 X2) as SP.
  assert (SD : forall r,
    (let '(status, out) := dt "-C"%string t1 t2 in
     if ((status =? 0) || (status =? 1))%Z then
       match out with
       | Ok diff =>
           if isspace diff || String.eqb diff "" then r = Ok diff
           else r = (do ls <- map_res (fix_diff_line s1 s2 (match readlines t1 with [] => ""%string | l :: _ => l end)) (skipn 2 (split_char nl diff));
                     Ok (join (String nl "") ls))
       | Err _ => False
       end
     else False) -> terminates_with (fun n => syntax_diff n dt f file1 file2 kind s1 s2) r).
  { intros r H. exists (Nat.max n1 n2). intros m L. unfold syntax_diff. rewrite T1, T2 by lia.
    unfold make_diff. rewrite X1, X2. cbn [bind]. destruct (dt "-C"%string t1 t2) as [status out].
    destruct ((status =? 0) || (status =? 1))%Z; [|destruct H]. destruct out as [diff|]; [|destruct H].
    rewrite U1. destruct (isspace diff || String.eqb diff ""); rewrite H; reflexivity. }
  destruct (DT t1 t2) as [[E EQ]|(NE & d & E & CN & H1 & H2 & H3 & H4 & CH)].
  - exists ""%string. split; [apply SD; rewrite E; reflexivity|]. left. split; [reflexivity|]. apply SP, EQ.
  - destruct (line_at_exists L1 s1 (conj P1 B1)) as [first A].
    assert (HD : exists rest, readlines t1 = first :: rest).
    { pose proof (proj2 (M1 1%Z first)) as M. replace (s1 + 1 - 1)%Z with s1 in M by lia. assert (M0 : line_at (readlines t1) 1 first) by (apply M; split; [lia|split; [lia|exact A]]). clear M. rename M0 into M.
      destruct M as [_ M]. change (Z.to_nat (1 - 1)) with 0%nat in M. destruct (readlines t1) as [|x xs]; [discriminate|].
      injection M as ->. eauto. }
    destruct HD as [rest HD].
    set (hs := map (shift_chunk (s1 - 1) (s2 - 1)) (c_chunks d)).
    exists (shown_cdiff (strip first) hs). split.
    + apply SD. rewrite E. cbn [Z.eqb Pos.eqb orb].
      assert (NS : isspace (print_cdiff d) || String.eqb (print_cdiff d) "" = false).
      { unfold print_cdiff, text_of_lines. cbn [app join String.concat]. unfold join. 
        destruct (c_head1 d) as [|c h] eqn:C1; [congruence|]. apply orb_false_iff. split; [|reflexivity].
        unfold isspace. apply andb_false_iff. right. rewrite all_chars_app.
        unfold isspace in H3. cbn [negb String.eqb andb] in H3. rewrite H3. reflexivity. }
      rewrite NS. unfold print_cdiff. rewrite split_text.
      2:{ cbn [app]. constructor; [exact H1|]. constructor; [exact H2|]. apply Forall_flat_map. eapply Forall_impl; [|exact CH].
          intros h. apply chunk_no_nl. }
      rewrite HD. cbn [app skipn]. symmetry. 
      assert (MR : map_res (fix_diff_line s1 s2 first) (flat_map chunk_lines (c_chunks d) ++ [""%string]) =
                   Ok (flat_map (shown_chunk (strip first)) hs ++ [""%string])).
      { apply map_res_app; [|reflexivity]. unfold hs. rewrite flat_map_map. apply flat_map_res. intros h I.
        rewrite Forall_forall in CH. destruct (CH h I) as (Y1 & Y2 & O1 & O2 & V1 & V2 & W1 & W2).
        apply chunk_fixed; [split; assumption|split; assumption| | |apply NF, A].
        - intros m t IL _. destruct (quoted _ _ _ _ V1 (source_In _ _ _ IL)) as (k & l & G1 & <-). apply M1 in G1.
          destruct G1 as (G1 & G2 & G3). apply (N1 (s1 + k - 1)%Z); [lia|exact G3].
        - intros m t IL _. destruct (quoted _ _ _ _ V2 (source_In _ _ _ IL)) as (k & l & G1 & <-). apply M2 in G1.
          destruct G1 as (G1 & G2 & G3). apply (N2 (s2 + k - 1)%Z); [lia|exact G3]. }
      rewrite MR. cbn [bind]. reflexivity.
    + right. split; [intros SP2; apply NE, SP, SP2|]. exists hs, first. split.
      * unfold hs. destruct (c_chunks d); [congruence|discriminate].
      * split; [exact A|]. split; [reflexivity|]. unfold hs. apply Forall_map. eapply Forall_impl; [|exact CH].
        intros h. apply chunk_moved; [exact P1|exact P2| |].
        -- intros i l G. apply M1 in G. apply G.
        -- intros i l G. apply M2 in G. apply G.
Qed.
Print Assumptions C39_context_differences.

(** The differences shown by the viewer have the property without that restriction. *)
Theorem C39_unified_differences : forall dt f file1 file2 L1 L2 s1 s2 e1 e2,
  unified_tool dt -> file_lines f file1 = Ok L1 -> file_lines f file2 = Ok L2 ->
  (1 <= s1)%Z -> (1 <= s2)%Z -> (0 <= e1)%Z -> (0 <= e2)%Z ->
  exists r, unified_syntax_diff dt f file1 file2 s1 s2 e1 e2 = Ok r /\
    (r = ""%string /\ same_part L1 s1 e1 L2 s2 e2 \/
     ~ same_part L1 s1 e1 L2 s2 e2 /\
     exists h1 h2 hs, hs <> [] /\ r = print_udiff (mkUdiff h1 h2 hs) /\ Forall (hunk_of L1 L2) hs).
Proof.
  intros dt f file1 file2 L1 L2 s1 s2 e1 e2 DT F1 F2 P1 P2 Q1 Q2.
  assert (X : forall file L s e, file_lines f file = Ok L -> exists t, extract_code f file s e = Ok t).
  { intros file L s e FL. unfold extract_code. rewrite FL. eauto. }
  destruct (X file1 L1 s1 e1 F1) as [t1 X1]. destruct (X file2 L2 s2 e2 F2) as [t2 X2].
  destruct (extract_spec _ _ _ _ _ _ F1 P1 Q1 X1) as (R1 & U1 & M1).
  destruct (extract_spec _ _ _ _ _ _ F2 P2 Q2 X2) as (R2 & U2 & M2).
  pose proof (fragments_equal _ _ _ _ _ _ _ _ _ _ _ F1 F2 P1 P2 Q1 Q2 X1 X2) as SP.
  unfold unified_syntax_diff, make_diff. rewrite X1, X2. cbn [bind].
  destruct (DT t1 t2) as [[E EQ]|(NE & d & E & CN & H1 & H2 & CH)]; rewrite E; cbn [Z.eqb Pos.eqb orb bind fst].
  - exists ""%string. split; [reflexivity|]. left. split; [reflexivity|]. apply SP, EQ.
  - set (hs := map (shift_hunk (s1 - 1) (s2 - 1)) (u_hunks d)).
    exists (print_udiff (mkUdiff (u_head1 d) (u_head2 d) hs)). split.
    + assert (NS : isspace (print_udiff d) || String.eqb (print_udiff d) "" = false) by reflexivity.
      rewrite NS. unfold print_udiff at 1. rewrite split_text.
      2:{ cbn [app]. constructor; [rewrite has_char_app, H1; reflexivity|]. constructor; [rewrite has_char_app, H2; reflexivity|].
          apply Forall_flat_map. eapply Forall_impl; [|exact CH]. intros h. apply hunk_no_nl. }
      assert (MR : map_res (fix_unified_line s1 s2) (([("--- " ++ u_head1 d); ("+++ " ++ u_head2 d)]%string ++ flat_map hunk_lines (u_hunks d)) ++ [""%string]) =
                   Ok (([("--- " ++ u_head1 d); ("+++ " ++ u_head2 d)]%string ++ flat_map hunk_lines hs) ++ [""%string])).
      { apply map_res_app; [|reflexivity]. apply map_res_app.
        - cbn [map_res append]. rewrite !no_head by reflexivity. reflexivity.
        - unfold hs. rewrite flat_map_map. apply flat_map_res. intros h I.
          rewrite Forall_forall in CH. destruct (CH h I) as (Y1 & Y2 & Z1 & Z2 & V1 & V2 & W).
          apply hunk_fixed; [split; assumption|split; assumption|exact W]. }
      rewrite MR. cbn [bind]. reflexivity.
    + right. split; [intros SP2; apply NE, SP, SP2|]. exists (u_head1 d), (u_head2 d), hs. split.
      * unfold hs. destruct (u_hunks d); [congruence|discriminate].
      * split; [reflexivity|]. unfold hs. apply Forall_map. eapply Forall_impl; [|exact CH].
        intros h. apply hunk_moved; [exact P1|exact P2| |].
        -- intros i l G. apply M1 in G. apply G.
        -- intros i l G. apply M2 in G. apply G.
Qed.
Print Assumptions C39_unified_differences.

(** If the end of a definition is not found, or a file or the output of diff cannot be decoded,
    there is a message instead of a difference; other exceptions are raised. *)
Theorem C39_not_obtained : forall dt f file1 file2 kind s1 s2,
  (forall e, terminates_with (fun n => get_end_line n f file1 s1 kind) (Err e) ->
     terminates_with (fun n => syntax_diff n dt f file1 file2 kind s1 s2) (if match e with UnicodeDecodeError | EndLineNotFound => true | _ => false end then Ok ("  [could not obtain diff]" ++ String nl "")%string else Err e)) /\
  (forall e1 e, terminates_with (fun n => get_end_line n f file1 s1 kind) (Ok e1) -> terminates_with (fun n => get_end_line n f file2 s2 kind) (Err e) ->
     terminates_with (fun n => syntax_diff n dt f file1 file2 kind s1 s2) (if match e with UnicodeDecodeError | EndLineNotFound => true | _ => false end then Ok ("  [could not obtain diff]" ++ String nl "")%string else Err e)) /\
  (forall e1 e2 t1 t2 status, terminates_with (fun n => get_end_line n f file1 s1 kind) (Ok e1) -> terminates_with (fun n => get_end_line n f file2 s2 kind) (Ok e2) ->
     extract_code f file1 s1 e1 = Ok t1 -> extract_code f file2 s2 e2 = Ok t2 ->
     (status = 0 \/ status = 1)%Z -> dt "-C"%string t1 t2 = (status, Err UnicodeDecodeError) ->
     terminates_with (fun n => syntax_diff n dt f file1 file2 kind s1 s2) (Ok ("  [could not obtain diff]" ++ String nl "")%string)) /\
  (forall e1 e2 t1 t2 status out, terminates_with (fun n => get_end_line n f file1 s1 kind) (Ok e1) -> terminates_with (fun n => get_end_line n f file2 s2 kind) (Ok e2) ->
     extract_code f file1 s1 e1 = Ok t1 -> extract_code f file2 s2 e2 = Ok t2 ->
     status <> 0%Z -> status <> 1%Z -> dt "-C"%string t1 t2 = (status, out) ->
     terminates_with (fun n => syntax_diff n dt f file1 file2 kind s1 s2) (Err CalledProcessError)).
Proof.
  intros dt f file1 file2 kind s1 s2. split; [|split; [|split]].
  - intros e [n T]. exists n. intros m L. unfold syntax_diff. rewrite (T m L). destruct e; reflexivity.
  - intros e1 e [n T] [n2 T2]. exists (Nat.max n n2). intros m L. unfold syntax_diff. rewrite (T m), (T2 m) by lia. destruct e; reflexivity.
  - intros e1 e2 t1 t2 st [n T] [n2 T2] X1 X2 S D. exists (Nat.max n n2). intros m L. unfold syntax_diff. rewrite (T m), (T2 m) by lia. unfold make_diff. rewrite X1, X2. cbn [bind]. rewrite D. destruct S as [-> | ->]; reflexivity.
  - intros e1 e2 t1 t2 st out [n T] [n2 T2] X1 X2 S1 S2 D. exists (Nat.max n n2). intros m L. unfold syntax_diff. rewrite (T m), (T2 m) by lia. unfold make_diff. rewrite X1, X2. cbn [bind]. rewrite D.
    destruct (Z.eqb_spec st 0); [contradiction|]. destruct (Z.eqb_spec st 1); [contradiction|]. reflexivity.
Qed.
Print Assumptions C39_not_obtained.

(** Every unchanged or removed source line made of digits, blanks, commas, asterisks and
    hyphens is taken for a hunk header: it is never shown as it is. *)
Theorem C39_numeric_lines_are_lost : forall s1 s2 head m t,
  m = Same \/ m = Removed -> numeric t ->
  (exists p ns, fix_diff_line s1 s2 head (cmark m ++ t) = Ok (p ++ " " ++ ns ++ " " ++ p)%string /\ (p = "***" \/ p = "---")%string) \/
  fix_diff_line s1 s2 head (cmark m ++ t) = Err ValueError.
Proof.
  intros s1 s2 head m t M N. unfold fix_diff_line.
  assert (NS : negb (String.eqb (cmark m ++ t) "") && all_chars (Ascii.eqb "*") (cmark m ++ t) = false) by (destruct M as [-> | ->]; reflexivity).
  rewrite NS, marked_number_line. apply numeric_iff in N.
  assert (E : match m with Same | Removed => number_line t | _ => false end = true) by (destruct M as [-> | ->]; exact N). rewrite E. cbn [negb].
  match goal with |- context [map_res ?g ?l] => destruct (map_res g l) as [ns|e] eqn:R end; cbn [bind].
  - left. destruct (1 <? count_char "*" (cmark m ++ t))%nat; do 2 eexists; (split; [reflexivity|auto]).
  - right. f_equal. revert R. generalize (split_char "," (remove_char " " (remove_char "-" (remove_char "*" (cmark m ++ t))))).
    intros l. induction l as [|x l IH]; [discriminate|]. cbn [map_res]. unfold fix_line at 1, py_int.
    destruct (NilZero.uint_of_string x); cbn [bind]; [|congruence].
    destruct (map_res _ l) as [ys|]; [discriminate|]. intros Q. apply IH. exact Q.
Qed.
Print Assumptions C39_numeric_lines_are_lost.

(** So a table row in the code makes the difference unusable: with a trailing comma the
    comparison fails with ValueError, without it the row is shown as a hunk header. *)
Theorem C39_any_source_refuted : exists dt f s,
  context_tool dt /\
  terminates_with (fun n => syntax_diff n dt f "a.c" "b.c" "type" 1 1) (Err ValueError) /\
  terminates_with (fun n => syntax_diff n dt f "c.c" "d.c" "type" 1 1) (Ok s) /\
  contains s "--- 1,2 ---" = true /\ contains s "- 1, 2" = false.
Proof.
  exists whole_tool,
    (fun p => Ok ("int t[] = {" ++ String nl ((if String.eqb p "a.c" then "1, 2," else if String.eqb p "b.c" then "1, 3,"
                   else if String.eqb p "c.c" then "1, 2" else "1, 3") ++ String nl ("};" ++ String nl "")))%string).
  eexists. split; [exact whole_context|]. split; [|split].
  - exists 10%nat. intros m L. do 10 (destruct m as [|m]; [lia|]). vm_compute. reflexivity.
  - exists 10%nat. intros m L. do 10 (destruct m as [|m]; [lia|]). vm_compute. reflexivity.
  - split; vm_compute; reflexivity.
Qed.
Print Assumptions C39_any_source_refuted.

Example C39_example :
  let f : fs := fun p => Ok ("// x" ++ String nl ("int f() {" ++ String nl ((if String.eqb p "a.c" then "  g();" else "  h();") ++ String nl ("}" ++ String nl ""))))%string in
  context_tool whole_tool /\ unified_tool whole_tool /\
  terminates_with (fun n => get_end_line n f "a.c" 2 "function") (Ok 4%Z) /\
  (exists r, terminates_with (fun n => syntax_diff n whole_tool f "a.c" "b.c" "function" 2 2) (Ok r) /\
     split_char nl r = ["*************** int f() {"; "*** 2,4 ***"; "- int f() {"; "-   g();"; "- }"; "--- 2,4 ---";
                        "+ int f() {"; "+   h();"; "+ }"; ""]%string) /\
  (exists r, unified_syntax_diff whole_tool f "a.c" "b.c" 2 2 4 4 = Ok r /\
     nth_error (split_char nl r) 2 = Some "@@ -2,3 +2,3 @@"%string).
Proof.
  cbv zeta. split; [exact whole_context|]. split; [exact whole_unified|]. split; [|split].
  - exists 10%nat. intros m L. do 10 (destruct m as [|m]; [lia|]). vm_compute. reflexivity.
  - eexists. split; [exists 10%nat; intros m L; do 10 (destruct m as [|m]; [lia|]); vm_compute; reflexivity|]. vm_compute. reflexivity.
  - eexists. split; vm_compute; reflexivity.
Qed.
