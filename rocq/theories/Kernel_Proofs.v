(** * Lemmas about building kernel sources *)
From Coq Require Import String Ascii ZArith Arith Bool Lia List Sorted Permutation.
From Verif Require Import PyBase Path_Model Syndiff_Model Kernel_Model Kernel_Spec.
From Verif Require Wrapper_Proofs Output_Model Output_Spec Output_Proofs Compare_Proofs Syndiff_Proofs.
Import ListNotations.
Open Scope list_scope.
Local Arguments Ascii.eqb : simpl never.

Lemma prefix_iff p s : startswith s p = true <-> prefix_of p s.
Proof. apply Wrapper_Proofs.startswith_app. Qed.
Lemma suffix_iff p s : endswith s p = true <-> suffix_of p s.
Proof. apply endswith_spec. Qed.
Lemma inside_iff p s : contains s p = true <-> inside p s.
Proof. apply contains_spec. Qed.
Lemma not_true b : b <> true <-> b = false.
Proof. destruct b; split; congruence. Qed.

(** ** Words *)
Lemma words_blank b s : spaces_only b -> words (b ++ s) = words s.
Proof. unfold spaces_only. induction b as [|c b IH]; cbn; intros H; [reflexivity|]. apply andb_true_iff in H as [-> H]. exact (IH H). Qed.
Lemma words_word w s : one_word w -> (s = ""%string \/ exists c r, s = String c r /\ is_space c = true) -> words (w ++ s) = w :: words s.
Proof.
  intros [N A] S. induction w as [|c w IH]; [congruence|]. cbn in A. apply andb_true_iff in A as [A1 A2]. apply negb_true_iff in A1.
  cbn [append words]. rewrite A1. destruct w as [|d w].
  - cbn [append]. destruct S as [->|(x & r & -> & X)]; [reflexivity|]. rewrite X. cbn [words]. rewrite X. reflexivity.
  - cbn [append] in *. cbn in A2. pose proof A2 as A3. apply andb_true_iff in A3 as [D _]. apply negb_true_iff in D. rewrite D. rewrite IH; [reflexivity|discriminate|exact A2].
Qed.
Lemma words_spec_1 s ws : words_of s ws -> words s = ws.
Proof.
  induction 1 as [b B|b w B W|b w c rest ws B W C H IH].
  - rewrite <- (app_nil_r_s b). rewrite words_blank by exact B. reflexivity.
  - rewrite words_blank by exact B. rewrite <- (app_nil_r_s w). rewrite words_word; [|exact W|auto]. rewrite app_nil_r_s. reflexivity.
  - rewrite words_blank by exact B. rewrite words_word; [|exact W|eauto]. cbn [words]. rewrite C, IH. reflexivity.
Qed.
Lemma words_total n : forall s, String.length s <= n -> exists ws, words_of s ws.
Proof.
  induction n as [|n IH]; intros s L.
  - destruct s; [|cbn in L; lia]. exists []. apply wo_none. reflexivity.
  - assert (B : exists b r, s = (b ++ r)%string /\ spaces_only b /\ (r = ""%string \/ exists c t, r = String c t /\ is_space c = false)).
    { clear. induction s as [|c s (b & r & E & B & R)]; [exists ""%string, ""%string; repeat split; auto|]. destruct (is_space c) eqn:C.
      - exists (String c b), r. rewrite E. split; [reflexivity|]. split; [|exact R]. unfold spaces_only. cbn. rewrite C. exact B.
      - exists ""%string, (String c s). repeat split. right. eauto. }
    destruct B as (b & r & -> & B & [->|(c & t & -> & C)]); [rewrite app_nil_r_s; exists []; apply wo_none, B|].
    assert (W : exists w u, String c t = (w ++ u)%string /\ one_word w /\ (u = ""%string \/ exists d v, u = String d v /\ is_space d = true)).
    { clear -C. revert c C. induction t as [|d t IH]; intros c C.
      - exists (String c ""), ""%string. repeat split; [discriminate|cbn; rewrite C; reflexivity|auto].
      - destruct (is_space d) eqn:D.
        + exists (String c ""), (String d t). repeat split; [discriminate|cbn; rewrite C; reflexivity|eauto].
        + destruct (IH d D) as (w & u & E & [_ W] & U). exists (String c w), u. cbn. rewrite E. repeat split; [discriminate|cbn; rewrite C; exact W|exact U]. }
    destruct W as (w & u & E & W & [->|(d & v & -> & D)]).
    + rewrite app_nil_r_s in E. rewrite E. exists [w]. apply wo_last; assumption.
    + rewrite E in L |- *. rewrite length_app_s in L. rewrite length_app_s in L. cbn in L. destruct (IH v) as [ws H]; [lia|].
      exists (w :: ws). apply wo_more; assumption.
Qed.
Lemma words_iff s ws : words s = ws <-> words_of s ws.
Proof.
  split; [|apply words_spec_1]. intros <-. destruct (words_total (String.length s) s (le_n _)) as [ws H].
  rewrite (words_spec_1 _ _ H). exact H.
Qed.
Lemma words_one s w : In w (words s) -> one_word w.
Proof.
  intros I. assert (H : words_of s (words s)) by (apply words_iff; reflexivity). revert I. induction H; cbn; [tauto|intros [<-|[]]; assumption|intros [<-|I]; auto].
Qed.
Lemma first_word_ok line f : first_word line = Ok f <-> reports line f.
Proof.
  unfold first_word, reports. destruct (words line) as [|w ws] eqn:E.
  - split; [discriminate|]. intros (ws & H). apply words_iff in H. congruence.
  - split.
    + intros X. injection X as <-. exists ws. apply words_iff, E.
    + intros (ws' & H). apply words_iff in H. rewrite E in H. injection H as -> _. reflexivity.
Qed.
Lemma two_words_ok line f s : two_words line = Ok (f, s) <-> reports_in line f s.
Proof.
  unfold two_words, reports_in. destruct (words line) as [|w [|v ws]] eqn:E; split; try discriminate.
  - intros (ws' & H). apply words_iff in H. congruence.
  - intros (ws' & H). apply words_iff in H. congruence.
  - intros X. injection X as <- <-. exists ws. apply words_iff, E.
  - intros (ws' & H). apply words_iff in H. rewrite E in H. injection H as -> -> _. reflexivity.
Qed.
Lemma first_word_err line e : first_word line = Err e -> e = IndexError.
Proof. unfold first_word. destruct (words line); congruence. Qed.
Lemma two_words_err line e : two_words line = Err e -> e = IndexError.
Proof. unfold two_words. destruct (words line) as [|? [|? ?]]; congruence. Qed.
Lemma reports_fun line f g : reports line f -> reports line g -> f = g.
Proof. intros A B. apply first_word_ok in A, B. congruence. Qed.

Lemma map_res_ok {A B} (f : A -> res B) l : forall ys, map_res f l = Ok ys <-> Forall2 (fun x y => f x = Ok y) l ys.
Proof.
  induction l as [|x l IH]; intros ys; cbn [map_res].
  - split; [intros E; injection E as <-; constructor|]. intros F. inversion F. reflexivity.
  - split.
    + destruct (f x) as [y|] eqn:E; [|discriminate]. destruct (map_res f l) as [zs|] eqn:M; [|discriminate]. intros X. injection X as <-.
      constructor; [exact E|apply IH; reflexivity].
    + intros F. inversion F as [|? y ? zs E G]; subst. rewrite E. apply IH in G. rewrite G. reflexivity.
Qed.
Lemma map_res_err {A B} (f : A -> res B) l e : map_res f l = Err e -> exists x, In x l /\ f x = Err e.
Proof.
  induction l as [|x l IH]; cbn [map_res]; [discriminate|]. destruct (f x) as [y|] eqn:E.
  - destruct (map_res f l); [discriminate|]. intros X. destruct IH as (z & I & Z); [congruence|]. exists z. cbn. auto.
  - intros X. exists x. split; [left; reflexivity|congruence].
Qed.
Lemma Forall2_In_l {A B} (R : A -> B -> Prop) l ys x : Forall2 R l ys -> In x l -> exists y, In y ys /\ R x y.
Proof. induction 1; cbn; [tauto|]. intros [<-|I]; [eauto|]. destruct (IHForall2 I) as (y' & ? & ?). eauto. Qed.
Lemma Forall2_In_r {A B} (R : A -> B -> Prop) l ys y : Forall2 R l ys -> In y ys -> exists x, In x l /\ R x y.
Proof. induction 1; cbn; [tauto|]. intros [<-|I]; [eauto|]. destruct (IHForall2 I) as (x' & ? & ?). eauto. Qed.

(** ** Lines *)
Lemma app_snoc a c s : ((a ++ String c "") ++ s)%string = (a ++ String c s)%string.
Proof. rewrite app_assoc_s. reflexivity. Qed.
Lemma lines_from_plain s : forall cur t, all_chars (fun c => negb (is_end c)) s = true -> s <> ""%string ->
  splitlines_from cur false (s ++ t) = splitlines_from (cur ++ s) false t /\
  splitlines_from cur true (s ++ t) = splitlines_from (cur ++ s) false t.
Proof.
  induction s as [|c s IH]; intros cur t A N; [congruence|]. cbn in A. apply andb_true_iff in A as [A1 A2]. unfold is_end in A1.
  apply negb_true_iff, orb_false_iff in A1 as [C E].
  assert (NL : Ascii.eqb c nl = false) by (destruct (Ascii.eqb_spec c nl) as [->|]; [discriminate E|reflexivity]).
  cbn [append splitlines_from]. rewrite NL, C, E. cbn [andb].
  assert (G : splitlines_from (cur ++ String c "") false (s ++ t) = splitlines_from (cur ++ String c s) false t).
  { destruct s as [|d s]; [reflexivity|]. rewrite (proj1 (IH (cur ++ String c "")%string t A2 ltac:(discriminate))), app_snoc. reflexivity. }
  auto.
Qed.
Lemma lines_from_cr t : forall b, (b = true -> ~ exists r, t = String nl r) -> splitlines_from "" b t = splitlines_from "" false t.
Proof.
  intros [|] H; [|reflexivity]. destruct t as [|c t]; [reflexivity|]. cbn [splitlines_from]. destruct (Ascii.eqb_spec c nl) as [->|N]; [|reflexivity].
  exfalso. apply H; eauto.
Qed.
Lemma lines_spec_1 s ls : text_lines s ls -> splitlines s = ls.
Proof.
  unfold splitlines. induction 1 as [|s N A|s rest ls A H IH|s c rest ls A C X H IH].
  - reflexivity.
  - rewrite <- (app_nil_r_s s) at 1. rewrite (proj1 (lines_from_plain s "" "" A N)). cbn [append splitlines_from].
    apply String.eqb_neq in N. rewrite N. reflexivity.
  - assert (E : splitlines_from "" false (s ++ String cr (String nl rest)) = splitlines_from s false (String cr (String nl rest))).
    { destruct s as [|d s]; [reflexivity|]. rewrite (proj1 (lines_from_plain (String d s) "" _ A ltac:(discriminate))). reflexivity. }
    rewrite E. cbn [splitlines_from]. replace (Ascii.eqb cr nl) with false by reflexivity. rewrite !Ascii.eqb_refl. cbn [andb]. rewrite IH. reflexivity.
  - assert (E : splitlines_from "" false (s ++ String c rest) = splitlines_from s false (String c rest)).
    { destruct s as [|d s]; [reflexivity|]. rewrite (proj1 (lines_from_plain (String d s) "" _ A ltac:(discriminate))). reflexivity. }
    rewrite E. cbn [splitlines_from]. rewrite andb_false_r. unfold is_end in C. destruct (Ascii.eqb_spec c cr) as [->|NC].
    + rewrite lines_from_cr; [rewrite IH; reflexivity|]. intros _ R. apply X. auto.
    + cbn [orb] in C. rewrite C, IH. reflexivity.
Qed.
Lemma lines_total n : forall s, String.length s <= n -> exists ls, text_lines s ls.
Proof.
  induction n as [|n IH]; intros s L.
  - destruct s; [|cbn in L; lia]. exists []. constructor.
  - assert (B : exists b r, s = (b ++ r)%string /\ all_chars (fun c => negb (is_end c)) b = true /\ (r = ""%string \/ exists c t, r = String c t /\ is_end c = true)).
    { clear. induction s as [|c s (b & r & E & B & R)]; [exists ""%string, ""%string; repeat split; auto|]. destruct (is_end c) eqn:C.
      - exists ""%string, (String c s). repeat split. right. eauto.
      - exists (String c b), r. rewrite E. split; [reflexivity|]. split; [|exact R]. cbn. rewrite C. exact B. }
    destruct B as (b & r & -> & B & [->|(c & t & -> & C)]).
    + rewrite app_nil_r_s. destruct (String.eqb_spec b "") as [->|N]; [exists []; constructor|]. exists [b]. apply tl_last; assumption.
    + rewrite length_app_s in L. cbn in L.
      destruct (Ascii.eqb_spec c cr) as [->|NC]; [destruct t as [|d t]|].
      * exists [b]. apply (tl_line b cr "" []); [exact B|exact C| |constructor]. intros [_ (r & X)]. discriminate.
      * destruct (Ascii.eqb_spec d nl) as [->|ND].
        -- cbn in L. destruct (IH t) as [ls H]; [lia|]. exists (b :: ls). apply tl_crlf; assumption.
        -- destruct (IH (String d t)) as [ls H]; [cbn in *; lia|]. exists (b :: ls). apply tl_line; [exact B|exact C| |exact H]. intros [_ (r & X)]. congruence.
      * destruct (IH t) as [ls H]; [lia|]. exists (b :: ls). apply tl_line; [exact B|exact C| |exact H]. intros [X _]. congruence.
Qed.
Lemma lines_iff s ls : splitlines s = ls <-> text_lines s ls.
Proof.
  split; [|apply lines_spec_1]. intros <-. destruct (lines_total (String.length s) s (le_n _)) as [ls H].
  rewrite (lines_spec_1 _ _ H). exact H.
Qed.

(** ** Candidates *)
Lemma unseen_spec l : forall seen a s', unseen seen l = (a, s') ->
  NoDup a /\ (forall f, In f a <-> In f l /\ ~ In f seen) /\ (forall f, In f s' <-> In f seen \/ In f a).
Proof.
  induction l as [|x l IH]; intros seen a s' E; cbn [unseen] in E.
  - injection E as <- <-. repeat split; [constructor|cbn; tauto..].
  - destruct (mem x seen) eqn:M.
    + apply mem_In in M. apply IH in E as (N & A & S). split; [exact N|]. split; [|exact S].
      intros f. rewrite A. cbn. split; [tauto|]. intros [[<-|I] NS]; tauto.
    + assert (M' : ~ In x seen) by (intros I; apply mem_In in I; congruence).
      destruct (unseen (x :: seen) l) as [fs s2] eqn:U. injection E as <- <-. apply IH in U as (N & A & S).
      split; [|split].
      * constructor; [|exact N]. intros I. apply A in I as [_ I]. apply I. left. reflexivity.
      * intros f. cbn. rewrite A. cbn. split; [intros [<-|I]; tauto|]. intros [[<-|I] NS]; [tauto|].
        destruct (string_dec x f) as [->|D]; tauto.
      * intros f. rewrite S. cbn. tauto.
Qed.

Lemma leb_total : Output_Spec.total_order String.leb.
Proof.
  split.
  - intros a b. unfold String.leb. rewrite (String.compare_antisym b a). destruct (String.compare a b); cbn; auto.
  - intros a b c H1 H2. destruct (string_dec a b) as [->|N1]; [exact H2|]. destruct (string_dec b c) as [->|N2]; [exact H1|].
    apply Compare_Proofs.leb_ltb in H1; [|exact N1]. apply Compare_Proofs.leb_ltb in H2; [|exact N2].
    pose proof (Compare_Proofs.ltb_trans _ _ _ H1 H2) as H. unfold String.ltb in H. unfold String.leb. destruct (String.compare a c); congruence.
Qed.
Lemma rank_total f : exists n, rank f n.
Proof.
  destruct (startswith f "drivers/") eqn:D; [exists 1; apply rank_driver, prefix_iff, D|].
  destruct (startswith f "arch/x86") eqn:X; [exists 2; apply rank_x86, prefix_iff, X|].
  destruct (startswith f "arch/") eqn:A.
  - exists 3. apply rank_arch; [apply prefix_iff, A|]. intros H. apply prefix_iff in H. congruence.
  - exists 0. apply rank_other; intros H; apply prefix_iff in H; congruence.
Qed.
Lemma rank_fun f m n : rank f m -> rank f n -> m = n.
Proof.
  assert (D : forall f, prefix_of "drivers/" f -> prefix_of "arch/" f -> False).
  { intros g (a & ->) (b & E). discriminate E. }
  assert (X : forall f, prefix_of "arch/x86" f -> prefix_of "arch/" f).
  { intros g (a & ->). exists ("x86" ++ a)%string. reflexivity. }
  intros A B. inversion A; subst; inversion B; subst; try reflexivity; exfalso; eauto.
Qed.
Definition braces (n : nat) (f : string) : string := match n with 0 => f | 1 => "}" ++ f | 2 => "}}" ++ f | _ => "}}}" ++ f end%string.
Lemma prio_key_rank f n : rank f n -> prio_key f = braces n f.
Proof.
  intros R. unfold prio_key. destruct (startswith f "drivers/") eqn:D.
  { rewrite (rank_fun f n 1 R); [reflexivity|]. apply rank_driver, prefix_iff, D. }
  destruct (startswith f "arch/x86") eqn:X.
  { rewrite (rank_fun f n 2 R); [reflexivity|]. apply rank_x86, prefix_iff, X. }
  destruct (startswith f "arch/") eqn:A.
  - rewrite (rank_fun f n 3 R); [reflexivity|]. apply rank_arch; [apply prefix_iff, A|]. intros H. apply prefix_iff in H. congruence.
  - rewrite (rank_fun f n 0 R); [reflexivity|]. apply rank_other; intros H; apply prefix_iff in H; congruence.
Qed.
Lemma leb_cons c a b : String.leb (String c a) (String c b) = String.leb a b.
Proof. unfold String.leb. cbn. unfold Ascii.compare. rewrite N.compare_refl. reflexivity. Qed.
Lemma leb_lt c d a b : nat_of_ascii c < nat_of_ascii d -> String.leb (String d b) (String c a) = false.
Proof.
  intros L. unfold String.leb. cbn. unfold Ascii.compare. unfold nat_of_ascii in L.
  replace (N.compare (N_of_ascii d) (N_of_ascii c)) with Gt; [reflexivity|]. symmetry. apply N.compare_gt_iff. lia.
Qed.
Lemma key_prior f g : ordinary_name f -> ordinary_name g -> String.leb (prio_key f) (prio_key g) = true -> prior f g.
Proof.
  intros (c & r & -> & C) (d & s & -> & D) L. destruct (rank_total (String c r)) as [m M], (rank_total (String d s)) as [n N].
  exists m, n. split; [exact M|]. split; [exact N|]. rewrite (prio_key_rank _ _ M), (prio_key_rank _ _ N) in L.
  assert (M3 : m <= 3) by (inversion M; lia). assert (N3 : n <= 3) by (inversion N; lia).
  assert (BC : forall u v, String.leb (String "}" u) (String c v) = false) by (intros; apply leb_lt; exact C).
  assert (BD : forall u v, String.leb (String "}" u) (String d v) = false) by (intros; apply leb_lt; exact D).
  unfold name_le. destruct m as [|[|[|[|m]]]]; try lia; destruct n as [|[|[|[|n]]]]; try lia;
    try (left; lia); unfold braces in L; cbn [append] in L; rewrite ?leb_cons in L; rewrite ?BC, ?BD in L; try discriminate L;
    (right; split; [reflexivity|exact L]).
Qed.
Lemma sort_files_perm l : Permutation (sort_files l) l.
Proof. apply Output_Proofs.sort_by_perm. Qed.
Lemma sort_files_sorted l : Forall ordinary_name l -> StronglySorted prior (sort_files l).
Proof.
  intros O. pose proof (Output_Proofs.sort_by_sorted String.leb prio_key l leb_total) as S. fold (sort_files l) in S.
  assert (O' : Forall ordinary_name (sort_files l)) by (rewrite sort_files_perm; exact O). clear O.
  induction S as [|x m S IH F]; [constructor|]. inversion O'; subst. constructor; [auto|].
  rewrite Forall_forall in *. intros y I. apply key_prior; auto. apply F, I.
Qed.

Lemma NoDup_app_intro' {A} (l m : list A) : NoDup l -> NoDup m -> (forall x, In x l -> In x m -> False) -> NoDup (l ++ m).
Proof.
  intros N M D. induction N as [|x l X N IH]; [exact M|]. cbn. constructor.
  - intros I. apply in_app_or in I as [I|I]; [tauto|]. apply (D x); [left; reflexivity|exact I].
  - apply IH. intros y I J. apply (D y); [right; exact I|exact J].
Qed.
(** What the candidates are. *)
Lemma map_fst_reports uses us scope_ok : Forall2 (fun x y => two_words x = Ok y) uses us -> forall f,
  In f (map fst (filter scope_ok us)) <-> exists line sc, In line uses /\ reports_in line f sc /\ scope_ok (f, sc) = true.
Proof.
  intros F f. rewrite in_map_iff. split.
  - intros ((g & sc) & <- & I). apply filter_In in I as [I G]. destruct (Forall2_In_r _ _ _ _ F I) as (line & L & T).
    exists line, sc. split; [exact L|]. split; [apply two_words_ok, T|exact G].
  - intros (line & sc & I & R & G). destruct (Forall2_In_l _ _ _ _ F I) as ((g & sc') & J & T). apply two_words_ok in R.
    assert (E : (g, sc') = (f, sc)) by congruence. injection E as -> ->. exists (f, sc). split; [reflexivity|]. apply filter_In. auto.
Qed.
Lemma candidates_ok defs uses files : candidates defs uses = Ok files -> exists A B C, files = A ++ B ++ C /\
  NoDup files /\
  (forall f, In f A <-> exists line, In line defs /\ reports line f) /\
  (forall f, In f B <-> ~ In f A /\ exists line, In line uses /\ reports_in line f "<global>") /\
  (forall f, In f C <-> ~ In f A /\ ~ In f B /\ exists line sc, In line uses /\ reports_in line f sc /\ sc <> "<global>"%string) /\
  (Forall ordinary_name files -> StronglySorted prior A /\ StronglySorted prior B /\ StronglySorted prior C).
Proof.
  unfold candidates. destruct (map_res first_word defs) as [ds|] eqn:D; [|discriminate]. cbn [bind].
  destruct (unseen [] ds) as [a s1] eqn:U1. destruct (map_res two_words uses) as [us|] eqn:U; [|discriminate]. cbn [bind].
  destruct (unseen s1 _) as [b s2] eqn:U2. destruct (unseen s2 _) as [c s3] eqn:U3. intros E. injection E as <-.
  apply map_res_ok in D, U. apply unseen_spec in U1 as (N1 & M1 & S1), U2 as (N2 & M2 & S2), U3 as (N3 & M3 & S3).
  exists (sort_files a), (sort_files b), (sort_files c). split; [reflexivity|].
  assert (P : forall l f, In f (sort_files l) <-> In f l).
  { intros l f. split; apply Permutation_in; [|symmetry]; apply sort_files_perm. }
  split; [|split; [|split; [|split]]].
  - rewrite !sort_files_perm. apply NoDup_app_intro'; [exact N1| |].
    + apply NoDup_app_intro'; [exact N2|exact N3|]. intros f I J. apply M3 in J as [_ J]. apply J, S2. auto.
    + intros f I J. apply in_app_or in J as [J|J].
      * apply M2 in J as [_ J]. apply J, S1. auto.
      * apply M3 in J as [_ J]. apply J, S2. left. apply S1. auto.
  - intros f. rewrite P, M1. split.
    + intros [I _]. destruct (Forall2_In_r _ _ _ _ D I) as (line & L & T). exists line. split; [exact L|apply first_word_ok, T].
    + intros (line & I & R). split; [|cbn; tauto]. destruct (Forall2_In_l _ _ _ _ D I) as (g & J & T). apply first_word_ok in R.
      assert (g = f) by congruence. subst. exact J.
  - intros f. rewrite !P, M2, (map_fst_reports _ _ _ U), S1. unfold is_global. cbn [snd]. split.
    + intros ((line & sc & I & R & G) & N). apply String.eqb_eq in G. subst. split; [tauto|]. eauto.
    + intros (N & line & I & R). split; [|cbn; tauto]. exists line, "<global>"%string. auto.
  - intros f. rewrite !P, M3, (map_fst_reports _ _ _ U), S2, S1. unfold is_global. cbn [snd]. split.
    + intros ((line & sc & I & R & G) & N). apply negb_true_iff, String.eqb_neq in G. split; [tauto|]. split; [tauto|]. eauto 6.
    + intros (N1' & N2' & line & sc & I & R & G). split; [|cbn; tauto]. exists line, sc. apply String.eqb_neq in G. rewrite G. auto.
  - assert (Q : forall l, Forall ordinary_name (sort_files l) -> StronglySorted prior (sort_files l)).
    { intros l H. apply sort_files_sorted. rewrite Forall_forall in *. intros f I. apply H, P, I. }
    rewrite !Forall_app. intros (A & B & C). auto.
Qed.
Lemma candidates_total defs uses :
  (exists files, candidates defs uses = Ok files) <->
  (forall line, In line defs -> exists f, reports line f) /\ (forall line, In line uses -> exists f sc, reports_in line f sc).
Proof.
  unfold candidates. split.
  - intros (files & E). destruct (map_res first_word defs) as [ds|] eqn:D; [|discriminate]. cbn [bind] in E.
    destruct (unseen [] ds) as [a s1]. destruct (map_res two_words uses) as [us|] eqn:U; [|discriminate].
    apply map_res_ok in D, U. split; intros line I.
    + destruct (Forall2_In_l _ _ _ _ D I) as (f & _ & T). exists f. apply first_word_ok, T.
    + destruct (Forall2_In_l _ _ _ _ U I) as ((f & sc) & _ & T). exists f, sc. apply two_words_ok, T.
  - intros [H1 H2]. destruct (map_res first_word defs) as [ds|e] eqn:D.
    + cbn [bind]. destruct (unseen [] ds) as [a s1]. destruct (map_res two_words uses) as [us|e] eqn:U.
      * cbn [bind]. destruct (unseen s1 _) as [b s2]. destruct (unseen s2 _). eauto.
      * exfalso. apply map_res_err in U as (line & I & E). destruct (H2 line I) as (f & sc & R). apply two_words_ok in R. congruence.
    + exfalso. apply map_res_err in D as (line & I & E). destruct (H1 line I) as (f & R). apply first_word_ok in R. congruence.
Qed.
Lemma candidates_err defs uses e : candidates defs uses = Err e -> e = IndexError.
Proof.
  unfold candidates. destruct (map_res first_word defs) as [ds|e'] eqn:D; cbn [bind].
  - destruct (unseen [] ds) as [a s1]. destruct (map_res two_words uses) as [us|e'] eqn:U; cbn [bind].
    + destruct (unseen s1 _) as [b s2]. destruct (unseen s2 _). discriminate.
    + intros E. assert (e' = e) by congruence. subst. apply map_res_err in U as (line & _ & E'). apply (two_words_err _ _ E').
  - intros E. assert (e' = e) by congruence. subst. apply map_res_err in D as (line & _ & E'). apply (first_word_err _ _ E').
Qed.

(** ** cscope *)
Lemma filter_lines ls pairs :
  Forall2 (fun line y => (do w <- first_word line; Ok (line, endswith w "c")) = Ok y) ls pairs ->
  map fst (filter snd pairs) = filter (fun line => match words line with w :: _ => endswith w "c" | [] => false end) ls.
Proof.
  induction 1 as [|line y ls ps E F IH]; [reflexivity|]. cbn [filter]. unfold first_word in E.
  destruct (words line) as [|w ws]; [discriminate|]. cbn [bind] in E. injection E as <-. cbn [snd]. destruct (endswith w "c"); cbn [map fst]; rewrite IH; reflexivity.
Qed.
Lemma cscope_lines_ok out r : cscope_lines out = Ok r -> forall ls, text_lines out ls ->
  r = filter (fun line => match words line with w :: _ => endswith w "c" | [] => false end) ls /\ (forall line, In line ls -> exists f, reports line f).
Proof.
  unfold cscope_lines. intros E ls T. apply lines_iff in T. rewrite T in E.
  destruct (map_res _ ls) as [ps|] eqn:M; [|discriminate]. injection E as <-. apply map_res_ok in M. split; [apply filter_lines, M|].
  intros line I. destruct (Forall2_In_l _ _ _ _ M I) as (y & _ & Y). destruct (first_word line) as [w|] eqn:W; [|discriminate].
  exists w. apply first_word_ok, W.
Qed.
Lemma cscope_lines_total out : (exists r, cscope_lines out = Ok r) <-> forall ls line, text_lines out ls -> In line ls -> exists f, reports line f.
Proof.
  split.
  - intros (r & E) ls line T. exact (proj2 (cscope_lines_ok _ _ E _ T) line).
  - intros H. unfold cscope_lines. destruct (map_res _ (splitlines out)) as [ps|e] eqn:M; [cbn; eauto|]. exfalso.
    apply map_res_err in M as (line & I & E). destruct (H (splitlines out) line) as (f & R); [apply lines_iff; reflexivity|exact I|].
    apply first_word_ok in R. rewrite R in E. discriminate.
Qed.
Lemma cscope_lines_err out e : cscope_lines out = Err e -> e = IndexError.
Proof.
  unfold cscope_lines. destruct (map_res _ _) as [|e'] eqn:M; [discriminate|]. intros E. assert (e' = e) by (cbn in E; congruence). subst.
  apply map_res_err in M as (line & _ & M). destruct (first_word line) as [|e''] eqn:F; [discriminate|]. cbn in M. rewrite <- (first_word_err _ _ F). congruence.
Qed.
Lemma says_fun cs s d r1 r2 : cscope_says cs s d r1 -> cscope_says cs s d r2 -> r1 = r2.
Proof.
  intros [E|out ls r E T R _] [E'|out' ls' r' E' T' R' _]; try congruence.
  assert (out' = out) by congruence. subst out'. apply lines_iff in T, T'. congruence.
Qed.
Lemma cache_valid_initial cs : cache_valid cs (mkCstate [] []).
Proof. intros s d r H. discriminate. Qed.
Lemma cscope_run_ok cs st s d r st' : cache_valid cs st -> cscope_run cs st s d = (Ok r, st') -> cscope_says cs s d r /\ cache_valid cs st'.
Proof.
  unfold cscope_run. intros V. destruct (dget (cs_cache st) (s, d)) as [r0|] eqn:G.
  - intros E. injection E as <- <-. split; [apply (V _ _ _ G)|exact V].
  - destruct (negb (cs_db cs)); [discriminate|]. destruct (cs_out cs s d) as [out|] eqn:O.
    + destruct (cscope_lines out) as [r1|] eqn:L; [|discriminate]. intros E. injection E as <- <-.
      assert (Y : cscope_says cs s d r1).
      { destruct (lines_total (String.length out) out (le_n _)) as [ls T]. destruct (cscope_lines_ok _ _ L _ T) as [R1 R2].
        apply (says_lines cs s d out ls r1 O T R1 R2). }
      split; [exact Y|]. intros s' d' r' H. cbn [cs_cache] in H.
      destruct (eqb_spec (s', d') (s, d)) as [E|N].
      * injection E as -> ->. rewrite dget_dset_same in H. injection H as <-. split; [exact Y|congruence].
      * rewrite dget_dset_other in H by exact N. apply (V _ _ _ H).
    + intros E. injection E as <- <-. split; [apply says_nothing, O|exact V].
Qed.
Lemma cscope_run_valid cs st s d : cache_valid cs st -> cache_valid cs (snd (cscope_run cs st s d)).
Proof.
  intros V. destruct (cscope_run cs st s d) as [[r|e] st'] eqn:E; [apply (cscope_run_ok _ _ _ _ _ _ V E)|].
  revert E. unfold cscope_run. destruct (dget _ _); [discriminate|]. destruct (negb _); [intros E; injection E as <- <-; exact V|].
  destruct (cs_out cs s d); [|discriminate]. destruct (cscope_lines s0); [discriminate|]. intros E. injection E as <- <-. exact V.
Qed.

(** The answer to a search, whatever the cache holds. *)
Definition answer (cs : cscope) (s : string) (d : bool) : res (list string) :=
  match cs_out cs s d with None => Ok [] | Some out => cscope_lines out end.
Lemma says_answer cs s d r : cscope_says cs s d r <-> answer cs s d = Ok r.
Proof.
  unfold answer. split.
  - intros [E|out ls r' E T R H]; rewrite E; [reflexivity|].
    destruct (proj2 (cscope_lines_total out)) as [r2 L].
    { intros ls' line T' I. apply lines_iff in T, T'. rewrite T in T'. subst ls'. auto. }
    rewrite L. f_equal. rewrite R. apply (cscope_lines_ok _ _ L _ T).
  - destruct (cs_out cs s d) as [out|] eqn:O.
    + intros L. destruct (lines_total (String.length out) out (le_n _)) as [ls T]. destruct (cscope_lines_ok _ _ L _ T) as [R1 R2].
      apply (says_lines cs s d out ls r O T R1 R2).
    + intros E. injection E as <-. apply says_nothing, O.
Qed.
Lemma cscope_run_answer cs st s d : cs_db cs = true -> cache_valid cs st -> fst (cscope_run cs st s d) = answer cs s d.
Proof.
  intros B V. unfold cscope_run, answer. destruct (dget (cs_cache st) (s, d)) as [r|] eqn:G.
  - destruct (V _ _ _ G) as [Y _]. apply says_answer in Y. symmetry. exact Y.
  - rewrite B. cbn [negb]. destruct (cs_out cs s d) as [out|]; [|reflexivity]. destruct (cscope_lines out); reflexivity.
Qed.
Definition extra (cs : cscope) (symbol : string) : res (list string) :=
  if is_param symbol then Ok ["kernel/params.c"%string]
  else if startswith symbol "__tracepoint_" then
    do l <- answer cs "EXPORT_TRACEPOINT_SYMBOL" false;
    Ok (filter (fun c => endswith c ("(" ++ drop (String.length "__tracepoint_") symbol ++ ");")%string) l)
  else if String.eqb symbol "rcu_barrier" then Ok ["kernel/rcutree.c"%string] else Ok [].
Definition lookup (cs : cscope) (symbol : string) : res (list string) :=
  do defs <- answer cs symbol true;
  do uses <- answer cs symbol false;
  do x <- extra cs symbol;
  match x ++ defs, uses with
  | [], [] => if String.eqb symbol "vfree" then candidates ["mm/vmalloc.c"%string] [] else Err SourceNotFoundException
  | l, _ => candidates l uses
  end.
Lemma find_srcs_valid cs st s : cache_valid cs st -> cache_valid cs (snd (find_srcs cs st s)).
Proof.
  intros V. unfold find_srcs, tracepoint_uses. pose proof (cscope_run_valid cs st s true V) as V1.
  destruct (cscope_run cs st s true) as [[defs|] st1]; cbn [snd] in V1; [|exact V1].
  pose proof (cscope_run_valid cs st1 s false V1) as V2.
  destruct (cscope_run cs st1 s false) as [[uses|] st2]; cbn [snd] in V2; [|exact V2].
  pose proof (cscope_run_valid cs st2 "EXPORT_TRACEPOINT_SYMBOL" false V2) as V3.
  destruct (is_param s); [exact V2|]. destruct (startswith s "__tracepoint_").
  - destruct (cscope_run cs st2 "EXPORT_TRACEPOINT_SYMBOL" false) as [r3 st3]. exact V3.
  - destruct (String.eqb s "rcu_barrier"); exact V2.
Qed.
Lemma find_srcs_lookup cs st s : cs_db cs = true -> cache_valid cs st -> fst (find_srcs cs st s) = lookup cs s.
Proof.
  intros B V. unfold find_srcs, lookup, extra, tracepoint_uses.
  pose proof (cscope_run_valid cs st s true V) as V1. pose proof (cscope_run_answer cs st s true B V) as A1.
  destruct (cscope_run cs st s true) as [r1 st1]; cbn [fst snd] in V1, A1. rewrite <- A1. destruct r1 as [defs|]; [|reflexivity]. cbn [bind].
  pose proof (cscope_run_valid cs st1 s false V1) as V2. pose proof (cscope_run_answer cs st1 s false B V1) as A2.
  destruct (cscope_run cs st1 s false) as [r2 st2]; cbn [fst snd] in V2, A2. rewrite <- A2. destruct r2 as [uses|]; [|reflexivity]. cbn [bind].
  destruct (is_param s); [destruct uses; reflexivity|]. destruct (startswith s "__tracepoint_").
  - pose proof (cscope_run_answer cs st2 "EXPORT_TRACEPOINT_SYMBOL" false B V2) as A3.
    destruct (cscope_run cs st2 "EXPORT_TRACEPOINT_SYMBOL" false) as [r3 st3]; cbn [fst] in A3. rewrite <- A3. destruct r3; [|reflexivity]. cbn [bind fst].
    destruct (filter _ _ ++ defs); destruct uses; reflexivity.
  - destruct (String.eqb s "rcu_barrier"); cbn [bind fst app]; [destruct uses; reflexivity|]. destruct defs; destruct uses; reflexivity.
Qed.
Lemma is_param_iff s : is_param s = true <-> prefix_of "param_get_" s \/ prefix_of "param_set_" s \/ prefix_of "param_ops_" s.
Proof. unfold is_param. cbn [existsb]. rewrite !orb_true_iff, !prefix_iff. intuition discriminate. Qed.
Lemma drop_tracepoint s : startswith s "__tracepoint_" = true -> s = ("__tracepoint_" ++ drop (String.length "__tracepoint_") s)%string.
Proof. intros H. apply prefix_iff in H as (r & ->). rewrite drop_app. reflexivity. Qed.
Lemma lookup_ok cs s files : lookup cs s = Ok files -> exists defs uses more,
  cscope_says cs s true defs /\ cscope_says cs s false uses /\ further_defs cs s defs uses more /\ candidates (more ++ defs) uses = Ok files.
Proof.
  unfold lookup. destruct (answer cs s true) as [defs|] eqn:A1; [|discriminate]. destruct (answer cs s false) as [uses|] eqn:A2; [|discriminate]. cbn [bind].
  apply says_answer in A1, A2. unfold extra. destruct (is_param s) eqn:P.
  { cbn [bind app]. intros C. exists defs, uses, ["kernel/params.c"%string]. repeat (split; [assumption|]). split; [apply fd_param, is_param_iff, P|exact C]. }
  assert (NP : ~ prefix_of "param_get_" s /\ ~ prefix_of "param_set_" s /\ ~ prefix_of "param_ops_" s).
  { assert (~ (prefix_of "param_get_" s \/ prefix_of "param_set_" s \/ prefix_of "param_ops_" s)) by (rewrite <- is_param_iff; congruence). tauto. }
  destruct (startswith s "__tracepoint_") eqn:T.
  { destruct (answer cs "EXPORT_TRACEPOINT_SYMBOL" false) as [ex|] eqn:A3; [|discriminate]. cbn [bind]. apply says_answer in A3.
    intros C. exists defs, uses, (filter (fun c => endswith c ("(" ++ drop (String.length "__tracepoint_") s ++ ");")%string) ex).
    split; [assumption|]. split; [assumption|]. split; [apply fd_trace; [apply drop_tracepoint, T|exact A3]|].
    assert (NV : String.eqb s "vfree" = false).
    { apply String.eqb_neq. intros ->. discriminate T. }
    rewrite NV in C. destruct (filter _ ex ++ defs); destruct uses; try exact C. discriminate C. }
  assert (NT : ~ prefix_of "__tracepoint_" s) by (intros H; apply prefix_iff in H; congruence).
  destruct (String.eqb_spec s "rcu_barrier") as [->|NR].
  { cbn [bind app]. intros C. exists defs, uses, ["kernel/rcutree.c"%string]. repeat (split; [assumption|]). split; [apply fd_rcu; reflexivity|exact C]. }
  cbn [bind app]. intros C. destruct (String.eqb_spec s "vfree") as [->|NV].
  - destruct defs as [|d ds]; [destruct uses as [|u us]|].
    + exists [], [], ["mm/vmalloc.c"%string]. repeat (split; [assumption|]). split; [apply fd_vfree; reflexivity|exact C].
    + exists [], (u :: us), []. repeat (split; [assumption|]). split; [apply fd_none; try tauto; intros (_ & _ & X); discriminate|exact C].
    + exists (d :: ds), uses, []. repeat (split; [assumption|]). split; [apply fd_none; try tauto; intros (_ & X & _); discriminate|exact C].
  - exists defs, uses, []. repeat (split; [assumption|]). split; [apply fd_none; try tauto|].
    destruct defs; destruct uses; try exact C. discriminate C.
Qed.
Lemma lookup_not_found cs s : lookup cs s = Err SourceNotFoundException <->
  exists defs uses, cscope_says cs s true defs /\ cscope_says cs s false uses /\ defs = [] /\ uses = [] /\ further_defs cs s [] [] [].
Proof.
  assert (CE : forall d u, candidates d u <> Err SourceNotFoundException).
  { intros d u H. apply candidates_err in H. discriminate. }
  assert (AE : forall s d, answer cs s d <> Err SourceNotFoundException).
  { intros s' d H. unfold answer in H. destruct (cs_out cs s' d); [|discriminate]. apply cscope_lines_err in H. discriminate. }
  unfold lookup. split.
  - destruct (answer cs s true) as [defs|e] eqn:A1; [|intros H; exfalso; apply (AE s true); cbn [bind] in H; congruence]. cbn [bind].
    destruct (answer cs s false) as [uses|e] eqn:A2; [|intros H; exfalso; apply (AE s false); cbn [bind] in H; congruence]. cbn [bind]. apply says_answer in A1, A2.
    unfold extra. destruct (is_param s) eqn:P; [cbn [bind app]; intros H; exfalso; exact (CE _ _ H)|].
    assert (NP : ~ (prefix_of "param_get_" s \/ prefix_of "param_set_" s \/ prefix_of "param_ops_" s)) by (rewrite <- is_param_iff; congruence).
    destruct (startswith s "__tracepoint_") eqn:T.
    + destruct (answer cs "EXPORT_TRACEPOINT_SYMBOL" false) as [ex|e] eqn:A3; [|intros H; exfalso; eapply AE; cbn [bind] in H; rewrite A3; exact H]. cbn [bind]. apply says_answer in A3.
      destruct (filter _ ex ++ defs) as [|x l] eqn:F; [|intros H; exfalso; exact (CE _ _ H)]. destruct uses; [|intros H; exfalso; exact (CE _ _ H)].
      apply app_eq_nil in F as [F ->]. intros _. exists [], []. repeat (split; [assumption||reflexivity|]).
      rewrite <- F. apply fd_trace; [apply drop_tracepoint, T|exact A3].
    + destruct (String.eqb_spec s "rcu_barrier") as [->|NR]; [cbn [bind app]; intros H; exfalso; exact (CE _ _ H)|]. cbn [bind app].
      destruct defs; [|intros H; exfalso; exact (CE _ _ H)]. destruct uses; [|intros H; exfalso; exact (CE _ _ H)].
      destruct (String.eqb_spec s "vfree") as [->|NV]; [intros H; exfalso; exact (CE _ _ H)|]. intros _. exists [], []. repeat (split; [assumption||reflexivity|]).
      apply fd_none; try tauto. intros H. apply prefix_iff in H. congruence.
  - intros (defs & uses & A1 & A2 & -> & -> & F). apply says_answer in A1, A2. rewrite A1, A2. cbn [bind]. unfold extra.
    inversion F as [| name ex E A3 X | | | P1 P2 P3 T R V].
    + assert (Q : is_param s = false).
      { apply not_true. rewrite is_param_iff. subst s. intros [(r & H)|[(r & H)|(r & H)]]; discriminate H. }
      rewrite Q. assert (T : startswith s "__tracepoint_" = true) by (apply prefix_iff; exists name; exact E). rewrite T. apply says_answer in A3. rewrite A3. cbn [bind].
      subst s. rewrite drop_app. cbn [append] in X |- *. rewrite X. reflexivity.
    + assert (Q : is_param s = false) by (apply not_true; rewrite is_param_iff; tauto). rewrite Q.
      destruct (startswith s "__tracepoint_") eqn:T'; [exfalso; apply T, prefix_iff, T'|]. apply String.eqb_neq in R. rewrite R. cbn [bind app].
      destruct (String.eqb_spec s "vfree") as [->|NV]; [exfalso; tauto|reflexivity].
Qed.

(** The searches that cscope is run for. *)
Definition once (cs : cscope) (st : cstate) : Prop := forall s d,
  (exists out r, cs_out cs s d = Some out /\ cscope_lines out = Ok r) ->
  runs_of st s d = match dget (cs_cache st) (s, d) with Some _ => 1 | None => 0 end.
Lemma key_eqb (s s' : string) (d d' : bool) : String.eqb s s' && Bool.eqb d d' = true <-> (s, d) = (s', d').
Proof. rewrite andb_true_iff, String.eqb_eq, Bool.eqb_true_iff. split; [intros [-> ->]; reflexivity|intros E; injection E as -> ->; auto]. Qed.
Lemma once_run cs st s d : once cs st -> once cs (snd (cscope_run cs st s d)).
Proof.
  intros O. unfold cscope_run. destruct (dget (cs_cache st) (s, d)) as [r|] eqn:G; [exact O|].
  destruct (negb (cs_db cs)); [exact O|]. destruct (cs_out cs s d) as [out|] eqn:C; [destruct (cscope_lines out) as [r|] eqn:L|]; cbn [snd].
  - intros s' d' A. unfold runs_of. cbn [cs_runs cs_cache filter fst snd]. destruct (String.eqb s s' && Bool.eqb d d') eqn:K.
    + apply key_eqb in K. injection K as -> ->. rewrite dget_dset_same. cbn [length]. fold (runs_of st s' d'). rewrite (O s' d' A), G. reflexivity.
    + rewrite dget_dset_other; [apply (O s' d' A)|]. intros E. injection E as -> ->. rewrite (proj2 (key_eqb s s d d) eq_refl) in K. discriminate.
  - intros s' d' A. unfold runs_of. cbn [cs_runs cs_cache filter fst snd]. destruct (String.eqb s s' && Bool.eqb d d') eqn:K; [|apply (O s' d' A)].
    apply key_eqb in K. injection K as -> ->. destruct A as (out' & r & E1 & E2). congruence.
  - intros s' d' A. unfold runs_of. cbn [cs_runs cs_cache filter fst snd]. destruct (String.eqb s s' && Bool.eqb d d') eqn:K; [|apply (O s' d' A)].
    apply key_eqb in K. injection K as -> ->. destruct A as (out' & r & E1 & E2). congruence.
Qed.
Lemma once_find cs st s : once cs st -> once cs (snd (find_srcs cs st s)).
Proof.
  intros V. unfold find_srcs, tracepoint_uses. pose proof (once_run cs st s true V) as V1.
  destruct (cscope_run cs st s true) as [[defs|] st1]; cbn [snd] in V1; [|exact V1].
  pose proof (once_run cs st1 s false V1) as V2.
  destruct (cscope_run cs st1 s false) as [[uses|] st2]; cbn [snd] in V2; [|exact V2].
  pose proof (once_run cs st2 "EXPORT_TRACEPOINT_SYMBOL" false V2) as V3.
  destruct (is_param s); [exact V2|]. destruct (startswith s "__tracepoint_").
  - destruct (cscope_run cs st2 "EXPORT_TRACEPOINT_SYMBOL" false) as [r3 st3]. exact V3.
  - destruct (String.eqb s "rcu_barrier"); exact V2.
Qed.
Lemma lookups_once cs l : forall st, once cs st -> once cs (lookups cs st l).
Proof. induction l as [|s l IH]; intros st O; cbn; [exact O|]. apply IH, once_find, O. Qed.
Lemma lookups_valid cs l : forall st, cache_valid cs st -> cache_valid cs (lookups cs st l).
Proof. induction l as [|s l IH]; intros st O; cbn; [exact O|]. apply IH, find_srcs_valid, O. Qed.
Lemma once_initial cs : once cs (mkCstate [] []).
Proof. intros s d _. reflexivity. Qed.

(** ** gcc commands *)
Lemma app_inv_tail_s (a b t : string) : (a ++ t)%string = (b ++ t)%string -> a = b.
Proof. intros E. rewrite <- (chop_app a t), <- (chop_app b t), E. reflexivity. Qed.
Lemma chop_c r : chop 2 (r ++ ".c") = r.
Proof. exact (chop_app r ".c"). Qed.
Lemma chop_o r : chop 2 (r ++ ".o") = r.
Proof. exact (chop_app r ".o"). Qed.
Lemma omitted_iff p : gcc_drops p = true <-> omitted p.
Proof.
  unfold gcc_drops, omitted. rewrite !orb_true_iff, andb_true_iff, negb_true_iff, !String.eqb_eq, !prefix_iff, suffix_iff, <- not_true, inside_iff. tauto.
Qed.
Lemma remove_char_iff c s t : remove_char c s = t <-> without c s t.
Proof.
  split.
  - intros <-. induction s as [|x s IH]; cbn [remove_char]; [constructor|]. destruct (Ascii.eqb_spec x c) as [->|N]; constructor; assumption.
  - induction 1 as [|s t W IH|x s t N W IH]; cbn [remove_char]; [reflexivity| |].
    + rewrite Ascii.eqb_refl. exact IH.
    + apply Ascii.eqb_neq in N. rewrite N, IH. reflexivity.
Qed.
Lemma unquoted_iff p q : strip_quotes p = q <-> unquoted p q.
Proof.
  unfold strip_quotes, unquoted, squote, dquote. destruct (has_char "'" p); rewrite remove_char_iff.
  - split; [auto|]. intros [[_ H]|[H _]]; [exact H|discriminate].
  - split; [auto|]. intros [[H _]|[_ H]]; [discriminate|exact H].
Qed.
Lemma hash_exclusive p : prefix_of hash1 p -> prefix_of hash2 p -> False.
Proof. intros (a & ->) (b & E). discriminate E. Qed.
Lemma debug_hash_spec p :
  (prefix_of hash1 p /\ debug_hash p = "-D""DEBUG_HASH=1"""%string) \/
  (prefix_of hash2 p /\ debug_hash p = "-D""DEBUG_HASH2=1"""%string) \/
  (~ prefix_of hash1 p /\ ~ prefix_of hash2 p /\ debug_hash p = p).
Proof.
  unfold debug_hash. fold hash1 hash2. destruct (startswith p hash1) eqn:H1.
  - left. split; [apply prefix_iff, H1|reflexivity].
  - destruct (startswith p hash2) eqn:H2.
    + right. left. split; [apply prefix_iff, H2|reflexivity].
    + right. right. rewrite <- !prefix_iff. split; [congruence|]. split; [congruence|reflexivity].
Qed.
Lemma clang_param_iff p q : strip_quotes (debug_hash p) = q <-> clang_param p q.
Proof.
  unfold clang_param. destruct (debug_hash_spec p) as [(H & ->)|[(H & ->)|(H1 & H2 & ->)]].
  - change (strip_quotes "-D""DEBUG_HASH=1""") with "-DDEBUG_HASH=1"%string. split; [intros <-; auto|].
    intros [(_ & ->)|[(X & _)|(X & _)]]; [reflexivity|destruct (hash_exclusive p H X)|tauto].
  - change (strip_quotes "-D""DEBUG_HASH2=1""") with "-DDEBUG_HASH2=1"%string. split; [intros <-; auto|].
    intros [(X & _)|[(_ & ->)|(_ & X & _)]]; [destruct (hash_exclusive p X H)|reflexivity|tauto].
  - rewrite unquoted_iff. split; [auto|]. intros [(X & _)|[(X & _)|(_ & _ & X)]]; tauto.
Qed.
Lemma c_source_iff p stem : endswith (debug_hash p) ".c" = true /\ chop 2 (debug_hash p) = stem <-> c_source p stem.
Proof.
  unfold c_source. destruct (debug_hash_spec p) as [(H & ->)|[(H & ->)|(H1 & H2 & ->)]].
  - split; [intros [X _]; discriminate X|]. intros (_ & X & _). tauto.
  - split; [intros [X _]; discriminate X|]. intros (_ & _ & X). tauto.
  - rewrite suffix_iff. split.
    + intros [(r & ->) X]. rewrite chop_c in X. subst stem. auto.
    + intros (-> & _ & _). split; [exists stem; reflexivity|apply chop_c].
Qed.
Lemma c_source_fun p s1 s2 : c_source p s1 -> c_source p s2 -> s1 = s2.
Proof. intros A B. apply c_source_iff in A as [_ A], B as [_ B]. congruence. Qed.
Lemma last_source_fun l s1 s2 : last_source l s1 -> last_source l s2 -> s1 = s2.
Proof.
  intros (a & p & b & -> & C1 & N1) (a' & p' & b' & E & C2 & N2). revert a' E. induction a as [|x a IH]; intros [|x' a'] E; cbn in E; injection E as E1 E2.
  - subst p'. apply (c_source_fun p); assumption.
  - exfalso. apply (N1 p' s2); [rewrite E2; apply in_or_app; right; left; reflexivity|exact C2].
  - exfalso. subst b'. apply (N2 p s1); [apply in_or_app; right; left; reflexivity|exact C1].
  - eapply IH, E2.
Qed.
Lemma kept_total l : exists k, Kept_words l k.
Proof.
  induction l as [|p l (k & K)]; [exists []; constructor|]. destruct (gcc_drops p) eqn:G.
  - exists k. apply kw_omit; [apply omitted_iff, G|exact K].
  - exists (p :: k). apply kw_keep; [rewrite <- omitted_iff; congruence|exact K].
Qed.
Lemma last_source_snoc l p s : last_source (l ++ [p]) s <-> c_source p s \/ ((forall t, ~ c_source p t) /\ last_source l s).
Proof.
  split.
  - intros (a & q & b & E & C & N). destruct b as [|y b _] using rev_ind.
    + apply app_inj_tail in E as [_ <-]. auto.
    + rewrite app_comm_cons, app_assoc in E. apply app_inj_tail in E as [-> ->]. right. split; [intros t; apply N, in_or_app; right; left; reflexivity|].
      exists a, q, b. split; [reflexivity|]. split; [exact C|]. intros r t I. apply N, in_or_app. auto.
  - intros [C|[N (a & q & b & -> & C & M)]].
    + exists l, p, []. repeat split; try apply C. cbn. tauto.
    + exists a, q, (b ++ [p]). split; [rewrite <- app_assoc; reflexivity|]. split; [exact C|]. intros r t I. apply in_app_or in I as [I|[<-|[]]]; auto.
Qed.
Lemma gcc_fold ws k : Kept_words ws k -> forall done cmd out args,
  Forall2 clang_param done args -> (forall s, out = Some (s ++ ".ll")%string <-> last_source done s) ->
  (forall o, out = Some o -> exists s, o = (s ++ ".ll")%string) ->
  exists args' out', fold_left gcc_step ws (cmd ++ args, out) = (cmd ++ args', out') /\ Forall2 clang_param (done ++ k) args' /\
    (forall s, out' = Some (s ++ ".ll")%string <-> last_source (done ++ k) s) /\ (forall o, out' = Some o -> exists s, o = (s ++ ".ll")%string).
Proof.
  induction 1 as [|p l k O K IH|p l k O K IH]; intros done cmd out args F L X.
  - exists args, out. rewrite app_nil_r. auto.
  - cbn [fold_left]. unfold gcc_step at 2. apply omitted_iff in O. rewrite O. apply IH; assumption.
  - cbn [fold_left]. unfold gcc_step at 2. rewrite <- omitted_iff in O. apply not_true in O. rewrite O. cbn [fst snd]. rewrite <- app_assoc.
    assert (F' : Forall2 clang_param (done ++ [p]) (args ++ [strip_quotes (debug_hash p)])).
    { apply Forall2_app; [exact F|]. constructor; [apply clang_param_iff; reflexivity|constructor]. }
    destruct (IH (done ++ [p]) cmd (if endswith (debug_hash p) ".c" then Some (chop 2 (debug_hash p) ++ ".ll")%string else out) _ F') as (args' & out' & E & G).
    + intros s. rewrite last_source_snoc. destruct (endswith (debug_hash p) ".c") eqn:C.
      * split.
        -- intros Y. left. apply c_source_iff. split; [exact C|]. injection Y as Y. apply app_inv_tail_s in Y. exact Y.
        -- intros [Y|[Y _]]; [apply c_source_iff in Y as [_ <-]; reflexivity|]. exfalso. apply (Y (chop 2 (debug_hash p))). apply c_source_iff. auto.
      * rewrite L. split; [intros Y; right; split; [|exact Y]; intros t Z; apply c_source_iff in Z as [Z _]; congruence|].
        intros [Y|[_ Y]]; [apply c_source_iff in Y as [Y _]; congruence|exact Y].
    + destruct (endswith (debug_hash p) ".c"); [|exact X]. intros o Y. injection Y as <-. eauto.
    + exists args', out'. split; [exact E|]. rewrite <- app_assoc in G. exact G.
Qed.
Lemma gcc_to_llvm_spec command ws k : words_of command ws -> Kept_words ws k -> exists args,
  Forall2 clang_param k args /\
  ((exists stem, last_source k stem /\ gcc_to_llvm command = Ok (clang_base ++ args ++ ["-o"%string; (stem ++ ".ll")%string])) \/
   ((forall stem, ~ last_source k stem) /\ gcc_to_llvm command = Err BuildException)).
Proof.
  intros W K. apply words_iff in W. subst ws. destruct (gcc_fold _ _ K [] clang_base None []) as (args & out & E & F & L & X).
  - constructor.
  - intros s. split; [discriminate|]. intros (a & p & b & H & _). destruct a; discriminate.
  - discriminate.
  - rewrite app_nil_r in E. exists args. split; [exact F|]. unfold gcc_to_llvm. rewrite E. destruct out as [o|].
    + left. destruct (X o eq_refl) as (s & ->). exists s. split; [apply L; reflexivity|]. rewrite <- app_assoc. reflexivity.
    + right. split; [|reflexivity]. intros s H. apply L in H. discriminate.
Qed.
Lemma dash_o r : (r ++ ".o")%string <> "-o"%string.
Proof. intros E. assert (Q : endswith "-o" ".o" = true) by (apply suffix_iff; exists r; symmetry; exact E). discriminate Q. Qed.
Lemma ld_to_llvm_spec command ws k : words_of command ws -> (ld_to_llvm command = ["llvm-link"; "-S"]%string ++ k <-> Link_words ws k).
Proof.
  intros W. apply words_iff in W. unfold ld_to_llvm. rewrite W. clear W.
  assert (H : forall a b : list string, ["llvm-link"; "-S"]%string ++ a = ["llvm-link"; "-S"]%string ++ b <-> a = b).
  { intros a b. split; [apply app_inv_head|congruence]. }
  rewrite H. clear H. revert k. induction ws as [|p l IH]; intros k; cbn [flat_map].
  - split; [intros <-; constructor|]. intros L. inversion L. reflexivity.
  - destruct (endswith p ".o") eqn:O; [|destruct (String.eqb_spec p "-o") as [->|N]]; cbn [app].
    + apply suffix_iff in O as (r & ->). rewrite chop_o. split.
      * intros <-. constructor. apply IH. reflexivity.
      * intros L. remember (r ++ ".o")%string as p eqn:Ep. remember (p :: l) as ws eqn:E. destruct L as [|s l' k' L'|l' k' L'|p' l' k' N1 N2 L']; [discriminate|injection E as E <-..]; subst p.
        -- apply app_inv_tail_s in E. subst s. f_equal. apply IH, L'.
        -- exfalso. apply (dash_o r). symmetry. exact E.
        -- exfalso. apply N1. exists r. exact E.
    + split.
      * intros <-. constructor. apply IH. reflexivity.
      * intros L. remember ("-o"%string :: l) as ws eqn:E. destruct L as [|s l' k' L'|l' k' L'|p' l' k' N1 N2 L']; [discriminate|injection E; intros; subst..].
        -- exfalso. eapply dash_o. eassumption.
        -- f_equal. apply IH, L'.
        -- congruence.
    + assert (NO : ~ suffix_of ".o" p) by (rewrite <- suffix_iff; congruence). split.
      * intros E. apply lw_other; [exact NO|exact N|apply IH, E].
      * intros L. remember (p :: l) as ws eqn:E. destruct L as [|s l' k' L'|l' k' L'|p' l' k' N1 N2 L']; [discriminate|injection E as E ->..]; [exfalso; apply NO; exists s; auto|congruence|apply IH, L'].
Qed.

(** ** Headers *)
Definition g_old := replace goto_old goto_new.
Definition g_new := replace goto_new goto_old.
Lemma g_old_R s : Replaced goto_old goto_new s (g_old s).
Proof. apply replace_Replaced. discriminate. Qed.
Lemma g_new_R s : Replaced goto_new goto_old s (g_new s).
Proof. apply replace_Replaced. discriminate. Qed.
(** A text without [a] at the beginning of a changed line is at the beginning of the line. *)
Lemma replaced_prefix (x y : string) s r p : Replaced (String "a" x) (String "a" y) s r -> has_char "a" p = false ->
  prefix_of p r -> prefix_of p s.
Proof.
  intros H. revert p. induction H as [|s r H IH|c s r M H IH]; intros p A (t & E).
  - exists t. exact E.
  - destruct p as [|d p]; [exists (String "a" x ++ s)%string; reflexivity|]. cbn in E. injection E as <- _. cbn in A. rewrite Ascii.eqb_refl in A. discriminate.
  - destruct p as [|d p]; [exists (String c s); reflexivity|]. cbn in E. injection E as <- E. cbn in A. apply orb_false_iff in A as [_ A].
    destruct (IH p A) as (u & ->); [exists t; exact E|]. exists u. reflexivity.
Qed.
Lemma inside_cons p c s : inside p s -> inside p (String c s).
Proof. intros (a & b & ->). exists (String c a), b. reflexivity. Qed.
Lemma inside_app p a s : inside p s -> inside p (a ++ s).
Proof. intros (u & v & ->). exists (a ++ u)%string, v. rewrite app_assoc_s. reflexivity. Qed.
Lemma g_back s : ~ inside goto_new s -> g_new (g_old s) = s.
Proof.
  intros N. apply (Replaced_fun goto_new goto_old (g_old s)); [discriminate|apply g_new_R|].
  pose proof (g_old_R s) as H. revert N. induction H as [|s r H IH|c s r M H IH]; intros N.
  - constructor.
  - constructor. apply IH. intros I. apply N, inside_app, I.
  - constructor; [|apply IH; intros I; apply N, inside_cons, I].
    intros t E. unfold goto_new in E. injection E as -> E. apply N.
    destruct (replaced_prefix _ _ _ _ (chop 0 "sm (""goto("" #x "")"")") H eq_refl) as (u & ->); [exists t; exact E|].
    exists ""%string, u. reflexivity.
Qed.
Lemma g_keep s : ~ inside goto_new s -> g_new s = s.
Proof. intros N. apply replace_no_occurrence; [discriminate|]. apply not_true. rewrite inside_iff. exact N. Qed.
Lemma g_old_clean s : ~ inside goto_old (g_old s).
Proof.
  pose proof (g_old_R s) as H. induction H as [|s r H IH|c s r M H IH].
  - intros ([|] & b & E); discriminate.
  - intros ([|c1 [|c2 [|c3 [|c4 [|c5 [|c6 [|c7 [|c8 [|c9 [|c10 [|c11 [|c12 [|c13 [|c14 [|c15 [|c16 [|c17 [|c18 [|c19 [|c20 a]]]]]]]]]]]]]]]]]]]] & b & E); try discriminate E.
    apply (f_equal (drop 20)) in E. cbn [goto_new append drop] in E. apply IH. exists a, b. exact E.
  - intros ([|d a] & b & E); cbn [append] in E.
    + unfold goto_old in E. injection E as -> E. destruct (replaced_prefix _ _ _ _ "sm goto(x)" H eq_refl) as (u & ->); [exists b; exact E|].
      apply (M u). reflexivity.
    + injection E as _ E. apply IH. exists a, b. exact E.
Qed.
Lemma g_old_idem s : g_old (g_old s) = g_old s.
Proof. apply replace_no_occurrence; [discriminate|]. apply not_true. rewrite inside_iff. apply g_old_clean. Qed.
Lemma replaced_no_char c old new s r : Replaced old new s r -> has_char c new = false -> has_char c s = false -> has_char c r = false.
Proof.
  intros H N. induction H as [|s r H IH|d s r M H IH]; intros S; [reflexivity| |].
  - rewrite Wrapper_Proofs.has_char_app in *. apply orb_false_iff in S as [_ S]. rewrite N, IH by exact S. reflexivity.
  - cbn in *. apply orb_false_iff in S as [S1 S2]. rewrite S1, IH by exact S2. reflexivity.
Qed.

(** Texts as pieces between newlines. *)
Definition unpiece (ps : list string) : string := join (String nl "") ps.
Definition plain (l : string) : Prop := has_char nl l = false.
Lemma split_unpiece ps : ps <> [] -> Forall plain ps -> split_char nl (unpiece ps) = ps.
Proof. apply Syndiff_Proofs.split_join. Qed.
Lemma unpiece_split s : unpiece (split_char nl s) = s.
Proof. apply join_split_char. Qed.
Lemma unpiece_cons l m ps : unpiece (l :: m :: ps) = (l ++ String nl "" ++ unpiece (m :: ps))%string.
Proof. reflexivity. Qed.
Lemma sed_change g ps : g ""%string = ""%string -> sed_pieces (fun l => ([], Some (g l))) ps = unpiece (map g ps).
Proof.
  intros G. induction ps as [|l ps IH]; [reflexivity|]. destruct ps as [|m ps].
  - cbn. destruct (String.eqb_spec l "") as [->|N]; [rewrite G; reflexivity|apply app_nil_r_s].
  - cbn [map]. rewrite unpiece_cons. change (sed_pieces ?f (l :: m :: ps)) with (sed_line f (String nl "") l ++ sed_pieces f (m :: ps))%string. rewrite IH.
    unfold sed_line. cbn [map String.concat]. rewrite !app_assoc_s. reflexivity.
Qed.
Definition ins (l : string) : list string := (if contains l ifdef_text then [undef_line] else []) ++ [l].
Lemma unpiece_app a b : a <> [] -> b <> [] -> unpiece (a ++ b) = (unpiece a ++ String nl "" ++ unpiece b)%string.
Proof.
  intros A B. induction a as [|l a IH]; [congruence|]. destruct a as [|m a].
  - cbn [app]. destruct b as [|m b]; [congruence|]. apply unpiece_cons.
  - change ((l :: m :: a) ++ b) with (l :: m :: (a ++ b)). rewrite !unpiece_cons. change (m :: a ++ b) with ((m :: a) ++ b).
    rewrite IH by discriminate. rewrite !app_assoc_s. reflexivity.
Qed.
Lemma ins_ne l : ins l <> [].
Proof. unfold ins. destruct (contains l ifdef_text); discriminate. Qed.
Lemma flat_ins_ne ps : ps <> [] -> flat_map ins ps <> [].
Proof. destruct ps as [|l ps]; [congruence|]. cbn. intros _ E. apply app_eq_nil in E as [E _]. exact (ins_ne l E). Qed.
Lemma sed_insert ps : sed_pieces disable_inline ps = unpiece (flat_map ins ps).
Proof.
  induction ps as [|l ps IH]; [reflexivity|]. destruct ps as [|m ps].
  - cbn [sed_pieces flat_map]. destruct (String.eqb_spec l "") as [->|N]; [reflexivity|]. unfold sed_line, disable_inline, ins.
    destruct (contains l ifdef_text); cbn [map String.concat app].
    + rewrite unpiece_cons. rewrite !app_assoc_s, !app_nil_r_s. reflexivity.
    + cbn. apply app_nil_r_s.
  - change (sed_pieces ?f (l :: m :: ps)) with (sed_line f (String nl "") l ++ sed_pieces f (m :: ps))%string. rewrite IH.
    change (flat_map ins (l :: m :: ps)) with (ins l ++ flat_map ins (m :: ps)). rewrite unpiece_app; [|apply ins_ne|apply flat_ins_ne; discriminate].
    set (T := unpiece (flat_map ins (m :: ps))). unfold sed_line, disable_inline, ins. destruct (contains l ifdef_text); cbn [map String.concat app].
    + rewrite unpiece_cons, !app_assoc_s. reflexivity.
    + cbn [unpiece join]. rewrite !app_assoc_s. reflexivity.
Qed.
Definition keep_line (l : string) : bool := negb (contains l undef_line).
Lemma sed_delete ps : ps <> [] -> keep_line (last ps ""%string) = true -> sed_pieces enable_inline ps = unpiece (filter keep_line ps).
Proof.
  induction ps as [|l ps IH]; [congruence|]. intros _ K. destruct ps as [|m ps].
  - cbn [last] in K. cbn [filter]. rewrite K. cbn [sed_pieces]. destruct (String.eqb_spec l "") as [->|N]; [reflexivity|].
    unfold sed_line, enable_inline. unfold keep_line in K. apply negb_true_iff in K. rewrite K. cbn. apply app_nil_r_s.
  - change (sed_pieces ?f (l :: m :: ps)) with (sed_line f (String nl "") l ++ sed_pieces f (m :: ps))%string.
    change (last (l :: m :: ps) ""%string) with (last (m :: ps) ""%string) in K. rewrite IH by (discriminate || exact K).
    assert (NE : filter keep_line (m :: ps) <> []).
    { intros E. assert (I : In (last (m :: ps) ""%string) (filter keep_line (m :: ps))).
      { apply filter_In. split; [|exact K]. clear. revert m. induction ps as [|n ps IH]; intros m; [left; reflexivity|]. right. apply IH. }
      rewrite E in I. exact I. }
    set (F := filter keep_line (m :: ps)) in *. replace (filter keep_line (l :: m :: ps)) with (if keep_line l then l :: F else F) by reflexivity.
    unfold sed_line, enable_inline, keep_line. destruct (contains l undef_line); cbn [negb map String.concat append]; [reflexivity|].
    destruct F as [|n ns]; [congruence|]. rewrite unpiece_cons, app_assoc_s. reflexivity.
Qed.

Lemma g_old_plain l : plain l -> plain (g_old l).
Proof. apply replaced_no_char with (1 := g_old_R l). reflexivity. Qed.
Lemma g_new_plain l : plain l -> plain (g_new l).
Proof. apply replaced_no_char with (1 := g_new_R l). reflexivity. Qed.
Lemma disable_pieces ps : ps <> [] -> Forall plain ps -> disable_header (unpiece ps) = unpiece (flat_map ins (map g_old ps)).
Proof.
  intros N P. unfold disable_header, sed at 2. rewrite split_unpiece by assumption.
  change disable_goto with (fun l => (@nil string, Some (g_old l))). rewrite sed_change by reflexivity.
  unfold sed. rewrite split_unpiece; [apply sed_insert| |].
  - destruct ps; [congruence|discriminate].
  - apply Forall_map. eapply Forall_impl; [|exact P]. apply g_old_plain.
Qed.
Lemma last_map {A B} (f : A -> B) l d : last (map f l) (f d) = f (last l d).
Proof. induction l as [|x l IH]; [reflexivity|]. destruct l; [reflexivity|exact IH]. Qed.
Lemma enable_pieces ps : ps <> [] -> Forall plain ps -> keep_line (g_new (last ps ""%string)) = true ->
  enable_header (unpiece ps) = unpiece (filter keep_line (map g_new ps)).
Proof.
  intros N P K. unfold enable_header, sed at 2. rewrite split_unpiece by assumption.
  change enable_goto with (fun l => (@nil string, Some (g_new l))). rewrite sed_change by reflexivity.
  unfold sed. rewrite split_unpiece; [apply sed_delete| |].
  - destruct ps; [congruence|discriminate].
  - change ""%string with (g_new ""%string). rewrite last_map. exact K.
  - destruct ps; [congruence|discriminate].
  - apply Forall_map. eapply Forall_impl; [|exact P]. apply g_new_plain.
Qed.
(** [Q] is [P] after some disabling. *)
Inductive Dis : list string -> list string -> Prop :=
| dis_nil : Dis [] []
| dis_line l m P Q : m = l \/ m = g_old l -> Dis P Q -> Dis (l :: P) (m :: Q)
| dis_undef l P Q : Dis (l :: P) Q -> Dis (l :: P) (undef_line :: Q).
Lemma dis_refl P : Dis P P.
Proof. induction P; constructor; auto. Qed.
Lemma dis_step P Q : Dis P Q -> Dis P (flat_map ins (map g_old Q)).
Proof.
  induction 1 as [|l m P Q M D IH|l P Q D IH]; cbn [map flat_map]; [constructor| |].
  - assert (E : g_old m = g_old l) by (destruct M as [-> | ->]; [reflexivity|apply g_old_idem]). rewrite E. unfold ins at 1.
    destruct (contains (g_old l) ifdef_text); cbn [app]; [apply dis_undef|]; apply dis_line; auto.
  - change (ins (g_old undef_line)) with [undef_line]. cbn [app]. apply dis_undef, IH.
Qed.
Lemma dis_plain P Q : Forall plain P -> Dis P Q -> Forall plain Q.
Proof.
  intros F. induction 1 as [|l m P Q M D IH|l P Q D IH]; [constructor| |].
  - inversion F; subst. constructor; [|auto]. destruct M as [-> | ->]; [assumption|]. apply g_old_plain. assumption.
  - constructor; [reflexivity|auto].
Qed.
Lemma dis_ne P Q : Dis P Q -> P <> [] -> Q <> [].
Proof. intros [| |]; congruence. Qed.
Definition untouched (l : string) : Prop := ~ inside goto_new l /\ ~ inside undef_line l.
Lemma dis_last P Q : Dis P Q -> P <> [] -> last Q ""%string = last P ""%string \/ last Q ""%string = g_old (last P ""%string).
Proof.
  induction 1 as [|l m P Q M D IH|l P Q D IH]; [congruence| |]; intros _.
  - destruct P as [|p P]; [inversion D; exact M|]. assert (NQ : Q <> []) by (eapply dis_ne; [exact D|discriminate]). destruct Q as [|q Q]; [congruence|].
    change (last (m :: q :: Q) ""%string) with (last (q :: Q) ""%string). change (last (l :: p :: P) ""%string) with (last (p :: P) ""%string). apply IH. discriminate.
  - assert (NQ : Q <> []) by (eapply dis_ne; [exact D|discriminate]). destruct Q as [|q Q]; [congruence|].
    change (last (undef_line :: q :: Q) ""%string) with (last (q :: Q) ""%string). apply IH. discriminate.
Qed.
Lemma dis_back P Q : Forall untouched P -> Dis P Q -> filter keep_line (map g_new Q) = P.
Proof.
  intros F. induction 1 as [|l m P Q M D IH|l P Q D IH]; [reflexivity| |].
  - inversion F as [|? ? [U1 U2] F']; subst. cbn [map].
    assert (E : g_new m = l) by (destruct M as [-> | ->]; [apply g_keep, U1|apply g_back, U1]). rewrite E. cbn [filter].
    assert (K : keep_line l = true) by (unfold keep_line; apply negb_true_iff, not_true; rewrite inside_iff; exact U2). rewrite K, IH by assumption. reflexivity.
  - cbn [map]. change (g_new undef_line) with undef_line. cbn [filter]. change (keep_line undef_line) with false. cbn iota. auto.
Qed.
Lemma piece_inside s p : In p (split_char nl s) -> exists a b, s = (a ++ p ++ b)%string.
Proof.
  pose proof (unpiece_split s) as E0. revert E0. generalize (split_char nl s). intros l E0 I0. subst s. induction l as [|x l IH]; [destruct I0|].
  destruct I0 as [->|I].
  - destruct l as [|y l].
    + exists ""%string, ""%string. cbn. rewrite app_nil_r_s. reflexivity.
    + rewrite unpiece_cons. exists ""%string. eexists. reflexivity.
  - destruct (IH I) as (a & b & E). destruct l as [|y l]; [destruct I|]. rewrite unpiece_cons, E.
    exists (x ++ String nl "" ++ a)%string, b. rewrite !app_assoc_s. reflexivity.
Qed.
Lemma inside_trans p q s : inside p q -> (exists a b, s = (a ++ q ++ b)%string) -> inside p s.
Proof. intros (a & b & ->) (c & d & ->). exists (c ++ a)%string, (b ++ d)%string. rewrite !app_assoc_s. reflexivity. Qed.
Lemma repeated_dis n P : P <> [] -> Forall plain P -> exists Q, repeated n disable_header (unpiece P) = unpiece Q /\ Dis P Q.
Proof.
  intros N F. induction n as [|n (Q & E & D)]; [exists P; split; [reflexivity|apply dis_refl]|].
  cbn [repeated]. rewrite E. exists (flat_map ins (map g_old Q)). split; [|apply dis_step, D].
  apply disable_pieces; [eapply dis_ne; eassumption|eapply dis_plain; eassumption].
Qed.
Lemma split_plain s : Forall plain (split_char nl s).
Proof. apply Output_Proofs.split_no_char. Qed.
Lemma round_trip n h : ~ inside goto_new h -> ~ inside undef_line h -> enable_header (repeated n disable_header h) = h.
Proof.
  intros N1 N2. rewrite <- (unpiece_split h) at 1. destruct (repeated_dis n (split_char nl h) (split_char_nonempty _ _) (split_plain h)) as (Q & -> & D).
  assert (U : Forall untouched (split_char nl h)).
  { apply Forall_forall. intros p I. apply piece_inside in I. split; intros H; [apply N1|apply N2]; eapply inside_trans; eassumption. }
  rewrite enable_pieces.
  - rewrite (dis_back _ _ U D). apply unpiece_split.
  - eapply dis_ne; [exact D|apply split_char_nonempty].
  - eapply dis_plain; [apply split_plain|exact D].
  - pose proof (dis_last _ _ D (split_char_nonempty _ _)) as L.
    assert (UL : untouched (last (split_char nl h) ""%string)).
    { rewrite Forall_forall in U. apply U. destruct (split_char nl h) as [|x l] eqn:E; [exfalso; apply (split_char_nonempty nl h E)|].
      clear. revert x. induction l as [|y l IH]; intros x; [left; reflexivity|right; apply IH]. }
    assert (E : g_new (last Q ""%string) = last (split_char nl h) ""%string) by (destruct L as [-> | ->]; [apply g_keep, UL|apply g_back, UL]).
    rewrite E. unfold keep_line. apply negb_true_iff, not_true. rewrite inside_iff. apply UL.
Qed.
Lemma enable_clean h : ~ inside goto_new h -> ~ inside undef_line h -> enable_header h = h.
Proof. intros A B. exact (round_trip 0 h A B). Qed.
Lemma levi (a x b y : string) : (a ++ x)%string = (b ++ y)%string ->
  (exists u, a = (b ++ u)%string /\ y = (u ++ x)%string) \/ (exists u, b = (a ++ u)%string /\ x = (u ++ y)%string).
Proof.
  revert b. induction a as [|c a IH]; intros b E; [right; exists b; auto|]. destruct b as [|d b]; [left; exists (String c a); auto|].
  cbn in E. injection E as -> E. destruct (IH b E) as [(u & -> & ->)|(u & -> & ->)]; [left|right]; exists u; auto.
Qed.
(** A text without newlines inside lines is inside one of them. *)
Lemma inside_unpiece p ps : plain p -> p <> ""%string -> inside p (unpiece ps) -> exists l, In l ps /\ inside p l.
Proof.
  intros P NE. induction ps as [|l ps IH]; [intros (a & b & E); destruct a; [destruct p; [congruence|discriminate]|discriminate]|].
  destruct ps as [|m ps]; [intros I; exists l; split; [left; reflexivity|exact I]|].
  rewrite unpiece_cons. intros (a & b & E). destruct (levi _ _ _ _ E) as [(u & -> & E2)|(u & -> & E2)].
  - exists (a ++ u)%string. split; [left; reflexivity|]. destruct (levi _ _ _ _ E2) as [(v & -> & E3)|(v & -> & E3)].
    + destruct v as [|c v].
      * rewrite app_nil_r_s. exists a, ""%string. rewrite app_nil_r_s. reflexivity.
      * exfalso. injection E3 as <- _. unfold plain in P. rewrite Wrapper_Proofs.has_char_app in P. cbn in P. rewrite orb_true_r in P. discriminate.
    + exists a, v. reflexivity.
  - destruct u as [|c u].
    + destruct p as [|c p]; [congruence|]. injection E2 as <- _. discriminate P.
    + injection E2 as _ E2. destruct IH as (x & I & J); [exists u, b; exact E2|]. exists x. split; [right; exact I|exact J].
Qed.
Lemma disabled_clean h : ~ inside goto_old (disable_header h).
Proof.
  rewrite <- (unpiece_split h). rewrite disable_pieces by (apply split_char_nonempty || apply split_plain). intros I.
  apply inside_unpiece in I as (l & I & J); [|reflexivity|discriminate]. apply in_flat_map in I as (m & M & I).
  apply in_map_iff in M as (k & <- & _). unfold ins in I. apply in_app_or in I as [I|[<-|[]]]; [|exact (g_old_clean k J)].
  destruct (contains (g_old k) ifdef_text); [|destruct I]. destruct I as [<-|[]]. apply inside_iff in J. discriminate J.
Qed.
Lemma disabled_lines ps : ps <> [] -> Forall plain ps -> disable_header (unpiece ps) = unpiece (flat_map (fun l =>
  (if contains (replace goto_old goto_new l) ifdef_text then [undef_line] else []) ++ [replace goto_old goto_new l]) ps).
Proof.
  intros N F. rewrite disable_pieces by assumption. f_equal. clear. induction ps as [|l ps IH]; [reflexivity|]. cbn [map flat_map]. rewrite IH. reflexivity.
Qed.


(** ** Files *)
Lemma write_same f p c : f_get (write f p c) p = Some (f_clock f, c).
Proof. unfold f_get, write. cbn [f_at]. apply dget_dset_same. Qed.
Lemma write_other f p c q : q <> p -> f_get (write f p c) q = f_get f q.
Proof. intros N. unfold f_get, write. cbn [f_at]. apply dget_dset_other, N. Qed.
Lemma clocked_write f p c : clocked f -> clocked (write f p c).
Proof.
  intros H q t d. cbn [f_clock write]. destruct (string_dec q p) as [->|N].
  - rewrite write_same. intros E. injection E as <- _. change (f_clock (write f p c)) with (f_clock f + 1)%Z. lia.
  - rewrite write_other by exact N. intros E. apply H in E. change (f_clock (write f p c)) with (f_clock f + 1)%Z. lia.
Qed.
Lemma code_idem c : code (code c) = code c.
Proof.
  revert c. fix IH 1. intros [v|c|c|l]; cbn [code]; [reflexivity|rewrite IH; reflexivity|apply IH|]. f_equal. rewrite map_map.
  induction l as [|x l IHl]; cbn [map]; [reflexivity|]. rewrite IH, IHl. reflexivity.
Qed.
Lemma c_not_ll s : suffix_of ".c" s -> suffix_of ".ll" s -> False.
Proof.
  intros (a & ->) (b & E). destruct (levi _ _ _ _ E) as [([|c1 [|c2 [|c3 u]]] & _ & H)|([|c1 [|c2 [|c3 u]]] & _ & H)]; try discriminate H;
    apply (f_equal String.length) in H; cbn in H; rewrite ?length_app_s in H; cbn in H; lia.
Qed.
Definition same_sources (f g : files) : Prop := forall p, suffix_of ".c" p -> f_get g p = f_get f p.
Lemma same_sources_write f out c : suffix_of ".ll" out -> same_sources f (write f out c).
Proof. intros S p C. apply write_other. intros ->. exact (c_not_ll _ C S). Qed.
Lemma plan_sources f g : same_sources f g -> forall cmds env env', Plan f env cmds env' -> Plan g env cmds env'.
Proof.
  intros S cmds env env' P. induction P as [|env args src out t c rest env' A1 A2 C L F N P IH|env args out cs rest env' A L N I P IH]; [constructor| |].
  - eapply plan_clang; try eassumption. rewrite S by exact C. exact F.
  - eapply plan_link; eassumption.
Qed.
Lemma plan_mono f cmds env env' : Plan f env cmds env' -> forall o x, dget env o = Some x -> dget env' o = Some x.
Proof.
  induction 1 as [|env args src out t c rest env' A1 A2 C L F N P IH|env args out cs rest env' A L N I P IH]; intros o x E; [exact E| |];
    apply IH; rewrite dget_dset_other; try exact E; intros ->; congruence.
Qed.
Lemma plan_fresh f cmds env env' : Plan f env cmds env' -> forall c out, In c cmds -> compiles_to c out \/ links_to c out -> dget env out = None.
Proof.
  induction 1 as [|env args src out t c rest env' A1 A2 C L F N P IH|env args out cs rest env' A L N I P IH]; intros c0 o; [intros []| |]; intros [<-|J] K.
  - destruct K as [(a & E & K)|(a & E & K)]; [congruence|discriminate].
  - specialize (IH c0 o J K). destruct (string_dec o out) as [->|D]; [rewrite dget_dset_same in IH; discriminate|]. rewrite dget_dset_other in IH by exact D. exact IH.
  - destruct K as [(a & E & K)|(a & E & K)]; [discriminate|congruence].
  - specialize (IH c0 o J K). destruct (string_dec o out) as [->|D]; [rewrite dget_dset_same in IH; discriminate|]. rewrite dget_dset_other in IH by exact D. exact IH.
Qed.
Lemma plan_ll f cmds env env' : Plan f env cmds env' -> forall c out, In c cmds -> compiles_to c out \/ links_to c out -> suffix_of ".ll" out.
Proof.
  induction 1 as [|env args src out t c rest env' A1 A2 C L F N P IH|env args out cs rest env' A L N I P IH]; intros c0 o; [intros []| |]; intros [<-|J] K; eauto;
    destruct K as [(a & E & K)|(a & E & K)]; try discriminate; congruence.
Qed.
Lemma plan_src f cmds env env' : Plan f env cmds env' -> forall args src, In ("clang"%string :: args) cmds -> after_arg "-c" ("clang"%string :: args) = Ok src -> suffix_of ".c" src.
Proof.
  induction 1 as [|env args src out t c rest env' A1 A2 C L F N P IH|env args out cs rest env' A L N I P IH]; intros a s; [intros []| |]; intros [J|J] K; eauto.
  - assert (a = args) by congruence. subst. congruence.
  - discriminate J.
Qed.
Lemma to_compile_ext f g c : (forall out, compiles_to c out -> f_get g out = f_get f out) -> (forall args src, c = "clang"%string :: args -> after_arg "-c" c = Ok src -> f_get g src = f_get f src) ->
  to_compile g c -> to_compile f c.
Proof.
  intros O S (args & src & out & E & A1 & A2 & H). exists args, src, out. repeat (split; [assumption|]). unfold missing, older in *.
  assert (Eo : f_get g out = f_get f out) by (apply O; exists args; auto). assert (Es : f_get g src = f_get f src) by (eapply S; eassumption).
  rewrite Eo, Es in H. exact H.
Qed.
Lemma contents_code f env ins cs : (forall o c, dget env o = Some c -> exists d, content_at f o d /\ code d = c) ->
  Forall2 (fun i c => dget env i = Some c) ins cs -> exists ds, contents_of f ins = Some ds /\ map code ds = cs.
Proof.
  intros H. induction 1 as [|i c is cs E F (ds & D1 & D2)]; [exists []; auto|]. destruct (H i c E) as (d & (t & G) & K).
  exists (d :: ds). cbn [contents_of map]. rewrite G, D1, D2, K. auto.
Qed.

Section Module_Run.
  Variable t : tools.
  Definition partly (f : files) (b : bool) (cmds : list (list string)) (env' : dict string content) : Prop :=
    forall pre c post out d, cmds = pre ++ c :: post -> content_at f out d ->
    (compiles_to c out -> ~ to_compile f c -> dget env' out = Some (code d)) /\
    (links_to c out -> b = false -> (forall x, In x pre -> ~ to_compile f x) -> dget env' out = Some (code d)).
  Lemma partly_tail f b c cmds env' : ~ to_compile f c -> partly f b (c :: cmds) env' -> partly f b cmds env'.
  Proof.
    intros N H pre x post out d -> D. destruct (H (c :: pre) x post out d eq_refl D) as [H1 H2]. split; [exact H1|].
    intros L B P. apply H2; [exact L|exact B|]. intros y [<-|I]; auto.
  Qed.
  (** Writing another output. *)
  Lemma partly_write f env env' rest o x b b' v : Plan f env rest env' -> suffix_of ".ll" o -> dget env o = Some v ->
    (b' = true \/ b' = b) -> partly f b rest env' -> partly (write f o x) b' rest env'.
  Proof.
    intros P L V B H pre c post out d E D.
    assert (I : In c rest) by (rewrite E; apply in_or_app; right; left; reflexivity).
    assert (OO : forall c', In c' rest -> forall o', compiles_to c' o' \/ links_to c' o' -> o' <> o).
    { intros c' I' o' K ->. pose proof (plan_fresh _ _ _ _ P c' o I' K). congruence. }
    assert (TC : forall c', In c' rest -> to_compile f c' -> to_compile (write f o x) c').
    { intros c' I'. apply to_compile_ext.
      - intros o' K. symmetry. apply write_other. eapply OO; eauto.
      - intros args src -> A. symmetry. apply write_other. intros ->. apply (c_not_ll o); [|exact L]. eapply plan_src; eassumption. }
    assert (D' : compiles_to c out \/ links_to c out -> content_at f out d).
    { intros K. destruct D as (tt & D). rewrite write_other in D by (eapply OO; eassumption). exists tt. exact D. }
    split.
    - intros K N. apply (proj1 (H pre c post out d E (D' (or_introl K))) K). intros T. apply N, TC; assumption.
    - intros K B0 N. destruct B as [-> | ->]; [discriminate|]. apply (proj2 (H pre c post out d E (D' (or_intror K))) K B0).
      intros y Y T. apply (N y Y), TC; [rewrite E; apply in_or_app; auto|exact T].
  Qed.
  Definition holds (f : files) (env : dict string content) : Prop := forall o c, dget env o = Some c -> exists d, content_at f o d /\ code d = c.
  Lemma holds_set f env o c d : holds f env -> content_at f o d -> code d = c -> holds f (dset env o c).
  Proof.
    intros H D E o' c' G. destruct (string_dec o' o) as [->|N]; [rewrite dget_dset_same in G; injection G as <-; eauto|]. rewrite dget_dset_other in G by exact N. auto.
  Qed.
  Lemma holds_write f env o x : holds f env -> dget env o = None -> holds (write f o x) env.
  Proof.
    intros H N o' c' G. destruct (H o' c' G) as (d & (tm & D) & E). exists d. split; [|exact E]. exists tm. rewrite write_other; [exact D|]. intros ->. congruence.
  Qed.
  Lemma run_ok cmds : forall env env' f b f', Plan f env cmds env' -> clocked f -> holds f env -> partly f b cmds env' ->
    run_commands t f b cmds = (Ok tt, f') -> holds f' env' /\ same_sources f f' /\ clocked f'.
  Proof.
    induction cmds as [|c cmds IH]; intros env env' f b f' P CL H PT R.
    - cbn in R. injection R as <-. inversion P; subst. split; [exact H|]. split; [intros p _; reflexivity|exact CL].
    - inversion P as [|env0 args src out tm cc rest env0' A1 A2 C L F N P'|env0 args out cs rest env0' A L N I P']; subst.
      + cbn [run_commands] in R. rewrite String.eqb_refl, A1, A2 in R. rewrite F in R.
        assert (PT0 : forall d, content_at f out d -> ~ to_compile f ("clang"%string :: args) -> dget env' out = Some (code d)).
        { intros d D NT. apply (proj1 (PT [] _ cmds out d eq_refl D)); [exists args; auto|exact NT]. }
        destruct (f_get f out) as [[tobj dobj]|] eqn:G.
        * destruct (tobj <? tm)%Z eqn:LT.
          -- unfold run_clang in R. rewrite A1, A2, F in R. destruct (t_clang t f _) eqn:TC; [|discriminate R].
             set (f1 := write f out (Compiled cc)) in *.
             assert (S1 : same_sources f f1) by (apply same_sources_write, L).
             destruct (IH (dset env out (Compiled (code cc))) env' f1 true f') as (R1 & R2 & R3); auto.
             ++ eapply plan_sources; eassumption.
             ++ apply clocked_write, CL.
             ++ apply holds_set with (d := Compiled cc); [apply holds_write; assumption|exists (f_clock f); apply write_same|reflexivity].
             ++ eapply partly_write with (b := true); [exact P'|exact L|apply dget_dset_same|auto|].
                intros pre c post o d E D. destruct (PT (("clang"%string :: args) :: pre) c post o d) as [X Y]; [rewrite E; reflexivity|exact D|]. split; [exact X|discriminate].
             ++ split; [exact R1|]. split; [|exact R3]. intros p S. rewrite R2 by exact S. apply S1, S.
          -- assert (NT : ~ to_compile f ("clang"%string :: args)).
             { intros (a & s & o & E & E1 & E2 & M). assert (s = src) by congruence. assert (o = out) by congruence. subst.
               destruct M as [M|(tp & cp & tq & cq & M1 & M2 & M3)]; [unfold missing in M; congruence|]. apply Z.ltb_ge in LT. rewrite G in M1. rewrite F in M2. assert (tp = tobj /\ tq = tm) as [-> ->] by (split; congruence). lia. }
             assert (D : content_at f out dobj) by (exists tobj; exact G).
             pose proof (PT0 dobj D NT) as X. pose proof (plan_mono _ _ _ _ P' out _ (dget_dset_same _ _ _)) as Y.
             apply (IH (dset env out (Compiled (code cc))) env' f b f'); auto.
             ++ eapply holds_set; [exact H|exact D|congruence].
             ++ eapply partly_tail; eassumption.
        * unfold run_clang in R. rewrite A1, A2, F in R. destruct (t_clang t f _) eqn:TC; [|discriminate R].
          set (f1 := write f out (Compiled cc)) in *.
          assert (S1 : same_sources f f1) by (apply same_sources_write, L).
          destruct (IH (dset env out (Compiled (code cc))) env' f1 true f') as (R1 & R2 & R3); auto.
          -- eapply plan_sources; eassumption.
          -- apply clocked_write, CL.
          -- apply holds_set with (d := Compiled cc); [apply holds_write; assumption|exists (f_clock f); apply write_same|reflexivity].
          -- eapply partly_write with (b := true); [exact P'|exact L|apply dget_dset_same|auto|].
             intros pre c post o d E D. destruct (PT (("clang"%string :: args) :: pre) c post o d) as [X Y]; [rewrite E; reflexivity|exact D|]. split; [exact X|discriminate].
          -- split; [exact R1|]. split; [|exact R3]. intros p S. rewrite R2 by exact S. apply S1, S.
      + cbn [run_commands] in R. replace (String.eqb "llvm-link" "clang") with false in R by reflexivity. rewrite String.eqb_refl, A in R.
        assert (NT : ~ to_compile f ("llvm-link"%string :: args)) by (intros (a & s & o & E & _); discriminate).
        assert (PT' : partly f b cmds env') by (eapply partly_tail; eassumption).
        destruct (match f_get f out with None => true | Some _ => b end) eqn:RUN.
        * unfold run_link in R. rewrite A in R. destruct (contents_code f env _ cs H I) as (ds & D1 & D2). rewrite D1 in R.
          destruct (t_link t f _); [|discriminate R]. set (f1 := write f out (Linked ds)) in *.
          assert (S1 : same_sources f f1) by (apply same_sources_write, L).
          destruct (IH (dset env out (Linked cs)) env' f1 b f') as (R1 & R2 & R3); auto.
          -- eapply plan_sources; eassumption.
          -- apply clocked_write, CL.
          -- apply holds_set with (d := Linked ds); [apply holds_write; assumption| |]; [exists (f_clock f); apply write_same|cbn [code]; rewrite D2; reflexivity].
          -- eapply partly_write; [exact P'|exact L|apply dget_dset_same|right; reflexivity|exact PT'].
          -- split; [exact R1|]. split; [|exact R3]. intros p S. rewrite R2 by exact S. apply S1, S.
        * destruct (f_get f out) as [[tobj dobj]|] eqn:G; [|discriminate]. subst b.
          assert (D : content_at f out dobj) by (exists tobj; exact G).
          assert (X : dget env' out = Some (code dobj)).
          { apply (proj2 (PT [] _ cmds out dobj eq_refl D)); [exists args; auto|reflexivity|intros y []]. }
          pose proof (plan_mono _ _ _ _ P' out _ (dget_dset_same _ _ _)) as Y.
          apply (IH (dset env out (Linked cs)) env' f false f'); auto. eapply holds_set; [exact H|exact D|congruence].
  Qed.
End Module_Run.

Lemma consistent_run t cmds f f' : clocked f -> consistent f cmds -> run_commands t f false cmds = (Ok tt, f') ->
  complete f' cmds /\ same_sources f f' /\ clocked f'.
Proof.
  intros CL (env & P & H) R. destruct (run_ok t cmds [] env f false f' P CL) as (R1 & R2 & R3); auto.
  - intros o c E. discriminate.
  - intros pre c post out d E D. destruct (H pre c post out d E D) as [H1 H2]. split; [exact H1|]. intros K _ N. apply H2; assumption.
  - split; [|auto]. exists env. split; [eapply plan_sources; eassumption|exact R1].
Qed.
Lemma plan_entry f cmds env env' : Plan f env cmds env' -> forall c out, In c cmds -> compiles_to c out \/ links_to c out -> dget env' out <> None.
Proof.
  induction 1 as [|env args src out t c rest env' A1 A2 C L F N P IH|env args out cs rest env' A L N I P IH]; intros c0 o; [intros []| |]; intros [<-|J] K; eauto.
  - assert (o = out) by (destruct K as [(a & E & K)|(a & E & K)]; [congruence|discriminate]). subst. rewrite (plan_mono _ _ _ _ P out _ (dget_dset_same _ _ _)). discriminate.
  - assert (o = out) by (destruct K as [(a & E & K)|(a & E & K)]; [discriminate|congruence]). subst. rewrite (plan_mono _ _ _ _ P out _ (dget_dset_same _ _ _)). discriminate.
Qed.
Lemma plan_entry_conv f cmds env env' : Plan f env cmds env' -> forall out, dget env' out <> None -> dget env out <> None \/ exists c, In c cmds /\ (compiles_to c out \/ links_to c out).
Proof.
  induction 1 as [|env args src out t c rest env' A1 A2 C L F N P IH|env args out cs rest env' A L N I P IH]; intros o G; [auto| |].
  - destruct (IH o G) as [X|(c' & I & K)]; [|right; exists c'; split; [right; exact I|exact K]].
    destruct (string_dec o out) as [->|D]; [right; eexists; split; [left; reflexivity|left; exists args; auto]|]. rewrite dget_dset_other in X by exact D. auto.
  - destruct (IH o G) as [X|(c' & J & K)]; [|right; exists c'; split; [right; exact J|exact K]].
    destruct (string_dec o out) as [->|D]; [right; eexists; split; [left; reflexivity|right; exists args; auto]|]. rewrite dget_dset_other in X by exact D. auto.
Qed.
Lemma complete_consistent f cmds : complete f cmds -> consistent f cmds.
Proof.
  intros (env & P & H). exists env. split; [exact P|]. intros pre c post out d E D.
  assert (X : compiles_to c out \/ links_to c out -> dget env out = Some (code d)).
  { intros K. assert (I : In c cmds) by (rewrite E; apply in_or_app; right; left; reflexivity). pose proof (plan_entry _ _ _ _ P c out I K) as N.
    destruct (dget env out) as [x|] eqn:G; [|congruence]. destruct (H out x G) as (d' & (t' & D') & <-). destruct D as (t0 & D). congruence. }
  split; auto.
Qed.
(** Optimising does not change the code. *)
Lemma complete_opt t f cmds llvm g : complete f cmds -> suffix_of ".ll" llvm -> run_opt t f llvm = Some g -> complete g cmds /\ same_sources f g.
Proof.
  intros (env & P & H) L R. unfold run_opt in R. destruct (f_get f llvm) as [[tm c]|] eqn:G; [|discriminate]. destruct (t_opt t f llvm); [|discriminate]. injection R as <-.
  assert (S : same_sources f (write f llvm (Optimised c))) by (apply same_sources_write, L). split; [|exact S].
  exists env. split; [eapply plan_sources; eassumption|]. intros o x E. destruct (H o x E) as (d & (t0 & D) & K). destruct (string_dec o llvm) as [->|N].
  - exists (Optimised c). split; [exists (f_clock f); apply write_same|]. cbn [code]. rewrite G in D. congruence.
  - exists d. split; [|exact K]. exists t0. rewrite write_other by exact N. exact D.
Qed.
(** Plans of the same commands for other sources. *)
Lemma plan_keys f g : (forall p, f_get f p <> None -> f_get g p <> None) -> forall cmds env env', Plan f env cmds env' -> forall env2,
  (forall o, dget env2 o = None <-> dget env o = None) -> exists env2', Plan g env2 cmds env2'.
Proof.
  intros S cmds env env' P. induction P as [|env args src out t c rest env' A1 A2 C L F N P IH|env args out cs rest env' A L N I P IH]; intros env2 K; [exists env2; constructor| |].
  - assert (G : f_get g src <> None) by (apply S; congruence). destruct (f_get g src) as [[t2 c2]|] eqn:G2; [|congruence].
    destruct (IH (dset env2 out (Compiled (code c2)))) as (e & E).
    + intros o. destruct (string_dec o out) as [->|D]; [rewrite !dget_dset_same; split; discriminate|]. rewrite !dget_dset_other by exact D. apply K.
    + exists e. eapply plan_clang; try eassumption. apply K, N.
  - assert (X : exists cs2, Forall2 (fun i c => dget env2 i = Some c) (link_inputs ("llvm-link"%string :: args) out) cs2).
    { clear -I K. induction I as [|i c is cs E I (cs2 & J)]; [exists []; constructor|]. destruct (dget env2 i) as [c2|] eqn:G; [exists (c2 :: cs2); constructor; assumption|].
      apply K in G. congruence. }
    destruct X as (cs2 & X). destruct (IH (dset env2 out (Linked cs2))) as (e & E).
    + intros o. destruct (string_dec o out) as [->|D]; [rewrite !dget_dset_same; split; discriminate|]. rewrite !dget_dset_other by exact D. apply K.
    + exists e. eapply plan_link; try eassumption. apply K, N.
Qed.
Lemma forall2_env (env env2 : dict string content) is cs cs2 : (forall o : string, dget env o = dget env2 o) ->
  Forall2 (fun i c => dget env i = Some c) is cs -> Forall2 (fun i c => dget env2 i = Some c) is cs2 -> cs = cs2.
Proof.
  intros A F. revert cs2. induction F as [|i c is cs E F IH]; intros cs2 G; inversion G; subst; [reflexivity|]. f_equal; [|auto]. rewrite A in E. congruence.
Qed.
(** Up to a command, plans agree if the sources do. *)
Lemma plan_agree f g cmds env env' : Plan f env cmds env' -> forall env2 env2', Plan g env2 cmds env2' -> (forall o, dget env o = dget env2 o) ->
  forall pre c post out, cmds = pre ++ c :: post -> compiles_to c out \/ links_to c out ->
  (forall b args src, In b (pre ++ [c]) -> b = "clang"%string :: args -> after_arg "-c" b = Ok src -> f_get g src = f_get f src) ->
  dget env' out = dget env2' out.
Proof.
  induction 1 as [|env args src out t c rest env' A1 A2 C L F N P IH|env args out cs rest env' A L N I P IH]; intros env2 env2' P2 AG pre c0 post o E K S.
  - destruct pre; discriminate.
  - inversion P2 as [|e1 a1 src2 out2 t2 c2 r1 e2 B1 B2 B3 B4 B5 B6 P2' E1 E2 E3|]; subst. rewrite A1 in B1. rewrite A2 in B2. assert (src2 = src /\ out2 = out) as [-> ->] by (split; congruence).
    assert (c2 = c).
    { rewrite (S ("clang"%string :: args) args src) in B5; [congruence| |reflexivity|exact A1]. destruct pre as [|x pre]; cbn in E; injection E as <- E; left; reflexivity. }
    subst c2. assert (AG' : forall o', dget (dset env out (Compiled (code c))) o' = dget (dset env2 out (Compiled (code c))) o').
    { intros o'. destruct (string_dec o' out) as [->|D]; [rewrite !dget_dset_same; reflexivity|]. rewrite !dget_dset_other by exact D. apply AG. }
    destruct pre as [|x pre]; cbn in E; injection E as <- E.
    + assert (o = out) by (destruct K as [(a & E' & K)|(a & E' & K)]; [congruence|discriminate]). subst o.
      rewrite (plan_mono _ _ _ _ P out _ (dget_dset_same _ _ _)), (plan_mono _ _ _ _ P2' out _ (dget_dset_same _ _ _)). reflexivity.
    + apply (IH _ _ P2' AG' pre c0 post o E K). intros b a s J. apply S. right. exact J.
  - inversion P2 as [| |e1 a1 out2 cs2 r1 e2 B1 B2 B3 B4 P2' E1 E2]; subst. rewrite A in B1. assert (out2 = out) as -> by congruence.
    assert (cs2 = cs) as -> by (symmetry; eapply forall2_env; eassumption).
    assert (AG' : forall o', dget (dset env out (Linked cs)) o' = dget (dset env2 out (Linked cs)) o').
    { intros o'. destruct (string_dec o' out) as [->|D]; [rewrite !dget_dset_same; reflexivity|]. rewrite !dget_dset_other by exact D. apply AG. }
    destruct pre as [|x pre]; cbn in E; injection E as <- E.
    + assert (o = out) by (destruct K as [(a & E' & K)|(a & E' & K)]; [discriminate|congruence]). subst o.
      rewrite (plan_mono _ _ _ _ P out _ (dget_dset_same _ _ _)), (plan_mono _ _ _ _ P2' out _ (dget_dset_same _ _ _)). reflexivity.
    + apply (IH _ _ P2' AG' pre c0 post o E K). intros b a s J. apply S. right. exact J.
Qed.
Lemma consistent_edit f cmds src c : clocked f -> consistent f cmds -> suffix_of ".c" src -> consistent (write f src c) cmds.
Proof.
  intros CL (env & P & H) SC.
  destruct (plan_keys f (write f src c)) with (cmds := cmds) (env := @nil (string * content)) (env' := env) (env2 := @nil (string * content)) as (env2 & P2).
  - intros p N. destruct (string_dec p src) as [->|D]; [rewrite write_same; discriminate|rewrite write_other by exact D; exact N].
  - exact P.
  - tauto.
  - exists env2. split; [exact P2|]. intros pre x post out d E D.
    assert (LL : forall y o, In y cmds -> compiles_to y o \/ links_to y o -> o <> src).
    { intros y o I K ->. apply (c_not_ll src SC). eapply plan_ll; [exact P|exact I|exact K]. }
    assert (I : In x cmds) by (rewrite E; apply in_or_app; right; left; reflexivity).
    assert (IP : forall y, In y pre -> In y cmds) by (intros y Y; rewrite E; apply in_or_app; auto).
    (* a compilation that is not to be done now has another source, and was not to be done *)
    assert (NT : forall y args s, In y cmds -> y = "clang"%string :: args -> after_arg "-c" y = Ok s -> ~ to_compile (write f src c) y -> s <> src).
    { intros y args s Y -> A1 N ->. apply N. assert (O : exists o, after_arg "-o" ("clang"%string :: args) = Ok o).
      { clear -P Y. induction P as [|env args' src' out' t c' rest env' A1 A2 C L F N P IH|env args' out' cs rest env' A L N I P IH]; [destruct Y| |].
        - destruct Y as [Y|Y]; [|auto]. injection Y as ->. eauto.
        - destruct Y as [Y|Y]; [discriminate|auto]. }
      destruct O as (o & A2). exists args, src, o. repeat (split; [auto|]). assert (NO : o <> src) by (apply (LL _ o Y); left; exists args; auto).
      unfold missing, older. rewrite write_other by exact NO. destruct (f_get f o) as [[to co]|] eqn:G; [|auto].
      right. exists to, co, (f_clock f), c. rewrite write_same. repeat (split; [reflexivity|]). eapply CL, G. }
    assert (OLD : forall y, In y cmds -> ~ to_compile (write f src c) y -> ~ to_compile f y).
    { intros y Y N T. apply N. revert T. apply to_compile_ext.
      - intros o K. symmetry. apply write_other. eapply LL; eauto.
      - intros args s Ey A1. symmetry. apply write_other. eapply NT; eassumption. }
    assert (AGREE : (forall y, In y (pre ++ [x]) -> ~ to_compile (write f src c) y) -> compiles_to x out \/ links_to x out -> dget env2 out = dget env out).
    { intros N K. symmetry. apply (plan_agree _ _ _ _ _ P _ _ P2 (fun o => eq_refl) pre x post out E K).
      intros b args s B Eb A1. apply write_other. apply (NT b args s); [|exact Eb|exact A1|apply N, B].
      apply in_app_or in B as [B|[B|[]]]; [apply IP, B|rewrite <- B; exact I]. }
    assert (D' : compiles_to x out \/ links_to x out -> content_at f out d).
    { intros K. destruct D as (t0 & D). rewrite write_other in D by (eapply LL; eassumption). exists t0. exact D. }
    split.
    + intros K N. destruct (H pre x post out d E (D' (or_introl K))) as [H1 _]. rewrite <- (H1 K (OLD x I N)).
      (* only the command itself matters for a compilation *)
      destruct K as (args & -> & A2).
      assert (A1 : exists s, after_arg "-c" ("clang"%string :: args) = Ok s).
      { clear -P I. induction P as [|env args' src' out' t c' rest env' A1 A2 C L F N P IH|env args' out' cs rest env' A L N I' P IH]; [destruct I| |].
        - destruct I as [I|I]; [|auto]. injection I as ->. eauto.
        - destruct I as [I|I]; [discriminate|auto]. }
      destruct A1 as (s & A1). assert (SN : s <> src) by (apply (NT _ args s I eq_refl A1 N)).
      assert (V : forall h e e', Plan h e cmds e' -> exists tt cc, f_get h s = Some (tt, cc) /\ dget e' out = Some (Compiled (code cc))).
      { clear -A1 A2 I. intros h e e' P. induction P as [|env args' src' out' t c' rest env' B1 B2 C L F N P IH|env args' out' cs rest env' A L N I' P IH]; [destruct I| |].
        - destruct I as [I|I]; [|auto]. injection I as ->. exists t, c'. assert (src' = s) as -> by congruence. assert (out' = out) as -> by congruence.
          split; [exact F|]. apply (plan_mono _ _ _ _ P), dget_dset_same.
        - destruct I as [I|I]; [discriminate|auto]. }
      destruct (V _ _ _ P) as (t1 & c1 & F1 & V1), (V _ _ _ P2) as (t2 & c2 & F2 & V2). rewrite write_other in F2 by exact SN. congruence.
    + intros K N. destruct (H pre x post out d E (D' (or_intror K))) as [_ H2]. rewrite <- (H2 K); [|intros y Y; apply OLD; auto].
      apply AGREE; [|auto]. intros y Y. apply in_app_or in Y as [Y|[<-|[]]]; [auto|]. destruct K as (args & -> & _). intros (a & s & o & X & _). discriminate.
Qed.
Lemma build_module_parts t f dir name nm cmds llvm g : fixed_commands t dir name nm cmds -> build_module t f dir name = (Ok llvm, g) ->
  llvm = path_join dir (nm ++ ".ll") /\ exists f1, run_commands t f false cmds = (Ok tt, f1) /\ run_opt t f1 llvm = Some g.
Proof.
  intros FX. unfold build_module. destruct (FX f) as (raw & -> & ->). destruct (run_commands t f false cmds) as [[[]|] f1] eqn:R; [|discriminate].
  destruct (run_opt t f1 _) as [f2|] eqn:O; [|discriminate]. intros E. injection E as <- <-. split; [reflexivity|]. exists f1. auto.
Qed.
Lemma suffix_path_join d n : suffix_of ".ll" (path_join d (n ++ ".ll")).
Proof.
  unfold path_join. destruct (isabs _); [exists n; reflexivity|]. destruct (String.eqb d "" || endswith d "/"); [exists (d ++ n)%string|exists (d ++ "/" ++ n)%string]; rewrite !app_assoc_s; reflexivity.
Qed.
Lemma run_opt_clocked t f p g : clocked f -> run_opt t f p = Some g -> clocked g.
Proof.
  unfold run_opt. intros C. destruct (f_get f p) as [[? ?]|]; [|discriminate]. destruct (t_opt t f p); [|discriminate]. intros E. injection E as <-. apply clocked_write, C.
Qed.
Lemma reached_inv t dir name nm cmds f : fixed_commands t dir name nm cmds -> Reached t dir name cmds f -> clocked f /\ consistent f cmds.
Proof.
  intros FX. induction 1 as [f env CL P M|f src c R [CL IH] S N|f llvm g R [CL IH] B].
  - split; [exact CL|]. exists env. split; [exact P|]. intros pre c post out d E (t0 & D).
    assert (X : compiles_to c out \/ links_to c out -> False).
    { intros K. assert (I : In c cmds) by (rewrite E; apply in_or_app; right; left; reflexivity). pose proof (M out (plan_entry _ _ _ _ P c out I K)) as MM. unfold missing in MM. congruence. }
    split; intros K; exfalso; auto.
  - split; [apply clocked_write, CL|apply consistent_edit; assumption].
  - destruct (build_module_parts _ _ _ _ _ _ _ _ FX B) as (-> & f1 & R1 & R2). destruct (consistent_run _ _ _ _ CL IH R1) as (C1 & _ & C3).
    split; [eapply run_opt_clocked; eassumption|]. apply complete_consistent. eapply complete_opt; [exact C1|apply suffix_path_join|exact R2].
Qed.
Lemma built_complete t dir name nm cmds f llvm g : fixed_commands t dir name nm cmds -> Reached t dir name cmds f ->
  build_module t f dir name = (Ok llvm, g) -> complete g cmds /\ same_sources f g.
Proof.
  intros FX R B. destruct (reached_inv _ _ _ _ _ _ FX R) as [CL C]. destruct (build_module_parts _ _ _ _ _ _ _ _ FX B) as (-> & f1 & R1 & R2).
  destruct (consistent_run _ _ _ _ CL C R1) as (C1 & C2 & C3). destruct (complete_opt _ _ _ _ _ C1 (suffix_path_join _ _) R2) as [C4 C5].
  split; [exact C4|]. intros p S. rewrite C5, C2 by exact S. reflexivity.
Qed.
Lemma up_to_date t f cmds : complete f cmds -> (forall c, In c cmds -> ~ to_compile f c) -> run_commands t f false cmds = (Ok tt, f).
Proof.
  intros (env & P & H). revert P. generalize (@nil (string * content)) as e0. intros e0 P N.
  assert (EX : forall c out, In c cmds -> compiles_to c out \/ links_to c out -> f_get f out <> None).
  { intros c out I K. pose proof (plan_entry _ _ _ _ P c out I K) as X. destruct (dget env out) as [v|] eqn:G; [|congruence]. destruct (H out v G) as (d & (t0 & D) & _). congruence. }
  clear H. induction P as [|env args src out t0 c rest env' A1 A2 C L F NN P IH|env args out cs rest env' A L NN I P IH]; [reflexivity| |].
  - cbn [run_commands]. rewrite String.eqb_refl, A1, A2, F. assert (E : f_get f out <> None) by (apply (EX _ out (or_introl eq_refl)); left; exists args; auto).
    destruct (f_get f out) as [[to co]|] eqn:G; [|congruence]. destruct (to <? t0)%Z eqn:LT.
    + exfalso. apply (N _ (or_introl eq_refl)). exists args, src, out. repeat (split; [auto|]). right. exists to, co, t0, c. repeat (split; [assumption|]). apply Z.ltb_lt, LT.
    + apply IH; [intros c' I'; apply N; right; exact I'|intros c' o' I'; apply EX; right; exact I'].
  - cbn [run_commands]. replace (String.eqb "llvm-link" "clang") with false by reflexivity. rewrite String.eqb_refl, A.
    assert (E : f_get f out <> None) by (apply (EX _ out (or_introl eq_refl)); right; exists args; auto). destruct (f_get f out) as [[to co]|] eqn:G; [|congruence].
    apply IH; [intros c' I'; apply N; right; exact I'|intros c' o' I'; apply EX; right; exact I'].
Qed.

(** ** One source *)
Lemma build_source_reuse t f stem : ~ missing f (stem ++ ".ll") -> ~ missing f (stem ++ ".c") -> ~ older f (stem ++ ".ll") (stem ++ ".c") ->
  build_source t f (stem ++ ".c") = (Ok (stem ++ ".ll")%string, f).
Proof.
  intros A B O. unfold build_source. rewrite chop_c. unfold missing in *. destruct (f_get f (stem ++ ".ll")) as [[tl cl]|] eqn:G1; [|congruence].
  destruct (f_get f (stem ++ ".c")) as [[ts cs]|] eqn:G2; [|congruence]. destruct (tl <? ts)%Z eqn:L; [|reflexivity].
  exfalso. apply O. exists tl, cl, ts, cs. rewrite <- Z.ltb_lt. auto.
Qed.
Lemma ll_neq_c stem : (stem ++ ".ll")%string <> (stem ++ ".c")%string.
Proof. intros E. apply (c_not_ll (stem ++ ".c")); [exists stem; reflexivity|exists stem; symmetry; exact E]. Qed.
Lemma build_source_rebuild t f stem p g : honest_make t -> missing f (stem ++ ".ll") \/ older f (stem ++ ".ll") (stem ++ ".c") ->
  build_source t f (stem ++ ".c") = (Ok p, g) ->
  p = (stem ++ ".ll")%string /\ exists t0 c, f_get f (stem ++ ".c") = Some (t0, c) /\ g = write (write f p (Compiled c)) p (Optimised (Compiled c)).
Proof.
  intros HM M. unfold build_source. rewrite chop_c.
  assert (R : match f_get f (stem ++ ".ll") with None => Ok false | Some (tl, _) => match f_get f (stem ++ ".c") with None => Err FileNotFoundError | Some (ts, _) => Ok (negb (tl <? ts)%Z) end end = Ok false).
  { destruct M as [M|(tl & cl & ts & cs & G1 & G2 & L)]; [unfold missing in M; rewrite M; reflexivity|]. rewrite G1, G2. apply Z.ltb_lt in L. rewrite L. reflexivity. }
  rewrite R. destruct (t_make t f (stem ++ ".o")) as [out|] eqn:TM; [|discriminate]. destruct (object_command out) as [c|] eqn:OC; [|discriminate].
  cbn [bind]. destruct (gcc_to_llvm c) as [cmd|] eqn:GC; [|discriminate]. destruct (HM f stem out c cmd TM OC GC) as [A1 A2].
  unfold run_clang. rewrite A1, A2. destruct (f_get f (stem ++ ".c")) as [[t0 cc]|] eqn:G; [|discriminate]. destruct (t_clang t f cmd); [|discriminate].
  unfold run_opt. rewrite write_same. destruct (t_opt t _ _); [|discriminate]. intros E. injection E as <- <-. split; [reflexivity|]. exists t0, cc. auto.
Qed.
(** The names on which a build returns and what it changes. *)
Lemma build_source_frame t f stem r g : honest_make t -> build_source t f (stem ++ ".c") = (r, g) ->
  same_but (stem ++ ".ll") f g /\ (clocked f -> clocked g) /\ (forall p, r = Ok p -> p = (stem ++ ".ll")%string).
Proof.
  intros HM. unfold build_source. rewrite chop_c.
  assert (SB : forall x, same_but (stem ++ ".ll") f (write f (stem ++ ".ll") x)) by (intros x q N; apply write_other, N).
  assert (SB2 : forall x y, same_but (stem ++ ".ll") f (write (write f (stem ++ ".ll") x) (stem ++ ".ll") y)) by (intros x y q N; rewrite !write_other by exact N; reflexivity).
  assert (S0 : same_but (stem ++ ".ll") f f) by (intros q N; reflexivity).
  destruct (match f_get f (stem ++ ".ll") with None => _ | Some _ => _ end) as [[|]|e].
  - intros E. injection E as <- <-. split; [exact S0|]. split; [auto|congruence].
  - destruct (t_make t f (stem ++ ".o")) as [out|] eqn:TM; [|intros E; injection E as <- <-; split; [exact S0|]; split; [auto|discriminate]].
    destruct (object_command out) as [c|] eqn:OC; cbn [bind]; [|intros E; injection E as <- <-; split; [exact S0|]; split; [auto|discriminate]].
    destruct (gcc_to_llvm c) as [cmd|] eqn:GC; [|intros E; injection E as <- <-; split; [exact S0|]; split; [auto|discriminate]].
    destruct (HM f stem out c cmd TM OC GC) as [A1 A2]. unfold run_clang. rewrite A1, A2.
    destruct (f_get f (stem ++ ".c")) as [[t0 cc]|]; [|intros E; injection E as <- <-; split; [exact S0|]; split; [auto|discriminate]].
    destruct (t_clang t f cmd); [|intros E; injection E as <- <-; split; [exact S0|]; split; [auto|discriminate]].
    unfold run_opt. rewrite write_same. destruct (t_opt t _ _); intros E; injection E as <- <-.
    + split; [apply SB2|]. split; [intros C; apply clocked_write, clocked_write, C|congruence].
    + split; [apply SB|]. split; [intros C; apply clocked_write, C|discriminate].
  - intros E. injection E as <- <-. split; [exact S0|]. split; [auto|discriminate].
Qed.
(** After a successful build the IR is the code of the source, if optimisation has never failed. *)
Definition right (f : files) (stem : string) : Prop :=
  forall d, content_at f (stem ++ ".ll") d -> ~ older f (stem ++ ".ll") (stem ++ ".c") -> exists c, content_at f (stem ++ ".c") c /\ d = Optimised (Compiled c).
Lemma right_build t f stem p g : honest_make t -> clocked f -> ~ missing f (stem ++ ".c") -> right f stem -> build_source t f (stem ++ ".c") = (Ok p, g) ->
  right g stem /\ exists c, content_at g (stem ++ ".c") c /\ content_at g (stem ++ ".ll") (Optimised (Compiled c)).
Proof.
  intros HM CL NM R B. destruct (f_get f (stem ++ ".c")) as [[ts cs]|] eqn:Gc; [|exfalso; apply NM; exact Gc].
  assert (DEC : (missing f (stem ++ ".ll") \/ older f (stem ++ ".ll") (stem ++ ".c")) \/ (~ missing f (stem ++ ".ll") /\ ~ older f (stem ++ ".ll") (stem ++ ".c"))).
  { unfold missing. destruct (f_get f (stem ++ ".ll")) as [[tl cl]|] eqn:Gl; [|auto]. destruct (tl <? ts)%Z eqn:L.
    - left. right. exists tl, cl, ts, cs. rewrite <- Z.ltb_lt. auto.
    - right. split; [discriminate|]. intros (a & b & c & d & E1 & E2 & E3). apply Z.ltb_ge in L. assert (a = tl) by congruence. assert (c = ts) by congruence. lia. }
  destruct DEC as [M|[M O]].
  - destruct (build_source_rebuild t f stem p g HM M B) as (-> & t0 & c & G & ->). rewrite Gc in G. injection G as -> ->.
    assert (C1 : content_at (write (write f (stem ++ ".ll") (Compiled c)) (stem ++ ".ll") (Optimised (Compiled c))) (stem ++ ".c") c).
    { exists t0. rewrite !write_other by (intros E; symmetry in E; exact (ll_neq_c stem E)). exact Gc. }
    assert (C2 : content_at (write (write f (stem ++ ".ll") (Compiled c)) (stem ++ ".ll") (Optimised (Compiled c))) (stem ++ ".ll") (Optimised (Compiled c))).
    { eexists. apply write_same. }
    split; [|exists c; auto]. intros d (td & D) _. destruct C2 as (t2 & C2). exists c. split; [exact C1|congruence].
  - rewrite (build_source_reuse t f stem M) in B; [|intros X; unfold missing in X; congruence|exact O]. injection B as <- <-. split; [exact R|].
    unfold missing in M. destruct (f_get f (stem ++ ".ll")) as [[tl cl]|] eqn:Gl; [|congruence]. destruct (R cl) as (c & C & ->); [exists tl; exact Gl|exact O|]. exists c. split; [exact C|]. exists tl. exact Gl.
Qed.
Lemma right_fail t f stem e g : honest_make t -> clocked f -> (forall h q, t_opt t h q = true) -> right f stem -> build_source t f (stem ++ ".c") = (Err e, g) -> g = f.
Proof.
  intros HM CL OP R. unfold build_source. rewrite chop_c.
  destruct (match f_get f (stem ++ ".ll") with None => _ | Some _ => _ end) as [[|]|e']; [discriminate| |congruence].
  destruct (t_make t f (stem ++ ".o")) as [out|] eqn:TM; [|congruence]. destruct (object_command out) as [c|] eqn:OC; cbn [bind]; [|congruence].
  destruct (gcc_to_llvm c) as [cmd|] eqn:GC; [|congruence]. destruct (HM f stem out c cmd TM OC GC) as [A1 A2]. unfold run_clang. rewrite A1, A2.
  destruct (f_get f (stem ++ ".c")) as [[t0 cc]|]; [|congruence]. destruct (t_clang t f cmd); [|congruence]. unfold run_opt. rewrite write_same, OP. discriminate.
Qed.
Lemma right_edit f stem c : clocked f -> right f stem -> right (write f (stem ++ ".c") c) stem.
Proof.
  intros CL R d (td & D) N. rewrite write_other in D by apply ll_neq_c. exfalso. apply N. exists td, d, (f_clock f), c.
  rewrite write_same, write_other by apply ll_neq_c. repeat (split; [auto|]). eapply CL, D.
Qed.
Lemma history_right t stem l : honest_make t -> (forall h q, t_opt t h q = true) -> forall f, clocked f -> ~ missing f (stem ++ ".c") -> right f stem ->
  clocked (history t (stem ++ ".c") f l) /\ ~ missing (history t (stem ++ ".c") f l) (stem ++ ".c") /\ right (history t (stem ++ ".c") f l) stem.
Proof.
  intros HM OP. unfold history. induction l as [|e l IH]; intros f CL NM R; cbn [fold_left]; [auto|]. apply IH.
  - destruct e; cbn [happen]; [apply clocked_write, CL|]. destruct (build_source t f _) as [r g] eqn:B. cbn [snd]. apply (build_source_frame _ _ _ _ _ HM B), CL.
  - destruct e; cbn [happen]; [unfold missing; rewrite write_same; discriminate|]. destruct (build_source t f _) as [r g] eqn:B. cbn [snd].
    destruct (build_source_frame _ _ _ _ _ HM B) as [SB _]. unfold missing in *. rewrite SB; [exact NM|]. intros E. symmetry in E. exact (ll_neq_c stem E).
  - destruct e; cbn [happen]; [apply right_edit; assumption|]. destruct (build_source t f _) as [[p|e] g] eqn:B; cbn [snd].
    + eapply right_build; eassumption.
    + rewrite (right_fail t f stem e g HM CL OP R B). exact R.
Qed.

(** ** Looking for a definition *)
Lemma find_def_none t defines symbol srcs : forall f g, find_def t defines symbol f srcs = (Ok None, g) <-> Visited t defines symbol f srcs g.
Proof.
  induction srcs as [|src l IH]; intros f g; cbn [find_def].
  - split; [intros E; injection E as <-; constructor|]. intros V. inversion V. reflexivity.
  - destruct (build_source t f src) as [[p|e] f1] eqn:B.
    + destruct (f_get f1 p) as [x|] eqn:G.
      * destruct (defines f1 p symbol) eqn:D.
        -- split; [discriminate|]. intros V. inversion V as [| |? ? ? ? ? ? B' N V']; subst; [congruence|]. rewrite B in B'. injection B' as <- <-. unfold missing in N. destruct N; congruence.
        -- rewrite IH. split; [intros V; eapply v_not; eauto|]. intros V. inversion V as [| |? ? ? ? ? ? B' N V']; subst; [congruence|]. rewrite B in B'. injection B' as <- <-. exact V'.
      * rewrite IH. split; [intros V; eapply v_not; eauto|]. intros V. inversion V as [| |? ? ? ? ? ? B' N V']; subst; [congruence|]. rewrite B in B'. injection B' as <- <-. exact V'.
    + split.
      * destruct e; try discriminate. intros V. apply IH in V. eapply v_fails; eassumption.
      * intros V. inversion V as [|? ? ? ? ? B' V'|]; subst; [|congruence]. rewrite B in B'. injection B' as -> ->. apply IH, V'.
Qed.
Lemma find_def_some t defines symbol srcs : forall f p g, find_def t defines symbol f srcs = (Ok (Some p), g) <->
  exists pre src post h, srcs = pre ++ src :: post /\ Visited t defines symbol f pre h /\ build_source t h src = (Ok p, g) /\ ~ missing g p /\ defines g p symbol = true.
Proof.
  induction srcs as [|src l IH]; intros f p g; cbn [find_def].
  - split; [discriminate|]. intros (pre & s & post & h & E & _). destruct pre; discriminate.
  - assert (STEP : forall f1, (build_source t f src = (Err BuildException, f1) \/ exists q, build_source t f src = (Ok q, f1) /\ (missing f1 q \/ defines f1 q symbol = false)) ->
      (find_def t defines symbol f1 l = (Ok (Some p), g) <-> exists pre s post h, src :: l = pre ++ s :: post /\ Visited t defines symbol f pre h /\ build_source t h s = (Ok p, g) /\ ~ missing g p /\ defines g p symbol = true)).
    { intros f1 B. rewrite IH. split.
      - intros (pre & s & post & h & -> & V & R). exists (src :: pre), s, post, h. split; [reflexivity|]. split; [|exact R].
        destruct B as [B|(q & B & N)]; [eapply v_fails|eapply v_not]; eassumption.
      - intros (pre & s & post & h & E & V & B' & M & D). destruct pre as [|x pre]; cbn in E; injection E as <- E.
        + exfalso. inversion V; subst. destruct B as [B|(q & B & N)]; [congruence|]. rewrite B in B'. injection B' as -> ->. destruct N; [tauto|congruence].
        + exists pre, s, post, h. split; [exact E|]. split; [|auto]. destruct B as [B|(q & B & N)].
          * inversion V as [|? ? ? ? ? B'' V'|? ? ? ? ? ? B'']; subst; [|congruence]. rewrite B in B''. injection B'' as <-. exact V'.
          * inversion V as [|? ? ? ? ? B'' V'|? ? ? ? ? ? B'' N' V']; subst; [congruence|]. rewrite B in B''. injection B'' as <- <-. exact V'. }
    destruct (build_source t f src) as [[q|e] f1] eqn:B.
    + destruct (f_get f1 q) as [x|] eqn:G.
      * destruct (defines f1 q symbol) eqn:D.
        -- split.
           ++ intros E. injection E as <- <-. exists [], src, l, f. split; [reflexivity|]. split; [constructor|]. split; [exact B|]. split; [unfold missing; congruence|exact D].
           ++ intros (pre & s & post & h & E & V & B' & M & D'). destruct pre as [|y pre]; cbn in E; injection E as <- E.
              ** inversion V; subst. rewrite B in B'. injection B' as <- <-. reflexivity.
              ** exfalso. inversion V as [|? ? ? ? ? B'' V'|? ? ? ? ? ? B'' N' V']; subst; [congruence|]. rewrite B in B''. injection B'' as <- <-. unfold missing in N'. destruct N'; congruence.
        -- apply STEP. right. eauto.
      * apply STEP. right. eauto.
    + destruct e; try (apply STEP; auto); (split; [discriminate|]; intros (pre & s & post & h & E & V & B' & M & D'); destruct pre as [|y pre]; cbn in E; injection E as <- E;
        inversion V as [|? ? ? ? ? B'' V'|? ? ? ? ? ? B'' N' V']; subst; congruence).
Qed.

(** ** The commands of make *)
Lemma blank_start_iff p body : lstrip p = body <-> blank_start p body.
Proof.
  split.
  - intros <-. induction p as [|c p (b & E & B & H)]; cbn [lstrip].
    + exists ""%string. repeat split. discriminate.
    + destruct (is_space c) eqn:C.
      * exists (String c b). cbn. rewrite <- E. split; [reflexivity|]. split; [|exact H]. unfold spaces_only. cbn. rewrite C. exact B.
      * exists ""%string. repeat split. intros x r X. injection X as -> _. exact C.
  - intros (b & -> & B & H). unfold spaces_only in B. induction b as [|c b IH]; cbn [append lstrip].
    + destruct body as [|c r]; [reflexivity|]. cbn [lstrip]. rewrite (H c r eq_refl). reflexivity.
    + cbn in B. apply andb_true_iff in B as [-> B]. apply IH, B.
Qed.
Lemma begins_iff programs body : existsb (startswith body) programs = true <-> begins_with programs body.
Proof.
  rewrite existsb_exists. split; intros (p & I & H); exists p; (split; [exact I|]); apply prefix_iff, H.
Qed.
Lemma extract_command_iff programs parts command : extract_command parts programs = Some command <->
  exists pre part post, parts = pre ++ part :: post /\ blank_start part command /\ begins_with programs command /\ forall q b, In q pre -> blank_start q b -> ~ begins_with programs b.
Proof.
  induction parts as [|c cs IH]; cbn [extract_command].
  - split; [discriminate|]. intros (pre & part & post & E & _). destruct pre; discriminate.
  - destruct (existsb (startswith (lstrip c)) programs) eqn:X.
    + split.
      * intros E. injection E as <-. exists [], c, cs. split; [reflexivity|]. split; [apply blank_start_iff; reflexivity|]. split; [apply begins_iff, X|intros q b []].
      * intros (pre & part & post & E & B & G & N). destruct pre as [|y pre]; cbn in E; injection E as <- E.
        -- apply blank_start_iff in B. congruence.
        -- exfalso. apply (N c (lstrip c)); [left; reflexivity|apply blank_start_iff; reflexivity|apply begins_iff, X].
    + rewrite IH. split.
      * intros (pre & part & post & -> & B & G & N). exists (c :: pre), part, post. split; [reflexivity|]. split; [exact B|]. split; [exact G|].
        intros q b [<-|I]; [|apply N, I]. intros Q. apply blank_start_iff in Q. subst b. rewrite <- begins_iff. congruence.
      * intros (pre & part & post & E & B & G & N). destruct pre as [|y pre]; cbn in E; injection E as <- E.
        -- exfalso. apply blank_start_iff in B. apply begins_iff in G. congruence.
        -- exists pre, part, post. split; [exact E|]. split; [exact B|]. split; [exact G|]. intros q b I. apply N. right. exact I.
Qed.
Lemma extract_iff programs line command : extract programs line = Some command <-> command_in programs line command.
Proof.
  unfold extract. rewrite extract_command_iff. unfold command_in. split.
  - intros (pre & part & post & E & R). exists pre, part, post. rewrite <- E. split; [symmetry; apply join_split_char|]. split; [apply Output_Proofs.split_no_char|exact R].
  - intros (pre & part & post & E & F & R). exists pre, part, post. split; [|exact R]. rewrite E. apply Syndiff_Proofs.split_join; [destruct pre; discriminate|exact F].
Qed.
Lemma object_command_iff output command : object_command output = Ok command <-> last_gcc output command.
Proof.
  unfold object_command, last_gcc. set (ls := splitlines output).
  assert (G : forall l, match rev (extract_list ["gcc"%string] l) with c :: _ => Ok c | [] => Err BuildException end = Ok command <->
    exists pre line post, l = pre ++ line :: post /\ command_in ["gcc"%string] line command /\ forall x c, In x post -> ~ command_in ["gcc"%string] x c).
  { intros l. induction l as [|x l IH] using rev_ind.
    - cbn. split; [discriminate|]. intros (pre & line & post & E & _). destruct pre; discriminate.
    - unfold extract_list. rewrite flat_map_app, rev_app_distr. cbn [flat_map]. destruct (extract ["gcc"%string] x) as [c|] eqn:X.
      + cbn [app rev]. split.
        * intros E. injection E as <-. exists l, x, []. split; [reflexivity|]. split; [apply extract_iff, X|intros y c' []].
        * intros (pre & line & post & E & C & N). destruct post as [|y post _] using rev_ind.
          -- apply app_inj_tail in E as [_ <-]. apply extract_iff in C. congruence.
          -- rewrite app_comm_cons, app_assoc in E. apply app_inj_tail in E as [_ ->]. exfalso. apply (N y c); [apply in_or_app; right; left; reflexivity|apply extract_iff, X].
      + cbn [app rev]. fold (extract_list ["gcc"%string] l). rewrite IH. split.
        * intros (pre & line & post & -> & C & N). exists pre, line, (post ++ [x]). split; [rewrite <- app_assoc; reflexivity|]. split; [exact C|].
          intros y c I. apply in_app_or in I as [I|[<-|[]]]; [apply N, I|]. rewrite <- extract_iff. congruence.
        * intros (pre & line & post & E & C & N). destruct post as [|y post _] using rev_ind.
          -- apply app_inj_tail in E as [_ <-]. apply extract_iff in C. congruence.
          -- rewrite app_comm_cons, app_assoc in E. apply app_inj_tail in E as [-> ->]. exists pre, line, post. split; [reflexivity|]. split; [exact C|].
             intros z c I. apply N, in_or_app. auto. }
  rewrite G. split; intros (pre & line & post & E & R); exists pre, line, post; (split; [|exact R]).
  - apply lines_iff, E.
  - apply lines_iff in E. exact E.
Qed.
Lemma object_command_err output e : object_command output = Err e -> e = BuildException.
Proof. unfold object_command. destruct (rev _); congruence. Qed.
Lemma kbuild_iff name commands r : kbuild_to_llvm commands name = Ok r <-> Translated name commands r.
Proof.
  revert r. induction commands as [|c cs IH]; intros r; cbn [kbuild_to_llvm].
  - split; [intros E; injection E as <-; constructor|]. intros T. inversion T. reflexivity.
  - assert (BS : blank_start c (lstrip c)) by (apply blank_start_iff; reflexivity).
    assert (UN : forall b, blank_start c b -> b = lstrip c) by (intros b H; apply blank_start_iff in H; congruence).
    assert (DG : startswith (lstrip c) "gcc" && negb (contains (lstrip c) (name ++ ".mod")) = true <-> prefix_of "gcc" (lstrip c) /\ ~ inside (name ++ ".mod") (lstrip c)).
    { rewrite andb_true_iff, negb_true_iff, prefix_iff, <- not_true, inside_iff. tauto. }
    assert (DL : startswith (lstrip c) "ld" && negb (contains (lstrip c) (name ++ ".ko")) = true <-> prefix_of "ld" (lstrip c) /\ ~ inside (name ++ ".ko") (lstrip c)).
    { rewrite andb_true_iff, negb_true_iff, prefix_iff, <- not_true, inside_iff. tauto. }
    assert (EX : prefix_of "gcc" (lstrip c) -> prefix_of "ld" (lstrip c) -> False).
    { intros (a & E1) (b & E2). rewrite E1 in E2. discriminate. }
    destruct (startswith (lstrip c) "gcc" && negb (contains (lstrip c) (name ++ ".mod"))) eqn:G.
    + destruct (proj1 DG eq_refl) as [G1 G2]. split.
      * destruct (gcc_to_llvm (lstrip c)) as [x|] eqn:X; [|discriminate]. cbn [bind]. destruct (kbuild_to_llvm cs name) as [r'|]; [|discriminate]. intros E. injection E as <-.
        eapply tr_gcc; try eassumption. apply IH. reflexivity.
      * intros T. inversion T as [|? b x ? r' B P N X T'|? b ? r' B P N T'|? b ? ? B N1 N2 T']; subst; apply UN in B; subst b.
        -- rewrite X. cbn [bind]. apply IH in T'. rewrite T'. reflexivity.
        -- tauto.
        -- tauto.
    + assert (NG : ~ (prefix_of "gcc" (lstrip c) /\ ~ inside (name ++ ".mod") (lstrip c))) by (rewrite <- DG; discriminate).
      destruct (startswith (lstrip c) "ld" && negb (contains (lstrip c) (name ++ ".ko"))) eqn:L.
      * destruct (proj1 DL eq_refl) as [L1 L2]. split.
        -- destruct (kbuild_to_llvm cs name) as [r'|]; [|discriminate]. cbn [bind]. intros E. injection E as <-. eapply tr_ld; try eassumption. apply IH. reflexivity.
        -- intros T. inversion T as [|? b x ? r' B P N X T'|? b ? r' B P N T'|? b ? ? B N1 N2 T']; subst; apply UN in B; subst b; [tauto| |tauto].
           apply IH in T'. rewrite T'. reflexivity.
      * assert (NL : ~ (prefix_of "ld" (lstrip c) /\ ~ inside (name ++ ".ko") (lstrip c))) by (rewrite <- DL; discriminate). rewrite IH. split.
        -- intros T. eapply tr_skip; eassumption.
        -- intros T. inversion T as [|? b x ? r' B P N X T'|? b ? r' B P N T'|? b ? ? B N1 N2 T']; subst; apply UN in B; subst b; tauto.
Qed.

(** ** Looking for uses *)
Lemma find_uses_ok t lines : forall f found r g, find_uses t f lines found = (Ok r, g) <-> Uses t f lines found r g.
Proof.
  induction lines as [|line l IH]; intros f found r g; cbn [find_uses].
  - split; [intros E; injection E as <- <-; constructor|]. intros U. inversion U. reflexivity.
  - assert (W : words_of line (words line)) by (apply words_iff; reflexivity).
    assert (UN : forall ws, words_of line ws -> ws = words line) by (intros ws H; apply words_iff in H; congruence).
    destruct (words line) as [|w scope].
    { split; [discriminate|]. intros U. inversion U; subst; match goal with H : words_of line _ |- _ => apply UN in H; discriminate end. }
    destruct (endswith w ".h") eqn:H.
    { apply suffix_iff in H. rewrite IH. split.
      - intros U. destruct scope as [|s ws]; [eapply us_header; eassumption|eapply us_skip; eauto].
      - intros U. inversion U; subst; match goal with X : words_of line _ |- _ => apply UN in X; injection X; intros; subst end; tauto. }
    assert (NH : ~ suffix_of ".h" w) by (rewrite <- suffix_iff; congruence).
    destruct scope as [|s ws].
    { split; [discriminate|]. intros U. inversion U; subst; match goal with X : words_of line _ |- _ => apply UN in X; try discriminate X; injection X; intros; subst end; tauto. }
    destruct (String.eqb_spec s "<global>") as [->|NS].
    { rewrite IH. split; [intros U; eapply us_skip; eauto|]. intros U. inversion U; subst; match goal with X : words_of line _ |- _ => apply UN in X; try discriminate X; injection X; intros; subst end; tauto. }
    destruct (build_source t f w) as [[p|e] f1] eqn:B.
    + rewrite IH. destruct (f_get f1 p) as [x|] eqn:G; [destruct (mem p found) eqn:M|].
      * apply mem_In in M. split; [intros U; eapply us_known; eauto|].
        intros U. inversion U as [|? ? ? ? ? ? ? ? ? Q D|? ? ? ? ? ? ? Q|? ? ? ? ? ? ? ? ? ? Q ? ? B' U'|? ? ? ? ? ? ? ? ? ? ? Q ? ? B' N U'|? ? ? ? ? ? ? ? ? ? ? Q ? ? B' N N' U']; subst; apply UN in Q; try discriminate Q; injection Q; intros; subst; try tauto; rewrite B in B'; [discriminate| |]; injection B'; intros; subst; tauto.
      * assert (M' : ~ In p found) by (intros I; apply mem_In in I; congruence). split; [intros U; eapply us_new; eauto; unfold missing; congruence|].
        intros U. inversion U as [|? ? ? ? ? ? ? ? ? Q D|? ? ? ? ? ? ? Q|? ? ? ? ? ? ? ? ? ? Q ? ? B' U'|? ? ? ? ? ? ? ? ? ? ? Q ? ? B' N U'|? ? ? ? ? ? ? ? ? ? ? Q ? ? B' N N' U']; subst; apply UN in Q; try discriminate Q; injection Q; intros; subst; try tauto; rewrite B in B'; [discriminate| |]; injection B'; intros; subst; [|assumption].
        unfold missing in N. destruct N; [congruence|tauto].
      * split; [intros U; eapply us_known; eauto|].
        intros U. inversion U as [|? ? ? ? ? ? ? ? ? Q D|? ? ? ? ? ? ? Q|? ? ? ? ? ? ? ? ? ? Q ? ? B' U'|? ? ? ? ? ? ? ? ? ? ? Q ? ? B' N U'|? ? ? ? ? ? ? ? ? ? ? Q ? ? B' N N' U']; subst; apply UN in Q; try discriminate Q; injection Q; intros; subst; try tauto; rewrite B in B'; [discriminate| |]; injection B'; intros; subst; [assumption|]. unfold missing in N. tauto.
    + split.
      * destruct e; try discriminate. intros U. apply IH in U. eapply us_fails; eauto.
      * intros U. inversion U as [|? ? ? ? ? ? ? ? ? Q D|? ? ? ? ? ? ? Q|? ? ? ? ? ? ? ? ? ? Q ? ? B' U'|? ? ? ? ? ? ? ? ? ? ? Q ? ? B' N U'|? ? ? ? ? ? ? ? ? ? ? Q ? ? B' N N' U']; subst; apply UN in Q; try discriminate Q; injection Q; intros; subst; try tauto; rewrite B in B'; try discriminate. injection B'; intros; subst. apply IH. assumption.
Qed.
Lemma uses_nodup t f lines found r g : Uses t f lines found r g -> NoDup found -> NoDup r /\ exists more, r = found ++ more.
Proof.
  induction 1; intros N; auto.
  - split; [exact N|]. exists []. rewrite app_nil_r. reflexivity.
  - destruct IHUses as [N' (more & ->)].
    + apply NoDup_app_intro'; [exact N|repeat constructor; cbn; tauto|]. intros x I [<-|[]]. tauto.
    + split; [exact N'|]. exists (p :: more). rewrite <- app_assoc. reflexivity.
Qed.
