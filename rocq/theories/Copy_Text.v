(** * Proofs about the texts of modules: lines, named files, moved lines *)
From Coq Require Import String Ascii ZArith Arith Bool Lia List.
From Verif Require Import PyBase Path_Model Cache_Spec Text_Spec Copy_Model Copy_Spec.
Import ListNotations.
Open Scope list_scope.

Lemma lines_spec s : Lines s (lines s).
Proof.
  induction s as [|c t IH]; cbn [lines]; [constructor|].
  destruct (Ascii.eqb_spec c newline) as [->|N].
  - exact (Lines_more "" t (lines t) I IH).
  - destruct IH as [|s0 F NE|l s0 ls F L].
    + apply Lines_last; [split; [exact N|exact I]|discriminate].
    + apply Lines_last; [split; [exact N|exact F]|discriminate].
    + exact (Lines_more (String c l) s0 ls (conj N F) L).
Qed.
Lemma no_cons c d s : No c (String d s) <-> d <> c /\ No c s.
Proof. reflexivity. Qed.
Lemma no_split a : forall b x y, No line_end a -> No line_end b ->
  (a ++ String line_end x)%string = (b ++ String line_end y)%string -> a = b /\ x = y.
Proof.
  induction a as [|c a IH]; intros [|d b] x y A B E; cbn [append] in E.
  - injection E. auto.
  - injection E as E _. apply no_cons in B. destruct B as [B _]. congruence.
  - injection E as E _. apply no_cons in A. destruct A as [A _]. congruence.
  - injection E as -> E. destruct A as [_ A], B as [_ B]. destruct (IH b x y A B E) as [-> ->]. auto.
Qed.
Lemma no_app c a b : No c (a ++ b) <-> No c a /\ No c b.
Proof. unfold No. induction a as [|x a IH]; cbn; tauto. Qed.
Lemma lines_unique s l : Lines s l -> lines s = l.
Proof.
  intros H. pose proof (lines_spec s) as H'. remember (lines s) as k eqn:K. clear K. revert k H'.
  induction H as [|s F NE|a s ls F L IH]; intros k H'.
  - inversion H' as [|s' F' NE'|a' s' ls' F' L' E']; [reflexivity|congruence|]. destruct a'; discriminate E'.
  - inversion H' as [E|s' F' NE'|a' s' ls' F' L' E']; [subst; congruence|reflexivity|].
    subst. apply no_app in F. destruct F as [_ F]. apply no_cons in F. destruct F as [F _]. congruence.
  - inversion H' as [E|s' F' NE' E|a' s' ls' F' L' E']; subst.
    + destruct a; discriminate E.
    + apply no_app in F'. destruct F' as [_ F']. apply no_cons in F'. destruct F' as [F' _]. congruence.
    + apply no_split in E'; [|assumption|assumption]. destruct E' as [-> ->]. f_equal. auto.
Qed.

(** ** The regular expression *)
Lemma space_spec c : is_space c = true <-> White c.
Proof.
  unfold is_space, White.
  assert (L : (nat_of_ascii c < 256)%nat) by apply nat_ascii_bounded.
  rewrite orb_true_iff, !andb_true_iff, !Nat.leb_le. cbn [In]. lia.
Qed.
Lemma skip_spaces_spec w s : All White w -> ~ starts White s -> skip_spaces (w ++ s) = s.
Proof.
  intros W N. induction w as [|c w IH]; cbn.
  - destruct s as [|c s]; [reflexivity|]. cbn. destruct (is_space c) eqn:E; [|reflexivity].
    exfalso. apply N. exists c, s. split; [reflexivity|]. apply space_spec. exact E.
  - destruct W as [W1 W2]. apply space_spec in W1. rewrite W1. auto.
Qed.
Lemma skip_spaces_split s : exists w, s = (w ++ skip_spaces s)%string /\ All White w.
Proof.
  induction s as [|c s IH]; cbn; [exists ""%string; cbn; auto|]. destruct (is_space c) eqn:E.
  - destruct IH as (w & S & W). exists (String c w). split; [cbn; congruence|]. split; [apply space_spec; exact E|exact W].
  - exists ""%string. cbn. auto.
Qed.
Lemma until_quote_spec s a b : until_quote s = Some (a, b) <-> s = (a ++ String mark b)%string /\ No mark a.
Proof.
  revert a b. induction s as [|c s IH]; intros a b; cbn [until_quote].
  - split; [discriminate|]. intros [E _]. destruct a; discriminate E.
  - destruct (Ascii.eqb_spec c quote) as [->|N].
    + split.
      * intros E. injection E as <- <-. split; [reflexivity|exact I].
      * intros [E F]. destruct a as [|d a]; cbn [append] in E; [injection E as ->; reflexivity|]. injection E as <- E. apply no_cons in F. destruct F as [F _]. destruct (F eq_refl).
    + destruct (until_quote s) as [[a' b']|] eqn:U.
      * split.
        -- intros E. injection E as <- <-. destruct (proj1 (IH a' b') eq_refl) as [-> F]. split; [reflexivity|split; [exact N|exact F]].
        -- intros [E F]. destruct a as [|d a]; cbn [append] in E; injection E as E1 E2; [exfalso; apply N; exact E1|].
           destruct F as [_ F]. pose proof (proj2 (IH a b) (conj E2 F)) as X. injection X as -> ->. congruence.
      * split; [discriminate|]. intros [E F]. destruct a as [|d a]; cbn [append] in E; injection E as E1 E2; [exfalso; apply N; exact E1|].
        destruct F as [_ F]. pose proof (proj2 (IH a b) (conj E2 F)) as X. discriminate X.
Qed.
Lemma mark_not_white : ~ White mark.
Proof. unfold White. cbn. intuition discriminate. Qed.
Lemma quoted_spec s a b : quoted s = Some (a, b) <-> exists w, s = (w ++ String mark (a ++ String mark b))%string /\ All White w /\ No mark a.
Proof.
  unfold quoted. split.
  - destruct (skip_spaces_split s) as (w & S & W). destruct (skip_spaces s) as [|c t]; [discriminate|].
    destruct (Ascii.eqb_spec c quote) as [->|]; [|discriminate]. intros E. apply until_quote_spec in E. destruct E as [-> F].
    exists w. auto.
  - intros (w & -> & W & F). rewrite skip_spaces_spec; [|exact W|].
    + rewrite Ascii.eqb_refl. apply until_quote_spec. auto.
    + intros (c & t & E & X). injection E as <- _. exact (mark_not_white X).
Qed.
Lemma after_spec p s t : after p s = Some t <-> s = (p ++ t)%string.
Proof.
  unfold after. split.
  - destruct (startswith s p) eqn:E; [|discriminate]. apply startswith_spec in E. destruct E as [a ->]. rewrite drop_app. congruence.
  - intros ->. assert (E : startswith (p ++ t) p = true) by (apply startswith_spec; eauto). rewrite E, drop_app. reflexivity.
Qed.
Lemma match_here_spec s f d : match_here s = Some (f, d) <-> Named_here s f d.
Proof.
  unfold match_here, Named_here. split.
  - destruct (after "filename:" s) as [s1|] eqn:A1; [|discriminate]. apply after_spec in A1.
    destruct (quoted s1) as [[f' s2]|] eqn:Q1; [|discriminate]. apply quoted_spec in Q1. destruct Q1 as (w & -> & W & F).
    destruct (after ", directory:" s2) as [s3|] eqn:A2; [|discriminate]. apply after_spec in A2.
    destruct (quoted s3) as [[d' rest]|] eqn:Q2; [|discriminate]. apply quoted_spec in Q2. destruct Q2 as (v & -> & V & G).
    intros E. injection E as -> ->. exists w, v, rest. subst. auto 8.
  - intros (w & v & rest & -> & W & V & F & G).
    rewrite (proj2 (after_spec _ _ _) eq_refl).
    rewrite (proj2 (quoted_spec _ f _) (ex_intro _ w (conj eq_refl (conj W F)))).
    rewrite (proj2 (after_spec _ _ _) eq_refl).
    rewrite (proj2 (quoted_spec _ d rest) (ex_intro _ v (conj eq_refl (conj V G)))). reflexivity.
Qed.
Lemma search_spec s f d : search s = Some (f, d) <-> Named s f d.
Proof.
  revert f d. induction s as [|c s IH]; intros f d; cbn [search].
  - destruct (match_here "") as [[f' d']|] eqn:M; [discriminate M|]. split; [discriminate|].
    intros (a & b & E & H & _). destruct a; [|discriminate E]. cbn [append] in E. subst b. apply match_here_spec in H. congruence.
  - destruct (match_here (String c s)) as [[f' d']|] eqn:M.
    + split.
      * intros E. injection E as -> ->. exists ""%string, (String c s). split; [reflexivity|]. split; [apply match_here_spec; exact M|].
        intros. cbn. lia.
      * intros (a & b & E & H & L). apply match_here_spec in M. specialize (L ""%string (String c s) f' d' eq_refl M).
        destruct a; [|cbn in L; lia]. cbn [append] in E. subst b. apply match_here_spec in H, M. congruence.
    + rewrite IH. split.
      * intros (a & b & -> & H & L). exists (String c a), b. split; [reflexivity|]. split; [exact H|].
        intros a' b' f1 d1 E H'. destruct a' as [|c' a'].
        -- cbn [append] in E. subst b'. apply match_here_spec in H'. congruence.
        -- cbn [append] in E. injection E as _ E. specialize (L a' b' f1 d1 E H'). cbn. lia.
      * intros (a & b & E & H & L). destruct a as [|c' a].
        -- cbn [append] in E. subst b. apply match_here_spec in H. congruence.
        -- cbn [append] in E. injection E as _ ->. exists a, b. split; [reflexivity|]. split; [exact H|].
           intros a' b' f1 d1 E H'. specialize (L (String c a') b' f1 d1). cbn in L. rewrite E in L. specialize (L eq_refl H'). lia.
Qed.
Lemma C_file_spec f : endswith f ".h" || endswith f ".c" = true <-> C_file f.
Proof.
  rewrite orb_true_iff, !endswith_spec. unfold C_file. split.
  - intros [[a ->]|[a ->]]; eauto.
  - intros (n & [->| ->]); eauto.
Qed.
Theorem included_spec text p : In p (included_sources text) <-> Included text p.
Proof.
  unfold included_sources, Included. rewrite dedup_In, in_flat_map. split.
  - intros (line & I & P). unfold included_by in P. destruct (search line) as [[f d]|] eqn:S; [|destruct P].
    destruct (endswith f ".h" || endswith f ".c") eqn:C; [|destruct P]. destruct P as [<-|[]].
    apply search_spec in S. apply C_file_spec in C. exists (lines text), line, f, d. auto using lines_spec.
  - intros (ls & line & f & d & L & I & S & C & ->). exists line. rewrite (lines_unique _ _ L). split; [exact I|].
    unfold included_by. apply search_spec in S. apply C_file_spec in C. rewrite S, C. left. reflexivity.
Qed.

(** ** Moved lines *)
Lemma strip_left_none c s : ~ starts (eq c) s -> strip_left c s = s.
Proof. destruct s as [|d s]; [reflexivity|]. cbn. intros N. destruct (Ascii.eqb_spec d c) as [->|]; [|reflexivity]. exfalso. apply N. exists c, s. auto. Qed.
Lemma strip_right_none c s : ~ ends (eq c) s -> strip_right c s = s.
Proof.
  induction s as [|d s IH]; [reflexivity|]. cbn. intros N.
  assert (N' : ~ ends (eq c) s) by (intros (t & e & -> & E); apply N; exists (String d t), e; auto).
  rewrite (IH N'). destruct s as [|e s]; [|reflexivity].
  destruct (Ascii.eqb_spec d c) as [->|]; [|reflexivity]. exfalso. apply N. exists ""%string, c. auto.
Qed.
Lemma ends_app p a b : b <> ""%string -> ends p (a ++ b) -> ends p b.
Proof.
  intros N. induction a as [|c a IH]; [auto|]. intros (t & y & E & P). apply IH. destruct t as [|d t]; cbn [append] in E.
  - injection E as _ E. destruct a; [destruct b; [congruence|discriminate E]|discriminate E].
  - injection E as _ E. exists t, y. auto.
Qed.
Lemma join_first c rest : join "/" (c :: rest) = (c ++ match rest with [] => "" | _ => "/" ++ join "/" rest end)%string.
Proof. destruct rest; cbn; [rewrite app_nil_r_s|]; reflexivity. Qed.
Lemma has_char_no c s : has_char c s = false <-> No c s.
Proof.
  induction s as [|d s IH]; cbn; [tauto|]. rewrite orb_false_iff, IH. unfold No. cbn.
  destruct (Ascii.eqb_spec c d); split; intros [A B]; split; auto; try discriminate. congruence.
Qed.
Lemma join_strip l : l <> [] -> Forall ordinary l -> ~ starts (eq "/"%char) (join "/" l) /\ ~ ends (eq "/"%char) (join "/" l).
Proof.
  intros N F. split.
  - destruct l as [|c l]; [congruence|]. rewrite join_first. inversion F as [|? ? (NE & _ & _ & NS) _]; subst.
    destruct c as [|x c]; [congruence|]. intros (y & t & E & <-). cbn [append] in E. injection E as -> _.
    cbn in NS. discriminate NS.
  - induction F as [|c l (NE & _ & _ & NS) F IH]; [congruence|].
    rewrite join_first. apply has_char_no in NS.
    destruct l as [|d l].
    + rewrite app_nil_r_s. intros (t & y & E & <-). subst c. apply no_app in NS. destruct NS as [_ NS]. apply no_cons in NS. destruct NS as [NS _]. congruence.
    + intros X. apply (ends_app (eq "/"%char)) in X; [|discriminate].
      apply (ends_app (eq "/"%char) "/") in X; [exact (IH ltac:(discriminate) X)|].
      inversion F as [|? ? (NE' & _) _]; subst. destruct d; [congruence|]. rewrite join_first. discriminate.
Qed.
Lemma strip_normal p l : normal_path p l -> strip_char "/" p = join "/" l.
Proof.
  intros (-> & N & F). destruct (join_strip l N F) as [A B]. unfold strip_char.
  change (strip_left "/" ("/" ++ join "/" l)) with (strip_left "/" (join "/" l)).
  rewrite strip_left_none by exact A. apply strip_right_none. exact B.
Qed.
Lemma join_nonempty l : l <> [] -> Forall ordinary l -> join "/" l <> ""%string.
Proof.
  intros N F. destruct l as [|c l]; [congruence|]. inversion F as [|? ? (NE & _) _]; subst.
  rewrite join_first. destruct c; [congruence|discriminate].
Qed.
Theorem moved_spec old O new N text : normal_path old O -> normal_path new N ->
  Moved (join "/" O) (join "/" N) text (moved_text old new text).
Proof.
  intros HO HN. unfold Moved, moved_text. exists (lines text), (map (moved_line old new) (lines text)).
  split; [apply lines_spec|]. split; [|reflexivity].
  induction (lines text) as [|l ls IH]; cbn; constructor; [|exact IH].
  unfold moved_line, Moved_line. destruct (contains l "constant") eqn:C.
  - left. split; [apply contains_spec in C; exact C|reflexivity].
  - right. split; [intros X; apply contains_spec in X; congruence|].
    rewrite (strip_normal _ _ HO), (strip_normal _ _ HN). apply replace_Replaced.
    destruct HO as (_ & A & B). apply join_nonempty; assumption.
Qed.
