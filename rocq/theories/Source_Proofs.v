(** * Proofs about the text utilities of SimpLL *)
From Coq Require Import String Ascii ZArith Arith Bool Lia List.
From Verif Require Import PyBase Source_Model Source_Spec.
Import ListNotations.
Open Scope list_scope.
Open Scope nat_scope.
Local Arguments Ascii.eqb : simpl never.
Local Arguments nat_of_ascii : simpl never.

(** ** Strings *)
Lemma every_app p a b : Every p (a ++ b) <-> Every p a /\ Every p b.
Proof.
  induction a as [|c a IH]; cbn [append].
  - split; [intros H; split; [constructor|exact H]|tauto].
  - split.
    + intros H. inversion H as [|? ? C R]; subst. apply IH in R as [R1 R2]. split; [constructor; assumption|exact R2].
    + intros [H1 H2]. inversion H1 as [|? ? C R]; subst. constructor; [exact C|]. apply IH. auto.
Qed.
Lemma digit_iff c : is_digit c = true <-> digit c.
Proof. unfold is_digit, digit. rewrite andb_true_iff, !Nat.leb_le. reflexivity. Qed.
Lemma letter_iff c : is_letter c = true <-> letter c.
Proof. unfold is_letter, letter. rewrite orb_true_iff, !andb_true_iff, !Nat.leb_le. reflexivity. Qed.
Lemma word_iff c : ident_char c = true <-> word_char c.
Proof. unfold ident_char, word_char. rewrite !orb_true_iff, letter_iff, digit_iff, Ascii.eqb_eq. tauto. Qed.
Lemma start_iff c : ident_start c = true <-> letter c \/ c = "_"%char.
Proof. unfold ident_start. rewrite orb_true_iff, letter_iff, Ascii.eqb_eq. reflexivity. Qed.
Lemma bool_not (b : bool) (P : Prop) : (b = true <-> P) -> (b = false <-> ~ P).
Proof. intros [A B]. destruct b; split; intros H; try discriminate; try reflexivity; [destruct H; auto|intros Q; specialize (B Q); discriminate]. Qed.

Lemma drop_app a b : drop (String.length a) (a ++ b) = b.
Proof. induction a as [|c a IH]; [reflexivity|exact IH]. Qed.
Lemma drop_app_more a b n : drop (String.length a + n) (a ++ b) = drop n b.
Proof. induction a as [|c a IH]; [reflexivity|exact IH]. Qed.
Lemma take_app a b : take (String.length a) (a ++ b) = a.
Proof. apply substring_app_l. Qed.
Lemma take_drop n s : n <= String.length s -> s = (take n s ++ drop n s)%string /\ String.length (take n s) = n.
Proof.
  revert s. induction n as [|n IH]; intros s L; [destruct s; split; reflexivity|].
  destruct s as [|c s]; cbn [String.length] in L; [lia|]. destruct (IH s) as [A B]; [lia|]. unfold take in *. cbn [substring drop append String.length].
  split; [f_equal; exact A|f_equal; exact B].
Qed.
Lemma drop_length n s : String.length (drop n s) = String.length s - n.
Proof. revert s. induction n as [|n IH]; intros [|c s]; cbn [drop String.length]; [reflexivity|lia|reflexivity|apply IH]. Qed.
Lemma drop_drop a b s : drop a (drop b s) = drop (b + a) s.
Proof. revert s. induction b as [|b IH]; intros s; [reflexivity|]. destruct s as [|c s]; [destruct a; reflexivity|apply IH]. Qed.
Lemma app_cons_s a c b : (a ++ String c b)%string = ((a ++ String c "") ++ b)%string.
Proof. rewrite app_assoc_s. reflexivity. Qed.
Lemma app_inv_head_s a b c : (a ++ b)%string = (a ++ c)%string -> b = c.
Proof. induction a as [|x a IH]; cbn [append]; [auto|]. intros E. injection E as E. auto. Qed.
Lemma str_rev_ind (P : string -> Prop) : P ""%string -> (forall a c, P a -> P (a ++ String c "")%string) -> forall s, P s.
Proof.
  intros H0 H1 s. remember (String.length s) as n eqn:E. revert s E. induction n as [|n IH]; intros s E; [destruct s; [exact H0|discriminate]|].
  destruct (take_drop n s) as [A B]; [lia|]. assert (D : String.length (drop n s) = 1) by (rewrite drop_length; lia).
  destruct (drop n s) as [|c [|]] eqn:F; try discriminate. rewrite A. apply H1. apply IH. auto.
Qed.
Lemma app_last_inv a c b d : (a ++ String c "")%string = (b ++ String d "")%string -> a = b /\ c = d.
Proof.
  revert b. induction a as [|x a IH]; intros [|y b]; cbn [append]; intros E.
  - injection E as <-. auto.
  - exfalso. apply (f_equal String.length) in E. cbn in E. rewrite length_app_s in E. cbn in E. lia.
  - exfalso. apply (f_equal String.length) in E. cbn in E. rewrite length_app_s in E. cbn in E. lia.
  - injection E as -> E. destruct (IH b E) as [-> ->]. auto.
Qed.
(** Two ways of cutting a text. *)
Lemma levi a b c d : (a ++ b)%string = (c ++ d)%string -> (exists m, c = (a ++ m)%string /\ b = (m ++ d)%string) \/ (exists m, a = (c ++ m)%string /\ d = (m ++ b)%string).
Proof.
  revert c. induction a as [|x a IH]; intros [|y c] E.
  - left. exists ""%string. auto.
  - left. exists (String y c). auto.
  - right. exists (String x a). auto.
  - cbn [append] in E. injection E as -> E. destruct (IH c E) as [(m & -> & ->)|(m & -> & ->)]; [left|right]; exists m; auto.
Qed.

(** *** Finding *)
Lemma find_at_some pat s p : find_at pat s = Some p <-> exists pre post, first_occurrence pat s pre post /\ p = String.length pre.
Proof.
  revert p. induction s as [|c s IH]; intros p; cbn [find_at]; destruct (startswith _ pat) eqn:S.
  - apply startswith_spec in S as (t & E). split.
    + intros H. injection H as <-. exists ""%string, t. split; [|reflexivity]. split; [exact E|]. intros; cbn; lia.
    + intros (pre & post & (A & B) & ->). specialize (B ""%string t E). destruct pre; [reflexivity|cbn in B; lia].
  - split; [discriminate|]. intros (pre & post & (A & _) & ->). destruct pre; [|discriminate]. cbn in A. rewrite (proj2 (startswith_spec ""%string pat)) in S by (exists post; exact A). discriminate.
  - apply startswith_spec in S as (t & E). split.
    + intros H. injection H as <-. exists ""%string, t. split; [|reflexivity]. split; [exact E|]. intros; cbn; lia.
    + intros (pre & post & (A & B) & ->). specialize (B ""%string t E). destruct pre; [reflexivity|cbn in B; lia].
  - assert (NS : forall t, String c s <> (pat ++ t)%string) by (intros t E; rewrite (proj2 (startswith_spec (String c s) pat)) in S by eauto; discriminate). split.
    + intros H. destruct (find_at pat s) as [q|] eqn:F; [|discriminate]. injection H as <-. destruct (proj1 (IH q) eq_refl) as (pre & post & (A & B) & ->).
      exists (String c pre), post. split; [|reflexivity]. split; [cbn; f_equal; exact A|]. intros a b E. destruct a as [|x a]; [destruct (NS b E)|]. injection E as _ E. specialize (B a b E). cbn. lia.
    + intros (pre & post & (A & B) & ->). destruct pre as [|x pre]; [destruct (NS post A)|]. injection A as <- A. cbn [String.length].
      rewrite (proj2 (IH (String.length pre))); [reflexivity|]. exists pre, post. split; [|reflexivity]. split; [exact A|]. intros a b E. specialize (B (String c a) b). cbn in B. rewrite E in B. specialize (B eq_refl). lia.
Qed.
Lemma find_at_none pat s : find_at pat s = None <-> ~ within pat s.
Proof.
  induction s as [|c s IH]; cbn [find_at]; destruct (startswith _ pat) eqn:S.
  - apply startswith_spec in S as (t & E). split; [discriminate|]. intros H. destruct H. exists ""%string, t. exact E.
  - split; [|reflexivity]. intros _ (a & b & E). destruct a; [|discriminate]. rewrite (proj2 (startswith_spec ""%string pat)) in S by eauto. discriminate.
  - apply startswith_spec in S as (t & E). split; [discriminate|]. intros H. destruct H. exists ""%string, t. exact E.
  - destruct (find_at pat s) as [q|]; cbn [option_map].
    + split; [discriminate|]. intros H. exfalso. assert (N : ~ within pat s) by (intros (a & b & ->); apply H; exists (String c a), b; reflexivity). apply IH in N. discriminate.
    + split; [|reflexivity]. intros _ (a & b & E). destruct a as [|x a]; [rewrite (proj2 (startswith_spec (String c s) pat)) in S by eauto; discriminate|].
      injection E as _ E. apply (proj1 IH eq_refl). exists a, b. exact E.
Qed.
Lemma first_fun pat s p1 q1 p2 q2 : first_occurrence pat s p1 q1 -> first_occurrence pat s p2 q2 -> p1 = p2 /\ q1 = q2.
Proof.
  intros [A1 B1] [A2 B2]. pose proof (B1 _ _ A2) as L1. pose proof (B2 _ _ A1) as L2. assert (L : String.length p1 = String.length p2) by lia.
  assert (P : p1 = p2) by (rewrite <- (take_app p1 (pat ++ q1)), <- A1, A2, L; apply take_app). subst p2. split; [reflexivity|].
  rewrite A1 in A2. apply app_inv_head_s in A2. apply app_inv_head_s in A2. exact A2.
Qed.

(** Last position. *)
Lemma last_index_some p s n : last_index p s = Some n <-> exists a c b, s = (a ++ String c b)%string /\ String.length a = n /\ p c = true /\ Every (fun x => p x = false) b.
Proof.
  revert n. induction s as [|x s IH]; intros n; cbn [last_index].
  - split; [discriminate|]. intros (a & c & b & E & _). destruct a; discriminate.
  - destruct (last_index p s) as [m|] eqn:L.
    + destruct (proj1 (IH m) eq_refl) as (a & c & b & E & <- & P & F). split.
      * intros H. injection H as <-. exists (String x a), c, b. cbn. subst. auto.
      * intros (a2 & c2 & b2 & E2 & <- & P2 & F2). destruct a2 as [|y a2].
        -- injection E2 as <- E2. exfalso. subst s. subst b2. apply every_app in F2 as [_ F2]. inversion F2. congruence.
        -- injection E2 as <- E2. cbn. assert (Q : Some (String.length a) = Some (String.length a2)) by (apply IH; exists a2, c2, b2; auto). injection Q as ->. reflexivity.
    + split.
      * destruct (p x) eqn:PX; [|discriminate]. intros H. injection H as <-. exists ""%string, x, s. split; [reflexivity|]. split; [reflexivity|]. split; [exact PX|].
        assert (N : forall t, (exists a, s = (a ++ t)%string) -> Every (fun y => p y = false) t).
        { induction t as [|y t IHt]; intros (a & E); constructor; [|apply IHt; exists (a ++ String y "")%string; rewrite E; apply app_cons_s].
          destruct (p y) eqn:PY; [|reflexivity]. exfalso. assert (F : Every (fun y => p y = false) t) by (apply IHt; exists (a ++ String y "")%string; rewrite E; apply app_cons_s).
          assert (Q : None = Some (String.length a)) by (apply IH; exists a, y, t; auto). discriminate. }
        apply N. exists ""%string. reflexivity.
      * intros (a & c & b & E & <- & P & F). destruct a as [|y a].
        -- injection E as <- <-. rewrite P. reflexivity.
        -- injection E as <- E. exfalso. assert (Q : None = Some (String.length a)) by (apply IH; exists a, c, b; auto). discriminate.
Qed.
Lemma last_index_none p s : last_index p s = None <-> Every (fun x => p x = false) s.
Proof.
  induction s as [|x s IH]; cbn [last_index]; [split; [constructor|reflexivity]|]. destruct (last_index p s) as [m|].
  - split; [discriminate|]. intros H. inversion H as [|? ? A B]; subst. apply IH in B. discriminate.
  - destruct (p x) eqn:P.
    + split; [discriminate|]. intros H. inversion H. congruence.
    + split; [intros _; constructor; [exact P|apply IH; reflexivity]|reflexivity].
Qed.

(** ** C49: suffixes *)
Lemma no_dot_every s : Every (fun c => Ascii.eqb "." c = false) s <-> ~ within "." s.
Proof.
  induction s as [|c s IH].
  - split; [intros _ (a & b & E); destruct a; discriminate|constructor].
  - split.
    + intros H (a & b & E). inversion H as [|? ? A B]; subst. destruct a as [|x a].
      * injection E as -> _. rewrite Ascii.eqb_refl in A. discriminate.
      * injection E as _ E. apply IH in B. apply B. exists a, b. exact E.
    + intros H. constructor.
      * destruct (Ascii.eqb_spec "." c) as [<-|]; [|reflexivity]. destruct H. exists ""%string, s. reflexivity.
      * apply IH. intros (a & b & ->). apply H. exists (String c a), b. reflexivity.
Qed.
Lemma every_digit_no_dot d : Every digit d -> Every (fun c => Ascii.eqb "." c = false) d.
Proof.
  induction d as [|c d IH]; intros H; [constructor|]. inversion H as [|? ? A B]; subst. constructor; [|auto].
  destruct (Ascii.eqb_spec "." c) as [<-|]; [|reflexivity]. unfold digit in A. change (nat_of_ascii ".") with 46 in A. lia.
Qed.
Lemma within_app_char c a b : within (String c "") (a ++ b) <-> within (String c "") a \/ within (String c "") b.
Proof.
  split.
  - intros (x & y & E). cbn in E. apply levi in E as [(m & -> & E)|(m & -> & E)].
    + right. exists m, y. exact E.
    + destruct m as [|z m]; [right; exists ""%string, y; symmetry; exact E|]. injection E as <- E. left. exists x, m. reflexivity.
  - intros [(x & y & ->)|(x & y & ->)]; [exists x, (y ++ b)%string|exists (a ++ x)%string, y]; rewrite !app_assoc_s; reflexivity.
Qed.
Definition plain_char (c : ascii) : bool := negb (is_digit c || Ascii.eqb c ".").
Lemma plain_iff c : plain_char c = true <-> ~ digit c /\ c <> "."%char.
Proof. unfold plain_char. rewrite negb_true_iff, orb_false_iff, Ascii.eqb_neq, (bool_not _ _ (digit_iff c)). reflexivity. Qed.

(** The name cut at its last dot. *)
Lemma has_suffix_cut base d : Every (fun c => Ascii.eqb "." c = false) d ->
  drop_suffix (base ++ "." ++ d) = base /\
  (has_suffix (base ++ "." ++ d) = true <-> d = "void"%string \/ (Every digit d /\ exists c, within (String c "") base /\ ~ digit c /\ c <> "."%char)).
Proof.
  intros N. assert (L : last_index (Ascii.eqb ".") (base ++ "." ++ d) = Some (String.length base)).
  { apply last_index_some. exists base, "."%char, d. auto. }
  unfold drop_suffix, has_suffix. rewrite L. split; [apply take_app|]. rewrite orb_true_iff, drop_app, String.eqb_eq. change (fun c => negb (is_digit c || Ascii.eqb c ".")) with plain_char. split.
  - intros [H|H]; [right|left; injection H as ->; reflexivity].
    destruct (last_index plain_char _) as [n|] eqn:P; [|discriminate]. apply Nat.ltb_lt in H. apply last_index_some in P as (a & c & b & E & <- & PC & F).
    cbn [append] in E. apply levi in E as [(m & -> & E)|(m & -> & E)]; [rewrite length_app_s in H; lia|]. destruct m as [|z m]; [rewrite app_nil_r_s in H; lia|]. injection E as <- E. subst b.
    apply every_app in F as [_ F]. inversion F as [|? ? _ FD]; subst. apply plain_iff in PC. split; [|exists c; split; [exists a, m; reflexivity|exact PC]].
    clear - N FD. induction d as [|x d IH]; constructor; inversion N as [|? ? N1 N2]; inversion FD as [|? ? F1 F2]; subst; [|auto]. apply digit_iff. unfold plain_char in F1.
    apply negb_false_iff in F1. apply orb_true_iff in F1 as [F1|F1]; [exact F1|]. apply Ascii.eqb_eq in F1. subst. discriminate.
  - intros [->|(D & c & W & PC)]; [right; reflexivity|left]. destruct (last_index plain_char _) as [n|] eqn:P.
    + apply Nat.ltb_lt. apply last_index_some in P as (a & c2 & b & E & <- & PC2 & F). cbn [append] in E. apply levi in E as [(m & -> & E)|(m & -> & E)].
      * exfalso. destruct m as [|z m]; [assert (c2 = "."%char) by (cbn in E; congruence); apply plain_iff in PC2 as [_ PC2]; congruence|]. assert (E2 : d = (m ++ String c2 b)%string) by (cbn in E; congruence). subst d. apply every_app in D as [_ D]. inversion D as [|? ? DC _]; subst.
        apply plain_iff in PC2 as [PC2 _]. exact (PC2 DC).
      * destruct m as [|z m]; [|rewrite length_app_s; cbn; lia]. exfalso. apply plain_iff in PC2 as [_ PC2]. cbn in E. congruence.
    + exfalso. apply last_index_none in P. apply every_app in P as [P _]. destruct W as (x & y & ->). apply every_app in P as [_ P]. inversion P as [|? ? Q _]; subst. apply plain_iff in PC. congruence.
Qed.
Lemma has_suffix_iff name : has_suffix name = true <-> numbered name (drop_suffix name) \/ voided name (drop_suffix name).
Proof.
  destruct (last_index (Ascii.eqb ".") name) as [n|] eqn:L.
  - apply last_index_some in L as (base & c & d & -> & _ & E & N). apply Ascii.eqb_eq in E. subst c.
    change (base ++ String "." d)%string with (base ++ "." ++ d)%string. destruct (has_suffix_cut base d N) as [D H]. rewrite H, D. split.
    + intros [->|(Dg & C)]; [right; reflexivity|left]. exists d. auto.
    + intros [(d2 & E & Dg & C)|E].
      * apply app_inv_head_s in E. injection E as <-. auto.
      * unfold voided in E. apply app_inv_head_s in E. injection E as ->. left. reflexivity.
  - unfold has_suffix. rewrite L. split; [discriminate|]. apply last_index_none in L. apply no_dot_every in L.
    intros [(d & E & _)|E]; exfalso; apply L; [exists (drop_suffix name), d; exact E|]. unfold voided in E. exists (drop_suffix name), "void"%string. exact E.
Qed.
Lemma suffix_fun name b : numbered name b \/ voided name b -> has_suffix name = true /\ drop_suffix name = b.
Proof.
  intros [(d & -> & D & C)|V].
  - destruct (has_suffix_cut b d (every_digit_no_dot d D)) as [A B]. split; [apply B; auto|exact A].
  - unfold voided in V. subst name. destruct (has_suffix_cut b "void") as [A B]; [repeat constructor|]. split; [apply B; auto|exact A].
Qed.
Lemma base_of_iff name b : base_of name b <-> base_name name = b.
Proof.
  unfold base_name. split.
  - intros [H|[H|[-> H]]]; [destruct (suffix_fun name b (or_introl H)) as [-> ->]; reflexivity|destruct (suffix_fun name b (or_intror H)) as [-> ->]; reflexivity|].
    destruct (has_suffix name) eqn:S; [|reflexivity]. apply has_suffix_iff in S. destruct (H (drop_suffix name)). tauto.
  - intros <-. destruct (has_suffix name) eqn:S; [apply has_suffix_iff in S; unfold base_of; tauto|]. right. right. split; [reflexivity|].
    intros b. split; intros H; [destruct (suffix_fun name b (or_introl H))|destruct (suffix_fun name b (or_intror H))]; congruence.
Qed.
Lemma names_match_iff l r (left_side : bool) bl br : base_of l bl -> base_of r br ->
  let side := if left_side then "old."%string else "new."%string in
  (names_match l r left_side = true <->
   bl = br \/ br = ("diffkemp." ++ side ++ bl)%string \/ (br = ("diffkemp." ++ bl)%string /\ forall t, bl <> (side ++ t)%string)).
Proof.
  intros Hl Hr side. apply base_of_iff in Hl, Hr. unfold names_match. rewrite Hl, Hr. destruct (String.eqb_spec bl br) as [->|N]; [tauto|].
  destruct (startswith br "diffkemp.") eqn:S; cbn [negb].
  - apply startswith_spec in S as (real & ->). change (drop 9 ("diffkemp." ++ real)) with real. fold side. destruct (startswith real side) eqn:T.
    + apply startswith_spec in T as (real2 & ->). assert (D : drop 4 (side ++ real2) = real2) by (unfold side; destruct left_side; reflexivity). rewrite D, String.eqb_eq. split.
      * intros ->. auto.
      * intros [E|[E|[E F]]]; [contradiction| |].
        -- apply app_inv_head_s in E. apply app_inv_head_s in E. congruence.
        -- apply app_inv_head_s in E. exfalso. apply (F real2). symmetry. exact E.
    + rewrite String.eqb_eq. assert (F : forall t, real <> (side ++ t)%string) by (intros t ->; rewrite (proj2 (startswith_spec _ _)) in T by eauto; discriminate). split.
      * intros ->. auto.
      * intros [E|[E|[E _]]]; [contradiction| |].
        -- apply app_inv_head_s in E. destruct (F _ E).
        -- apply app_inv_head_s in E. congruence.
  - split; [discriminate|]. intros [E|[E|[E _]]]; [contradiction| |]; subst br; (rewrite (proj2 (startswith_spec _ _)) in S by eauto; discriminate).
Qed.

(** ** C50: replacing *)
Lemma find_from_app done rest pat : find_from (done ++ rest) pat (String.length done) = option_map (Nat.add (String.length done)) (find_at pat rest).
Proof.
  unfold find_from. rewrite length_app_s. destruct (Nat.ltb_spec (String.length done + String.length rest) (String.length done)); [lia|]. rewrite drop_app. reflexivity.
Qed.
Lemma replaced_first find repl s pre post r : find <> ""%string -> first_occurrence find s pre post -> Replaced find repl post r -> Replaced find repl s (pre ++ repl ++ r).
Proof.
  intros N. revert s. induction pre as [|c pre IH]; intros s [A B] R.
  - cbn in A. subst s. cbn. apply Replaced_hit. exact R.
  - cbn in A. subst s. cbn [append]. apply Replaced_miss.
    + intros t E. specialize (B ""%string t E). cbn in B. lia.
    + apply IH; [|exact R]. split; [reflexivity|]. intros a b E. specialize (B (String c a) b). cbn in B. rewrite E in B. specialize (B eq_refl). lia.
Qed.
Lemma replaced_none find repl s : find <> ""%string -> ~ within find s -> Replaced find repl s s.
Proof.
  intros N. induction s as [|c s IH]; intros H; [constructor|]. apply Replaced_miss.
  - intros t E. apply H. exists ""%string, t. exact E.
  - apply IH. intros (a & b & ->). apply H. exists (String c a), b. reflexivity.
Qed.
Lemma length_pos s : s <> ""%string -> 1 <= String.length s.
Proof. destruct s; [contradiction|cbn; lia]. Qed.
Lemma replace_loop_ok find repl : find <> ""%string -> forall fuel done rest, String.length rest < fuel ->
  exists r, replace_loop fuel (done ++ rest) find repl (String.length done) = Some (done ++ r)%string /\ Replaced find repl rest r.
Proof.
  intros N. induction fuel as [|fuel IH]; intros done rest L; [lia|]. cbn [replace_loop]. rewrite find_from_app. destruct (find_at find rest) as [p|] eqn:F; cbn [option_map].
  - apply find_at_some in F as (pre & post & FO & ->). destruct FO as [E B]. pose proof (length_pos find N) as LF.
    assert (T : take (String.length done + String.length pre) (done ++ rest) = (done ++ pre)%string) by (rewrite E, <- length_app_s, <- app_assoc_s; apply take_app).
    assert (D : drop (String.length done + String.length pre + String.length find) (done ++ rest) = post).
    { rewrite E, <- !length_app_s, <- !app_assoc_s. apply drop_app. }
    rewrite T, D. assert (L2 : String.length post < fuel) by (rewrite E, !length_app_s in L; lia).
    destruct (IH ((done ++ pre) ++ repl)%string post L2) as (r & A & R). rewrite !length_app_s in A. rewrite !app_assoc_s in A. rewrite !app_assoc_s. rewrite A.
    exists (pre ++ repl ++ r)%string. split; [reflexivity|]. apply (replaced_first _ _ _ pre post); [exact N|split; assumption|exact R].
  - exists rest. split; [reflexivity|]. apply find_at_none in F. apply replaced_none; assumption.
Qed.
Lemma find_and_replace_ok input find repl fuel : find <> ""%string -> String.length input < fuel ->
  exists r, find_and_replace fuel input find repl = Some r /\ Replaced find repl input r.
Proof.
  intros N L. unfold find_and_replace. destruct (String.eqb_spec find "") as [|_]; [contradiction|]. exact (replace_loop_ok find repl N fuel ""%string input L).
Qed.
Lemma replace_all_replace input find repl : find <> ""%string -> replace_all input find repl = replace find repl input.
Proof.
  intros N. unfold replace_all. destruct (find_and_replace_ok input find repl (S (String.length input)) N) as (r & -> & R); [lia|].
  apply (Replaced_fun find repl input); [exact N|exact R|apply replace_Replaced; exact N].
Qed.

(** ** C51: brackets *)
Definition weight (c : ascii) : Z := if Ascii.eqb c "(" then 1%Z else if Ascii.eqb c ")" then (-1)%Z else 0%Z.
Lemma level_cons c s : level (String c s) = (weight c + level s)%Z.
Proof. reflexivity. Qed.
Lemma level_app a b : level (a ++ b) = (level a + level b)%Z.
Proof. induction a as [|c a IH]; [reflexivity|]. cbn [append]. rewrite !level_cons, IH. lia. Qed.
Lemma bracket_loop_step d c r : bracket_loop d (String c r) = String c (if (d + weight c =? 0)%Z then EmptyString else bracket_loop (d + weight c) r).
Proof.
  cbn [bracket_loop]. unfold weight. destruct (Ascii.eqb c "("); [reflexivity|]. destruct (Ascii.eqb c ")"); [replace (d - 1)%Z with (d + -1)%Z by lia; reflexivity|]. rewrite Z.add_0_r. reflexivity.
Qed.
Lemma bracket_loop_ok s d : s <> ""%string ->
  (exists t, s = (bracket_loop d s ++ t)%string /\ bracket_loop d s <> ""%string /\ (d + level (bracket_loop d s) = 0)%Z /\
     (forall a b, bracket_loop d s = (a ++ b)%string -> a <> ""%string -> b <> ""%string -> (d + level a <> 0)%Z)) \/
  (bracket_loop d s = s /\ forall a b, s = (a ++ b)%string -> a <> ""%string -> (d + level a <> 0)%Z).
Proof.
  revert d. induction s as [|c s IH]; intros d N; [contradiction|]. rewrite bracket_loop_step. destruct (Z.eqb_spec (d + weight c) 0) as [E|E].
  - left. exists s. split; [reflexivity|]. split; [discriminate|]. split; [rewrite level_cons; cbn [level]; lia|].
    intros a b X NA NB. exfalso. destruct a as [|y a]; [contradiction|]. injection X as _ X. destruct a; [|discriminate]. cbn in X. subst b. contradiction.
  - destruct s as [|x s].
    + right. split; [reflexivity|]. intros a b X NA. destruct a as [|y a]; [contradiction|]. injection X as <- X. destruct a; [|discriminate]. rewrite level_cons. cbn [level]. lia.
    + destruct (IH (d + weight c)%Z ltac:(discriminate)) as [(t & A & B & C & D)|(A & B)].
      * left. exists t. split; [cbn [append]; f_equal; exact A|]. split; [discriminate|]. split; [rewrite level_cons; lia|].
        intros a b X NA NB. destruct a as [|y a]; [contradiction|]. injection X as <- X. rewrite level_cons. destruct a as [|z a]; [cbn [level]; lia|]. specialize (D (String z a) b X ltac:(discriminate) NB). lia.
      * right. split; [f_equal; exact A|]. intros a b X NA. destruct a as [|y a]; [contradiction|]. injection X as <- X. rewrite level_cons. destruct a as [|z a]; [cbn [level]; lia|].
        specialize (B (String z a) b X ltac:(discriminate)). lia.
Qed.
Lemma bracket_spec s : s <> ""%string -> closes s (bracket_loop 0 s) \/ (bracket_loop 0 s = s /\ never_closes s).
Proof.
  intros N. destruct (bracket_loop_ok s 0 N) as [(t & A & B & C & D)|(A & B)].
  - left. split; [exact B|]. split; [lia|]. split; [eauto|]. intros a b X NA NB. specialize (D a b X NA NB). lia.
  - right. split; [exact A|]. intros a b X NA. specialize (B a b X NA). lia.
Qed.
Lemma closes_fun s r1 r2 : closes s r1 -> closes s r2 -> r1 = r2.
Proof.
  intros (N1 & L1 & (t1 & E1) & M1) (N2 & L2 & (t2 & E2) & M2). rewrite E1 in E2. apply levi in E2 as [(m & -> & E)|(m & -> & E)].
  - destruct m as [|c m]; [rewrite app_nil_r_s; reflexivity|]. exfalso. exact (M2 r1 (String c m) eq_refl N1 ltac:(discriminate) L1).
  - destruct m as [|c m]; [rewrite app_nil_r_s; reflexivity|]. exfalso. exact (M1 r2 (String c m) eq_refl N2 ltac:(discriminate) L2).
Qed.
Lemma bracket_iff s r : closes s r -> bracket_loop 0 s = r.
Proof.
  intros C. assert (N : s <> ""%string) by (intros ->; destruct C as (N & _ & (t & E) & _); destruct r; [contradiction|discriminate]).
  destruct (bracket_spec s N) as [H|(_ & H)]; [apply (closes_fun s); assumption|]. destruct C as (NR & L & (t & E) & _). destruct (H r t E NR L).
Qed.
Lemma bracket_whole s : never_closes s -> bracket_loop 0 s = s.
Proof.
  intros H. destruct s as [|c s]; [reflexivity|]. destruct (bracket_spec (String c s) ltac:(discriminate)) as [C|(E & _)]; [|exact E].
  destruct C as (N & L & (t & E) & _). destruct (H _ t E N L).
Qed.

(** *** Arguments *)
Lemma split_loop_step d cur c r : split_loop d cur (String c r) =
  if ((d + weight c =? 0)%Z && Ascii.eqb c ",") || (d + weight c =? -1)%Z then cur :: split_loop (d + weight c) "" r else split_loop (d + weight c) (cur ++ String c "")%string r.
Proof.
  cbn [split_loop]. unfold weight. destruct (Ascii.eqb c "("); [reflexivity|]. destruct (Ascii.eqb c ")"); [replace (d - 1)%Z with (d + -1)%Z by lia; reflexivity|]. rewrite Z.add_0_r. reflexivity.
Qed.
(** A text that stays inside the argument is taken over. *)
Lemma split_loop_text a : forall d cur rest, (forall x y, a = (x ++ y)%string -> (0 <= d + level x)%Z) -> (forall x y, a = (x ++ "," ++ y)%string -> (0 < d + level x)%Z) ->
  split_loop d cur (a ++ rest) = split_loop (d + level a) (cur ++ a)%string rest.
Proof.
  induction a as [|c a IH]; intros d cur rest P Q.
  - cbn [append level]. rewrite Z.add_0_r, app_nil_r_s. reflexivity.
  - cbn [append]. rewrite split_loop_step. assert (W : (0 <= d + weight c)%Z) by (specialize (P (String c "") a eq_refl); rewrite level_cons in P; cbn [level] in P; lia).
    assert (B : ((d + weight c =? 0)%Z && Ascii.eqb c ",") || (d + weight c =? -1)%Z = false).
    { apply orb_false_iff. split; [|apply Z.eqb_neq; lia]. apply andb_false_iff. destruct (Ascii.eqb_spec c ",") as [->|]; [left|right; reflexivity].
      specialize (Q ""%string a eq_refl). cbn [level] in Q. apply Z.eqb_neq. unfold weight. change (Ascii.eqb "," "(") with false. change (Ascii.eqb "," ")") with false. cbv iota. lia. }
    rewrite B, IH.
    + rewrite level_cons, Z.add_assoc, app_assoc_s. reflexivity.
    + intros x y ->. specialize (P (String c x) y eq_refl). rewrite level_cons in P. lia.
    + intros x y ->. specialize (Q (String c x) y eq_refl). rewrite level_cons in Q. lia.
Qed.
Lemma split_loop_args args : args <> [] -> Forall argument args -> split_loop 0 "" (join "," args ++ ")") = args.
Proof.
  intros N F. induction F as [|a args [L [P Q]] F IH]; [contradiction|]. destruct args as [|b args].
  - unfold join. cbn [String.concat]. rewrite split_loop_text; [|intros x y E; specialize (P x y E); lia|intros x y E; specialize (Q x y E); lia].
    rewrite L. cbn [append]. rewrite split_loop_step. reflexivity.
  - change (join "," (a :: b :: args)) with (a ++ "," ++ join "," (b :: args))%string. rewrite !app_assoc_s.
    rewrite split_loop_text; [|intros x y E; specialize (P x y E); lia|intros x y E; specialize (Q x y E); lia]. rewrite L. cbn [append]. rewrite split_loop_step.
    change (((0 + 0 + weight ",") =? 0)%Z && Ascii.eqb "," "," || (0 + 0 + weight "," =? -1)%Z) with true. cbv iota. change (0 + 0 + weight ",")%Z with 0%Z. rewrite IH by discriminate. reflexivity.
Qed.
(** Blanks. *)
Lemma strip_left_ok s : exists l, s = (l ++ strip_left s)%string /\ blank_only l /\ forall t, strip_left s <> (" " ++ t)%string.
Proof.
  induction s as [|c s IH]; cbn [strip_left].
  - exists ""%string. split; [reflexivity|]. split; [constructor|discriminate].
  - destruct (Ascii.eqb_spec c " ") as [->|N].
    + destruct IH as (l & A & B & C). exists (String " " l). split; [cbn; f_equal; exact A|]. split; [constructor; auto|exact C].
    + exists ""%string. split; [reflexivity|]. split; [constructor|]. intros t E. cbn in E. congruence.
Qed.
Lemma strip_ok s : stripped s (strip_blanks s).
Proof.
  unfold strip_blanks. destruct (last_index _ s) as [n|] eqn:L.
  - apply last_index_some in L as (a & c & b & -> & <- & P & F). apply negb_true_iff, Ascii.eqb_neq in P.
    assert (T : take (S (String.length a)) (a ++ String c b) = (a ++ String c "")%string).
    { rewrite app_cons_s. replace (S (String.length a)) with (String.length (a ++ String c "")) by (rewrite length_app_s; cbn; lia). apply take_app. }
    rewrite T, (app_cons_s a c b). destruct (strip_left_ok (a ++ String c "")) as (l & A & B & C). rewrite A at 1. rewrite app_assoc_s.
    assert (X : exists m, strip_left (a ++ String c "") = (m ++ String c "")%string).
    { remember (strip_left (a ++ String c "")) as q eqn:Q. clear Q C. revert A. pattern q. apply str_rev_ind; clear q.
      - intros A. rewrite app_nil_r_s in A. subst l. apply every_app in B as [_ B]. inversion B. congruence.
      - intros q d _ A. rewrite <- app_assoc_s in A. apply app_last_inv in A as [_ ->]. eauto. }
    destruct X as (m & X). constructor; [exact B| | |exact C|].
    + clear - F. induction b as [|x b IH]; constructor; inversion F as [|? ? P Q]; subst; [|exact (IH Q)]. apply negb_false_iff, Ascii.eqb_eq in P. exact P.
    + rewrite X. destruct m; discriminate.
    + intros t E. rewrite X in E. change " "%string with (String " " "") in E. apply app_last_inv in E as [_ E]. congruence.
  - apply last_index_none in L. constructor. clear - L. induction s as [|x s IH]; constructor; inversion L as [|? ? P Q]; subst; [|exact (IH Q)]. apply negb_false_iff, Ascii.eqb_eq in P. exact P.
Qed.
Lemma split_arguments_ok args : args <> [] -> Forall argument args ->
  exists bs, split_arguments ("(" ++ join "," args ++ ")") = bs /\ Forall2 stripped args bs.
Proof.
  intros N F. unfold split_arguments. change (drop 1 ("(" ++ join "," args ++ ")")) with (join "," args ++ ")")%string. rewrite split_loop_args by assumption.
  eexists. split; [reflexivity|]. clear. induction args as [|a args IH]; constructor; [apply strip_ok|exact IH].
Qed.
(** Every closed bracket is of that form. *)
Lemma cut_arguments s : level s = 0%Z -> (forall x y, s = (x ++ y)%string -> (0 <= level x)%Z) -> exists args, args <> [] /\ s = join "," args /\ Forall argument args.
Proof.
  remember (String.length s) as n eqn:EN. revert s EN. induction n as [n IH] using lt_wf_ind. intros s -> L P.
  (* the first comma at level 0 *)
  assert (C : (exists a b, s = (a ++ "," ++ b)%string /\ level a = 0%Z /\ forall x y, a = (x ++ "," ++ y)%string -> (0 < level x)%Z) \/
              (forall x y, s = (x ++ "," ++ y)%string -> (0 < level x)%Z)).
  { assert (G : forall q p, s = (p ++ q)%string -> (forall x y, p = (x ++ "," ++ y)%string -> (0 < level x)%Z) ->
      (exists a b, s = (a ++ "," ++ b)%string /\ level a = 0%Z /\ forall x y, a = (x ++ "," ++ y)%string -> (0 < level x)%Z) \/ (forall x y, s = (x ++ "," ++ y)%string -> (0 < level x)%Z)).
    { induction q as [|c q IHq]; intros p E H.
      - right. intros x y F. apply (H x y). rewrite <- F, E, app_nil_r_s. reflexivity.
      - destruct (Ascii.eqb_spec c ",") as [->|NC]; [destruct (Z.eq_dec (level p) 0) as [Z0|NZ]|].
        + left. exists p, q. auto.
        + apply (IHq (p ++ String "," "")%string); [rewrite <- app_cons_s; exact E|]. intros x y F. cbn [append] in F. apply levi in F as [(m & A & B)|(m & -> & B)].
          * destruct m as [|z m]; [rewrite app_nil_r_s in A; subst x; specialize (P p (String "," q) E); lia|]. exfalso. apply (f_equal String.length) in B. cbn in B. rewrite ?length_app_s in B. cbn in B. lia.
          * destruct m as [|z m]; [rewrite app_nil_r_s in *; specialize (P x (String "," q) E); lia|]. assert (z = ","%char) by (cbn in B; congruence). subst z. apply (H x m). reflexivity.
        + apply (IHq (p ++ String c "")%string); [rewrite <- app_cons_s; exact E|]. intros x y F. cbn [append] in F. apply levi in F as [(m & A & B)|(m & -> & B)].
          * destruct m as [|z m]; [cbn in B; congruence|]. exfalso. apply (f_equal String.length) in B. cbn in B. rewrite ?length_app_s in B. cbn in B. lia.
          * destruct m as [|z m]; [cbn in B; congruence|]. assert (z = ","%char) by (cbn in B; congruence). subst z. apply (H x m). reflexivity. }
    apply (G s ""%string); [reflexivity|]. intros x y E. destruct x; discriminate. }
  destruct C as [(a & b & E & La & Qa)|Q].
  - assert (Lb : level b = 0%Z).
    { rewrite E in L. rewrite !level_app in L. change (level ",") with 0%Z in L. lia. }
    destruct (IH (String.length b)) with (s := b) as (args & NA & EB & F); [rewrite E, !length_app_s; cbn; lia|reflexivity|exact Lb| |].
    + intros x y EB. specialize (P (a ++ "," ++ x)%string y). rewrite E, EB in P. rewrite !app_assoc_s in P. specialize (P eq_refl). rewrite !level_app in P. change (level ",") with 0%Z in P. lia.
    + exists (a :: args). split; [discriminate|]. destruct args as [|b0 args]; [contradiction|]. split; [rewrite E, EB; reflexivity|]. constructor; [|exact F]. split; [exact La|]. split; [|exact Qa].
      intros x y EA. apply (P x (y ++ "," ++ b)%string). rewrite E, EA, !app_assoc_s. reflexivity.
  - exists [s]. split; [discriminate|]. split; [reflexivity|]. constructor; [|constructor]. split; [exact L|]. split; assumption.
Qed.
Lemma closed_form s r : (exists y, s = ("(" ++ y)%string) -> closes s r -> exists args, args <> [] /\ r = ("(" ++ join "," args ++ ")")%string /\ Forall argument args.
Proof.
  intros (y & ->) (N & L & (t & E) & M). destruct r as [|c r]; [contradiction|]. assert (c = "("%char) by (cbn in E; congruence). subst c.
  assert (POS : forall x z, r = (x ++ z)%string -> z <> ""%string -> (0 <= level x)%Z).
  { intros x z EX NZ. assert (G : forall q p, x = (p ++ q)%string -> (0 <= level p)%Z -> (0 <= level x)%Z).
    { induction q as [|c q IHq]; intros p EP LP; [rewrite EP, app_nil_r_s; exact LP|]. apply (IHq (p ++ String c "")%string); [rewrite EP; apply app_cons_s|].
      rewrite level_app, level_cons. cbn [level]. assert (W : (-1 <= weight c)%Z) by (unfold weight; destruct (Ascii.eqb c "("); [lia|destruct (Ascii.eqb c ")"); lia]).
      destruct (Z.eq_dec (level p + weight c) (-1)) as [Z0|NZ0]; [|lia]. exfalso.
      apply (M (String "(" (p ++ String c "")) (q ++ z)%string); [cbn; f_equal; rewrite EX, EP, !app_assoc_s; reflexivity|discriminate|destruct q; [exact NZ|discriminate]|].
      rewrite level_cons, level_app, level_cons. cbn [level]. change (weight "(") with 1%Z. lia. }
    apply (G x ""%string); [reflexivity|cbn; lia]. }
  rewrite level_cons in L. change (weight "(") with 1%Z in L.
  assert (LR : exists q, r = (q ++ ")")%string).
  { destruct r as [|c0 r0]; [cbn in L; lia|]. remember (String c0 r0) as r eqn:ER. assert (NR : r <> ""%string) by (subst; discriminate). clear ER. revert L POS NR. pattern r. apply str_rev_ind; clear; [contradiction|].
    intros q c _ L POS _. specialize (POS q (String c "") eq_refl ltac:(discriminate)). rewrite level_app, level_cons in L. cbn [level] in L. exists q. unfold weight in L. destruct (Ascii.eqb_spec c "("); [lia|]. destruct (Ascii.eqb_spec c ")") as [EC|]; [rewrite EC; reflexivity|lia]. }
  destruct LR as (q & ->). rewrite level_app in L. change (level ")") with (-1)%Z in L.
  destruct (cut_arguments q) as (args & NA & -> & F); [lia| |].
  - intros x z EX. apply (POS x (z ++ ")")%string); [rewrite EX, app_assoc_s; reflexivity|destruct z; discriminate].
  - exists args. split; [exact NA|]. split; [reflexivity|exact F].
Qed.

(** ** C52: composite names *)
Lemma preceded_total prev q : exists c, preceded prev q c.
Proof. pattern q. apply str_rev_ind; [exists prev; constructor|]. intros a c _. exists (Some c). constructor. Qed.
Lemma preceded_fun prev q c d : preceded prev q c -> preceded prev q d -> c = d.
Proof.
  intros H1 H2. destruct H1 as [|a c]; inversion H2 as [E|b e E]; subst; try reflexivity.
  - destruct b; discriminate.
  - destruct a; discriminate.
  - apply app_last_inv in E as [_ ->]. reflexivity.
Qed.
Lemma preceded_app prev a c b d : preceded prev a c -> preceded c b d -> preceded prev (a ++ b) d.
Proof.
  intros H1 H2. destruct H2 as [|x e]; [rewrite app_nil_r_s; exact H1|]. rewrite <- app_assoc_s. constructor.
Qed.
Lemma get_app a c b : String.get (String.length a) (a ++ String c b) = Some c.
Proof. induction a as [|x a IH]; [reflexivity|exact IH]. Qed.
Lemma char_before_ok q c X : preceded None q c -> char_before (q ++ X) (String.length q) = c.
Proof.
  intros H. destruct H as [|a d]; [reflexivity|]. rewrite length_app_s. cbn [String.length]. rewrite Nat.add_comm. cbn [Nat.add char_before]. rewrite app_assoc_s. apply get_app.
Qed.
Lemma within_first pat s : within pat s -> exists pre post, first_occurrence pat s pre post.
Proof.
  intros W. destruct (find_at pat s) as [n|] eqn:F; [|apply find_at_none in F; contradiction]. apply find_at_some in F as (pre & post & F & _). eauto.
Qed.
Lemma first_within pat s pre post : first_occurrence pat s pre post -> within pat s.
Proof. intros [E _]. exists pre, post. exact E. Qed.
Lemma marked_nonempty p : (p ++ "##")%string <> ""%string.
Proof. destruct p; discriminate. Qed.
Lemma word_dec c : {word_char c} + {~ word_char c}.
Proof. destruct (ident_char c) eqn:E; [left; apply word_iff, E|right; apply (bool_not _ _ (word_iff c)), E]. Qed.
Lemma part_dec x : {part_of_word x} + {~ part_of_word x}.
Proof.
  destruct x as [c|]; [destruct (word_dec c) as [W|W]; [left; exists c; auto|right; intros (d & E & D); injection E as <-; auto]|right; intros (d & E & _); discriminate].
Qed.
Lemma composed_or_stuck p a : forall s prev, (exists r, Composed p a prev s r) \/ Stuck p prev s.
Proof.
  intros s. remember (String.length s) as n eqn:EN. revert s EN. induction n as [n IH] using lt_wf_ind. intros s -> prev.
  destruct (find_at (p ++ "##") s) as [k|] eqn:F.
  - apply find_at_some in F as (pre & post & F & _). destruct (preceded_total prev pre) as (c & P). destruct (part_dec c) as [W|W]; [right; eapply sk_here; eassumption|].
    destruct post as [|x [|y post]].
    + left. eexists. eapply cp_last; [exact F|exact P|exact W|cbn; lia].
    + left. eexists. eapply cp_last; [exact F|exact P|exact W|cbn; lia].
    + destruct (IH (String.length post)) with (s := post) (prev := Some y) as [(r & R)|S].
      * destruct F as [-> _]. rewrite !length_app_s. cbn. lia.
      * reflexivity.
      * left. eexists. eapply cp_hit; eassumption.
      * right. eapply sk_later; eassumption.
  - left. exists s. constructor. apply find_at_none, F.
Qed.
(** One step of the loop. *)
Lemma composite_step n p a done rest pre post c prev : preceded None done prev -> first_occurrence (p ++ "##") rest pre post -> preceded prev pre c ->
  composite_loop (S n) p a (done ++ rest) (String.length done) =
  if match c with Some x => ident_char x | None => false end then composite_loop n p a (done ++ rest) (String.length (done ++ pre))
  else composite_loop n p a (done ++ pre ++ a ++ post) (String.length (done ++ pre ++ a) + 2).
Proof.
  intros D F P. cbn [composite_loop]. rewrite find_from_app. assert (FA : find_at (p ++ "##") rest = Some (String.length pre)) by (apply find_at_some; eauto). rewrite FA. cbn [option_map].
  destruct F as [E _]. assert (CB : char_before (done ++ rest) (String.length done + String.length pre) = c).
  { rewrite E, <- length_app_s, <- app_assoc_s. apply char_before_ok. eapply preceded_app; eassumption. }
  rewrite CB. assert (X : composite_loop n p a (take (String.length done + String.length pre) (done ++ rest) ++ a ++ drop (String.length done + String.length pre + String.length p + 2) (done ++ rest))%string
       (String.length done + String.length pre + String.length a + 2) = composite_loop n p a (done ++ pre ++ a ++ post) (String.length (done ++ pre ++ a) + 2)).
  { f_equal.
    - rewrite E. assert (T : take (String.length done + String.length pre) (done ++ pre ++ (p ++ "##") ++ post) = (done ++ pre)%string) by (rewrite <- length_app_s, <- app_assoc_s; apply take_app).
      assert (DR : drop (String.length done + String.length pre + String.length p + 2) (done ++ pre ++ (p ++ "##") ++ post) = post).
      { replace (String.length done + String.length pre + String.length p + 2) with (String.length (done ++ pre ++ p ++ "##")) by (rewrite !length_app_s; cbn; lia).
        replace (done ++ pre ++ (p ++ "##") ++ post)%string with ((done ++ pre ++ p ++ "##") ++ post)%string by (rewrite !app_assoc_s; reflexivity). apply drop_app. }
      rewrite T, DR, !app_assoc_s. reflexivity.
    - rewrite !length_app_s. lia. }
  destruct c as [x|]; [destruct (ident_char x)|]; try exact X. f_equal. rewrite length_app_s. reflexivity.
Qed.
Lemma loops_forever p a q post c : preceded None q (Some c) -> ident_char c = true -> forall fuel, composite_loop fuel p a (q ++ (p ++ "##") ++ post) (String.length q) = None.
Proof.
  intros P W. induction fuel as [|n IH]; [reflexivity|].
  rewrite (composite_step n p a q ((p ++ "##") ++ post) ""%string post (Some c) (Some c)); [|exact P|split; [reflexivity|intros; cbn; lia]|constructor].
  rewrite W, app_nil_r_s. exact IH.
Qed.
Lemma beyond p a s k : String.length s < k -> forall n, composite_loop (S n) p a s k = Some s.
Proof. intros L n. cbn [composite_loop]. unfold find_from. destruct (Nat.ltb_spec (String.length s) k); [reflexivity|lia]. Qed.
Lemma not_ident c : ~ part_of_word c -> match c with Some x => ident_char x | None => false end = false.
Proof.
  intros N. destruct c as [x|]; [|reflexivity]. apply (bool_not _ _ (word_iff x)). intros W. apply N. exists x. auto.
Qed.
Lemma stuck_none p a prev s : Stuck p prev s -> forall fuel done, preceded None done prev -> composite_loop fuel p a (done ++ s) (String.length done) = None.
Proof.
  induction 1 as [prev s pre post c F P (x & -> & W)|prev s pre x y post c F P W S IH]; intros fuel done D; (destruct fuel as [|n]; [reflexivity|]).
  - rewrite (composite_step n p a done s pre post _ prev D F P). apply word_iff in W. rewrite W. destruct F as [-> _]. rewrite <- app_assoc_s.
    apply loops_forever with (c := x); [eapply preceded_app; eassumption|exact W].
  - rewrite (composite_step n p a done s pre _ _ prev D F P), (not_ident c W).
    replace (done ++ pre ++ a ++ String x (String y post))%string with ((done ++ pre ++ a ++ String x (String y "")) ++ post)%string by (rewrite !app_assoc_s; reflexivity).
    replace (String.length (done ++ pre ++ a) + 2) with (String.length (done ++ pre ++ a ++ String x (String y ""))) by (rewrite !length_app_s; cbn; lia).
    apply IH. replace (done ++ pre ++ a ++ String x (String y ""))%string with ((done ++ pre ++ a ++ String x "") ++ String y "")%string by (rewrite !app_assoc_s; reflexivity). constructor.
Qed.
Lemma composed_some p a prev s r : Composed p a prev s r -> forall fuel done, String.length s < fuel -> preceded None done prev ->
  composite_loop fuel p a (done ++ s) (String.length done) = Some (done ++ r)%string.
Proof.
  induction 1 as [prev s N|prev s pre x y post c r F P W C IH|prev s pre post c F P W L]; intros fuel done LF D; (destruct fuel as [|n]; [lia|]).
  - cbn [composite_loop]. rewrite find_from_app. apply find_at_none in N. rewrite N. reflexivity.
  - rewrite (composite_step n p a done s pre _ _ prev D F P), (not_ident c W).
    replace (done ++ pre ++ a ++ String x (String y post))%string with ((done ++ pre ++ a ++ String x (String y "")) ++ post)%string by (rewrite !app_assoc_s; reflexivity).
    replace (String.length (done ++ pre ++ a) + 2) with (String.length (done ++ pre ++ a ++ String x (String y ""))) by (rewrite !length_app_s; cbn; lia).
    rewrite IH.
    + rewrite !app_assoc_s. reflexivity.
    + destruct F as [-> _]. rewrite !length_app_s in LF. cbn in LF. lia.
    + replace (done ++ pre ++ a ++ String x (String y ""))%string with ((done ++ pre ++ a ++ String x "") ++ String y "")%string by (rewrite !app_assoc_s; reflexivity). constructor.
  - rewrite (composite_step n p a done s pre _ _ prev D F P), (not_ident c W). destruct n as [|n].
    + exfalso. destruct F as [-> _]. rewrite !length_app_s in LF. cbn in LF. lia.
    + rewrite beyond; [reflexivity|]. rewrite !length_app_s. lia.
Qed.
Lemma composite_iff p a body : 
  (forall r, Composed p a None body r <-> exists fuel, composite_loop fuel p a body 0 = Some r) /\
  (Stuck p None body <-> forall fuel, composite_loop fuel p a body 0 = None).
Proof.
  assert (S1 : Stuck p None body -> forall fuel, composite_loop fuel p a body 0 = None) by (intros S fuel; apply (stuck_none p a None body S fuel ""%string); constructor).
  assert (C1 : forall r, Composed p a None body r -> forall fuel, String.length body < fuel -> composite_loop fuel p a body 0 = Some r) by (intros r C fuel L; apply (composed_some p a None body r C fuel ""%string L); constructor).
  (* more fuel does not change a result *)
  assert (MONO : forall n b k r, composite_loop n p a b k = Some r -> composite_loop (S n) p a b k = Some r).
  { induction n as [|n IH]; intros b k r E; [discriminate|]. cbn [composite_loop] in E. remember (S n) as m. cbn [composite_loop]. destruct (find_from b (p ++ "##") k) as [q|]; [|exact E].
    destruct (char_before b q) as [x|]; [destruct (ident_char x)|]; subst m; apply IH; exact E. }
  assert (MONO2 : forall m n b k r, n <= m -> composite_loop n p a b k = Some r -> composite_loop m p a b k = Some r).
  { induction m as [|m IH]; intros n b k r L E; [replace n with 0 in E by lia; exact E|]. destruct (Nat.eq_dec n (S m)) as [->|]; [exact E|]. apply MONO, (IH n); [lia|exact E]. }
  split; [intros r|]; split.
  - intros C. exists (S (String.length body)). apply C1; [exact C|lia].
  - intros (fuel & E). destruct (composed_or_stuck p a body None) as [(r2 & C)|S]; [|rewrite (S1 S) in E; discriminate].
    pose proof (C1 r2 C (S (String.length body + fuel)) ltac:(lia)) as X. rewrite (MONO2 (S (String.length body + fuel)) fuel body 0 r ltac:(lia) E) in X. injection X as ->. exact C.
  - exact S1.
  - intros H. destruct (composed_or_stuck p a body None) as [(r & C)|S]; [|exact S]. pose proof (C1 r C (S (String.length body)) ltac:(lia)) as X. rewrite H in X. discriminate.
Qed.

(** ** Identifiers *)
Lemma every_snoc p s c : Every p (s ++ String c "") <-> Every p s /\ p c.
Proof. rewrite every_app. split; intros [A B]; (split; [exact A|]); [inversion B; assumption|constructor; [exact B|constructor]]. Qed.
Lemma nonempty_snoc s c : String.eqb (s ++ String c "") "" = false.
Proof. destruct s; reflexivity. Qed.

Lemma prefix_split (pre X p Y : string) : (pre ++ X)%string = (p ++ Y)%string -> String.length pre <= String.length p -> exists q, p = (pre ++ q)%string /\ X = (q ++ Y)%string.
Proof.
  intros E L. apply levi in E as [H|(m & -> & E)]; [exact H|]. rewrite length_app_s in L. assert (M : m = ""%string) by (destruct m; [reflexivity|cbn in L; lia]). subst m.
  exists ""%string. rewrite !app_nil_r_s. auto.
Qed.
Lemma letter_not_digit c : letter c \/ c = "_"%char -> ~ digit c.
Proof. unfold letter, digit. intros [L| ->]; [lia|]. change (nat_of_ascii "_") with 95. lia. Qed.
Lemma identifier_word x : identifier x -> Every word_char x /\ x <> ""%string.
Proof.
  intros (c & r & -> & S & W). split; [|discriminate]. constructor; [|exact W]. unfold word_char. tauto.
Qed.
Lemma identifier_app a b : identifier a -> Every word_char b -> identifier (a ++ b).
Proof. intros (c & r & -> & S & W) B. exists c, (r ++ b)%string. repeat split; [exact S|]. apply every_app. auto. Qed.
Lemma identifier_prefix a b : identifier (a ++ b) -> a <> ""%string -> identifier a.
Proof. intros (c & r & E & S & W) N. destruct a as [|x a]; [contradiction|]. cbn [append] in E. injection E as -> <-. apply every_app in W as [W _]. exists c, a. auto. Qed.
Lemma no_break pre n : identifier n -> ~ word_break (pre ++ n).
Proof.
  intros I (a & d & E & D & B). destruct (identifier_word n I) as [W N]. apply levi in E as [(m & -> & E2)|(m & -> & E2)].
  - revert E2 B. pattern m. apply str_rev_ind.
    + intros E2 _. cbn [append] in E2. subst d. destruct I as (c & r & -> & S & _). inversion D as [|? ? X _]; subst. exact (letter_not_digit c S X).
    + intros q c _ E2 B. apply (B (pre ++ q)%string c); [rewrite app_assoc_s; reflexivity|]. subst n. rewrite !every_app in W. destruct W as [[_ W] _]. inversion W; assumption.
  - subst d. apply every_app in D as [_ D]. destruct I as (c & r & -> & S & _). inversion D as [|? ? X _]; subst. exact (letter_not_digit c S X).
Qed.
Lemma word_end_or s : word_ends s -> s = ""%string \/ exists c t, s = String c t /\ ~ word_char c.
Proof. intros H. destruct s as [|c t]; [left; reflexivity|right; exists c, t; split; [reflexivity|eapply H; reflexivity]]. Qed.
Lemma maximal_word x post n rest : (x ++ post)%string = (n ++ rest)%string -> Every word_char x -> Every word_char n -> word_ends post -> word_ends rest -> x = n /\ post = rest.
Proof.
  intros E X N P R. apply levi in E as [(m & -> & E)|(m & -> & E)].
  - destruct m as [|c m]; [rewrite app_nil_r_s; auto|]. subst post. apply every_app in N as [_ N]. inversion N as [|? ? W _]; subst. destruct (P c (m ++ rest)%string eq_refl W).
  - destruct m as [|c m]; [rewrite app_nil_r_s; auto|]. subst rest. apply every_app in X as [_ X]. inversion X as [|? ? W _]; subst. destruct (R c (m ++ post)%string eq_refl W).
Qed.
Definition seen_after (text pre x : string) (i : nat) : Prop :=
  exists p post, text = (p ++ x ++ post)%string /\ String.length pre <= String.length p /\ word_break p /\ identifier x /\ word_ends post /\
    (post = ""%string -> 2 <= String.length x) /\ i = (if String.eqb post "" then String.length text - 1 else String.length p + String.length x).
Lemma snoc_eq pre c r : (pre ++ "" ++ String c r)%string = (pre ++ String c "" ++ r)%string.
Proof. reflexivity. Qed.
(** A part of the text that begins inside of an identifier or at its end. *)
Lemma seen_inside pre name c r x p post : identifier name -> (pre ++ name ++ String c r)%string = (p ++ x ++ post)%string -> String.length pre <= String.length p -> word_break p -> identifier x ->
  p = pre \/ (p = (pre ++ name)%string /\ (x ++ post)%string = String c r) \/ String.length (pre ++ name ++ String c "") <= String.length p.
Proof.
  intros I E L B X. apply prefix_split in E as (q & -> & E); [|exact L]. destruct q as [|q0 q]; [left; apply app_nil_r_s|]. right.
  apply levi in E as [(m & E1 & E2)|(m & E1 & E2)].
  - rewrite E1. destruct m as [|m0 m]; [left; rewrite app_nil_r_s; auto|]. right. rewrite !length_app_s. cbn. lia.
  - exfalso. apply (no_break pre (String q0 q)); [|exact B]. rewrite E1 in I. apply identifier_prefix in I; [exact I|discriminate].
Qed.
Lemma scan_ok s : forall pre name, word_break pre -> (name = ""%string \/ identifier name) -> (s = ""%string -> String.length name <= 1) ->
  forall x i, In (x, i) (scan name (String.length pre + String.length name) s) <-> seen_after (pre ++ name ++ s) pre x i.
Proof.
  induction s as [|c r IH]; intros pre name B I Z x i; cbn [scan].
  - split; [intros []|]. intros (p & post & E & L & _ & X & _ & P2 & _). specialize (Z eq_refl). rewrite app_nil_r_s in E. pose proof (f_equal String.length E) as LE. rewrite !length_app_s in LE.
    destruct X as (c & t & -> & _). cbn [String.length] in LE. destruct post as [|? post]; [specialize (P2 eq_refl); cbn in P2; lia|cbn in LE; lia].
  - destruct (String.eqb_spec name "") as [->|NE].
    + destruct (ident_start c) eqn:S.
      * apply start_iff in S. assert (IC : identifier (String c "")) by (exists c, ""%string; repeat split; [exact S|constructor]).
        specialize (IH pre (String c "") B (or_intror IC) ltac:(cbn; lia) x i). rewrite snoc_eq. replace (Datatypes.S (String.length pre + String.length "")) with (String.length pre + String.length (String c "")) by (cbn; lia). exact IH.
      * apply (bool_not _ _ (start_iff c)) in S. assert (B2 : word_break (pre ++ String c "")).
        { destruct (is_digit c) eqn:DC.
          - destruct B as (a & d & -> & D & B). exists a, (d ++ String c "")%string. rewrite app_assoc_s. split; [reflexivity|]. split; [apply every_snoc; split; [exact D|apply digit_iff; exact DC]|exact B].
          - exists (pre ++ String c "")%string, ""%string. rewrite app_nil_r_s. split; [reflexivity|]. split; [constructor|]. intros b d E. apply app_last_inv in E as [_ <-]. intros [L|[D|U]]; [tauto|apply digit_iff in D; congruence|tauto]. }
        specialize (IH (pre ++ String c "")%string ""%string B2 (or_introl eq_refl) ltac:(cbn; lia) x i).
        replace (Datatypes.S (String.length pre + String.length "")) with (String.length (pre ++ String c "") + String.length "") by (rewrite length_app_s; cbn; lia).
        rewrite IH. rewrite snoc_eq, app_assoc_s. cbn [append]. unfold seen_after. split; intros (p & post & E & L & R).
        -- exists p, post. split; [exact E|]. split; [rewrite length_app_s in L; lia|exact R].
        -- exists p, post. split; [exact E|]. split; [|exact R]. destruct (Nat.eq_dec (String.length p) (String.length pre)) as [EL|NL]; [|rewrite length_app_s; cbn; lia]. exfalso.
           apply prefix_split in E as (q & -> & E); [|exact L]. rewrite length_app_s in EL. destruct q; [|cbn in EL; lia]. cbn [append] in E. destruct R as (_ & (d & t & -> & SD & _) & _). cbn [append] in E. injection E as -> _. contradiction.
    + destruct I as [->|I]; [contradiction|]. destruct (identifier_word name I) as [WN _]. destruct (ident_char c) eqn:W; cbn [negb orb].
      * apply word_iff in W. destruct (String.eqb_spec r "") as [->|NR]; cbn [andb].
        -- cbn [scan In]. split.
           ++ intros [E|[]]. injection E as <- <-. exists pre, ""%string. rewrite app_nil_r_s. split; [reflexivity|]. split; [lia|]. split; [exact B|]. split; [apply identifier_app; [exact I|constructor; [exact W|constructor]]|]. split; [intros ? ? E; discriminate|]. split.
              ** intros _. rewrite length_app_s. cbn. destruct name; [contradiction|cbn; lia].
              ** cbn [String.eqb]. rewrite !length_app_s. cbn. lia.
           ++ intros (p & post & E & L & BP & X & PE & P2 & ->). left. destruct (seen_inside _ _ _ _ _ _ _ I E L BP X) as [->|[(-> & E2)|LL]].
              ** apply app_inv_head_s in E. assert (E3 : (x ++ post)%string = ((name ++ String c "") ++ "")%string) by (rewrite app_nil_r_s; congruence). apply maximal_word in E3 as [-> ->].
                 --- cbn [String.eqb]. rewrite !length_app_s. cbn. f_equal. lia.
                 --- apply identifier_word, X.
                 --- apply every_snoc. auto.
                 --- exact PE.
                 --- intros ? ? Q; discriminate.
              ** exfalso. pose proof (f_equal String.length E2) as LE. rewrite length_app_s in LE. cbn in LE. destruct X as (d & t & -> & _). cbn [String.length append] in *. injection E2 as -> E2. destruct t; [|discriminate]. cbn [append] in E2. subst post. specialize (P2 eq_refl). cbn in P2. lia.
              ** exfalso. pose proof (f_equal String.length E) as LE. rewrite !length_app_s in *. destruct X as (d & t & -> & _). cbn in *. lia.
        -- assert (I2 : identifier (name ++ String c "")) by (apply identifier_app; [exact I|constructor; [exact W|constructor]]).
           specialize (IH pre (name ++ String c "")%string B (or_intror I2) ltac:(intros ->; contradiction) x i).
           replace (Datatypes.S (String.length pre + String.length name)) with (String.length pre + String.length (name ++ String c "")) by (rewrite length_app_s; cbn; lia). rewrite IH, app_assoc_s. reflexivity.
      * apply (bool_not _ _ (word_iff c)) in W. cbn [In]. rewrite andb_false_r.
        assert (B2 : word_break (pre ++ name ++ String c "")).
        { exists (pre ++ name ++ String c "")%string, ""%string. rewrite app_nil_r_s. split; [reflexivity|]. split; [constructor|]. intros b d E. rewrite <- app_assoc_s in E. apply app_last_inv in E as [_ <-]. exact W. }
        specialize (IH (pre ++ name ++ String c "")%string ""%string B2 (or_introl eq_refl) ltac:(cbn; lia) x i).
        replace (Datatypes.S (String.length pre + String.length name)) with (String.length (pre ++ name ++ String c "") + String.length "") by (rewrite !length_app_s; cbn; lia).
        rewrite IH. replace ((pre ++ name ++ String c "") ++ "" ++ r)%string with (pre ++ name ++ String c r)%string by (rewrite !app_assoc_s; reflexivity). split.
        -- intros [E|(p & post & E & L & R)].
           ++ injection E as <- <-. exists pre, (String c r). split; [reflexivity|]. split; [lia|]. split; [exact B|]. split; [exact I|]. split; [intros d t E; injection E as <- _; exact W|]. split; [discriminate|reflexivity].
           ++ exists p, post. split; [exact E|]. split; [rewrite length_app_s in L; lia|exact R].
        -- intros (p & post & E & L & BP & X & PE & P2 & EI). destruct (seen_inside _ _ _ _ _ _ _ I E L BP X) as [->|[(-> & E2)|LL]].
           ++ left. apply app_inv_head_s in E. symmetry in E. apply maximal_word in E as [-> ->]; [|apply identifier_word, X|exact WN|exact PE|intros d t Q; injection Q as <- _; exact W]. subst i. reflexivity.
           ++ exfalso. destruct X as (d & t & -> & SD & _). cbn [append] in E2. injection E2 as -> _. apply W. unfold word_char. tauto.
           ++ right. exists p, post. tauto.
Qed.
Lemma scan_sees text x i : In (x, i) (scan "" 0 text) <-> sees text x i.
Proof.
  pose proof (scan_ok text ""%string ""%string) as H. cbn [append String.length Nat.add] in H. rewrite H; clear H.
  - unfold seen_after, sees. split; intros (p & post & E & R); exists p, post; (split; [exact E|]); [tauto|]. cbn [String.length]. repeat split; try tauto. lia.
  - exists ""%string, ""%string. repeat split; [constructor|]. intros b c E. destruct b; discriminate.
  - left; reflexivity.
  - cbn. lia.
Qed.

(** ** Macro definitions *)
Definition entry_name (e : string * string * string * Z) : string := let '(f, full, v, l) := e in d_name (macro_def f full v l).
Definition entry_def (e : string * string * string * Z) : mdef := let '(f, full, v, l) := e in macro_def f full v l.
Definition add_entry (defs : dict string mdef) (e : string * string * string * Z) : dict string mdef :=
  if dmem defs (entry_name e) then defs else dset defs (entry_name e) (entry_def e).
Lemma add_elements_ok f e : forall defs stack, add_elements f e defs stack = (fold_left add_entry (own f e) defs, filter is_file (rev e) ++ stack).
Proof.
  induction e as [|n e IH]; intros defs stack; [reflexivity|]. cbn [rev]. rewrite filter_app. destruct n as [full v l|g el]; cbn [add_elements own flat_map filter is_file app].
  - rewrite IH. rewrite app_nil_r. reflexivity.
  - rewrite IH, <- app_assoc. reflexivity.
Qed.
Lemma collect_listed s l : Listed s l -> forall rest defs r, (exists n, forall fuel, n <= fuel -> collect_loop fuel rest (fold_left add_entry l defs) = Some r) ->
  exists n, forall fuel, n <= fuel -> collect_loop fuel (filter is_file s ++ rest) defs = Some r.
Proof.
  induction 1 as [|full v ln s l L IH|f e s l1 l2 L1 IH1 L2 IH2]; intros rest defs r H; cbn [filter is_file app].
  - exact H.
  - apply IH, H.
  - rewrite !fold_left_app in H. apply IH2 in H. apply IH1 in H as (n & H). exists (S n). intros fuel LF. destruct fuel as [|fuel]; [lia|]. cbn [collect_loop]. rewrite add_elements_ok. apply H. lia.
Qed.
Lemma mnode_rect2 (P : mnode -> Prop) : (forall full v l, P (MDef full v l)) -> (forall f e, Forall P e -> P (MFile f e)) -> forall n, P n.
Proof.
  intros H1 H2. fix IH 1. intros [full v l|f e]; [apply H1|apply H2]. induction e as [|n e IHe]; constructor; [apply IH|exact IHe].
Qed.
Lemma listed_app a la b lb : Listed a la -> Listed b lb -> Listed (a ++ b) (la ++ lb).
Proof.
  intros A B. induction A as [|full v ln s l L IH|f e s l1 l2 L1 IH1 L2 IH2]; cbn [app]; [exact B|constructor; exact IH|]. rewrite <- !app_assoc. constructor; assumption.
Qed.
Lemma listed_all e : Forall (fun n => exists l, Listed [n] l) e -> exists l, Listed (rev e) l.
Proof.
  induction 1 as [|n e (l & L) _ (l2 & L2)]; [exists []; constructor|]. exists (l2 ++ l). cbn [rev]. apply listed_app; assumption.
Qed.
Lemma listed_node n : exists l, Listed [n] l.
Proof.
  induction n as [full v l|f e IH] using mnode_rect2; [exists []; repeat constructor|]. apply listed_all in IH as (l & L). eexists. constructor; [exact L|constructor].
Qed.
Lemma listed_total nodes : exists l, Listed nodes l.
Proof.
  rewrite <- (rev_involutive nodes). apply listed_all. apply Forall_forall. intros n _. apply listed_node.
Qed.
Lemma in_own x f e : In x (own f e) <-> exists full v l, x = (f, full, v, l) /\ In (MDef full v l) e.
Proof.
  unfold own. rewrite in_flat_map. split.
  - intros (n & I & H). destruct n as [full v l|]; [destruct H as [<-|[]]; eauto|destruct H].
  - intros (full & v & l & -> & I). exists (MDef full v l). split; [exact I|left; reflexivity].
Qed.
Lemma listed_in s l : Listed s l -> forall f full v ln, In (f, full, v, ln) l <-> Defined s f full v ln.
Proof.
  induction 1 as [|full0 v0 ln0 s l L IH|g e s l1 l2 L1 IH1 L2 IH2]; intros f full v ln.
  - split; [intros []|]. intros D. inversion D; match goal with H : In _ [] |- _ => destruct H end.
  - rewrite IH. split; intros D; inversion D as [n0 f0 e0 f1 v1 l1 I1 I2|n0 f0 e0 g0 f1 v1 l1 I1 I2]; subst.
    + eapply df_here; [right; eassumption|eassumption].
    + eapply df_file; [right; eassumption|eassumption].
    + destruct I1 as [I1|I1]; [discriminate|]. eapply df_here; eassumption.
    + destruct I1 as [I1|I1]; [discriminate|]. eapply df_file; eassumption.
  - rewrite !in_app_iff, in_own, IH1, IH2. split.
    + intros [(full1 & v1 & ln1 & E & I)|[D|D]].
      * injection E as -> <- <- <-. eapply df_here; [left; reflexivity|exact I].
      * eapply df_file; [left; reflexivity|]. inversion D as [n0 f0 e0 f1 v1 l0 I1 I2|n0 f0 e0 g0 f1 v1 l0 I1 I2]; subst; apply (proj2 (in_rev _ _)) in I1; [eapply df_here|eapply df_file]; eassumption.
      * inversion D as [n0 f0 e0 f1 v1 l0 I1 I2|n0 f0 e0 g0 f1 v1 l0 I1 I2]; subst; [eapply df_here|eapply df_file]; [right; eassumption|eassumption|right; eassumption|eassumption].
    + intros D. inversion D as [n0 f0 e0 f1 v1 l0 I1 I2|n0 f0 e0 g0 f1 v1 l0 I1 I2]; subst; destruct I1 as [I1|I1].
      * injection I1 as -> ->. left. eauto 6.
      * right; right. eapply df_here; eassumption.
      * injection I1 as -> ->. right; left. inversion I2 as [n2 f2 e2 f3 v3 l3 I3 I4|n2 f2 e2 g2 f3 v3 l3 I3 I4]; subst; [eapply df_here|eapply df_file]; [apply (proj1 (in_rev _ _)); exact I3|exact I4|apply (proj1 (in_rev _ _)); exact I3|exact I4].
      * right; right. eapply df_file; eassumption.
Qed.
Lemma name_fun full a b : macro_name full a -> macro_name full b -> a = b.
Proof.
  intros [s N|x y N] H; inversion H as [s0 N0 E0|x0 y0 N0 E0]; subst; try reflexivity.
  - destruct (N b y0 eq_refl).
  - destruct (N0 x y eq_refl).
  - apply levi in E0 as [(m & -> & E)|(m & -> & E)]; (destruct m as [|z m]; [rewrite app_nil_r_s; reflexivity|]); assert (z = "("%char) by (cbn in E; congruence); subst z.
    + exfalso. apply (N b m). reflexivity.
    + exfalso. apply (N0 x m). reflexivity.
Qed.
Lemma macro_name_def f full v ln : macro_name full (d_name (macro_def f full v ln)).
Proof.
  unfold macro_def. destruct (find_at "(" full) as [p|] eqn:F; cbn [d_name].
  - apply find_at_some in F as (pre & post & [E B] & ->). rewrite E. rewrite take_app. constructor. intros x y ->. specialize (B x (y ++ "(" ++ post)%string). rewrite E, !app_assoc_s in B. specialize (B eq_refl). rewrite length_app_s in B. cbn in B. lia.
  - constructor. apply find_at_none in F. intros a b E. apply F. exists a, b. exact E.
Qed.
Lemma macro_name_iff f full v ln k : d_name (macro_def f full v ln) = k <-> macro_name full k.
Proof. split; [intros <-; apply macro_name_def|]. intros H. exact (name_fun full _ _ (macro_name_def f full v ln) H). Qed.
Lemma first_bracket a b : (forall x y, a <> (x ++ "(" ++ y)%string) -> first_occurrence "(" (a ++ "(" ++ b) a b.
Proof.
  intros N. split; [reflexivity|]. intros x y E. apply levi in E as [(m & -> & E)|(m & -> & E)]; [rewrite length_app_s; lia|]. destruct m as [|z m]; [rewrite app_nil_r_s; lia|].
  assert (z = "("%char) by (cbn in E; congruence). subst z. exfalso. apply (N x m). reflexivity.
Qed.
Lemma find_bracket a b : (forall x y, a <> (x ++ "(" ++ y)%string) -> find_at "(" (a ++ "(" ++ b) = Some (String.length a).
Proof. intros N. apply find_at_some. exists a, b. split; [apply first_bracket, N|reflexivity]. Qed.
Lemma argument_closes args rest : args <> [] -> Forall argument args -> closes ("(" ++ join "," args ++ ")" ++ rest) ("(" ++ join "," args ++ ")").
Proof.
  intros NA F. assert (G : level (join "," args) = 0%Z /\ forall x y, join "," args = (x ++ y)%string -> (0 <= level x)%Z).
  { clear rest. induction F as [|a args [L [P Q]] F IH]; [contradiction|]. destruct args as [|b args]; [split; [exact L|exact P]|].
    change (join "," (a :: b :: args)) with (a ++ "," ++ join "," (b :: args))%string. destruct (IH ltac:(discriminate)) as [L2 P2]. split.
    - rewrite !level_app, L, L2. reflexivity.
    - intros x y E. apply levi in E as [(m & -> & E)|(m & -> & E)].
      + rewrite level_app, L. destruct m as [|z m]; [cbn; lia|]. assert (z = ","%char) by (cbn in E; congruence). subst z. assert (E2 : join "," (b :: args) = (m ++ y)%string) by (cbn [append] in E; congruence). specialize (P2 _ _ E2). rewrite level_cons. change (weight ",") with 0%Z. lia.
      + apply (P x m). reflexivity. }
  destruct G as [L P]. split; [discriminate|]. split; [rewrite !level_app, L; reflexivity|]. split; [exists rest; rewrite !app_assoc_s; reflexivity|].
  intros a b E NA1 NB. destruct a as [|z a]; [contradiction|]. assert (z = "("%char) by (cbn in E; congruence). subst z. assert (E2 : (join "," args ++ ")")%string = (a ++ b)%string) by (cbn [append] in E; congruence).
  rewrite level_cons. change (weight "(") with 1%Z. apply levi in E2 as [(m & -> & E3)|(m & E3 & E4)].
  - destruct m as [|z m]; [rewrite app_nil_r_s, L; lia|]. exfalso. destruct m; cbn in E3; [destruct b; [contradiction|cbn in E3; discriminate]|cbn in E3; discriminate].
  - specialize (P _ _ E3). lia.
Qed.
Lemma blank_end q : Every (fun c => c = " "%char) q -> q <> ""%string -> exists t, q = (t ++ " ")%string.
Proof. pattern q. apply str_rev_ind; [contradiction|]. intros t c _ C2 _. apply every_snoc in C2 as [_ ->]. exists t. reflexivity. Qed.
Lemma parameters_def f full v ln ps : parameters full ps -> d_params (macro_def f full v ln) = ps.
Proof.
  intros [s N|a args bs rest N NA F S]; unfold macro_def.
  - assert (X : find_at "(" s = None) by (apply find_at_none; intros (x & y & E); exact (N x y E)). rewrite X. reflexivity.
  - rewrite (find_bracket a _ N). cbn [d_params]. unfold to_matching_bracket. destruct (Nat.ltb_spec (String.length (a ++ "(" ++ join "," args ++ ")" ++ rest)) (String.length a)) as [LT|_]; [rewrite length_app_s in LT; lia|].
    rewrite drop_app, (bracket_iff _ _ (argument_closes args rest NA F)). destruct (split_arguments_ok args NA F) as (bs2 & -> & S2). clear - S S2.
    revert bs2 S2. induction S as [|a b args bs S _ IH]; intros bs2 S2; inversion S2 as [|? b2 ? bs3 X Y]; subst; [reflexivity|]. f_equal; [|apply IH; exact Y]. clear - S X.
    revert b X S. intros b X S. destruct X as [s B|l s r B1 B2 NS NL NR]; inversion S as [s0 B0 E0|l0 s0 r0 C1 C2 MS ML MR E0]; subst; unfold blank_only in *.
    + reflexivity.
    + exfalso. rewrite !every_app in B. destruct B as [_ [B _]]. destruct b as [|z b]; [contradiction|]. inversion B as [|? ? Z _]; subst. apply (ML b). reflexivity.
    + exfalso. rewrite !every_app in B0. destruct B0 as [_ [B _]]. destruct s as [|z s]; [contradiction|]. inversion B as [|? ? Z _]; subst. apply (NL s). reflexivity.
    + assert (l0 = l) as ->.
      { apply levi in E0 as [(m & -> & E)|(m & -> & E)]; (destruct m as [|z m]; [rewrite app_nil_r_s; reflexivity|]); exfalso.
        - apply every_app in B1 as [_ B1]. inversion B1 as [|? ? Z _]; subst. destruct b as [|w b]; [contradiction|]. assert (w = " "%char) by (cbn in E; congruence). subst w. apply (ML b). reflexivity.
        - apply every_app in C1 as [_ C1]. inversion C1 as [|? ? Z _]; subst. destruct s as [|w s]; [contradiction|]. assert (w = " "%char) by (cbn in E; congruence). subst w. apply (NL s). reflexivity. }
      apply app_inv_head_s in E0. apply levi in E0 as [(m & -> & E)|(m & -> & E)]; (destruct m as [|z m]; [rewrite app_nil_r_s; reflexivity|]); exfalso.
      * subst r0. apply every_app in C2 as [C2 _]. revert NR C2. intros NR C2. assert (W : exists t, String z m = (t ++ " ")%string).
        { apply blank_end; [exact C2|discriminate]. }
        destruct W as (t & W). rewrite W in NR. apply (NR (b ++ t)%string). rewrite app_assoc_s. reflexivity.
      * subst r. apply every_app in B2 as [B2 _]. assert (W : exists t, String z m = (t ++ " ")%string).
        { apply blank_end; [exact B2|discriminate]. }
        destruct W as (t & W). rewrite W in MR. apply (MR (s ++ t)%string). rewrite app_assoc_s. reflexivity.
Qed.
(** The first entry with a name counts. *)
Lemma add_entries l : forall defs k d, dget (fold_left add_entry l defs) k = Some d <->
  dget defs k = Some d \/ (dget defs k = None /\ exists l1 e l2, l = l1 ++ e :: l2 /\ entry_name e = k /\ d = entry_def e /\ Forall (fun x => entry_name x <> k) l1).
Proof.
  induction l as [|e l IH]; intros defs k d; cbn [fold_left].
  - split; [auto|]. intros [H|(_ & l1 & e & l2 & E & _)]; [exact H|destruct l1; discriminate].
  - rewrite IH. unfold add_entry, dmem. destruct (dget defs (entry_name e)) as [d0|] eqn:G.
    + split; (intros [H|(H & l1 & x & l2 & E & N & D & F)]; [left; exact H|right; split; [exact H|]]).
      * exists (e :: l1), x, l2. rewrite E. repeat split; try assumption. constructor; [|exact F]. intros EN. rewrite EN in G. congruence.
      * destruct l1 as [|y l1]; cbn in E; injection E as <- ->; [rewrite N in G; congruence|]. exists l1, x, l2. inversion F; subst. auto.
    + rewrite dget_dset. destruct (PyBase.eqb_spec k (entry_name e)) as [->|NE].
      * split.
        -- intros [H|(H & _)]; [|discriminate]. injection H as <-. right. split; [exact G|]. exists [], e, l. repeat split; constructor.
        -- intros [H|(_ & l1 & x & l2 & E & N & D & F)]; [congruence|]. left. destruct l1 as [|y l1]; cbn in E; injection E as <- ->; [congruence|]. inversion F; congruence.
      * split; (intros [H|(H & l1 & x & l2 & E & N & D & F)]; [left; exact H|right; split; [exact H|]]).
        -- exists (e :: l1), x, l2. rewrite E. repeat split; try assumption. constructor; [congruence|exact F].
        -- destruct l1 as [|y l1]; cbn in E; injection E as <- ->; [congruence|]. exists l1, x, l2. inversion F; subst. auto.
Qed.
Lemma entry_name_iff f full v ln k : entry_name (f, full, v, ln) = k <-> macro_name full k.
Proof. apply macro_name_iff. Qed.
Lemma filter_rev {A} (p : A -> bool) l : filter p (rev l) = rev (filter p l).
Proof. induction l as [|x l IH]; [reflexivity|]. cbn [rev filter]. rewrite filter_app, IH. cbn [filter]. destruct (p x); [reflexivity|apply app_nil_r]. Qed.
Lemma collect_defs_ok nodes l : Listed (rev nodes) l -> exists n, forall fuel, n <= fuel -> collect_defs fuel nodes = Some (fold_left add_entry l []).
Proof.
  intros L. destruct (collect_listed _ _ L [] [] (fold_left add_entry l [])) as (n & H); [exists 0; intros [|] _; reflexivity|].
  exists n. intros fuel LF. specialize (H fuel LF). rewrite app_nil_r, filter_rev in H. exact H.
Qed.
Lemma collect_loop_mono n : forall s d r, collect_loop n s d = Some r -> collect_loop (S n) s d = Some r.
Proof.
  induction n as [|n IH]; intros s d r E; (destruct s as [|[full v l|f e] s]; [exact E| |]); try discriminate.
  - cbn [collect_loop] in E. change (collect_loop (S (S n)) (MDef full v l :: s) d) with (collect_loop (S n) s d). apply IH, E.
  - change (collect_loop (S n) (MFile f e :: s) d) with (let '(d, s) := add_elements f e d s in collect_loop n s d) in E.
    change (collect_loop (S (S n)) (MFile f e :: s) d) with (let '(d, s) := add_elements f e d s in collect_loop (S n) s d). destruct (add_elements f e d s). apply IH, E.
Qed.
Lemma collect_loop_more m n s d r : n <= m -> collect_loop n s d = Some r -> collect_loop m s d = Some r.
Proof. induction 1 as [|m L IH]; [auto|]. intros E. apply collect_loop_mono, IH, E. Qed.
Lemma collect_defs_unique nodes l fuel defs : Listed (rev nodes) l -> collect_defs fuel nodes = Some defs -> defs = fold_left add_entry l [].
Proof.
  intros L E. destruct (collect_defs_ok nodes l L) as (n & H). specialize (H (n + fuel) ltac:(lia)). unfold collect_defs in *. rewrite (collect_loop_more (n + fuel) fuel _ _ _ ltac:(lia) E) in H. congruence.
Qed.

(** ** Macro uses *)
Lemma dset_fresh {V} (d : dict string V) k v : ~ In k (dkeys d) -> dset d k v = d ++ [(k, v)].
Proof.
  induction d as [|[k2 v2] d IH]; intros N; cbn [dset app]; [reflexivity|]. destruct (PyBase.eqb_spec k k2) as [->|NE]; [exfalso; apply N; left; reflexivity|]. f_equal. apply IH. intros I. apply N. right. exact I.
Qed.
Lemma ordered_nodup us : Ordered us -> NoDup (dkeys us).
Proof.
  induction 1 as [|us k u O IH N P]; [constructor|]. unfold dkeys in *. rewrite map_app. cbn [map fst].
  apply NoDup_rev in IH. rewrite <- (rev_involutive (map fst us ++ [k])). apply NoDup_rev. rewrite rev_app_distr. cbn [rev app]. constructor; [|exact IH]. intros I. apply N. apply in_rev. exact I.
Qed.
Definition covered (defs : dict string mdef) (uses : dict string muse) (text : string) : Prop :=
  forall k i, sees text k i -> dget defs k <> None -> dget uses k <> None.
Definition extends (a b : dict string muse) : Prop := forall k u, dget a k = Some u -> dget b k = Some u.
Lemma extends_some a b k : extends a b -> dget a k <> None -> dget b k <> None.
Proof. intros E N. destruct (dget a k) as [u|] eqn:G; [|contradiction]. rewrite (E k u G). discriminate. Qed.
Lemma covered_mono defs a b t : extends a b -> covered defs a t -> covered defs b t.
Proof. intros E C k i S D. exact (extends_some a b k E (C k i S D)). Qed.
Lemma justified_mono fuelc defs loc line a b k u : extends a b -> justified fuelc defs loc line a k u -> justified fuelc defs loc line b k u.
Proof. intros E [k0 u0 i A B C D F G|k0 u0 p pu text i A B C D F G H I]; [eapply j_line; eauto|eapply j_macro; eauto]. Qed.

Section Uses.
Variables (fuelc : nat) (defs : dict string mdef) (loc : Z * string) (line : string) (u0 : dict string muse).
Hypothesis KEYED : keyed defs.
Record Inv (uses : dict string muse) (stack cur : list (string * option string)) : Prop := mkInv {
  i_ord : Ordered uses;
  i_def : forall k u, dget uses k = Some u -> dget defs k = Some (u_def u);
  i_just : forall k u, dget uses k = Some u -> dget u0 k = Some u \/ justified fuelc defs loc line uses k u;
  i_keep : extends u0 uses;
  i_stack : forall text p, In (text, p) stack -> match p with None => text = line | Some p => exists pu, dget uses p = Some pu /\ text = d_body (u_def pu) end;
  i_close : forall p pu, dget uses p = Some pu -> (forall text, body_text fuelc pu text -> covered defs uses text) \/ In (d_body (u_def pu), Some p) (cur ++ stack);
  i_line : covered defs uses line \/ In (line, None) (cur ++ stack) }.
(** What is being looked through. *)
Definition origin (uses : dict string muse) (parent : option muse) (text : string) : Prop :=
  match parent with
  | None => text = line
  | Some pu => dget uses (d_name (u_def pu)) = Some pu /\ body_text fuelc pu text
  end.
Lemma sees_inside text k i : sees text k i -> i < String.length text.
Proof.
  intros (pre & post & -> & _ & (c & r & -> & _) & _ & _ & ->). rewrite !length_app_s. destruct (String.eqb_spec post "") as [->|N]; [cbn; lia|]. destruct post; [contradiction|cbn; lia].
Qed.
Lemma visit_ok parent text x uses stack cur : sees text (fst x) (snd x) -> origin uses parent text -> Inv uses stack cur ->
  exists uses' stack', visit defs loc parent text (uses, stack) x = (uses', stack') /\ Inv uses' stack' cur /\ extends uses uses' /\
    (dget defs (fst x) <> None -> dget uses' (fst x) <> None) /\ length stack' + length uses = length stack + length uses'.
Proof.
  intros S O I. unfold visit. destruct (dget uses (fst x)) as [u|] eqn:GU.
  { exists uses, stack. split; [reflexivity|]. split; [exact I|]. split; [intros k v E; exact E|]. split; [intros _; congruence|reflexivity]. }
  destruct (dget defs (fst x)) as [d|] eqn:GD.
  2:{ exists uses, stack. split; [reflexivity|]. split; [exact I|]. split; [intros k v E; exact E|]. split; [intros H; contradiction|reflexivity]. }
  set (use := mkMuse d _ _ _ _). assert (NK : d_name d = fst x) by (apply KEYED; exact GD).
  assert (NI : ~ In (fst x) (dkeys uses)) by (apply dget_None; exact GU).
  exists (dset uses (fst x) use), ((d_body d, Some (fst x)) :: stack). rewrite NK. split; [reflexivity|].
  assert (EX : extends uses (dset uses (fst x) use)).
  { intros k u E. rewrite dget_dset. destruct (PyBase.eqb_spec k (fst x)) as [->|_]; [congruence|exact E]. }
  split; [|split; [exact EX|split; [intros _; rewrite dget_dset_same; discriminate|rewrite dset_fresh by exact NI; rewrite app_length; cbn; lia]]].
  assert (RAW : u_args use = arguments_at text (snd x) parent).
  { unfold use, arguments_at, to_matching_bracket. cbn [u_args]. pose proof (sees_inside _ _ _ S) as L. destruct (Nat.ltb_spec (String.length text) (snd x)); [lia|].
    destruct parent as [p|]; [destruct (d_params (u_def p)); reflexivity|reflexivity]. }
  assert (J : justified fuelc defs loc line (dset uses (fst x) use) (fst x) use).
  { destruct parent as [p|]; cbn in O.
    - destruct O as [G B]. eapply j_macro with (p := d_name (u_def p)) (pu := p) (text := text) (i := snd x); try reflexivity; try assumption. apply EX, G.
    - subst text. eapply j_line with (i := snd x); try reflexivity; try assumption. }
  destruct I as [IO ID IJ IK IS IC IL]. constructor.
  - rewrite dset_fresh by exact NI. constructor; [exact IO|exact NI|]. intros p E. destruct parent as [q|]; [|discriminate]. cbn in E. injection E as <-. destruct O as [G _]. eapply dget_Some_key. exact G.
  - intros k u E. rewrite dget_dset in E. destruct (PyBase.eqb_spec k (fst x)) as [->|_]; [injection E as <-; exact GD|apply ID, E].
  - intros k u E. rewrite dget_dset in E. destruct (PyBase.eqb_spec k (fst x)) as [->|_]; [injection E as <-; right; exact J|]. destruct (IJ k u E) as [H|H]; [left; exact H|right; eapply justified_mono; eassumption].
  - intros k u E. apply EX, IK, E.
  - intros t p [E|E].
    + injection E as <- <-. exists use. split; [apply dget_dset_same|reflexivity].
    + specialize (IS t p E). destruct p as [p|]; [|exact IS]. destruct IS as (pu & G & ->). exists pu. split; [apply EX, G|reflexivity].
  - intros p pu E. rewrite dget_dset in E. destruct (PyBase.eqb_spec p (fst x)) as [->|_].
    + injection E as <-. right. apply in_or_app. right. left. reflexivity.
    + destruct (IC p pu E) as [H|H]; [left; intros t B; eapply covered_mono; eauto|]. right. apply in_app_or in H as [H|H]; apply in_or_app; [left; exact H|right; right; exact H].
  - destruct IL as [H|H]; [left; eapply covered_mono; eassumption|]. right. apply in_app_or in H as [H|H]; apply in_or_app; [left; exact H|right; right; exact H].
Qed.
Lemma origin_mono a b parent text : extends a b -> origin a parent text -> origin b parent text.
Proof. intros E O. destruct parent as [p|]; [|exact O]. destruct O as [G B]. split; [apply E, G|exact B]. Qed.
Lemma visits_ok parent text cur L : forall uses stack, (forall x, In x L -> sees text (fst x) (snd x)) -> origin uses parent text -> Inv uses stack cur ->
  exists uses' stack', fold_left (visit defs loc parent text) L (uses, stack) = (uses', stack') /\ Inv uses' stack' cur /\ extends uses uses' /\
    (forall x, In x L -> dget defs (fst x) <> None -> dget uses' (fst x) <> None) /\ length stack' + length uses = length stack + length uses'.
Proof.
  induction L as [|x L IH]; intros uses stack S O I; cbn [fold_left].
  - exists uses, stack. split; [reflexivity|]. split; [exact I|]. split; [intros k v E; exact E|]. split; [intros x []|reflexivity].
  - destruct (visit_ok parent text x uses stack cur (S x (or_introl eq_refl)) O I) as (u1 & s1 & E1 & I1 & X1 & D1 & L1). rewrite E1.
    destruct (IH u1 s1) as (u2 & s2 & E2 & I2 & X2 & D2 & L2); [intros y H; apply S; right; exact H|eapply origin_mono; eassumption|exact I1|].
    exists u2, s2. split; [exact E2|]. split; [exact I2|]. split; [intros k u E; apply X2, X1, E|]. split; [|lia]. intros y [<-|H] N; [eapply extends_some; eauto|apply D2; assumption].
Qed.
(** One round of the loop. *)
Definition parent_of (uses : dict string muse) (p : option string) : option muse := match p with Some p => dget uses p | None => None end.
Definition expanded (parent : option muse) (text : string) : option string :=
  match parent with Some p => expand_composite fuelc (d_params (u_def p)) (u_args p) text | None => Some text end.
Lemma round_ok uses stack t0 p0 text : Inv uses ((t0, p0) :: stack) [] -> expanded (parent_of uses p0) t0 = Some text ->
  exists uses' stack', fold_left (visit defs loc (parent_of uses p0) text) (scan "" 0 text) (uses, stack) = (uses', stack') /\ Inv uses' stack' [] /\
    length stack' + length uses = length stack + length uses'.
Proof.
  intros I EX. assert (O : origin uses (parent_of uses p0) text /\ (p0 = None -> t0 = line /\ text = line) /\ (forall p, p0 = Some p -> exists pu, parent_of uses p0 = Some pu /\ d_name (u_def pu) = p /\ t0 = d_body (u_def pu))).
  { pose proof (i_stack _ _ _ I t0 p0 (or_introl eq_refl)) as H. destruct p0 as [p|]; cbn [parent_of] in *.
    - destruct H as (pu & G & ->). rewrite G in *. cbn in EX. assert (N : d_name (u_def pu) = p) by (apply KEYED, (i_def _ _ _ I p pu G)). split; [cbn; rewrite N; split; [exact G|exact EX]|].
      split; [discriminate|]. intros q E. injection E as <-. exists pu. auto.
    - subst t0. cbn in EX. injection EX as <-. split; [reflexivity|]. split; [auto|discriminate]. }
  destruct O as (O & ON & OS).
  assert (I2 : Inv uses stack [(t0, p0)]).
  { destruct I as [IO ID IJ IK IS IC IL]. constructor; try assumption; try (intros; apply IS; right; assumption). }
  destruct (visits_ok (parent_of uses p0) text [(t0, p0)] (scan "" 0 text) uses stack) as (u & s & E & I3 & X & D & L); [intros [y i] H; apply scan_sees; exact H|exact O|exact I2|].
  exists u, s. split; [exact E|]. split; [|exact L].
  assert (COV : covered defs u text) by (intros k i S N; apply (D (k, i)); [apply scan_sees; exact S|exact N]).
  destruct I3 as [IO ID IJ IK IS IC IL]. constructor; try assumption.
  - intros p pu G. destruct (IC p pu G) as [H|H]; [left; exact H|]. apply in_app_or in H as [[H|[]]|H]; [|right; exact H].
    injection H as -> ->. destruct (OS p eq_refl) as (qu & G2 & N & _). left. intros text2 B. cbn [parent_of] in G2. pose proof (X p qu G2) as G3. assert (qu = pu) by congruence. subst qu.
    cbn [parent_of] in O. rewrite G2 in O. destruct O as [_ B2]. unfold body_text in *. assert (text2 = text) by congruence. subst text2. exact COV.
  - destruct IL as [H|H]; [left; exact H|]. apply in_app_or in H as [[H|[]]|H]; [|right; exact H]. injection H as -> ->. destruct (ON eq_refl) as [_ ->]. left. exact COV.
Qed.
Lemma uses_loop_step n uses t0 p0 stack : uses_loop fuelc (S n) defs loc uses ((t0, p0) :: stack) =
  match expanded (parent_of uses p0) t0 with
  | None => None
  | Some text => let '(u, s) := fold_left (visit defs loc (parent_of uses p0) text) (scan "" 0 text) (uses, stack) in uses_loop fuelc n defs loc u s
  end.
Proof. reflexivity. Qed.
Lemma uses_loop_ok fuel : forall uses stack r, Inv uses stack [] -> uses_loop fuelc fuel defs loc uses stack = Some r -> Inv r [] [].
Proof.
  induction fuel as [|n IH]; intros uses stack r I E; (destruct stack as [|[t0 p0] stack]; [injection E as <-; exact I|]); [discriminate|].
  rewrite uses_loop_step in E. destruct (expanded _ _) as [text|] eqn:EX; [|discriminate]. destruct (round_ok _ _ _ _ _ I EX) as (u & s & F & I2 & _). rewrite F in E. eapply IH; eassumption.
Qed.
Lemma uses_loop_total fuel : (forall k d args, dget defs k = Some d -> expand_composite fuelc (d_params d) args (d_body d) <> None) ->
  forall uses stack, Inv uses stack [] -> length stack + length defs <= fuel + length uses -> exists r, uses_loop fuelc fuel defs loc uses stack = Some r.
Proof.
  intros H. induction fuel as [|n IH]; intros uses stack I L; (destruct stack as [|[t0 p0] stack]; [eexists; reflexivity|]).
  - exfalso. assert (LE : length (dkeys uses) <= length (dkeys defs)).
    { apply NoDup_incl_length; [apply ordered_nodup, (i_ord _ _ _ I)|]. intros k IK. apply dkeys_dget in IK as (u & G). eapply dget_Some_key. exact (i_def _ _ _ I k u G). }
    unfold dkeys in LE. rewrite !map_length in LE. cbn in L. lia.
  - rewrite uses_loop_step. destruct (expanded _ _) as [text|] eqn:EX.
    + destruct (round_ok _ _ _ _ _ I EX) as (u & s & F & I2 & L2). rewrite F. apply IH; [exact I2|]. cbn in L. lia.
    + exfalso. pose proof (i_stack _ _ _ I t0 p0 (or_introl eq_refl)) as S. destruct p0 as [p|]; cbn [parent_of] in *; [|discriminate]. destruct S as (pu & G & ->). rewrite G in EX. cbn in EX.
      exact (H p (u_def pu) (u_args pu) (i_def _ _ _ I p pu G) EX).
Qed.
End Uses.

Lemma inv_start fuelc defs loc line u0 : uses_of fuelc defs u0 -> Inv fuelc defs loc line u0 u0 [(line, None)] [].
Proof.
  intros (O & D & C). constructor; try assumption.
  - intros k u E. left. exact E.
  - intros k u E. exact E.
  - intros t p [E|[]]. injection E as <- <-. reflexivity.
  - intros p pu G. left. intros text B k i S N. eapply C; eassumption.
  - right. left. reflexivity.
Qed.
Lemma collect_uses_ok fuelc defs loc line u0 uses : keyed defs -> uses_of fuelc defs u0 -> collect_uses fuelc defs loc line u0 = Some uses ->
  uses_of fuelc defs uses /\ extends u0 uses /\ covered defs uses line /\ forall k u, dget uses k = Some u -> dget u0 k = Some u \/ justified fuelc defs loc line uses k u.
Proof.
  intros K U E. unfold collect_uses in E. destruct (String.eqb_spec line "") as [->|N].
  - injection E as <-. split; [exact U|]. split; [intros k u E; exact E|]. split; [|auto]. intros k i S. apply sees_inside in S. cbn in S. lia.
  - apply uses_loop_ok with (line := line) (u0 := u0) in E; [|exact K|apply inv_start, U]. destruct E as [IO ID IJ IK IS IC IL]. split; [|split; [exact IK|split; [destruct IL as [H|[]]; exact H|exact IJ]]].
    split; [exact IO|]. split; [exact ID|]. intros p pu text k i G B S D. destruct (IC p pu G) as [H|[]]. exact (H text B k i S D).
Qed.
Lemma collect_uses_total fuelc defs loc line u0 : keyed defs -> uses_of fuelc defs u0 -> (forall k d args, dget defs k = Some d -> expand_composite fuelc (d_params d) args (d_body d) <> None) ->
  exists uses, collect_uses fuelc defs loc line u0 = Some uses.
Proof.
  intros K U H. unfold collect_uses. destruct (String.eqb line ""); [eexists; reflexivity|]. apply uses_loop_total with (line := line) (u0 := u0); [exact K|exact H|apply inv_start, U|]. cbn [length]. lia.
Qed.
Lemma expand_without fuelc params args body : ~ within "##" body -> expand_composite (S fuelc) params args body = Some body.
Proof.
  intros N. unfold expand_composite. generalize (zip params args). intros l. induction l as [|[p a] l IH]; [reflexivity|]. cbn [composite_all composite_loop].
  assert (F : find_from body (p ++ "##") 0 = None).
  { unfold find_from. cbn [drop]. destruct (String.length body <? 0); [reflexivity|]. assert (X : find_at (p ++ "##") body = None); [|rewrite X; reflexivity]. apply find_at_none. intros (x & y & E). apply N. exists (x ++ p)%string, y. rewrite E, !app_assoc_s. reflexivity. }
  rewrite F. exact IH.
Qed.

(** *** Stacks and differences *)
Lemma dget_app_l {V} (a b : dict string V) k v : dget a k = Some v -> dget (a ++ b) k = Some v.
Proof. induction a as [|[k2 v2] a IH]; cbn [app dget]; [discriminate|]. destruct (PyBase.eqb k k2); [auto|exact IH]. Qed.
Lemma dget_snoc {V} (a : dict string V) k0 v0 k v : ~ In k0 (dkeys a) -> (dget (a ++ [(k0, v0)]) k = Some v <-> dget a k = Some v \/ (k = k0 /\ v = v0)).
Proof.
  intros N. rewrite <- dset_fresh by exact N. rewrite dget_dset. destruct (PyBase.eqb_spec k k0) as [->|NE].
  - apply dget_None in N. split; [intros E; injection E as <-; right; auto|]. intros [E|[_ ->]]; [congruence|reflexivity].
  - split; [auto|]. intros [E|[E _]]; [exact E|contradiction].
Qed.
Lemma path_mono a b k l : extends a b -> Path_to a k l -> Path_to b k l.
Proof. intros X. induction 1 as [k u G P|k u p l G P PT IH]; [apply pt_line; auto|eapply pt_macro; eauto]. Qed.
Lemma ordered_path us : Ordered us -> forall k u, dget us k = Some u -> exists l, Path_to us k l /\ length l <= length us.
Proof.
  induction 1 as [|us k0 w O IH N P]; intros k u G; [discriminate|]. assert (X : extends us (us ++ [(k0, w)])) by (intros x y; apply dget_app_l).
  pose proof G as G0. apply dget_snoc in G as [G|[-> ->]]; [|clear G0|exact N].
  - destruct (IH k u G) as (l & PT & L). exists l. split; [eapply path_mono; eassumption|]. rewrite app_length. lia.
  - assert (G : dget (us ++ [(k0, w)]) k0 = Some w) by (apply dget_snoc; auto). destruct (u_parent w) as [p|] eqn:EP.
    + specialize (P p eq_refl). apply dkeys_dget in P as (pu & GP). destruct (IH p pu GP) as (l & PT & L). eexists. split; [eapply pt_macro; [exact G|exact EP|eapply path_mono; eassumption]|]. rewrite !app_length. cbn. lia.
    + eexists. split; [apply pt_line; [exact G|exact EP]|]. rewrite app_length. cbn. lia.
Qed.
Lemma path_chain us k l : Path_to us k l -> forall fuel, length l <= fuel -> chain fuel us k = rev l.
Proof.
  induction 1 as [k u G P|k u p l G P PT IH]; intros fuel L.
  - destruct fuel as [|n]; [cbn in L; lia|]. cbn [chain rev app]. rewrite G, P. reflexivity.
  - rewrite app_length in L. cbn in L. destruct fuel as [|n]; [lia|]. rewrite rev_app_distr. cbn [chain rev app]. rewrite G, P. f_equal. apply IH. lia.
Qed.
Lemma path_fun us k l1 l2 : Path_to us k l1 -> Path_to us k l2 -> l1 = l2.
Proof.
  intros A B. pose proof (path_chain us k l1 A (length l1 + length l2) ltac:(lia)) as C1. pose proof (path_chain us k l2 B (length l1 + length l2) ltac:(lia)) as C2.
  rewrite C1 in C2. rewrite <- (rev_involutive l1), C2. apply rev_involutive.
Qed.
Lemma ordered_chain us k l : Ordered us -> Path_to us k l -> rev (chain (length us) us k) = l.
Proof.
  intros O PT. assert (G : exists u, dget us k = Some u) by (destruct PT; eauto). destruct G as (u & G). destruct (ordered_path us O k u G) as (l2 & PT2 & L). rewrite (path_fun us k l l2 PT PT2).
  rewrite (path_chain us k l2 PT2 (length us) L). apply rev_involutive.
Qed.
Lemma differences_ok fl fr dl dr l r m : keyed dl -> uses_of fl dl l -> uses_of fr dr r ->
  In m (differences l r) <-> exists k ul ur sl sr, dget l k = Some ul /\ dget r k = Some ur /\ d_body (u_def ul) <> d_body (u_def ur) /\ Path_to l k sl /\ Path_to r k sr /\
    m = mkMdiff k (d_body (u_def ul)) (d_body (u_def ur)) sl sr.
Proof.
  intros K (OL & DL & _) (OR & _ & _). unfold differences. rewrite in_flat_map. split.
  - intros ([k ul] & I & H). cbn [fst snd] in H. destruct (dget r k) as [ur|] eqn:GR; [|destruct H]. destruct (String.eqb_spec (d_body (u_def ul)) (d_body (u_def ur))) as [|N]; [destruct H|]. destruct H as [<-|[]].
    apply dget_In_NoDup in I; [|apply ordered_nodup, OL]. destruct (ordered_path l OL k ul I) as (sl & PL & _). destruct (ordered_path r OR k ur GR) as (sr & PR & _).
    exists k, ul, ur, sl, sr. rewrite (ordered_chain l k sl OL PL), (ordered_chain r k sr OR PR), (K k (u_def ul) (DL k ul I)). auto 7.
  - intros (k & ul & ur & sl & sr & GL & GR & N & PL & PR & ->). exists (k, ul). split; [apply dget_In, GL|]. cbn [fst snd]. rewrite GR. destruct (String.eqb_spec (d_body (u_def ul)) (d_body (u_def ur))) as [|_]; [contradiction|].
    left. rewrite (ordered_chain l k sl OL PL), (ordered_chain r k sr OR PR), (K k (u_def ul) (DL k ul GL)). reflexivity.
Qed.

(** ** The text of a location *)
Lemma level_count s : level s = (Z.of_nat (count "(" s) - Z.of_nat (count ")" s))%Z.
Proof.
  induction s as [|c s IH]; [reflexivity|]. rewrite level_cons, IH. cbn [count]. unfold weight. destruct (Ascii.eqb c "(") eqn:A; destruct (Ascii.eqb c ")") eqn:B; try lia. apply Ascii.eqb_eq in A. apply Ascii.eqb_eq in B. congruence.
Qed.
Lemma closed_iff s : brackets_closed s = true <-> closed s.
Proof. unfold brackets_closed, closed. rewrite negb_true_iff, Nat.ltb_ge, level_count. lia. Qed.
Lemma continues_iff x : (count "(" (snd x) <? count ")" (snd x)) = true <-> continues x.
Proof. unfold continues. rewrite Nat.ltb_lt, level_count. lia. Qed.
Lemma texts_app a b : texts (a ++ b) = (texts a ++ texts b)%string.
Proof. induction a as [|x a IH]; [reflexivity|]. cbn [app]. change (texts (x :: a ++ b)) with (snd x ++ texts (a ++ b))%string. rewrite IH, <- app_assoc_s. reflexivity. Qed.
Definition acc (line : string) (l : list (Z * string)) : string :=
  fold_left (fun line x => if count "(" (snd x) <? count ")" (snd x) then (line ++ snd x)%string else snd x) l line.
Lemma acc_ok l : forall line, (Forall continues l /\ acc line l = (line ++ texts l)%string) \/
  exists before s r, l = before ++ s :: r /\ ~ continues s /\ Forall continues r /\ acc line l = texts (s :: r).
Proof.
  induction l as [|x l IH]; intros line; [left; split; [constructor|symmetry; apply app_nil_r_s]|]. change (acc line (x :: l)) with (acc (if count "(" (snd x) <? count ")" (snd x) then (line ++ snd x)%string else snd x) l).
  destruct (count "(" (snd x) <? count ")" (snd x)) eqn:C.
  - apply continues_iff in C. destruct (IH (line ++ snd x)%string) as [(F & E)|(b & s & r & -> & N & F & E)].
    + left. split; [constructor; assumption|]. rewrite E, app_assoc_s. reflexivity.
    + right. exists (x :: b), s, r. auto.
  - apply (bool_not _ _ (continues_iff x)) in C. right. destruct (IH (snd x)) as [(F & E)|(b & s & r & -> & N & F & E)].
    + exists [], x, l. auto.
    + exists (x :: b), s, r. auto.
Qed.
Lemma go_to_step target n c rest line : go_to target ((n, c) :: rest) line =
  if (n =? target)%Z then (line, (n, c) :: rest) else go_to target rest (if count "(" (current rest) <? count ")" (current rest) then (line ++ current rest)%string else current rest).
Proof. reflexivity. Qed.
Lemma go_to_run target x rest pre : forall cur line, fst cur <> target -> Forall (fun y => fst y <> target) pre ->
  go_to target (cur :: pre ++ (target, x) :: rest) line = (acc line (pre ++ [(target, x)]), (target, x) :: rest).
Proof.
  induction pre as [|y pre IH]; intros [n c] line NE F; rewrite go_to_step; (destruct (Z.eqb_spec n target) as [|_]; [contradiction|]); cbn [app].
  - rewrite go_to_step, Z.eqb_refl. reflexivity.
  - inversion F as [|? ? N2 F2]; subst. destruct y as [m y]. rewrite (IH (m, y) _ N2 F2). reflexivity.
Qed.
Lemma go_to_absent target l : forall line, l <> [] -> Forall (fun y => fst y <> target) l -> go_to target l line = (""%string, []).
Proof.
  induction l as [|[n c] l IH]; intros line NE F; [contradiction|]. inversion F as [|? ? N2 F2]; subst. cbn [fst] in N2. rewrite go_to_step. destruct (Z.eqb_spec n target) as [|_]; [contradiction|].
  destruct l as [|y l]; [reflexivity|]. apply IH; [discriminate|exact F2].
Qed.
Lemma add_lines_ok finished (P : string -> Prop) : (forall s, finished s = true <-> P s) -> forall rest cur line,
  exists taken left, Taken P line rest taken left /\
    ((P (line ++ texts taken)%string /\ taken <> [] /\ exists y it, add_lines finished (cur :: rest) line = Some ((line ++ texts taken)%string, y :: it) /\ left = it) \/
     (left = [] /\ (taken = [] \/ ~ P (line ++ texts taken)%string) /\ add_lines finished (cur :: rest) line = Some ((line ++ texts taken)%string, []))).
Proof.
  intros H. induction rest as [|y rest IH]; intros cur line.
  - exists [], []. split; [constructor|]. right. cbn. auto.
  - cbn [add_lines]. replace (line ++ current (y :: rest))%string with (line ++ snd y)%string by (destruct y; reflexivity). destruct (finished (line ++ snd y)%string) eqn:F.
    + apply H in F. exists [y], rest. split; [constructor; exact F|]. left. cbn [texts fold_right]. rewrite app_nil_r_s. split; [exact F|]. split; [discriminate|]. exists y, rest. auto.
    + apply (bool_not _ _ (H _)) in F. destruct (IH y (line ++ snd y)%string) as (taken & left & T & C). exists (y :: taken), left. split; [constructor; assumption|].
      change (texts (y :: taken)) with (snd y ++ texts taken)%string. rewrite <- app_assoc_s. destruct C as [(A & _ & y2 & it & B & D)|(A & B & D)].
      * left. split; [exact A|]. split; [discriminate|]. exists y2, it. auto.
      * right. split; [exact A|]. split; [|exact D]. right. destruct B as [->|B]; [|exact B]. cbn [texts fold_right]. rewrite app_nil_r_s. exact F.
Qed.
Fixpoint without (c : ascii) (s : string) : string :=
  match s with EmptyString => ""%string | String d s => if Ascii.eqb d c then without c s else String d (without c s) end.
Lemma without_ok c s : replace_all s (String c "") "" = without c s.
Proof.
  rewrite replace_all_replace by discriminate. apply (Replaced_fun (String c "") "" s); [discriminate|apply replace_Replaced; discriminate|].
  induction s as [|d s IH]; cbn [without]; [constructor|]. destruct (Ascii.eqb_spec d c) as [->|N].
  - change (String c s) with (String c "" ++ s)%string. change (without c s) with ("" ++ without c s)%string. constructor. exact IH.
  - constructor; [|exact IH]. intros t E. cbn in E. congruence.
Qed.
Lemma squeeze_ok s : replace_all (replace_all s " " "") (String (ascii_of_nat 9) "") "" = squeeze s.
Proof.
  change " "%string with (String " " ""). rewrite !without_ok. induction s as [|c s IH]; [reflexivity|]. cbn [without squeeze]. destruct (Ascii.eqb c " "); cbn [orb]; [exact IH|]. cbn [without]. destruct (Ascii.eqb c (ascii_of_nat 9)); [exact IH|f_equal; exact IH].
Qed.
Lemma semicolon_iff s : contains s ";" = true <-> within ";" s.
Proof. apply contains_spec. Qed.
Lemma open_return_iff line : startswith (replace_all (replace_all line " " "") (String (ascii_of_nat 9) "") "") "return" && negb (contains line ";") = true <-> open_return line.
Proof. rewrite squeeze_ok, andb_true_iff, negb_true_iff, startswith_spec, (bool_not _ _ (semicolon_iff line)). reflexivity. Qed.
Definition rest_of_line (line : string) (it : list (Z * string)) : option string :=
  match (if brackets_closed line then Some (line, it) else add_lines brackets_closed it line) with
  | None => None
  | Some (line, it) =>
      let bare := replace_all (replace_all line " " "") (String (ascii_of_nat 9) "") "" in
      if startswith bare "return" && negb (contains line ";") then option_map fst (add_lines (fun s => contains s ";") it line)
      else Some line
  end.
Lemma completed_ok seg cur rest : Completed seg rest (rest_of_line (texts seg) (cur :: rest)).
Proof.
  unfold rest_of_line. destruct (brackets_closed (texts seg)) eqn:B.
  - apply closed_iff in B. cbv zeta. destruct (startswith _ _ && _) eqn:O.
    + apply open_return_iff in O. destruct (add_lines_ok _ _ semicolon_iff rest cur (texts seg)) as (taken & left & T & [(_ & _ & y & it & -> & _)|(_ & _ & ->)]); cbn [option_map fst]; rewrite <- texts_app; eapply cm_return; eassumption.
    + apply (bool_not _ _ (open_return_iff _)) in O. apply cm_line; assumption.
  - apply (bool_not _ _ (closed_iff _)) in B. destruct (add_lines_ok _ _ closed_iff rest cur (texts seg)) as (taken & left & T & [(P & NT & y & it & -> & ->)|(EL & PT & ->)]); rewrite <- texts_app in *; cbv zeta; destruct (startswith _ _ && _) eqn:O.
    + apply open_return_iff in O. destruct (add_lines_ok _ _ semicolon_iff it y (texts (seg ++ taken))) as (taken2 & left2 & T2 & [(_ & _ & y2 & it2 & -> & _)|(_ & _ & ->)]); cbn [option_map fst]; rewrite <- texts_app, <- app_assoc; eapply cm_both; eassumption.
    + apply (bool_not _ _ (open_return_iff _)) in O. eapply cm_brackets; eassumption.
    + apply open_return_iff in O. cbn [add_lines option_map]. eapply cm_past; try eassumption. destruct PT as [->|NP]; [rewrite app_nil_r; exact B|exact NP].
    + apply (bool_not _ _ (open_return_iff _)) in O. eapply cm_brackets; eassumption.
Qed.
Lemma extract_present first before target x rest : fst first <> target -> Forall (fun y => fst y <> target) before ->
  exists skipped seg, before ++ [(target, x)] = skipped ++ seg /\ seg <> [] /\ beginning skipped seg /\ Completed seg rest (extract_line (first :: before ++ (target, x) :: rest) target).
Proof.
  intros N F. unfold extract_line. rewrite go_to_run by assumption. change (match (if brackets_closed (acc "" (before ++ [(target, x)])) then Some (acc "" (before ++ [(target, x)]), (target, x) :: rest) else add_lines brackets_closed ((target, x) :: rest) (acc "" (before ++ [(target, x)]))) with
    | None => None | Some (line, it) => let bare := replace_all (replace_all line " " "") (String (ascii_of_nat 9) "") "" in
      if startswith bare "return" && negb (contains line ";") then option_map fst (add_lines (fun s => contains s ";") it line) else Some line end) with (rest_of_line (acc "" (before ++ [(target, x)])) ((target, x) :: rest)).
  destruct (acc_ok (before ++ [(target, x)]) ""%string) as [(C & E)|(b & s & r & E1 & NC & C & E2)].
  - exists [], (before ++ [(target, x)]). split; [reflexivity|]. split; [destruct before; discriminate|]. split; [left; auto|]. rewrite E. apply completed_ok.
  - exists b, (s :: r). split; [exact E1|]. split; [discriminate|]. split; [right; eauto|]. rewrite E2. apply completed_ok.
Qed.
Lemma extract_first target x rest : extract_line ((target, x) :: rest) target = Some ""%string.
Proof. unfold extract_line. cbn [go_to]. rewrite Z.eqb_refl. reflexivity. Qed.
Lemma extract_absent target lines : Forall (fun y => fst y <> target) lines -> extract_line lines target = Some ""%string.
Proof.
  intros F. unfold extract_line. destruct lines as [|x l]; [reflexivity|]. rewrite go_to_absent; [reflexivity|discriminate|exact F].
Qed.

(** ** Inline assembly *)
Lemma count_app c a b : count c (a ++ b) = count c a + count c b.
Proof. induction a as [|d a IH]; [reflexivity|]. cbn [append count]. rewrite IH. lia. Qed.
Lemma count_none c s : (forall a b, s <> (a ++ String c b)%string) -> count c s = 0.
Proof.
  induction s as [|d s IH]; intros N; [reflexivity|]. cbn [count]. destruct (Ascii.eqb_spec d c) as [->|_]; [destruct (N ""%string s eq_refl)|]. apply IH. intros a b ->. apply (N (String d a) b). reflexivity.
Qed.
Lemma char_occurrence c s pre post : first_occurrence (String c "") s pre post -> s = (pre ++ String c post)%string /\ forall a b, pre <> (a ++ String c b)%string.
Proof.
  intros [E B]. split; [exact E|]. intros a b ->. specialize (B a (b ++ String c post)%string). rewrite E, app_assoc_s in B. specialize (B eq_refl). rewrite length_app_s in B. cbn in B. lia.
Qed.
Lemma char_first c pre post : (forall a b, pre <> (a ++ String c b)%string) -> find_at (String c "") (pre ++ String c post) = Some (String.length pre).
Proof.
  intros N. apply find_at_some. exists pre, post. split; [|reflexivity]. split; [reflexivity|]. intros x y E. apply levi in E as [(m & -> & E)|(m & -> & E)]; [rewrite length_app_s; lia|]. destruct m as [|z m]; [rewrite app_nil_r_s; lia|].
  assert (z = c) by (cbn [append] in E; congruence). subst z. exfalso. apply (N x m). reflexivity.
Qed.
Lemma char_absent c s : find_at (String c "") s = None <-> forall a b, s <> (a ++ String c b)%string.
Proof. rewrite find_at_none. split; [intros N a b E; apply N; exists a, b; exact E|intros N (a & b & E); exact (N a b E)]. Qed.
Lemma drop_S_app a c b : drop (S (String.length a)) (a ++ String c b) = b.
Proof. rewrite app_cons_s. replace (S (String.length a)) with (String.length (a ++ String c "")) by (rewrite length_app_s; cbn; lia). apply drop_app. Qed.
Lemma prefix_no_char c p q : (forall a b, (p ++ q)%string <> (a ++ String c b)%string) -> forall a b, p <> (a ++ String c b)%string.
Proof. intros N a b ->. apply (N a (b ++ q)%string). rewrite app_assoc_s. reflexivity. Qed.
Lemma sections_ok fuel : forall s body, String.length s <= fuel -> Nat.even (count quote s) = true -> exists b r, sections fuel s body = ((body ++ b)%string, r) /\ Sections s b r.
Proof.
  induction fuel as [|n IH]; intros s body L EV.
  - destruct s; [|cbn in L; lia]. exists ""%string, ""%string. split; [cbn; rewrite app_nil_r_s; reflexivity|]. apply sc_end. intros [|? a] b; discriminate.
  - cbn [sections]. destruct (find_at (String quote "") s) as [q|] eqn:F.
    2:{ rewrite char_absent in F. exists ""%string, s. rewrite app_nil_r_s. split; [reflexivity|]. apply sc_end, F. }
    apply find_at_some in F as (pre & post & FO & ->). apply char_occurrence in FO as [-> NQ].
    assert (QUOTE : (forall x y, pre <> (x ++ ":" ++ y)%string) -> exists b r,
      match find_at (String quote "") (drop (S (String.length pre)) (pre ++ String quote post)) with
      | None => (body, (pre ++ String quote post)%string)
      | Some q2 => sections n (drop (S q2) (drop (S (String.length pre)) (pre ++ String quote post))) (body ++ take q2 (drop (S (String.length pre)) (pre ++ String quote post)))%string
      end = ((body ++ b)%string, r) /\ Sections (pre ++ String quote post) b r).
    { intros NC. rewrite drop_S_app. destruct (find_at (String quote "") post) as [q2|] eqn:F2.
      - apply find_at_some in F2 as (p2 & post2 & FO2 & ->). apply char_occurrence in FO2 as [-> NQ2]. rewrite drop_S_app, take_app.
        destruct (IH post2 (body ++ p2)%string) as (b & r & E & S).
        + rewrite !length_app_s in L. cbn in L. rewrite length_app_s in L. cbn in L. lia.
        + rewrite !count_app in EV. cbn [count] in EV. rewrite count_app in EV. cbn [count] in EV. rewrite Ascii.eqb_refl in EV. rewrite (count_none _ _ NQ), (count_none _ _ NQ2) in EV. exact EV.
        + exists (p2 ++ b)%string, r. rewrite E, app_assoc_s. split; [reflexivity|]. apply sc_quote; assumption.
      - exfalso. rewrite char_absent in F2. rewrite count_app in EV. cbn [count] in EV. rewrite Ascii.eqb_refl, (count_none _ _ NQ), (count_none _ _ F2) in EV. discriminate. }
    destruct (find_at ":" (pre ++ String quote post)) as [c|] eqn:FC.
    + apply find_at_some in FC as (pre2 & post2 & FO2 & ->). apply char_occurrence in FO2 as [E2 NC2]. destruct (Nat.ltb_spec (String.length pre2) (String.length pre)) as [LT|GE].
      * exists ""%string, (pre ++ String quote post)%string. rewrite app_nil_r_s. split; [reflexivity|]. rewrite E2. apply sc_colon; [|exact NC2].
        symmetry in E2. apply prefix_split in E2 as (m & -> & _); [|lia]. exact (prefix_no_char _ _ _ NQ).
      * apply QUOTE. symmetry in E2. destruct (levi _ _ _ _ E2) as [(m & E3 & E4)|(m & E3 & E4)].
        -- assert (m = ""%string) by (destruct m; [reflexivity|]; rewrite E3, length_app_s in GE; cbn in GE; lia). subst m. rewrite app_nil_r_s in E3. subst pre2. exact NC2.
        -- rewrite E3 in NC2. exact (prefix_no_char _ _ _ NC2).
    + apply QUOTE. rewrite char_absent in FC. exact (prefix_no_char _ _ _ FC).
Qed.
Lemma colon_fun a b c d : (a ++ ":" ++ b)%string = (c ++ ":" ++ d)%string -> (forall x y, a <> (x ++ ":" ++ y)%string) -> (forall x y, c <> (x ++ ":" ++ y)%string) -> a = c /\ b = d.
Proof.
  intros E NA NC. apply levi in E as [(m & -> & E)|(m & -> & E)]; (destruct m as [|z m]; [rewrite app_nil_r_s; cbn in E; split; congruence|]); assert (z = ":"%char) by (cbn [append] in E; congruence); subst z; exfalso; [apply (NC a m)|apply (NA c m)]; reflexivity.
Qed.
Lemma char_fun z a b c d : (a ++ String z b)%string = (c ++ String z d)%string -> (forall x y, a <> (x ++ String z y)%string) -> (forall x y, c <> (x ++ String z y)%string) -> a = c /\ b = d.
Proof.
  intros E NA NC. apply levi in E as [(m & -> & E)|(m & -> & E)]; (destruct m as [|w m]; [rewrite app_nil_r_s; cbn in E; split; congruence|]); assert (w = z) by (cbn [append] in E; congruence); subst w; exfalso; [apply (NC a m)|apply (NA c m)]; reflexivity.
Qed.
Lemma sections_fun s b r : Sections s b r -> forall b2 r2, Sections s b2 r2 -> b = b2 /\ r = r2.
Proof.
  induction 1 as [s N|a b NQ NC|a q b body rest NQ NC NQ2 S IH]; intros b2 r2 H.
  - inversion H as [s2 N2|a2 bb NQ2 NC2|a2 q2 bb body2 rest2 NQ2 NC2 NQ3 S2]; subst; auto. exfalso. apply (N a2 (q2 ++ String quote bb)%string). reflexivity.
  - inversion H as [s2 N2|a2 bb NQ2 NC2 E|a2 q2 bb body2 rest2 NQ2 NC2 NQ3 S2 E]; subst; auto. exfalso.
    apply levi in E as [(m & -> & E)|(m & -> & E)]; (destruct m as [|z m]; [cbn in E; discriminate|]).
    + assert (z = quote) by (cbn [append] in E; congruence). subst z. apply (NQ a2 m). reflexivity.
    + assert (z = ":"%char) by (cbn [append] in E; congruence). subst z. apply (NC2 a m). reflexivity.
  - inversion H as [s2 N2|a2 bb NQ3 NC2 E|a2 q2 bb body2 rest2 NQ3 NC2 NQ4 S2 E]; subst.
    + exfalso. apply (N2 a (q ++ String quote b)%string). reflexivity.
    + exfalso. apply levi in E as [(m & -> & E)|(m & -> & E)]; (destruct m as [|z m]; [cbn in E; discriminate|]).
      * assert (z = ":"%char) by (cbn [append] in E; congruence). subst z. apply (NC a2 m). reflexivity.
      * assert (z = quote) by (cbn [append] in E; congruence). subst z. apply (NQ3 a m). reflexivity.
    + apply char_fun in E as [-> E]; [|exact NQ3|exact NQ]. apply char_fun in E as [-> ->]; [|exact NQ4|exact NQ2]. destruct (IH _ _ S2) as [-> ->]. auto.
Qed.
Lemma operand_part_ok s : operand_part s (match find_at ":" s with Some c => drop c s | None => ""%string end).
Proof.
  destruct (find_at ":" s) as [c|] eqn:F.
  - apply find_at_some in F as (pre & post & FO & ->). apply char_occurrence in FO as [-> N]. rewrite drop_app. exact (op_colon pre post N).
  - rewrite char_absent in F. apply op_none. exact F.
Qed.
Lemma operand_fun s a b : operand_part s a -> operand_part s b -> a = b.
Proof.
  intros [s0 N|x y N] H; inversion H as [s1 N1|x1 y1 N1 E]; subst; try reflexivity.
  - destruct (N x1 y1 eq_refl).
  - destruct (N1 x y eq_refl).
  - apply colon_fun in E as [_ ->]; [reflexivity|exact N1|exact N].
Qed.
Lemma inner_ok y : inner ("(" ++ y ++ ")") = y.
Proof.
  unfold inner. cbn [append String.length]. rewrite length_app_s. cbn [String.length]. replace (S (String.length y + 1) - 2) with (String.length y) by lia. cbn [substring]. apply take_app.
Qed.
Lemma inner_open y c : inner ("(" ++ y ++ String c "") = y.
Proof.
  unfold inner. cbn [append String.length]. rewrite length_app_s. cbn [String.length]. replace (S (String.length y + 1) - 2) with (String.length y) by lia. cbn [substring]. apply take_app.
Qed.
Lemma closes_more r t : closes r r -> closes (r ++ t) r.
Proof. intros (N & L & _ & M). split; [exact N|]. split; [exact L|]. split; [eauto|exact M]. Qed.
Lemma first_asm input pre post : first_occurrence "asm" input pre post -> find_at "asm" input = Some (String.length pre).
Proof. intros F. apply find_at_some. eauto. Qed.
Lemma convert_asm_ok pre mid ext post : first_occurrence "asm" (pre ++ "asm" ++ mid ++ "(" ++ ext ++ ")" ++ post) pre (mid ++ "(" ++ ext ++ ")" ++ post) -> (forall x y, mid <> (x ++ "(" ++ y)%string) ->
  closes ("(" ++ ext ++ ")") ("(" ++ ext ++ ")") -> Nat.even (count quote ext) = true ->
  exists body rest ops, Sections ext body rest /\ operand_part rest ops /\ convert_asm (pre ++ "asm" ++ mid ++ "(" ++ ext ++ ")" ++ post) = (asm_text body, ops).
Proof.
  intros FO NM C EV. unfold convert_asm. rewrite (first_asm _ _ _ FO).
  assert (F2 : find_from (pre ++ "asm" ++ mid ++ "(" ++ ext ++ ")" ++ post) "(" (String.length pre) = Some (String.length (pre ++ "asm" ++ mid))).
  { rewrite find_from_app. change ("asm" ++ mid ++ "(" ++ ext ++ ")" ++ post)%string with (("asm" ++ mid) ++ "(" ++ ext ++ ")" ++ post)%string.
    rewrite find_bracket; [cbn [option_map]; rewrite !length_app_s; reflexivity|]. intros [|x0 [|x1 [|x2 x]]] y E; cbn in E; try discriminate. apply (NM x y). injection E as _ _ _ E. exact E. }
  rewrite F2. unfold to_matching_bracket. destruct (Nat.ltb_spec (String.length (pre ++ "asm" ++ mid ++ "(" ++ ext ++ ")" ++ post)) (String.length (pre ++ "asm" ++ mid))) as [LT|_]; [rewrite !length_app_s in LT; lia|].
  replace (pre ++ "asm" ++ mid ++ "(" ++ ext ++ ")" ++ post)%string with ((pre ++ "asm" ++ mid) ++ ("(" ++ ext ++ ")") ++ post)%string by (rewrite !app_assoc_s; reflexivity).
  rewrite drop_app, (bracket_iff _ _ (closes_more _ post C)).
  cbn [append]. change (String "(" (ext ++ ")")) with ("(" ++ ext ++ ")")%string. rewrite inner_ok. rewrite <- Nat.negb_even, EV. cbn [negb].
  destruct (sections_ok (String.length ext) ext ""%string (le_n _) EV) as (b & r & E & S). rewrite E. cbn [append]. exists b, r, (match find_at ":" r with Some c => drop c r | None => ""%string end).
  split; [exact S|]. split; [apply operand_part_ok|reflexivity].
Qed.
(** Operands. *)
Lemma groups_ok s l : Groups s l -> forall fuel, String.length s < fuel -> asm_arguments fuel s = l.
Proof.
  induction 1 as [s N|pre y x post l N C G IH|pre y N C|pre y c N C|pre N]; intros fuel L; (destruct fuel as [|n]; [lia|]); cbn [asm_arguments].
  - assert (X : find_at "(" s = None) by (apply char_absent; exact N). rewrite X. reflexivity.
  - rewrite (find_bracket pre _ N). rewrite drop_app. replace ("(" ++ y ++ ")" ++ String x post)%string with (("(" ++ y ++ ")") ++ String x post)%string by (rewrite !app_assoc_s; reflexivity).
    rewrite (bracket_iff _ _ (closes_more _ (String x post) C)), inner_ok. f_equal.
    replace (pre ++ ("(" ++ y ++ ")") ++ String x post)%string with ((pre ++ "(" ++ y ++ ")") ++ String x post)%string by (rewrite !app_assoc_s; reflexivity).
    replace (String.length pre + String.length ("(" ++ y ++ ")") + 1) with (S (String.length (pre ++ "(" ++ y ++ ")"))) by (rewrite !length_app_s; lia). rewrite drop_S_app. apply IH.
    rewrite !length_app_s in L. cbn in L. lia.
  - rewrite (find_bracket pre _ N), drop_app, (bracket_iff _ _ C), inner_ok. f_equal.
    assert (D : drop (String.length pre + String.length ("(" ++ y ++ ")") + 1) (pre ++ "(" ++ y ++ ")") = ""%string).
    { rewrite <- length_app_s. replace (pre ++ "(" ++ y ++ ")")%string with ((pre ++ "(" ++ y ++ ")") ++ "")%string at 2 by apply app_nil_r_s. rewrite drop_app_more. reflexivity. }
    rewrite D. destruct n; reflexivity.
  - rewrite (find_bracket pre _ N), drop_app, (bracket_whole _ C), inner_open. f_equal.
    assert (D : drop (String.length pre + String.length ("(" ++ y ++ String c "") + 1) (pre ++ "(" ++ y ++ String c "") = ""%string).
    { rewrite <- length_app_s. replace (pre ++ "(" ++ y ++ String c "")%string with ((pre ++ "(" ++ y ++ String c "") ++ "")%string at 2 by apply app_nil_r_s. rewrite drop_app_more. reflexivity. }
    rewrite D. destruct n; reflexivity.
  - change (pre ++ "(")%string with (pre ++ "(" ++ "")%string. rewrite (find_bracket pre _ N), drop_app.
    change (bracket_loop 0 ("(" ++ "")) with "("%string. change (inner "(") with ""%string. f_equal.
    assert (D : drop (String.length pre + String.length "(" + 1) (pre ++ "(" ++ "") = ""%string).
    { rewrite <- Nat.add_assoc, drop_app_more. reflexivity. }
    rewrite D. destruct n; reflexivity.
Qed.
Lemma groups_total s : exists l, Groups s l.
Proof.
  remember (String.length s) as n eqn:EN. revert s EN. induction n as [n IH] using lt_wf_ind. intros s ->.
  destruct (find_at "(" s) as [p|] eqn:F; [|rewrite char_absent in F; exists []; apply gr_none; exact F].
  apply find_at_some in F as (pre & post & FO & _). apply char_occurrence in FO as [E N]. destruct (bracket_spec (String "(" post) ltac:(discriminate)) as [C|[_ NC]].
  - pose proof C as C0. destruct (closed_form (String "(" post) _ ltac:(exists post; reflexivity) C) as (args & _ & ER & _). rewrite ER in C0. set (y := join "," args) in *. destruct C0 as (N0 & L0 & (t & ET) & M0).
    assert (CC : closes ("(" ++ y ++ ")") ("(" ++ y ++ ")")) by (split; [exact N0|split; [exact L0|split; [exists ""%string; rewrite app_nil_r_s; reflexivity|exact M0]]]).
    assert (ES : s = (pre ++ "(" ++ y ++ ")" ++ t)%string) by (rewrite E, ET, !app_assoc_s; reflexivity). clear E ET. subst s. destruct t as [|x t].
    + rewrite app_nil_r_s. exists [y]. apply gr_last; [exact N|exact CC].
    + destruct (IH (String.length t)) with (s := t) as (l & G); [rewrite !length_app_s; cbn; lia|reflexivity|]. exists (y :: l). apply gr_group; assumption.
  - subst s. revert NC. pattern post. apply str_rev_ind.
    + intros _. exists [""%string]. apply gr_open_end. exact N.
    + intros a c _ NC. exists [a]. change (pre ++ String "(" (a ++ String c ""))%string with (pre ++ "(" ++ a ++ String c "")%string. apply gr_open; [exact N|exact NC].
Qed.
Lemma groups_fun s a b : Groups s a -> Groups s b -> a = b.
Proof. intros A B. rewrite <- (groups_ok s a A (S (String.length s)) ltac:(lia)). apply (groups_ok s b B). lia. Qed.

(** The choice of a candidate. *)
Lemma get_some s n : n < String.length s -> exists a x b, s = (a ++ String x b)%string /\ String.length a = n /\ String.get n s = Some x.
Proof.
  revert n. induction s as [|c s IH]; intros n L; [cbn in L; lia|]. destruct n as [|n].
  - exists ""%string, c, s. auto.
  - destruct (IH n) as (a & x & b & -> & <- & G); [cbn in L; lia|]. exists (String c a), x, b. auto.
Qed.
Lemma get_none s n : String.length s <= n -> String.get n s = None.
Proof. revert n. induction s as [|c s IH]; intros n L; [destruct n; reflexivity|]. destruct n as [|n]; [cbn in L; lia|]. apply IH. cbn in L. lia. Qed.
Lemma byte_inside s n : n < String.length s -> exists a x b, s = (a ++ String x b)%string /\ String.length a = n /\ byte_at s n = Some x.
Proof. intros L. unfold byte_at. destruct (Nat.eqb_spec n (String.length s)); [lia|]. apply get_some, L. Qed.
Lemma byte_end s : byte_at s (String.length s) = Some zero.
Proof. unfold byte_at. rewrite Nat.eqb_refl. reflexivity. Qed.
Lemma byte_past s n : String.length s < n -> byte_at s n = None.
Proof. intros L. unfold byte_at. destruct (Nat.eqb_spec n (String.length s)); [lia|]. apply get_none. lia. Qed.
Lemma byte_some s n : n <= String.length s -> exists x, byte_at s n = Some x.
Proof.
  intros L. destruct (Nat.eq_dec n (String.length s)) as [->|]; [rewrite byte_end; eauto|]. destruct (byte_inside s n) as (a & x & b & _ & _ & E); [lia|eauto].
Qed.
Lemma agree_length n c asm : no_zero asm -> n <= String.length asm -> agree n c asm -> n <= String.length c.
Proof.
  intros NZ L A. destruct n as [|n]; [lia|]. destruct (A n ltac:(lia)) as [NN EQ]. destruct (Nat.lt_trichotomy n (String.length c)) as [H|[H|H]]; [lia| |rewrite byte_past in NN by exact H; contradiction].
  exfalso. subst n. rewrite byte_end in EQ. destruct (byte_inside asm (String.length c)) as (a & x & b & -> & _ & E); [lia|]. rewrite E in EQ. injection EQ as <-. apply NZ. exists a, b. reflexivity.
Qed.
Lemma agree_S n a b : agree (S n) a b <-> agree n a b /\ byte_at a n <> None /\ byte_at a n = byte_at b n.
Proof.
  split.
  - intros H. split; [intros i L; apply H; lia|apply H; lia].
  - intros [H1 H2] i L. destruct (Nat.eq_dec i n) as [->|]; [exact H2|apply H1; lia].
Qed.
Lemma keep_step asm l pos r : no_zero asm -> pos <= String.length asm -> Kept pos asm l r -> exists r', keep_matching asm pos r = Some r' /\ Kept (S pos) asm l r'.
Proof.
  intros NZ L. induction 1 as [|c l r [A NE] K (r' & E & K')|c l r NF K (r' & E & K')].
  - exists []. split; [reflexivity|constructor].
  - cbn [keep_matching]. destruct (byte_some (fst c) pos) as (x & EX); [apply (agree_length _ _ asm); assumption|]. destruct (byte_some asm pos L) as (y & EY). rewrite EX, EY, E.
    eexists. split; [reflexivity|]. destruct (Ascii.eqb_spec x y) as [->|NXY]; cbn [negb orb].
    + destruct (String.eqb_spec (fst c) "") as [EC|NC].
      * constructor; [|exact K']. intros [_ F]. apply F; [lia|exact EC].
      * constructor; [|exact K']. split; [|intros _; exact NC]. apply agree_S. rewrite EX, EY. split; [exact A|split; [discriminate|reflexivity]].
    + constructor; [|exact K']. intros [F _]. apply agree_S in F as (_ & _ & F). rewrite EX, EY in F. congruence.
  - exists r'. split; [exact E|]. constructor; [|exact K']. intros [F G]. apply NF. apply agree_S in F as (F & _). split; [exact F|]. intros _. apply G. lia.
Qed.
Lemma kept_all asm l : Kept 0 asm l l.
Proof. induction l as [|c l IH]; constructor; [|exact IH]. split; [intros i L; lia|lia]. Qed.
Lemma kept_fun n asm l a : Kept n asm l a -> forall b, Kept n asm l b -> a = b.
Proof.
  induction 1 as [|c l r F K IH|c l r F K IH]; intros b H; inversion H; subst; try contradiction; [reflexivity|f_equal; auto|auto].
Qed.
Lemma choose_ok asm l : no_zero asm -> forall fuel pos r, Kept pos asm l r -> (forall m q, m < pos -> Kept m asm l q -> 2 <= length q) -> fuel + pos = String.length asm + 2 -> pos <= S (String.length asm) ->
  match choose fuel asm pos r with
  | Some q => length q <= 1 /\ exists n, Kept n asm l q /\ n <= S (String.length asm) /\ forall m p, m < n -> Kept m asm l p -> 2 <= length p
  | None => exists q, Kept (S (String.length asm)) asm l q /\ 2 <= length q
  end.
Proof.
  intros NZ. induction fuel as [|fuel IH]; intros pos r K B EF LP; [lia|].
  assert (SMALL : forall q, q = r -> length q <= 1 -> length q <= 1 /\ exists n, Kept n asm l q /\ n <= S (String.length asm) /\ forall m p, m < n -> Kept m asm l p -> 2 <= length p) by (intros q -> LQ; split; [exact LQ|]; exists pos; auto).
  cbn [choose]. destruct r as [|c1 [|c2 r]]; [apply SMALL; [reflexivity|cbn; lia]|apply SMALL; [reflexivity|cbn; lia]|]. clear SMALL.
  destruct (Nat.eq_dec pos (S (String.length asm))) as [->|NP].
  - assert (KN : keep_matching asm (S (String.length asm)) (c1 :: c2 :: r) = None) by (cbn [keep_matching]; rewrite (byte_past asm) by lia; destruct (byte_at (fst c1) _); reflexivity). rewrite KN.
    exists (c1 :: c2 :: r). split; [exact K|cbn; lia].
  - destruct (keep_step asm l pos _ NZ ltac:(lia) K) as (r' & E & K'). rewrite E. apply IH; [exact K'| |lia|lia].
    intros m q LM KM. destruct (Nat.eq_dec m pos) as [->|]; [rewrite (kept_fun _ _ _ _ KM _ K); cbn; lia|apply (B m); [lia|exact KM]].
Qed.
Lemma fits_all asm c : no_zero asm -> no_zero (fst c) -> asm <> ""%string -> (fits (S (String.length asm)) asm c <-> fst c = asm).
Proof.
  intros NZ NC NA. split.
  - intros [A _]. assert (A2 : agree (String.length asm) (fst c) asm) by (intros i L; apply A; lia). pose proof (agree_length _ _ _ NZ (le_n _) A2) as L1.
    assert (L2 : String.length (fst c) = String.length asm).
    { destruct (Nat.eq_dec (String.length (fst c)) (String.length asm)) as [|NE]; [assumption|]. exfalso. destruct (A (String.length asm) ltac:(lia)) as [_ EQ]. rewrite byte_end in EQ.
      destruct (byte_inside (fst c) (String.length asm)) as (a & x & b & E & _ & EB); [lia|]. rewrite EB in EQ. injection EQ as ->. apply NC. exists a, b. exact E. }
    clear - A2 L2. revert A2 L2. generalize (fst c). intros s. revert asm. induction s as [|x s IH]; intros [|y t] A L; try discriminate; [reflexivity|]. cbn in L. f_equal.
    + destruct (A 0 ltac:(cbn; lia)) as [_ EQ]. cbn in EQ. congruence.
    + apply IH; [|lia]. intros i LI. destruct (A (S i) ltac:(cbn; lia)) as [NN EQ]. unfold byte_at in *. cbn [String.length Nat.eqb String.get] in *. auto.
  - intros E. unfold fits. rewrite E. split; [|intros _; exact NA]. intros i L. split; [|reflexivity]. destruct (byte_some asm i) as (x & ->); [lia|discriminate].
Qed.

(** ** Arguments of a call *)
Lemma call_skip name l : Forall (fun x => ~ within name x) l -> forall acc, fold_left (call_arguments name) l acc = acc.
Proof.
  induction 1 as [|x l N F IH]; intros acc0; [reflexivity|]. cbn [fold_left]. unfold call_arguments at 2. apply find_at_none in N. rewrite N. apply IH.
Qed.
Lemma call_last name before x after acc : Forall (fun y => ~ within name y) after -> fold_left (call_arguments name) (before ++ x :: after) acc = call_arguments name (fold_left (call_arguments name) before acc) x.
Proof. intros F. rewrite fold_left_app. cbn [fold_left]. apply call_skip, F. Qed.
Lemma call_closed name x pre a args rest acc : first_occurrence name x pre (a ++ "(" ++ join "," args ++ ")" ++ rest) -> (forall u v, (name ++ a)%string <> (u ++ "(" ++ v)%string) -> args <> [] -> Forall argument args ->
  call_arguments name acc x = ("(" ++ join "," args ++ ")")%string.
Proof.
  intros FO N NA F. unfold call_arguments. assert (X : find_at name x = Some (String.length pre)) by (apply find_at_some; eauto). rewrite X. destruct FO as [-> _].
  rewrite find_from_app. replace (name ++ a ++ "(" ++ join "," args ++ ")" ++ rest)%string with ((name ++ a) ++ "(" ++ join "," args ++ ")" ++ rest)%string by (rewrite !app_assoc_s; reflexivity).
  rewrite (find_bracket _ _ N). cbn [option_map]. unfold to_matching_bracket. rewrite <- !length_app_s.
  replace (pre ++ (name ++ a) ++ "(" ++ join "," args ++ ")" ++ rest)%string with ((pre ++ name ++ a) ++ "(" ++ join "," args ++ ")" ++ rest)%string by (rewrite !app_assoc_s; reflexivity).
  match goal with |- context [if ?b then _ else _] => destruct b eqn:LT end; [apply Nat.ltb_lt in LT; rewrite !length_app_s in LT; lia|].
  rewrite drop_app. apply bracket_iff. apply argument_closes; assumption.
Qed.
Lemma call_open name x pre post acc : first_occurrence name x pre post -> (forall u v, (name ++ post)%string <> (u ++ "(" ++ v)%string) -> call_arguments name acc x = ""%string.
Proof.
  intros FO N. unfold call_arguments. assert (X : find_at name x = Some (String.length pre)) by (apply find_at_some; eauto). rewrite X. destruct FO as [-> _]. rewrite find_from_app.
  assert (Y : find_at "(" (name ++ post) = None) by (apply find_at_none; intros (u & v & E); exact (N u v E)). rewrite Y. reflexivity.
Qed.
