(** * Properties of the elementary functions on characters, texts and paths (C92) *)
From Coq Require Import String Ascii ZArith NArith Nnat Arith Bool Lia DecimalString DecimalNat DecimalPos DecimalZ List.
From Verif Require Import PyBase Path_Model Text_Spec.
From Verif Require Compare_Model Syndiff_Model Kernel_Model Output_Model Config_Model Config_Proofs Syndiff_Proofs Kernel_Spec Source_Model Wrapper_Model Result_Model Snapshot_Proofs Output_Proofs Kernel_Proofs Cache_Proofs.
Import ListNotations.
Open Scope list_scope.

(** ** Characters *)

(** A claim about a character, given as a test, is settled by all 256 of them. *)
Lemma every_character (p : ascii -> bool) : forallb p (map ascii_of_nat (seq 0 256)) = true -> forall c, p c = true.
Proof.
  intros A c. rewrite forallb_forall in A. apply A. apply in_map_iff. exists (nat_of_ascii c). split; [apply ascii_nat_embedding|].
  apply in_seq. pose proof (nat_ascii_bounded c). lia.
Qed.
Definition in_codes (l : list nat) (c : ascii) : bool := existsb (Nat.eqb (nat_of_ascii c)) l.
Lemma in_codes_iff l c : in_codes l c = true <-> In (nat_of_ascii c) l.
Proof. unfold in_codes. rewrite existsb_exists. split; [intros (x & I & E); apply Nat.eqb_eq in E; congruence|intros I; exists (nat_of_ascii c); split; [exact I|apply Nat.eqb_refl]]. Qed.
Definition in_text (s : string) (c : ascii) : bool := existsb (Ascii.eqb c) (list_ascii_of_string s).
Lemma in_text_iff s c : in_text s c = true <-> among s c.
Proof. unfold in_text, among. rewrite existsb_exists. split; [intros (x & I & E); apply Ascii.eqb_eq in E; congruence|intros I; exists c; split; [exact I|apply Ascii.eqb_refl]]. Qed.
Lemma same_test (p q : ascii -> bool) : forallb (fun c => Bool.eqb (p c) (q c)) (map ascii_of_nat (seq 0 256)) = true -> forall c, p c = q c.
Proof. intros A c. apply eqb_prop. exact (every_character _ A c). Qed.

Theorem C92_white_space c : (Compare_Model.is_space c = true <-> White c) /\ (Syndiff_Model.is_space c = true <-> White c).
Proof.
  unfold White. rewrite <- in_codes_iff. rewrite (same_test Compare_Model.is_space (in_codes [9; 10; 11; 12; 13; 28; 29; 30; 31; 32])) by (vm_compute; reflexivity).
  rewrite (same_test Syndiff_Model.is_space (in_codes [9; 10; 11; 12; 13; 28; 29; 30; 31; 32])) by (vm_compute; reflexivity). tauto.
Qed.
Print Assumptions C92_white_space.
Theorem C92_letters c : (Compare_Model.is_alpha c = true <-> Letter c) /\ (Wrapper_Model.is_alpha c = true <-> Letter c) /\ (Source_Model.is_letter c = true <-> Letter c).
Proof.
  unfold Letter, Capital, Small. rewrite <- !in_text_iff, <- orb_true_iff.
  rewrite (same_test Compare_Model.is_alpha (fun c => in_text "ABCDEFGHIJKLMNOPQRSTUVWXYZ" c || in_text "abcdefghijklmnopqrstuvwxyz" c)) by (vm_compute; reflexivity).
  rewrite (same_test Wrapper_Model.is_alpha (fun c => in_text "ABCDEFGHIJKLMNOPQRSTUVWXYZ" c || in_text "abcdefghijklmnopqrstuvwxyz" c)) by (vm_compute; reflexivity).
  rewrite (same_test Source_Model.is_letter (fun c => in_text "ABCDEFGHIJKLMNOPQRSTUVWXYZ" c || in_text "abcdefghijklmnopqrstuvwxyz" c)) by (vm_compute; reflexivity). tauto.
Qed.
Print Assumptions C92_letters.
Theorem C92_digits c : (Syndiff_Model.is_digit c = true <-> Digit c) /\ (Source_Model.is_digit c = true <-> Digit c).
Proof.
  unfold Digit. rewrite <- !in_text_iff. rewrite (same_test Syndiff_Model.is_digit (in_text "0123456789")) by (vm_compute; reflexivity).
  rewrite (same_test Source_Model.is_digit (in_text "0123456789")) by (vm_compute; reflexivity). tauto.
Qed.
Print Assumptions C92_digits.
(** The characters of names in LLVM definitions and in macros. *)
Theorem C92_name_characters c :
  (Wrapper_Model.word_char c = true <-> Letter c \/ Digit c \/ c = "_"%char) /\ (Source_Model.ident_char c = true <-> Letter c \/ Digit c \/ c = "_"%char).
Proof.
  unfold Wrapper_Model.word_char, Source_Model.ident_char. rewrite !orb_true_iff, Ascii.eqb_eq.
  destruct (C92_letters c) as (_ & -> & ->), (C92_digits c) as (-> & ->). tauto.
Qed.
Print Assumptions C92_name_characters.
Theorem C92_line_breaks c : (Kernel_Model.line_end c = true <-> Line_break c) /\ (Output_Model.line_boundary c = true <-> Line_break c).
Proof.
  unfold Line_break. rewrite <- in_codes_iff. rewrite (same_test Kernel_Model.line_end (in_codes [10; 11; 12; 28; 29; 30])) by (vm_compute; reflexivity).
  rewrite (same_test Output_Model.line_boundary (in_codes [10; 11; 12; 28; 29; 30])) by (vm_compute; reflexivity). tauto.
Qed.
Print Assumptions C92_line_breaks.
Theorem C92_ascii s : Config_Model.is_ascii s = true <-> All (fun c => (nat_of_ascii c < 128)%nat) s.
Proof. induction s as [|c s IH]; [cbn; tauto|]. cbn [Config_Model.is_ascii All]. rewrite andb_true_iff, Nat.ltb_lt, IH. tauto. Qed.
Print Assumptions C92_ascii.

(** ** Texts *)
Lemma white_all s : All White s <-> Syndiff_Model.all_chars Syndiff_Model.is_space s = true.
Proof. induction s as [|c s IH]; [cbn; tauto|]. cbn [All Syndiff_Model.all_chars]. rewrite andb_true_iff, IH, (proj2 (C92_white_space c)). tauto. Qed.
Lemma all_app p a b : All p (a ++ b) <-> All p a /\ All p b.
Proof. induction a as [|c a IH]; cbn [append All]; [tauto|]. rewrite IH. tauto. Qed.
Section Strip.
  Variable sp : ascii -> bool.
  Hypothesis SP : forall c, sp c = true <-> White c.
  Fixpoint l_strip (s : string) : string := match s with EmptyString => EmptyString | String c t => if sp c then l_strip t else s end.
  Fixpoint r_strip (s : string) : string :=
    match s with EmptyString => EmptyString | String c t => match r_strip t with EmptyString => if sp c then EmptyString else String c EmptyString | r => String c r end end.
  Lemma l_strip_spec s : exists a, s = (a ++ l_strip s)%string /\ All White a /\ ~ starts White (l_strip s).
  Proof.
    induction s as [|c s (a & E & A & N)]; [exists ""%string; split; [reflexivity|split; [exact I|intros (d & t & Q & _); discriminate]]|]. cbn [l_strip].
    destruct (sp c) eqn:S; [exists (String c a); split; [cbn [append]; congruence|split; [split; [apply SP; exact S|exact A]|exact N]]|].
    exists ""%string. split; [reflexivity|]. split; [exact I|]. intros (d & t & Q & W). injection Q as <- <-. apply SP in W. congruence.
  Qed.
  Lemma r_strip_spec s : exists b, s = (r_strip s ++ b)%string /\ All White b /\ ~ ends White (r_strip s).
  Proof.
    assert (NE : ~ ends White "") by (intros (t & d & Q & _); destruct t; discriminate).
    induction s as [|c s (b & E & B & N)]; [exists ""%string; split; [reflexivity|split; [exact I|exact NE]]|]. cbn [r_strip].
    destruct (r_strip s) as [|d r] eqn:RS.
    - cbn [append] in E. subst s. destruct (sp c) eqn:S.
      + exists (String c b). split; [reflexivity|]. split; [split; [apply SP; exact S|exact B]|exact NE].
      + exists b. split; [reflexivity|]. split; [exact B|]. intros (t & d & Q & W). destruct t as [|x t]; [injection Q as <-; apply SP in W; congruence|]. injection Q as _ Q. destruct t; discriminate.
    - exists b. split; [cbn [append] in *; congruence|]. split; [exact B|]. intros (t & e & Q & W). destruct t as [|x t]; [discriminate|]. injection Q as _ Q. apply N. exists t, e. split; [exact Q|exact W].
  Qed.
  Lemma starts_app_not p a b : ~ starts p (a ++ b) -> a <> ""%string -> ~ starts p a.
  Proof. intros N _ (c & t & -> & W). apply N. exists c, (t ++ b)%string. split; [reflexivity|exact W]. Qed.
  Lemma ends_app_not p a b : ~ ends p (a ++ b) -> ~ ends p b.
  Proof. intros N (t & c & -> & W). apply N. exists (a ++ t)%string, c. split; [rewrite app_assoc_s; reflexivity|exact W]. Qed.
  Lemma not_white_both t : ~ starts White t -> All White t -> t = ""%string.
  Proof. intros N A. destruct t as [|c t]; [reflexivity|]. destruct A as [W _]. destruct N. exists c, t. auto. Qed.
  (** First at the end, then at the beginning. *)
  Lemma strip_rl s : Stripped s (l_strip (r_strip s)).
  Proof.
    destruct (r_strip_spec s) as (b & E & B & N). destruct (l_strip_spec (r_strip s)) as (a & E' & A & N').
    destruct (l_strip (r_strip s)) as [|c t] eqn:L.
    - exists s, ""%string. rewrite !app_nil_r_s in *. split; [reflexivity|]. split; [rewrite E; apply all_app; split; [rewrite E'; exact A|exact B]|]. repeat split; auto. intros (t & d & Q & _). destruct t; discriminate.
    - exists a, b. split; [rewrite <- app_assoc_s, <- E'; exact E|]. split; [exact A|]. split; [exact B|]. split; [exact N'|]. split; [|discriminate]. apply (ends_app_not White a). rewrite <- E'. exact N.
  Qed.
  Lemma strip_lr s : Stripped s (r_strip (l_strip s)).
  Proof.
    destruct (l_strip_spec s) as (a & E & A & N). destruct (r_strip_spec (l_strip s)) as (b & E' & B & N').
    destruct (r_strip (l_strip s)) as [|c t] eqn:L.
    - exists s, ""%string. cbn [append] in *. rewrite app_nil_r_s. split; [reflexivity|]. split; [rewrite E; apply all_app; split; [exact A|rewrite E'; exact B]|]. repeat split; auto. intros (x & d & Q & _). discriminate.
    - exists a, b. split; [rewrite <- E'; exact E|]. split; [exact A|]. split; [exact B|]. split; [|split; [exact N'|discriminate]]. apply (starts_app_not White _ b); [rewrite <- E'; exact N|discriminate].
  Qed.
End Strip.
Theorem C92_strip s : Stripped s (Compare_Model.strip s) /\ Stripped s (Syndiff_Model.strip s).
Proof.
  split.
  - exact (strip_lr Compare_Model.is_space (fun c => proj1 (C92_white_space c)) s).
  - exact (strip_rl Syndiff_Model.is_space (fun c => proj2 (C92_white_space c)) s).
Qed.
Print Assumptions C92_strip.
(** White space taken off in two ways gives the same. *)
Lemma last_character c u : exists x y, String c u = (x ++ String y "")%string.
Proof. revert c. induction u as [|e u IH]; intros d; [exists ""%string, d; reflexivity|]. destruct (IH e) as (x & y & E). exists (String d x), y. cbn [append]. congruence. Qed.
Lemma white_not_end c u : All White (String c u) -> ends White (String c u).
Proof. intros A. destruct (last_character c u) as (x & y & Q). exists x, y. split; [exact Q|]. rewrite Q in A. apply all_app in A. apply A. Qed.
Lemma strip_left a : forall b x y, (a ++ x)%string = (b ++ y)%string -> All White a -> All White b -> ~ starts White x -> ~ starts White y -> x = y.
Proof.
  induction a as [|c a IH]; intros b x y E A B N N'.
  - destruct b as [|d b]; [exact E|]. exfalso. apply N. cbn [append] in E. exists d, (b ++ y)%string. split; [exact E|apply B].
  - destruct b as [|d b]; [exfalso; apply N'; cbn [append] in E; exists c, (a ++ x)%string; split; [symmetry; exact E|apply A]|].
    cbn [append] in E. injection E as <- E. destruct A as [_ A], B as [_ B]. exact (IH b x y E A B N N').
Qed.
Lemma strip_right v : forall u b b', (v ++ b)%string = (u ++ b')%string -> All White b -> All White b' -> ~ ends White v -> ~ ends White u -> v = u.
Proof.
  induction v as [|c v IH]; intros u b b' E B B' N N'.
  - destruct u as [|d u]; [reflexivity|]. exfalso. cbn [append] in E. subst b. change (String d (u ++ b')) with (String d u ++ b')%string in B. apply all_app in B. apply N'. apply white_not_end, B.
  - destruct u as [|d u].
    + exfalso. cbn [append] in E. subst b'. change (String c (v ++ b)) with (String c v ++ b)%string in B'. apply all_app in B'. apply N. apply white_not_end, B'.
    + cbn [append] in E. injection E as <- E. f_equal. apply (IH u b b' E B B').
      * intros (x & y & -> & W). apply N. exists (String c x), y. auto.
      * intros (x & y & -> & W). apply N'. exists (String c x), y. auto.
Qed.
Theorem C92_strip_unique s t t' : Stripped s t -> Stripped s t' -> t = t'.
Proof.
  assert (S : forall x b, ~ starts White x -> (x = ""%string -> b = ""%string) -> ~ starts White (x ++ b)).
  { intros x b N Z (c & r & Q & W). destruct x as [|d x]; [rewrite (Z eq_refl) in Q; discriminate|]. cbn [append] in Q. injection Q as -> _. apply N. exists c, x. auto. }
  intros (a & b & E & A & B & N1 & N2 & Z) (a' & b' & E' & A' & B' & N1' & N2' & Z').
  rewrite E in E'. pose proof (strip_left a a' (t ++ b)%string (t' ++ b')%string E' A A' (S t b N1 Z) (S t' b' N1' Z')) as Q. exact (strip_right t t' b b' Q B B' N2 N2').
Qed.
Print Assumptions C92_strip_unique.

(** Numbers are written in decimal, without leading zeros. *)
Lemma number_uint u : forall acc, number acc (NilEmpty.string_of_uint u) = Nat.of_uint_acc u acc.
Proof. induction u; intros acc; cbn [NilEmpty.string_of_uint number Nat.of_uint_acc]; [reflexivity|..]; rewrite IHu; f_equal; rewrite ?Nat.tail_mul_spec; cbn [digit_value nat_of_ascii]; unfold digit_value; vm_compute (nat_of_ascii _); lia. Qed.
Lemma digits_uint u : All Digit (NilEmpty.string_of_uint u).
Proof. induction u; cbn [NilEmpty.string_of_uint All]; [exact I|..]; (split; [cbn; tauto|exact IHu]). Qed.
Lemma uint_decimal u : u = Decimal.unorm u -> Decimal (Nat.of_uint u) (NilZero.string_of_uint u).
Proof.
  intros Q. unfold NilZero.string_of_uint.
  destruct u as [|u|u|u|u|u|u|u|u|u|u]; [discriminate Q| |..];
    try (split; [apply digits_uint|split; [discriminate|split; [rewrite number_uint; reflexivity|intros t T; cbn in T; discriminate T]]]; fail).
  assert (Z : u = Decimal.Nil).
  { unfold Decimal.unorm in Q. cbn [Decimal.nzhead] in Q. destruct (Decimal.nzhead u) as [|v|v|v|v|v|v|v|v|v|v] eqn:NZ; try discriminate; [injection Q as ->; reflexivity|].
    exfalso. clear -NZ. revert v NZ. induction u; intros v NZ; cbn [Decimal.nzhead] in NZ; try discriminate. eapply IHu. exact NZ. }
  subst u. split; [cbn; tauto|]. split; [discriminate|]. split; [reflexivity|]. intros t [= <-]. reflexivity.
Qed.
Theorem C92_decimal n : Decimal n (Compare_Model.dec n).
Proof.
  unfold Compare_Model.dec. rewrite <- (DecimalNat.Unsigned.of_to n) at 1. apply uint_decimal. rewrite <- (DecimalNat.Unsigned.of_to n) at 1. apply DecimalNat.Unsigned.to_of.
Qed.
Print Assumptions C92_decimal.
Lemma of_uint_acc_pos u : forall p, N.of_nat (Nat.of_uint_acc u (Pos.to_nat p)) = N.pos (Pos.of_uint_acc u p).
Proof.
  induction u; intros p; cbn [Nat.of_uint_acc Pos.of_uint_acc]; [rewrite <- positive_nat_N; reflexivity|..]; rewrite <- IHu; do 2 f_equal; rewrite ?Nat.tail_mul_spec;
    repeat rewrite ?Pos2Nat.inj_add, ?Pos2Nat.inj_mul; change (Pos.to_nat 10) with 10; try change (Pos.to_nat 1) with 1; try change (Pos.to_nat 2) with 2; try change (Pos.to_nat 3) with 3; try change (Pos.to_nat 4) with 4;
    try change (Pos.to_nat 5) with 5; try change (Pos.to_nat 6) with 6; try change (Pos.to_nat 7) with 7; try change (Pos.to_nat 8) with 8; try change (Pos.to_nat 9) with 9; lia.
Qed.
Lemma of_uint_pos u : N.of_nat (Nat.of_uint u) = Pos.of_uint u.
Proof.
  induction u; cbn [Pos.of_uint]; [reflexivity|exact IHu|..]; rewrite <- of_uint_acc_pos; reflexivity.
Qed.
Lemma pos_decimal p : Decimal (Pos.to_nat p) (NilZero.string_of_uint (Pos.to_uint p)).
Proof.
  replace (Pos.to_nat p) with (Nat.of_uint (Pos.to_uint p)).
  - apply uint_decimal. pose proof (DecimalPos.Unsigned.to_of (Pos.to_uint p)) as Q. rewrite DecimalPos.Unsigned.of_to in Q. exact Q.
  - apply Nat2N.inj. rewrite of_uint_pos, DecimalPos.Unsigned.of_to. symmetry. apply positive_nat_N.
Qed.
Theorem C92_integers z : (0 <= z -> Decimal (Z.to_nat z) (Result_Model.str_of_Z z))%Z /\
  (z < 0 -> exists s, Result_Model.str_of_Z z = String "-" s /\ Decimal (Z.to_nat (- z)) s)%Z.
Proof.
  destruct z as [|p|p]; (split; [intros L|intros L]); try lia.
  - change (Result_Model.str_of_Z 0) with (Compare_Model.dec 0). apply C92_decimal.
  - rewrite Z2Nat.inj_pos. apply pos_decimal.
  - eexists. split; [reflexivity|]. rewrite Pos2Z.opp_neg, Z2Nat.inj_pos. apply pos_decimal.
Qed.
Print Assumptions C92_integers.
(** A number has one notation. *)
Theorem C92_decimal_unique n s t : Decimal n s -> Decimal n t -> s = t.
Proof.
  assert (V : forall c, Digit c -> (digit_value c < 10)%nat /\ (forall d, Digit d -> digit_value c = digit_value d -> c = d)).
  { intros c D. unfold Digit, among in *. cbn in D. split; [intuition subst; cbn; lia|]. intros d D'. cbn in D'. intuition subst; try reflexivity; vm_compute in H; discriminate. }
  assert (M : forall s acc, All Digit s -> (acc * 10 ^ String.length s <= number acc s < (acc + 1) * 10 ^ String.length s)%nat).
  { clear s t. induction s as [|c s IH]; intros acc A; [cbn; lia|]. destruct A as [D A]. cbn [number String.length]. specialize (IH (10 * acc + digit_value c) A). pose proof (proj1 (V c D)) as L. rewrite Nat.pow_succ_r by lia. nia. }
  assert (E : forall s t acc, All Digit s -> All Digit t -> String.length s = String.length t -> forall acc', number acc s = number acc' t -> acc = acc' /\ s = t).
  { clear s t. induction s as [|c s IH]; intros t acc A B L acc' Q; destruct t as [|d t]; try discriminate; [auto|]. destruct A as [D A], B as [D' B]. cbn [number String.length] in *. injection L as L.
    destruct (IH t _ A B L _ Q) as (P & ->). pose proof (proj1 (V c D)). pose proof (proj1 (V d D')). assert (acc = acc' /\ digit_value c = digit_value d) as (-> & W) by lia. split; [reflexivity|]. f_equal. apply (V c D); auto. }
  assert (B : forall s, Decimal n s -> (n = 0 /\ s = "0"%string) \/ (10 ^ (String.length s - 1) <= n < 10 ^ String.length s)%nat).
  { intros u (A & N & Q & Z). destruct u as [|c u]; [congruence|]. destruct A as [D A]. cbn [number String.length] in *. pose proof (M u (digit_value c) A) as G. pose proof (proj1 (V c D)) as L.
    change (10 * 0 + digit_value c) with (digit_value c) in Q. rewrite Q in G. replace (S (String.length u) - 1) with (String.length u) by lia. rewrite Nat.pow_succ_r by lia. destruct (Nat.eq_dec (digit_value c) 0) as [E0|E0].
    - left. assert (c = "0"%char) by (apply (V c D); [cbn; tauto|exact E0]). subst c. rewrite (Z u eq_refl) in *. cbn in Q. auto.
    - right. nia. }
  intros D1 D2. pose proof (B s D1) as B1. pose proof (B t D2) as B2. destruct D1 as (A1 & N1 & Q1 & Z1), D2 as (A2 & N2 & Q2 & Z2).
  destruct B1 as [[E1 S1]|B1], B2 as [[E2 S2]|B2]; [congruence| | |].
  - subst n. rewrite E1 in B2. pose proof (Nat.pow_nonzero 10 (String.length t - 1)). lia.
  - subst n. rewrite E2 in B1. pose proof (Nat.pow_nonzero 10 (String.length s - 1)). lia.
  - assert (L : String.length s = String.length t).
    { destruct (lt_eq_lt_dec (String.length s) (String.length t)) as [[L|L]|L]; [|exact L|].
      - assert (10 ^ String.length s <= 10 ^ (String.length t - 1))%nat by (apply Nat.pow_le_mono_r; lia). lia.
      - assert (10 ^ String.length t <= 10 ^ (String.length s - 1))%nat by (apply Nat.pow_le_mono_r; lia). lia. }
    apply (E s t 0 A1 A2 L 0). congruence.
Qed.
Print Assumptions C92_decimal_unique.

(** ** Paths *)
Lemma no_has c s : No c s <-> has_char c s = false.
Proof.
  induction s as [|d s IH]; [cbn; split; auto|]. unfold No in *. cbn [All has_char]. rewrite orb_false_iff, IH.
  destruct (Ascii.eqb_spec c d) as [->|N]; split; [intros [X _]; congruence|intros [X _]; congruence|tauto|].
  intros [_ X]. split; [congruence|exact X].
Qed.
Lemma parts_iff p l : Parts p l <-> split_char "/" p = l.
Proof.
  split.
  - intros (N & A & ->). apply Syndiff_Proofs.split_join; [exact N|]. eapply Forall_impl; [|exact A]. intros x X. apply no_has. exact X.
  - intros <-. split; [apply split_char_nonempty|]. split; [|symmetry; apply join_split_char]. apply Forall_forall. intros x I. apply no_has. eapply Cache_Proofs.split_char_no_sep. exact I.
Qed.
Lemma leads_iff l : forall d d', norm_comps (rev d) l = d' <-> Leads d l d'.
Proof.
  induction l as [|c l IH]; intros d d'; cbn [norm_comps].
  - rewrite rev_involutive. split; [intros <-; constructor|intros L; inversion L; reflexivity].
  - destruct (String.eqb_spec c "") as [->|N1]; cbn [orb].
    { rewrite IH. split; [intros L; apply Leads_stay; auto|]. intros L. inversion L as [|? ? ? ? O K|? ? ? ? K|? ? K|? ? ? ? NI K]; subst; [exact K|cbn in NI; tauto]. }
    destruct (String.eqb_spec c ".") as [->|N2].
    { rewrite IH. split; [intros L; apply Leads_stay; auto|]. intros L. inversion L as [|? ? ? ? O K|? ? ? ? K|? ? K|? ? ? ? NI K]; subst; [exact K|cbn in NI; tauto]. }
    destruct (String.eqb_spec c "..") as [->|N3].
    { destruct (rev d) as [|x r] eqn:R.
      - assert (D : d = []) by (rewrite <- (rev_involutive d), R; reflexivity). subst d. change (@nil string) with (rev (@nil string)). rewrite IH.
        split; [intros L; apply Leads_root; exact L|]. intros L. inversion L as [|? ? ? ? O K|? ? ? ? K Q|? ? K|? ? ? ? NI K]; subst; [destruct O; congruence|destruct d; discriminate|exact K|cbn in NI; tauto].
      - assert (D : d = rev r ++ [x]) by (rewrite <- (rev_involutive d), R; reflexivity). subst d. rewrite <- (rev_involutive r) at 1. rewrite IH.
        split; [intros L; apply Leads_up; exact L|]. intros L. inversion L as [|? ? ? ? O K|? ? ? ? K Q|? ? K Q|? ? ? ? NI K]; subst; [destruct O; congruence| | |cbn in NI; tauto].
        + apply app_inj_tail in Q. destruct Q as [-> ->]. exact K.
        + destruct (rev r); discriminate. }
    change (c :: rev d) with (rev [c] ++ rev d). rewrite <- rev_app_distr, IH. split; [intros L; apply Leads_down; [cbn; intuition congruence|exact L]|].
    intros L. inversion L as [|? ? ? ? O K|? ? ? ? K Q|? ? K|? ? ? ? NI K]; subst; [destruct O; congruence|congruence|congruence|exact K].
Qed.
Lemma absolute_iff p : absolute p <-> isabs p = true.
Proof.
  unfold absolute, isabs. rewrite startswith_spec. split; intros (q & ->); exists q; reflexivity.
Qed.
(** A path leads to one place: the parts are followed from the root or from the current
    directory. *)
Theorem C92_place cwd p d : abs_comps cwd p = d <-> Place cwd p d.
Proof.
  unfold Place, abs_comps. destruct (isabs p) eqn:A.
  - split.
    + intros Q. exists (split_char "/" p). split; [apply parts_iff; reflexivity|]. left. split; [apply absolute_iff; exact A|]. apply (leads_iff _ []). exact Q.
    + intros (l & P & [(_ & L)|(N & _)]); [|destruct N; apply absolute_iff; exact A]. apply parts_iff in P. subst l. apply (leads_iff _ []) in L. exact L.
  - assert (J : norm_comps [] (split_char slash (path_join cwd p)) = norm_comps (rev (norm_comps [] (split_char "/" cwd))) (split_char "/" p)).
    { unfold path_join. rewrite A. destruct (String.eqb_spec cwd "") as [->|N]; cbn [orb]; [reflexivity|]. destruct (endswith cwd "/") eqn:E.
      - apply endswith_spec in E. destruct E as (a & ->). rewrite app_assoc_s. change ("/" ++ p)%string with (String slash p). change (a ++ "/")%string with (a ++ String slash "")%string.
        unfold slash. rewrite !Snapshot_Proofs.split_char_sep. rewrite !Output_Proofs.norm_comps_app. cbn [split_char norm_comps]. change (String.eqb "" "") with true. cbn [orb norm_comps]. rewrite rev_involutive. reflexivity.
      - change ("/" ++ p)%string with (String slash p). unfold slash. rewrite Snapshot_Proofs.split_char_sep. apply Output_Proofs.norm_comps_app. }
    rewrite J. split.
    + intros Q. exists (split_char "/" p). split; [apply parts_iff; reflexivity|]. right. split; [intros AB; apply absolute_iff in AB; congruence|].
      exists (split_char "/" cwd), (norm_comps [] (split_char "/" cwd)). split; [apply parts_iff; reflexivity|]. split; [apply (leads_iff _ []); reflexivity|]. apply leads_iff. exact Q.
    + intros (l & P & [(AB & _)|(_ & k & c & PK & L1 & L2)]); [apply absolute_iff in AB; congruence|]. apply parts_iff in P, PK. subst l k. apply (leads_iff _ []) in L1. cbn [rev] in L1. rewrite L1. apply leads_iff. exact L2.
Qed.
Print Assumptions C92_place.
(** A relative path leads from its start to its target; it goes up to the last directory both
    have in common, and no further. *)
Theorem C92_relative cwd p start r : relpath cwd p start = Ok r <->
  p <> ""%string /\ exists common s t, Place cwd start (common ++ s) /\ Place cwd p (common ++ t) /\
    (forall x s' t', s = x :: s' -> t = x :: t' -> False) /\
    (repeat ".."%string (length s) ++ t = [] /\ r = "."%string \/ repeat ".."%string (length s) ++ t <> [] /\ r = join "/" (repeat ".."%string (length s) ++ t)).
Proof.
  assert (CL : forall a b, exists c s t, a = c ++ s /\ b = c ++ t /\ common_len a b = length c /\ forall x s' t', s = x :: s' -> t = x :: t' -> False).
  { induction a as [|x a IH]; intros b; [exists [], [], b; repeat split; intros; discriminate|]. destruct b as [|y b]; [exists [], (x :: a), []; repeat split; intros; discriminate|]. cbn [common_len].
    destruct (String.eqb_spec x y) as [->|N].
    - destruct (IH b) as (c & s & t & -> & -> & -> & D). exists (y :: c), s, t. repeat split; auto.
    - exists [], (x :: a), (y :: b). repeat split. intros z s' t' Q1 Q2. congruence. }
  assert (U : forall c s t c' s' t' : list string, c ++ s = c' ++ s' -> c ++ t = c' ++ t' -> (forall x a b, s = x :: a -> t = x :: b -> False) -> (forall x a b, s' = x :: a -> t' = x :: b -> False) -> s = s' /\ t = t').
  { induction c as [|x c IH]; intros s t c' s' t' Q1 Q2 D D'; destruct c' as [|y c']; cbn [app] in *; [auto| | |].
    - exfalso. exact (D y _ _ Q1 Q2).
    - exfalso. exact (D' x _ _ (eq_sym Q1) (eq_sym Q2)).
    - injection Q1 as -> Q1. injection Q2 as Q2. apply (IH s t c' s' t'); assumption. }
  assert (V : forall c s t, abs_comps cwd start = c ++ s -> abs_comps cwd p = c ++ t -> (forall x s' t', s = x :: s' -> t = x :: t' -> False) ->
    repeat ".."%string (length (abs_comps cwd start) - common_len (abs_comps cwd start) (abs_comps cwd p)) ++ skipn (common_len (abs_comps cwd start) (abs_comps cwd p)) (abs_comps cwd p) = repeat ".."%string (length s) ++ t).
  { intros c s t E1 E2 D. destruct (CL (abs_comps cwd start) (abs_comps cwd p)) as (c' & s' & t' & F1 & F2 & F3 & D').
    rewrite E1 in F1. rewrite E2 in F2. destruct (U _ _ _ _ _ _ F1 F2 D D') as [-> ->]. rewrite E1, E2, F1, F2 in *. rewrite F3. rewrite app_length, skipn_app, skipn_all, Nat.sub_diag. cbn [app skipn]. f_equal. f_equal. lia. }
  unfold relpath. destruct (String.eqb_spec p "") as [->|N]; [split; [discriminate|intros [X _]; congruence]|]. cbv zeta. split.
  - intros Q. split; [exact N|]. destruct (CL (abs_comps cwd start) (abs_comps cwd p)) as (c & s & t & F1 & F2 & _ & D). exists c, s, t.
    split; [apply C92_place; exact F1|]. split; [apply C92_place; exact F2|]. split; [exact D|]. rewrite (V c s t F1 F2 D) in Q.
    destruct (repeat ".."%string (length s) ++ t) as [|y l]; [left|right; split; [discriminate|]]; injection Q as <-; auto.
  - intros (_ & c & s & t & F1 & F2 & D & Q). apply C92_place in F1, F2. rewrite (V c s t F1 F2 D). destruct (repeat ".."%string (length s) ++ t) as [|y l]; destruct Q as [[Q ->]|[Q ->]]; congruence.
Qed.
Print Assumptions C92_relative.

(** ** Extensions *)
Lemma all_dots_iff s : Config_Model.all_dots s = true <-> All (eq "."%char) s.
Proof. induction s as [|c s IH]; [cbn; tauto|]. cbn [Config_Model.all_dots All]. rewrite andb_true_iff, IH, Ascii.eqb_eq. intuition. Qed.
Lemma lower_character c : Lower c (Config_Model.lower_char c).
Proof.
  pose (low := fun c => match find (fun p => Ascii.eqb (fst p) c) (combine (list_ascii_of_string "ABCDEFGHIJKLMNOPQRSTUVWXYZ") (list_ascii_of_string "abcdefghijklmnopqrstuvwxyz")) with Some p => snd p | None => c end).
  assert (Q : Config_Model.lower_char c = low c) by (apply Ascii.eqb_eq; revert c; apply every_character; vm_compute; reflexivity).
  rewrite Q. unfold Lower, Capital. destruct (in_text "ABCDEFGHIJKLMNOPQRSTUVWXYZ" c) eqn:T.
  - left. split; [apply in_text_iff; exact T|]. apply in_text_iff in T. unfold among in T. cbn in T.
    decompose [or] T; subst; try contradiction;
      [exists 0|exists 1|exists 2|exists 3|exists 4|exists 5|exists 6|exists 7|exists 8|exists 9|exists 10|exists 11|exists 12|exists 13|exists 14|exists 15|exists 16|exists 17|exists 18|exists 19|exists 20|exists 21|exists 22|exists 23|exists 24|exists 25]; split; reflexivity.
  - right. split; [intros I; apply in_text_iff in I; congruence|]. unfold low. destruct (find _ _) as [[x y]|] eqn:F; [|reflexivity]. apply find_some in F. destruct F as [I E]. cbn [fst] in E. apply Ascii.eqb_eq in E. subst x.
    apply in_combine_l in I. exfalso. assert (in_text "ABCDEFGHIJKLMNOPQRSTUVWXYZ" c = true) by (apply in_text_iff; exact I). congruence.
Qed.
Lemma lowered s : Lowered s (Config_Model.lower s).
Proof. induction s as [|c s IH]; [constructor|]. cbn [Config_Model.lower]. constructor; [apply lower_character|exact IH]. Qed.
Lemma lower_empty : Config_Model.lower "" = ""%string.
Proof. reflexivity. Qed.
(** The extension of a pattern file: what follows the last dot of its name, in small letters. *)
Theorem C92_extension p : (exists e, Extension p e /\ Lowered e (Config_Model.get_extension p)) \/ ((forall e, ~ Extension p e) /\ Config_Model.get_extension p = ""%string).
Proof.
  unfold Config_Model.get_extension, Config_Model.splitext. pose proof (Config_Proofs.rsplit_spec "." p) as R. destruct (Config_Model.rsplit "." p) as [[b e]|].
  2:{ right. split; [|reflexivity]. intros e (b & -> & _). rewrite !has_char_app in R. cbn in R. rewrite orb_true_r in R. discriminate. }
  destruct R as [E NE].
  assert (UN : forall e', Extension p e' -> e' = e /\ has_char "/" e = false /\ Config_Model.all_dots (match Config_Model.rsplit "/" b with Some (_, x) => x | None => b end) = false).
  { intros e' (b' & E' & N1 & N2 & dir & name & EB & DD & NS & ND). apply no_has in N1, N2, NS.
    assert (BE : b = b' /\ e = e').
    { rewrite E in E'. clear -E' N1 NE. revert b' E'. induction b as [|c b IH]; intros b' Q; destruct b' as [|d b']; cbn [append] in Q; [injection Q as ->; auto| | |].
      - injection Q as <- Q. subst e. rewrite has_char_app in NE. cbn in NE. rewrite orb_true_r in NE. discriminate.
      - injection Q as -> Q. subst e'. rewrite has_char_app in N1. cbn in N1. rewrite orb_true_r in N1. discriminate.
      - injection Q as -> Q. destruct (IH _ Q) as [-> ->]. auto. }
    destruct BE as [<- <-]. split; [reflexivity|]. split; [exact N2|].
    assert (BN : (match Config_Model.rsplit "/" b with Some (_, x) => x | None => b end) = name).
    { pose proof (Config_Proofs.rsplit_spec "/" b) as R2. destruct (Config_Model.rsplit "/" b) as [[x y]|].
      - destruct R2 as [E2 N3]. destruct DD as [->|(t & c & -> & <-)]; [cbn [append] in EB; subst name; rewrite E2, has_char_app in NS; cbn in NS; rewrite orb_true_r in NS; discriminate|].
        rewrite E2, app_assoc_s in EB. clear -EB N3 NS. change (String "/" "" ++ name)%string with (String "/" name) in EB. change ("/" ++ y)%string with (String "/" y) in EB. revert t EB.
        induction x as [|c x IH]; intros t Q; destruct t as [|d t]; cbn [append] in Q; [injection Q as ->; reflexivity| | |].
        + injection Q as <- Q. subst y. rewrite has_char_app in N3. cbn in N3. rewrite orb_true_r in N3. discriminate.
        + injection Q as -> Q. subst name. rewrite has_char_app in NS. cbn in NS. rewrite orb_true_r in NS. discriminate.
        + injection Q as -> Q. exact (IH _ Q).
      - destruct DD as [->|(t & c & -> & <-)]; [exact EB|]. rewrite EB, !has_char_app in R2. cbn in R2. rewrite orb_true_r in R2. discriminate. }
    rewrite BN. destruct (Config_Model.all_dots name) eqn:AD; [|reflexivity]. destruct ND. apply all_dots_iff. exact AD. }
  destruct (has_char "/" e) eqn:SL; [right; split; [intros e' X; destruct (UN e' X) as (_ & Q & _); discriminate|reflexivity]|]. cbv zeta.
  destruct (Config_Model.all_dots (match Config_Model.rsplit "/" b with Some (_, x) => x | None => b end)) eqn:AD; [right; split; [intros e' X; destruct (UN e' X) as (_ & _ & Q); discriminate|reflexivity]|].
  left. exists e. split; [|apply lowered]. exists b. split; [exact E|]. split; [apply no_has; exact NE|]. split; [apply no_has; exact SL|].
  pose proof (Config_Proofs.rsplit_spec "/" b) as R2. destruct (Config_Model.rsplit "/" b) as [[x y]|].
  - destruct R2 as [-> N3]. exists (x ++ "/")%string, y. split; [rewrite app_assoc_s; reflexivity|]. split; [right; exists x, "/"%char; auto|]. split; [apply no_has; exact N3|]. intros X. apply all_dots_iff in X. congruence.
  - exists ""%string, b. split; [reflexivity|]. split; [auto|]. split; [apply no_has; exact R2|]. intros X. apply all_dots_iff in X. congruence.
Qed.
Print Assumptions C92_extension.

(** ** Commands *)
Theorem C92_option_value x command v : Kernel_Model.after_arg x command = Ok v <-> Option_value x command v.
Proof.
  unfold Option_value. induction command as [|a l IH]; cbn [Kernel_Model.after_arg].
  - split; [discriminate|]. intros (pre & post & E & _). destruct pre; discriminate.
  - destruct (String.eqb_spec a x) as [->|N].
    + split.
      * destruct l as [|b l]; [discriminate|]. intros [= <-]. exists [], l. split; [reflexivity|intros []].
      * intros (pre & post & E & NI). destruct pre as [|y pre]; [injection E as ->; reflexivity|]. injection E as <- _. destruct NI. left. reflexivity.
    + rewrite IH. split.
      * intros (pre & post & -> & NI). exists (a :: pre), post. split; [reflexivity|]. intros [X|X]; [congruence|auto].
      * intros (pre & post & E & NI). destruct pre as [|y pre]; [injection E as -> _; congruence|]. injection E as <- ->. exists pre, post. split; [reflexivity|]. intros X. apply NI. right. exact X.
Qed.
Print Assumptions C92_option_value.
Theorem C92_words s ws : Kernel_Model.words s = ws <-> Kernel_Spec.words_of s ws.
Proof. apply Kernel_Proofs.words_iff. Qed.
Print Assumptions C92_words.

(** ** Examples *)
Example C92_example : abs_comps "/home/u" "../x/./y//z" = ["home"; "x"; "y"; "z"]%string /\ relpath "/" "/a/b/c" "/a/d/e" = Ok "../../b/c"%string /\
  Config_Model.get_extension "dir.d/Pattern.v1.LL" = "ll"%string /\ Config_Model.get_extension "dir/..ll" = ""%string /\
  Compare_Model.dec 120 = "120"%string /\ Result_Model.str_of_Z (-7) = "-7"%string /\ Syndiff_Model.strip "  a b
 " = "a b"%string.
Proof. vm_compute. repeat split. Qed.
