(** * Proofs about the syntactic differences *)
From Coq Require Import String Ascii ZArith Arith Bool Lia DecimalString DecimalZ DecimalNat List.
From Verif Require Import PyBase Result_Model Graph_Spec Cache_Proofs Syndiff_Model Syndiff_Spec.
Import ListNotations.
Open Scope list_scope.
Local Arguments Ascii.eqb : simpl never.

(** ** Characters and strings *)
Lemma all_chars_spec p s : all_chars p s = true <-> forall c, has_char c s = true -> p c = true.
Proof.
  induction s as [|d s IH]; cbn [all_chars has_char]; [split; [discriminate|reflexivity]|].
  rewrite andb_true_iff, IH. split.
  - intros [A B] c. destruct (Ascii.eqb_spec c d) as [->|_]; [auto|]. cbn. apply B.
  - intros H. split; [apply H; rewrite Ascii.eqb_refl; reflexivity|]. intros c E. apply H. rewrite E. apply orb_true_r.
Qed.
Lemma all_chars_app p a b : all_chars p (a ++ b)%string = all_chars p a && all_chars p b.
Proof. induction a as [|c a IH]; [reflexivity|]. cbn. rewrite IH. apply andb_assoc. Qed.
Lemma any_char_spec p s : any_char p s = true <-> exists c, has_char c s = true /\ p c = true.
Proof.
  unfold any_char. rewrite negb_true_iff. induction s as [|d s IH]; cbn [all_chars has_char].
  - split; [discriminate|]. intros (c & E & _). discriminate.
  - destruct (p d) eqn:P; cbn [negb andb].
    + split; [|reflexivity]. intros _. exists d. rewrite Ascii.eqb_refl. auto.
    + rewrite IH. split; intros (c & E & Q); exists c; (split; [|exact Q]).
      * rewrite E. apply orb_true_r.
      * cbn [orb] in E. destruct (Ascii.eqb_spec c d) as [K|K]; [congruence|exact E].
Qed.
Lemma any_char_app p a b : any_char p (a ++ b)%string = any_char p a || any_char p b.
Proof. unfold any_char. rewrite all_chars_app. destruct (all_chars _ a), (all_chars _ b); reflexivity. Qed.

Lemma remove_char_app c a b : remove_char c (a ++ b) = (remove_char c a ++ remove_char c b)%string.
Proof. induction a as [|d a IH]; [reflexivity|]. cbn. destruct (Ascii.eqb d c); [exact IH|]. cbn. rewrite IH. reflexivity. Qed.
Lemma remove_char_id c s : has_char c s = false -> remove_char c s = s.
Proof.
  induction s as [|d s IH]; cbn; [reflexivity|]. rewrite orb_false_iff. intros [E H]. rewrite Ascii.eqb_sym, E, (IH H). reflexivity.
Qed.
Lemma count_char_app c a b : count_char c (a ++ b) = (count_char c a + count_char c b)%nat.
Proof. induction a as [|d a IH]; [reflexivity|]. cbn. destruct (Ascii.eqb d c); cbn; congruence. Qed.
Lemma count_char_0 c s : has_char c s = false -> count_char c s = 0%nat.
Proof. induction s as [|d s IH]; cbn; [reflexivity|]. rewrite orb_false_iff. intros [E H]. rewrite Ascii.eqb_sym, E. auto. Qed.

(** ** Splitting and joining *)
Lemma split_join c ls : ls <> [] -> Forall (fun l => has_char c l = false) ls -> split_char c (join (String c "") ls) = ls.
Proof.
  induction ls as [|l ls IH]; intros N F; [congruence|]. inversion F as [|? ? F1 F2]; subst.
  destruct ls as [|l2 ls]; [cbn; apply split_char_no, F1|].
  change (join (String c "") (l :: l2 :: ls)) with (l ++ String c (join (String c "") (l2 :: ls)))%string.
  rewrite (split_char_app c l _ F1), IH by (congruence || assumption). reflexivity.
Qed.
Lemma split_text ls : Forall (fun l => has_char nl l = false) ls -> split_char nl (text_of_lines ls) = ls ++ [""%string].
Proof.
  intros F. unfold text_of_lines. apply split_join; [destruct ls; discriminate|].
  apply Forall_app. split; [exact F|]. repeat constructor.
Qed.
Lemma map_res_app {A B} (f : A -> res B) l1 l2 r1 r2 :
  map_res f l1 = Ok r1 -> map_res f l2 = Ok r2 -> map_res f (l1 ++ l2) = Ok (r1 ++ r2).
Proof.
  revert r1. induction l1 as [|x l1 IH]; intros r1 H1 H2; cbn [map_res app] in *.
  - apply Ok_inj in H1. subst. exact H2.
  - destruct (f x); [|discriminate]. destruct (map_res f l1) as [ys|]; [|discriminate]. apply Ok_inj in H1. subst r1.
    rewrite (IH ys eq_refl H2). reflexivity.
Qed.
Lemma map_res_id {A} (f : A -> res A) l : (forall x, In x l -> f x = Ok x) -> map_res f l = Ok l.
Proof.
  induction l as [|x l IH]; intros H; [reflexivity|]. cbn. rewrite (H x (or_introl eq_refl)), IH; [reflexivity|].
  intros y I. apply H. right. exact I.
Qed.

(** ** Lines *)
Definition full_line (l : string) : Prop := exists w, has_char nl w = false /\ l = (w ++ String nl "")%string.
Fixpoint lines_wf (ls : list string) : Prop :=
  match ls with
  | [] => True
  | l :: ls' => match ls' with
                | [] => full_line l \/ (has_char nl l = false /\ l <> ""%string)
                | _ => full_line l /\ lines_wf ls'
                end
  end.
Lemma lines_wf_cons l ls : full_line l -> lines_wf ls -> lines_wf (l :: ls).
Proof. intros F W. destruct ls; cbn; auto. Qed.
Lemma lines_wf_inv l ls : lines_wf (l :: ls) -> lines_wf ls /\ (ls <> [] -> full_line l).
Proof. destruct ls; cbn; [intuition|]. intros [A B]. auto. Qed.
Lemma has_nl_cons c l : c <> nl -> has_char nl (String c l) = has_char nl l.
Proof. intros N. cbn [has_char]. destruct (Ascii.eqb_spec nl c); [congruence|reflexivity]. Qed.
Lemma readlines_wf s : lines_wf (readlines s).
Proof.
  induction s as [|c s IH]; cbn [readlines]; [exact Logic.I|].
  destruct (Ascii.eqb_spec c nl) as [->|N].
  - apply lines_wf_cons; [|exact IH]. exists ""%string. auto.
  - destruct (readlines s) as [|l ls].
    + right. rewrite (has_nl_cons c "" N). split; [reflexivity|discriminate].
    + assert (FL : full_line l -> full_line (String c l)).
      { intros (w & W & ->). exists (String c w). split; [|reflexivity]. rewrite (has_nl_cons c w N). exact W. }
      destruct ls as [|l2 ls].
      * destruct IH as [F|[F1 F2]]; [left; auto|right]. split; [|discriminate]. rewrite (has_nl_cons c l N). exact F1.
      * destruct IH as [F W]. split; auto.
Qed.
Lemma readlines_full w s : has_char nl w = false -> readlines (w ++ String nl s) = (w ++ String nl "")%string :: readlines s.
Proof.
  induction w as [|c w IH]; intros H; cbn [append readlines].
  - rewrite Ascii.eqb_refl. reflexivity.
  - cbn in H. apply orb_false_iff in H. destruct H as [E H]. rewrite Ascii.eqb_sym, E, (IH H). reflexivity.
Qed.
Lemma readlines_partial w : has_char nl w = false -> w <> ""%string -> readlines w = [w].
Proof.
  induction w as [|c w IH]; intros H N; [congruence|]. cbn [readlines]. cbn in H. apply orb_false_iff in H. destruct H as [E H].
  rewrite Ascii.eqb_sym, E. destruct w as [|d w]; [reflexivity|]. rewrite (IH H); [reflexivity|discriminate].
Qed.
Lemma concat_nil_cons (l : string) ls : String.concat "" (l :: ls) = (l ++ String.concat "" ls)%string.
Proof. destruct ls; cbn; [symmetry; apply app_nil_r_s|reflexivity]. Qed.
Lemma readlines_concat ls : lines_wf ls -> readlines (String.concat "" ls) = ls.
Proof.
  induction ls as [|l ls IH]; intros W; [reflexivity|]. rewrite concat_nil_cons.
  destruct (lines_wf_inv _ _ W) as [W2 FL]. destruct ls as [|l2 ls].
  - cbn [String.concat]. rewrite app_nil_r_s. destruct W as [(w & A & ->)|[A B]]; [|apply readlines_partial; assumption].
    rewrite (readlines_full w "" A). reflexivity.
  - destruct FL as (w & A & ->); [discriminate|]. rewrite app_assoc_s. cbn [append]. rewrite (readlines_full w _ A), (IH W2). reflexivity.
Qed.
Lemma concat_readlines s : String.concat "" (readlines s) = s.
Proof.
  induction s as [|c s IH]; [reflexivity|]. cbn [readlines]. destruct (Ascii.eqb_spec c nl) as [->|N].
  - rewrite concat_nil_cons, IH. reflexivity.
  - destruct (readlines s) as [|l ls]; [cbn in *; congruence|]. rewrite concat_nil_cons in *. cbn. congruence.
Qed.
Lemma skipn_wf n ls : lines_wf ls -> lines_wf (skipn n ls).
Proof. revert ls. induction n as [|n IH]; intros [|l ls] W; try exact W. cbn [skipn]. apply IH, (lines_wf_inv l), W. Qed.
Lemma firstn_wf n ls : lines_wf ls -> lines_wf (firstn n ls).
Proof.
  revert ls. induction n as [|n IH]; intros [|l ls] W; try exact Logic.I. cbn [firstn].
  destruct (lines_wf_inv _ _ W) as [W2 FL]. destruct ls as [|l2 ls]; [destruct n; exact W|].
  apply lines_wf_cons; [apply FL; discriminate|]. apply IH, W2.
Qed.
Lemma has_char_concat c ls : has_char c (String.concat "" ls) = existsb (has_char c) ls.
Proof. induction ls as [|l ls IH]; [reflexivity|]. rewrite concat_nil_cons, has_char_app, IH. reflexivity. Qed.
Lemma readlines_has_char c s l : In l (readlines s) -> has_char c l = true -> has_char c s = true.
Proof.
  intros I H. rewrite <- (concat_readlines s), has_char_concat. apply existsb_exists. eauto.
Qed.
Lemma chomp_no_nl s l : In l (readlines s) -> has_char nl (chomp l) = false.
Proof.
  intros I. pose proof (readlines_wf s) as W. revert I W. generalize (readlines s) as ls.
  induction ls as [|l2 ls IH]; [intros []|]. intros [->|I] W.
  - assert (P : full_line l \/ has_char nl l = false) by (destruct ls; cbn in W; intuition).
    destruct P as [(w & A & ->)|A].
    + unfold chomp. assert (E : endswith (w ++ String nl "") (String nl "") = true) by (apply endswith_spec; eauto).
      rewrite E. change 1%nat with (String.length (String nl "")). rewrite chop_app. exact A.
    + unfold chomp. destruct (endswith l (String nl "")) eqn:E; [|exact A].
      apply endswith_spec in E. destruct E as [a ->]. rewrite has_char_app in A. cbn in A. apply orb_false_iff in A. destruct A; discriminate.
  - apply IH; [exact I|]. apply (lines_wf_inv l2), W.
Qed.

(** Text mode *)
Lemma universal_no_cr s : has_char cr (universal s) = false.
Proof.
  assert (H : forall n s, (String.length s <= n)%nat -> has_char cr (universal s) = false).
  { clear s. induction n as [|n IH]; intros s L; [destruct s; [reflexivity|cbn in L; lia]|].
    destruct s as [|c s]; [reflexivity|]. cbn [universal String.length] in *.
    destruct (Ascii.eqb_spec c cr) as [->|N].
    - destruct s as [|d s]; [reflexivity|]. cbn [String.length] in L. destruct (Ascii.eqb d nl); cbn [has_char];
        (change (Ascii.eqb cr nl) with false); cbn [orb]; apply IH; cbn [String.length]; lia.
    - cbn [has_char]. destruct (Ascii.eqb_spec cr c); [congruence|]. apply IH. lia. }
  apply (H (String.length s)). lia.
Qed.
Lemma universal_id s : has_char cr s = false -> universal s = s.
Proof.
  induction s as [|c s IH]; [reflexivity|]. cbn [has_char universal]. rewrite orb_false_iff. intros [E H].
  rewrite Ascii.eqb_sym, E, (IH H). reflexivity.
Qed.

(** ** White space *)
Lemma rstrip_spec s : exists w, all_chars is_space w = true /\ s = (rstrip s ++ w)%string.
Proof.
  induction s as [|c s (w & A & B)]; [exists ""%string; auto|]. cbn [rstrip]. destruct (rstrip s) as [|d r].
  - destruct (is_space c) eqn:E.
    + exists (String c w). cbn [all_chars append] in *. rewrite E, A. split; [reflexivity|congruence].
    + exists w. cbn [append] in *. split; [exact A|congruence].
  - exists w. cbn [append] in *. split; [exact A|congruence].
Qed.
Lemma rstrip_space w : all_chars is_space w = true -> rstrip w = ""%string.
Proof. induction w as [|c w IH]; [reflexivity|]. cbn. rewrite andb_true_iff. intros [A B]. rewrite (IH B), A. reflexivity. Qed.
Lemma rstrip_app t w : all_chars is_space w = true -> rstrip (t ++ w) = rstrip t.
Proof. intros W. induction t as [|c t IH]; [apply rstrip_space, W|]. cbn. rewrite IH. reflexivity. Qed.

Lemma closes_mem kind terms l : terminators kind = Some terms -> (mem (rstrip l) terms = true <-> closes kind l).
Proof.
  intros T. rewrite mem_In. unfold terminators in T. unfold closes.
  destruct (rstrip_spec l) as (w & A & B).
  destruct (String.eqb_spec kind "function") as [->|N1].
  - injection T as <-. cbn [In]. split.
    + intros [E|[E|[]]]; exists w; (split; [exact A|]); left; (split; [reflexivity|]); [left|right]; congruence.
    + intros (v & V & [[_ [-> | ->]]|[D _]]); [| |discriminate]; rewrite rstrip_app by exact V; cbn; auto.
  - destruct (String.eqb_spec kind "type") as [->|N2]; [|discriminate]. injection T as <-. cbn [In]. split.
    + intros [E|[]]. exists w. split; [exact A|]. right. split; [reflexivity|]. congruence.
    + intros (v & V & [[D _]|[_ ->]]); [discriminate|]. rewrite rstrip_app by exact V. cbn. auto.
Qed.

(** ** End of a definition *)
Lemma py_nth_line lines n l : line_at lines n l -> py_nth lines (n - 1) = Ok l.
Proof.
  intros [A B]. unfold py_nth. destruct (Z.ltb_spec (n - 1) 0); [lia|]. destruct (Z.ltb_spec (n - 1) 0); [lia|]. rewrite B. reflexivity.
Qed.
Lemma line_at_exists lines n : (1 <= n <= zlen lines)%Z -> exists l, line_at lines n l.
Proof.
  intros [A B]. unfold line_at, zlen in *. destruct (nth_error lines (Z.to_nat (n - 1))) eqn:E; [eauto|].
  apply nth_error_None in E. lia.
Qed.
Lemma line_at_bound lines n l : line_at lines n l -> (1 <= n <= zlen lines)%Z.
Proof.
  intros [A B]. unfold zlen. assert (H : nth_error lines (Z.to_nat (n - 1)) <> None) by congruence.
  apply nth_error_Some in H. lia.
Qed.
Lemma line_at_fun lines n l1 l2 : line_at lines n l1 -> line_at lines n l2 -> l1 = l2.
Proof. intros [_ A] [_ B]. congruence. Qed.

Lemma end_loop_spec kind terms lines : terminators kind = Some terms ->
  forall fuel n line, line_at lines n line -> (Z.to_nat (zlen lines - n) < fuel)%nat ->
  (exists m l, end_loop fuel terms lines n line = Some (Ok m) /\ (n <= m)%Z /\ line_at lines m l /\ closes kind l /\
     forall k x, (n <= k < m)%Z -> line_at lines k x -> ~ closes kind x) \/
  (end_loop fuel terms lines n line = Some (Err EndLineNotFound) /\
     forall k x, (n <= k)%Z -> line_at lines k x -> ~ closes kind x).
Proof.
  intros T fuel. induction fuel as [|fuel IH]; intros n line A F; [lia|]. cbn [end_loop].
  destruct (mem (rstrip line) terms) eqn:M.
  - left. exists n, line. split; [reflexivity|]. split; [lia|]. split; [exact A|]. split; [apply (closes_mem kind terms), M; exact T|].
    intros. lia.
  - assert (NC : ~ closes kind line).
    { intros C. apply (closes_mem kind terms line T) in C. congruence. }
    destruct (Z.ltb_spec (zlen lines) (n + 1)) as [L|L].
    + right. split; [reflexivity|]. intros k x K X. pose proof (line_at_bound _ _ _ X). pose proof (line_at_bound _ _ _ A).
      assert (k = n) by lia. subst. rewrite (line_at_fun _ _ _ _ X A). exact NC.
    + pose proof (line_at_bound _ _ _ A) as BA. destruct (line_at_exists lines (n + 1)) as [l2 A2]; [lia|].
      rewrite (py_nth_line _ _ _ A2).
      assert (ST : forall k x, k = n -> line_at lines k x -> ~ closes kind x).
      { intros k x -> X. rewrite (line_at_fun _ _ _ _ X A). exact NC. }
      destruct (IH (n + 1)%Z l2 A2) as [(m & l & E & Q1 & Q2 & Q3 & Q4)|[E Q]]; [lia| |].
      * left. exists m, l. split; [exact E|]. split; [lia|]. split; [exact Q2|]. split; [exact Q3|].
        intros k x K X. destruct (Z.eq_dec k n) as [D|D]; [eapply ST; eassumption|]. apply (Q4 k x); [lia|exact X].
      * right. split; [exact E|]. intros k x K X. destruct (Z.eq_dec k n) as [D|D]; [eapply ST; eassumption|].
        apply (Q k x); [lia|exact X].
Qed.

Lemma end_loop_some terms lines : forall fuel n line, (Z.to_nat (zlen lines - n) < fuel)%nat ->
  exists r, forall m, (fuel <= m)%nat -> end_loop m terms lines n line = Some r.
Proof.
  induction fuel as [|fuel IH]; intros n line F; [lia|].
  destruct (mem (rstrip line) terms) eqn:M.
  - exists (Ok n). intros [|m] L; cbn [end_loop]; rewrite M; reflexivity.
  - destruct (Z.ltb_spec (zlen lines) (n + 1)) as [L|L].
    + exists (Err EndLineNotFound). intros [|m] K; [lia|]. cbn [end_loop]. rewrite M.
      destruct (Z.ltb_spec (zlen lines) (n + 1)); [reflexivity|lia].
    + destruct (py_nth lines (n + 1 - 1)) as [l2|e] eqn:P.
      * destruct (IH (n + 1)%Z l2) as [r R]; [lia|]. exists r. intros [|m] K; [lia|]. cbn [end_loop]. rewrite M, P.
        destruct (Z.ltb_spec (zlen lines) (n + 1)); [lia|]. apply R. lia.
      * exists (Err e). intros [|m] K; [lia|]. cbn [end_loop]. rewrite M, P.
        destruct (Z.ltb_spec (zlen lines) (n + 1)); [lia|]. reflexivity.
Qed.

(** ** Extraction *)
Lemma slice_line {A} (l : list A) a b i x : (0 <= a)%Z -> (0 <= b)%Z ->
  (nth_error (py_slice l a b) i = Some x <-> (a + Z.of_nat i < b)%Z /\ nth_error l (Z.to_nat a + i) = Some x).
Proof.
  intros HA HB. unfold py_slice, clamp. destruct (Z.ltb_spec a 0); [lia|]. destruct (Z.ltb_spec b 0); [lia|].
  set (n := zlen l). assert (N : (0 <= n)%Z) by (unfold n, zlen; lia).
  set (k := Z.to_nat (Z.max 0 (Z.min n a))). set (m := (Z.to_nat (Z.max 0 (Z.min n b)) - k)%nat).
  assert (NE : forall j (y : A), nth_error l j = Some y -> (Z.of_nat j < n)%Z).
  { intros j y E. assert (Q : nth_error l j <> None) by congruence. apply nth_error_Some in Q. unfold n, zlen. lia. }
  assert (FS : forall m2 (l2 : list A) j, nth_error (firstn m2 l2) j = if (j <? m2)%nat then nth_error l2 j else None).
  { clear. induction m2 as [|m2 IH]; intros l2 j; [destruct j; reflexivity|]. destruct l2 as [|y l2]; [cbn [firstn]; destruct (j <? S m2)%nat; destruct j; reflexivity|].
    destruct j as [|j]; [reflexivity|]. cbn [firstn nth_error]. rewrite IH. reflexivity. }
  assert (SK : forall k2 (l2 : list A) j, nth_error (skipn k2 l2) j = nth_error l2 (k2 + j)).
  { clear. induction k2 as [|k2 IH]; intros l2 j; [reflexivity|]. destruct l2 as [|y l2]; [destruct j; reflexivity|]. apply IH. }
  rewrite FS, SK. destruct (Nat.ltb_spec i m) as [L|L].
  - assert (K : k = Z.to_nat a) by (unfold m, k in *; lia). rewrite K. split.
    + intros E. split; [|exact E]. unfold m, k in *. lia.
    + intros [_ E]. exact E.
  - split; [discriminate|]. intros [Q E]. apply NE in E. unfold m, k in *. lia.
Qed.

Lemma extract_spec f file lines s e t : file_lines f file = Ok lines -> (1 <= s)%Z -> (0 <= e)%Z ->
  extract_code f file s e = Ok t ->
  readlines t = py_slice lines (s - 1) e /\ universal t = t /\
  forall i l, line_at (readlines t) i l <-> (1 <= i)%Z /\ (s + i - 1 <= e)%Z /\ line_at lines (s + i - 1) l.
Proof.
  intros FL S1 E0 X. unfold extract_code in X. rewrite FL in X. apply Ok_inj in X.
  unfold file_lines in FL. destruct (f file) as [c|]; [|discriminate]. apply Ok_inj in FL.
  assert (R : readlines t = py_slice lines (s - 1) e).
  { rewrite <- X. apply readlines_concat. unfold py_slice. apply firstn_wf, skipn_wf. rewrite <- FL. apply readlines_wf. }
  split; [exact R|]. split.
  - apply universal_id. rewrite <- X, has_char_concat. destruct (existsb _ _) eqn:Q; [|reflexivity].
    apply existsb_exists in Q. destruct Q as (l & I & H). exfalso.
    assert (I2 : In l lines).
    { unfold py_slice in I. rewrite <- (firstn_skipn (clamp (zlen lines) (s - 1)) lines). apply in_or_app. right.
      rewrite <- (firstn_skipn (clamp (zlen lines) e - clamp (zlen lines) (s - 1)) (skipn _ lines)). apply in_or_app. left. exact I. }
    rewrite <- FL in I2. pose proof (readlines_has_char cr _ _ I2 H) as Q. rewrite universal_no_cr in Q. discriminate.
  - intros i l. rewrite R. unfold line_at. split.
    + intros [A B]. rewrite slice_line in B by lia. destruct B as [B1 B2]. split; [exact A|]. split; [lia|]. split; [lia|].
      replace (Z.to_nat (s + i - 1 - 1)) with (Z.to_nat (s - 1) + Z.to_nat (i - 1))%nat by lia. exact B2.
    + intros (A & B & C & D). split; [exact A|]. rewrite slice_line by lia. split; [lia|].
      replace (Z.to_nat (s - 1) + Z.to_nat (i - 1))%nat with (Z.to_nat (s + i - 1 - 1)) by lia. exact D.
Qed.

(** ** Numbers *)
Lemma string_of_uint_digits d : all_chars is_digit (NilEmpty.string_of_uint d) = true.
Proof. induction d; cbn; auto. Qed.
Lemma str_digits z : (0 <= z)%Z -> all_chars is_digit (str_of_Z z) = true /\ str_of_Z z <> ""%string /\ py_int (str_of_Z z) = Ok z.
Proof.
  intros H. unfold str_of_Z, py_int.
  assert (Q : exists d, Z.to_int z = Decimal.Pos d /\ d <> Decimal.Nil /\ Z.of_uint d = z).
  { destruct z as [|p|p]; [exists (Decimal.D0 Decimal.Nil); cbn; repeat split; discriminate| |lia].
    exists (Pos.to_uint p). split; [reflexivity|]. split.
    - intros E. pose proof (DecimalZ.of_to (Zpos p)) as O. cbn in O. rewrite E in O. discriminate.
    - pose proof (DecimalZ.of_to (Zpos p)) as O. exact O. }
  destruct Q as (d & -> & N & O). cbn [NilZero.string_of_int]. split; [|split].
  - unfold NilZero.string_of_uint. destruct d; try reflexivity; apply string_of_uint_digits.
  - unfold NilZero.string_of_uint. destruct d; discriminate.
  - rewrite NilZero.usu by exact N. rewrite O. reflexivity.
Qed.
Lemma digits_no c s : is_digit c = false -> all_chars is_digit s = true -> has_char c s = false.
Proof.
  intros D A. destruct (has_char c s) eqn:E; [|reflexivity]. rewrite all_chars_spec in A. rewrite (A c E) in D. discriminate.
Qed.
Definition range_ok (r : range) : Prop := (0 <= from r)%Z /\ forall b, upto r = Some b -> (0 <= b)%Z.
Lemma range_no c r : range_ok r -> is_digit c = false -> Ascii.eqb c "," = false -> has_char c (show_range r) = false.
Proof.
  intros [A B] D N. unfold show_range. destruct (upto r) as [b|].
  - rewrite has_char_app. cbn [append has_char]. rewrite N. cbn [orb]. rewrite !(digits_no c); auto; apply str_digits; auto.
  - apply digits_no; [exact D|]. apply str_digits, A.
Qed.
Lemma range_fixed r k : range_ok r ->
  map_res (fix_line k) (split_char "," (show_range r)) =
  Ok (match upto r with Some b => [str_of_Z (from r + (k - 1)); str_of_Z (b + (k - 1))] | None => [str_of_Z (from r + (k - 1))] end).
Proof.
  intros [A B]. unfold show_range. destruct (upto r) as [b|].
  - cbn [append]. rewrite split_char_app by (apply digits_no; [reflexivity|apply str_digits, A]).
    rewrite split_char_no by (apply digits_no; [reflexivity|apply str_digits, B; reflexivity]).
    cbn [map_res]. unfold fix_line. destruct (str_digits _ A) as (_ & _ & ->). destruct (str_digits b (B b eq_refl)) as (_ & _ & ->).
    cbn [bind]. rewrite !Z.add_sub_assoc. reflexivity.
  - rewrite split_char_no by (apply digits_no; [reflexivity|apply str_digits, A]).
    cbn [map_res]. unfold fix_line. destruct (str_digits _ A) as (_ & _ & ->). cbn [bind]. rewrite !Z.add_sub_assoc. reflexivity.
Qed.
Lemma join_shifted r k :
  join "," (match upto r with Some b => [str_of_Z (from r + k); str_of_Z (b + k)] | None => [str_of_Z (from r + k)] end) =
  show_range (shift_range k r).
Proof. unfold show_range, shift_range. destruct r as [a [b|]]; reflexivity. Qed.
Lemma range_number_chars r : range_ok r -> all_chars number_char (show_range r) = true /\ any_char is_digit (show_range r) = true.
Proof.
  intros [A B].
  assert (DN : forall s, all_chars is_digit s = true -> all_chars number_char s = true).
  { intros s. rewrite !all_chars_spec. intros H c E. unfold number_char. rewrite (H c E). apply orb_true_r. }
  assert (ND : forall s, all_chars is_digit s = true -> s <> ""%string -> any_char is_digit s = true).
  { intros [|c s]; [congruence|]. cbn. rewrite andb_true_iff. intros [Q _] _. unfold any_char. cbn. rewrite Q. reflexivity. }
  destruct (str_digits _ A) as (D1 & N1 & _). unfold show_range. destruct (upto r) as [b|].
  - destruct (str_digits b (B b eq_refl)) as (D2 & N2 & _). rewrite all_chars_app, any_char_app, (DN _ D1), (ND _ D1 N1).
    split; [|reflexivity]. cbn [append all_chars]. rewrite (DN _ D2). reflexivity.
  - auto.
Qed.

(** ** Lines of a context difference *)
Lemma isspace_digit s : any_char is_digit s = true -> isspace s = false /\ String.eqb s "" = false.
Proof.
  intros H. split.
  - unfold isspace. apply andb_false_iff. right. destruct (all_chars is_space s) eqn:A; [|reflexivity].
    apply any_char_spec in H. destruct H as (c & E & D). rewrite all_chars_spec in A. specialize (A c E).
    unfold is_space, is_digit in *. rewrite andb_true_iff, !Nat.leb_le in D.
    rewrite orb_true_iff, !andb_true_iff, !Nat.leb_le in A. lia.
  - destruct s; [discriminate|reflexivity].
Qed.
Lemma number_line_iff line : number_line line = all_chars number_char line && any_char is_digit line.
Proof.
  unfold number_line. destruct (any_char is_digit line) eqn:D; [|rewrite !andb_false_r; reflexivity].
  destruct (isspace_digit _ D) as [-> ->]. rewrite !andb_true_r. reflexivity.
Qed.
Lemma number_char_iff c : number_char c = true <-> is_digit c = true \/ In c [" "; "*"; "-"; ","]%char.
Proof.
  unfold number_char. rewrite !orb_true_iff, !Ascii.eqb_eq. cbn [In]. intuition congruence.
Qed.
Lemma numeric_iff t : numeric t <-> number_line t = true.
Proof.
  rewrite number_line_iff, andb_true_iff, all_chars_spec, any_char_spec. unfold numeric. split.
  - intros [A B]. split; [|exact A]. intros c E. apply number_char_iff, B, E.
  - intros [A B]. split; [exact B|]. intros c E. apply number_char_iff, A, E.
Qed.
Lemma marked_number_line m t : number_line (cmark m ++ t) = match m with Same | Removed => number_line t | _ => false end.
Proof. rewrite !number_line_iff, all_chars_app, any_char_app. destruct m; reflexivity. Qed.

Lemma content_line s1 s2 head l :
  (forall m t, l = Line m t -> (m = Same \/ m = Removed) -> ~ numeric t) -> fix_diff_line s1 s2 head (cline l) = Ok (cline l).
Proof.
  intros H. unfold fix_diff_line.
  assert (NS : negb (String.eqb (cline l) "") && all_chars (Ascii.eqb "*") (cline l) = false).
  { destruct l as [[]|]; reflexivity. }
  rewrite NS.
  assert (NN : number_line (cline l) = false).
  { destruct l as [m t|]; [|reflexivity]. cbn [cline]. rewrite marked_number_line.
    destruct m; try reflexivity; (destruct (number_line t) eqn:E; [|reflexivity]; apply numeric_iff in E; exfalso; eapply H; eauto). }
  rewrite NN. reflexivity.
Qed.
Lemma old_range_line s1 s2 head r : range_ok r ->
  fix_diff_line s1 s2 head ("*** " ++ show_range r ++ " ****") = Ok ("*** " ++ show_range (shift_range (s1 - 1) r) ++ " ***")%string.
Proof.
  intros R. unfold fix_diff_line. destruct (range_number_chars r R) as [A B].
  assert (NS : all_chars (Ascii.eqb "*") ("*** " ++ show_range r ++ " ****") = false) by reflexivity.
  rewrite NS, andb_false_r.
  assert (NL : number_line ("*** " ++ show_range r ++ " ****") = true).
  { rewrite number_line_iff, !all_chars_app, !any_char_app, A, B. reflexivity. }
  rewrite NL. cbn [negb].
  rewrite !count_char_app. change (count_char "*" "*** ") with 3%nat. cbn [Nat.add Nat.ltb Nat.leb].
  rewrite !remove_char_app. rewrite (remove_char_id "*" (show_range r)) by (apply range_no; auto).
  rewrite (remove_char_id "-" (show_range r)) by (apply range_no; auto).
  rewrite (remove_char_id " " (show_range r)) by (apply range_no; auto).
  change (remove_char " " (remove_char "-" (remove_char "*" "*** "))) with ""%string.
  change (remove_char " " (remove_char "-" (remove_char "*" " ****"))) with ""%string.
  cbn [append]. rewrite app_nil_r_s, (range_fixed r s1 R). cbn [bind]. rewrite join_shifted. reflexivity.
Qed.
Lemma new_range_line s1 s2 head r : range_ok r ->
  fix_diff_line s1 s2 head ("--- " ++ show_range r ++ " ----") = Ok ("--- " ++ show_range (shift_range (s2 - 1) r) ++ " ---")%string.
Proof.
  intros R. unfold fix_diff_line. destruct (range_number_chars r R) as [A B].
  assert (NS : all_chars (Ascii.eqb "*") ("--- " ++ show_range r ++ " ----") = false) by reflexivity.
  rewrite NS, andb_false_r.
  assert (NL : number_line ("--- " ++ show_range r ++ " ----") = true).
  { rewrite number_line_iff, !all_chars_app, !any_char_app, A, B. reflexivity. }
  rewrite NL. cbn [negb].
  assert (C : count_char "*" ("--- " ++ show_range r ++ " ----") = 0%nat).
  { rewrite !count_char_app, (count_char_0 "*" (show_range r)) by (apply range_no; auto). reflexivity. }
  rewrite C. cbn [Nat.ltb Nat.leb].
  rewrite !remove_char_app. rewrite (remove_char_id "*" (show_range r)) by (apply range_no; auto).
  rewrite (remove_char_id "-" (show_range r)) by (apply range_no; auto).
  rewrite (remove_char_id " " (show_range r)) by (apply range_no; auto).
  change (remove_char " " (remove_char "-" (remove_char "*" "--- "))) with ""%string.
  change (remove_char " " (remove_char "-" (remove_char "*" " ----"))) with ""%string.
  cbn [append]. rewrite app_nil_r_s, (range_fixed r s2 R). cbn [bind]. rewrite join_shifted. reflexivity.
Qed.
Lemma star_line s1 s2 head : ~ numeric (strip head) ->
  fix_diff_line s1 s2 head "***************" = Ok ("*************** " ++ strip head)%string.
Proof.
  intros N. unfold fix_diff_line.
  change (negb (String.eqb "***************" "") && all_chars (Ascii.eqb "*") "***************") with true. cbv iota.
  assert (NN : number_line ("***************" ++ " " ++ strip head) = false).
  { destruct (number_line _) eqn:E; [|reflexivity]. exfalso. apply N, numeric_iff.
    rewrite number_line_iff, !all_chars_app, !any_char_app in E. rewrite number_line_iff. exact E. }
  rewrite NN. reflexivity.
Qed.

Definition lines_clean (ls : list dline) : Prop := forall m t, In (Line m t) ls -> (m = Same \/ m = Removed) -> ~ numeric t.
Lemma chunk_fixed s1 s2 head h :
  range_ok (k_old h) -> range_ok (k_new h) -> lines_clean (k_old_lines h) -> lines_clean (k_new_lines h) ->
  ~ numeric (strip head) ->
  map_res (fix_diff_line s1 s2 head) (chunk_lines h) = Ok (shown_chunk (strip head) (shift_chunk (s1 - 1) (s2 - 1) h)).
Proof.
  intros R1 R2 C1 C2 N.
  assert (CL : forall ls, lines_clean ls -> map_res (fix_diff_line s1 s2 head) (map cline ls) = Ok (map cline ls)).
  { intros ls C. apply map_res_id. intros x I. apply in_map_iff in I. destruct I as (l & <- & I). apply content_line.
    intros m t -> M. exact (C m t I M). }
  unfold chunk_lines, shown_chunk. cbn [shift_chunk k_old k_new k_old_lines k_new_lines].
  apply map_res_app; [|apply map_res_app; [apply CL, C1|apply map_res_app; [|apply CL, C2]]].
  - cbn [map_res]. rewrite (star_line s1 s2 head N), (old_range_line s1 s2 head _ R1). reflexivity.
  - cbn [map_res]. rewrite (new_range_line s1 s2 head _ R2). reflexivity.
Qed.
Lemma flat_map_res {A B C} (f : B -> res C) (g : A -> list B) (h : A -> list C) l :
  (forall x, In x l -> map_res f (g x) = Ok (h x)) -> map_res f (flat_map g l) = Ok (flat_map h l).
Proof.
  induction l as [|x l IH]; intros H; [reflexivity|]. cbn [flat_map].
  apply map_res_app; [apply H; left; reflexivity|apply IH; intros y I; apply H; right; exact I].
Qed.
Lemma flat_map_map {A B C} (f : A -> B) (g : B -> list C) l : flat_map g (map f l) = flat_map (fun x => g (f x)) l.
Proof. induction l as [|x l IH]; [reflexivity|]. cbn. rewrite IH. reflexivity. Qed.

(** Lines quoted from a text have no newline. *)
Lemma line_at_In lines n l : line_at lines n l -> In l lines.
Proof. intros [_ E]. eapply nth_error_In, E. Qed.
Lemma quoted lines n ts t : lines_from lines n ts -> In t ts -> exists k l, line_at lines k l /\ chomp l = t.
Proof. intros H I. apply In_nth_error in I. destruct I as [i E]. destruct (H i t E) as (l & A & B). eauto. Qed.
Lemma source_In ls m t : In (Line m t) ls -> In t (source_lines ls).
Proof. intros I. unfold source_lines. apply in_flat_map. exists (Line m t). cbn. auto. Qed.
Lemma line_no_nl a n ls l : lines_from (readlines a) n (source_lines ls) -> In l ls ->
  has_char nl (cline l) = false /\ forall m t, l = Line m t -> has_char nl t = false.
Proof.
  intros H I. assert (Q : forall m t, l = Line m t -> has_char nl t = false).
  { intros m t ->. destruct (quoted _ _ _ _ H (source_In _ _ _ I)) as (k & x & A & <-). eapply chomp_no_nl, line_at_In, A. }
  split; [|exact Q]. destruct l as [m t|]; [|reflexivity]. cbn [cline]. rewrite has_char_app, (Q m t eq_refl). destruct m; reflexivity.
Qed.

Lemma chunk_no_nl a b h : chunk_of (readlines a) (readlines b) h -> Forall (fun l => has_char nl l = false) (chunk_lines h).
Proof.
  intros (A1 & A2 & B1 & B2 & L1 & L2 & _). unfold chunk_lines.
  assert (CL : forall x n ls, lines_from (readlines x) n (source_lines ls) -> Forall (fun l => has_char nl l = false) (map cline ls)).
  { intros x n ls H. apply Forall_forall. intros y I. apply in_map_iff in I. destruct I as (l & <- & I). exact (proj1 (line_no_nl _ _ _ _ H I)). }
  assert (RN : forall r, range_ok r -> has_char nl (show_range r) = false) by (intros r R; apply range_no; auto).
  apply Forall_app. split; [|apply Forall_app; split; [eapply CL, L1|apply Forall_app; split; [|eapply CL, L2]]].
  - repeat constructor. rewrite !has_char_app, RN by (split; assumption). reflexivity.
  - repeat constructor. rewrite !has_char_app, RN by (split; assumption). reflexivity.
Qed.

(** Moving quoted lines from a fragment to the file. *)
Lemma lines_moved (frag lines : list string) s n ts :
  (forall i l, line_at frag i l -> line_at lines (s + i - 1) l) -> lines_from frag n ts -> lines_from lines (n + (s - 1)) ts.
Proof.
  intros F H i t E. destruct (H i t E) as (l & A & B). exists l. split; [|exact B].
  replace (n + (s - 1) + Z.of_nat i)%Z with (s + (n + Z.of_nat i) - 1)%Z by lia. apply F, A.
Qed.
Lemma chunk_moved frag1 frag2 l1 l2 s1 s2 h : (1 <= s1)%Z -> (1 <= s2)%Z ->
  (forall i l, line_at frag1 i l -> line_at l1 (s1 + i - 1) l) ->
  (forall i l, line_at frag2 i l -> line_at l2 (s2 + i - 1) l) ->
  chunk_of frag1 frag2 h -> chunk_of l1 l2 (shift_chunk (s1 - 1) (s2 - 1) h).
Proof.
  intros P1 P2 F1 F2 (A1 & A2 & B1 & B2 & L1 & L2 & M1 & M2). unfold chunk_of, shift_chunk, shift_range. cbn [k_old k_new k_old_lines k_new_lines from upto].
  repeat split; try lia; try assumption.
  - intros b. destruct (upto (k_old h)) as [x|]; [|discriminate]. intros E. injection E as <-. specialize (B1 x eq_refl). lia.
  - intros b. destruct (upto (k_new h)) as [x|]; [|discriminate]. intros E. injection E as <-. specialize (B2 x eq_refl). lia.
  - eapply lines_moved; eassumption.
  - eapply lines_moved; eassumption.
Qed.

Lemma fragments_equal f file1 file2 L1 L2 s1 s2 e1 e2 t1 t2 :
  file_lines f file1 = Ok L1 -> file_lines f file2 = Ok L2 -> (1 <= s1)%Z -> (1 <= s2)%Z -> (0 <= e1)%Z -> (0 <= e2)%Z ->
  extract_code f file1 s1 e1 = Ok t1 -> extract_code f file2 s2 e2 = Ok t2 ->
  (t1 = t2 <-> same_part L1 s1 e1 L2 s2 e2).
Proof.
  intros F1 F2 S1 S2 P1 P2 X1 X2.
  destruct (extract_spec _ _ _ _ _ _ F1 S1 P1 X1) as (_ & _ & Q1). destruct (extract_spec _ _ _ _ _ _ F2 S2 P2 X2) as (_ & _ & Q2).
  unfold same_part. split.
  - intros E i l I. specialize (Q1 (i + 1)%Z l). specialize (Q2 (i + 1)%Z l). rewrite E, Q2 in Q1.
    replace (s1 + (i + 1) - 1)%Z with (s1 + i)%Z in Q1 by lia. replace (s2 + (i + 1) - 1)%Z with (s2 + i)%Z in Q1 by lia.
    split; intros [A B]; apply Q1; repeat split; try lia; try apply B.
  - intros H. rewrite <- (concat_readlines t1), <- (concat_readlines t2). f_equal.
    assert (N : forall n, nth_error (readlines t1) n = nth_error (readlines t2) n).
    { assert (G : forall n l, nth_error (readlines t1) n = Some l <-> nth_error (readlines t2) n = Some l).
      { intros n l. assert (LA : forall ls, nth_error ls n = Some l <-> line_at ls (Z.of_nat n + 1) l).
        { intros ls. unfold line_at. replace (Z.to_nat (Z.of_nat n + 1 - 1)) with n by lia. split; [intros E; split; [lia|exact E]|intros [_ E]; exact E]. }
        rewrite !LA, Q1, Q2. specialize (H (Z.of_nat n) l). replace (s1 + (Z.of_nat n + 1) - 1)%Z with (s1 + Z.of_nat n)%Z by lia.
        replace (s2 + (Z.of_nat n + 1) - 1)%Z with (s2 + Z.of_nat n)%Z by lia. split.
        - intros (_ & B & C). destruct (proj1 (H ltac:(lia)) (conj B C)). repeat split; try lia; apply H1.
        - intros (_ & B & C). destruct (proj2 (H ltac:(lia)) (conj B C)). repeat split; try lia; apply H1. }
      intros n. destruct (nth_error (readlines t1) n) as [l|] eqn:E.
      - apply G in E. congruence.
      - destruct (nth_error (readlines t2) n) as [l|] eqn:E2; [|reflexivity]. apply G in E2. congruence. }
    clear - N. revert N. generalize (readlines t1) (readlines t2). intros a. induction a as [|x a IH]; intros [|y b] N.
    + reflexivity.
    + specialize (N 0%nat). discriminate.
    + specialize (N 0%nat). discriminate.
    + pose proof (N 0%nat) as E. cbn in E. injection E as ->. f_equal. apply IH. intros n. exact (N (S n)).
Qed.

(** ** Unified differences *)
Lemma take_digits_app a b : all_chars is_digit a = true -> (forall c s, b = String c s -> is_digit c = false) -> take_digits (a ++ b) = (a, b).
Proof.
  induction a as [|c a IH]; intros A B; cbn [append].
  - destruct b as [|c b]; [reflexivity|]. cbn. rewrite (B c b eq_refl). reflexivity.
  - cbn in *. apply andb_true_iff in A. destruct A as [A1 A2]. rewrite A1, (IH A2 B). reflexivity.
Qed.
Lemma digits1_app z b : (0 <= z)%Z -> (forall c s, b = String c s -> is_digit c = false) -> digits1 (str_of_Z z ++ b) = Some (str_of_Z z, b).
Proof.
  intros Z0 B. destruct (str_digits z Z0) as (A & N & _). unfold digits1. rewrite (take_digits_app _ _ A B).
  destruct (String.eqb_spec (str_of_Z z) ""); [contradiction|reflexivity].
Qed.
Definition count_part (r : range) : string := match upto r with Some b => ("," ++ str_of_Z b)%string | None => ""%string end.
Lemma show_range_parts r : show_range r = (str_of_Z (from r) ++ count_part r)%string.
Proof. unfold show_range, count_part. destruct (upto r); [reflexivity|symmetry; apply app_nil_r_s]. Qed.
Lemma opt_count_part r rest : range_ok r -> (exists s, rest = String " " s) -> opt_count (count_part r ++ rest) = (count_part r, rest).
Proof.
  intros [_ B] [s ->]. unfold count_part. destruct (upto r) as [b|]; [|reflexivity].
  cbn [append opt_count]. rewrite digits1_app; [reflexivity|apply B; reflexivity|]. intros c x E. injection E as <- _. reflexivity.
Qed.
Lemma count_nondigit r s c x : (count_part r ++ String " " s)%string = String c x -> is_digit c = false.
Proof. unfold count_part. destruct (upto r); cbn; intros E; injection E as <- _; reflexivity. Qed.

Lemma head_line_fixed s1 s2 r1 r2 : range_ok r1 -> range_ok r2 ->
  fix_unified_line s1 s2 ("@@ -" ++ show_range r1 ++ " +" ++ show_range r2 ++ " @@") =
  Ok ("@@ -" ++ show_range (shift_start (s1 - 1) r1) ++ " +" ++ show_range (shift_start (s2 - 1) r2) ++ " @@")%string.
Proof.
  intros R1 R2. unfold fix_unified_line, hunk_head.
  change (expect "@@ -" ("@@ -" ++ show_range r1 ++ " +" ++ show_range r2 ++ " @@")) with (Some (show_range r1 ++ " +" ++ show_range r2 ++ " @@")%string).
  cbv iota. rewrite (show_range_parts r1), app_assoc_s, digits1_app; [|exact (proj1 R1)|intros c x E; exact (count_nondigit _ _ _ _ E)].
  rewrite opt_count_part; [|exact R1|eexists; reflexivity].
  change (expect " +" (" +" ++ show_range r2 ++ " @@")) with (Some (show_range r2 ++ " @@")%string). cbv iota.
  rewrite (show_range_parts r2), app_assoc_s, digits1_app; [|exact (proj1 R2)|intros c x E; exact (count_nondigit _ _ _ _ E)].
  rewrite opt_count_part; [|exact R2|eexists; reflexivity]. change (String.eqb " @@" " @@") with true. cbv iota.
  destruct (str_digits _ (proj1 R1)) as (_ & _ & ->). destruct (str_digits _ (proj1 R2)) as (_ & _ & ->). cbn [bind].
  rewrite !show_range_parts. unfold shift_start, count_part. cbn [from upto]. rewrite !app_assoc_s, !Z.add_sub_assoc. reflexivity.
Qed.
Lemma no_head s1 s2 c s : Ascii.eqb "@" c = false -> fix_unified_line s1 s2 (String c s) = Ok (String c s).
Proof. intros N. unfold fix_unified_line, hunk_head, expect. cbn [startswith]. rewrite N. reflexivity. Qed.

Lemma hunk_fixed s1 s2 h : range_ok (u_old h) -> range_ok (u_new h) -> (forall t, ~ In (Line Changed t) (u_lines h)) ->
  map_res (fix_unified_line s1 s2) (hunk_lines h) = Ok (hunk_lines (shift_hunk (s1 - 1) (s2 - 1) h)).
Proof.
  intros R1 R2 C. unfold hunk_lines. cbn [map_res]. rewrite (head_line_fixed s1 s2 _ _ R1 R2).
  rewrite map_res_id; [reflexivity|]. intros x I. apply in_map_iff in I. destruct I as (l & <- & I).
  destruct l as [[] t|]; cbn [uline umark append]; try (apply no_head; reflexivity). destruct (C t I).
Qed.
Lemma filter_lines_no_nl a n ls ms l : lines_from (readlines a) n (source_lines (filter (keep ms) ls)) -> In l ls -> keep ms l = true ->
  has_char nl (uline l) = false.
Proof.
  intros H I K. destruct l as [m t|]; [|reflexivity].
  assert (Q : has_char nl t = false).
  { assert (I2 : In (Line m t) (filter (keep ms) ls)) by (apply filter_In; auto).
    destruct (quoted _ _ _ _ H (source_In _ _ _ I2)) as (k & x & A & <-). eapply chomp_no_nl, line_at_In, A. }
  cbn [uline]. rewrite has_char_app, Q. destruct m; reflexivity.
Qed.
Lemma hunk_no_nl a b h : hunk_of (readlines a) (readlines b) h -> Forall (fun l => has_char nl l = false) (hunk_lines h).
Proof.
  intros (A1 & A2 & B1 & B2 & L1 & L2 & C). unfold hunk_lines. constructor.
  - rewrite !has_char_app, !(range_no nl) by (auto; split; assumption). reflexivity.
  - apply Forall_forall. intros y I. apply in_map_iff in I. destruct I as (l & <- & I).
    destruct l as [[] t|]; [| | | |reflexivity].
    + eapply filter_lines_no_nl; [exact L1|exact I|reflexivity].
    + eapply filter_lines_no_nl; [exact L1|exact I|reflexivity].
    + eapply filter_lines_no_nl; [exact L2|exact I|reflexivity].
    + destruct (C t I).
Qed.
Lemma hunk_moved frag1 frag2 l1 l2 s1 s2 h : (1 <= s1)%Z -> (1 <= s2)%Z ->
  (forall i l, line_at frag1 i l -> line_at l1 (s1 + i - 1) l) ->
  (forall i l, line_at frag2 i l -> line_at l2 (s2 + i - 1) l) ->
  hunk_of frag1 frag2 h -> hunk_of l1 l2 (shift_hunk (s1 - 1) (s2 - 1) h).
Proof.
  intros P1 P2 F1 F2 (A1 & A2 & B1 & B2 & L1 & L2 & C). unfold hunk_of, shift_hunk, shift_start. cbn [u_old u_new u_lines from upto].
  repeat split; try lia; try assumption; eapply lines_moved; eassumption.
Qed.
