(** * Proofs about the sysctl tables *)
From Coq Require Import String Ascii ZArith Arith Bool Lia List.
From Verif Require Import PyBase Source_Model Source_Spec Sysctl_Model Sysctl_Spec.
From Verif Require Kernel_Proofs Snapshot_Proofs Output_Proofs Syndiff_Proofs Source_Proofs.
Import ListNotations.
Open Scope list_scope.

(** ** Patterns *)

Lemma inner_braces b : inner ("{" ++ b ++ "}") = b.
Proof.
  unfold inner. change ("{" ++ b ++ "}")%string with (("{" ++ b) ++ "}")%string.
  replace (String.length (("{" ++ b) ++ "}") - 2) with (String.length b) by (rewrite length_app_s; simpl; lia).
  change (("{" ++ b) ++ "}")%string with ("{" ++ (b ++ "}"))%string.
  change 1 with (String.length "{"). rewrite substring_app_r. apply substring_app_l.
Qed.
Lemma braces_iff p : braces p = true <-> exists b, p = ("{" ++ b ++ "}")%string.
Proof.
  unfold braces. rewrite andb_true_iff, startswith_spec, endswith_spec. split.
  - intros [[x ->] [y E]]. destruct y as [|c y]; [discriminate|]. cbn [append] in E. injection E as <- ->. exists y. reflexivity.
  - intros [b ->]. split; [exists (b ++ "}")%string; reflexivity|exists ("{" ++ b)%string; reflexivity].
Qed.
Lemma in_split_iff n b : In n (split_char "|" b) <-> exists l, Forall (fun w => has_char "|" w = false) l /\ In n l /\ b = join "|" l.
Proof.
  split.
  - intros I. exists (split_char "|" b). split; [apply Output_Proofs.split_no_char|]. split; [exact I|]. symmetry. apply (join_split_char "|").
  - intros (l & F & I & ->). change "|"%string with (String "|" ""). rewrite Syndiff_Proofs.split_join; [exact I| |exact F].
    intros ->. exact I.
Qed.
Lemma matches_braces b n : Matches ("{" ++ b ++ "}") n <-> In n (split_char "|" b).
Proof.
  rewrite in_split_iff. split.
  - intros M. inversion M as [n' E|l n' F I E|n' B E].
    + exists l. split; [exact F|]. split; [exact I|]. apply (f_equal (fun x => inner ("{" ++ x)%string)) in E.
      change (inner ("{" ++ join "|" l ++ "}") = inner ("{" ++ b ++ "}")) in E. rewrite !inner_braces in E. congruence.
    + exfalso. assert (T : braces ("{" ++ b ++ "}") = true) by (apply braces_iff; eauto). congruence.
  - intros (l & F & I & ->). constructor; assumption.
Qed.
Lemma matches_plain p n : braces p = false -> p <> "*"%string -> (Matches p n <-> n = p).
Proof.
  intros B S. split.
  - intros M. inversion M; subst; [congruence| |reflexivity].
    assert (T : braces ("{" ++ join "|" l ++ "}") = true) by (apply braces_iff; eauto). congruence.
  - intros ->. constructor. exact B.
Qed.
Lemma py_matches_iff n p : py_matches n p = true <-> Matches p n.
Proof.
  unfold py_matches. destruct (String.eqb_spec p "*") as [->|S]; [split; [constructor|reflexivity]|].
  destruct (braces p) eqn:B.
  - apply braces_iff in B. destruct B as [b ->]. rewrite inner_braces, mem_In, matches_braces. reflexivity.
  - rewrite matches_plain by assumption. apply String.eqb_eq.
Qed.

(** ** Pieces read by std::getline *)

Lemma getlines_app c s l x : split_char c s = l ++ [x] -> getlines c s = l ++ (if String.eqb x "" then [] else [x]).
Proof.
  intros E. unfold getlines. rewrite E, rev_app_distr. cbn [rev app]. destruct x as [|y x].
  - rewrite rev_involutive. cbn [String.eqb]. symmetry. apply app_nil_r.
  - cbn [String.eqb]. cbn [rev]. rewrite rev_involutive. reflexivity.
Qed.
Lemma split_last c s : exists l x, split_char c s = l ++ [x].
Proof.
  destruct (exists_last (split_char_nonempty c s)) as (l & x & E). eauto.
Qed.
Lemma in_getlines c s n : n <> ""%string -> (In n (getlines c s) <-> In n (split_char c s)).
Proof.
  intros N. destruct (split_last c s) as (l & x & E). rewrite (getlines_app _ _ _ _ E), E, !in_app_iff.
  destruct (String.eqb_spec x "") as [->|X]; [|reflexivity]. simpl. intuition congruence.
Qed.
Lemma getlines_removelast c s : In ""%string (getlines c s) <-> In ""%string (removelast (split_char c s)).
Proof.
  destruct (split_last c s) as (l & x & E). rewrite (getlines_app _ _ _ _ E), E, removelast_last, in_app_iff.
  destruct (String.eqb_spec x "") as [->|X]; simpl; intuition congruence.
Qed.
Lemma cpp_matches_iff n p : n <> ""%string -> (cpp_matches n p = true <-> Matches p n).
Proof.
  intros N. rewrite <- py_matches_iff. unfold cpp_matches, py_matches.
  destruct (String.eqb p "*"); [reflexivity|]. destruct (braces p); [|reflexivity].
  rewrite !mem_In. apply in_getlines. exact N.
Qed.
Lemma cpp_empty_iff p : cpp_matches "" p = true <->
  p = "*"%string \/ p = ""%string \/ exists b, p = ("{" ++ b ++ "}")%string /\ In ""%string (removelast (split_char "|" b)).
Proof.
  unfold cpp_matches. destruct (String.eqb_spec p "*") as [->|S]; [intuition|]. destruct (braces p) eqn:B.
  - pose proof B as B'. apply braces_iff in B'. destruct B' as [b ->]. rewrite inner_braces, mem_In, getlines_removelast.
    split; [intros I; right; right; eauto|]. intros [E|[E|(b' & E & I)]]; [congruence|discriminate|].
    apply (f_equal inner) in E. rewrite !inner_braces in E. subst b'. exact I.
  - rewrite String.eqb_eq. split; [intros <-; auto|]. intros [E|[E|(b & E & _)]]; [congruence|auto|].
    assert (T : braces p = true) by (apply braces_iff; eauto). congruence.
Qed.

(** ** The last part of a pattern and the names made from it *)

Lemma last_part a p : prefix_ok a -> part_ok p -> exists l, rev (getlines "." (a ++ p)) = p :: l.
Proof.
  intros PA [N H]. assert (E : exists l, split_char "." (a ++ p) = l ++ [p]).
  { destruct PA as [->|[b ->]]; [exists []; apply (split_char_no "." p H)|].
    exists (split_char "." b). rewrite app_assoc_s. cbn [append]. rewrite Snapshot_Proofs.split_char_sep, (split_char_no _ _ H). reflexivity. }
  destruct E as [l E]. rewrite (getlines_app _ _ _ _ E). destruct (String.eqb_spec p ""); [congruence|].
  exists (rev l). rewrite rev_app_distr. reflexivity.
Qed.
Lemma replaced_prefix a p n : prefix_ok a -> part_ok p -> ~ within p a -> Replaced p n (a ++ p) (a ++ n).
Proof.
  intros PA [N H]. induction a as [|c a IH]; intros W.
  - cbn [append]. rewrite <- (app_nil_r_s p) at 2. rewrite <- (app_nil_r_s n) at 2. apply Replaced_hit. constructor.
  - cbn [append]. constructor.
    + intros t E. destruct PA as [PA|[b PA]]; [discriminate|]. rewrite PA in W.
      change (String c (a ++ p)) with (String c a ++ p)%string in E. rewrite PA in E.
      assert (Q : forall x u v, has_char "." x = false -> (u ++ "." ++ v)%string = (x ++ t)%string -> exists w, u = (x ++ w)%string).
      { clear. induction x as [|y x IHx]; intros u v Hx E; [exists u; reflexivity|]. cbn [has_char] in Hx. apply orb_false_iff in Hx. destruct Hx as [Hy Hx].
        destruct u as [|z u]; cbn [append] in E.
        - assert (y = "."%char) by congruence. subst y. discriminate.
        - assert (z = y) by congruence. subst z. assert (E' : (u ++ "." ++ v)%string = (x ++ t)%string) by (cbn [append]; congruence).
          destruct (IHx u v Hx E') as [w ->]. exists w. reflexivity. }
      rewrite app_assoc_s in E. destruct (Q _ _ _ H E) as [w ->]. apply W. exists "", (w ++ ".")%string. cbn [append]. rewrite app_assoc_s. reflexivity.
    + assert (W' : ~ within p a) by (intros (x & y & ->); apply W; exists (String c x), y; reflexivity).
      destruct PA as [PA|[b PA]]; [discriminate|]. destruct b as [|d b].
      * cbn [append] in PA. assert (a = ""%string) by congruence. subst a. apply IH; [left; reflexivity|exact W'].
      * cbn [append] in PA. apply IH; [|exact W']. right. exists b. congruence.
Qed.
Lemma replaced_same p s : p <> ""%string -> Replaced p p s s.
Proof.
  intros N. assert (E : replace p p s = s); [|rewrite <- E at 2; apply replace_Replaced; exact N].
  pose proof (replace_Replaced p p s N) as R. remember (replace p p s) as r eqn:Er. clear Er.
  assert (forall u v, Replaced p p u v -> u = v) as Q; [|symmetry; auto].
  clear. intros u v R. induction R; congruence.
Qed.
Lemma key_ok a p n : pattern_ok a p -> Matches p n -> replace_all (a ++ p) p n = (a ++ n)%string.
Proof.
  intros (PA & PP & W) M. pose proof PP as [N H]. rewrite Source_Proofs.replace_all_replace by exact N.
  apply (Replaced_fun p n (a ++ p)); [exact N|apply replace_Replaced; exact N|].
  destruct (String.eqb_spec p "*") as [E|S]; [apply replaced_prefix; auto; apply W; left; exact E|].
  destruct (braces p) eqn:B; [apply replaced_prefix; auto; apply W; right; exact B|].
  apply matches_plain in M; [|assumption..]. subst n. apply replaced_same. exact N.
Qed.

(** ** Tables *)

Lemma digit_is c : digit c -> is_digit c = true.
Proof. intros [A B]. unfold is_digit. apply andb_true_iff. split; apply Nat.leb_le; assumption. Qed.
Lemma numeral_digits i n : Numeral i n -> (forall acc r, digits acc (i ++ r) = digits (acc * 10 ^ String.length i + n) r) /\ Every digit i /\ i <> ""%string.
Proof.
  intros Q. induction Q as [c D|s n c Q (IH & E & N) D].
  - split; [|split; [|discriminate]].
    + intros acc r. cbn [append digits]. rewrite (digit_is _ D). f_equal. simpl. lia.
    + constructor; [exact D|constructor].
  - split; [|split].
    + intros acc r. rewrite app_assoc_s, IH. cbn [append digits]. rewrite (digit_is _ D). f_equal.
      rewrite length_app_s. cbn [String.length]. rewrite Nat.pow_add_r. simpl (10 ^ 1). lia.
    + clear -E D. induction E as [|d s D' E IH]; cbn [append]; apply every_cons; try assumption. apply every_nil.
    + destruct s; discriminate.
Qed.
Lemma stoi_numeral i n : Numeral i n -> stoi i = Some n.
Proof.
  intros Q. destruct (numeral_digits _ _ Q) as (D & E & N). unfold stoi. destruct i as [|c i]; [congruence|].
  assert (E' : digit c) by (inversion E; assumption). rewrite (digit_is _ E'). f_equal. rewrite <- (app_nil_r_s (String c i)), D. cbn [digits]. lia.
Qed.
Lemma numeral_part i n : Numeral i n -> part_ok i.
Proof.
  intros Q. destruct (numeral_digits _ _ Q) as (_ & E & N). split; [exact N|]. clear -E.
  induction E as [|c i [A B] E IH]; [reflexivity|]. cbn [has_char]. rewrite IH, orb_false_r.
  destruct (Ascii.eqb_spec "." c) as [<-|]; [|reflexivity]. cbv in A. lia.
Qed.
Lemma getlines_one g : part_ok g -> getlines "." g = [g].
Proof.
  intros [N H]. rewrite (getlines_app "." g [] g) by (apply split_char_no; exact H). destruct (String.eqb_spec g ""); [congruence|reflexivity].
Qed.
Lemma getlines_snoc t i : part_ok i -> t <> ""%string -> (forall a, t <> (a ++ ".")%string) -> getlines "." (t ++ "." ++ i) = getlines "." t ++ [i].
Proof.
  intros [N H] NT ND. destruct (split_last "." t) as (l & x & E). rewrite (getlines_app _ _ _ _ E).
  rewrite (getlines_app "." (t ++ "." ++ i) (l ++ [x]) i).
  - destruct (String.eqb_spec i ""); [congruence|]. destruct (String.eqb_spec x "") as [->|X]; [|reflexivity].
    exfalso. pose proof (join_split_char "." t) as J. rewrite E in J.
    destruct l as [|y l]; [simpl in J; congruence|].
    assert (Q : forall l, l <> [] -> join "." (l ++ [""%string]) = (join "." l ++ ".")%string).
    { clear. intros l. induction l as [|z [|z' l] IH]; intros NE; [congruence|reflexivity|].
      transitivity (z ++ "." ++ join "." ((z' :: l) ++ [""%string]))%string; [reflexivity|].
      rewrite IH by discriminate. change (join "." (z :: z' :: l)) with (z ++ "." ++ join "." (z' :: l))%string. rewrite !app_assoc_s. reflexivity. }
    change (String "." "") with "."%string in J. rewrite Q in J by discriminate. apply (ND (join "." (y :: l))). congruence.
  - cbn [append]. rewrite Snapshot_Proofs.split_char_sep, E, (split_char_no _ _ H). reflexivity.
Qed.
Lemma follow_snoc c idx i n : forall c', follow c idx = Some c' -> stoi i = Some n -> follow c (idx ++ [i]) = nth_error (operands c') n.
Proof.
  revert c. induction idx as [|j idx IH]; intros c c' F S; cbn [follow app] in *.
  - injection F as ->. rewrite S. destruct (nth_error (operands c') n); reflexivity.
  - destruct (stoi j) as [k|]; [|discriminate]. destruct (nth_error (operands c) k) as [d|]; [|discriminate]. apply IH; assumption.
Qed.
Lemma part_no_dot_end g : part_ok g -> g <> ""%string /\ forall a, g <> (a ++ ".")%string.
Proof. intros [N H]. split; [exact N|]. intros a ->. rewrite has_char_app in H. simpl in H. rewrite orb_true_r in H. discriminate. Qed.
Lemma string_snoc_inj (a b : string) (c d : ascii) : (a ++ String c "" = b ++ String d "")%string -> c = d.
Proof.
  revert b. induction a as [|x a IH]; intros [|y b] E; cbn [append] in E; [congruence| | |].
  - injection E as _ E. destruct b; discriminate.
  - injection E as _ E. destruct a; discriminate.
  - injection E as _ E. eauto.
Qed.
Lemma snoc_dot_end t i : part_ok i -> forall a, (t ++ "." ++ i)%string <> (a ++ ".")%string.
Proof.
  intros P a E. destruct (part_no_dot_end _ P) as [N D].
  assert (Q : forall s : string, s <> ""%string -> exists b c, s = (b ++ String c "")%string).
  { clear. induction s as [|c s IH]; intros NE; [congruence|]. destruct s as [|d s]; [exists "", c; reflexivity|].
    destruct (IH ltac:(discriminate)) as (b & e & E). exists (String c b), e. rewrite E. reflexivity. }
  destruct (Q _ N) as (b & c & E'). rewrite E' in E. rewrite <- !app_assoc_s in E. apply string_snoc_inj in E. subst c. exact (D _ E').
Qed.
Lemma table_root m t c : Table m t c -> exists g idx c0, getlines "." t = g :: idx /\ dget m g = Some (Some c0) /\ follow c0 idx = Some c /\
  t <> ""%string /\ (forall a, t <> (a ++ ".")%string).
Proof.
  intros T. induction T as [g c P G|t c i n c' T (g & idx & c0 & E & G & F & N & D) Q O].
  - exists g, [], c. rewrite (getlines_one _ P). destruct (part_no_dot_end _ P). auto.
  - exists g, (idx ++ [i]), c0. rewrite getlines_snoc, E by (try assumption; eapply numeral_part; eassumption).
    split; [reflexivity|]. split; [exact G|]. split; [|split].
    + rewrite (follow_snoc _ _ _ _ _ F (stoi_numeral _ _ Q)). exact O.
    + destruct t; discriminate.
    + apply snoc_dot_end. eapply numeral_part; eassumption.
Qed.
Lemma find_table_ok m t c : Table m t c -> find_table m t = Some (Some c).
Proof.
  intros T. destruct (table_root _ _ _ T) as (g & idx & c0 & E & G & F & _). unfold find_table. rewrite E, G, F. reflexivity.
Qed.
Lemma table_fun m t c d : Table m t c -> Table m t d -> c = d.
Proof. intros A B. apply find_table_ok in A, B. congruence. Qed.

(** ** Entries *)

Lemma rtrim_ok s : Trimmed s (rtrim s).
Proof.
  induction s as [|c s (z & Z & E & L)].
  - exists ""%string. split; [constructor|]. split; [reflexivity|]. intros [|? ?]; discriminate.
  - cbn [rtrim]. destruct (rtrim s) as [|d t] eqn:R.
    + cbn [append] in E. destruct (Ascii.eqb_spec c zero) as [->|NZ].
      * exists (String zero z). split; [constructor; exact Z|]. split; [cbn [append]; congruence|]. intros [|? ?]; discriminate.
      * exists z. split; [exact Z|]. split; [cbn [append]; congruence|]. intros a Q.
        change (String c "") with ("" ++ String c "")%string in Q. apply string_snoc_inj in Q. congruence.
    + exists z. split; [exact Z|]. split; [cbn [append] in *; congruence|]. intros [|e a] Q; cbn [append] in Q; [discriminate|].
      injection Q as _ Q. exact (L a Q).
Qed.
Lemma trimmed_fun s n n' : Trimmed s n -> Trimmed s n' -> n = n'.
Proof.
  assert (H : forall n n' z z', zeros z -> zeros z' -> (n ++ z = n' ++ z')%string -> (forall a, n <> (a ++ String zero "")%string) -> (forall a, n' <> (a ++ String zero "")%string) -> n = n').
  { assert (Z : forall z m y, zeros z -> zeros y -> z = (m ++ y)%string -> zeros m).
    { intros z m. revert z. induction m as [|c m IH]; intros z y A B E; [constructor|]. destruct A as [|z A]; cbn [append] in E; [discriminate|]. injection E as <- E. constructor. exact (IH _ _ A B E). }
    assert (ZE : forall m, zeros m -> m <> ""%string -> exists a, m = (a ++ String zero "")%string).
    { intros m A. induction A as [|m A IH]; intros N; [congruence|]. destruct A as [|m' A]; [exists ""%string; reflexivity|].
      destruct (IH ltac:(discriminate)) as [a E]. exists (String zero a). rewrite E. reflexivity. }
    induction n0 as [|c n0 IH]; intros n1 z z' A B E L L'.
    - cbn [append] in E. destruct n1 as [|d n1]; [reflexivity|]. destruct (ZE (String d n1)) as [a Q]; [exact (Z z (String d n1) z' A B E)|discriminate|]. exfalso. exact (L' _ Q).
    - destruct n1 as [|d n1].
      + cbn [append] in E. destruct (ZE (String c n0)) as [a Q]; [exact (Z z' (String c n0) z B A (eq_sym E))|discriminate|]. exfalso. exact (L _ Q).
      + cbn [append] in E. injection E as -> E. f_equal. apply (IH n1 z z' A B E).
        * intros a ->. exact (L (String d a) eq_refl).
        * intros a ->. exact (L' (String d a) eq_refl). }
  intros (z & A & E & L) (z' & A' & E' & L'). subst s. exact (H _ _ _ _ A A' E' L L').
Qed.
Lemma names_by_fun opaque c g g' : names_by opaque c g -> names_by opaque c g' -> g = g'.
Proof.
  intros (o & ops & -> & N) (o' & ops' & E & N'). injection E as <- <-. destruct opaque; [congruence|].
  destruct N as [i ->], N' as [j N']. congruence.
Qed.
Lemma named_fun opaque m c n n' : Named opaque m c n -> Named opaque m c n' -> n = n'.
Proof.
  intros (g & s & A & B & C) (g' & s' & A' & B' & C'). rewrite (names_by_fun _ _ _ _ A' A) in B'.
  assert (s' = s) by congruence. subst s'. exact (trimmed_fun _ _ _ C C').
Qed.
Lemma named_not_dangling opaque m c n : Named opaque m c n -> ~ Dangling opaque m c.
Proof. intros (g & s & A & B & _) (g' & A' & D). rewrite (names_by_fun _ _ _ _ A' A) in D. destruct D; congruence. Qed.
Lemma entry_name_cases opaque m c :
  (exists n, entry_name opaque m c = Some (Some n) /\ Named opaque m c n) \/
  (entry_name opaque m c = Some None /\ ~ Dangling opaque m c /\ forall n, ~ Named opaque m c n) \/
  (entry_name opaque m c = None /\ Dangling opaque m c).
Proof.
  assert (NO : (forall g, ~ names_by opaque c g) -> entry_name opaque m c = Some None -> entry_name opaque m c = Some None /\ ~ Dangling opaque m c /\ forall n, ~ Named opaque m c n).
  { intros N E. split; [exact E|]. split; [intros (g & A & _); exact (N _ A)|intros n (g & s & A & _); exact (N _ A)]. }
  destruct c as [[] [|o ops]| | | | | | |]; try solve [right; left; apply NO; [intros g (o' & ops' & E & _); discriminate|reflexivity]].
  assert (H : (exists g, names_by opaque (Aggregate true (o :: ops)) g /\ (if opaque then o else match o with Gep b _ => b | _ => Other end) = GlobalVar g)
    \/ ((forall g, ~ names_by opaque (Aggregate true (o :: ops)) g) /\ entry_name opaque m (Aggregate true (o :: ops)) = Some None)).
  { unfold names_by, entry_name. destruct opaque.
    - destruct o; try solve [right; split; [intros g (o' & ops' & E & Q); congruence|reflexivity]].
      left. exists name. split; [|reflexivity]. exists (GlobalVar name), ops. auto.
    - destruct o; try solve [right; split; [intros g (o' & ops' & E & i & Q); congruence|reflexivity]].
      destruct o; try solve [right; split; [intros g (o' & ops' & E & i & Q); congruence|reflexivity]].
      left. exists name. split; [|reflexivity]. exists (Gep (GlobalVar name) idx), ops. split; [reflexivity|]. exists idx. reflexivity. }
  destruct H as [(g & A & E)|[A E]]; [|right; left; apply NO; assumption].
  cbn [entry_name]. rewrite E. destruct (dget m g) as [[k|]|] eqn:G.
  - destruct k; try solve [right; left; split; [reflexivity|split; [intros (g' & A' & D); rewrite (names_by_fun _ _ _ _ A' A), G in D; destruct D; discriminate|
      intros n' (g' & s' & A' & B & _); rewrite (names_by_fun _ _ _ _ A' A), G in B; discriminate]]].
    left. exists (rtrim s). split; [reflexivity|]. exists g, s. split; [exact A|]. split; [exact G|]. apply rtrim_ok.
  - right. right. split; [reflexivity|]. exists g. auto.
  - right. right. split; [reflexivity|]. exists g. auto.
Qed.
Lemma entry_named opaque m c n : entry_name opaque m c = Some (Some n) <-> Named opaque m c n.
Proof.
  destruct (entry_name_cases opaque m c) as [(n' & -> & N)|[(-> & D & N)|(-> & D)]]; split; intros H; try discriminate.
  - injection H as <-. exact N.
  - rewrite (named_fun _ _ _ _ _ H N). reflexivity.
  - destruct (N _ H).
  - destruct (named_not_dangling _ _ _ _ H D).
Qed.

(** ** Parsing *)

Definition insert_all (a : string) (l : list (string * const)) (smap : dict string const) : dict string const :=
  fold_left (fun s nc => dset s (a ++ fst nc)%string (snd nc)) l smap.
Definition accepts (p n : string) : Prop := cpp_matches n p = true.
Lemma accepts_matches p n : accepts p n -> Matches p n.
Proof.
  unfold accepts. destruct (String.eqb_spec n "") as [->|N]; [|apply cpp_matches_iff; exact N].
  rewrite cpp_empty_iff. intros [->|[->|(b & -> & I)]]; [constructor|constructor; reflexivity|].
  apply matches_braces. destruct (split_last "|" b) as (l & x & E). rewrite E in *. rewrite removelast_last in I. apply in_app_iff. auto.
Qed.
Lemma parse_entries_iff opaque m a p ops : pattern_ok a p -> forall smap r,
  parse_entries opaque m (a ++ p) ops smap = Some r <->
  exists sel, Selected opaque m (accepts p) ops sel /\ r = (map (fun nc => a ++ fst nc)%string sel, insert_all a sel smap).
Proof.
  intros OK. pose proof OK as (PA & PP & W). destruct (last_part a p PA PP) as [rest L].
  induction ops as [|c ops IH]; intros smap r.
  - cbn [parse_entries]. split.
    + intros [= <-]. exists []. split; [constructor|reflexivity].
    + intros (sel & S & ->). inversion S. reflexivity.
  - cbn [parse_entries]. destruct (entry_name_cases opaque m c) as [(n & E & N)|[(E & D & N)|(E & D)]]; rewrite E.
    + rewrite L. destruct (cpp_matches n p) eqn:M.
      * rewrite (key_ok _ _ _ OK (accepts_matches _ _ M)).
        split.
        -- intros H. destruct (parse_entries opaque m (a ++ p) ops (dset smap (a ++ n)%string c)) as [[l s]|] eqn:Q; [|discriminate].
           apply IH in Q. destruct Q as (sel & S & R). exists ((n, c) :: sel). split; [constructor; assumption|]. cbn [map insert_all fold_left fst snd].
           injection H as <-. f_equal; [f_equal; congruence|]. transitivity s; [reflexivity|]. apply (f_equal snd) in R. exact R.
        -- intros (sel & S & ->). inversion S as [|c' n' ops' l N' P S' E1 E2|c' ops' l D NP S' E1 E2]; subst.
           ++ rewrite (named_fun _ _ _ _ _ N' N) in *. cbn [map insert_all fold_left fst snd].
              rewrite (proj2 (IH _ (map (fun nc => a ++ fst nc)%string l, insert_all a l (dset smap (a ++ n)%string c)))); [reflexivity|]. exists l. auto.
           ++ exfalso. exact (NP _ N M).
      * rewrite IH. split; intros (sel & S & R); exists sel; (split; [|exact R]).
        -- apply Selected_skip; [exact (named_not_dangling _ _ _ _ N)| |exact S]. intros n' N'. rewrite (named_fun _ _ _ _ _ N' N). unfold accepts. congruence.
        -- inversion S as [|c' n' ops' l N' P S' E1 E2|c' ops' l D NP S' E1 E2]; subst; [|exact S'].
           exfalso. unfold accepts in P. rewrite (named_fun _ _ _ _ _ N' N) in P. congruence.
    + rewrite IH. split; intros (sel & S & R); exists sel; (split; [|exact R]).
      * apply Selected_skip; [exact D| |exact S]. intros n' N'. destruct (N _ N').
      * inversion S as [|c' n' ops' l N' P S' E1 E2|c' ops' l D' NP S' E1 E2]; subst; [destruct (N _ N')|exact S'].
    + split; [discriminate|]. intros (sel & S & _). inversion S as [|c' n' ops' l N' P S' E1 E2|c' ops' l D' NP S' E1 E2]; subst; [|destruct (D' D)].
      destruct (named_not_dangling _ _ _ _ N' D).
Qed.
Lemma selected_ext opaque m (P Q : string -> Prop) ops l : (forall c n, In c ops -> Named opaque m c n -> (P n <-> Q n)) ->
  Selected opaque m P ops l -> Selected opaque m Q ops l.
Proof.
  intros H S. induction S as [|c n ops l N A S IH|c ops l D A S IH].
  - constructor.
  - constructor; [exact N|apply (H c n); [left; reflexivity|exact N|exact A]|]. apply IH. intros d k I. apply H. right. exact I.
  - apply Selected_skip; [exact D| |apply IH; intros d k I; apply H; right; exact I].
    intros n N B. apply (A n N). apply (H c n); [left; reflexivity|exact N|exact B].
Qed.
Lemma selected_exists opaque m P (dec : forall n, P n \/ ~ P n) ops : (forall c, In c ops -> ~ Dangling opaque m c) -> exists l, Selected opaque m P ops l.
Proof.
  induction ops as [|c ops IH]; intros H; [exists []; constructor|].
  destruct IH as [l S]; [intros d I; apply H; right; exact I|].
  destruct (entry_name_cases opaque m c) as [(n & E & N)|[(E & D & N)|(E & D)]].
  - destruct (dec n) as [A|A]; [exists ((n, c) :: l); constructor; assumption|].
    exists l. apply Selected_skip; [exact (named_not_dangling _ _ _ _ N)| |exact S]. intros n' N'. rewrite (named_fun _ _ _ _ _ N' N). exact A.
  - exists l. apply Selected_skip; [exact D| |exact S]. intros n N'. destruct (N _ N').
  - exfalso. exact (H c (or_introl eq_refl) D).
Qed.
Lemma selected_fun opaque m P ops l l' : Selected opaque m P ops l -> Selected opaque m P ops l' -> l = l'.
Proof.
  intros S. revert l'. induction S as [|c n ops l N A S IH|c ops l D A S IH]; intros l' S'.
  - inversion S'. reflexivity.
  - inversion S' as [|c' n' ops' k N' A' S'' E1 E2|c' ops' k D A' S'' E1 E2]; subst.
    + rewrite (named_fun _ _ _ _ _ N' N). f_equal. auto.
    + exfalso. exact (A' _ N A).
  - inversion S' as [|c' n' ops' k N' A' S'' E1 E2|c' ops' k D' A' S'' E1 E2]; subst; [|auto].
    exfalso. exact (A _ N' A').
Qed.
Lemma selected_in opaque m P ops l n c : Selected opaque m P ops l -> In (n, c) l -> In c ops /\ Named opaque m c n /\ P n.
Proof.
  intros S. induction S as [|d k ops l N A S IH|d ops l D A S IH]; intros I; [destruct I| |].
  - destruct I as [[= -> ->]|I]; [split; [left; reflexivity|auto]|]. destruct (IH I) as (X & Y). split; [right; exact X|exact Y].
  - destruct (IH I) as (X & Y). split; [right; exact X|exact Y].
Qed.
Lemma selected_all opaque m P ops l c n : Selected opaque m P ops l -> In c ops -> Named opaque m c n -> P n -> In (n, c) l.
Proof.
  intros S. induction S as [|d k ops l N A S IH|d ops l D A S IH]; intros I N' B; [destruct I| |].
  - destruct I as [->|I]; [rewrite (named_fun _ _ _ _ _ N' N); left; reflexivity|right; auto].
  - destruct I as [->|I]; [exfalso; exact (A _ N' B)|auto].
Qed.
Lemma selected_last opaque m P ops l n c : Selected opaque m P ops l -> P n -> (LastOf l n c <-> LastNamed opaque m ops n c).
Proof.
  intros S. induction S as [|d k ops l N A S IH|d ops l D A S IH]; intros B.
  - split; intros (a & b & E & _); destruct a; discriminate.
  - specialize (IH B). split.
    + intros (a & b & E & L). destruct a as [|x a]; cbn [app] in E.
      * injection E as -> -> ->. exists [], ops. split; [reflexivity|]. split; [exact N|]. intros e I N'. apply (L e). exact (selected_all _ _ _ _ _ _ _ S I N' B).
      * injection E as <- E. assert (Q : LastOf l n c) by (exists a, b; auto). apply IH in Q. destruct Q as (a' & b' & -> & Q). exists (d :: a'), b'. auto.
    + intros (a & b & E & N' & L). destruct a as [|x a]; cbn [app] in E.
      * injection E as -> ->. rewrite (named_fun _ _ _ _ _ N' N). exists [], l. split; [reflexivity|]. intros w I. destruct (selected_in _ _ _ _ _ _ _ S I) as (X & Y & _).
        rewrite <- (named_fun _ _ _ _ _ N' N) in Y. exact (L _ X Y).
      * injection E as <- ->. assert (Q : LastNamed opaque m (a ++ c :: b) n c) by (exists a, b; auto). apply IH in Q. destruct Q as (a' & b' & -> & Q). exists ((k, d) :: a'), b'. auto.
  - specialize (IH B). rewrite IH. split.
    + intros (a & b & -> & Q). exists (d :: a), b. auto.
    + intros (a & b & E & N & L). destruct a as [|x a]; cbn [app] in E; [injection E as -> ->; exfalso; exact (A _ N B)|].
      injection E as <- ->. exists a, b. auto.
Qed.
Lemma last_or_none {A} (l : list (string * A)) k : (exists v, LastOf l k v) \/ forall v, ~ In (k, v) l.
Proof.
  induction l as [|[k' v'] l [[v (a & b & -> & L)]|IH]].
  - right. intros v [].
  - left. exists v, ((k', v') :: a), b. auto.
  - destruct (String.eqb_spec k' k) as [->|N].
    + left. exists v', [], l. auto.
    + right. intros v [[= E _]|I]; [congruence|exact (IH _ I)].
Qed.
Lemma insert_last a l n c smap : LastOf l n c -> dget (insert_all a l smap) (a ++ n)%string = Some c.
Proof.
  intros (x & y & -> & L). unfold insert_all. rewrite fold_left_app. cbn [fold_left fst snd].
  remember (fold_left _ x smap) as s eqn:E. clear E.
  assert (Q : forall (y : list (string * const)) (s : dict string const), (forall w, ~ In (n, w) y) -> dget (fold_left (fun s nc => dset s (a ++ fst nc)%string (snd nc)) y s) (a ++ n)%string = dget s (a ++ n)%string).
  { clear. induction y as [|[k v] y IH]; intros s H; [reflexivity|]. cbn [fold_left fst snd]. rewrite IH by (intros w I; apply (H w); right; exact I).
    apply dget_dset_other. intros E. assert (k = n).
    { clear -E. induction a; cbn [append] in E; [congruence|]. injection E as E. auto. } subst k. exact (H v (or_introl eq_refl)). }
  rewrite Q by exact L. apply dget_dset_same.
Qed.
Lemma insert_other a l k smap : (forall n c, In (n, c) l -> k <> (a ++ n)%string) -> dget (insert_all a l smap) k = dget smap k.
Proof.
  unfold insert_all. revert smap. induction l as [|[n c] l IH]; intros smap H; [reflexivity|]. cbn [fold_left fst snd].
  rewrite IH by (intros m d I; apply (H m d); right; exact I). apply dget_dset_other.
  intros E. apply (H n c (or_introl eq_refl)). congruence.
Qed.
Lemma parse_sysctls_iff opaque m t c a p smap r : Table m t c -> pattern_ok a p ->
  parse_sysctls opaque m t (a ++ p) smap = Some r <->
  exists sel, Selected opaque m (accepts p) (operands c) sel /\ r = (map (fun nc => a ++ fst nc)%string sel, insert_all a sel smap).
Proof. intros T OK. unfold parse_sysctls. rewrite (find_table_ok _ _ _ T). apply parse_entries_iff. exact OK. Qed.

Lemma no_dot_prefix_inj a a' n n' : prefix_ok a -> prefix_ok a' -> part_ok n -> part_ok n' -> (a ++ n = a' ++ n')%string -> a = a' /\ n = n'.
Proof.
  intros A A' N N' E. destruct (last_part _ _ A N) as [l L], (last_part _ _ A' N') as [l' L']. rewrite E in L.
  assert (n = n') by congruence. subst n'. split; [|reflexivity]. clear -E. exact (Kernel_Proofs.app_inv_tail_s _ _ _ E).
Qed.
Lemma plain_accepts p n : ~ special p -> (accepts p n <-> n = p).
Proof.
  intros S. unfold accepts, cpp_matches. destruct (String.eqb_spec p "*") as [->|]; [destruct S; left; reflexivity|].
  destruct (braces p) eqn:B; [destruct S; right; exact B|]. apply String.eqb_eq.
Qed.
Definition sound (opaque : bool) (m : globals) (c : const) (smap : dict string const) : Prop :=
  forall a n e, prefix_ok a -> part_ok n -> dget smap (a ++ n)%string = Some e -> LastNamed opaque m (operands c) n e.
Lemma sound_insert opaque m c a p sel smap : WellNamed opaque m (operands c) -> pattern_ok a p ->
  Selected opaque m (accepts p) (operands c) sel -> sound opaque m c smap -> sound opaque m c (insert_all a sel smap).
Proof.
  intros WN OK S I a' n e PA' PN G. pose proof OK as (PA & PP & _).
  destruct (String.eqb_spec a' a) as [->|NA].
  - destruct (last_or_none sel n) as [[v L]|NI].
    + rewrite (insert_last _ _ _ _ _ L) in G. injection G as ->.
      apply (selected_last _ _ _ _ _ n e S); [|exact L]. destruct L as (x & y & -> & _).
      apply (selected_in _ _ _ _ _ n e S). apply in_app_iff. right. left. reflexivity.
    + rewrite insert_other in G; [exact (I _ _ _ PA' PN G)|]. intros k d J E.
      destruct (selected_in _ _ _ _ _ _ _ S J) as (X & Y & _). destruct (no_dot_prefix_inj a a n k PA PA PN (WN _ _ X Y) E) as [_ ->]. exact (NI _ J).
  - rewrite insert_other in G; [exact (I _ _ _ PA' PN G)|]. intros k d J E.
    destruct (selected_in _ _ _ _ _ _ _ S J) as (X & Y & _). destruct (no_dot_prefix_inj a' a n k PA' PA PN (WN _ _ X Y) E) as [-> _]. congruence.
Qed.
Lemma get_sysctl_cases opaque m t c a p smap r smap' : Table m t c -> pattern_ok a p ->
  get_sysctl opaque m t (a ++ p) smap = Some (r, smap') ->
  (exists e, dget smap (a ++ p)%string = Some e /\ r = Some e /\ smap' = smap) \/
  (dget smap (a ++ p)%string = None /\ exists sel, Selected opaque m (accepts p) (operands c) sel /\ smap' = insert_all a sel smap /\ r = dget smap' (a ++ p)%string).
Proof.
  intros T OK. unfold get_sysctl. destruct (dget smap (a ++ p)%string) as [e|] eqn:G.
  - intros [= <- <-]. left. eauto.
  - destruct (parse_sysctls opaque m t (a ++ p) smap) as [[l s]|] eqn:P; [|discriminate]. intros [= <- <-].
    apply (parse_sysctls_iff _ _ _ _ _ _ _ _ T OK) in P. destruct P as (sel & S & [= -> ->]). right. split; [reflexivity|]. exists sel. auto.
Qed.
Lemma history_sound opaque m t c smap : Table m t c -> WellNamed opaque m (operands c) -> History opaque m t smap -> sound opaque m c smap.
Proof.
  intros T WN H. induction H as [|a p smap l smap' H IH OK P|a p smap r smap' H IH OK P].
  - intros a n e _ _ G. discriminate.
  - apply (parse_sysctls_iff _ _ _ _ _ _ _ _ T OK) in P. destruct P as (sel & S & [= -> ->]). eapply sound_insert; eauto.
  - destruct (get_sysctl_cases _ _ _ _ _ _ _ _ _ T OK P) as [(e & _ & _ & ->)|(_ & sel & S & -> & _)]; [exact IH|]. eapply sound_insert; eauto.
Qed.
Lemma last_named_fun opaque m ops n c d : LastNamed opaque m ops n c -> LastNamed opaque m ops n d -> c = d.
Proof.
  intros (a & b & -> & N & L) (a' & b' & E & N' & L'). revert a' E.
  induction a as [|x a IH]; intros [|y a'] E; cbn [app] in E.
  - congruence.
  - injection E as <- ->. destruct (L d); [apply in_app_iff; right; left; reflexivity|exact N'].
  - injection E as -> <-. destruct (L' c); [apply in_app_iff; right; left; reflexivity|exact N].
  - injection E as _ E. eauto.
Qed.
Lemma plain_pattern a n : prefix_ok a -> part_ok n -> ~ special n -> pattern_ok a n.
Proof. intros A N S. split; [exact A|]. split; [exact N|]. intros Q. destruct (S Q). Qed.
Lemma plain_lookup opaque m c a n sel smap r : Selected opaque m (accepts n) (operands c) sel -> ~ special n -> dget smap (a ++ n)%string = None ->
  (dget (insert_all a sel smap) (a ++ n)%string = Some r <-> LastNamed opaque m (operands c) n r).
Proof.
  intros S SP G. assert (A : accepts n n) by (apply plain_accepts; auto). split; intros H.
  - destruct (last_or_none sel n) as [[v L]|NI].
    + rewrite (insert_last _ _ _ _ _ L) in H. injection H as ->. apply (selected_last _ _ _ _ _ _ _ S A). exact L.
    + rewrite insert_other, G in H; [discriminate|]. intros k d J E. destruct (selected_in _ _ _ _ _ _ _ S J) as (_ & _ & Q).
      apply (plain_accepts _ _ SP) in Q. subst k. exact (NI _ J).
  - apply insert_last. apply (selected_last _ _ _ _ _ _ _ S A). exact H.
Qed.
Lemma get_sysctl_defined opaque m t c a n smap : Table m t c -> pattern_ok a n -> (forall d, In d (operands c) -> ~ Dangling opaque m d) ->
  exists r smap', get_sysctl opaque m t (a ++ n) smap = Some (r, smap').
Proof.
  intros T OK D. destruct (selected_exists opaque m (accepts n)) with (ops := operands c) as [sel S].
  - intros k. unfold accepts. destruct (cpp_matches k n); auto.
  - exact D.
  - unfold get_sysctl. destruct (dget smap (a ++ n)%string) as [e|]; [eauto|].
    rewrite (proj2 (parse_sysctls_iff opaque m t c a n smap (map (fun nc => a ++ fst nc)%string sel, insert_all a sel smap) T OK)); [eauto|]. exists sel. auto.
Qed.
Lemma selected_not_dangling opaque m P ops l d : Selected opaque m P ops l -> In d ops -> ~ Dangling opaque m d.
Proof.
  intros S. induction S as [|c n ops l N A S IH|c ops l D A S IH]; intros I; [destruct I| |];
    destruct I as [->|I]; auto. exact (named_not_dangling _ _ _ _ N).
Qed.

(** ** Addresses *)

Lemma numbers_iff l ns : numbers l = Some ns <-> l = map Number ns.
Proof.
  revert ns. induction l as [|c l IH]; intros ns; cbn [numbers].
  - split; [intros [= <-]; reflexivity|]. destruct ns; [reflexivity|discriminate].
  - destruct c; try (split; [discriminate|destruct ns; discriminate]).
    destruct (numbers l) as [r|].
    + assert (L : l = map Number r) by (apply IH; reflexivity). subst l. split; [intros [= <-]; reflexivity|]. destruct ns as [|k ns]; [discriminate|]. cbn [map]. intros E.
      injection E as -> E. f_equal. f_equal. revert E. clear. revert ns. induction r as [|x r IH]; intros [|y ns] E; cbn [map] in E; try discriminate; [reflexivity|]. injection E as -> E. f_equal. auto.
    + split; [discriminate|]. destruct ns as [|k ns]; [discriminate|]. cbn [map]. intros [= _ E]. apply (IH ns) in E. discriminate.
Qed.
Lemma base_iff c g : (match c with BitCast d => d | _ => c end) = GlobalVar g <-> Base c g.
Proof.
  split.
  - destruct c; intros E; try discriminate; [injection E as ->; constructor|]. subst c. constructor.
  - intros B. destruct B; reflexivity.
Qed.
Lemma base_match c g (idx : list Z) : (match (match c with BitCast d => d | _ => c end) with GlobalVar g => Some (g, idx) | _ => None end) = Some (g, idx) <-> Base c g.
Proof.
  rewrite <- base_iff. destruct (match c with BitCast d => d | _ => c end); split; intros E; try discriminate; [injection E as ->; reflexivity|injection E as ->; reflexivity].
Qed.
Lemma base_match' c g (idx idx' : list Z) : (match (match c with BitCast d => d | _ => c end) with GlobalVar g => Some (g, idx') | _ => None end) = Some (g, idx) <-> Base c g /\ idx = idx'.
Proof.
  split.
  - intros E. assert (idx = idx') by (destruct (match c with BitCast d => d | _ => c end); congruence). subst idx'. split; [|reflexivity]. apply (base_match _ _ idx). exact E.
  - intros [B ->]. apply base_match. exact B.
Qed.
Lemma variable_at_iff s i g idx : variable_at (Some s) i = Some (g, idx) <-> exists o, nth_error (operands s) i = Some o /\ Address o g idx.
Proof.
  unfold variable_at. destruct (nth_error (operands s) i) as [o|]; [|split; [discriminate|intros (o & E & _); discriminate]].
  transitivity (Address o g idx); [|split; [intros A; exists o; auto|intros (o' & E & A); congruence]].
  assert (NB : forall c, Address c g idx -> (exists b, c = Gep b (map Number idx) /\ Base b g) \/ (Base c g /\ idx = [])).
  { intros c A. inversion A; subst; [right; auto|left; eauto]. }
  destruct o as [b l|n|n|n|n|b l|o'|]; cbn beta iota;
    try solve [split; [discriminate|intros A; destruct (NB _ A) as [(b' & E & B)|[B E]]; [discriminate|inversion B]]].
  - split; [intros [= -> <-]; constructor; constructor|]. intros A. destruct (NB _ A) as [(b' & E & B)|[B ->]]; [discriminate|inversion B; reflexivity].
  - destruct (numbers l) as [ns|] eqn:N.
    + rewrite base_match'. apply numbers_iff in N. subst l. split.
      * intros [B ->]. constructor. exact B.
      * intros A. destruct (NB _ A) as [(b' & E & B)|[B ->]]; [|inversion B]. injection E as -> E. split; [exact B|].
        revert E. clear. revert idx. induction ns as [|x ns IH]; intros [|y idx] E; cbn [map] in E; try discriminate; [reflexivity|]. injection E as -> E. f_equal. auto.
    + split; [discriminate|]. intros A. destruct (NB _ A) as [(b' & E & B)|[B ->]]; [|inversion B]. injection E as -> ->.
      rewrite (proj2 (numbers_iff (map Number idx) idx) eq_refl) in N. discriminate.
  - split.
    + destruct o'; try discriminate. intros [= -> <-]. constructor. constructor.
    + intros A. destruct (NB _ A) as [(b' & E & B)|[B ->]]; [discriminate|]. inversion B. reflexivity.
Qed.

(** ** Following the entries *)

Definition simple_table (t : string) : Prop := part_ok t \/ t = "devinet_sysctl.1"%string.
Lemma root_of t root : part_ok root -> (t = root \/ exists i, t = (root ++ "." ++ i)%string) -> hd ""%string (split_char "." t) = root.
Proof.
  intros [N H] [->|[i ->]]; [rewrite split_char_no by exact H; reflexivity|].
  cbn [append]. rewrite Snapshot_Proofs.split_char_sep, split_char_no by exact H. reflexivity.
Qed.
Lemma simple_root t : simple_table t -> exists root, part_ok root /\ (t = root \/ exists i, t = (root ++ "." ++ i)%string).
Proof.
  intros [P| ->]; [exists t; auto|]. exists "devinet_sysctl"%string. split; [split; [discriminate|reflexivity]|]. right. exists "1"%string. reflexivity.
Qed.
Lemma simple_find m t c : simple_table t -> find_table m t = Some (Some c) -> Table m t c.
Proof.
  intros [P| ->] E.
  - unfold find_table in E. rewrite (getlines_one _ P) in E. destruct (dget m t) as [[k|]|] eqn:G; try discriminate. cbn in E. injection E as ->. constructor; assumption.
  - unfold find_table in E. change (getlines "." "devinet_sysctl.1") with ["devinet_sysctl"; "1"]%string in E.
    cbv beta iota in E. destruct (dget m "devinet_sysctl"%string) as [[k|]|] eqn:G; try discriminate. cbn in E.
    destruct (operands k) as [|k0 [|d l]] eqn:OK; cbn in E; try discriminate. injection E as ->.
    change "devinet_sysctl.1"%string with ("devinet_sysctl" ++ "." ++ "1")%string. apply (Table_part m _ k "1" 1); [|change 1 with (nat_of_ascii "1" - 48); constructor; cbv; lia|rewrite OK; reflexivity].
    constructor; [split; [discriminate|reflexivity]|exact G].
Qed.
Lemma get_plain opaque m t c e r smap' : Table m t c -> part_ok e -> ~ special e -> get_sysctl opaque m t e [] = Some (r, smap') ->
  (forall d, In d (operands c) -> ~ Dangling opaque m d) /\ forall x, r = Some x <-> LastNamed opaque m (operands c) e x.
Proof.
  intros T P S G. change e with ("" ++ e)%string in G.
  destruct (get_sysctl_cases _ _ _ _ _ _ _ _ _ T (plain_pattern "" e (or_introl eq_refl) P S) G) as [(x & D & _)|(_ & sel & SE & -> & ->)]; [discriminate|].
  split; [intros d; apply (selected_not_dangling _ _ _ _ _ _ SE)|]. intros x. apply (plain_lookup _ _ _ _ _ _ _ _ SE S). reflexivity.
Qed.
Lemma last_named_in opaque m ops n c : LastNamed opaque m ops n c -> In c ops.
Proof. intros (a & b & -> & _). apply in_app_iff. right. left. reflexivity. Qed.
Lemma leads_walk opaque module_for t entries m' t' : Leads opaque module_for t entries m' t' -> walk opaque module_for t entries = Some (Ok (m', t')).
Proof.
  intros L. induction L as [t root e m P R M|t root e f rest m c entry o g idx m' t' P R PE SE M T D LN O A L IH].
  - cbn [walk]. rewrite (root_of _ _ P R), M. reflexivity.
  - cbn [walk]. rewrite (root_of _ _ P R), M.
    destruct (get_sysctl_defined opaque m t c "" e [] T (plain_pattern "" e (or_introl eq_refl) PE SE) D) as (r & s & G). cbn [append] in G. rewrite G.
    destruct (get_plain _ _ _ _ _ _ _ T PE SE G) as [_ Q]. apply Q in LN. subst r.
    unfold child_of. rewrite (proj2 (variable_at_iff entry 4 g idx)) by eauto. exact IH.
Qed.
Lemma walk_leads opaque module_for entries : plain_children module_for -> Forall (fun e => part_ok e /\ ~ special e) (removelast entries) -> forall t m' t',
  simple_table t -> walk opaque module_for t entries = Some (Ok (m', t')) -> Leads opaque module_for t entries m' t'.
Proof.
  intros PC. induction entries as [|e rest IH]; intros F t m' t' ST W; [discriminate|].
  destruct (simple_root _ ST) as (root & P & R). cbn [walk] in W. rewrite (root_of _ _ P R) in W.
  destruct (module_for root) as [m|x] eqn:M; [|discriminate]. destruct rest as [|f rest].
  - injection W as <- <-. eapply Leads_here; eassumption.
  - cbn [removelast] in F. inversion F as [|e' l [PE SE] F']; subst.
    destruct (get_sysctl opaque m t e []) as [[r s]|] eqn:G; [|discriminate].
    assert (T : exists c, Table m t c).
    { destruct r as [x|]; [|discriminate]. unfold get_sysctl in G. cbn [dget] in G. destruct (parse_sysctls opaque m t e []) as [[l k]|] eqn:Q; [|discriminate].
      unfold parse_sysctls in Q. destruct (find_table m t) as [[c|]|] eqn:FT; try discriminate; [exists c; apply (simple_find _ _ _ ST FT)|]. injection Q as <- <-. discriminate. }
    destruct T as [c T]. destruct (get_plain _ _ _ _ _ _ _ T PE SE G) as [D Q].
    destruct r as [entry|]; [|discriminate]. destruct (child_of (Some entry)) as [[g idx]|] eqn:CH; [|discriminate].
    apply variable_at_iff in CH. destruct CH as (o & O & A). assert (LN : LastNamed opaque m (operands c) e entry) by (apply Q; reflexivity).
    apply (Leads_below opaque module_for t root e f rest m c entry o g idx m' t'); try assumption. apply (IH F'); [|exact W]. left.
    apply (PC root m t c entry o g idx); try assumption. eapply last_named_in. exact LN.
Qed.
Lemma start_iff entries t rest : entries <> [] -> (start_table entries = Ok (t, rest) /\ rest <> [] <-> Starts entries t rest /\ rest <> []).
Proof.
  intros NE. split; intros [S N]; (split; [|exact N]).
  - unfold start_table in S. destruct entries as [|e l]; [congruence|]. destruct (mem e _) eqn:M.
    + injection S as <- <-. constructor. apply mem_In. exact M.
    + destruct (String.eqb_spec e "net") as [->|]; [|discriminate]. destruct l as [|f l]; [discriminate|]. cbn [nth_error] in S.
      destruct (String.eqb_spec f "ipv4") as [->|].
      * destruct l as [|g l]; [discriminate|]. destruct (String.eqb_spec g "conf") as [->|C].
        -- injection S as <- <-. destruct l as [|a l]; [destruct N; reflexivity|]. constructor.
        -- injection S as <- <-. constructor. exact C.
      * destruct (String.eqb_spec f "core") as [->|]; [|discriminate]. injection S as <- <-. constructor.
  - destruct S as [e l I|a l|e l C|l].
    + unfold start_table. apply (proj2 (mem_In _ _)) in I. rewrite I. reflexivity.
    + reflexivity.
    + cbn [start_table mem eqb EqB_string]. cbn -[String.eqb]. destruct (String.eqb_spec e "conf"); [congruence|reflexivity].
    + reflexivity.
Qed.
