(** * Proofs about the search for definitions *)
From Coq Require Import String Ascii Arith Bool Lia List.
From Verif Require Import PyBase Find_Model Find_Spec.
Import ListNotations.
Open Scope list_scope.

Lemma app_assoc_s a b c : ((a ++ b) ++ c = a ++ (b ++ c))%string.
Proof. induction a as [|d a IH]; [reflexivity|]. cbn. rewrite IH. reflexivity. Qed.
Lemma has_nil c : ~ Has c "".
Proof. intros ([|d a] & b & E); discriminate E. Qed.
Lemma has_cons c d s : Has c (String d s) <-> c = d \/ Has c s.
Proof.
  split.
  - intros ([|e a] & b & E); injection E as -> E; [left; reflexivity|right; exists a, b; exact E].
  - intros [->|(a & b & ->)]; [exists ""%string, s; reflexivity|exists (String d a), b; reflexivity].
Qed.
Lemma has_app c a b : Has c (a ++ b) <-> Has c a \/ Has c b.
Proof.
  induction a as [|d a IH]; cbn [append].
  - split; [auto|]. intros [H|H]; [destruct (has_nil _ H)|exact H].
  - rewrite !has_cons, IH. tauto.
Qed.
(** Where a character is that is not in the first part *)
Lemma split_at c d : forall x a y z, ~ Has d x -> (x ++ String c y = a ++ String d z)%string ->
  (c = d /\ a = x /\ y = z) \/ exists a', a = (x ++ String c a')%string /\ y = (a' ++ String d z)%string.
Proof.
  induction x as [|e x IH]; intros [|f a] y z N E; cbn in E; injection E as E1 E2.
  - left. auto.
  - right. exists a. subst. auto.
  - exfalso. apply N. subst. apply has_cons. auto.
  - subst f. destruct (IH a y z (fun H => N (proj2 (has_cons _ _ _) (or_intror H))) E2) as [(-> & -> & ->)|(a' & -> & ->)]; [left; auto|right; exists a'; auto].
Qed.
Lemma prefix_in_line : forall q x t b, ~ Has newline q -> (x ++ String newline t = q ++ b)%string -> exists b', x = (q ++ b')%string.
Proof.
  induction q as [|c q IH]; intros x t b N E; [exists x; reflexivity|]. destruct x as [|d x]; cbn in E; injection E as E1 E2.
  - exfalso. apply N. apply has_cons. left. exact E1.
  - subst d. destruct (IH x t b (fun H => N (proj2 (has_cons _ _ _) (or_intror H))) E2) as (b' & ->). exists b'. reflexivity.
Qed.

(** ** Lines *)
Lemma next_line f : forall a t, ~ Has newline a -> at_some_line false f (a ++ String newline t) = at_some_line true f t.
Proof.
  induction a as [|c a IH]; intros t N; [reflexivity|]. cbn [append at_some_line andb orb].
  destruct (Ascii.eqb c newline) eqn:E; [apply Ascii.eqb_eq in E; subst; exfalso; apply N; apply has_cons; auto|]. apply IH. intros H. apply N. apply has_cons. auto.
Qed.
Lemma this_line f a t : ~ Has newline a -> at_some_line true f (a ++ String newline t) = f (a ++ String newline t)%string || at_some_line true f t.
Proof.
  intros N. destruct a as [|c a]; [reflexivity|]. cbn [append at_some_line andb]. f_equal.
  destruct (Ascii.eqb c newline) eqn:E; [apply Ascii.eqb_eq in E; subst; exfalso; apply N; apply has_cons; auto|]. apply next_line. intros H. apply N. apply has_cons. auto.
Qed.
Lemma lines_iff f : f ""%string = false -> forall ls, Forall (fun l => ~ Has newline (line_text l)) ls ->
  at_some_line true f (text_of ls) = true <-> exists l t, In l ls /\ f (line_text l ++ String newline t)%string = true /\ exists before after, ls = before ++ l :: after /\ t = text_of after.
Proof.
  intros F ls A. induction A as [|l ls N A IH]; cbn [text_of].
  - cbn. rewrite F. split; [discriminate|intros (l & t & [] & _)].
  - change "010"%char with newline. rewrite this_line by exact N. rewrite orb_true_iff, IH. split.
    + intros [H|(m & t & I & H & b & a & -> & ->)].
      * exists l, (text_of ls). split; [left; reflexivity|]. split; [exact H|]. exists [], ls. auto.
      * exists m, (text_of a). split; [right; exact I|]. split; [exact H|]. exists (l :: b), a. auto.
    + intros (m & t & I & H & [|x b] & a & E & ->); injection E as <- ->; [left; exact H|]. right. exists m, (text_of a). split; [apply in_or_app; right; left; reflexivity|]. split; [exact H|]. exists b, a. auto.
Qed.

(** ** Literal patterns *)
Lemma after_lits : forall p s r, after_items (lits p) s = Some r <-> s = (p ++ r)%string.
Proof.
  unfold lits. induction p as [|c p IH]; intros s r; cbn [list_ascii_of_string map after_items append].
  - split; [intros [= ->]; reflexivity|intros ->; reflexivity].
  - destruct s as [|d s]; [split; discriminate|]. destruct (Ascii.eqb_spec c d) as [<-|D].
    + rewrite IH. split; [intros ->; reflexivity|intros [= ->]; reflexivity].
    + split; [discriminate|intros [= E _]; congruence].
Qed.
Lemma somewhere_iff p : forall s, somewhere_in_line (lits p) s = true <-> exists a b, s = (a ++ p ++ b)%string /\ ~ Has newline a.
Proof.
  assert (Q : forall s, (match after_items (lits p) s with Some _ => true | None => false end) = true <-> exists b, s = (p ++ b)%string).
  { intros s. destruct (after_items (lits p) s) as [r|] eqn:E.
    - split; [|reflexivity]. intros _. exists r. apply after_lits. exact E.
    - split; [discriminate|]. intros (b & B). apply after_lits in B. congruence. }
  induction s as [|c s IH]; cbn [somewhere_in_line]; rewrite orb_true_iff, Q.
  - split.
    + intros [(b & E)|H]; [|discriminate]. exists ""%string, b. split; [exact E|apply has_nil].
    + intros (a & b & E & _). left. destruct a as [|d a]; [exists b; exact E|discriminate].
  - rewrite andb_true_iff, IH, negb_true_iff, Ascii.eqb_neq. split.
    + intros [(b & E)|(D & a & b & -> & N)]; [exists ""%string, b; split; [exact E|apply has_nil]|]. exists (String c a), b. split; [reflexivity|]. rewrite has_cons. intros [E|E]; [congruence|auto].
    + intros ([|d a] & b & E & N); [left; exists b; exact E|]. injection E as <- ->. right. rewrite has_cons in N. split; [intros ->; tauto|]. exists a, b. split; [reflexivity|tauto].
Qed.
Lemma items_plain : forall n, Plain n -> items n = lits n.
Proof.
  unfold lits. induction n as [|c n IH]; intros P; [reflexivity|]. cbn. assert (L : letter c = true) by (apply P; apply has_cons; auto).
  destruct (Ascii.eqb_spec c ".") as [->|_]; [discriminate L|]. destruct (Ascii.eqb_spec c "$") as [->|_]; [discriminate L|]. rewrite IH; [reflexivity|]. intros d H. apply P. apply has_cons. auto.
Qed.
Lemma lits_app a b : lits (a ++ b) = lits a ++ lits b.
Proof. unfold lits. induction a as [|c a IH]; [reflexivity|]. cbn. rewrite IH. reflexivity. Qed.
Lemma name_not n c : Name n -> letter c = false -> c <> "."%char -> c <> "$"%char -> ~ Has c n.
Proof. intros N L D E H. destruct (N c H) as [Q|[Q|Q]]; congruence. Qed.
Lemma plain_name n : Plain n -> Name n.
Proof. intros P c H. left. apply P. exact H. Qed.
Lemma pattern_plain n : Plain n -> Lit "@" :: items n ++ [Lit "("] = lits ("@" ++ n ++ "(").
Proof. intros P. rewrite (items_plain n P). cbn [append]. change (lits (String "@" (n ++ "(")%string)) with (Lit "@" :: lits (n ++ "(")%string). rewrite lits_app. reflexivity. Qed.

(** ** Dots *)
Lemma dots_after p : forall n m r, Dots n m -> ~ Has "$" n -> ~ Has newline m -> after_items (items n ++ p) (m ++ r) = after_items p r.
Proof.
  intros n m r D. revert r. induction D as [|c a b D IH|c a b D IH]; intros r NA NB; [reflexivity| |].
  - rewrite has_cons in NA, NB. cbn [items append app]. destruct (Ascii.eqb_spec c ".") as [->|_].
    + cbn [after_items]. apply IH; tauto.
    + destruct (Ascii.eqb_spec c "$") as [->|_]; [tauto|]. cbn [after_items app]. rewrite Ascii.eqb_refl. apply IH; tauto.
  - rewrite has_cons in NA, NB. cbn [items append app after_items]. rewrite Ascii.eqb_refl. cbn [app after_items]. destruct (Ascii.eqb_spec c newline) as [->|_]; [tauto|]. apply IH; tauto.
Qed.
Lemma somewhere_later p : forall a s r, ~ Has newline a -> after_items p s = Some r -> somewhere_in_line p (a ++ s) = true.
Proof.
  induction a as [|c a IH]; intros s r N E; cbn [append].
  - destruct s; cbn [somewhere_in_line]; rewrite E; reflexivity.
  - cbn [somewhere_in_line]. rewrite has_cons in N. destruct (Ascii.eqb_spec c newline) as [->|_]; [tauto|]. cbn [negb andb]. rewrite (IH s r); [apply orb_true_r|tauto|exact E].
Qed.
(** ** Dollars *)
Lemma no_newline_name n : Name n -> ~ Has newline n.
Proof. intros N. apply name_not; [exact N|reflexivity|discriminate|discriminate]. Qed.
Lemma stuck_at_end : forall n s, Name n -> (s = ""%string \/ exists t, s = String newline t) -> after_items (items n ++ [Lit "("]) s = None.
Proof.
  induction n as [|c n IH]; intros s N S; cbn [items app].
  - destruct S as [->|(t & ->)]; reflexivity.
  - assert (N' : Name n) by (intros d H; apply N; apply has_cons; auto).
    destruct (Ascii.eqb_spec c ".") as [->|_]; [destruct S as [->|(t & ->)]; reflexivity|]. destruct (Ascii.eqb_spec c "$") as [->|_].
    + destruct S as [->|(t & ->)]; cbn; apply IH; eauto.
    + destruct S as [->|(t & ->)]; [reflexivity|]. cbn [after_items]. destruct (Ascii.eqb_spec c newline) as [->|_]; [|reflexivity]. exfalso. apply (no_newline_name _ N). apply has_cons. auto.
Qed.
Lemma dollar_never : forall n s, Name n -> Has "$" n -> after_items (items n ++ [Lit "("]) s = None.
Proof.
  induction n as [|c n IH]; intros s N D; [destruct (has_nil _ D)|]. assert (N' : Name n) by (intros d H; apply N; apply has_cons; auto). cbn [items app].
  rewrite has_cons in D. destruct (Ascii.eqb_spec c ".") as [->|_].
  - destruct D as [D|D]; [discriminate|]. cbn [after_items]. destruct s as [|d s]; [reflexivity|]. destruct (Ascii.eqb d newline); [reflexivity|]. apply IH; assumption.
  - destruct (Ascii.eqb_spec c "$") as [->|C].
    + cbn [after_items]. destruct s as [|d s]; [apply stuck_at_end; auto|]. destruct (Ascii.eqb_spec d newline) as [->|_]; [|reflexivity]. apply stuck_at_end; eauto.
    + destruct D as [D|D]; [congruence|]. cbn [after_items]. destruct s as [|d s]; [reflexivity|]. destruct (Ascii.eqb c d); [|reflexivity]. apply IH; assumption.
Qed.
Lemma never_somewhere p : (forall s, after_items p s = None) -> forall s, somewhere_in_line p s = false.
Proof. intros P. induction s as [|c s IH]; cbn [somewhere_in_line]; rewrite P; [reflexivity|]. rewrite IH. apply andb_false_r. Qed.
Lemma never_line f : (forall s, f s = false) -> forall s b, at_some_line b f s = false.
Proof. intros F. induction s as [|c s IH]; intros b; cbn [at_some_line]; rewrite F, andb_false_r; [reflexivity|apply IH]. Qed.
