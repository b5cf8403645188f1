(** Proofs about the indices and names of members (C116). *)
From Coq Require Import String Ascii ZArith Arith Bool Lia List.
From Verif Require Import PyBase Layout_Model Layout_Spec.
Import ListNotations.
Open Scope list_scope.
Open Scope Z_scope.

Definition the_name (m : dmember) : string := match m with Member n _ _ _ _ => n | Nonmember => "" end.
Lemma starts_same m : starts m -> exists n off size align bits, m = Member n off size align bits /\ same_index off bits = false.
Proof.
  destruct m as [n off size align bits|]; cbn; [|tauto]. intros H. exists n, off, size, align, bits. split; [reflexivity|].
  destruct H as [->| ->]; cbn; [reflexivity|]. rewrite Z.eqb_refl. reflexivity.
Qed.
Lemma joins_same m : joins m -> exists n off size bits, m = Member n off size 0 bits /\ same_index off bits = true.
Proof.
  destruct m as [n off size align bits|]; cbn; [|tauto]. intros (-> & s & -> & N). exists n, off, size, (Some s).
  split; [reflexivity|]. cbn. apply negb_true_iff, Z.eqb_neq, N.
Qed.
Lemma aligned_dec next m : starts m ->
  (if negb (Z.eqb (match m with Member _ _ _ a _ => a | _ => 0 end) 0)
      && negb (Z.eqb (next mod (match m with Member _ _ _ a _ => a | _ => 0 end)) 0) then true else false) = false <-> aligned next m.
Proof.
  destruct m as [n off size align bits|]; cbn; [|tauto]. intros _.
  destruct (Z.eqb_spec align 0) as [E|E]; cbn; [tauto|].
  destruct (Z.eqb_spec (next mod align) 0) as [F|F]; cbn; [tauto|]. split; [discriminate|tauto].
Qed.

(** Joined bit-fields leave the index where it is. *)
Lemma join_step more : Forall joins more -> Forall sized more -> forall (m : dmember) rest name index,
  (forall y, In y more -> ~ named name y) ->
  member_index_from (more ++ rest) name (index + 1) (end_of m) = member_index_from rest name (index + 1) (member_end m more).
Proof.
  induction 1 as [|y more J Js IH]; intros S m rest name index N; [reflexivity|].
  inversion S as [|? ? Sy Ss]; subst. destruct (joins_same y J) as (n & off & size & bits & -> & E).
  cbn [app member_index_from]. rewrite E. cbn [Z.eqb negb andb].
  destruct (String.eqb_spec n name) as [->|Nn]; [exfalso; apply (N (Member name off size 0 bits)); [left; reflexivity|reflexivity]|].
  cbn [sized] in Sy. assert (L : 0 <? size = true) by (apply Z.ltb_lt; exact Sy). rewrite L.
  replace (index + 1 - 1 + 1) with (index + 1) by lia.
  change (off + size) with (end_of (Member n off size 0 bits)).
  rewrite IH; [|exact Ss|intros; apply N; right; assumption].
  unfold member_end. destruct more as [|y0 more]; [reflexivity|].
  cbn [last]. f_equal. f_equal. clear. revert y0. induction more as [|z more IHm]; intros y0; [reflexivity|]. cbn [last]. apply IHm.
Qed.
Lemma join_find more : Forall joins more -> forall a x b (m : dmember) rest name index,
  more = a ++ x :: b -> Forall sized a -> (forall y, In y a -> ~ named name y) -> named name x ->
  member_index_from (more ++ rest) name (index + 1) (end_of m) = index.
Proof.
  intros J a x b m rest name index -> S N X. apply Forall_app in J. destruct J as (Ja & Jx).
  inversion Jx as [|? ? Jx0 Jb]; subst. rewrite <- app_assoc. rewrite join_step; [|exact Ja|exact S|exact N].
  destruct (joins_same x Jx0) as (n & off & size & bits & -> & E). cbn [app member_index_from]. rewrite E. cbn [Z.eqb negb andb].
  cbn in X. subst n. rewrite String.eqb_refl. lia.
Qed.

(** Over a whole slot *)
Definition pad (next : Z) (m : dmember) : Z := match m with Member _ _ _ a _ => if negb (Z.eqb a 0) && negb (Z.eqb (next mod a) 0) then 1 else 0 | _ => 0 end.
Lemma slot_step m more rest name index next : starts m -> Forall joins more -> Forall sized (m :: more) ->
  (forall y, In y (m :: more) -> ~ named name y) ->
  member_index_from ((m :: more) ++ rest) name index next = member_index_from rest name (index + pad next m + 1) (member_end m more).
Proof.
  intros St J S N. destruct (starts_same m St) as (n & off & size & align & bits & -> & E).
  inversion S as [|? ? Sm Ss]; subst. cbn [app member_index_from pad]. rewrite E.
  destruct (String.eqb_spec n name) as [->|Nn]; [exfalso; apply (N (Member name off size align bits)); [left; reflexivity|reflexivity]|].
  cbn [sized] in Sm. assert (L : 0 <? size = true) by (apply Z.ltb_lt; exact Sm). rewrite L.
  change (off + size) with (end_of (Member n off size align bits)).
  destruct (negb (align =? 0) && negb (next mod align =? 0)).
  - rewrite join_step; [reflexivity|exact J|exact Ss|intros; apply N; right; assumption].
  - rewrite join_step; [f_equal; lia|exact J|exact Ss|intros; apply N; right; assumption].
Qed.
Lemma slot_find m more a x b rest name index next : starts m -> Forall joins more ->
  (Forall sized (m :: more) \/ more = []) -> m :: more = a ++ x :: b -> (forall y, In y a -> ~ named name y) -> named name x ->
  member_index_from ((m :: more) ++ rest) name index next = index + pad next m.
Proof.
  intros St J S Sp N X. destruct (starts_same m St) as (n & off & size & align & bits & -> & E).
  cbn [app member_index_from pad]. rewrite E.
  destruct (String.eqb_spec n name) as [->|Nn]; [destruct (negb (align =? 0) && negb (next mod align =? 0)); lia|].
  destruct a as [|a0 a]; cbn [app] in Sp; injection Sp as E1 E2; [subst x; cbn in X; congruence|].
  destruct S as [S|S]; [|subst more; destruct a; discriminate].
  inversion S as [|? ? Sm Ss]; subst. cbn [sized] in Sm. assert (L : 0 <? size = true) by (apply Z.ltb_lt; exact Sm). rewrite L.
  change (off + size) with (end_of (Member n off size align bits)).
  apply Forall_app in Ss. destruct Ss as (Sa & _).
  destruct (negb (align =? 0) && negb (next mod align =? 0)).
  - rewrite (join_find (a ++ x :: b) J a x b) with (index := index + 1); [reflexivity|reflexivity|exact Sa|intros; apply N; right; assumption|exact X].
  - rewrite (join_find (a ++ x :: b) J a x b) with (index := index); [lia|reflexivity|exact Sa|intros; apply N; right; assumption|exact X].
Qed.
Lemma pad_aligned next m : aligned next m -> pad next m = 0.
Proof.
  destruct m as [n off size align bits|]; cbn; [|tauto]. intros [->|E]; [reflexivity|].
  rewrite E. cbn. rewrite andb_false_r. reflexivity.
Qed.
Lemma pad_unaligned next m : starts m -> ~ aligned next m -> pad next m = 1.
Proof.
  destruct m as [n off size align bits|]; cbn; [|tauto]. intros _ N.
  destruct (Z.eqb_spec align 0) as [E|E]; [tauto|]. destruct (Z.eqb_spec (next mod align) 0) as [F|F]; [tauto|]. reflexivity.
Qed.

Theorem index_of next l : laid next l -> forall index pre m more post a x b name,
  l = pre ++ Slot m more :: post -> m :: more = a ++ x :: b -> named name x ->
  (forall y, In y (members pre ++ a) -> ~ named name y) ->
  member_index_from (members l) name index next = index + Z.of_nat (length pre).
Proof.
  induction 1 as [next|next m more rest St J A S L IH|next m more rest St J A S L IH];
    intros index pre m' more' post a x b name E1 E2 X N.
  - destruct pre; discriminate.
  - destruct pre as [|p pre]; cbn [app] in E1.
    + injection E1 as <- <- ->. cbn [members flat_map held app length] in *. change (m :: more ++ flat_map held post) with ((m :: more) ++ flat_map held post).
      rewrite (slot_find m more a x b); [rewrite pad_aligned; [lia|exact A]|exact St|exact J|tauto|exact E2|exact N|exact X].
    + injection E1 as <- ->. destruct S as [S|(C & _)]; [|destruct pre; discriminate].
      change (members (Slot m more :: pre ++ Slot m' more' :: post)) with ((m :: more) ++ members (pre ++ Slot m' more' :: post)).
      change (members (Slot m more :: pre) ++ a) with (((m :: more) ++ members pre) ++ a) in N.
      rewrite slot_step; [|exact St|exact J|exact S|].
      * rewrite pad_aligned by exact A. rewrite (IH (index + 0 + 1) pre m' more' post a x b name eq_refl E2 X).
        -- cbn [length]. lia.
        -- intros y Iy. apply N. rewrite <- app_assoc. apply in_or_app. right. exact Iy.
      * intros y Iy. apply N. rewrite <- app_assoc. apply in_or_app. left. exact Iy.
  - destruct pre as [|p pre]; cbn [app] in E1; [discriminate|]. injection E1 as <- E1.
    destruct pre as [|p pre]; cbn [app] in E1.
    + injection E1 as <- <- ->. cbn [members flat_map held app length] in *.
      change (m :: more ++ flat_map held post) with ((m :: more) ++ flat_map held post).
      rewrite (slot_find m more a x b); [rewrite pad_unaligned; [lia|exact St|exact A]|exact St|exact J|tauto|exact E2|exact N|exact X].
    + injection E1 as <- ->. destruct S as [S|(C & _)]; [|destruct pre; discriminate].
      change (members (Padding :: Slot m more :: pre ++ Slot m' more' :: post)) with ((m :: more) ++ members (pre ++ Slot m' more' :: post)).
      change (members (Padding :: Slot m more :: pre) ++ a) with (((m :: more) ++ members pre) ++ a) in N.
      rewrite slot_step; [|exact St|exact J|exact S|].
      * rewrite pad_unaligned; [|exact St|exact A]. rewrite (IH (index + 1 + 1) pre m' more' post a x b name eq_refl E2 X).
        -- cbn [length]. lia.
        -- intros y Iy. apply N. rewrite <- app_assoc. apply in_or_app. right. exact Iy.
      * intros y Iy. apply N. rewrite <- app_assoc. apply in_or_app. left. exact Iy.
Qed.
Theorem index_missing els : forall name index next, (forall y, In y els -> ~ named name y) -> member_index_from els name index next = -1.
Proof.
  induction els as [|m els IH]; intros name index next N; [reflexivity|]. cbn [member_index_from].
  destruct m as [n off size align bits|]; [|apply IH; intros; apply N; right; assumption].
  destruct (String.eqb_spec n name) as [->|_]; [exfalso; apply (N (Member name off size align bits)); [left; reflexivity|reflexivity]|].
  apply IH. intros; apply N; right; assumption.
Qed.

(** ** Names *)
Lemma name_join more : Forall joins more -> forall rest cur index, cur <> index ->
  name_at_from (more ++ rest) cur index = name_at_from rest cur index.
Proof.
  induction 1 as [|y more J Js IH]; intros rest cur index N; [reflexivity|].
  destruct (joins_same y J) as (n & off & size & bits & -> & E). cbn [app name_at_from]. rewrite E. cbn [negb].
  rewrite andb_false_r. destruct (Z.eqb_spec cur index) as [C|_]; [contradiction|]. apply IH, N.
Qed.
Theorem name_of next l : laid next l -> no_padding l -> forall cur k m more,
  nth_error l k = Some (Slot m more) ->
  (forall k' m' more', nth_error l k' = Some (Slot m' more') -> 0 < offset_of m') ->
  name_at_from (members l) cur (cur + 1 + Z.of_nat k) = the_name m.
Proof.
  induction 1 as [next|next m more rest St J A Sz L IH|next m more rest St J A Sz L IH]; intros NP cur k m' more' K O.
  - destruct k; discriminate.
  - change (members (Slot m more :: rest)) with ((m :: more) ++ members rest).
    destruct (starts_same m St) as (n & off & size & align & bits & -> & E). cbn [app name_at_from]. rewrite E.
    specialize (O 0%nat) as O0. cbn [nth_error] in O0. specialize (O0 _ _ eq_refl). cbn [offset_of] in O0.
    assert (Lo : 0 <? off = true) by (apply Z.ltb_lt; exact O0). rewrite Lo. cbn [andb negb].
    destruct k as [|k]; cbn [nth_error] in K.
    + injection K as <- <-. rewrite (proj2 (Z.eqb_eq (cur + 1) (cur + 1 + Z.of_nat 0))) by lia. reflexivity.
    + destruct (Z.eqb_spec (cur + 1) (cur + 1 + Z.of_nat (S k))) as [C|C]; [lia|].
      rewrite name_join by (exact J || exact C).
      replace (cur + 1 + Z.of_nat (S k)) with (cur + 1 + 1 + Z.of_nat k) by lia.
      apply (IH (fun H => NP (or_intror H)) (cur + 1) k m' more' K). intros k' m'' more'' K'. apply (O (S k') m'' more''). exact K'.
  - exfalso. apply NP. left. reflexivity.
Qed.
Theorem name_of_slot l : laid 0 l -> no_padding l -> offsets l -> forall k m more, nth_error l k = Some (Slot m more) ->
  name_at (members l) (Z.of_nat k) = the_name m.
Proof.
  intros L NP O k m more K. unfold name_at. inversion L as [next|next m0 more0 rest St J A Sz L' E1 E2|next m0 more0 rest St J A Sz L' E1 E2]; subst.
  - destruct k; discriminate.
  - change (members (Slot m0 more0 :: rest)) with ((m0 :: more0) ++ members rest).
    pose proof (O 0%nat m0 more0 eq_refl) as (O0 & _). specialize (O0 eq_refl).
    destruct (starts_same m0 St) as (n & off & size & align & bits & -> & E). cbn [offset_of] in O0. subst off.
    cbn [app name_at_from]. cbn [Z.ltb Z.compare andb].
    destruct k as [|k]; cbn [nth_error] in K.
    + injection K as <- <-. reflexivity.
    + destruct (Z.eqb_spec 0 (Z.of_nat (S k))) as [C|C]; [lia|].
      rewrite name_join by (exact J || exact C). replace (Z.of_nat (S k)) with (0 + 1 + Z.of_nat k) by lia.
      apply (name_of _ rest L') with (more := more); [intros H; apply NP; right; exact H|exact K|].
      intros k' m' more' K'. apply (O (S k') m' more'); [exact K'|discriminate].
  - exfalso. apply NP. left. reflexivity.
Qed.
(** Past the last slot there is no name. *)
Theorem name_past next l : laid next l -> no_padding l -> forall cur index, cur + Z.of_nat (length l) < index ->
  name_at_from (members l) cur index = ""%string.
Proof.
  induction 1 as [next|next m more rest St J A Sz L IH|next m more rest St J A Sz L IH]; intros NP cur index B.
  - reflexivity.
  - change (members (Slot m more :: rest)) with ((m :: more) ++ members rest).
    destruct (starts_same m St) as (n & off & size & align & bits & -> & E). cbn [app name_at_from]. rewrite E. cbn [length] in B.
    set (cur' := if (0 <? off) && negb false then cur + 1 else cur).
    assert (B' : cur' <= cur + 1) by (unfold cur'; destruct ((0 <? off) && negb false); lia).
    destruct (Z.eqb_spec cur' index) as [C|C]; [lia|]. rewrite name_join by (exact J || exact C).
    apply IH; [intros H; apply NP; right; exact H|lia].
  - exfalso. apply NP. left. reflexivity.
Qed.

(** ** Names of types *)
Lemma no_dot s : has_char "."%char s = false -> before_last_dot s = None.
Proof.
  induction s as [|c s IH]; cbn [has_char before_last_dot]; [reflexivity|]. intros H. apply orb_false_iff in H. destruct H as (H1 & H2).
  rewrite IH by exact H2. rewrite Ascii.eqb_sym, H1. reflexivity.
Qed.
Lemma last_dot s t : has_char "."%char t = false -> before_last_dot (s ++ "." ++ t)%string = Some s.
Proof.
  intros H. induction s as [|c s IH]; cbn [append before_last_dot].
  - rewrite no_dot by exact H. reflexivity.
  - cbn [append] in IH. rewrite IH. reflexivity.
Qed.
