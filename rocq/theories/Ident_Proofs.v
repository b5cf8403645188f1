(** * Proofs about the names shown for values *)
From Coq Require Import String Ascii ZArith Arith Bool Lia List.
From Verif Require Import PyBase Source_Model Source_Proofs Reason_Model Reason_Spec Reason_Proofs Ident_Model Ident_Spec.
Import ListNotations.
Open Scope list_scope.

Lemma substring_all s t : substring 0 (String.length s) (s ++ t) = s.
Proof. induction s as [|c s IH]; cbn; [destruct t; reflexivity|]. rewrite IH. reflexivity. Qed.
Lemma unwrap_wrapped s : unwrap ("&(" ++ s ++ ")") = Some s.
Proof.
  unfold unwrap. cbn [append String.length]. destruct (Nat.ltb_spec (S (S (String.length (s ++ ")")))) 2); [lia|].
  cbn [substring]. f_equal. assert (L : String.length (s ++ ")") = S (String.length s)) by (rewrite length_app_s; cbn; lia). rewrite L. replace (S (S (S (String.length s))) - 3) with (String.length s) by lia. apply substring_all.
Qed.
Lemma last_index_app p a s : last_index p (a ++ s) = match last_index p s with Some n => Some (String.length a + n) | None => last_index p a end.
Proof.
  induction a as [|c a IH]; cbn; [destruct (last_index p s); reflexivity|]. rewrite IH. destruct (last_index p s); [reflexivity|]. reflexivity.
Qed.
Lemma last_index_none p s : last_index p s = None <-> forall a c b, s = (a ++ String c b)%string -> p c = false.
Proof.
  induction s as [|x s IH]; cbn.
  - split; [intros _ [|? ?] c b E; discriminate|reflexivity].
  - destruct (last_index p s) as [n|].
    + split; [discriminate|]. intros H. assert (Q : Some n = None) by (apply IH; intros a c b ->; apply (H (String x a) c b eq_refl)). discriminate.
    + destruct (p x) eqn:P.
      * split; [discriminate|]. intros H. specialize (H ""%string x s eq_refl). congruence.
      * split; [|reflexivity]. intros _ [|y a] c b E; cbn in E; injection E as <- E; [exact P|]. apply (proj1 IH eq_refl a c b E).
Qed.
Lemma drop_app a s : drop (String.length a) (a ++ s) = s.
Proof. induction a as [|c a IH]; cbn; [destruct s; reflexivity|exact IH]. Qed.
Lemma is_digit_iff c : is_digit c = true <-> 48 <= nat_of_ascii c <= 57.
Proof. unfold is_digit. rewrite andb_true_iff, !Nat.leb_le. reflexivity. Qed.
Lemma read_number s n : Reason_Spec.Number s n -> forall rest, read_digits None (s ++ rest) = read_digits (match s with ""%string => None | _ => Some n end) rest.
Proof.
  induction 1 as [|s n a H IH A]; intros rest; [reflexivity|]. rewrite Reason_Proofs.app_s_assoc. cbn [append]. rewrite IH. cbn [read_digits]. apply is_digit_iff in A. rewrite A.
  assert (E : match match s with ""%string => None | _ => Some n end with Some m => m | None => 0 end = n).
  { destruct s; [|reflexivity]. apply (number_fun ""%string); [constructor|exact H]. }
  rewrite E. destruct s; reflexivity.
Qed.
Lemma number_digit_only s n : Reason_Spec.Number s n -> forall a c b, s = (a ++ String c b)%string -> is_digit c = true.
Proof.
  induction 1 as [|s n x H IH X]; intros a c b E; [destruct a; discriminate|].
  destruct b as [|y b].
  - apply snoc_inj in E as (-> & ->). apply is_digit_iff. exact X.
  - assert (L : exists b' z, String y b = (b' ++ String z "")%string).
    { clear. revert y. induction b as [|z b IH]; intros y; [exists ""%string, y; reflexivity|]. destruct (IH z) as (b' & w & E). exists (String y b'), w. cbn. rewrite E. reflexivity. }
    destruct L as (b' & z & L). rewrite L in E. assert (E2 : (s ++ String x "")%string = ((a ++ String c b') ++ String z "")%string) by (rewrite E, Reason_Proofs.app_s_assoc; reflexivity).
    apply snoc_inj in E2 as (-> & _). apply (IH a c b' eq_refl).
Qed.
Lemma register_iff printed r : Register_text printed r -> register printed = Some r.
Proof.
  intros (a & d & rest & -> & D & N & P & Q). unfold register. rewrite last_index_app. cbn [append last_index].
  assert (E : last_index (Ascii.eqb "%") (d ++ rest) = None).
  { rewrite last_index_app. assert (E1 : last_index (Ascii.eqb "%") rest = None). { apply last_index_none. intros x c b E. destruct (Ascii.eqb_spec "%" c) as [<-|]; [|reflexivity]. destruct (P x b E). }
    rewrite E1. apply last_index_none. intros x c b E. pose proof (number_digit_only d r N x c b E) as G. destruct (Ascii.eqb_spec "%" c) as [<-|]; [discriminate|reflexivity]. }
  rewrite E. cbn [Ascii.eqb Bool.eqb]. change (Ascii.eqb "%" "%") with true. cbn match.
  rewrite Nat.add_0_r. assert (Dr : drop (S (String.length a)) (a ++ String "%" (d ++ rest)) = (d ++ rest)%string).
  { clear. induction a as [|c a IH]; [cbn; reflexivity|]. cbn [append String.length drop]. exact IH. }
  rewrite Dr. assert (Sk : skip_space (d ++ rest) = (d ++ rest)%string).
  { destruct d as [|c d]; [contradiction|]. pose proof (number_digit_only _ r N ""%string c d eq_refl) as G. cbn. destruct (Ascii.eqb_spec c " ") as [->|]; [discriminate|reflexivity]. }
  rewrite Sk, (read_number d r N). destruct d as [|c d]; [contradiction|]. destruct rest as [|x rest]; [reflexivity|]. cbn [read_digits]. destruct (is_digit x) eqn:X; [|reflexivity]. apply is_digit_iff in X. destruct (Q x rest eq_refl X).
Qed.
Lemma drop_S_app c a s : drop (S (String.length a)) (String c a ++ s) = s.
Proof. cbn. apply drop_app. Qed.
Lemma type_shown t n : Type_shown t n -> type_name t = Some n.
Proof.
  induction 1 as [|b d N ->|x fs|x fs|t s _ IH|]; cbn; try reflexivity.
  - destruct (Nat.eqb_spec b 1); [contradiction|reflexivity].
  - rewrite IH. reflexivity.
Qed.
Scheme Is_mut := Minimality for Is Sort Prop with Place_mut := Minimality for Place Sort Prop.
Combined Scheme Is_Place_ind from Is_mut, Place_mut.
Lemma proper_print f : (forall v e, Is f v e -> Proper (print e)) /\ (forall v e, Place f v e -> Proper (print e)).
Proof.
  assert (G : forall s t, Proper s -> Proper (s ++ t)).
  { intros [|c s] t (A & B); [contradiction|]. split; [discriminate|]. intros r E. cbn in E. injection E as -> _. apply (B s). reflexivity. }
  assert (B : forall e, Proper (print e) -> Proper (match e with Deref _ => "(" ++ print e ++ ")" | _ => print e end)%string).
  { intros e P. destruct e; try exact P. split; [discriminate|]. intros r E. discriminate. }
  apply (Is_Place_ind f (fun _ e => Proper (print e)) (fun _ e => Proper (print e))); auto.
  - intros t n v e _ _ _. split; [discriminate|]. intros r E. discriminate.
  - intros v e _ _. split; [discriminate|]. intros r E. discriminate.
  - intros v s fields k x e zero text _ P _. cbn [print]. apply G, B, P.
  - intros v t i e ie zero _ P _ _ _. cbn [print]. apply G, B, P.
Qed.
Lemma shown f : (forall v e, Is f v e -> Simple e -> ident (Some f) v = Some (print e)) /\ (forall v e, Place f v e -> Simple e -> ident (Some f) v = Some ("&(" ++ print e ++ ")")%string).
Proof.
  destruct (proper_print f) as (PI & PP).
  assert (B : forall b, (forall x, b <> Deref x) -> match b with Deref _ => "(" ++ print b ++ ")" | _ => print b end%string = print b) by (intros b N; destruct b; try reflexivity; destruct (N b eq_refl)).
  apply (Is_Place_ind f (fun v e => Simple e -> ident (Some f) v = Some (print e)) (fun v e => Simple e -> ident (Some f) v = Some ("&(" ++ print e ++ ")")%string)); try reflexivity.
  - intros printed r x nodes R L Re N P S. cbn. rewrite (register_iff _ _ R). destruct (Nat.leb_spec (arguments f) r); [lia|]. rewrite Re, N. reflexivity.
  - intros v e H I S. cbn. exact (I S).
  - intros t n v e T H I S. cbn in S |- *. rewrite (type_shown _ _ T), (I S). reflexivity.
  - intros v e H I S. cbn [ident]. rewrite (I S). exact (unwrap_wrapped (print e)).
  - intros v e H I S. cbn [Simple ident print] in S |- *. rewrite (I S). destruct (PI v e H) as (_ & P). destruct (print e) as [|c s]; [reflexivity|].
    destruct c as [[] [] [] [] [] [] [] []]; try reflexivity. destruct (P s eq_refl).
  - intros v s fields k x e zero text H I N S. destruct S as (S & D). cbn [ident]. rewrite (I S). cbn [andb]. rewrite N. cbn [print]. rewrite (B e D), !Reason_Proofs.app_s_assoc. rewrite andb_false_r. reflexivity.
  - intros v t i e ie zero H I HI II N S. destruct S as (S & SI & D). pose proof (PI i ie HI) as (NE & _). cbn [ident]. rewrite (I S). cbn [andb]. rewrite (II SI), (unwrap_wrapped (print e)).
    assert (Q : String.eqb (print ie) "" = false) by (apply String.eqb_neq; exact NE). rewrite Q. cbn [print]. rewrite (B e D). rewrite !Reason_Proofs.app_s_assoc.
    rewrite andb_false_r. destruct t; [destruct (N _ _ eq_refl)|reflexivity..].
Qed.
