(** * Accesses to fields: what is found equal, and the addresses *)
From Coq Require Import String Ascii ZArith Arith Bool Lia List.
From Verif Require Import PyBase Funcomp_Model Funcomp_Spec Funcomp_Inv Access_Model Access_Spec.
Import ListNotations.
Open Scope list_scope.
Open Scope Z_scope.

Lemma as_int_truncated z : truncated z (as_int z).
Proof.
  unfold truncated, small, as_int. pose proof (Z.mod_pos_bound z (2 ^ 32) ltac:(lia)) as B. pose proof (Z.div_mod z (2 ^ 32) ltac:(lia)) as D.
  destruct (Z.ltb_spec (z mod 2 ^ 32) (2 ^ 31)) as [L|L]; (split; [lia|]).
  - exists (z / 2 ^ 32). lia.
  - exists (z / 2 ^ 32 + 1). lia.
Qed.
Lemma truncated_unique z t u : truncated z t -> truncated z u -> t = u.
Proof. intros [A [k K]] [B [m M]]. unfold small in *. nia. Qed.
Lemma small_truncated z : small z -> truncated z z.
Proof. intros S. split; [exact S|]. exists 0. lia. Qed.

Section Chain.
  Variable to_int : inst -> bool.

  Lemma access_moves i p t : access_to to_int i p = Some t -> exists z, moves to_int i z /\ op 0 i = p /\ truncated z t.
  Proof.
    unfold access_to. destruct (i_code i) as [| | | | |b|o| | | | | | | |] eqn:C; try discriminate.
    - destruct (to_int i) eqn:T; [discriminate|]. destruct (value_eqb_spec p (op 0 i)) as [E|E]; [|discriminate]. intros H. injection H as <-.
      exists 0. split; [eapply moves_cast; eassumption|]. split; [congruence|]. apply small_truncated. unfold small. lia.
    - destruct (value_eqb_spec p (op 0 i)) as [E|E]; [|discriminate]. destruct o as [z|]; [|discriminate]. intros H. injection H as <-.
      exists z. split; [apply moves_gep, C|]. split; [congruence|]. apply as_int_truncated.
  Qed.
  Lemma moves_access i z p : moves to_int i z -> op 0 i = p -> exists t, access_to to_int i p = Some t /\ truncated z t.
  Proof.
    intros M <-. unfold access_to. destruct M as [i z C|i b C T]; rewrite C.
    - destruct (value_eqb_spec (op 0 i) (op 0 i)); [|congruence]. exists (as_int z). split; [reflexivity|apply as_int_truncated].
    - rewrite T. destruct (value_eqb_spec (op 0 i) (op 0 i)); [|congruence]. exists 0. split; [reflexivity|]. apply small_truncated. unfold small. lia.
  Qed.
  Lemma along_sound l : forall p a q b rest, along to_int p a l = (q, b, rest) ->
    exists c zs ts, l = c ++ rest /\ unbroken to_int p c zs q /\ ends to_int q rest /\ Forall2 truncated zs ts /\ b mod 2 ^ 64 = (a + sum ts) mod 2 ^ 64 /\ (b = a /\ c = [] \/ 0 <= b < 2 ^ 64).
  Proof.
    induction l as [|i l IH]; intros p a q b rest H; cbn [along] in H.
    - injection H as <- <- <-. exists [], [], []. repeat split; [constructor| |constructor| |left; auto].
      + intros i r z E. discriminate.
      + cbn. rewrite Z.add_0_r. reflexivity.
    - destruct (access_to to_int i p) as [t|] eqn:A.
      + destruct (access_moves i p t A) as (z & M & O & T). apply IH in H. destruct H as (c & zs & ts & E & U & N & F & S & R).
        exists (i :: c), (z :: zs), (t :: ts). repeat split.
        * rewrite E. reflexivity.
        * constructor; assumption.
        * exact N.
        * constructor; assumption.
        * rewrite S. unfold add64. cbn [sum fold_right]. fold (sum ts). rewrite Z.add_mod_idemp_l by lia. f_equal. lia.
        * right. destruct R as [[-> ->]|R]; [|exact R]. unfold add64. apply Z.mod_pos_bound. lia.
      + injection H as <- <- <-. exists [], [], []. repeat split; [constructor| |constructor| |left; auto].
        * intros i' r z E M O. injection E as <- <-. destruct (moves_access i z p M O) as (t & X & _). congruence.
        * cbn. rewrite Z.add_0_r. reflexivity.
  Qed.
  Lemma along_complete c rest : forall p a zs q, unbroken to_int p c zs q -> ends to_int q rest ->
    exists b ts, along to_int p a (c ++ rest) = (q, b, rest) /\ Forall2 truncated zs ts /\ b mod 2 ^ 64 = (a + sum ts) mod 2 ^ 64 /\ (b = a /\ c = [] \/ 0 <= b < 2 ^ 64).
  Proof.
    induction c as [|i c IH]; intros p a zs q U N; inversion U as [p0|p0 i0 l0 z zs0 q0 M0 O0 U0]; subst.
    - exists a, []. repeat split; [|constructor|cbn; rewrite Z.add_0_r; reflexivity|left; auto].
      cbn [app]. destruct rest as [|i rest]; [reflexivity|]. cbn [along]. destruct (access_to to_int i q) as [t|] eqn:A; [|reflexivity].
      exfalso. destruct (access_moves i q t A) as (z & M & O & _). exact (N i rest z eq_refl M O).
    - destruct (moves_access i z _ M0 eq_refl) as (t & A & T).
      destruct (IH _ (add64 a t) _ _ U0 N) as (b & ts & E & F & S & R). exists b, (t :: ts). cbn [app along]. rewrite A. split; [exact E|]. split; [constructor; assumption|]. split.
      + rewrite S. unfold add64. cbn [sum fold_right]. fold (sum ts). rewrite Z.add_mod_idemp_l by lia. f_equal. lia.
      + right. destruct R as [[-> ->]|R]; [|exact R]. unfold add64. apply Z.mod_pos_bound. lia.
  Qed.
  Lemma truncated_all zs : forall ts us, Forall2 truncated zs ts -> Forall2 truncated zs us -> ts = us.
  Proof.
    induction zs as [|z zs IH]; intros ts us A B; inversion A; inversion B; subst; [reflexivity|]. f_equal; [eapply truncated_unique; eassumption|apply IH; assumption].
  Qed.
  Lemma small_all zs : Forall small zs -> Forall2 truncated zs zs.
  Proof. induction 1; constructor; [apply small_truncated; assumption|assumption]. Qed.
  Lemma unbroken_address address l : forall p zs q, computed to_int address l -> unbroken to_int p l zs q -> address q mod 2 ^ 64 = (address p + sum zs) mod 2 ^ 64.
  Proof.
    induction l as [|i l IH]; intros p zs q C U; inversion U as [p0|p0 i0 l0 z zs0 q0 M0 O0 U0]; subst; cbn [sum fold_right].
    - rewrite Z.add_0_r. reflexivity.
    - rewrite (IH _ _ _ (fun j y J => C j y (or_intror J)) U0). rewrite <- Z.add_mod_idemp_l by lia. rewrite (C i z (or_introl eq_refl) M0).
      rewrite Z.add_mod_idemp_l by lia. f_equal. fold (sum zs0). lia.
  Qed.

  Variable w : world.
  Variables fl fr : func.
  Lemma first_step i l z p : i_code i = Gep (Some z) -> op 0 i = p -> exists t, along to_int p 0 (i :: l) = along to_int (VReg (i_reg i)) t l /\ 0 <= t < 2 ^ 64.
  Proof.
    intros C O. destruct (moves_access i z p (moves_gep _ _ _ C) O) as (t & A & _). cbn [along]. rewrite A. eexists. split; [reflexivity|].
    unfold add64. apply Z.mod_pos_bound. lia.
  Qed.
  Lemma field_access_sound n ls rs s ls' rs' s' : field_access w fl fr to_int n ls rs s = Some (Some (ls', rs'), s') ->
    exists i j cl cr zl zr p q s1 b,
      ls = i :: cl ++ ls' /\ rs = j :: cr ++ rs' /\ (exists z, i_code i = Gep (Some z)) /\ (exists z, i_code j = Gep (Some z)) /\
      cmp_values w fl fr n (op 0 i) (op 0 j) s = Some (true, s1) /\ cmp_values w fl fr n p q s1 = Some (b, s') /\
      unbroken to_int (op 0 i) (i :: cl) zl p /\ unbroken to_int (op 0 j) (j :: cr) zr q /\ ends to_int p ls' /\ ends to_int q rs' /\ same_bytes zl zr.
  Proof.
    unfold field_access. destruct ls as [|i ls]; [discriminate|]. destruct rs as [|j rs]; [discriminate|].
    destruct (i_code i) as [| | | | | |[zi|]| | | | | | | |] eqn:CI; try discriminate.
    destruct (i_code j) as [| | | | | |[zj|]| | | | | | | |] eqn:CJ; try discriminate.
    destruct (cmp_values w fl fr n (op 0 i) (op 0 j) s) as [[[|] s1]|] eqn:V; try discriminate.
    destruct (first_step i ls zi (op 0 i) CI eq_refl) as (ti & EI & BI). destruct (first_step j rs zj (op 0 j) CJ eq_refl) as (tj & EJ & BJ).
    destruct (along to_int (op 0 i) 0 (i :: ls)) as [[p a] l1] eqn:AL. destruct (along to_int (op 0 j) 0 (j :: rs)) as [[q b] r1] eqn:AR.
    destruct (Z.eqb_spec a b) as [E|E]; [|discriminate]. destruct (cmp_values w fl fr n p q s1) as [[c s2]|] eqn:F; [|discriminate].
    intros H. injection H as <- <- <-.
    destruct (along_sound _ _ _ _ _ _ AL) as (cl & zl & tl & E1 & U1 & N1 & F1 & S1 & R1).
    destruct (along_sound _ _ _ _ _ _ AR) as (cr & zr & tr & E2 & U2 & N2 & F2 & S2 & R2).
    assert (X : exists cl0, cl = i :: cl0 /\ ls = cl0 ++ l1).
    { destruct cl as [|i0 cl]; [|injection E1 as <- ->; eauto]. exfalso. inversion U1; subst. eapply N1; [symmetry; exact E1|apply moves_gep; exact CI|reflexivity]. }
    assert (Y : exists cr0, cr = j :: cr0 /\ rs = cr0 ++ r1).
    { destruct cr as [|j0 cr]; [|injection E2 as <- ->; eauto]. exfalso. inversion U2; subst. eapply N2; [symmetry; exact E2|apply moves_gep; exact CJ|reflexivity]. }
    destruct X as (cl0 & -> & ->). destruct Y as (cr0 & -> & ->).
    exists i, j, cl0, cr0, zl, zr, p, q, s1, c. do 2 (split; [reflexivity|]). split; [exists zi; exact CI|]. split; [exists zj; exact CJ|]. split; [exact V|]. split; [exact F|]. repeat (split; [assumption|]).
    exists tl, tr. split; [exact F1|]. split; [exact F2|]. rewrite Z.add_0_l in S1, S2. congruence.
  Qed.
  Lemma field_access_complete n i j cl cr ls' rs' zl zr p q s s1 b s' :
    (exists z, i_code i = Gep (Some z)) -> (exists z, i_code j = Gep (Some z)) ->
    cmp_values w fl fr n (op 0 i) (op 0 j) s = Some (true, s1) -> cmp_values w fl fr n p q s1 = Some (b, s') ->
    unbroken to_int (op 0 i) (i :: cl) zl p -> unbroken to_int (op 0 j) (j :: cr) zr q -> ends to_int p ls' -> ends to_int q rs' -> same_bytes zl zr ->
    field_access w fl fr to_int n (i :: cl ++ ls') (j :: cr ++ rs') s = Some (Some (ls', rs'), s').
  Proof.
    intros [zi CI] [zj CJ] V F U1 U2 N1 N2 (tl & tr & F1 & F2 & S).
    destruct (along_complete (i :: cl) ls' _ 0 _ _ U1 N1) as (a & tl' & A1 & F1' & S1 & R1).
    destruct (along_complete (j :: cr) rs' _ 0 _ _ U2 N2) as (c & tr' & A2 & F2' & S2 & R2).
    rewrite (truncated_all _ _ _ F1' F1), Z.add_0_l in S1. rewrite (truncated_all _ _ _ F2' F2), Z.add_0_l in S2.
    unfold field_access. rewrite CI, CJ, V. cbn [app] in A1, A2. rewrite A1, A2.
    assert (E : a = c).
    { destruct R1 as [[_ X]|R1]; [discriminate|]. destruct R2 as [[_ X]|R2]; [discriminate|]. rewrite (Z.mod_small a) in S1 by exact R1. rewrite (Z.mod_small c) in S2 by exact R2. congruence. }
    rewrite E, Z.eqb_refl, F. reflexivity.
  Qed.
End Chain.
