(** * More steps do not change the answer of a comparison of functions *)
From Coq Require Import String Ascii ZArith Arith Bool Lia List.
From Verif Require Import PyBase Funcomp_Model.
Import ListNotations.
Open Scope list_scope.
Open Scope nat_scope.

Section Fuel.
  Variable w : world.
  Variables fl fr : func.

  Definition le_cv (a b : comparer) : Prop := forall l r s x, a l r s = Some x -> b l r s = Some x.

  Lemma cmp_all_le a b : le_cv a b -> forall ls rs s x, cmp_all a ls rs s = Some x -> cmp_all b ls rs s = Some x.
  Proof.
    intros L. induction ls as [|l ls IH]; intros [|r rs] s x; cbn; auto.
    destruct (a l r s) as [[[|] s1]|] eqn:A; try discriminate; rewrite (L _ _ _ _ A); auto.
  Qed.
  Lemma cmp_operation_base_le a b i j s x : le_cv a b -> cmp_operation_base w a i j s = Some x -> cmp_operation_base w b i j s = Some x.
  Proof.
    intros L. unfold cmp_operation_base. destruct (a (VReg (i_reg i)) (VReg (i_reg j)) s) as [[[|] s1]|] eqn:A; try discriminate; rewrite (L _ _ _ _ A); auto.
    destruct (i_code i); auto. destruct (i_code j); auto.
    destruct (a (op 0 i) (op 0 j) s1) as [[[|] s2]|] eqn:B; try discriminate; rewrite (L _ _ _ _ B); auto.
    assert (Q : forall (c : bool) y, (if c then match cmp_all a (i_ops i) (i_ops j) s2 with None => None | Some (z, s3) => Some (z, false, s3) end else Some (false, false, s2)) = Some y ->
      (if c then match cmp_all b (i_ops i) (i_ops j) s2 with None => None | Some (z, s3) => Some (z, false, s3) end else Some (false, false, s2)) = Some y).
    { intros [|] y; auto. destruct (cmp_all a (i_ops i) (i_ops j) s2) as [[z s3]|] eqn:C; try discriminate. rewrite (cmp_all_le a b L _ _ _ _ C). auto. }
    destruct offset, offset0; auto.
  Qed.
  Lemma cmp_operation_le a b i j s x : le_cv a b -> cmp_operation w fl fr a i j s = Some x -> cmp_operation w fl fr b i j s = Some x.
  Proof.
    intros L. unfold cmp_operation. destruct (is_phi i && is_phi j); auto.
    destruct (cmp_operation_base w a i j s) as [[[z y] s1]|] eqn:A; try discriminate. rewrite (cmp_operation_base_le a b _ _ _ _ L A). auto.
  Qed.
  Lemma cmp_operands_le a b i j : le_cv a b -> forall ls rs k s x, cmp_operands w a i j k ls rs s = Some x -> cmp_operands w b i j k ls rs s = Some x.
  Proof.
    intros L. induction ls as [|l ls IH]; intros [|r rs] k s x; cbn; auto.
    destruct (a l r s) as [[[|] s1]|] eqn:A; try discriminate; rewrite (L _ _ _ _ A); auto.
  Qed.
  Lemma cmp_insts_le a b i j s x : le_cv a b -> cmp_insts w fl fr a i j s = Some x -> cmp_insts w fl fr b i j s = Some x.
  Proof.
    intros L. unfold cmp_insts. destruct (cmp_operation w fl fr a i (now s j) s) as [[[z y] s1]|] eqn:A; try discriminate.
    rewrite (cmp_operation_le a b _ _ _ _ L A). destruct z, y; auto. apply cmp_operands_le. exact L.
  Qed.
  Lemma cmp_values_S n : le_cv (cmp_values w fl fr n) (cmp_values w fl fr (S n)).
  Proof.
    induction n as [|n IH]; intros l r s x; [discriminate|]. remember (S n) as n'. cbn [cmp_values].
    rewrite Heqn' at 1. cbn [cmp_values].
    destruct (mem l (skipL s) && mem r (skipR s)).
    - destruct (inst_of fl l); auto. destruct (inst_of fr r); auto.
      match goal with |- match ?c with _ => _ end = _ -> _ => destruct c as [[z s1]|] eqn:A; [|discriminate] end.
      rewrite (cmp_insts_le _ _ _ _ _ _ IH A). auto.
    - destruct (_ || _); auto. destruct (replacement w fl fr true l s) as [y s1]. destruct (replacement w fl fr false r s1) as [z s2].
      destruct y, z; auto.
  Qed.
  Lemma cmp_values_le n m : n <= m -> le_cv (cmp_values w fl fr n) (cmp_values w fl fr m).
  Proof. induction 1 as [|m L IH]; intros l r s x A; [exact A|]. apply cmp_values_S, IH, A. Qed.

  Lemma find_match_le n m first b other begin : n <= m -> forall l passed s x,
    find_match w fl fr n first b other begin passed l s = Some x -> find_match w fl fr m first b other begin passed l s = Some x.
  Proof.
    intros L. pose proof (cmp_values_le n m L) as C. induction l as [|i l IH]; intros passed s x; cbn; auto.
    destruct (if first then cmp_insts w fl fr (cmp_values w fl fr n) i other s else cmp_insts w fl fr (cmp_values w fl fr n) other i s) as [[z s1]|] eqn:A; [|discriminate].
    assert (B : (if first then cmp_insts w fl fr (cmp_values w fl fr m) i other s else cmp_insts w fl fr (cmp_values w fl fr m) other i s) = Some (z, s1)) by (destruct first; eapply cmp_insts_le; eauto).
    rewrite B. destruct z; auto.
  Qed.
  Lemma find_reloc_le n m first b pl pr s x : n <= m -> find_reloc w fl fr n first b pl pr s = Some x -> find_reloc w fl fr m first b pl pr s = Some x.
  Proof.
    intros L. unfold find_reloc. destruct pl as [|i pl], pr as [|j pr]; auto. destruct first.
    - destruct (find_match w fl fr n true b j (i :: pl) [i] pl (undo i j s)) as [[[z q] s1]|] eqn:A; [|discriminate]. rewrite (find_match_le n m _ _ _ _ L _ _ _ _ A). auto.
    - destruct (find_match w fl fr n false b i (j :: pr) [j] pr (undo i j s)) as [[[z q] s1]|] eqn:A; [|discriminate]. rewrite (find_match_le n m _ _ _ _ L _ _ _ _ A). auto.
  Qed.
  Lemma cmp_blocks_S n : forall bl br al ar pl pr s x, cmp_blocks w fl fr n bl br al ar pl pr s = Some x -> cmp_blocks w fl fr (S n) bl br al ar pl pr s = Some x.
  Proof.
    induction n as [|n IH]; intros bl br al ar pl pr s x; [discriminate|]. remember (S n) as n'. cbn [cmp_blocks]. rewrite Heqn' at 1. cbn [cmp_blocks].
    assert (L : n <= n') by lia. destruct pl as [|i pl], pr as [|j pr]; auto. destruct (is_debug i); auto. destruct (is_debug j); auto.
    destruct (cmp_insts w fl fr (cmp_values w fl fr n) i j s) as [[z s1]|] eqn:A; [|discriminate]. rewrite (cmp_insts_le _ _ _ _ _ _ (cmp_values_le n n' L) A). destruct z.
    - destruct (r_status (reloc s1)); auto.
      + destruct (depends_on_reloc (if r_first (reloc s1) then i else j) s1) as [[|]|]; auto.
      + destruct (r_first (reloc s1) && Nat.eqb (i_reg i) (r_end (reloc s1))); auto. destruct (negb (r_first (reloc s1)) && Nat.eqb (i_reg j) (r_end (reloc s1))); auto.
    - destruct (may_skip w fl fr true _ i s1) as [k1 s2]. destruct (may_skip w fl fr false _ j s2) as [k2 s3].
      destruct (k1 || k2); auto. destruct (reordered w fl fr i j s3); auto. destruct (p_inverse w && (is_not w i && only_conditions w fl i)); auto.
      destruct (p_inverse w && (is_not w j && only_conditions w fr j)); [destruct (is_not w i); auto|].
      destruct (r_status (reloc s3)); auto.
      + destruct (p_relocations w); auto. destruct (find_reloc w fl fr n false br (i :: pl) (j :: pr) s3) as [[[[b ql] qr] s4]|] eqn:B; [|discriminate].
        rewrite (find_reloc_le n n' _ _ _ _ _ _ L B). destruct b; auto.
        destruct (find_reloc w fl fr n true bl ql qr s4) as [[[[b ql'] qr'] s5]|] eqn:C; [|discriminate]. rewrite (find_reloc_le n n' _ _ _ _ _ _ L C). destruct b; auto.
      + destruct (r_first (reloc (undo i j s3))); auto.
  Qed.
  Lemma cmp_blocks_le n m bl br al ar pl pr s x : n <= m -> cmp_blocks w fl fr n bl br al ar pl pr s = Some x -> cmp_blocks w fl fr m bl br al ar pl pr s = Some x.
  Proof. induction 1 as [|m L IH]; intros A; [exact A|]. apply cmp_blocks_S, IH, A. Qed.
  Lemma walk_S n : forall stack visited s x, walk w fl fr n stack visited s = Some x -> walk w fl fr (S n) stack visited s = Some x.
  Proof.
    induction n as [|n IH]; intros stack visited s x; [discriminate|]. remember (S n) as n'. cbn [walk]. rewrite Heqn' at 1. cbn [walk].
    assert (L : n <= n') by lia. destruct stack as [|[bl br] stack]; auto.
    destruct (cmp_values w fl fr n (VBlock bl) (VBlock br) s) as [[z s1]|] eqn:A; [|discriminate]. rewrite (cmp_values_le n n' L _ _ _ _ A). destruct z; auto.
    destruct (cmp_blocks w fl fr n bl br false false (block fl bl) (block fr br) s1) as [[z s2]|] eqn:B; [|discriminate]. rewrite (cmp_blocks_le n n' _ _ _ _ _ _ _ _ L B). destruct z; auto.
    destruct (terminator (block fl bl)); auto. destruct (terminator (block fr br)); auto. destruct (Nat.eqb _ _); auto. destruct (push _ _ stack visited); auto.
  Qed.
  Lemma walk_le n m stack visited s x : n <= m -> walk w fl fr n stack visited s = Some x -> walk w fl fr m stack visited s = Some x.
  Proof. induction 1 as [|m L IH]; intros A; [exact A|]. apply walk_S, IH, A. Qed.
  Lemma cmp_incoming_le n m v b : n <= m -> forall l s x, cmp_incoming w fl fr n v b l s = Some x -> cmp_incoming w fl fr m v b l s = Some x.
  Proof.
    intros L. induction l as [|[u c] l IH]; intros s x; cbn; auto. destruct (block_number (snL s) b) as [p sl], (block_number (snR s) c) as [q sr].
    destruct (Nat.eqb p q); auto. match goal with |- match ?c with _ => _ end = _ -> _ => destruct c as [[z s1]|] eqn:A; [|discriminate] end.
    rewrite (cmp_values_le n m L _ _ _ _ A). destruct z; auto.
  Qed.
  Lemma cmp_phis_le n m : n <= m -> forall l s x, cmp_phis w fl fr n l s = Some x -> cmp_phis w fl fr m l s = Some x.
  Proof.
    intros L. induction l as [|[p q] l IH]; intros s x; cbn; auto.
    assert (Q : forall x, cmp_phi w fl fr n p q s = Some x -> cmp_phi w fl fr m p q s = Some x).
    { clear x. unfold cmp_phi. destruct (Nat.eqb _ _); auto. generalize (incoming q) as rs. generalize (incoming p) as ls. clear p q IH. revert s.
      intros s ls rs. revert s. induction ls as [|[v b] ls IH]; intros s x; cbn; auto.
      destruct (cmp_incoming w fl fr n v b rs s) as [[z s1]|] eqn:A; [|discriminate]. rewrite (cmp_incoming_le n m _ _ L _ _ _ A). destruct z; auto. }
    destruct (cmp_phi w fl fr n p q s) as [[z s1]|] eqn:A; [|discriminate]. rewrite (Q _ eq_refl). destruct z; auto.
  Qed.
  Lemma cmp_args_le n m : n <= m -> forall k from s x, cmp_args w fl fr n k from s = Some x -> cmp_args w fl fr m k from s = Some x.
  Proof.
    intros L. induction k as [|k IH]; intros from s x; cbn; auto.
    destruct (cmp_values w fl fr n (VArg from) (VArg from) s) as [[z s1]|] eqn:A; [|discriminate]. rewrite (cmp_values_le n m L _ _ _ _ A). destruct z; auto.
  Qed.

  Theorem compare_le n m x : n <= m -> compare w fl fr n = Some x -> compare w fl fr m = Some x.
  Proof.
    intros L. unfold compare. destruct (_ && _); auto.
    destruct (cmp_args w fl fr n (f_args fl) 0 start) as [[z s0]|] eqn:A; [|discriminate]. rewrite (cmp_args_le n m L _ _ _ _ A). destruct z; auto.
    destruct (walk w fl fr n [(entry fl, entry fr)] [entry fl] s0) as [[z s1]|] eqn:B; [|discriminate]. rewrite (walk_le n m _ _ _ _ L B). destruct z; auto.
    destruct (r_status (reloc s1)); auto.
    destruct (cmp_phis w fl fr n (phis s1) s1) as [[z s2]|] eqn:C; [|discriminate]. rewrite (cmp_phis_le n m L _ _ _ C). auto.
  Qed.
  Corollary compare_one n m x y : compare w fl fr n = Some x -> compare w fl fr m = Some y -> x = y.
  Proof.
    intros A B. destruct (Nat.le_ge_cases n m) as [L|L].
    - pose proof (compare_le _ _ _ L A). congruence.
    - pose proof (compare_le _ _ _ L B). congruence.
  Qed.
End Fuel.
