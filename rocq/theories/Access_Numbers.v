(** * Accesses to fields: the numbers of the pointers *)
From Coq Require Import String Ascii ZArith Arith Bool Lia List.
From Verif Require Import PyBase Funcomp_Model Funcomp_Spec Funcomp_Inv Access_Model Access_Spec Access_Chain.
Import ListNotations.
Open Scope list_scope.
Open Scope nat_scope.

Lemma mem_false {A} {H : EqB A} (x : A) l : ~ In x l -> mem x l = false.
Proof. intros N. destruct (mem x l) eqn:E; [|reflexivity]. apply mem_In in E. contradiction. Qed.

Section Numbers.
  Variable w : world.
  Variables fl fr : func.

  Lemma replacement_l s v : simple_l fl s v -> replacement w fl fr true v s = (None, s).
  Proof.
    intros (_ & _ & R & _ & _ & I). unfold replacement. cbn [repl fn]. rewrite R. destruct (inst_of fl v) as [i|]; [|reflexivity].
    destruct (I i eq_refl) as (Z & C & _). rewrite <- zero_gep_iff in Z. apply not_true_is_false in Z. rewrite Z.
    destruct (i_code i) eqn:E; try reflexivity. exfalso. eapply C. reflexivity.
  Qed.
  Lemma replacement_r s v : simple_r fr s v -> replacement w fl fr false v s = (None, s).
  Proof.
    intros (_ & _ & R & _ & _ & I). unfold replacement. cbn [repl fn]. rewrite R. destruct (inst_of fr v) as [i|]; [|reflexivity].
    destruct (I i eq_refl) as (Z & C & _). rewrite <- zero_gep_iff in Z. apply not_true_is_false in Z. rewrite Z.
    destruct (i_code i) eqn:E; try reflexivity. exfalso. eapply C. reflexivity.
  Qed.
  Lemma simple_not_phi f a b c v : simple_value f a b c v -> phi_of f v = None.
  Proof.
    intros (_ & _ & _ & _ & _ & I). unfold phi_of. destruct (inst_of f v) as [i|]; [|reflexivity]. destruct (I i eq_refl) as (_ & _ & P).
    unfold is_phi. destruct (i_code i) eqn:E; try reflexivity. exfalso. eapply P. reflexivity.
  Qed.
  (** Values about which nothing but the numbers is known are compared by them. *)
  Lemma cmp_simple n s v u : simple_l fl s v -> simple_r fr s u ->
    cmp_values w fl fr (S n) v u s =
      let '(a, sl) := number (snL s) v in
      let '(b, sr) := number (snR s) u in
      if Nat.eqb a b then Some (true, set_sn s sl sr (if Nat.eqb (length sl) (S (length (snL s))) then dset (by_sn s) (length (snL s)) (v, u) else by_sn s))
      else Some (false, set_sn s sl sr (by_sn s)).
  Proof.
    intros V U. cbn [cmp_values]. pose proof (replacement_l s v V) as RV. pose proof (replacement_r s u U) as RU.
    pose proof (simple_not_phi _ _ _ _ _ V) as PV. pose proof (simple_not_phi _ _ _ _ _ U) as PU.
    destruct V as (A & B & _ & BV & CV & _). destruct U as (A' & B' & _ & BU & CU & _).
    rewrite (mem_false _ _ A), (mem_false _ _ B), (mem_false _ _ A'), (mem_false _ _ B'). cbn [andb orb]. rewrite RV, RU.
    assert (E : cmp_base w fl fr v u s = cmp_numbered fl fr v u s).
    { unfold cmp_base. destruct v; try (exfalso; eapply CV; reflexivity); destruct u; try (exfalso; eapply CU; reflexivity); reflexivity. }
    rewrite E. unfold cmp_numbered. destruct (number (snL s) v) as [a sl]. destruct (number (snR s) u) as [b sr]. rewrite BV, PV, PU. cbn [andb].
    destruct (Nat.eqb a b); [|reflexivity]. destruct (Nat.eqb (length sl) _); reflexivity.
  Qed.
  Lemma number_new sn v : dget sn v = None -> number sn v = (length sn, dset sn v (length sn)).
  Proof. unfold number. intros ->. reflexivity. Qed.
  Lemma number_old sn v k : dget sn v = Some k -> number sn v = (k, sn).
  Proof. unfold number. intros ->. reflexivity. Qed.
  Lemma dset_length sn (v : value) (k : nat) : dget sn v = None -> length (dset sn v k) = S (length sn).
  Proof.
    induction sn as [|[v' k'] sn IH]; cbn [dget dset length]; [reflexivity|]. destruct (eqb v v'); [discriminate|]. intros H. cbn [length]. rewrite (IH H). reflexivity.
  Qed.
  Lemma cmp_new n s v u : simple_l fl s v -> simple_r fr s u -> new_l s v -> new_r s u -> in_step s ->
    cmp_values w fl fr (S n) v u s = Some (true, set_sn s (dset (snL s) v (length (snL s))) (dset (snR s) u (length (snR s))) (dset (by_sn s) (length (snL s)) (v, u))).
  Proof.
    intros V U NV NU E. rewrite (cmp_simple n s v u V U), (number_new _ _ NV), (number_new _ _ NU). rewrite <- E, Nat.eqb_refl.
    rewrite (dset_length _ _ _ NV), Nat.eqb_refl. reflexivity.
  Qed.
  Lemma cmp_old n s v u : simple_l fl s v -> simple_r fr s u -> same_number s v u -> cmp_values w fl fr (S n) v u s = Some (true, s).
  Proof.
    intros V U (k & A & B). rewrite (cmp_simple n s v u V U), (number_old _ _ _ A), (number_old _ _ _ B), Nat.eqb_refl.
    rewrite (proj2 (Nat.eqb_neq (length (snL s)) (S (length (snL s))))) by lia. destruct s; reflexivity.
  Qed.
  Lemma cmp_different n s v u a : simple_l fl s v -> simple_r fr s u -> new_l s v -> dget (snR s) u = Some a -> a <> length (snL s) ->
    cmp_values w fl fr (S n) v u s = Some (false, set_sn s (dset (snL s) v (length (snL s))) (snR s) (by_sn s)).
  Proof.
    intros V U NV A D. rewrite (cmp_simple n s v u V U), (number_new _ _ NV), (number_old _ _ _ A). rewrite (proj2 (Nat.eqb_neq _ _)) by congruence. reflexivity.
  Qed.

  (** The comparison of two GEPs from the same pointer with different offsets. *)
  Variable to_int : inst -> bool.
  Lemma gep_offsets n i j a b s s1 s2 : i_code i = Gep (Some a) -> i_code j = Gep (Some b) -> a <> b -> now s j = j ->
    cmp_values w fl fr n (VReg (i_reg i)) (VReg (i_reg j)) s = Some (true, s1) -> cmp_values w fl fr n (op 0 i) (op 0 j) s1 = Some (true, s2) ->
    cmp_insts w fl fr (cmp_values w fl fr n) i j s = Some (false, s2).
  Proof.
    intros CI CJ D N E1 E2. unfold cmp_insts. rewrite N. unfold cmp_operation, is_phi. rewrite CI, CJ. cbn [andb]. unfold cmp_operation_base. rewrite E1, CI, CJ, E2.
    destruct (Z.eqb_spec a b); [contradiction|]. reflexivity.
  Qed.
  Lemma gep_registers n i j a b s s1 : i_code i = Gep (Some a) -> i_code j = Gep (Some b) -> now s j = j ->
    cmp_values w fl fr n (VReg (i_reg i)) (VReg (i_reg j)) s = Some (false, s1) ->
    cmp_insts w fl fr (cmp_values w fl fr n) i j s = Some (false, s1).
  Proof.
    intros CI CJ N E1. unfold cmp_insts. rewrite N. unfold cmp_operation, is_phi. rewrite CI, CJ. cbn [andb]. unfold cmp_operation_base. rewrite E1. reflexivity.
  Qed.
  Lemma dget_other (sn : dict value nat) v k u : u <> v -> dget (dset sn v k) u = dget sn u.
  Proof. intros N. apply dget_dset_other. exact N. Qed.

  (** Both accesses have a further instruction: the numbers stay in step. *)
  Lemma longer n i j cl cr ls' rs' zl zr p q za zb s :
    i_code i = Gep (Some za) -> i_code j = Gep (Some zb) -> za <> zb -> now s j = j ->
    unbroken to_int (op 0 i) (i :: cl) zl p -> unbroken to_int (op 0 j) (j :: cr) zr q -> ends to_int p ls' -> ends to_int q rs' -> same_bytes zl zr ->
    simple_l fl s (op 0 i) -> simple_r fr s (op 0 j) -> same_number s (op 0 i) (op 0 j) ->
    simple_l fl s (VReg (i_reg i)) -> simple_r fr s (VReg (i_reg j)) -> new_l s (VReg (i_reg i)) -> new_r s (VReg (i_reg j)) ->
    simple_l fl s p -> simple_r fr s q -> new_l s p -> new_r s q ->
    p <> VReg (i_reg i) -> q <> VReg (i_reg j) -> in_step s ->
    exists s', step w fl fr to_int (S n) (i :: cl ++ ls') (j :: cr ++ rs') s = Some (Some (ls', rs'), s') /\ same_number s' p q /\ in_step s'.
  Proof.
    intros CI CJ D N U1 U2 N1 N2 SB VI VJ SN GI GJ NI NJ VP VQ NP NQ PI QJ E.
    destruct SN as (k & KI & KJ).
    set (s1 := set_sn s (dset (snL s) (VReg (i_reg i)) (length (snL s))) (dset (snR s) (VReg (i_reg j)) (length (snR s))) (dset (by_sn s) (length (snL s)) (VReg (i_reg i), VReg (i_reg j)))).
    assert (OI : op 0 i <> VReg (i_reg i)) by (intros X; unfold new_l in NI; congruence).
    assert (OJ : op 0 j <> VReg (i_reg j)) by (intros X; unfold new_r in NJ; congruence).
    assert (C1 : cmp_values w fl fr (S n) (VReg (i_reg i)) (VReg (i_reg j)) s = Some (true, s1)) by (apply cmp_new; assumption).
    assert (C2 : cmp_values w fl fr (S n) (op 0 i) (op 0 j) s1 = Some (true, s1)).
    { apply cmp_old; [exact VI|exact VJ|]. exists k. unfold s1. cbn [snL snR set_sn]. rewrite !dget_other by assumption. auto. }
    set (s2 := set_sn s1 (dset (snL s1) p (length (snL s1))) (dset (snR s1) q (length (snR s1))) (dset (by_sn s1) (length (snL s1)) (p, q))).
    assert (E1 : in_step s1) by (unfold in_step, s1; cbn [snL snR set_sn]; rewrite !dset_length by assumption; unfold in_step in E; congruence).
    assert (NP1 : new_l s1 p) by (unfold new_l, s1; cbn [snL set_sn]; rewrite dget_other by assumption; exact NP).
    assert (NQ1 : new_r s1 q) by (unfold new_r, s1; cbn [snR set_sn]; rewrite dget_other by assumption; exact NQ).
    assert (C3 : cmp_values w fl fr (S n) p q s1 = Some (true, s2)) by (apply cmp_new; [exact VP|exact VQ|assumption|assumption|assumption]).
    exists s2. split; [|split].
    - unfold step. rewrite (gep_offsets (S n) i j za zb s s1 s1 CI CJ D N C1 C2), CI, CJ.
      eapply (field_access_complete to_int w fl fr (S n) i j cl cr ls' rs' zl zr p q s1 s1 true s2); eauto.
    - exists (length (snL s1)). unfold s2. cbn [snL snR set_sn]. rewrite !dget_dset_same. split; [reflexivity|]. rewrite E1. reflexivity.
    - unfold in_step, s2. cbn [snL snR set_sn]. rewrite !dset_length by assumption. rewrite E1. reflexivity.
  Qed.

  (** The second one begins with an unpacking by zeros. *)
  Lemma replacement_zero s j o : i_code j = Gep o -> inst_of fr (VReg (i_reg j)) = Some j -> by_zeros j -> dget (replR s) (VReg (i_reg j)) = None ->
    (exists k, dget (snR s) (op 0 j) = Some k) -> replacement w fl fr false (VReg (i_reg j)) s = (Some (op 0 j), s).
  Proof.
    intros C I Z R [k K]. unfold replacement. cbn [repl fn sn]. rewrite R, I, C. cbn [orb]. apply zero_gep_iff in Z. rewrite Z. cbn [andb orb].
    unfold dmem. rewrite K. rewrite orb_true_r. reflexivity.
  Qed.
  Lemma unpacked n i j cr ls' rs' zr q za zb s :
    i_code i = Gep (Some za) -> i_code j = Gep (Some zb) -> now s j = j ->
    by_zeros j -> inst_of fr (VReg (i_reg j)) = Some j -> ~ In (VReg (i_reg j)) (skipR s) -> ~ In (VReg (i_reg j)) (ignR s) -> dget (replR s) (VReg (i_reg j)) = None ->
    ends to_int (VReg (i_reg i)) ls' -> unbroken to_int (op 0 j) (j :: cr) zr q -> ends to_int q rs' -> same_bytes [za] zr ->
    simple_l fl s (op 0 i) -> simple_r fr s (op 0 j) -> same_number s (op 0 i) (op 0 j) ->
    simple_l fl s (VReg (i_reg i)) -> new_l s (VReg (i_reg i)) ->
    simple_r fr s q -> new_r s q -> (forall v k, dget (snL s) v = Some k -> k < length (snL s)) -> in_step s ->
    exists s', step w fl fr to_int (S (S n)) (i :: ls') (j :: cr ++ rs') s = Some (Some (ls', rs'), s') /\ same_number s' (VReg (i_reg i)) q /\ in_step s'.
  Proof.
    intros CI CJ N Z IJ SK IG RP N1 U2 N2 SB VI VJ SN GI NI VQ NQ BD E.
    destruct SN as (k & KI & KJ).
    assert (OI : op 0 i <> VReg (i_reg i)) by (intros X; unfold new_l in NI; congruence).
    set (s0 := note Replaced s).
    set (s1 := set_sn s0 (dset (snL s) (VReg (i_reg i)) (length (snL s))) (snR s) (by_sn s)).
    assert (C1 : cmp_values w fl fr (S (S n)) (VReg (i_reg i)) (VReg (i_reg j)) s = Some (false, s1)).
    { cbn [cmp_values]. pose proof GI as (A & B & _). rewrite (mem_false _ _ A), (mem_false _ _ B), (mem_false _ _ SK), (mem_false _ _ IG). cbn [andb orb].
      rewrite (replacement_l s _ GI), (replacement_zero s j _ CJ IJ Z RP (ex_intro _ k KJ)).
      change (cmp_values w fl fr (S n) (VReg (i_reg i)) (op 0 j) (note Replaced s) = Some (false, s1)).
      apply (cmp_different n s0 (VReg (i_reg i)) (op 0 j) k GI VJ NI KJ). pose proof (BD _ _ KI). cbn. lia. }
    assert (C2 : cmp_values w fl fr (S (S n)) (op 0 i) (op 0 j) s1 = Some (true, s1)).
    { apply cmp_old; [exact VI|exact VJ|]. exists k. unfold s1. cbn [snL snR set_sn]. rewrite dget_other by assumption. auto. }
    assert (C3 : cmp_values w fl fr (S (S n)) (VReg (i_reg i)) q s1 = Some (true, set_sn s1 (snL s1) (dset (snR s) q (length (snR s))) (by_sn s1))).
    { rewrite (cmp_simple (S n) s1 _ q GI VQ). unfold s1 at 1 2. cbn [snL snR set_sn]. rewrite (number_old _ _ (length (snL s)) (dget_dset_same _ _ _)), (number_new _ _ NQ).
      unfold in_step in E. rewrite <- E, Nat.eqb_refl. unfold s1 at 2. cbn [snL set_sn]. rewrite (dset_length _ _ _ NI).
      change (length (snL s1)) with (length (dset (snL s) (VReg (i_reg i)) (length (snL s)))). rewrite (dset_length _ _ _ NI).
      rewrite (proj2 (Nat.eqb_neq (S (length (snL s))) (S (S (length (snL s)))))) by lia. reflexivity. }
    eexists. split; [|split].
    - unfold step. rewrite (gep_registers (S (S n)) i j za zb s s1 CI CJ N C1), CI, CJ.
      apply (field_access_complete to_int w fl fr (S (S n)) i j [] cr ls' rs' [za] zr (VReg (i_reg i)) q s1 s1 true _); eauto.
      constructor; [apply moves_gep; exact CI|reflexivity|constructor].
    - exists (length (snL s)). unfold s1. cbn [snL snR set_sn]. rewrite !dget_dset_same. unfold in_step in E. rewrite E. auto.
    - unfold in_step, s1. cbn [snL snR set_sn]. rewrite !dset_length by assumption. unfold in_step in E. rewrite E. reflexivity.
  Qed.
End Numbers.
