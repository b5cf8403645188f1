(** * Property C161: what of two instructions is compared
    (diffkemp/simpll/llvm-lib/15/FunctionComparator.cpp,
    diffkemp/simpll/DifferentialFunctionComparator.cpp). *)
From Coq Require Import String Ascii ZArith Arith Bool Lia List.
From Verif Require Import PyBase Inst_Model Inst_Spec.
Import ListNotations.
Open Scope list_scope.
Open Scope Z_scope.

Lemma or_else_zero a b : or_else a b = 0 <-> a = 0 /\ b = 0.
Proof. unfold or_else; destruct (Z.eqb_spec a 0); lia. Qed.
Lemma numbers_zero a b : cmp_numbers a b = 0 <-> a = b.
Proof. unfold cmp_numbers. rewrite Z.gtb_ltb. destruct (Z.ltb_spec a b), (Z.ltb_spec b a); lia. Qed.
Lemma bools_zero a b : cmp_bools a b = 0 <-> a = b.
Proof. unfold cmp_bools; rewrite numbers_zero; destruct a, b; split; intros; congruence. Qed.
Lemma ints_zero a b : cmp_ints a b = 0 <-> a = b.
Proof.
  destruct a as [w x], b as [v y]; unfold cmp_ints; simpl. rewrite or_else_zero, numbers_zero, !Z.gtb_ltb.
  destruct (Z.ltb_spec y x), (Z.ltb_spec x y); split; try (intros [? ?]; lia); try (intros [= ? ?]; lia).
  intros [-> _]; f_equal; lia.
Qed.
Lemma strings_zero a b : cmp_strings a b = 0 <-> a = b.
Proof.
  assert (refl : String.compare b b = Eq) by (pose proof (String.compare_antisym b b) as H; destruct (String.compare b b); [reflexivity | discriminate | discriminate]).
  unfold cmp_strings. destruct (String.compare a b) eqn:E.
  - apply String.compare_eq_iff in E; tauto.
  - split; [discriminate|]. intros ->; congruence.
  - split; [discriminate|]. intros ->; congruence.
Qed.
Lemma lists_zero {A} (cmp : A -> A -> Z) l m : cmp_lists cmp l m = 0 <-> Forall2 (fun x y => cmp x y = 0) l m.
Proof.
  unfold cmp_lists. rewrite or_else_zero, numbers_zero. revert m; induction l as [|x l IH]; intros [|y m]; simpl.
  - split; [constructor | split; reflexivity].
  - split; [intros [? _]; lia | intros K; inversion K].
  - split; [intros [? _]; lia | intros K; inversion K].
  - rewrite or_else_zero. split.
    + intros (H1 & H2 & H3). constructor; [exact H2|]. apply IH; split; [lia | exact H3].
    + intros K; inversion K; subst. apply IH in H4; destruct H4. repeat split; try assumption; lia.
Qed.
Lemma Forall2_eq {A} (R : A -> A -> Prop) l m : (forall x y, R x y <-> x = y) -> Forall2 R l m <-> l = m.
Proof.
  intros H; split.
  - induction 1 as [|x y l m K _ IH]; [reflexivity|]. apply H in K; subst; reflexivity.
  - intros ->. induction m; constructor; [apply H; reflexivity | assumption].
Qed.
Lemma number_lists_zero l m : cmp_lists cmp_numbers l m = 0 <-> l = m.
Proof. rewrite lists_zero; apply Forall2_eq, numbers_zero. Qed.
Lemma range_zero a b : cmp_range a b = 0 <-> a = b.
Proof.
  destruct a as [l|], b as [m|]; simpl; try (split; [discriminate | congruence]); [|tauto].
  rewrite lists_zero, (Forall2_eq _ l m ints_zero). split; congruence.
Qed.
Lemma bundles_zero a b : cmp_bundles a b = 0 <-> a = b.
Proof.
  unfold cmp_bundles. rewrite lists_zero. apply Forall2_eq. intros [s x] [t y]; simpl. rewrite or_else_zero, strings_zero, numbers_zero.
  split; [intros [-> ->]; reflexivity | intros [= -> ->]; auto].
Qed.
Lemma pred_number_same p q : pred_number p = pred_number q <-> p = q.
Proof.
  split; [|intros ->; reflexivity]. destruct p as [| |[]|[]|[]|[]], q as [| |[]|[]|[]|[]]; simpl; intros H; try reflexivity; discriminate.
Qed.
Lemma unsigned_same p q : unsigned p = unsigned q <-> up_to_sign p q.
Proof.
  split.
  - destruct p, q; simpl; intros H; try discriminate; constructor.
  - intros []; reflexivity.
Qed.

(** Numbers with a point are the same iff their format and their bits are; so zero differs from
    minus zero, and what is not a number is the same as itself. *)
Theorem C161_floats : forall a b, cmp_floats a b = 0 <-> a = b.
Proof.
  intros [p x n s b] [p' x' n' s' b']; unfold cmp_floats; simpl. rewrite !or_else_zero, !numbers_zero, ints_zero.
  split; [intros (-> & -> & -> & -> & [= ->]); reflexivity | intros [= -> -> -> -> ->]; auto].
Qed.

Section Proofs.
  Variable ty : Type.
  Variable cmp_types : ty -> ty -> Z.
  Variable struct_name : ty -> option string.
  Notation alike := (fun t u => cmp_types t u = 0).

  Ltac zeros := rewrite ?or_else_zero, ?numbers_zero, ?bools_zero, ?range_zero, ?bundles_zero, ?number_lists_zero, ?pred_number_same in *.

  Lemma special_zero a b (pa : proper a) (pb : proper b) :
    opcode ty (i_special ty a) = opcode ty (i_special ty b) /\ cmp_special ty cmp_types (i_special ty a) (i_special ty b) = 0
    <-> same_special ty alike (i_special ty a) (i_special ty b).
  Proof.
    unfold proper in *. destruct a as [a ta fa oa ma], b as [b tb fb ob mb]; simpl in *. split.
    - intros [H K]. destruct a, b; simpl in H; try discriminate H;
        try (repeat match goal with H : _ = (if ?x then _ else _) |- _ => destruct x | H : (if ?x then _ else _) = _ |- _ => destruct x end; discriminate H);
        simpl in K; zeros;
        try (exfalso; simpl in pa, pb; repeat match goal with H : _ = (if ?x then _ else _) |- _ => destruct x | H : (if ?x then _ else _) = _ |- _ => destruct x end; intuition congruence).
      + destruct K as [K1 ->]; constructor; exact K1.
      + destruct K as (-> & -> & -> & -> & ->); constructor.
      + destruct K as (-> & -> & -> & ->); constructor.
      + subst; constructor.
      + subst; constructor.
      + destruct K as (-> & _ & -> & K & ->). assert (kind = kind0) as <- by (destruct pa as [-> | [-> | ->]], pb as [-> | [-> | ->]]; simpl in H; try discriminate H; reflexivity).
        destruct pa as [-> | pa]; [simpl in K; apply (proj1 (numbers_zero _ _)) in K; subst; apply same_call | apply same_invoke; exact pa].
      + subst; constructor.
      + subst; constructor.
      + destruct K as (-> & ->); constructor.
      + destruct K as (-> & -> & -> & -> & ->); constructor.
      + destruct K as (-> & -> & -> & ->); constructor.
      + subst; constructor.
      + constructor.
      + subst; constructor.
    - intros S; inversion S; subst; split; try reflexivity; simpl; zeros; repeat split; try reflexivity; try assumption.
      + destruct (Z.eqb_spec kind 0); [exfalso; lia | reflexivity].
  Qed.

  Lemma operation_zero a b : proper a -> proper b -> cmp_operation ty cmp_types a b = 0 <-> same_operation ty alike a b.
  Proof.
    intros pa pb. unfold cmp_operation, same_operation. rewrite !or_else_zero, <- (special_zero a b pa pb), !numbers_zero.
    pose proof (lists_zero cmp_types (i_optypes ty a) (i_optypes ty b)) as L. unfold cmp_lists in L. rewrite or_else_zero, numbers_zero in L. tauto.
  Qed.

  (** Without patterns, two instructions are the same iff they have the same kind, types, flags, and
      the same properties of this kind; attributes, other metadata, and a few properties of some
      kinds of instructions do not count (see the specification). *)
  Theorem C161_compared : forall a b, proper a -> proper b ->
    compare_instructions ty cmp_types struct_name (mkPatterns false false) a b = 0 <-> same_operation ty alike a b.
  Proof.
    intros a b pa pb. unfold compare_instructions; simpl. rewrite <- operation_zero by assumption.
    destruct (Z.eqb_spec (cmp_operation ty cmp_types a b) 0); tauto.
  Qed.

  (** With patterns, these are the same too: comparisons of integers that differ in their sign, and
      local variables of structures with the same name, with the same alignment. *)
  Theorem C161_patterns : forall w a b, proper a -> proper b ->
    compare_instructions ty cmp_types struct_name w a b = 0 <->
    same_operation ty alike a b
    \/ p_casts w = true /\ (exists p q, i_special ty a = IIcmp ty p /\ i_special ty b = IIcmp ty q /\ up_to_sign p q)
    \/ p_layout w = true /\ (exists t u align x y n, i_special ty a = IAlloca ty t align x /\ i_special ty b = IAlloca ty u align y
                               /\ struct_name t = Some n /\ struct_name u = Some n).
  Proof.
    intros w a b pa pb. unfold compare_instructions. rewrite <- operation_zero by assumption.
    destruct (Z.eqb_spec (cmp_operation ty cmp_types a b) 0) as [E | E]; [tauto|].
    split.
    - intros H. right. destruct (i_special ty a) as [t al x| | |p| | | | | | | | | |] eqn:Ea;
        try (exfalso; apply E; destruct (p_casts w), (p_layout w); exact H).
      + right. destruct (i_special ty b) as [u al' y| | |q| | | | | | | | | |] eqn:Eb;
          try (exfalso; apply E; destruct (p_casts w), (p_layout w); exact H).
        destruct (p_layout w); [split; [reflexivity|] | exfalso; apply E; destruct (p_casts w); exact H].
        destruct (struct_name t) as [n|] eqn:En; [|exfalso; apply E; destruct (p_casts w); exact H].
        destruct (struct_name u) as [n'|] eqn:En'; [|exfalso; apply E; destruct (p_casts w); exact H].
        destruct (String.eqb_spec n n') as [<- | Ne]; [|exfalso; apply E; destruct (p_casts w); exact H].
        assert (H' : cmp_numbers al al' = 0) by (destruct (p_casts w); exact H). apply (proj1 (numbers_zero _ _)) in H'; subst.
        exists t, u, al', x, y, n; auto.
      + left. destruct (i_special ty b) as [u al' y| | |q| | | | | | | | | |] eqn:Eb;
          try (exfalso; apply E; destruct (p_casts w), (p_layout w); exact H).
        destruct (p_casts w); [split; [reflexivity|] | exfalso; apply E; destruct (p_layout w); exact H].
        exists p, q; split; [reflexivity|]; split; [reflexivity|]. apply unsigned_same, pred_number_same.
        destruct (Z.eqb_spec (pred_number (unsigned p)) (pred_number (unsigned q))); [assumption|]. exfalso; apply E; destruct (p_layout w); exact H.
    - intros [K | [[C (p & q & Ea & Eb & S)] | [L (t & u & al & x & y & n & Ea & Eb & Et & Eu)]]]; [contradiction| |].
      + rewrite C, Ea, Eb. rewrite (proj2 (Z.eqb_eq _ _)); [reflexivity|]. apply pred_number_same, unsigned_same, S.
      + rewrite L, Ea, Eb, Et, Eu, String.eqb_refl. rewrite (proj2 (numbers_zero al al) eq_refl). destruct (p_casts w); reflexivity.
  Qed.

  (** Assemblies are the same iff all their parts are, with a type that counts as the same. *)
  Theorem C161_assembly : forall t u code constraints effects align dialect code' constraints' effects' align' dialect',
    cmp_asm ty cmp_types (mkAsm ty t code constraints effects align dialect) (mkAsm ty u code' constraints' effects' align' dialect') = 0 <->
    cmp_types t u = 0 /\ code = code' /\ constraints = constraints' /\ effects = effects' /\ align = align' /\ dialect = dialect'.
  Proof.
    intros. unfold cmp_asm, cmp_text; simpl. zeros. rewrite !strings_zero.
    split; [intuition | intros (-> & -> & -> & -> & -> & ->); auto 20].
  Qed.

  (** The verdict does not depend on which version is first, if that of types does not. *)
  Theorem C161_symmetric : forall w a b, (forall t u, cmp_types t u = 0 -> cmp_types u t = 0) -> proper a -> proper b ->
    compare_instructions ty cmp_types struct_name w a b = 0 -> compare_instructions ty cmp_types struct_name w b a = 0.
  Proof.
    intros w a b Sy pa pb H. apply C161_patterns in H; try assumption. apply C161_patterns; try assumption.
    destruct H as [(K1 & K2 & K3 & K4) | [[C (p & q & Ea & Eb & S)] | [L (t & u & al & x & y & n & Ea & Eb & Et & Eu)]]].
    - left. split; [inversion K1; subst; try constructor; auto | split; [apply Sy, K2 | split; [symmetry; exact K3|]]].
      induction K4; constructor; auto.
    - right; left; split; [exact C|]. exists q, p; repeat split; try assumption. inversion S; subst; constructor.
    - right; right; split; [exact L|]. exists u, t, al, y, x, n; repeat split; assumption.
  Qed.
End Proofs.

(** Types by number, the first of them structures without a name *)
Definition name_of (t : Z) : option string := if t <? 10 then Some EmptyString else None.

(** Atomic operations with different alignments are the same, as are landing pads with and without
    cleanup. *)
Theorem C161_same_refuted : forall w al al' cl cl' t,
  compare_instructions Z (cmp_numbers) name_of w (mkInstr Z (IRmw Z 1 false 7 1 al) t 0 [] []) (mkInstr Z (IRmw Z 1 false 7 1 al') t 0 [] []) = 0
  /\ compare_instructions Z (cmp_numbers) name_of w (mkInstr Z (ICmpxchg Z false false 7 7 1 al) t 0 [] []) (mkInstr Z (ICmpxchg Z false false 7 7 1 al') t 0 [] []) = 0
  /\ compare_instructions Z (cmp_numbers) name_of w (mkInstr Z (ILanding Z cl) t 0 [] []) (mkInstr Z (ILanding Z cl') t 0 [] []) = 0.
Proof.
  intros w al al' cl cl' t. split; [|split]; (apply C161_patterns; [exact I | exact I | left]);
    (split; [constructor | split; [apply (proj2 (numbers_zero _ _)); reflexivity | split; [reflexivity | constructor]]]).
Qed.

(** With the pattern for layouts, local variables of any two structures without a name are the same;
    with the one for casts, comparisons of any two types are. *)
Theorem C161_patterns_refuted : forall t u v x,
  (0 <= t < 10 -> 0 <= u < 10 ->
   compare_instructions Z cmp_numbers name_of (mkPatterns false true) (mkInstr Z (IAlloca Z t 8 false) v 0 [x] []) (mkInstr Z (IAlloca Z u 8 false) v 0 [x] []) = 0)
  /\ compare_instructions Z cmp_numbers name_of (mkPatterns true false) (mkInstr Z (IIcmp Z (PLt true)) v 0 [t; t] []) (mkInstr Z (IIcmp Z (PLt false)) v 0 [u; u] []) = 0.
Proof.
  intros t u v x. split.
  - intros Ht Hu. apply C161_patterns; [exact I | exact I |]. right; right. split; [reflexivity|]. exists t, u, 8, false, false, EmptyString.
    repeat split; unfold name_of; destruct (Z.ltb_spec t 10), (Z.ltb_spec u 10); try reflexivity; lia.
  - apply C161_patterns; [exact I | exact I |]. right; left. split; [reflexivity|]. exists (PLt true), (PLt false). repeat split; constructor.
Qed.

(** Loads with different ranges, calls with other attributes *)
Example C161_example :
  let load r := mkInstr Z (ILoad Z false 4 0 1 (Some [(32, 0); (32, r)])) 12 0 [11] ["tbaa"%string] in
  let call ats := mkInstr Z (ICall Z 0 0 ats [("deopt"%string, 2)] 1 None) 12 0 [11; 12] [] in
  proper (load 2) /\ proper (call []) /\
  compare_instructions Z cmp_numbers name_of (mkPatterns true true) (load 2) (load 3) = -1
  /\ compare_instructions Z cmp_numbers name_of (mkPatterns true true) (load 2) (load 2) = 0
  /\ compare_instructions Z cmp_numbers name_of (mkPatterns true true) (call []) (call ["cold"%string]) = 0
  /\ compare_instructions Z cmp_numbers name_of (mkPatterns true true) (load 2) (call []) = -1.
Proof. cbv zeta. split; [exact I|]. split; [left; reflexivity|]. repeat split; reflexivity. Qed.

Example C161_values :
  let single bits := mkFloat 24 127 (-126) 32 bits in
  cmp_floats (single 0) (single 2147483648) = -1 /\ cmp_floats (single 2143289344) (single 2143289344) = 0
  /\ cmp_asm Z cmp_numbers (mkAsm Z 3 "nop" "" true false 0) (mkAsm Z 3 "nop" "" true false 0) = 0
  /\ cmp_asm Z cmp_numbers (mkAsm Z 3 "nop" "" true false 0) (mkAsm Z 3 "nop" "" false false 0) = 1.
Proof. repeat split; reflexivity. Qed.

Print Assumptions C161_compared.
Print Assumptions C161_patterns.
Print Assumptions C161_symmetric.
Print Assumptions C161_assembly.
Print Assumptions C161_floats.
Print Assumptions C161_same_refuted.
Print Assumptions C161_patterns_refuted.
