(** * C122, C123: types and constants that are equal *)
From Coq Require Import String Ascii ZArith Arith Bool Lia List.
From Verif Require Import PyBase Types_Model Types_Spec Types_Types Types_Constants Types_Fuel Types_Reads.
Import ListNotations.
Open Scope list_scope.
Open Scope Z_scope.

Section Props.
  Variables structs casts : bool.
  Variable w : Z.
  Variables size_l size_r : ty -> Z.
  Variables gl gr : dict string global.
  Variable same_named : string -> string -> bool.
  Variable vector_bits : ty -> Z.
  Variable is_cast : string -> bool.

  (** ** C122 *)
  (** The comparison of types decides the relation. *)
  Theorem C122_types : forall l r,
    cmp_types structs casts w size_l size_r l r = true <-> alike structs casts w size_l size_r l r.
  Proof. apply types_alike. Qed.
  (** A type is equal to itself whatever patterns are on. *)
  Theorem C122_refl : forall t, cmp_types structs casts w size_l size_r t t = true.
  Proof. intros t. apply types_alike, alike_refl. Qed.
  (** Without StructAlignment the order of the versions does not matter. *)
  Theorem C122_symmetric : forall l r, cmp_types false casts w size_l size_r l r = cmp_types false casts w size_r size_l r l.
  Proof.
    intros l r. apply eq_true_iff_eq. rewrite !types_alike. split; apply alike_sym.
  Qed.
  (** Without both patterns types are equal if and only if nothing that structure tells differs: so
      their sizes, alignments and offsets are the same. *)
  Theorem C122_structure : forall l r,
    cmp_types false false w size_l size_r l r = true <-> (forall A (f : ty -> A), structural w f -> f l = f r).
  Proof.
    intros l r. rewrite types_alike. split.
    - intros H A f F. exact (alike_structural w size_l size_r f F l r H).
    - intros H. apply norm_alike. apply H. apply norm_structural.
  Qed.
  Theorem C122_transitive : forall a b c, cmp_types false false w size_l size_r a b = true ->
    cmp_types false false w size_l size_r b c = true -> cmp_types false false w size_l size_r a c = true.
  Proof. intros a b c. rewrite !C122_structure. intros H K A f F. rewrite (H A f F). apply K. exact F. Qed.

  (** ** C123 *)
  Notation cmp := (cmp_constants structs casts w size_l size_r gl gr same_named vector_bits is_cast).
  Notation equal := (equal_constants casts (alike structs casts w size_l size_r) gl gr same_named vector_bits is_cast).
  (** The comparison ends, also if variables refer to themselves, and more steps change nothing. *)
  Theorem C123_ends : forall l r, exists n b, forall m, (n <= m)%nat -> cmp m [] l r = Some b.
  Proof.
    intros l r.
    destruct (always_answered structs casts w size_l size_r gl gr same_named vector_bits is_cast _ [] (le_n _) _ l r (le_n _)) as (n & b & E).
    exists n, b. intros m L. exact (cmp_le _ _ _ _ _ _ _ _ _ _ n m _ _ _ _ L E).
  Qed.
  (** The answer is that of the relation. *)
  Theorem C123_constants : forall n l r b, cmp n [] l r = Some b -> (b = true <-> equal l r).
  Proof. intros n l r b. apply constants_equal. apply types_alike. Qed.
End Props.

(** Numbers: without TypeCasts the same width and value; with it the same value, and both of one bit
    or none. *)
Theorem C123_numbers : forall structs casts w size_l size_r gl gr same_named vector_bits is_cast a x b y,
  cmp_constants structs casts w size_l size_r gl gr same_named vector_bits is_cast 1 [] (KInt a x) (KInt b y) = Some true
  <-> x = y /\ (a = b \/ (casts = true /\ a <> 1 /\ b <> 1)).
Proof.
  intros. split.
  - intros E. apply C123_constants in E. destruct E as [E _]. destruct (E eq_refl) as (G & _ & L).
    inversion L as [l r t u NL NR TL TR S|? ? ? ? D| | | | | | | |? ? ? ? ? (? & ? & ? & X & _)|? ? ? ? (? & ? & ? & X & _)|? ? ? ? ? (? & ? & ? & X & _)];
      subst; try discriminate X.
    + inversion NL; inversion NR; subst. inversion TL; inversion TR; subst. split; [reflexivity|].
      inversion S; subst; auto; match goal with H : union _ |- _ => destruct H as (? & ? & ? & Y); discriminate Y end.
    + split; [reflexivity|]. match goal with S : alike _ _ _ _ _ _ _ |- _ => inversion S; subst; auto end;
        match goal with H : union _ |- _ => destruct H as (? & ? & ? & Y); discriminate Y end.
  - intros (<- & D).
    assert (S : cmp_types structs casts w size_l size_r (TInt a) (TInt b) = true).
    { apply types_alike. destruct D as [<-|(-> & ? & ?)]; [constructor|apply alike_widths; auto]. }
    cbn [cmp_constants]. unfold cmp_constants_base. cbn [type_of]. rewrite S. cbn [negb andb is_null].
    destruct (Z.eqb_spec x 0) as [->|N]; cbn [andb orb]; [reflexivity|].
    unfold same_int. rewrite Z.eqb_refl. destruct casts; [reflexivity|].
    destruct D as [->|(D & _)]; [rewrite Z.eqb_refl; reflexivity|discriminate D].
Qed.

(** Without patterns: what is read the same way from equal constants, through elements and the
    initialisers of constant variables, is equal; so the same number (or a null pointer for 0). *)
Theorem C123_reads : forall w size_l size_r gl gr same_named vector_bits is_cast n l r ws c d,
  cmp_constants false false w size_l size_r gl gr same_named vector_bits is_cast n [] l r = Some true ->
  reads gl l ws c -> reads gr r ws d ->
  (exists m, cmp_constants false false w size_l size_r gl gr same_named vector_bits is_cast m [] c d = Some true)
  /\ (forall b v, c = KInt b v -> d = KInt b v \/ (v = 0 /\ exists t, d = KZero t /\ alike false false w size_l size_r (TInt b) t)).
Proof.
  intros w size_l size_r gl gr same_named vector_bits is_cast n l r ws c d E RL RR.
  apply C123_constants in E. destruct E as [E _]. destruct (E eq_refl) as (G & C & L).
  pose proof (reads_like w size_l size_r gl gr same_named vector_bits is_cast G C l ws c RL r d RR L) as LC. split.
  - destruct (C123_ends false false w size_l size_r gl gr same_named vector_bits is_cast c d) as (m & b & A).
    specialize (A m (le_n _)). exists m. rewrite A. f_equal. apply C123_constants in A. apply A. exists G. split; assumption.
  - intros b v ->. exact (like_number w size_l size_r vector_bits is_cast G b v d LC).
Qed.

(** ** Cases *)
Definition no_size (_ : ty) : Z := 0.
Definition bytes (t : ty) : Z := fst (layout t).
Definition node (name : string) : ty := TStruct name false [TInt 32; TPtr 0; TArray 4 (TInt 8)].
Example C122_met :
  cmp_types false false 64 bytes bytes (node "struct.old") (node "struct.new") = true
  /\ cmp_types false false 64 bytes bytes (TFunc true (TInt 64) [TPtr 0]) (TFunc true (TPtr 0) [TInt 64]) = true
  /\ cmp_types false false 64 bytes bytes (TStruct "a" false [TInt 32]) (TStruct "a" true [TInt 32]) = false
  /\ cmp_types true false 64 bytes bytes (TStruct "union.u" false [TInt 64]) (TInt 32) = true
  /\ cmp_types true false 64 bytes bytes (TInt 32) (TStruct "union.u" false [TInt 64]) = true
  /\ cmp_types true false 64 bytes bytes (TInt 128) (TStruct "union.u" false [TInt 64]) = false
  /\ cmp_types false true 64 bytes bytes (TArray 2 (TInt 8)) (TArray 3 (TInt 16)) = true
  /\ cmp_types false true 64 bytes bytes (TInt 1) (TInt 8) = false.
Proof. repeat split. Qed.
Example C122_structural_met : structural 64 layout /\ layout (node "struct.old") = (24, 8) /\ layout (TStruct "p" true [TInt 8; TInt 32]) = (5, 1).
Proof. split; [exact layout_structural|]. vm_compute. auto. Qed.
(** With StructAlignment the order matters: a smaller union against a larger structure, of which only
    the first is looked at. *)
Theorem C122_order_refuted : ~ forall l r, cmp_types true false 64 bytes bytes l r = cmp_types true false 64 bytes bytes r l.
Proof. intros H. specialize (H (TStruct "union.u" false [TInt 64]) (TStruct "struct.s" false [TInt 32])). vm_compute in H. discriminate H. Qed.
(** Each pattern makes types equal to a third that are not to each other. *)
Theorem C122_casts_refuted : ~ forall a b c, cmp_types false true 64 bytes bytes a b = true ->
  cmp_types false true 64 bytes bytes b c = true -> cmp_types false true 64 bytes bytes a c = true.
Proof. intros H. specialize (H (TPtr 0) (TInt 64) (TInt 32) eq_refl eq_refl). vm_compute in H. discriminate H. Qed.
Theorem C122_unions_refuted : ~ forall a b c, cmp_types true false 64 bytes bytes a b = true ->
  cmp_types true false 64 bytes bytes b c = true -> cmp_types true false 64 bytes bytes a c = true.
Proof.
  intros H. specialize (H (TInt 8) (TStruct "union.u" false [TInt 64]) (TInt 16) eq_refl eq_refl). vm_compute in H. discriminate H.
Qed.

Definition var (c : constant) : global := mkGlobal true (Some c).
Definition same_name (a b : string) : bool := String.eqb a b.
Definition bitcast (o : string) : bool := String.eqb o "bitcast" || String.eqb o "zext".
(** A list of two nodes that goes round, and one node that refers to itself. *)
Definition round_l : dict string global :=
  [("a"%string, var (KAgg (node "n") [KInt 32 7; KGlobal "b"; KData (TArray 4 (TInt 8)) [1; 2; 3; 4]]));
   ("b"%string, var (KAgg (node "n") [KInt 32 7; KGlobal "a"; KData (TArray 4 (TInt 8)) [1; 2; 3; 4]]))].
Definition round_r (v : Z) : dict string global :=
  [("c"%string, var (KAgg (node "m") [KInt 32 v; KGlobal "c"; KData (TArray 4 (TInt 8)) [1; 2; 3; 4]]))].
Example C123_met :
  cmp_constants false false 64 bytes bytes round_l (round_r 7) same_name no_size bitcast 9 [] (KGlobal "a") (KGlobal "c") = Some true
  /\ cmp_constants false false 64 bytes bytes round_l (round_r 8) same_name no_size bitcast 9 [] (KGlobal "a") (KGlobal "c") = Some false
  /\ reads round_l (KGlobal "a") [Deref; Element 1; Deref; Element 0] (KInt 32 7)
  /\ reads (round_r 7) (KGlobal "c") [Deref; Element 1; Deref; Element 0] (KInt 32 7).
Proof.
  split; [vm_compute; reflexivity|]. split; [vm_compute; reflexivity|]. split;
    repeat first [apply reads_here | eapply reads_deref; [reflexivity|reflexivity|reflexivity|] | eapply reads_element; [reflexivity|]].
Qed.
Example C123_casts_met :
  cmp_constants false true 64 bytes bytes [] [] same_name no_size bitcast 9 []
    (KExpr "zext" (TInt 64) [KGlobal "f"]) (KGlobal "f") = Some true
  /\ cmp_constants false false 64 bytes bytes [] [] same_name no_size bitcast 9 []
    (KExpr "zext" (TInt 64) [KGlobal "f"]) (KGlobal "f") = Some false.
Proof. split; vm_compute; reflexivity. Qed.

(** What an expression does is not compared, only its operands are. *)
Theorem C123_opcodes_refuted : ~ forall n o o' t xs ys,
  cmp_constants false false 64 bytes bytes [] [] same_name no_size bitcast n [] (KExpr o t xs) (KExpr o' t ys) = Some true -> o = o'.
Proof.
  intros H. specialize (H 9%nat "add"%string "sub"%string (TInt 64) [KExpr "ptrtoint" (TInt 64) [KGlobal "g"]; KInt 64 1]
    [KExpr "ptrtoint" (TInt 64) [KGlobal "g"]; KInt 64 1] eq_refl). discriminate H.
Qed.
(** A constant variable is equal to one of the same name that may change. *)
Theorem C123_constness_refuted : ~ forall n gl gr l r ws c,
  cmp_constants false false 64 bytes bytes gl gr same_name no_size bitcast n [] l r = Some true -> reads gl l ws c -> exists d, reads gr r ws d.
Proof.
  intros H.
  destruct (H 9%nat [("x"%string, var (KInt 32 5))] [("x"%string, mkGlobal false (Some (KInt 32 5)))] (KGlobal "x") (KGlobal "x")
             [Deref] (KInt 32 5) eq_refl) as [d D].
  - eapply reads_deref; [reflexivity|reflexivity|reflexivity|apply reads_here].
  - inversion D as [| |a v x ws c E K]; subst. cbn in E. injection E as <-. discriminate K.
Qed.
(** With TypeCasts: -1 of 8 and of 32 bits differ, two bytes and one number of 16 bits are equal. *)
Theorem C123_widths_refuted :
  cmp_constants false true 64 bytes bytes [] [] same_name no_size bitcast 9 [] (KInt 8 255) (KInt 32 (2 ^ 32 - 1)) = Some false
  /\ cmp_constants false true 64 bytes bytes [] [] same_name no_size bitcast 9 []
       (KData (TArray 2 (TInt 8)) [1; 2]) (KData (TArray 1 (TInt 16)) [1; 2]) = Some true.
Proof. split; vm_compute; reflexivity. Qed.

Print Assumptions C122_types.
Print Assumptions C122_refl.
Print Assumptions C122_symmetric.
Print Assumptions C122_structure.
Print Assumptions C122_transitive.
Print Assumptions C122_order_refuted.
Print Assumptions C122_casts_refuted.
Print Assumptions C122_unions_refuted.
Print Assumptions C123_ends.
Print Assumptions C123_constants.
Print Assumptions C123_numbers.
Print Assumptions C123_reads.
Print Assumptions C123_opcodes_refuted.
Print Assumptions C123_constness_refuted.
Print Assumptions C123_widths_refuted.
