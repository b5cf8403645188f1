(** * What is read through equal constants; layouts of equal types *)
From Coq Require Import String Ascii ZArith Arith Bool Lia List.
From Verif Require Import PyBase Types_Model Types_Spec Types_Types.
Import ListNotations.
Open Scope list_scope.
Open Scope Z_scope.

Section Reads.
  Variable w : Z.
  Variables size_l size_r : ty -> Z.
  Variables gl gr : dict string global.
  Variable same_named : string -> string -> bool.
  Variable vector_bits : ty -> Z.
  Variable is_cast : string -> bool.
  Notation alike := (alike false false w size_l size_r).
  Notation like := (like false alike vector_bits is_cast).
  Notation consistent := (consistent false alike gl gr same_named vector_bits is_cast).

  Lemma Forall2_nth {A B} (P : A -> B -> Prop) xs ys : Forall2 P xs ys -> forall i x y,
    nth_error xs i = Some x -> nth_error ys i = Some y -> P x y.
  Proof.
    induction 1 as [|x y xs ys H _ IH]; intros [|i] a b E F; cbn in *; try discriminate.
    - congruence.
    - eapply IH; eauto.
  Qed.
  Lemma reads_like G : consistent G -> forall l ws c, reads gl l ws c -> forall r d, reads gr r ws d -> like G l r -> like G c d.
  Proof.
    intros C l ws c R. induction R as [c|t xs i x ws c N R IH|a v x ws c D K I R IH]; intros r d R' L.
    - inversion R'; subst. exact L.
    - inversion R' as [|t' ys j y ws' c' N' R''|]; subst.
      inversion L as [l r t0 u NL NR| | | | | |t0 u xs0 ys0 F1 F2 F| | |? ? ? ? X|? ? ? X|? ? ? X]; subst; try discriminate X;
        try (inversion NL; fail).
      eapply IH; [exact R''|]. eapply Forall2_nth; eauto.
    - inversion R' as [| |a' v' x' ws' c' D' K' I' R'']; subst.
      inversion L as [l r t0 u NL NR| | | | | | | |p q S g|? ? ? ? X|? ? ? X|? ? ? X]; subst; try discriminate X;
        try (inversion NL; fail).
      destruct (C a a' g) as [(c1 & d1 & (v1 & v1' & A1 & A2 & A3 & A4 & A5 & A6) & L1)|[NI _]].
      + eapply IH; [exact R''|]. congruence.
      + exfalso. apply (NI x x'). exists v, v'. auto 8.
  Qed.
  Lemma like_number G b v d : like G (KInt b v) d -> d = KInt b v \/ (v = 0 /\ exists t, d = KZero t /\ alike (TInt b) t).
  Proof.
    intros L. inversion L as [l r t u NL NR TL TR S|? ? ? ? [->|X]| | | | | | | |? ? ? ? X|? ? ? X|? ? ? X]; subst; try discriminate X; auto.
    inversion TL; subst. inversion NL; subst.
    inversion NR; subst; inversion TR; subst; inversion S; subst; try discriminate; eauto.
  Qed.
End Reads.

(** ** A layout: the size and the alignment of types, with pointers of 8 bytes *)
Section Layout.
  Definition up (n a : Z) : Z := if Z.eqb a 0 then n else (n + a - 1) / a * a.
  Definition places (packed : bool) (l : list (Z * Z)) : Z * Z :=
    fold_left (fun acc x => let a := if packed then 1 else snd x in (up (fst acc) a + fst x, Z.max (snd acc) a)) l (0, 1).
  Fixpoint layout (t : ty) : Z * Z :=
    match t with
    | TInt b => let s := (b + 7) / 8 in (s, Z.min s 8)
    | TPtr _ => (8, 8)
    | TPrim k => (8, 8)
    | TStruct _ p xs => let r := places p (map layout xs) in (up (fst r) (snd r), snd r)
    | TFunc _ _ _ => (1, 1)
    | TArray n x => (n * fst (layout x), snd (layout x))
    | TVector _ n x => (n * fst (layout x), n * fst (layout x))
    end.
  Lemma layout_structural : structural 64 layout.
  Proof. constructor; intros; cbn; try rewrite H; try reflexivity. Qed.
End Layout.
