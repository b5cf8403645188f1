(** * Proofs about the comparison of types *)
From Coq Require Import String Ascii ZArith Arith Bool Lia List.
From Verif Require Import PyBase Types_Model Types_Spec.
Import ListNotations.
Open Scope list_scope.
Open Scope Z_scope.

Section Induction.
  Variable P : ty -> Prop.
  Hypothesis HI : forall n, P (TInt n).
  Hypothesis HP : forall s, P (TPtr s).
  Hypothesis HK : forall k, P (TPrim k).
  Hypothesis HS : forall n p xs, Forall P xs -> P (TStruct n p xs).
  Hypothesis HF : forall v x xs, P x -> Forall P xs -> P (TFunc v x xs).
  Hypothesis HA : forall n x, P x -> P (TArray n x).
  Hypothesis HV : forall s n x, P x -> P (TVector s n x).
  Fixpoint ty_induction (t : ty) : P t :=
    let all := fix all (xs : list ty) : Forall P xs :=
      match xs with [] => Forall_nil P | x :: xs' => Forall_cons x (ty_induction x) (all xs') end in
    match t with
    | TInt n => HI n | TPtr s => HP s | TPrim k => HK k
    | TStruct n p xs => HS n p xs (all xs)
    | TFunc v x xs => HF v x xs (ty_induction x) (all xs)
    | TArray n x => HA n x (ty_induction x)
    | TVector s n x => HV s n x (ty_induction x)
    end.
End Induction.

Lemma prefix_spec : forall a b, String.prefix a b = true <-> exists rest, b = (a ++ rest)%string.
Proof.
  induction a as [|c a IH]; intros b.
  - split; [intros _; exists b; reflexivity|]. intros _. destruct b; reflexivity.
  - destruct b as [|d b]; cbn [String.prefix String.append].
    + split; [discriminate|]. intros [rest E]. discriminate E.
    + destruct (ascii_dec c d) as [->|N].
      * rewrite IH. split; intros [rest E]; exists rest; [rewrite E; reflexivity|]. injection E. auto.
      * split; [discriminate|]. intros [rest E]. injection E as E1 E2. congruence.
Qed.

Section Proofs.
  Variables p_structs p_casts : bool.
  Variable w : Z.
  Variables size_l size_r : ty -> Z.
  Notation cmp := (cmp_types p_structs p_casts w size_l size_r).
  Notation alike := (alike p_structs p_casts w size_l size_r).

  Lemma is_struct_spec t : is_struct t = true <-> structure t.
  Proof.
    unfold structure. destruct t; cbn; split; intros H; try discriminate; try reflexivity; eauto;
      destruct H as (? & ? & ? & E); discriminate E.
  Qed.
  Lemma is_union_spec t : is_union t = true <-> union t.
  Proof.
    unfold union. destruct t; cbn [is_union]; split; intros H; try discriminate;
      try (destruct H as (? & ? & ? & E); discriminate E).
    - apply prefix_spec in H. destruct H as [rest ->]. do 3 eexists. reflexivity.
    - destruct H as (rest & ? & ? & E). injection E as E _ _. apply prefix_spec. exists rest. exact E.
  Qed.
  Lemma union_structure t : union t -> structure t.
  Proof. intros (r & p & e & ->). exists ("union" ++ r)%string, p, e. reflexivity. Qed.

  Lemma union_rule_spec l r : union_rule p_structs size_l size_r l r = true <->
    p_structs = true /\ ((union l /\ size_r r <= size_l l) \/ (~ structure l /\ union r /\ size_l l <= size_r r)).
  Proof.
    unfold union_rule. rewrite !andb_true_iff, orb_true_iff.
    destruct (is_struct l) eqn:SL.
    - apply is_struct_spec in SL. rewrite andb_true_iff, is_union_spec, Z.leb_le. split; [tauto|].
      intros [? [?|(N & _)]]; [tauto|contradiction].
    - assert (NS : ~ structure l) by (rewrite <- is_struct_spec; congruence).
      rewrite andb_true_iff, is_union_spec, is_struct_spec, Z.leb_le. split.
      + intros [[? [?|?]] [? ?]]; [discriminate|]. auto.
      + intros [? [[U _]|(_ & U & ?)]]; [apply union_structure in U; contradiction|].
        split; [split; [assumption|right; apply union_structure; exact U]|split; assumption].
  Qed.

  Lemma all_spec (xs : list ty) : Forall (fun x => forall y, cmp x y = true <-> alike x y) xs -> forall ys,
    (length xs = length ys /\
     (fix all (xs ys : list ty) : bool :=
        match xs, ys with x :: xs', y :: ys' => cmp x y && all xs' ys' | _, _ => true end) xs ys = true)
    <-> Forall2 alike xs ys.
  Proof.
    induction 1 as [|x xs Hx _ IH]; intros [|y ys]; cbn [length].
    - split; auto.
    - split; [intros [E _]; discriminate E|intros H; inversion H].
    - split; [intros [E _]; discriminate E|intros H; inversion H].
    - rewrite andb_true_iff, Hx. split.
      + intros (E & ? & ?). constructor; [assumption|]. apply IH. split; [lia|assumption].
      + intros H. inversion H as [|a b c d H1 H2]; subst. apply IH in H2. destruct H2 as [-> ?]. auto.
  Qed.

  Lemma cmp_union l r : union_rule p_structs size_l size_r l r = true -> cmp l r = true.
  Proof. intros U. destruct l; cbn [cmp_types]; rewrite U; reflexivity. Qed.

  Theorem types_alike : forall l r, cmp l r = true <-> alike l r.
  Proof.
    induction l as [n|s|k|n p xs IH|v x xs IHx IH|n x IHx|s n x IHx] using ty_induction; intros r;
      lazymatch goal with |- cmp ?l _ = true <-> _ =>
        destruct (union_rule p_structs size_l size_r l r) eqn:U;
        [ split; [intros _|intros _; apply cmp_union; exact U];
          apply union_rule_spec in U; destruct U as (SA & [[? ?]|(? & ? & ?)]);
          [eapply alike_union_l; eauto|eapply alike_union_r; eauto]
        | assert (NU : ~ (p_structs = true /\ ((union l /\ size_r r <= size_l l) \/ (~ structure l /\ union r /\ size_l l <= size_r r))))
            by (rewrite <- union_rule_spec, U; discriminate);
          cbn [cmp_types]; rewrite U ]
      end.
    - (* integers *)
      destruct r as [m|[|s]|k|m q ys|v y ys|m y|s m y]; cbn [lower];
        try (split; [discriminate|intros H; inversion H; subst; exfalso; apply NU; auto; fail]).
      + destruct p_casts eqn:PC.
        * destruct (Z.eqb_spec n 1); cbn [orb].
          -- rewrite Z.eqb_eq. split; [intros <-; constructor|]. intros H; inversion H; subst; try congruence; exfalso; apply NU; auto.
          -- destruct (Z.eqb_spec m 1); cbn [orb].
             ++ rewrite Z.eqb_eq. split; [intros <-; constructor|]. intros H; inversion H; subst; try congruence; exfalso; apply NU; auto.
             ++ split; [|reflexivity]. intros _. apply alike_widths; auto.
        * rewrite Z.eqb_eq. split; [intros <-; constructor|]. intros H; inversion H; subst; try congruence; exfalso; apply NU; auto.
      + rewrite Z.eqb_eq. split; [intros ->; constructor|]. intros H; inversion H; subst; try congruence; exfalso; apply NU; auto.
    - (* pointers *)
      destruct s as [|s]; destruct r as [m|[|s']|k|m q ys|v y ys|m y|s' m y]; cbn [lower];
        try (split; [discriminate|intros H; inversion H; subst; exfalso; apply NU; auto; fail]).
      + rewrite Z.eqb_eq. split; [intros <-; constructor|]. intros H; inversion H; subst; try congruence; exfalso; apply NU; auto.
      + rewrite Z.eqb_refl. split; [constructor|reflexivity].
      + rewrite Nat.eqb_eq. split; [intros <-; constructor|]. intros H; inversion H; subst; try congruence; exfalso; apply NU; auto.
    - (* others *)
      destruct r as [m|[|s']|k'|m q ys|v y ys|m y|s' m y]; cbn [lower];
        try (split; [discriminate|intros H; inversion H; subst; exfalso; apply NU; auto; fail]).
      rewrite Nat.eqb_eq. split; [intros <-; constructor|]. intros H; inversion H; subst; try congruence; exfalso; apply NU; auto.
    - (* structures *)
      destruct r as [m|[|s']|k'|m q ys|v y ys|m y|s' m y]; cbn [lower];
        try (split; [discriminate|intros H; inversion H; subst; exfalso; apply NU; auto; fail]).
      rewrite !andb_true_iff, Nat.eqb_eq, Bool.eqb_true_iff. split.
      + intros [[E <-] A]. constructor. apply (all_spec xs IH). auto.
      + intros H; inversion H; subst; try (exfalso; apply NU; auto; fail).
        match goal with F : Forall2 _ _ _ |- _ => apply (all_spec xs IH) in F; destruct F end. auto.
    - (* functions *)
      destruct r as [m|[|s']|k'|m q ys|v' y ys|m y|s' m y]; cbn [lower];
        try (split; [discriminate|intros H; inversion H; subst; exfalso; apply NU; auto; fail]).
      rewrite !andb_true_iff, Nat.eqb_eq, Bool.eqb_true_iff, IHx. split.
      + intros [[[E <-] X] A]. constructor; [exact X|]. apply (all_spec xs IH). auto.
      + intros H; inversion H; subst; try (exfalso; apply NU; auto; fail).
        match goal with F : Forall2 _ _ _ |- _ => apply (all_spec xs IH) in F; destruct F end. auto.
    - (* arrays *)
      destruct r as [m|[|s']|k'|m q ys|v' y ys|m y|s' m y]; cbn [lower];
        try (split; [discriminate|intros H; inversion H; subst; exfalso; apply NU; auto; fail]).
      revert IHx. destruct p_casts eqn:PC; intros IHx.
      + rewrite IHx. split; [apply alike_lengths; reflexivity|].
        intros H; inversion H; subst; try assumption; exfalso; apply NU; auto.
      + rewrite andb_true_iff, Z.eqb_eq, IHx. split; [intros [<- X]; constructor; exact X|].
        intros H; inversion H; subst; try congruence; auto; exfalso; apply NU; auto.
    - (* vectors *)
      destruct r as [m|[|s']|k'|m q ys|v' y ys|m y|s' m y]; cbn [lower];
        try (split; [discriminate|intros H; inversion H; subst; exfalso; apply NU; auto; fail]).
      rewrite !andb_true_iff, Z.eqb_eq, Bool.eqb_true_iff, IHx. split; [intros [[<- <-] X]; constructor; exact X|].
      intros H; inversion H; subst; auto; exfalso; apply NU; auto.
  Qed.

  Lemma alike_refl : forall t, alike t t.
  Proof.
    assert (F : forall xs, Forall (fun t => alike t t) xs -> Forall2 alike xs xs) by (induction 1; constructor; auto).
    induction t using ty_induction; try (constructor; auto; fail).
  Qed.
End Proofs.

Section Symmetric.
  Variable p_casts : bool.
  Variable w : Z.
  Variables size_l size_r : ty -> Z.
  Lemma alike_sym : forall l r, alike false p_casts w size_l size_r l r -> alike false p_casts w size_r size_l r l.
  Proof.
    induction l as [n|s|k|n p xs IH|v x xs IHx IH|n x IHx|s n x IHx] using ty_induction; intros r H;
      inversion H; subst; try discriminate; try (constructor; auto; fail).
    - constructor. clear H. revert IH.
      match goal with F : Forall2 _ _ _ |- _ => induction F; intros IH; constructor; inversion IH; subst; auto end.
    - constructor; [auto|]. clear H. revert IH.
      match goal with F : Forall2 _ _ _ |- _ => induction F; intros IH; constructor; inversion IH; subst; auto end.
  Qed.
End Symmetric.

(** With both patterns off the types are equal whose normal forms are the same. *)
Fixpoint norm (w : Z) (t : ty) : ty :=
  match t with
  | TPtr 0 => TInt w
  | TStruct _ p xs => TStruct "" p (map (norm w) xs)
  | TFunc v x xs => TFunc v (norm w x) (map (norm w) xs)
  | TArray n x => TArray n (norm w x)
  | TVector s n x => TVector s n (norm w x)
  | t => t
  end.
Lemma norm_structural w : structural w (norm w).
Proof. constructor; intros; cbn; congruence. Qed.

Section Off.
  Variable w : Z.
  Variables size_l size_r : ty -> Z.
  Notation alike := (alike false false w size_l size_r).
  Lemma alike_structural {A} (f : ty -> A) : structural w f -> forall l r, alike l r -> f l = f r.
  Proof.
    intros [fp fs ff fa fv].
    assert (F : forall xs, Forall (fun l => forall r, alike l r -> f l = f r) xs -> forall ys, Forall2 alike xs ys -> map f xs = map f ys).
    { induction 1; intros ys H2; inversion H2; subst; cbn; [reflexivity|]. f_equal; auto. }
    induction l as [n|s|k|n p xs IH|v x xs IHx IH|n x IHx|s n x IHx] using ty_induction; intros r H;
      inversion H; subst; try discriminate; auto.
  Qed.
  Lemma norm_alike : forall l r, norm w l = norm w r -> alike l r.
  Proof.
    assert (F : forall xs, Forall (fun l => forall r, norm w l = norm w r -> alike l r) xs -> forall ys,
              map (norm w) xs = map (norm w) ys -> Forall2 alike xs ys).
    { induction 1; intros [|y ys] E; try discriminate E; constructor; injection E; auto. }
    induction l as [n|sp|k|n p xs IH|v x xs IHx IH|n x IHx|s n x IHx] using ty_induction;
      intros [m|[|s']|k'|m q ys|v' y ys|m y|s' m y]; try destruct sp as [|sp]; cbn [norm]; intros E; try discriminate E;
      try (injection E; intros; subst); try (constructor; auto; fail).
  Qed.
End Off.
