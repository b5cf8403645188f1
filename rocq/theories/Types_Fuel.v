(** * The comparison of constants ends *)
From Coq Require Import String Ascii ZArith Arith Bool Lia List Wf_nat.
From Verif Require Import PyBase Types_Model Types_Spec.
Import ListNotations.
Open Scope list_scope.

Fixpoint size (c : constant) : nat :=
  match c with
  | KAgg _ xs | KExpr _ _ xs => S (list_sum (map size xs))
  | _ => 1
  end.
Lemma size_in x xs : In x xs -> (size x <= list_sum (map size xs))%nat.
Proof.
  induction xs as [|y ys IH]; intros H; [destruct H|].
  change (list_sum (map size (y :: ys))) with (size y + list_sum (map size ys))%nat.
  destruct H as [->|H]; [lia|]. specialize (IH H). lia.
Qed.

Section Fuel.
  Variables p_structs p_casts : bool.
  Variable w : Z.
  Variables size_l size_r : ty -> Z.
  Variables gl gr : dict string global.
  Variable same_named : string -> string -> bool.
  Variable vector_bits : ty -> Z.
  Variable is_cast : string -> bool.
  Notation base := (cmp_constants_base p_structs p_casts w size_l size_r gl gr same_named vector_bits).
  Notation cmp := (cmp_constants p_structs p_casts w size_l size_r gl gr same_named vector_bits is_cast).

  (** ** More steps give the same answer *)
  Lemma each_mono (f g : constant -> constant -> option bool) :
    (forall l r b, f l r = Some b -> g l r = Some b) ->
    forall ls rs b, cmp_each f ls rs = Some b -> cmp_each g ls rs = Some b.
  Proof.
    intros H. induction ls as [|l ls IH]; intros [|r rs] b E; cbn in E |- *; try exact E.
    destruct (f l r) as [[|]|] eqn:F; [| |discriminate E]; rewrite (H _ _ _ F); auto.
  Qed.
  Lemma base_mono (f g : constants -> constant -> constant -> option bool) :
    (forall A l r b, f A l r = Some b -> g A l r = Some b) ->
    forall A l r b, base f A l r = Some b -> base g A l r = Some b.
  Proof.
    intros H A l r b. unfold cmp_constants_base.
    destruct (negb _ && negb _); [auto|]. destruct (is_null l && is_null r); [auto|]. destruct (is_null l || is_null r); [auto|].
    destruct l, r; auto.
    - destruct (_ && _); [|auto]. apply each_mono. apply H.
    - destruct (Nat.eqb _ _); [|auto]. apply each_mono. apply H.
    - unfold cmp_global. destruct (mem _ A); [auto|]. destruct (variables gl gr id id0) as [[c d]|]; [apply H|auto].
  Qed.
  Lemma cmp_S : forall n A l r b, cmp n A l r = Some b -> cmp (S n) A l r = Some b.
  Proof.
    induction n as [|n IH]; intros A l r b E; [discriminate E|].
    change (match base (cmp (S n)) A l r with
      | Some false =>
        if p_casts then
          match cast_of is_cast l, cast_of is_cast r with
          | Some a, Some b => cmp (S n) A a b
          | Some a, None => cmp (S n) A a r
          | None, Some b => cmp (S n) A l b
          | None, None => Some false
          end
        else Some false
      | x => x end = Some b).
    cbn [cmp_constants] in E.
    destruct (base (cmp n) A l r) as [[|]|] eqn:B; [| |discriminate E]; rewrite (base_mono _ _ IH _ _ _ _ B); [exact E|].
    destruct p_casts; [|exact E]. destruct (cast_of is_cast l), (cast_of is_cast r); auto.
  Qed.
  Lemma cmp_le n m A l r b : (n <= m)%nat -> cmp n A l r = Some b -> cmp m A l r = Some b.
  Proof. induction 1; [auto|]. intros E. apply cmp_S. auto. Qed.

  Lemma peel_le (q : bool) n m A l r b : (n <= m)%nat ->
    (if q then match cast_of is_cast l, cast_of is_cast r with
               | Some x, Some y => cmp n A x y | Some x, None => cmp n A x r | None, Some y => cmp n A l y | None, None => Some false
               end else Some false) = Some b ->
    (if q then match cast_of is_cast l, cast_of is_cast r with
               | Some x, Some y => cmp m A x y | Some x, None => cmp m A x r | None, Some y => cmp m A l y | None, None => Some false
               end else Some false) = Some b.
  Proof. intros L. destruct q; [|auto]. destruct (cast_of is_cast l), (cast_of is_cast r); auto; apply cmp_le; exact L. Qed.

  (** ** There is an answer *)
  Definition answered (A : constants) (l r : constant) : Prop := exists n b, cmp n A l r = Some b.
  Lemma each_answered A ls : forall rs, (forall l r, In l ls -> In r rs -> answered A l r) ->
    exists n b, cmp_each (cmp n A) ls rs = Some b.
  Proof.
    induction ls as [|l ls IH]; intros [|r rs] H; try (exists 0%nat, true; reflexivity).
    destruct (H l r) as (n & b & E); [left; reflexivity|left; reflexivity|].
    destruct (IH rs) as (m & c & F); [intros; apply H; right; assumption|].
    exists (max n m). cbn. rewrite (cmp_le n (max n m) _ _ _ _ (Nat.le_max_l _ _) E). destruct b; [|eauto].
    exists c. revert F. apply each_mono. intros l' r' b'. apply cmp_le. apply Nat.le_max_r.
  Qed.
  (** The pairs of global variables not assumed to be equal. *)
  Definition open (A : constants) : nat :=
    length (filter (fun p => negb (mem p A)) (list_prod (dkeys gl) (dkeys gr))).
  Lemma filter_length_le {X} (f g : X -> bool) xs : (forall x, f x = true -> g x = true) ->
    (length (filter f xs) <= length (filter g xs))%nat.
  Proof.
    intros H. induction xs as [|x xs IH]; cbn; [lia|]. destruct (f x) eqn:F; [rewrite (H _ F); cbn; lia|].
    destruct (g x); cbn; lia.
  Qed.
  Lemma filter_length_lt {X} (f g : X -> bool) xs x : (forall x, f x = true -> g x = true) ->
    In x xs -> f x = false -> g x = true -> (length (filter f xs) < length (filter g xs))%nat.
  Proof.
    intros H. induction xs as [|y ys IH]; intros I F G; [destruct I|]. cbn. destruct I as [->|I].
    - rewrite F, G. cbn. pose proof (filter_length_le f g ys H). lia.
    - specialize (IH I F G). destruct (f y) eqn:FY; [rewrite (H _ FY); cbn; lia|]. destruct (g y); cbn; lia.
  Qed.
  Lemma open_lt A a b c d : ~ In (a, b) A -> variables gl gr a b = Some (c, d) -> (open ((a, b) :: A) < open A)%nat.
  Proof.
    intros N V. unfold open. apply filter_length_lt with (x := (a, b)).
    - intros p. rewrite !negb_true_iff, !mem_not_In. intros X Y. apply X. right. exact Y.
    - apply in_prod; apply dmem_spec; unfold dmem; unfold variables in V.
      + destruct (dget gl a); [reflexivity|discriminate V].
      + destruct (dget gl a); [|discriminate V]. destruct (dget gr b); [reflexivity|discriminate V].
    - apply negb_false_iff, mem_In. left. reflexivity.
    - apply negb_true_iff, mem_not_In. exact N.
  Qed.
  Lemma cast_size c x : cast_of is_cast c = Some x -> (size x < size c)%nat.
  Proof.
    destruct c; cbn; try discriminate. destruct ops as [|y ys]; [discriminate|]. destruct (is_cast opcode); [|discriminate].
    intros E. injection E as ->. cbn. lia.
  Qed.

  Theorem always_answered : forall u A, (open A <= u)%nat -> forall s l r, (size l + size r <= s)%nat -> answered A l r.
  Proof.
    induction u as [u IHu] using lt_wf_ind. intros A U. induction s as [s IHs] using lt_wf_ind. intros l r SZ.
    assert (B : exists n b, base (cmp n) A l r = Some b).
    { unfold cmp_constants_base.
      destruct (negb _ && negb _); [exists 0%nat; eauto|]. destruct (is_null l && is_null r); [exists 0%nat; eauto|].
      destruct (is_null l || is_null r); [exists 0%nat; eauto|].
      destruct l, r; try (exists 0%nat; eexists; reflexivity).
      - destruct (_ && _); [|exists 0%nat; eauto]. apply each_answered. intros l r L R.
        apply size_in in L, R. cbn in SZ. apply (IHs (size l + size r)%nat); lia.
      - destruct (Nat.eqb _ _); [|exists 0%nat; eauto]. apply each_answered. intros l r L R.
        apply size_in in L, R. cbn in SZ. apply (IHs (size l + size r)%nat); lia.
      - unfold cmp_global. destruct (mem _ A) eqn:M; [exists 0%nat; eauto|]. apply mem_not_In in M.
        destruct (variables gl gr id id0) as [[c d]|] eqn:V; [|exists 0%nat; eauto].
        pose proof (open_lt A id id0 c d M V) as O.
        apply (IHu (open ((id, id0) :: A)) ltac:(lia) ((id, id0) :: A) (le_n _) (size c + size d)%nat). apply le_n. }
    destruct B as (n & b & B). destruct b.
    { exists (S n), true. cbn [cmp_constants]. rewrite B. reflexivity. }
    assert (K : forall q : bool, exists m b, (if q then
          match cast_of is_cast l, cast_of is_cast r with
          | Some a, Some b => cmp m A a b
          | Some a, None => cmp m A a r
          | None, Some b => cmp m A l b
          | None, None => Some false
          end
        else Some false) = Some b).
    { intros [|]; [|exists 0%nat; eauto].
      destruct (cast_of is_cast l) as [x|] eqn:CL, (cast_of is_cast r) as [y|] eqn:CR;
        try (pose proof (cast_size _ _ CL)); try (pose proof (cast_size _ _ CR)).
      - apply (IHs (size x + size y)%nat); lia.
      - apply (IHs (size x + size r)%nat); lia.
      - apply (IHs (size l + size y)%nat); lia.
      - exists 0%nat. eauto. }
    destruct (K p_casts) as (m & b & K'). exists (S (max n m)), b. cbn [cmp_constants].
    rewrite (base_mono _ _ (fun A l r b => cmp_le n (max n m) A l r b (Nat.le_max_l _ _)) _ _ _ _ B).
    revert K'. apply peel_le. apply Nat.le_max_r.
  Qed.
End Fuel.
