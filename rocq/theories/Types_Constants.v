(** * Proofs about the comparison of constants *)
From Coq Require Import String Ascii ZArith Arith Bool Lia List.
From Verif Require Import PyBase Types_Model Types_Spec.
Import ListNotations.
Open Scope list_scope.
Open Scope Z_scope.

Section Induction.
  Variable P : constant -> Prop.
  Hypothesis HI : forall b v, P (KInt b v).
  Hypothesis HF : forall k v, P (KFp k v).
  Hypothesis HZ : forall t, P (KZero t).
  Hypothesis HU : forall t, P (KUndef t).
  Hypothesis HP : forall t, P (KPoison t).
  Hypothesis HD : forall t bs, P (KData t bs).
  Hypothesis HA : forall t xs, Forall P xs -> P (KAgg t xs).
  Hypothesis HE : forall o t xs, Forall P xs -> P (KExpr o t xs).
  Hypothesis HG : forall g, P (KGlobal g).
  Fixpoint constant_induction (c : constant) : P c :=
    let all := fix all (xs : list constant) : Forall P xs :=
      match xs with [] => Forall_nil P | x :: xs' => Forall_cons x (constant_induction x) (all xs') end in
    match c with
    | KInt b v => HI b v | KFp k v => HF k v | KZero t => HZ t | KUndef t => HU t | KPoison t => HP t
    | KData t bs => HD t bs | KAgg t xs => HA t xs (all xs) | KExpr o t xs => HE o t xs (all xs) | KGlobal g => HG g
    end.
End Induction.

Lemma null_spec c : is_null c = true <-> null c.
Proof.
  destruct c; cbn; split; intros H; try discriminate; try (inversion H; subst; reflexivity); try constructor;
    apply Z.eqb_eq in H; subst; constructor.
Qed.
Lemma type_spec c t : has_type c t <-> type_of c = t.
Proof. split; [intros H; inversion H; reflexivity|intros <-; destruct c; constructor]. Qed.
Lemma kind_spec t u : Nat.eqb (shape t) (shape u) = true <-> same_kind t u.
Proof.
  assert (K : forall t k, of_kind t k <-> shape t = match k with Arrays => 0 | Vectors => 1 | Others => 2 end%nat).
  { intros t0 k. split.
    - intros H. inversion H as [n x|s n x|t' N1 N2]; subst; try reflexivity.
      destruct t0; try reflexivity; exfalso; [eapply N1; reflexivity|apply N2; do 3 eexists; reflexivity].
    - intros H. destruct t0, k; try discriminate H; constructor; try congruence; intros (? & ? & ? & E); discriminate E. }
  rewrite Nat.eqb_eq. split.
  - intros E. exists (match shape t with 0 => Arrays | 1 => Vectors | _ => Others end)%nat. split; apply K; [|rewrite <- E];
      destruct t; reflexivity.
  - intros (k & A & B). apply K in A, B. congruence.
Qed.
Lemma same_bytes_spec a b : same_bytes a b = true <-> a = b.
Proof.
  revert b. induction a as [|x a IH]; intros [|y b]; cbn; try (split; congruence).
  rewrite andb_true_iff, Z.eqb_eq, IH. split; [intros [-> ->]; reflexivity|intros E; injection E; auto].
Qed.

Section Proofs.
  Variables p_structs p_casts : bool.
  Variable w : Z.
  Variables size_l size_r : ty -> Z.
  Variables gl gr : dict string global.
  Variable same_named : string -> string -> bool.
  Variable vector_bits : ty -> Z.
  Variable is_cast : string -> bool.
  Variable same_type : ty -> ty -> Prop.
  Notation cmp_types := (cmp_types p_structs p_casts w size_l size_r).
  Hypothesis types : forall t u, cmp_types t u = true <-> same_type t u.
  Notation base := (cmp_constants_base p_structs p_casts w size_l size_r gl gr same_named vector_bits).
  Notation cmp := (cmp_constants p_structs p_casts w size_l size_r gl gr same_named vector_bits is_cast).
  Notation fitting := (fitting same_type vector_bits).
  Notation like := (like p_casts same_type vector_bits is_cast).
  Notation initialised := (initialised gl gr).
  Notation converts := (converts is_cast).
  Notation no_cast := (no_cast is_cast).

  Lemma fitting_spec t u : negb (cmp_types t u) && negb (bit_castable vector_bits t u) = false <-> fitting t u.
  Proof.
    unfold Types_Spec.fitting. rewrite <- types. destruct (cmp_types t u); cbn [negb andb]; [tauto|].
    unfold bit_castable. rewrite negb_false_iff, andb_true_iff, Z.eqb_eq, negb_true_iff, Z.eqb_neq. split.
    - intros [E N]. right. destruct t; cbn in N; try congruence. destruct u; cbn in E, N; try congruence.
      repeat split; try assumption; do 3 eexists; reflexivity.
    - intros [N|((? & ? & ? & ->) & (? & ? & ? & ->) & E & N)]; [discriminate N|]. auto.
  Qed.
  Lemma variables_spec a b c d : variables gl gr a b = Some (c, d) <-> initialised a b c d.
  Proof.
    unfold variables, Types_Spec.initialised. split.
    - destruct (dget gl a) as [x|]; [|discriminate]. destruct (dget gr b) as [y|]; [|discriminate].
      destruct (g_init x) eqn:E1; [|discriminate]. destruct (g_init y) eqn:E2; [|discriminate].
      destruct (g_constant x) eqn:E3, (g_constant y) eqn:E4; try discriminate. intros E. injection E as -> ->.
      exists x, y. auto 8.
    - intros (x & y & -> & -> & -> & -> & -> & ->). reflexivity.
  Qed.
  Lemma variables_none a b : variables gl gr a b = None <-> (forall c d, ~ initialised a b c d).
  Proof.
    split.
    - intros E c d I. apply variables_spec in I. congruence.
    - intros N. destruct (variables gl gr a b) as [[c d]|] eqn:E; [|reflexivity]. apply variables_spec in E. destruct (N c d E).
  Qed.
  Lemma converts_spec c x : cast_of is_cast c = Some x <-> converts c x.
  Proof.
    unfold Types_Spec.converts. destruct c; cbn; try (split; [discriminate|intros (? & ? & ? & E & _); discriminate E]).
    destruct ops as [|y ys]; [split; [discriminate|intros (? & ? & ? & E & _); discriminate E]|].
    destruct (is_cast opcode) eqn:C.
    - split; [intros E; injection E as ->; eauto 6|]. intros (? & ? & ? & E & _). congruence.
    - split; [discriminate|]. intros (? & ? & ? & E & ?). congruence.
  Qed.
  Lemma no_cast_spec c : cast_of is_cast c = None <-> no_cast c.
  Proof.
    unfold Types_Spec.no_cast. split.
    - intros E x C. apply converts_spec in C. congruence.
    - intros N. destruct (cast_of is_cast c) eqn:E; [|reflexivity]. apply converts_spec in E. destruct (N _ E).
  Qed.

  (** Equal without a look below the casts. *)
  Inductive based (G : string -> string -> Prop) : constant -> constant -> Prop :=
  | based_null l r : null l -> null r -> same_type (type_of l) (type_of r) -> based G l r
  | based_int a x b : (a = b \/ p_casts = true) -> x <> 0 -> same_type (TInt a) (TInt b) -> based G (KInt a x) (KInt b x)
  | based_fp k x : x <> 0 -> same_type (TPrim k) (TPrim k) -> based G (KFp k x) (KFp k x)
  | based_undef t u : same_type t u -> based G (KUndef t) (KUndef u)
  | based_poison t u : same_type t u -> based G (KPoison t) (KPoison u)
  | based_data t u bs : fitting t u -> same_kind t u -> based G (KData t bs) (KData u bs)
  | based_agg t u xs ys : fitting t u -> same_kind t u -> Forall2 (like G) xs ys -> based G (KAgg t xs) (KAgg u ys)
  | based_expr o o' t u xs ys : fitting t u -> Forall2 (like G) xs ys -> based G (KExpr o t xs) (KExpr o' u ys)
  | based_global a b : same_type (TPtr 0) (TPtr 0) -> G a b -> based G (KGlobal a) (KGlobal b).
  Definition peeled (G : string -> string -> Prop) (l r : constant) : Prop :=
    p_casts = true /\ ((exists x y, converts l x /\ converts r y /\ like G x y)
                       \/ (exists x, converts l x /\ no_cast r /\ like G x r) \/ (exists y, no_cast l /\ converts r y /\ like G l y)).
  Lemma like_split G l r : like G l r <-> based G l r \/ peeled G l r.
  Proof.
    split.
    - intros H. destruct H; try (left; constructor; auto; fail);
        try (right; split; [assumption|]; eauto 8; fail).
      + left. apply type_spec in H1, H2. subst. constructor; assumption.
      + subst. left. constructor; assumption.
    - intros [H|(PC & [(x & y & A & B & C)|[(x & A & B & C)|(y & A & B & C)]])].
      + destruct H; try (econstructor; eauto; fail).
        eapply like_null; eauto; apply type_spec; reflexivity.
      + eapply like_casts; eauto.
      + eapply like_cast_l; eauto.
      + eapply like_cast_r; eauto.
  Qed.

  Lemma each_spec (f : constant -> constant -> option bool) (P : constant -> constant -> Prop) :
    (forall l r b, f l r = Some b -> (b = true <-> P l r)) ->
    forall ls rs b, length ls = length rs -> cmp_each f ls rs = Some b -> (b = true <-> Forall2 P ls rs).
  Proof.
    intros H. induction ls as [|l ls IH]; intros [|r rs] b L E; try discriminate L; cbn in E.
    - injection E as <-. split; auto.
    - destruct (f l r) as [[|]|] eqn:F; [| |discriminate E].
      + apply H in F. rewrite (IH rs b ltac:(cbn in L; lia) E). split; [constructor; tauto|].
        intros X. inversion X; assumption.
      + injection E as <-. apply H in F. split; [discriminate|]. intros X. inversion X. tauto.
  Qed.
  Lemma Forall2_len {A B} (P : A -> B -> Prop) xs ys : Forall2 P xs ys -> length xs = length ys.
  Proof. induction 1; cbn; congruence. Qed.

  (** ** Equal global variables, given those assumed *)
  Definition closed (A : constants) (R : string -> string -> Prop) : Prop :=
    forall a b, R a b -> In (a, b) A \/ (exists c d, initialised a b c d /\ like R c d)
                         \/ ((forall c d, ~ initialised a b c d) /\ same_named a b = true).
  Definition sim (A : constants) (a b : string) : Prop := exists R, closed A R /\ R a b.

  Lemma like_mono (G G' : string -> string -> Prop) : (forall a b, G a b -> G' a b) -> forall l r, like G l r -> like G' l r.
  Proof.
    intros I. fix self 3. intros l r H. destruct H.
    - eapply like_null; eassumption.
    - eapply like_int; eassumption.
    - eapply like_fp; eassumption.
    - eapply like_undef; eassumption.
    - eapply like_poison; eassumption.
    - eapply like_data; eassumption.
    - apply like_agg; [assumption|assumption|].
      match goal with F : Forall2 _ _ _ |- _ => revert F end. clear - self.
      revert xs ys. fix all 3. intros xs ys F. destruct F; constructor; [apply self; assumption|apply all; assumption].
    - apply like_expr; [assumption|].
      match goal with F : Forall2 _ _ _ |- _ => revert F end. clear - self.
      revert xs ys. fix all 3. intros xs ys F. destruct F; constructor; [apply self; assumption|apply all; assumption].
    - apply like_global; auto.
    - eapply like_casts; eauto.
    - eapply like_cast_l; eauto.
    - eapply like_cast_r; eauto.
  Qed.

  Lemma sim_assumed A a b : In (a, b) A -> sim A a b.
  Proof.
    intros I. exists (fun x y => x = a /\ y = b). split; [|auto].
    intros x y [-> ->]. auto.
  Qed.
  Lemma sim_named A a b : ~ In (a, b) A -> (forall c d, ~ initialised a b c d) -> (sim A a b <-> same_named a b = true).
  Proof.
    intros NI N. split.
    - intros (R & C & r). destruct (C a b r) as [?|[(c & d & I & _)|[_ ?]]]; [contradiction|destruct (N c d I)|assumption].
    - intros E. exists (fun x y => x = a /\ y = b). split; [|auto]. intros x y [-> ->]. auto.
  Qed.
  Lemma sim_variables A a b c d : ~ In (a, b) A -> initialised a b c d -> (sim A a b <-> like (sim ((a, b) :: A)) c d).
  Proof.
    intros NI I. split.
    - intros (R & C & r). destruct (C a b r) as [?|[(c' & d' & I' & L)|[N _]]]; [contradiction| |destruct (N c d I)].
      apply variables_spec in I, I'. rewrite I in I'. injection I' as <- <-.
      revert L. apply like_mono. intros x y r'. exists R. split; [|exact r'].
      intros x' y' r''. destruct (C x' y' r'') as [?|?]; [left; right; assumption|right; assumption].
    - intros L. exists (sim ((a, b) :: A)). split; [|apply sim_assumed; left; reflexivity].
      intros x y (R & C & r). destruct (C x y r) as [[E|?]|[(c' & d' & I' & L')|[N ?]]].
      + injection E as <- <-. right. left. eauto.
      + auto.
      + right. left. exists c', d'. split; [assumption|]. revert L'. apply like_mono. intros x' y' r'. exists R. auto.
      + right. right. auto.
  Qed.

  (** ** The comparison *)
  Section Step.
    Variable f : constants -> constant -> constant -> option bool.
    Hypothesis IH : forall A l r b, f A l r = Some b -> (b = true <-> like (sim A) l r).

    Lemma global_spec A a b v : cmp_global gl gr same_named f A a b = Some v -> (v = true <-> sim A a b).
    Proof.
      unfold cmp_global. destruct (mem (a, b) A) eqn:M.
      - apply mem_In in M. intros E. injection E as <-. split; [intros _; apply sim_assumed; exact M|reflexivity].
      - apply mem_not_In in M. destruct (variables gl gr a b) as [[c d]|] eqn:V.
        + apply variables_spec in V. intros E. rewrite (IH _ _ _ _ E). symmetry. apply sim_variables; assumption.
        + pose proof (proj1 (variables_none a b) V) as N. intros E. injection E as <-. symmetry. apply sim_named; assumption.
    Qed.

    Lemma based_fitting G l r : based G l r -> fitting (type_of l) (type_of r).
    Proof. intros H. destruct H; cbn; try assumption; left; assumption. Qed.
    Lemma based_nulls G l r : based G l r -> (null l <-> null r) /\ (null l -> same_type (type_of l) (type_of r)).
    Proof.
      intros H. destruct H; cbn; try (split; [tauto|auto; fail]);
        (split; [split; intros N; inversion N; subst; congruence|intros N; inversion N; subst; congruence]).
    Qed.

    Lemma base_spec A l r b : base f A l r = Some b -> (b = true <-> based (sim A) l r).
    Proof.
      unfold cmp_constants_base.
      destruct (negb (cmp_types (type_of l) (type_of r)) && negb (bit_castable vector_bits (type_of l) (type_of r))) eqn:Fit.
      { intros E. injection E as <-. split; [discriminate|]. intros H. apply based_fitting, fitting_spec in H. congruence. }
      apply fitting_spec in Fit.
      destruct (is_null l) eqn:NL, (is_null r) eqn:NR; cbn [andb orb]; try (apply null_spec in NL); try (apply null_spec in NR).
      - intros E. injection E as <-. rewrite types. split; [intros S; apply based_null; assumption|].
        intros H. apply based_nulls in H. tauto.
      - intros E. injection E as <-. split; [discriminate|]. intros H. apply based_nulls in H. destruct H as [H _].
        apply H, null_spec in NL. congruence.
      - intros E. injection E as <-. split; [discriminate|]. intros H. apply based_nulls in H. destruct H as [H _].
        apply H, null_spec in NR. congruence.
      - assert (NN : ~ null l) by (rewrite <- null_spec; congruence).
        destruct l, r; cbn [type_of] in Fit; intros E;
          try (injection E as <-; split; [discriminate|intros H; inversion H; subst; contradiction]; fail).
        + injection E as <-. unfold same_int. cbn in NL. apply Z.eqb_neq in NL.
          assert (S : same_type (TInt bits) (TInt bits0))
            by (destruct Fit as [?|((? & ? & ? & X) & _)]; [assumption|discriminate X]).
          split.
          * intros H. destruct p_casts eqn:PC.
            -- apply Z.eqb_eq in H. subst. apply based_int; auto.
            -- apply andb_true_iff in H. rewrite !Z.eqb_eq in H. destruct H as [-> ->]. apply based_int; auto.
          * intros H. inversion H as [? ? H1| ? ? ? H1 | | | | | | | ]; subst; [contradiction|]. destruct p_casts; rewrite ?Z.eqb_refl; [reflexivity|].
            destruct H1 as [->|X]; [|discriminate X]. rewrite Z.eqb_refl. reflexivity.
        + injection E as <-. cbn in NL. apply Z.eqb_neq in NL. rewrite andb_true_iff, Nat.eqb_eq, Z.eqb_eq. split.
          * intros [-> ->]. apply based_fp; [assumption|].
            destruct Fit as [?|((? & ? & ? & X) & _)]; [assumption|discriminate X].
          * intros H. inversion H; subst; [contradiction|auto].
        + injection E as <-. rewrite types. split; [intros S; apply based_undef; exact S|].
          intros H. inversion H; subst; [contradiction|assumption].
        + injection E as <-. rewrite types. split; [intros S; apply based_poison; exact S|].
          intros H. inversion H; subst; [contradiction|assumption].
        + injection E as <-. rewrite andb_true_iff, kind_spec, same_bytes_spec. split.
          * intros [K ->]. apply based_data; assumption.
          * intros H. inversion H; subst; [contradiction|auto].
        + destruct (Nat.eqb (shape t) (shape t0) && Nat.eqb (length elems) (length elems0)) eqn:KL.
          * apply andb_true_iff in KL. rewrite kind_spec, Nat.eqb_eq in KL. destruct KL as [K L].
            rewrite (each_spec (f A) (like (sim A)) (IH A) _ _ _ L E). split; [intros F; apply based_agg; assumption|].
            intros H. inversion H; subst; [contradiction|assumption].
          * injection E as <-. split; [discriminate|]. intros H. exfalso.
            inversion H as [| | | | | |? ? ? ? F1 K F2| |]; subst; [contradiction|].
            apply Forall2_len in F2. apply kind_spec in K. rewrite K, F2, Nat.eqb_refl in KL. discriminate KL.
        + destruct (Nat.eqb (length ops) (length ops0)) eqn:L.
          * apply Nat.eqb_eq in L.
            rewrite (each_spec (f A) (like (sim A)) (IH A) _ _ _ L E). split; [intros F; apply based_expr; assumption|].
            intros H. inversion H; subst; [contradiction|assumption].
          * injection E as <-. split; [discriminate|]. intros H. exfalso.
            inversion H as [| | | | | | |? ? ? ? ? ? F1 F2|]; subst; [contradiction|].
            apply Forall2_len in F2. rewrite F2, Nat.eqb_refl in L. discriminate L.
        + rewrite (global_spec _ _ _ _ E). split.
          * intros S. apply based_global; [|exact S].
            destruct Fit as [?|((? & ? & ? & X) & _)]; [assumption|discriminate X].
          * intros H. inversion H; subst; [contradiction|assumption].
    Qed.
  End Step.

  Theorem constants_sim : forall n A l r b, cmp n A l r = Some b -> (b = true <-> like (sim A) l r).
  Proof.
    induction n as [|n IH]; intros A l r b E; [discriminate E|].
    cbn [cmp_constants] in E. rewrite like_split.
    destruct (base (cmp n) A l r) as [[|]|] eqn:B; [| |discriminate E].
    - injection E as <-. apply base_spec in B; [|exact IH]. tauto.
    - apply base_spec in B; [|exact IH].
      assert (NB : ~ based (sim A) l r) by (intros X; apply B in X; discriminate X). clear B.
      unfold peeled. destruct p_casts eqn:PC.
      + destruct (cast_of is_cast l) as [x|] eqn:CL.
        * assert (CL' := CL). apply converts_spec in CL'.
          destruct (cast_of is_cast r) as [y|] eqn:CR.
          -- assert (CR' := CR). apply converts_spec in CR'. apply IH in E. rewrite E. split.
             ++ intros H. right. split; [reflexivity|]. left. eauto.
             ++ intros [?|(_ & [(x' & y' & X & Y & ?)|[(x' & _ & N & _)|(y' & N & _)]])]; [contradiction| |destruct (N _ CR')|destruct (N _ CL')].
                apply converts_spec in X, Y. congruence.
          -- assert (CR' := CR). apply no_cast_spec in CR'. apply IH in E. rewrite E. split.
             ++ intros H. right. split; [reflexivity|]. right. left. eauto.
             ++ intros [?|(_ & [(x' & y' & X & Y & ?)|[(x' & X & N & ?)|(y' & N & _)]])]; [contradiction|destruct (CR' _ Y)| |destruct (N _ CL')].
                apply converts_spec in X. congruence.
        * assert (CL' := CL). apply no_cast_spec in CL'.
          destruct (cast_of is_cast r) as [y|] eqn:CR.
          -- assert (CR' := CR). apply converts_spec in CR'. apply IH in E. rewrite E. split.
             ++ intros H. right. split; [reflexivity|]. right. right. eauto.
             ++ intros [?|(_ & [(x' & y' & X & Y & ?)|[(x' & X & N & _)|(y' & N & Y & ?)]])]; [contradiction|destruct (CL' _ X)|destruct (CL' _ X)|].
                apply converts_spec in Y. congruence.
          -- assert (CR' := CR). apply no_cast_spec in CR'. injection E as <-. split; [discriminate|].
             intros [?|(_ & [(x' & y' & X & Y & ?)|[(x' & X & N & _)|(y' & N & Y & ?)]])]; [contradiction|destruct (CL' _ X)|destruct (CL' _ X)|destruct (CR' _ Y)].
      + injection E as <-. split; [discriminate|]. intros [?|[X _]]; [contradiction|discriminate X].
  Qed.

  Theorem constants_equal n l r b : cmp n [] l r = Some b ->
    (b = true <-> equal_constants p_casts same_type gl gr same_named vector_bits is_cast l r).
  Proof.
    intros E. rewrite (constants_sim _ _ _ _ _ E). unfold equal_constants. split.
    - intros L. exists (sim []). split; [|exact L]. intros a b' (R & C & r').
      destruct (C a b' r') as [[]|[(c & d & I & L')|?]]; [|auto].
      left. exists c, d. split; [assumption|]. revert L'. apply like_mono. intros x y ?. exists R. auto.
    - intros (G & C & L). revert L. apply like_mono. intros x y g. exists G. split; [|exact g].
      intros a b' g'. right. apply C. exact g'.
  Qed.
End Proofs.
