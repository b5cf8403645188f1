(** Proofs about the comparison of GEPs (C117). *)
From Coq Require Import String Ascii ZArith Arith Bool Lia List.
From Verif Require Import PyBase Layout_Model Layout_Spec.
Import ListNotations.
Open Scope list_scope.
Open Scope Z_scope.

Lemma reaches_down W t l u : reaches W t l u <-> types_down W t l = Some u.
Proof.
  split.
  - induction 1 as [t|n e i l t R IH|s w k f l t F R IH]; cbn; [reflexivity|exact IH|].
    assert (E : 0 <=? Z.of_nat k = true) by (apply Z.leb_le; lia). rewrite E, Nat2Z.id, F. exact IH.
  - revert t. induction l as [|i l IH]; intros t; cbn; [intros [= ->]; constructor|].
    destruct t as [s|s|n e]; cbn; [discriminate| |intros H; constructor; apply IH, H].
    destruct i as [w v|v]; [|discriminate]. destruct (Z.leb_spec 0 v) as [B|B]; [|discriminate].
    destruct (nth_error (s_fields W s) (Z.to_nat v)) as [f|] eqn:F; [|discriminate]. intros H.
    rewrite <- (Z2Nat.id v) by exact B. econstructor; [exact F|apply IH, H].
Qed.
Lemma tl_firstn {A} k (l : list A) : tl (firstn k l) = firstn (k - 1) (tl l).
Proof. destruct k as [|k]; [reflexivity|]. destruct l as [|x l]; cbn; [destruct (k - 0)%nat; reflexivity|]. rewrite Nat.sub_0_r. reflexivity. Qed.
Lemma applied_indexed W g k t : applied_to W g k t <-> indexed_type W (g_type g) (firstn k (g_idx g)) = Some t.
Proof. unfold applied_to, indexed_type. rewrite tl_firstn. apply reaches_down. Qed.

Section Equal.
  Variable W : types.
  Variable names : dict (option nat * Z) string.
  Variable same_value : index -> index -> bool.
  Variable same_type : ty -> ty -> bool.
  Variable offset : gep -> option Z.
  Variable enum_index : index -> option bool.

  Lemma all_same_spec l : forall r, length l = length r ->
    (all_same same_value l r = true <-> Forall2 (fun i j => same_value i j = true) l r).
  Proof.
    induction l as [|a l IH]; intros [|b r] E; try discriminate; cbn.
    - split; [constructor|reflexivity].
    - injection E as E. rewrite andb_true_iff, (IH r E). split; [intros (H1 & H2); constructor; assumption|inversion 1; subst; split; assumption].
  Qed.
  Lemma operands_spec l r : length (g_idx l) = length (g_idx r) ->
    (all_same same_value (g_base l :: g_idx l) (g_base r :: g_idx r) = true <-> same_operands same_value l r).
  Proof.
    intros E. rewrite all_same_spec by (cbn; f_equal; exact E). unfold same_operands.
    split; [inversion 1; subst; split; assumption|intros (A & B); constructor; assumption].
  Qed.
  Lemma Forall2_len {A B} (R : A -> B -> Prop) l r : Forall2 R l r -> length l = length r.
  Proof. induction 1; cbn; congruence. Qed.
  Lemma base_spec l r : base_geps same_value same_type offset l r = true <-> same_address same_value same_type offset l r.
  Proof.
    unfold base_geps, same_address. destruct (Z.eqb_spec (g_space l) (g_space r)) as [E|E]; cbn [negb]; [|split; [discriminate|tauto]].
    assert (G : (same_type (g_type l) (g_type r) && Nat.eqb (length (g_idx l)) (length (g_idx r))
                 && all_same same_value (g_base l :: g_idx l) (g_base r :: g_idx r) = true)
                <-> (same_type (g_type l) (g_type r) = true /\ same_operands same_value l r)).
    { rewrite !andb_true_iff, Nat.eqb_eq. split.
      - intros ((T & N) & A). split; [exact T|]. apply operands_spec; assumption.
      - intros (T & O). pose proof (Forall2_len _ _ _ (proj2 O)) as N. repeat split; [exact T|exact N|]. apply operands_spec; assumption. }
    destruct (offset l) as [x|] eqn:Ol, (offset r) as [y|] eqn:Or.
    - rewrite Z.eqb_eq. split.
      + intros ->. split; [exact E|]. left. exists y. split; reflexivity.
      + intros (_ & [(z & A & B)|([C|C] & _)]); try discriminate. congruence.
    - rewrite G. split; [intros (T & O); split; [exact E|]; right; auto|].
      intros (_ & [(z & A & B)|(_ & H)]); [discriminate|exact H].
    - rewrite G. split; [intros (T & O); split; [exact E|]; right; auto|].
      intros (_ & [(z & A & B)|(_ & H)]); [discriminate|exact H].
    - rewrite G. split; [intros (T & O); split; [exact E|]; right; auto|].
      intros (_ & [(z & A & B)|(_ & H)]); [discriminate|exact H].
  Qed.

  (** One step *)
  Definition check (tl tr : option ty) (i j : index) : bool :=
    match tl, tr with
    | Some (Struct s), Some (Struct t) => if same_names names s t i j then true else same_value i j
    | _, _ => same_value i j
    end.
  Lemma check_spec tl tr i j : check (Some tl) (Some tr) i j = true <-> same_step names same_value tl tr i j.
  Proof.
    assert (P : forall s t, same_names names s t i j = true <->
      exists w x w' y n, i = Cst w x /\ j = Cst w' y /\ dget names (Some s, x) = Some n /\ dget names (Some t, y) = Some n).
    { intros s t. unfold same_names. destruct i as [w x|v], j as [w' y|v']; try (split; [discriminate|intros (? & ? & ? & ? & ? & H & H' & _); discriminate]).
      split.
      - intros H. destruct (dget names (Some s, x)) as [a|] eqn:A; [|discriminate]. destruct (dget names (Some t, y)) as [b|] eqn:B; [|discriminate].
        apply String.eqb_eq in H. subst b. exists w, x, w', y, a. auto.
      - intros (w0 & x0 & w1 & y0 & n & [= -> ->] & [= -> ->] & A & B). rewrite A, B. apply String.eqb_refl. }
    unfold check, same_step. destruct tl as [sl|s|nl el], tr as [sr|t|nr er];
      try (split; [intros H; left; exact H|intros [H|(s0 & t0 & w & x & w' & y & n & E1 & E2 & _)]; [exact H|discriminate]]).
    destruct (same_names names s t i j) eqn:E.
    - split; [intros _; right|reflexivity]. apply P in E. destruct E as (w & x & w' & y & n & A & B & C & D).
      exists s, t, w, x, w', y, n. auto 10.
    - split; [intros H; left; exact H|]. intros [H|(s0 & t0 & w & x & w' & y & n & [= <-] & [= <-] & A & B & C & D)]; [exact H|].
      assert (T : same_names names s t i j = true) by (apply P; exists w, x, w', y, n; auto). congruence.
  Qed.
  Lemma indices_spec tl tr : forall l r dl dr, length l = length r ->
    (same_indices W names same_value tl tr l r dl dr = true <->
     forall k i j, nth_error l k = Some i -> nth_error r k = Some j ->
       check (indexed_type W tl (dl ++ firstn k l)) (indexed_type W tr (dr ++ firstn k r)) i j = true).
  Proof.
    induction l as [|a l IH]; intros [|b r] dl dr E; try discriminate; cbn [same_indices].
    - split; [intros _ [|k] i j; discriminate|reflexivity].
    - injection E as E.
      match goal with |- (if ?c then _ else _) = _ <-> _ => change c with (check (indexed_type W tl dl) (indexed_type W tr dr) a b) end.
      destruct (check (indexed_type W tl dl) (indexed_type W tr dr) a b) eqn:C.
      + rewrite (IH r (dl ++ [a]) (dr ++ [b]) E). split.
        * intros H [|k] i j; cbn [nth_error].
          -- intros [= <-] [= <-]. cbn [firstn]. rewrite !app_nil_r. exact C.
          -- intros A B. specialize (H k i j A B). rewrite <- !app_assoc in H. exact H.
        * intros H k i j A B. specialize (H (S k) i j A B). cbn [firstn] in H. rewrite <- !app_assoc. exact H.
      + split; [discriminate|]. intros H. specialize (H 0%nat a b eq_refl eq_refl). cbn [firstn] in H. rewrite !app_nil_r in H. congruence.
  Qed.
  Lemma constants_spec l : forallb constant l = true <-> constants l.
  Proof.
    unfold constants. rewrite forallb_forall, Forall_forall. split; intros H i Hi; specialize (H i Hi).
    - destruct i; [eauto|discriminate].
    - destruct H as (w & v & ->). reflexivity.
  Qed.

  Theorem geps_spec l r : valid W l -> valid W r ->
    (cmp_geps W names same_value same_type offset enum_index true l r = true <->
     same_access W names same_value same_type offset enum_index l r).
  Proof.
    intros Vl Vr. unfold cmp_geps. cbn [negb]. destruct (base_geps same_value same_type offset l r) eqn:B.
    { split; [|reflexivity]. intros _. left. apply base_spec, B. }
    assert (NB : ~ same_address same_value same_type offset l r) by (rewrite <- base_spec; congruence).
    unfold same_access. destruct (g_type l) as [sl|s|n e] eqn:Tl.
    - split; [discriminate|]. intros [H|[(n & e & m & f & i & j & A & _)|((s & t & A & _) & _)]]; [contradiction|congruence|congruence].
    - destruct (g_type r) as [sr|t|m f] eqn:Tr.
      { split; [discriminate|]. intros [H|[(n & e & m & f & i & j & A & _)|((s0 & t & _ & A & _) & _)]]; [contradiction|congruence|congruence]. }
      2:{ split; [discriminate|]. intros [H|[(n & e & m0 & f0 & i & j & A & _)|((s0 & t & _ & A & _) & _)]]; [contradiction|congruence|congruence]. }
      assert (SS : (same_struct W l r) <-> (c_name (s_name W s) = c_name (s_name W t) /\ g_space l = g_space r)).
      { unfold same_struct. rewrite Tl, Tr. split.
        - intros (s0 & t0 & [= <-] & [= <-] & H). exact H.
        - intros (A & C). exists s, t. auto. }
      assert (NE : ~ same_element same_value same_type enum_index l r).
      { intros (n & e & m & f & i & j & A & _). congruence. }
      destruct (String.eqb_spec (c_name (s_name W s)) (c_name (s_name W t))) as [Ec|Ec]; cbn [negb];
        [|split; [discriminate|]; intros [H|[H|(H & _)]]; [contradiction|contradiction|apply SS in H; tauto]].
      destruct (Z.eqb_spec (g_space l) (g_space r)) as [Es|Es]; cbn [negb];
        [|split; [discriminate|]; intros [H|[H|(H & _)]]; [contradiction|contradiction|apply SS in H; tauto]].
      assert (S1 : same_struct W l r) by (apply SS; auto).
      destruct (Nat.eqb_spec (length (g_idx l)) (length (g_idx r))) as [En|En]; cbn [negb].
      2:{ split; [discriminate|]. intros [H|[H|(_ & [H|H])]]; [contradiction|contradiction| |].
          - destruct H as (_ & _ & _ & _ & N & _). contradiction.
          - destruct H as (i & j & A & A' & _). rewrite A, A' in En. cbn in En. congruence. }
      destruct (forallb constant (g_idx l) && forallb constant (g_idx r)) eqn:K.
      + apply andb_true_iff in K. destruct K as (Kl & Kr). apply constants_spec in Kl, Kr.
        destruct (g_inst l && g_inst r) eqn:I; cbn [negb].
        * apply andb_true_iff in I. destruct I as (Il & Ir). rewrite (indices_spec (Struct s) (Struct t) (g_idx l) (g_idx r) [] [] En).
          cbn [app]. split.
          -- intros H. right. right. split; [exact S1|]. left. repeat split; try assumption.
             intros k i j ul ur A C Al Ar. apply applied_indexed in Al, Ar. rewrite Tl in Al. rewrite Tr in Ar.
             specialize (H k i j A C). rewrite Al, Ar in H. apply check_spec, H.
          -- intros [H|[H|(_ & [H|H])]]; [contradiction|contradiction| |].
             ++ destruct H as (_ & _ & _ & _ & _ & H). intros k i j A C.
                assert (kl : (k < length (g_idx l))%nat) by (apply nth_error_Some; congruence).
                assert (kr : (k < length (g_idx r))%nat) by (apply nth_error_Some; congruence).
                destruct (Vl k kl) as (ul & Al). destruct (Vr k kr) as (ur & Ar).
                specialize (H k i j ul ur A C Al Ar). apply applied_indexed in Al, Ar. rewrite Tl in Al. rewrite Tr in Ar.
                rewrite Al, Ar. apply check_spec, H.
             ++ destruct H as (i & j & A & A' & N & _). rewrite A in Kl. rewrite A' in Kr. tauto.
        * split; [discriminate|]. intros [H|[H|(_ & [H|H])]]; [contradiction|contradiction| |].
          -- destruct H as (Il & Ir & _). rewrite Il, Ir in I. discriminate.
          -- destruct H as (i & j & A & A' & N & _). rewrite A in Kl. rewrite A' in Kr. tauto.
      + assert (NK : ~ (constants (g_idx l) /\ constants (g_idx r))).
        { intros (X & Y). apply constants_spec in X, Y. rewrite X, Y in K. discriminate. }
        destruct (g_idx l) as [|i [|i' li]] eqn:Gl; destruct (g_idx r) as [|j [|j' rj]] eqn:Gr; try discriminate.
        * split.
          -- intros H. right. right. split; [exact S1|]. right. exists i, j. split; [exact Gl|]. split; [exact Gr|]. split; [exact NK|exact H].
          -- intros [H|[H|(_ & [H|H])]]; [contradiction|contradiction| |].
             ++ destruct H as (_ & _ & X & Y & _). rewrite Gl in X. rewrite Gr in Y. tauto.
             ++ destruct H as (i1 & j1 & A & A' & _ & V). rewrite Gl in A. rewrite Gr in A'. congruence.
        * split; [discriminate|]. intros [H|[H|(_ & [H|H])]]; [contradiction|contradiction| |].
          -- destruct H as (_ & _ & X & Y & _). rewrite Gl in X. rewrite Gr in Y. tauto.
          -- destruct H as (i1 & j1 & A & _). rewrite Gl in A. discriminate.
    - assert (NS : ~ same_struct W l r) by (intros (s & t & A & _); congruence).
      destruct (g_type r) as [sr|t|m f] eqn:Tr.
      { split; [discriminate|]. intros [H|[(n0 & e0 & m & f & i & j & _ & A & _)|(H & _)]]; [contradiction|congruence|contradiction]. }
      { split; [discriminate|]. intros [H|[(n0 & e0 & m & f & i & j & _ & A & _)|(H & _)]]; [contradiction|congruence|contradiction]. }
      assert (NX : forall A : Prop, (same_element same_value same_type enum_index l r -> A) ->
        same_address same_value same_type offset l r \/ same_element same_value same_type enum_index l r
        \/ (same_struct W l r /\ (same_fields W names same_value l r \/ same_single same_value l r)) -> A).
      { intros A HA [H|[H|(H & _)]]; [contradiction|auto|contradiction]. }
      destruct (g_idx l) as [|i0 [|i [|i2 li]]] eqn:Gl; destruct (g_idx r) as [|j0 [|j [|j2 rj]]] eqn:Gr;
        try (split; [discriminate|]; apply NX; intros (n0 & e0 & m0 & f0 & i1 & j1 & _ & _ & _ & _ & (x & y & A & A') & _); congruence).
      destruct (Z.eqb_spec n m) as [En|En].
      { split; [discriminate|]. apply NX. intros (n0 & e0 & m0 & f0 & i1 & j1 & A & A' & N & _). congruence. }
      destruct (same_type e f) eqn:ET; cbn [negb].
      2:{ split; [discriminate|]. apply NX. intros (n0 & e0 & m0 & f0 & i1 & j1 & A & A' & _ & T & _). congruence. }
      assert (OP : all_same same_value [g_base l; i0; i] [g_base r; j0; j] = true <-> same_operands same_value l r).
      { rewrite <- operands_spec; [rewrite Gl, Gr; reflexivity|rewrite Gl, Gr; reflexivity]. }
      destruct (all_same same_value [g_base l; i0; i] [g_base r; j0; j]); cbn [negb].
      2:{ split; [discriminate|]. apply NX. intros (n0 & e0 & m0 & f0 & i1 & j1 & _ & _ & _ & _ & _ & O & _). apply OP in O. discriminate. }
      assert (O : same_operands same_value l r) by (apply OP; reflexivity).
      split.
      + intros H. right. left. exists n, e, m, f, i, j. rewrite Gl, Gr. repeat split; auto; [exists i0, j0; auto|apply O|apply O| |];
          destruct (enum_index i) as [[|]|], (enum_index j) as [[|]|]; try discriminate; reflexivity.
      + apply NX. intros (n0 & e0 & m0 & f0 & i1 & j1 & _ & _ & _ & _ & (x & y & A & A') & _ & Ei & Ej).
        rewrite Gl in A. rewrite Gr in A'. injection A as _ ->. injection A' as _ ->. rewrite Ei, Ej. reflexivity.
  Qed.
  Theorem geps_off l r : cmp_geps W names same_value same_type offset enum_index false l r = true <->
    same_address same_value same_type offset l r.
  Proof. unfold cmp_geps. cbn [negb]. apply base_spec. Qed.
End Equal.
