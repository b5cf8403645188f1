(** * Proofs about normalize and the construction of graphs *)
From Coq Require Import String Ascii ZArith Arith Bool Lia List.
From Verif Require Import PyBase Result_Model Graph_Model Graph_Spec Graph_Proofs Graph_Merge.
Import ListNotations.
Open Scope list_scope.

Lemma is_variant_endswith n : endswith n ".void" = true <-> is_variant n.
Proof. unfold is_variant, variant. apply endswith_spec. Qed.
Lemma not_variant_endswith n : endswith n ".void" = false <-> ~ is_variant n.
Proof. rewrite <- is_variant_endswith. destruct (endswith n ".void"); split; congruence. Qed.
Lemma chop_variant n : chop 5 (variant n) = n.
Proof. unfold variant. change 5 with (String.length ".void"). apply chop_app. Qed.
Lemma variant_inj a b : variant a = variant b -> a = b.
Proof. intros E. rewrite <- (chop_variant a), E. apply chop_variant. Qed.
Lemma is_variant_dec n : is_variant n \/ ~ is_variant n.
Proof.
  rewrite <- is_variant_endswith. destruct (endswith n ".void"); [auto|right; discriminate].
Qed.

(** ** The first loop (edges) *)
Definition succ_eq (h1 h2 : heap) : Prop :=
  forall w, with_succ (h1 w) ([], []) = with_succ (h2 w) ([], []).
Lemma with_succ_inj x y b : with_succ x b = with_succ y b ->
  v_names x = v_names y /\ v_result x = v_result y /\ v_nonfun x = v_nonfun y /\
  v_files x = v_files y /\ v_lines x = v_lines y /\
  v_stats x = v_stats y /\ v_cachable x = v_cachable y /\ v_prevents x = v_prevents y /\
  v_pred x = v_pred y.
Proof. destruct x, y. unfold with_succ. simpl. intros [= -> -> -> -> -> -> -> -> ->]. auto 10. Qed.

Lemma upd_nth_length {A} i (f : A -> A) l : length (upd_nth i f l) = length l.
Proof. revert i. induction l; destruct i; simpl; auto. Qed.
Lemma nth_error_upd_nth {A} i (f : A -> A) l j :
  nth_error (upd_nth i f l) j =
  if Nat.eqb j i then option_map f (nth_error l j) else nth_error l j.
Proof.
  revert i j. induction l as [|x l IH]; intros i j.
  - destruct i, j; simpl; try reflexivity; destruct (Nat.eqb j i); reflexivity.
  - destruct i, j; simpl; auto.
Qed.

Lemma eref_dec (a b : eref) : {a = b} + {a <> b}.
Proof. repeat decide equality. Qed.

Section EdgeLoop.
  Variables (h0 : heap) (g : graph).

  (** The edge found at a reference before normalisation. *)
  Definition edge0 (r : eref) : option edge :=
    nth_error (sel (snd (fst r)) (v_succ (h0 (fst (fst r))))) (snd r).
  Definition variant_equal (n : string) : Prop :=
    exists tv, dget (g_verts g) n = Some tv /\ v_result (h0 tv) = EQUAL.

  Hypothesis refs_variant : forall r, In r (g_ecache g) ->
    exists e, edge0 r = Some e /\ is_variant (e_target e).
  Hypothesis no_double : forall r e, In r (g_ecache g) -> edge0 r = Some e -> ~ is_double_variant (e_target e).

  (** State after the references in [P] have been processed. *)
  Record einv (P : list eref) (h : heap) : Prop := {
    ei_succ : succ_eq h h0;
    ei_len : forall v s, length (sel s (v_succ (h v))) = length (sel s (v_succ (h0 v)));
    ei_edge : forall v s i e0, edge0 (v, s, i) = Some e0 ->
      exists e, nth_error (sel s (v_succ (h v))) i = Some e /\
        e_file e = e_file e0 /\ e_line e = e_line e0 /\
        (In (v, s, i) P -> e_target e0 = variant (e_target e)) /\
        (~ In (v, s, i) P -> e_target e = e_target e0) /\
        (e_kind e = WEAK -> e_kind e0 = WEAK \/
           exists s' i' e2 x, In (v, s', i') P /\ edge0 (v, s', i') = Some e2 /\
             e_target e2 = variant x /\ stripped (e_target e0) x /\ variant_equal (e_target e2)) /\
        (e_kind e0 = WEAK -> e_kind e = WEAK) /\
        (In (v, s, i) P -> variant_equal (e_target e0) -> e_kind e = WEAK) /\
        (forall s' i' e2, In (v, s', i') P -> edge0 (v, s', i') = Some e2 ->
           e_target e2 = variant (e_target e0) -> variant_equal (e_target e2) -> e_kind e = WEAK) }.

  Lemma einv_init : einv [] h0.
  Proof.
    constructor.
    - intros w. reflexivity.
    - reflexivity.
    - intros v s i e0 E. exists e0. split; [exact E|]. simpl. repeat split; try tauto; auto.
  Qed.

  (** Kind of an edge after the weakening part of one iteration. *)
  Lemma einv_step P h r h' :
    einv P h -> In r (g_ecache g) -> ~ In r P -> norm_edge g h r = Ok h' -> einv (r :: P) h'.
  Proof.
    intros [Es El Ee] Ir NP H. destruct r as [[v s] i]. unfold norm_edge in H.
    destruct (refs_variant _ Ir) as (e0 & E0 & (x & Ex)).
    destruct (Ee v s i e0 E0) as (e & En & _ & _ & _ & T & _). specialize (T NP).
    rewrite En in H. rewrite T, Ex, chop_variant in H.
    destruct (getitem g (variant x)) as [tv|] eqn:G; [|discriminate].
    apply getitem_ok in G. injection H as <-.
    assert (Rtv : v_result (h tv) = v_result (h0 tv)) by (apply (with_succ_inj _ _ _ (Es tv))).
    assert (NX : ~ is_variant x).
    { intros (y & ->). apply (no_double (v, s, i) e0 Ir E0). exists y. exact Ex. }
    set (succ := v_succ (h v)) in *.
    set (weak := kind_eqb (v_result (h tv)) EQUAL).
    assert (VE : weak = true <-> variant_equal (variant x)).
    { unfold weak, variant_equal. split.
      - intros W. exists tv. split; [exact G|]. destruct (kind_eqb_spec (v_result (h tv)) EQUAL); congruence.
      - intros (tv' & G' & R). rewrite G in G'. injection G' as <-. rewrite Rtv, R. reflexivity. }
    set (succ1 := if weak then
                    (weaken_named x (fst (upd s succ (upd_nth i (set_kind WEAK) (sel s succ)))),
                     weaken_named x (snd (upd s succ (upd_nth i (set_kind WEAK) (sel s succ)))))
                  else succ).
    set (succ2 := upd s succ1 (upd_nth i (set_target x) (sel s succ1))).
    change (einv ((v, s, i) :: P) (hset h v (with_succ (h v) succ2))).
    (* positions in succ2 *)
    assert (S1 : forall s' j e', nth_error (sel s' succ) j = Some e' ->
        nth_error (sel s' succ1) j =
        Some (if weak && (side_eqb s' s && Nat.eqb j i || String.eqb (e_target e') x)
              then set_kind WEAK e' else e')).
    { intros s' j e' N. unfold succ1. destruct weak; [|exact N]. cbn [andb].
      assert (W : forall l, nth_error (weaken_named x l) j =
        option_map (fun e => if String.eqb (e_target e) x then set_kind WEAK e else e) (nth_error l j)).
      { intros l. unfold weaken_named. apply nth_error_map. }
      assert (SW : sel s' (weaken_named x (fst (upd s succ (upd_nth i (set_kind WEAK) (sel s succ)))),
                     weaken_named x (snd (upd s succ (upd_nth i (set_kind WEAK) (sel s succ))))) =
                   weaken_named x (sel s' (upd s succ (upd_nth i (set_kind WEAK) (sel s succ))))).
      { destruct s'; reflexivity. }
      rewrite SW, W.
      destruct (side_eqb_spec s' s) as [->|NS].
      - rewrite sel_upd_same, nth_error_upd_nth, N. simpl.
        destruct (Nat.eqb j i); simpl; destruct (String.eqb (e_target e') x); reflexivity.
      - rewrite sel_upd_other by exact NS. rewrite N. simpl.
        destruct (String.eqb (e_target e') x); reflexivity. }
    assert (S2 : forall s' j e', nth_error (sel s' succ) j = Some e' ->
        nth_error (sel s' succ2) j =
        Some (let e1 := if weak && (side_eqb s' s && Nat.eqb j i || String.eqb (e_target e') x)
                        then set_kind WEAK e' else e' in
              if side_eqb s' s && Nat.eqb j i then set_target x e1 else e1)).
    { intros s' j e' N. specialize (S1 s' j e' N). unfold succ2.
      destruct (side_eqb_spec s' s) as [->|NS].
      - rewrite sel_upd_same, nth_error_upd_nth, S1. cbn [option_map andb]. destruct (Nat.eqb j i); reflexivity.
      - rewrite sel_upd_other by exact NS. exact S1. }
    assert (L2 : forall s', length (sel s' succ2) = length (sel s' succ)).
    { intros s'. assert (L1 : forall s', length (sel s' succ1) = length (sel s' succ)).
      { intros s1. unfold succ1. destruct weak; [|reflexivity].
        destruct s, s1; simpl; unfold weaken_named; rewrite map_length, ?upd_nth_length; reflexivity. }
      unfold succ2. destruct (side_dec s' s) as [->|NS].
      - rewrite sel_upd_same, upd_nth_length. apply L1.
      - rewrite sel_upd_other by exact NS. apply L1. }
    constructor.
    - intros w. unfold hset. destruct (Nat.eqb_spec w v) as [->|]; [|apply Es].
      rewrite <- Es. reflexivity.
    - intros w s'. unfold hset. destruct (Nat.eqb_spec w v) as [->|]; [|apply El].
      cbn [with_succ v_succ]. rewrite L2. apply El.
    - intros w s' j f0 F0. destruct (Ee w s' j f0 F0) as (f & Fn & Ff & Fl & Tin & Tout & Kw & Kk & Kself & Kfrom).
      destruct (Nat.eq_dec w v) as [->|NV].
      2:{ rewrite hset_other by exact NV. exists f. split; [exact Fn|]. split; [exact Ff|]. split; [exact Fl|].
          split; [|split; [|split; [|split; [|split]]]].
          - intros [C|I]; [congruence|auto].
          - intros NI. apply Tout. intros C. apply NI. right. exact C.
          - intros K. destruct (Kw K) as [|(a & b & c & d & I & R)]; [auto|right].
            exists a, b, c, d. split; [right; exact I|exact R].
          - exact Kk.
          - intros [C|I]; [congruence|auto].
          - intros a b c [C|I]; [congruence|eauto]. }
      rewrite hset_same. cbn [with_succ v_succ].
      specialize (S2 s' j f Fn).
      eexists. split; [exact S2|]. cbv zeta.
      destruct (eref_dec (v, s', j) (v, s, i)) as [EQ|NEQ].
      + injection EQ as -> ->. rewrite E0 in F0. injection F0 as <-.
        fold succ in Fn. rewrite En in Fn. injection Fn as <-.
        rewrite side_eqb_refl, Nat.eqb_refl. simpl. rewrite andb_true_r.
        destruct weak eqn:WK; cbn [set_target set_kind e_file e_line e_target e_kind];
          (split; [exact Ff|]); (split; [exact Fl|]).
        * split; [intros _; exact Ex|]. split; [intros C; exfalso; apply C; left; reflexivity|].
          split; [|repeat split].
          intros _. right. exists s, i, e0, x. split; [left; reflexivity|]. split; [exact E0|].
          split; [exact Ex|]. split; [left; exact Ex|]. rewrite Ex. apply VE. reflexivity.
        * split; [intros _; exact Ex|]. split; [intros C; exfalso; apply C; left; reflexivity|].
          split; [|split; [|split]].
          -- intros K. destruct (Kw K) as [|(a & b & c & d & I & R)]; [auto|right].
             exists a, b, c, d. split; [right; exact I|exact R].
          -- exact Kk.
          -- intros _ C. rewrite Ex in C. apply VE in C. discriminate.
          -- intros a b c [C|I].
             ++ injection C as <- <-. intros Ec Tc. rewrite E0 in Ec. injection Ec as <-. exfalso.
                rewrite Ex in Tc. apply variant_inj in Tc.
                apply NX. exists x. exact Tc.
             ++ eauto.
      + assert (NB : (side_eqb s' s && Nat.eqb j i) = false).
        { destruct (side_eqb_spec s' s) as [->|]; [|reflexivity].
          destruct (Nat.eqb_spec j i) as [->|]; [congruence|reflexivity]. }
        rewrite NB. simpl.
        destruct (weak && String.eqb (e_target f) x) eqn:W.
        * apply andb_true_iff in W. destruct W as [W1 W2]. apply String.eqb_eq in W2.
          cbn [set_kind e_file e_line e_target e_kind].
          split; [exact Ff|]. split; [exact Fl|].
          split; [intros [C|I]; [congruence|auto]|].
          split; [intros NI; apply Tout; intros C; apply NI; right; exact C|].
          split; [|repeat split].
          intros _. right. exists s, i, e0, x. split; [left; reflexivity|]. split; [exact E0|].
          split; [exact Ex|]. split; [|rewrite Ex; apply VE; exact W1].
          destruct (in_dec eref_dec (v, s', j) P) as [IP|NIP].
          -- left. rewrite <- W2. apply Tin. exact IP.
          -- right. rewrite <- (Tout NIP), W2. auto.
        * split; [exact Ff|]. split; [exact Fl|].
          split; [intros [C|I]; [congruence|auto]|].
          split; [intros NI; apply Tout; intros C; apply NI; right; exact C|].
          split; [|split; [|split]].
          -- intros K. destruct (Kw K) as [|(a & b & c & d & I & R)]; [auto|right].
             exists a, b, c, d. split; [right; exact I|exact R].
          -- exact Kk.
          -- intros [C|I]; [congruence|auto].
          -- intros a b c [C|I]; [|eauto]. injection C as <- <-. intros Ec Tc VEc.
             rewrite E0 in Ec. injection Ec as <-. rewrite Ex in Tc, VEc. apply variant_inj in Tc.
             apply VE in VEc. rewrite VEc in W. simpl in W.
             destruct (in_dec eref_dec (v, s', j) P) as [IP|NIP].
             ++ (* then the target of f0 is a variant of x's stripped name: impossible *)
                exfalso. specialize (Tin IP). apply NX. exists (e_target f). rewrite Tc. exact Tin.
             ++ rewrite (Tout NIP), <- Tc, String.eqb_refl in W. discriminate.
  Qed.

  Lemma edge_loop_inv : forall rs P h h',
    NoDup (P ++ rs) -> incl rs (g_ecache g) -> einv P h ->
    fold_res (norm_edge g) h rs = Ok h' -> exists P', (forall r, In r P' <-> In r P \/ In r rs) /\ einv P' h'.
  Proof.
    induction rs as [|r rs IH]; intros P h h' N I E H; cbn [fold_res] in H.
    - injection H as <-. exists P. split; [|exact E]. intros r. simpl. tauto.
    - destruct (norm_edge g h r) as [h1|] eqn:S; [|discriminate].
      assert (NR : ~ In r P).
      { intros C. apply in_split in C. destruct C as (a & b & ->).
        rewrite <- app_assoc in N. simpl in N. apply NoDup_remove_2 in N. apply N.
        rewrite !in_app_iff. simpl. auto. }
      destruct (IH (r :: P) h1 h') as (P' & E' & I'); auto.
      + simpl. constructor.
        * apply NoDup_remove_2 in N. exact N.
        * apply NoDup_remove_1 in N. exact N.
      + intros y Iy. apply I. right. exact Iy.
      + eapply einv_step; eauto. apply I. left. reflexivity.
      + exists P'. split; [|exact I']. intros y. rewrite E'. simpl. tauto.
  Qed.

  (** Result of the first loop for a vertex all of whose variant calls are in the cache. *)
  Lemma edge_loop_result h' :
    NoDup (g_ecache g) -> fold_res (norm_edge g) h0 (g_ecache g) = Ok h' ->
    succ_eq h' h0 /\
    forall v, (forall s i e, edge0 (v, s, i) = Some e -> is_variant (e_target e) -> In (v, s, i) (g_ecache g)) ->
      forall s, Forall2 (edge_normalized h0 g v) (sel s (v_succ (h0 v))) (sel s (v_succ (h' v))).
  Proof.
    intros N H. destruct (edge_loop_inv (g_ecache g) [] h0 h') as (P & EP & [Es El Ee]); auto.
    { intros x. auto. } { apply einv_init. }
    split; [exact Es|]. intros v C s.
    assert (PI : forall r, In r P <-> In r (g_ecache g)) by (intros r; rewrite EP; simpl; tauto).
    assert (G : forall (l l' : list edge) (R : edge -> edge -> Prop),
               length l' = length l ->
               (forall i e, nth_error l i = Some e -> exists e', nth_error l' i = Some e' /\ R e e') -> Forall2 R l l').
    { induction l as [|a l IHl]; intros [|a' l'] R L K; simpl in L; try discriminate; constructor.
      - destruct (K 0 a eq_refl) as (e' & E' & RR). simpl in E'. injection E' as <-. exact RR.
      - apply IHl; [lia|]. intros i e E. destruct (K (S i) e E) as (e' & E' & RR). eauto. }
    apply G; [apply El|]. intros i e0 E0. change (edge0 (v, s, i) = Some e0) in E0.
    destruct (Ee v s i e0 E0) as (e & En & Ff & Fl & Tin & Tout & Kw & Kk & Kself & Kfrom).
    exists e. split; [exact En|].
    assert (ST : stripped (e_target e0) (e_target e)).
    { destruct (is_variant_dec (e_target e0)) as [V|V].
      - left. apply Tin, PI. eapply C; eauto.
      - right. split; [exact V|]. apply Tout. rewrite PI. intros I. apply refs_variant in I.
        destruct I as (e' & E' & V'). rewrite E0 in E'. injection E' as <-. contradiction. }
    split; [exact ST|]. split; [exact Ff|]. split; [exact Fl|].
    assert (strip_fun : forall n a b, stripped n a -> stripped n b -> a = b).
    { intros n a b [->|[V1 ->]] [E2|[V2 ->]]; auto.
      - apply variant_inj. exact E2.
      - exfalso. apply V2. exists a. reflexivity.
      - exfalso. apply V1. exists b. exact E2. }
    split.
    - intros K. destruct (Kw K) as [|(s' & i' & e2 & x & I & E2 & Ex & Sx & (tv & Dt & Rt))]; [auto|right].
      exists s', e2, tv. split; [split|split].
      + apply nth_error_In in E2. exact E2.
      + exact Dt.
      + rewrite (strip_fun _ _ _ ST Sx). exact Ex.
      + exact Rt.
    - intros [K|(s' & e2 & tv & (I2 & Dt) & T2 & Rt)]; [auto|].
      apply In_nth_error in I2. destruct I2 as (i' & E2).
      change (edge0 (v, s', i') = Some e2) in E2.
      assert (IP : In (v, s', i') P). { apply PI. eapply C; [exact E2|]. exists (e_target e). exact T2. }
      assert (VE : variant_equal (e_target e2)) by (exists tv; auto).
      destruct ST as [ST|[V ST]].
      + apply Kself.
        * apply PI. eapply C; [exact E0|]. exists (e_target e). exact ST.
        * rewrite ST, <- T2. exact VE.
      + eapply Kfrom; eauto. rewrite <- ST. exact T2.
  Qed.
End EdgeLoop.

Lemma edge_loop_ok h0 g :
  (forall r, In r (g_ecache g) -> exists e, edge0 h0 r = Some e /\ is_variant (e_target e)) ->
  (forall r e, In r (g_ecache g) -> edge0 h0 r = Some e -> ~ is_double_variant (e_target e)) ->
  NoDup (g_ecache g) ->
  (forall r e, In r (g_ecache g) -> edge0 h0 r = Some e -> dget (g_verts g) (e_target e) <> None) ->
  exists h', fold_res (norm_edge g) h0 (g_ecache g) = Ok h'.
Proof.
  intros RV ND N K.
  assert (G : forall rs P h, NoDup (P ++ rs) -> incl rs (g_ecache g) -> einv h0 g P h ->
              exists h', fold_res (norm_edge g) h rs = Ok h').
  { induction rs as [|r rs IH]; intros P h Np I E; cbn [fold_res]; [eauto|].
    assert (Ir : In r (g_ecache g)) by (apply I; left; reflexivity).
    assert (NR : ~ In r P).
    { intros C. apply in_split in C. destruct C as (a & b & ->).
      rewrite <- app_assoc in Np. simpl in Np. apply NoDup_remove_2 in Np. apply Np.
      rewrite !in_app_iff. simpl. auto. }
    destruct (norm_edge g h r) as [h1|x] eqn:S.
    - apply (IH (r :: P)).
      + simpl. constructor; [apply NoDup_remove_2 in Np; exact Np|apply NoDup_remove_1 in Np; exact Np].
      + intros y Iy. apply I. right. exact Iy.
      + eapply einv_step; eauto.
    - exfalso. destruct r as [[v s] i]. unfold norm_edge in S.
      destruct (RV _ Ir) as (e0 & E0 & V0).
      destruct (ei_edge _ _ _ _ E v s i e0 E0) as (e & En & _ & _ & _ & T & _). specialize (T NR).
      rewrite En, T in S. unfold getitem in S. specialize (K _ _ Ir E0).
      destruct (dget (g_verts g) (e_target e0)); [discriminate|congruence]. }
  apply (G _ [] h0); auto; [intros x; auto|apply einv_init].
Qed.

Lemma edge_loop_err h0 g x :
  (forall r, In r (g_ecache g) -> exists e, edge0 h0 r = Some e /\ is_variant (e_target e)) ->
  (forall r e, In r (g_ecache g) -> edge0 h0 r = Some e -> ~ is_double_variant (e_target e)) ->
  NoDup (g_ecache g) ->
  fold_res (norm_edge g) h0 (g_ecache g) = Err x ->
  x = KeyError /\ exists r e, In r (g_ecache g) /\ edge0 h0 r = Some e /\ dget (g_verts g) (e_target e) = None.
Proof.
  intros RV ND N.
  assert (G : forall rs P h, NoDup (P ++ rs) -> incl rs (g_ecache g) -> einv h0 g P h ->
              fold_res (norm_edge g) h rs = Err x ->
              x = KeyError /\ exists r e, In r (g_ecache g) /\ edge0 h0 r = Some e /\ dget (g_verts g) (e_target e) = None).
  { induction rs as [|r rs IH]; intros P h Np I E H; cbn [fold_res] in H; [discriminate|].
    assert (Ir : In r (g_ecache g)) by (apply I; left; reflexivity).
    assert (NR : ~ In r P).
    { intros C. apply in_split in C. destruct C as (a & b & ->).
      rewrite <- app_assoc in Np. simpl in Np. apply NoDup_remove_2 in Np. apply Np.
      rewrite !in_app_iff. simpl. auto. }
    destruct (norm_edge g h r) as [h1|x'] eqn:S.
    - apply (IH (r :: P) h1); auto.
      + simpl. constructor; [apply NoDup_remove_2 in Np; exact Np|apply NoDup_remove_1 in Np; exact Np].
      + intros y Iy. apply I. right. exact Iy.
      + eapply einv_step; eauto.
    - injection H as ->. destruct r as [[v s] i]. unfold norm_edge in S.
      destruct (RV _ Ir) as (e0 & E0 & V0).
      destruct (ei_edge _ _ _ _ E v s i e0 E0) as (e & En & _ & _ & _ & T & _). specialize (T NR).
      rewrite En, T in S. unfold getitem in S.
      destruct (dget (g_verts g) (e_target e0)) eqn:D; [discriminate|]. injection S as <-.
      split; [reflexivity|]. exists (v, s, i), e0. auto. }
  apply (G _ [] h0); auto; [intros y; auto|apply einv_init].
Qed.

(** ** The second loop (weak vertices) *)
Definition renamed (x : vertex) (np : string) : vertex :=
  let x1 := with_names x (np, np) in
  if kind_eqb (v_result x1) EQUAL then with_result x1 ASSUMED_EQUAL else x1.

Section WeakLoop.
  Variables (h1 : heap) (g1 : graph).
  Notation ws := (g_wcache g1).
  Definition pk (w : vid) : string := pointed_name (h1 w).
  Hypothesis (Nkeys : NoDup (dkeys (g_verts g1))).
  Hypothesis (Kvar : forall w, In w ws -> is_variant (pk w) /\ ~ is_double_variant (pk w)).

  Record winv (P : list vid) (st : heap * graph) : Prop := {
    wi_out : forall w, ~ In w P -> fst st w = h1 w;
    wi_in : forall w, In w P ->
      fst st w = if dmem (g_verts g1) (chop 5 (pk w)) then h1 w else renamed (h1 w) (chop 5 (pk w));
    wi_keys : NoDup (dkeys (g_verts (snd st)));
    wi_var : forall k, is_variant k ->
      dget (g_verts (snd st)) k = (if mem k (map pk P) then None else dget (g_verts g1) k);
    wi_plain_old : forall k v, ~ is_variant k -> dget (g_verts g1) k = Some v ->
      dget (g_verts (snd st)) k = Some v;
    wi_plain_new : forall k w, ~ is_variant k -> dget (g_verts g1) k = None ->
      (dget (g_verts (snd st)) k = Some w <-> In w P /\ pk w = variant k);
    wi_cache : g_wcache (snd st) = ws;
    wi_equal : g_equal (snd st) = g_equal g1;
    wi_dist : NoDup (map pk P) }.

  Lemma winv_init : winv [] (h1, g1).
  Proof.
    constructor; simpl; auto.
    - tauto.
    - intros k w _ ->. split; [discriminate|tauto].
    - constructor.
  Qed.

  Lemma renamed_not_equal x n : v_result (renamed x n) <> EQUAL.
  Proof.
    unfold renamed. cbv zeta. destruct (kind_eqb_spec (v_result (with_names x (n, n))) EQUAL); [discriminate|exact n0].
  Qed.

  Lemma winv_step P st w st' :
    winv P st -> In w ws -> ~ In w P -> norm_weak st w = Ok st' -> winv (w :: P) st'.
  Proof.
    intros I Iw NP H. destruct st as [h g]. destruct I as [Io Ii Ik Iv Ipo Ipn Ic Ie Id].
    cbn [fst snd] in *. unfold norm_weak in H. rewrite (Io w NP) in H. fold (pk w) in H.
    destruct (Kvar w Iw) as [(x & Ex) ND].
    assert (NX : ~ is_variant x) by (intros (y & ->); apply ND; exists y; exact Ex).
    assert (ND' : forall u, In u P -> pk u <> pk w -> True) by auto. clear ND'.
    rewrite Ex, chop_variant in H.
    destruct (dmem (g_verts g) (variant x)) eqn:DM; [|discriminate].
    assert (NW : ~ In (pk w) (map pk P)).
    { intros C. unfold dmem in DM. rewrite Iv in DM by (exists x; reflexivity).
      rewrite <- Ex in DM. apply mem_In in C. rewrite C in DM. discriminate. }
    set (g' := mkGraph (ddel (g_verts g) (variant x)) (g_equal g) (g_ecache g) (g_wcache g)) in *.
    assert (XV : x <> variant x).
    { intros C. apply NX. exists x. exact C. }
    assert (DX : dget (g_verts g') x = dget (g_verts g1) x).
    { cbn [g' g_verts]. rewrite dget_ddel_other by exact XV.
      destruct (dget (g_verts g1) x) as [v|] eqn:D1.
      - eapply Ipo; eauto.
      - destruct (dget (g_verts g) x) as [v|] eqn:D2; [|reflexivity].
        apply Ipn in D2; auto. destruct D2 as [Iu Eu]. exfalso. apply NW. rewrite Ex, <- Eu.
        apply in_map. exact Iu. }
    assert (DMX : dmem (g_verts g') x = dmem (g_verts g1) x) by (unfold dmem; rewrite DX; reflexivity).
    rewrite DMX in H.
    assert (G' : forall k, dget (g_verts g') k = if eqb k (variant x) then None else dget (g_verts g) k).
    { intros k. destruct (eqb_spec k (variant x)) as [->|N].
      - apply dget_ddel_same. exact Ik.
      - apply dget_ddel_other. exact N. }
    assert (VAR : forall k, is_variant k -> dget (g_verts g') k = if mem k (map pk (w :: P)) then None else dget (g_verts g1) k).
    { intros k V. rewrite G', Iv by exact V. cbn [map mem]. rewrite Ex.
      destruct (eqb_spec k (variant x)); reflexivity. }
    destruct (dmem (g_verts g1) x) eqn:D1.
    - injection H as <-. constructor; cbn [fst snd]; auto.
      + intros u N. apply Io. intros C. apply N. right. exact C.
      + intros u [->|I]; [|auto]. rewrite Ex, chop_variant, D1. apply Io. exact NP.
      + cbn [g' g_verts]. apply ddel_NoDup. exact Ik.
      + intros k v V D. rewrite G'. destruct (eqb_spec k (variant x)) as [->|]; [|auto].
        exfalso. apply V. exists x. reflexivity.
      + intros k u V D. rewrite G'. destruct (eqb_spec k (variant x)) as [->|N].
        * exfalso. apply V. exists x. reflexivity.
        * rewrite Ipn by auto. split; [intros [A B]; split; [right; exact A|exact B]|].
          intros [[<-|A] B]; [|auto]. exfalso. rewrite Ex in B. apply variant_inj in B. subst k.
          unfold dmem in D1. rewrite D in D1. discriminate.
      + simpl. constructor; auto.
    - set (x2 := if kind_eqb (v_result (with_names (h1 w) (x, x))) EQUAL
                 then with_result (with_names (h1 w) (x, x)) ASSUMED_EQUAL else with_names (h1 w) (x, x)) in *.
      change x2 with (renamed (h1 w) x) in *.
      injection H as <-.
      unfold setitem. rewrite hset_same.
      destruct (kind_eqb_spec (v_result (renamed (h1 w) x)) EQUAL) as [C|_]; [destruct (renamed_not_equal _ _ C)|].
      assert (EX : endswith x ".void" = false) by (apply not_variant_endswith; exact NX). rewrite EX.
      constructor; cbn [fst snd g_verts g_equal g_wcache]; auto.
      + intros u N. rewrite hset_other; [|intros ->; apply N; left; reflexivity].
        apply Io. intros C. apply N. right. exact C.
      + intros u [->|I].
        * rewrite hset_same, Ex, chop_variant, D1. reflexivity.
        * rewrite hset_other by (intros ->; contradiction). auto.
      + apply dset_NoDup. cbn [g' g_verts]. apply ddel_NoDup. exact Ik.
      + intros k V. rewrite dget_dset. destruct (eqb_spec k x) as [->|]; [contradiction|]. apply VAR. exact V.
      + intros k v V D. rewrite dget_dset. destruct (eqb_spec k x) as [->|N].
        * unfold dmem in D1. rewrite D in D1. discriminate.
        * rewrite G'. destruct (eqb_spec k (variant x)) as [->|]; [|auto].
          exfalso. apply V. exists x. reflexivity.
      + intros k u V D. rewrite dget_dset. destruct (eqb_spec k x) as [->|N].
        * split.
          -- intros [= <-]. split; [left; reflexivity|exact Ex].
          -- intros [[<-|A] B]; [reflexivity|]. exfalso. apply NW. rewrite Ex, <- B. apply in_map. exact A.
        * rewrite G'. destruct (eqb_spec k (variant x)) as [->|N2].
          -- exfalso. apply V. exists x. reflexivity.
          -- rewrite Ipn by auto. split; [intros [A B]; split; [right; exact A|exact B]|].
             intros [[<-|A] B]; [|auto]. exfalso. rewrite Ex in B. apply variant_inj in B. congruence.
      + simpl. constructor; auto.
  Qed.

  Lemma weak_loop_inv : forall l P st st',
    NoDup (P ++ l) -> incl l ws -> winv P st -> fold_res norm_weak st l = Ok st' ->
    exists P', (forall w, In w P' <-> In w P \/ In w l) /\ winv P' st'.
  Proof.
    induction l as [|w l IH]; intros P st st' N I E H; cbn [fold_res] in H.
    - injection H as <-. exists P. split; [|exact E]. intros r. simpl. tauto.
    - destruct (norm_weak st w) as [s1|] eqn:S; [|discriminate].
      assert (NR : ~ In w P).
      { intros C. apply in_split in C. destruct C as (a & b & ->).
        rewrite <- app_assoc in N. simpl in N. apply NoDup_remove_2 in N. apply N.
        rewrite !in_app_iff. simpl. auto. }
      destruct (IH (w :: P) s1 st') as (P' & E' & I'); auto.
      + simpl. constructor; [apply NoDup_remove_2 in N; exact N|apply NoDup_remove_1 in N; exact N].
      + intros y Iy. apply I. right. exact Iy.
      + eapply winv_step; eauto. apply I. left. reflexivity.
      + exists P'. split; [|exact I']. intros y. rewrite E'. simpl. tauto.
  Qed.

  Lemma weak_loop_ok : forall l P st,
    NoDup (P ++ l) -> incl l ws -> winv P st ->
    NoDup (map pk (P ++ l)) -> (forall w, In w l -> dget (g_verts g1) (pk w) <> None) ->
    exists st', fold_res norm_weak st l = Ok st'.
  Proof.
    induction l as [|w l IH]; intros P st N I E D K; cbn [fold_res]; [eauto|].
    assert (NR : ~ In w P).
    { intros C. apply in_split in C. destruct C as (a & b & ->).
      rewrite <- app_assoc in N. simpl in N. apply NoDup_remove_2 in N. apply N.
      rewrite !in_app_iff. simpl. auto. }
    destruct (norm_weak st w) as [s1|] eqn:S.
    - apply (IH (w :: P)).
      + simpl. constructor; [apply NoDup_remove_2 in N; exact N|apply NoDup_remove_1 in N; exact N].
      + intros y Iy. apply I. right. exact Iy.
      + eapply winv_step; eauto. apply I. left. reflexivity.
      + rewrite map_app in D. cbn [map] in D. simpl. rewrite map_app.
        constructor; [apply NoDup_remove_2 in D; exact D|apply NoDup_remove_1 in D; exact D].
      + intros y Iy. apply K. right. exact Iy.
    - exfalso. destruct st as [h g]. unfold norm_weak in S.
      pose proof (wi_out _ _ E w NR) as HW. cbn [fst] in HW. rewrite HW in S. fold (pk w) in S.
      assert (Iw : In w ws) by (apply I; left; reflexivity).
      assert (DM : dmem (g_verts g) (pk w) = true).
      { unfold dmem. pose proof (wi_var _ _ E (pk w) (proj1 (Kvar w Iw))) as V. cbn [snd] in V. rewrite V.
        rewrite map_app in D. cbn [map] in D. apply NoDup_remove_2 in D.
        assert (M : mem (pk w) (map pk P) = false).
        { apply mem_not_In. intros C. apply D. apply in_app_iff. auto. }
        rewrite M. specialize (K w (or_introl eq_refl)). destruct (dget (g_verts g1) (pk w)); congruence. }
      rewrite DM in S. destruct (dmem _ (chop 5 (pk w))); discriminate.
  Qed.

  Lemma weak_loop_err : forall l P st x,
    NoDup (P ++ l) -> incl l ws -> winv P st -> fold_res norm_weak st l = Err x -> x = KeyError.
  Proof.
    induction l as [|w l IH]; intros P st x N I E H; cbn [fold_res] in H; [discriminate|].
    assert (NR : ~ In w P).
    { intros C. apply in_split in C. destruct C as (a & b & ->).
      rewrite <- app_assoc in N. simpl in N. apply NoDup_remove_2 in N. apply N.
      rewrite !in_app_iff. simpl. auto. }
    destruct (norm_weak st w) as [s1|x'] eqn:S.
    - apply (IH (w :: P) s1 x); auto.
      + simpl. constructor; [apply NoDup_remove_2 in N; exact N|apply NoDup_remove_1 in N; exact N].
      + intros y Iy. apply I. right. exact Iy.
      + eapply winv_step; eauto. apply I. left. reflexivity.
    - injection H as ->. destruct st as [h g]. unfold norm_weak in S.
      destruct (dmem _ (pointed_name (h w))); [|congruence].
      destruct (dmem _ _) in S; discriminate.
  Qed.
End WeakLoop.

(** ** Termination for every heap *)
Definition plen (x : vertex) : nat := String.length (pointed_name x).

Lemma substring_length_le n m s : String.length (substring n m s) <= String.length s - n.
Proof.
  revert n m. induction s as [|c s IH]; intros n m; simpl.
  - destruct n, m; simpl; lia.
  - destruct n.
    + destruct m; simpl; [lia|]. specialize (IH 0 m). lia.
    + specialize (IH n m). lia.
Qed.
Lemma substring0_length n s : String.length (substring 0 n s) <= n.
Proof. revert n. induction s as [|c s IH]; intros [|n]; simpl; try lia. specialize (IH n). lia. Qed.
Lemma chop_length n s : String.length (chop n s) <= String.length s - n.
Proof. unfold chop. apply substring0_length. Qed.

Lemma norm_weak_shrinks (st : heap * graph) w (st' : heap * graph) :
  norm_weak st w = Ok st' ->
  (forall u, plen (fst st' u) <= plen (fst st u)) /\
  exists app, g_wcache (snd st') = g_wcache (snd st) ++ app /\
              forall u, In u app -> plen (fst st' u) < plen (fst st u).
Proof.
  destruct st as [h g]. unfold norm_weak. cbn [fst snd].
  destruct (dmem (g_verts g) (pointed_name (h w))); [|discriminate].
  destruct (dmem _ (chop 5 (pointed_name (h w)))).
  - intros [= <-]. cbn [fst snd g_wcache]. split; [auto|]. exists []. rewrite app_nil_r. split; [reflexivity|intros u []].
  - set (np := chop 5 (pointed_name (h w))).
    set (x2 := if kind_eqb (v_result (with_names (h w) (np, np))) EQUAL
               then with_result (with_names (h w) (np, np)) ASSUMED_EQUAL else with_names (h w) (np, np)).
    change x2 with (renamed (h w) np). clear x2.
    intros [= <-]. cbn [fst snd].
    assert (PN : pointed_name (renamed (h w) np) = np).
    { unfold renamed. cbv zeta. destruct (kind_eqb _ _); unfold pointed_name; simpl; destruct (endswith np ".void"); reflexivity. }
    assert (L : String.length np <= plen (h w) - 5) by (apply chop_length).
    split.
    + intros u. unfold hset. destruct (Nat.eqb_spec u w) as [->|]; [|lia]. unfold plen at 1. rewrite PN. lia.
    + unfold setitem; cbn [g_wcache]. destruct (endswith np ".void") eqn:E.
      * exists [w]. split; [reflexivity|]. intros u [<-|[]]. rewrite hset_same. unfold plen at 1. rewrite PN.
        apply endswith_spec in E. destruct E as (a & E).
        assert (5 <= String.length np). { rewrite E, length_app_s. simpl. lia. }
        lia.
      * exists []. rewrite app_nil_r. split; [reflexivity|intros u []].
Qed.

Lemma fold_norm_weak_shrinks l : forall st st' : heap * graph,
  fold_res norm_weak st l = Ok st' ->
  (forall u, plen (fst st' u) <= plen (fst st u)) /\
  exists app, g_wcache (snd st') = g_wcache (snd st) ++ app /\
              forall u, In u app -> plen (fst st' u) < plen (fst st u).
Proof.
  induction l as [|w l IH]; intros st st' H; cbn [fold_res] in H.
  - injection H as <-. split; [auto|]. exists []. rewrite app_nil_r. split; [reflexivity|intros u []].
  - destruct (norm_weak st w) as [s1|] eqn:S; [|discriminate].
    destruct (norm_weak_shrinks _ _ _ S) as (L1 & a1 & E1 & A1).
    destruct (IH _ _ H) as (L2 & a2 & E2 & A2). split.
    + intros u. specialize (L1 u). specialize (L2 u). lia.
    + exists (a1 ++ a2). rewrite E2, E1, app_assoc. split; [reflexivity|].
      intros u I. apply in_app_iff in I. specialize (L1 u). specialize (L2 u).
      destruct I as [I|I]; [apply A1 in I|apply A2 in I]; lia.
Qed.

Lemma norm_rounds_terminates : forall b (st : heap * graph) l,
  (forall u, In u l -> plen (fst st u) < b) ->
  exists r, forall m, b <= m -> norm_rounds m st l = Some r.
Proof.
  induction b as [|b IH]; intros st l B.
  - destruct l as [|w l]; [|exfalso; specialize (B w (or_introl eq_refl)); lia].
    exists (Ok st). intros m _. destruct m; reflexivity.
  - destruct l as [|w l].
    + exists (Ok st). intros m _. destruct m; reflexivity.
    + destruct (fold_res norm_weak st (w :: l)) as [st'|e] eqn:F.
      * destruct (fold_norm_weak_shrinks _ _ _ F) as (L & app & E & A).
        (* only entries of the processed list are appended *)
        assert (SUB : forall l0 s0 s1 a0, fold_res norm_weak s0 l0 = Ok s1 -> g_wcache (snd s1) = g_wcache (snd s0) ++ a0 -> incl a0 l0).
        { clear. induction l0 as [|w l0 IH]; intros s0 s1 a0 H Ea; cbn [fold_res] in H.
          - injection H as <-. assert (a0 = []) as ->.
            { rewrite <- (app_nil_r (g_wcache (snd s0))) in Ea at 1. apply app_inv_head in Ea. congruence. }
            intros x [].
          - destruct (norm_weak s0 w) as [s2|] eqn:S; [|discriminate].
            assert (ST : exists a1, g_wcache (snd s2) = g_wcache (snd s0) ++ a1 /\ incl a1 [w]).
            { destruct s0 as [h g]. unfold norm_weak in S.
              destruct (dmem (g_verts g) (pointed_name (h w))); [|discriminate].
              destruct (dmem _ (chop 5 (pointed_name (h w)))); injection S as <-; cbn [snd g_wcache].
              - exists []. rewrite app_nil_r. split; [reflexivity|intros x []].
              - unfold setitem; cbn [g_wcache]. destruct (endswith _ _).
                + exists [w]. split; [reflexivity|intros x; auto].
                + exists []. rewrite app_nil_r. split; [reflexivity|intros x []]. }
            destruct ST as (a1 & E1 & I1).
            destruct (fold_norm_weak_shrinks _ _ _ H) as (_ & a2 & E2 & _).
            rewrite E2, E1, <- app_assoc in Ea. apply app_inv_head in Ea. subst a0.
            intros x Ix. apply in_app_iff in Ix. destruct Ix as [Ix|Ix].
            + apply I1 in Ix. destruct Ix as [->|[]]. left. reflexivity.
            + right. eapply IH; eauto. }
        assert (SK : skipn (length (g_wcache (snd st))) (g_wcache (snd st')) = app).
        { rewrite E. rewrite skipn_app, Nat.sub_diag. rewrite skipn_all2 by apply le_n. reflexivity. }
        destruct (IH st' app) as (r & R).
        { intros u I. pose proof (A u I). pose proof (B u (SUB _ _ _ _ F E u I)). eapply Nat.lt_le_trans; [exact H|]; apply le_S_n; exact H0. }
        exists r. intros m Lm. destruct m as [|m]; [lia|]. cbn [norm_rounds]. rewrite F. cbv iota beta. rewrite SK. apply R. lia.
      * exists (Err e). intros m Lm. destruct m as [|m]; [lia|]. cbn [norm_rounds]. rewrite F. reflexivity.
Qed.

Lemma list_bound (f : vid -> nat) l : exists b, forall u, In u l -> f u < b.
Proof.
  induction l as [|x l (b & B)].
  - exists 0. intros u [].
  - exists (S (f x) + b). intros u [<-|I]; [lia|]. apply B in I. lia.
Qed.

Lemma normalize_terminates h g : terminates (fun n => normalize n h g).
Proof.
  unfold normalize. destruct (fold_res (norm_edge g) h (g_ecache g)) as [h'|e] eqn:F.
  - destruct (list_bound (fun u => plen (h' u)) (g_wcache g)) as (b & B).
    destruct (norm_rounds_terminates b (h', g) (g_wcache g) B) as (r & R).
    exists r, b. exact R.
  - exists (Err e), 0. reflexivity.
Qed.
