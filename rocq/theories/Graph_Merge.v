(** * Proofs about merging graphs, predecessor lists and caching marks *)
From Coq Require Import String Ascii ZArith Arith Bool Lia List.
From Verif Require Import PyBase Result_Model Graph_Model Graph_Spec Graph_Proofs.
Import ListNotations.
Open Scope list_scope.

Lemma hset_same h v x : hset h v x v = x.
Proof. unfold hset. rewrite Nat.eqb_refl. reflexivity. Qed.
Lemma hset_other h v x w : w <> v -> hset h v x w = h w.
Proof. intros N. unfold hset. destruct (Nat.eqb_spec w v); congruence. Qed.

(** ** [absorb_graph] *)
Definition cach_eq (h1 h2 : heap) : Prop :=
  forall w, with_cachable (h1 w) true = with_cachable (h2 w) true.

Lemma with_cachable_inj x y b : with_cachable x b = with_cachable y b ->
  v_names x = v_names y /\ v_result x = v_result y /\ v_nonfun x = v_nonfun y /\
  v_succ x = v_succ y /\ v_files x = v_files y /\ v_lines x = v_lines y /\
  v_stats x = v_stats y /\ v_prevents x = v_prevents y /\ v_pred x = v_pred y.
Proof. destruct x, y. unfold with_cachable. simpl. intros [= -> -> -> -> -> -> -> -> ->]. auto 10. Qed.

Lemma cach_eq_priority h1 h2 a b : cach_eq h1 h2 ->
  compare_vertex_priority (h1 a) (h1 b) = compare_vertex_priority (h2 a) (h2 b).
Proof.
  intros E. pose proof (with_cachable_inj _ _ _ (E a)) as A. pose proof (with_cachable_inj _ _ _ (E b)) as B.
  destruct A as (_ & A1 & _ & A2 & A3 & _). destruct B as (_ & B1 & _ & B2 & _).
  unfold compare_vertex_priority, same_file. rewrite A1, A2, A3, B1, B2. reflexivity.
Qed.

Lemma reset_cachable_spec vs : forall h,
  cach_eq (reset_cachable h vs) h /\
  (forall w, v_cachable (reset_cachable h vs w) = v_cachable (h w) || mem w vs).
Proof.
  induction vs as [|v vs IH]; intros h; unfold reset_cachable in *; simpl.
  - split; [intros w; reflexivity|]. intros w. rewrite orb_false_r. reflexivity.
  - destruct (IH (hset h v (with_cachable (h v) true))) as [E C]. split.
    + intros w. rewrite E. unfold hset. destruct (Nat.eqb_spec w v) as [->|]; reflexivity.
    + intros w. rewrite C. unfold hset. destruct (Nat.eqb_spec w v) as [->|N]; simpl.
      * rewrite orb_true_r. reflexivity.
      * reflexivity.
Qed.

(** The dictionary entry of a name after the merge. *)
Definition merged (h : heap) (a b : option vid) : option vid :=
  match a, b with
  | None, x => x
  | Some o, None => Some o
  | Some o, Some v => Some (if compare_vertex_priority (h o) (h v) then v else o)
  end.
Definition resets (h : heap) (self : dict string vid) (w : vid) (nv : string * vid) : bool :=
  match dget self (fst nv) with
  | None => false
  | Some o => compare_vertex_priority (h o) (h (snd nv)) &&
              kind_eqb (v_result (h o)) ASSUMED_EQUAL &&
              negb (kind_eqb (v_result (h (snd nv))) ASSUMED_EQUAL) &&
              mem w (v_prevents (h o))
  end.
Definition enters (h : heap) (self : dict string vid) (nv : string * vid) : bool :=
  match dget self (fst nv) with
  | None => true
  | Some o => compare_vertex_priority (h o) (h (snd nv))
  end.

Lemma resets_cach h1 h2 d w nv : cach_eq h1 h2 -> resets h1 d w nv = resets h2 d w nv.
Proof.
  intros E. unfold resets. destruct (dget d (fst nv)) as [o|]; [|reflexivity].
  rewrite (cach_eq_priority h1 h2 _ _ E).
  pose proof (with_cachable_inj _ _ _ (E o)) as A. pose proof (with_cachable_inj _ _ _ (E (snd nv))) as B.
  decompose [and] A. decompose [and] B. congruence.
Qed.
Lemma enters_cach h1 h2 d nv : cach_eq h1 h2 -> enters h1 d nv = enters h2 d nv.
Proof.
  intros E. unfold enters. destruct (dget d (fst nv)) as [o|]; [|reflexivity].
  apply cach_eq_priority. exact E.
Qed.

Lemma absorb_fold l : forall h g h' g',
  NoDup (dkeys l) -> fold_left absorb_step l (h, g) = (h', g') ->
  cach_eq h' h /\
  (forall n, dget (g_verts g') n = merged h (dget (g_verts g) n) (dget l n)) /\
  (forall w, v_cachable (h' w) = v_cachable (h w) || existsb (resets h (g_verts g) w) l) /\
  (forall x, In x (g_equal g') <-> In x (g_equal g) \/
     exists nv, In nv l /\ enters h (g_verts g) nv = true /\ v_result (h (snd nv)) = EQUAL /\
                fst (v_names (h (snd nv))) = x) /\
  g_ecache g' = g_ecache g /\
  (NoDup (dkeys (g_verts g)) -> NoDup (dkeys (g_verts g'))).
Proof.
  induction l as [|[n v] l IH]; intros h g h' g' N H.
  - simpl in H. injection H as <- <-. split; [intros w; reflexivity|].
    split; [intros n; simpl; destruct (dget (g_verts g) n); reflexivity|].
    split; [intros w; simpl; rewrite orb_false_r; reflexivity|].
    split; [|split; auto].
    intros x. split; [auto|intros [I|(nv & [] & _)]; auto].
  - cbn [fold_left] in H.
    destruct (absorb_step (h, g) (n, v)) as [h1 g1] eqn:S.
    simpl in N. inversion N as [|? ? Nn Nl]; subst.
    destruct (IH _ _ _ _ Nl H) as (Ec & Eg & Ek & Ee & Eca & Nd). clear IH.
    assert (step : cach_eq h1 h /\ (forall m, dget (g_verts g1) m =
               if eqb m n then merged h (dget (g_verts g) n) (Some v) else dget (g_verts g) m) /\
               (forall w, v_cachable (h1 w) = v_cachable (h w) || resets h (g_verts g) w (n, v)) /\
               (forall x, In x (g_equal g1) <-> In x (g_equal g) \/
                  (enters h (g_verts g) (n, v) = true /\ v_result (h v) = EQUAL /\ fst (v_names (h v)) = x)) /\
               g_ecache g1 = g_ecache g /\
               (NoDup (dkeys (g_verts g)) -> NoDup (dkeys (g_verts g1)))).
    { assert (eqadd : forall (hh : heap) gg x, cach_eq hh h ->
                In x (g_equal (setitem hh gg n v)) <-> In x (g_equal gg) \/ (v_result (h v) = EQUAL /\ fst (v_names (h v)) = x)).
      { intros hh gg x E. pose proof (with_cachable_inj _ _ _ (E v)) as A. destruct A as (A0 & A1 & _).
        unfold setitem; cbn [g_equal]. rewrite A0, A1.
        destruct (kind_eqb_spec (v_result (h v)) EQUAL) as [K|K].
        - rewrite set_add_In. intuition.
        - intuition. }
      unfold absorb_step in S. unfold resets, enters. cbn [fst snd].
      destruct (dget (g_verts g) n) as [o|] eqn:D.
      - destruct (compare_vertex_priority (h o) (h v)) eqn:P.
        + destruct (kind_eqb (v_result (h o)) ASSUMED_EQUAL && negb (kind_eqb (v_result (h v)) ASSUMED_EQUAL)) eqn:K.
          * injection S as <- <-. destruct (reset_cachable_spec (v_prevents (h o)) h) as [E C].
            repeat split.
            -- exact E.
            -- intros m. unfold setitem; cbn [g_verts]. rewrite dget_dset. unfold merged. rewrite P. reflexivity.
            -- intros w. rewrite C. cbn [andb]. rewrite K. reflexivity.
            -- intros I. apply eqadd in I; [|exact E]. intuition.
            -- intros I. apply eqadd; [exact E|]. intuition.
            -- intros ND. unfold setitem; cbn [g_verts]. apply dset_NoDup. exact ND.
          * injection S as <- <-. repeat split.
            -- intros m. unfold setitem; cbn [g_verts]. rewrite dget_dset. unfold merged. rewrite P. reflexivity.
            -- intros w. cbn [andb]. rewrite K. simpl. rewrite orb_false_r. reflexivity.
            -- intros I. apply eqadd in I; [|intros ?; reflexivity]. intuition.
            -- intros I. apply eqadd; [intros ?; reflexivity|]. intuition.
            -- intros ND. unfold setitem; cbn [g_verts]. apply dset_NoDup. exact ND.
        + injection S as <- <-. repeat split; auto.
          -- intros m. unfold merged. rewrite P. destruct (eqb_spec m n) as [->|]; auto.
          -- intros w. rewrite orb_false_r. reflexivity.
          -- intros [I|(C & _)]; [exact I|discriminate].
      - injection S as <- <-. repeat split.
        + intros m. unfold setitem; cbn [g_verts]. rewrite dget_dset. reflexivity.
        + intros w. rewrite orb_false_r. reflexivity.
        + intros I. apply eqadd in I; [|intros ?; reflexivity]. intuition.
        + intros I. apply eqadd; [intros ?; reflexivity|]. intuition.
        + intros ND. unfold setitem; cbn [g_verts]. apply dset_NoDup. exact ND. }
    destruct step as (Ec1 & Eg1 & Ek1 & Ee1 & Eca1 & Nd1).
    assert (look : forall nv, In nv l -> dget (g_verts g1) (fst nv) = dget (g_verts g) (fst nv)).
    { intros nv I. rewrite Eg1. destruct (eqb_spec (fst nv) n) as [E|]; [|reflexivity].
      exfalso. apply Nn. rewrite <- E. apply in_map. exact I. }
    assert (merged_cach : forall a b, merged h1 a b = merged h a b).
    { intros [o|] [b|]; simpl; auto. rewrite (cach_eq_priority h1 h o b Ec1). reflexivity. }
    split; [|split; [|split; [|split; [|split]]]].
    + intros w. rewrite Ec. apply Ec1.
    + intros m. rewrite Eg, merged_cach, Eg1. cbn [dget].
      destruct (eqb_spec m n) as [->|NE]; [|reflexivity].
      assert (dget l n = None) as -> by (apply dget_None; exact Nn).
      destruct (merged h (dget (g_verts g) n) (Some v)); reflexivity.
    + intros w. rewrite Ek, Ek1. cbn [existsb]. rewrite <- orb_assoc. f_equal. f_equal.
      clear -look Ec1. induction l as [|nv l IH]; [reflexivity|]. cbn [existsb].
      rewrite IH by (intros x I; apply look; right; exact I). f_equal.
      rewrite (resets_cach h1 h _ w nv Ec1). unfold resets. rewrite look by (left; reflexivity). reflexivity.
    + intros x. rewrite Ee, Ee1. split.
      * intros [[I|I]|(nv & I & En & K & Nm)].
        -- auto.
        -- right. exists (n, v). simpl. split; [auto|exact I].
        -- right. exists nv. simpl. split; [auto|].
           rewrite (enters_cach h1 h _ nv Ec1) in En. unfold enters in *. rewrite look in En by exact I.
           pose proof (with_cachable_inj _ _ _ (Ec1 (snd nv))) as A. decompose [and] A. intuition congruence.
      * intros [I|(nv & [<-|I] & En & K & Nm)].
        -- auto.
        -- left. right. auto.
        -- right. exists nv. split; [exact I|].
           rewrite (enters_cach h1 h _ nv Ec1). unfold enters in *. rewrite look by exact I.
           pose proof (with_cachable_inj _ _ _ (Ec1 (snd nv))) as A. decompose [and] A. intuition congruence.
    + congruence.
    + auto.
Qed.

Lemma priority_replaces x y : compare_vertex_priority x y = true <-> replaces x y.
Proof.
  unfold compare_vertex_priority, replaces, same_file, more_calls.
  destruct (mem (v_result x) [ASSUMED_EQUAL; UNKNOWN]) eqn:M.
  - apply mem_In in M. simpl in M. split; [|reflexivity]. intros _. intuition.
  - apply mem_not_In in M. simpl in M.
    assert (NA : v_result x <> ASSUMED_EQUAL) by (intros C; apply M; auto).
    assert (NU : v_result x <> UNKNOWN) by (intros C; apply M; auto).
    destruct (opt_eqb_spec (fst (v_files x)) (snd (v_files x))) as [F|F];
      destruct (kind_eqb_spec (v_result x) NOT_EQUAL) as [A|A];
      destruct (kind_eqb_spec (v_result y) EQUAL) as [B|B]; simpl;
      rewrite ?orb_true_iff, ?Nat.ltb_lt; intuition congruence.
Qed.

(** ** [populate_predecessor_lists] *)
Definition pred_eq (h1 h2 : heap) : Prop :=
  forall w, with_pred (h1 w) ([], []) = with_pred (h2 w) ([], []).
Lemma with_pred_inj x y b : with_pred x b = with_pred y b ->
  v_names x = v_names y /\ v_result x = v_result y /\ v_nonfun x = v_nonfun y /\
  v_succ x = v_succ y /\ v_files x = v_files y /\ v_lines x = v_lines y /\
  v_stats x = v_stats y /\ v_cachable x = v_cachable y /\ v_prevents x = v_prevents y.
Proof. destruct x, y. unfold with_pred. simpl. intros [= -> -> -> -> -> -> -> -> ->]. auto 10. Qed.

Lemma sel_upd_same {A} s (p : A * A) x : sel s (upd s p x) = x.
Proof. destruct s; reflexivity. Qed.
Lemma sel_upd_other {A} s s' (p : A * A) x : s <> s' -> sel s (upd s' p x) = sel s p.
Proof. destruct s, s'; simpl; congruence. Qed.
Lemma side_dec (s s' : side) : {s = s'} + {s <> s'}.
Proof. decide equality. Qed.

Lemma add_pred_fold g v s es : forall h,
  let h' := fold_left (add_pred g v s) es h in
  pred_eq h' h /\
  forall u t s', In u (sel s' (v_pred (h' t))) <->
    In u (sel s' (v_pred (h t))) \/
    (s' = s /\ u = v /\ exists e, In e es /\ dget (g_verts g) (e_target e) = Some t).
Proof.
  induction es as [|e es IH]; intros h; cbn [fold_left].
  - split; [intros w; reflexivity|]. intros u t s'. split; [auto|intros [|(_ & _ & e & [] & _)]; auto].
  - destruct (IH (add_pred g v s h e)) as [E P]. clear IH.
    assert (step : pred_eq (add_pred g v s h e) h /\
       forall u t s', In u (sel s' (v_pred (add_pred g v s h e t))) <->
         In u (sel s' (v_pred (h t))) \/ (s' = s /\ u = v /\ dget (g_verts g) (e_target e) = Some t)).
    { unfold add_pred. destruct (dget (g_verts g) (e_target e)) as [t0|] eqn:D.
      - split.
        + intros w. unfold hset. destruct (Nat.eqb_spec w t0) as [->|]; reflexivity.
        + intros u t s'. destruct (Nat.eq_dec t t0) as [->|N].
          * rewrite hset_same. unfold with_pred; cbn [v_pred].
            destruct (side_dec s' s) as [->|NS].
            -- rewrite sel_upd_same, in_app_iff. simpl. intuition.
            -- rewrite sel_upd_other by exact NS. intuition.
          * rewrite hset_other by exact N. split; [auto|]. intros [|(_ & _ & C)]; [auto|congruence].
      - split; [intros w; reflexivity|]. intros u t s'. split; [auto|intros [|(_ & _ & C)]; [auto|discriminate]]. }
    destruct step as [E1 P1]. split.
    + intros w. rewrite E. apply E1.
    + intros u t s'. rewrite P, P1. split.
      * intros [[I|(A & B & C)]|(A & B & e' & I & C)].
        -- auto.
        -- right. repeat split; auto. exists e. simpl. auto.
        -- right. repeat split; auto. exists e'. simpl. auto.
      * intros [I|(A & B & e' & [<-|I] & C)]; auto.
        right. repeat split; auto. exists e'. auto.
Qed.

Lemma populate_vertex_spec g v h :
  let h' := populate_vertex g h v in
  pred_eq h' h /\
  forall u t s, In u (sel s (v_pred (h' t))) <->
    In u (sel s (v_pred (h t))) \/
    (u = v /\ exists e, In e (sel s (v_succ (h v))) /\ dget (g_verts g) (e_target e) = Some t).
Proof.
  unfold populate_vertex.
  destruct (add_pred_fold g v LEFT (sel LEFT (v_succ (h v))) h) as [E1 P1].
  set (h1 := fold_left (add_pred g v LEFT) (sel LEFT (v_succ (h v))) h) in *.
  destruct (add_pred_fold g v RIGHT (sel RIGHT (v_succ (h1 v))) h1) as [E2 P2].
  set (h2 := fold_left (add_pred g v RIGHT) (sel RIGHT (v_succ (h1 v))) h1) in *. simpl.
  assert (S : v_succ (h1 v) = v_succ (h v)) by (apply (with_pred_inj _ _ _ (E1 v))).
  split.
  - intros w. rewrite E2. apply E1.
  - intros u t s. rewrite P2, P1, S. split.
    + intros [[I|(-> & -> & I)]|(-> & -> & I)]; auto.
    + intros [I|(-> & I)]; [auto|]. destruct s; auto.
Qed.

Lemma populate_spec h g :
  let h' := populate_predecessor_lists h g in
  pred_eq h' h /\
  forall u t s, In u (sel s (v_pred (h' t))) <->
    In u (sel s (v_pred (h t))) \/
    (In u (dvals (g_verts g)) /\ exists e, calls h g s u e t).
Proof.
  unfold populate_predecessor_lists.
  assert (G : forall vs h0, pred_eq h0 h ->
    let h' := fold_left (populate_vertex g) vs h0 in
    pred_eq h' h /\
    forall u t s, In u (sel s (v_pred (h' t))) <->
      In u (sel s (v_pred (h0 t))) \/ (In u vs /\ exists e, calls h g s u e t)).
  { induction vs as [|v vs IH]; intros h0 E0; cbn [fold_left].
    - split; [exact E0|]. intros u t s. split; [auto|intros [|([] & _)]; auto].
    - destruct (populate_vertex_spec g v h0) as [E1 P1].
      destruct (IH (populate_vertex g h0 v)) as [E2 P2].
      { intros w. rewrite E1. apply E0. }
      split; [exact E2|]. intros u t s. rewrite P2, P1.
      assert (S : v_succ (h0 v) = v_succ (h v)) by (apply (with_pred_inj _ _ _ (E0 v))).
      rewrite S. unfold calls. simpl. split.
      + intros [[I|(-> & e & I)]|(I & e & C)]; [auto|right; split; [auto|exists e; exact I]|].
        right. split; [auto|exists e; exact C].
      + intros [I|([->|I] & e & C)]; [auto|left; right; split; [auto|exists e; exact C]|].
        right. split; [auto|exists e; exact C]. }
  apply G. intros w. reflexivity.
Qed.

(** ** [mark_uncachable_from_assumed_equal] *)
Definition header (h : heap) (p : vid) : Prop := exists f, fst (v_files (h p)) = Some f /\ has_ext f ".h".

Lemma scan_preds_spec h vis : forall ps acc pushed acc',
  scan_preds h vis ps acc = Ok (pushed, acc') ->
  acc' = acc ++ pushed /\ forall p, In p pushed <-> In p ps /\ ~ In p vis /\ header h p.
Proof.
  induction ps as [|p ps IH]; intros acc pushed acc' H; cbn [scan_preds] in H.
  - injection H as <- <-. rewrite app_nil_r. split; [reflexivity|]. intros p. simpl. tauto.
  - destruct (mem p vis) eqn:M.
    { apply mem_In in M. destruct (IH _ _ _ H) as [E P]. split; [exact E|].
      intros q. rewrite P. simpl. split; [tauto|]. intros ([->|I] & V & Hd); [contradiction|tauto]. }
    apply mem_not_In in M.
    destruct (fst (v_files (h p))) as [f|] eqn:F; [|discriminate].
    destruct (endswith f ".h") eqn:X; simpl in H.
    + destruct (scan_preds h vis ps (acc ++ [p])) as [[pu a]|x] eqn:R; [|discriminate].
      injection H as <- <-. destruct (IH _ _ _ R) as [E P].
      rewrite <- app_assoc in E. split; [exact E|].
      apply has_ext_endswith in X. intros q. simpl. rewrite P. split.
      * intros [<-|I]; [|tauto]. split; [auto|split; [exact M|]]. exists f. auto.
      * intros ([->|I] & V & Hd); tauto.
    + destruct (IH _ _ _ H) as [E P]. split; [exact E|].
      intros q. rewrite P. simpl. split; [tauto|].
      intros ([->|I] & V & (f' & F' & Hd)); [|split; [exact I|split; [exact V|exists f'; auto]]].
      exfalso. rewrite F in F'. injection F' as <-. apply has_ext_endswith in Hd. congruence.
Qed.

Lemma scan_preds_err h vis : forall ps acc e,
  scan_preds h vis ps acc = Err e ->
  e = AttributeError /\ exists p, In p ps /\ fst (v_files (h p)) = None.
Proof.
  induction ps as [|p ps IH]; intros acc e H; cbn [scan_preds] in H; [discriminate|].
  assert (K : forall acc, scan_preds h vis ps acc = Err e ->
              e = AttributeError /\ exists q, In q (p :: ps) /\ fst (v_files (h q)) = None).
  { intros a R. destruct (IH a e R) as (-> & q & I & F). split; [reflexivity|]. exists q. simpl. auto. }
  destruct (mem p vis); [eauto|].
  destruct (fst (v_files (h p))) as [f|] eqn:F.
  - destruct (negb (endswith f ".h")); [eauto|].
    destruct (scan_preds h vis ps (acc ++ [p])) as [[pu a]|x] eqn:R; [discriminate|].
    injection H as ->. eauto.
  - injection H as <-. split; [reflexivity|]. exists p. simpl. auto.
Qed.

(** Only [n] Vertex objects exist: predecessor lists mention allocated vertices only. *)
Definition preds_below (h : heap) (n : nat) : Prop :=
  forall u p, In p (fst (v_pred (h u))) -> p < n.

Section Marked.
  Variables (h : heap) (n : nat) (v : vid).
  Hypothesis (PB : preds_below h n).
  Notation mbody := (fun visited current acc => scan_preds h visited (fst (v_pred (h current))) acc).

  Lemma marked_terminates : terminates (fun fuel => marked_from fuel h v).
  Proof.
    apply (bfs_terminates mbody (v :: seq 0 n)).
    - intros vis c acc pushed acc' H x I. destruct (scan_preds_spec _ _ _ _ _ _ H) as [_ P].
      apply P in I. destruct I as (I & V & _). split; [|exact V].
      right. apply in_seq. apply PB in I. lia.
    - intros x [<-|[]]. left. reflexivity.
  Qed.

  Record minv (queue vis marked : list vid) : Prop := {
    m_start : In v vis \/ queue = [v] /\ vis = [];
    m_disc : forall x, In x queue \/ In x vis -> x = v \/ In x marked;
    m_marked : forall x, In x marked -> (In x queue \/ In x vis) /\ header_caller h v x;
    m_closed : forall u p, In u vis -> In p (fst (v_pred (h u))) -> header h p -> In p queue \/ In p vis }.

  Lemma marked_spec fuel marked :
    marked_from fuel h v = Some (Ok marked) ->
    forall p, (In p marked -> header_caller h v p) /\ (header_caller h v p -> p = v \/ In p marked).
  Proof.
    intros H.
    assert (F : exists vis, minv [] vis marked).
    { revert H. unfold marked_from. apply bfs_invariant with (I := minv).
      - intros c q vis acc pushed acc' [Ms Md Mm Mc] B.
        destruct (scan_preds_spec _ _ _ _ _ _ B) as [-> P].
        assert (Sv : In v (set_add c vis)).
        { apply set_add_In. destruct Ms as [|[E _]]; [auto|]. injection E as -> _. auto. }
        constructor.
        + left. exact Sv.
        + intros x [I|I].
          * apply in_app_iff in I. rewrite in_app_iff. destruct I as [I|I]; [|auto].
            destruct (Md x); simpl; auto.
          * apply set_add_In in I. rewrite in_app_iff. destruct (Md x); simpl; [destruct I as [->|]; auto|auto|auto].
        + intros x I. apply in_app_iff in I. rewrite in_app_iff, set_add_In. destruct I as [I|I].
          * destruct (Mm x I) as [[[->|Q]|Q] HC]; auto.
          * split; [auto|]. apply P in I. destruct I as (I & V & (f & Ff & Hf)).
            destruct (Md c) as [->|Q]; [simpl; auto| |].
            -- eapply hc_direct; eauto.
            -- eapply hc_step; eauto. apply Mm. exact Q.
        + intros u p I Ip Hp. rewrite in_app_iff. apply set_add_In in I.
          destruct (mem p (set_add c vis)) eqn:M; [right; apply mem_In; exact M|].
          apply mem_not_In in M. destruct I as [->|I].
          * left. right. apply P. auto.
          * destruct (Mc u p I Ip Hp) as [[->|Q]|Q]; [|auto|].
            -- exfalso. apply M, set_add_In. auto.
            -- exfalso. apply M, set_add_In. auto.
      - constructor; simpl; try tauto. intros x [[->|[]]|[]]. auto. }
    destruct F as (vis & [Ms Md Mm Mc]). intros p. split.
    - intros I. apply Mm. exact I.
    - intros HC. apply Md. right.
      assert (Sv : In v vis) by (destruct Ms as [|[E _]]; [auto|discriminate]).
      induction HC as [p f I Ff Hf|q p f HC IH I Ff Hf].
      + destruct (Mc v p Sv I) as [[]|]; [exists f; auto|auto].
      + destruct (Mc q p IH I) as [[]|]; [exists f; auto|auto].
  Qed.

  Lemma marked_err fuel e :
    marked_from fuel h v = Some (Err e) ->
    e = AttributeError /\ exists u p, In p (fst (v_pred (h u))) /\ fst (v_files (h p)) = None.
  Proof.
    unfold marked_from.
    apply (bfs_invariant_err mbody (fun _ _ _ => True)
             (fun e => e = AttributeError /\ exists u p, In p (fst (v_pred (h u))) /\ fst (v_files (h p)) = None)); auto.
    intros c q vis acc e' _ B. destruct (scan_preds_err _ _ _ _ _ B) as (E & p & I & F). eauto.
  Qed.
End Marked.

(** Heaps that differ only in the caching marks. *)
Definition unmark (x : vertex) : vertex := with_prevents (with_cachable x true) [].
Definition marks_eq (h1 h2 : heap) : Prop := forall w, unmark (h1 w) = unmark (h2 w).
Lemma unmark_inj x y : unmark x = unmark y ->
  v_names x = v_names y /\ v_result x = v_result y /\ v_nonfun x = v_nonfun y /\
  v_succ x = v_succ y /\ v_files x = v_files y /\ v_lines x = v_lines y /\
  v_stats x = v_stats y /\ v_pred x = v_pred y.
Proof. destruct x, y. unfold unmark, with_prevents, with_cachable. simpl. intros [= -> -> -> -> -> -> -> ->]. auto 10. Qed.

Lemma header_caller_marks h1 h2 v p : marks_eq h1 h2 -> header_caller h1 v p -> header_caller h2 v p.
Proof.
  intros E. induction 1 as [p f I Ff Hf|q p f HC IH I Ff Hf].
  - pose proof (unmark_inj _ _ (E v)) as A. pose proof (unmark_inj _ _ (E p)) as B.
    decompose [and] A. decompose [and] B. eapply hc_direct; eauto; congruence.
  - pose proof (unmark_inj _ _ (E q)) as A. pose proof (unmark_inj _ _ (E p)) as B.
    decompose [and] A. decompose [and] B. eapply hc_step; eauto; congruence.
Qed.
Lemma marks_eq_sym h1 h2 : marks_eq h1 h2 -> marks_eq h2 h1.
Proof. intros E w. symmetry. apply E. Qed.
Lemma assumed_marks h1 h2 v : marks_eq h1 h2 -> assumed_outside_header h1 v -> assumed_outside_header h2 v.
Proof.
  intros E (R & f & F & N). pose proof (unmark_inj _ _ (E v)) as A. decompose [and] A.
  split; [congruence|]. exists f. split; [congruence|exact N].
Qed.

Lemma is_mark_source_spec h v b : is_mark_source h v = Ok b -> (b = true <-> assumed_outside_header h v).
Proof.
  unfold is_mark_source, assumed_outside_header.
  destruct (kind_eqb_spec (v_result (h v)) ASSUMED_EQUAL) as [E|E].
  - destruct (fst (v_files (h v))) as [f|]; [|discriminate]. intros [= <-].
    rewrite negb_true_iff. split.
    + intros X. split; [exact E|]. exists f. split; [reflexivity|]. rewrite <- has_ext_endswith. congruence.
    + intros (_ & f' & [= <-] & N). destruct (endswith f ".h") eqn:X; [|reflexivity].
      apply has_ext_endswith in X. contradiction.
  - intros [= <-]. split; [discriminate|]. intros (C & _). congruence.
Qed.

Lemma apply_marks_fold ps : forall h,
  let h' := fold_left (fun h' p => hset h' p (with_cachable (h' p) false)) ps h in
  marks_eq h' h /\ (forall w, v_cachable (h' w) = v_cachable (h w) && negb (mem w ps)) /\
  (forall w, v_prevents (h' w) = v_prevents (h w)).
Proof.
  induction ps as [|p ps IH]; intros h; cbn [fold_left].
  - split; [intros w; reflexivity|]. split; [intros w; simpl; rewrite andb_true_r; reflexivity|reflexivity].
  - destruct (IH (hset h p (with_cachable (h p) false))) as (E & C & P). split; [|split].
    + intros w. rewrite E. unfold hset. destruct (Nat.eqb_spec w p) as [->|]; reflexivity.
    + intros w. rewrite C. unfold hset. simpl. destruct (Nat.eqb_spec w p) as [->|N]; simpl.
      * rewrite andb_false_r. reflexivity.
      * reflexivity.
    + intros w. rewrite P. unfold hset. destruct (Nat.eqb_spec w p) as [->|]; reflexivity.
Qed.

Lemma apply_marks_spec h v ps :
  marks_eq (apply_marks h v ps) h /\
  (forall w, v_cachable (apply_marks h v ps w) = v_cachable (h w) && negb (mem w ps)) /\
  (forall w, v_prevents (apply_marks h v ps w) = if Nat.eqb w v then v_prevents (h w) ++ ps else v_prevents (h w)).
Proof.
  unfold apply_marks. destruct (apply_marks_fold ps h) as (E & C & P).
  set (h1 := fold_left (fun h' p => hset h' p (with_cachable (h' p) false)) ps h) in *. cbv zeta.
  split; [|split].
  - intros w. unfold hset. destruct (Nat.eqb_spec w v) as [->|]; [|apply E].
    rewrite <- E. unfold unmark, with_prevents, with_cachable. simpl. reflexivity.
  - intros w. rewrite <- C. unfold hset. destruct (Nat.eqb_spec w v) as [->|]; reflexivity.
  - intros w. unfold hset. destruct (Nat.eqb_spec w v) as [->|]; [simpl; rewrite P; reflexivity|apply P].
Qed.

Lemma marked_not_self h v p : assumed_outside_header h v -> header_caller h v p -> p <> v.
Proof.
  intros (_ & f & F & N) HC ->. inversion HC; subst; congruence.
Qed.

Lemma mark_all_spec fuel : forall vs h n h',
  preds_below h n ->
  mark_all fuel h vs = Some (Ok h') ->
  marks_eq h' h /\
  (forall p, v_cachable (h' p) = true <->
     v_cachable (h p) = true /\ ~ exists v, In v vs /\ assumed_outside_header h v /\ header_caller h v p) /\
  (forall v p, In p (v_prevents (h' v)) <->
     In p (v_prevents (h v)) \/ (In v vs /\ assumed_outside_header h v /\ header_caller h v p)).
Proof.
  induction vs as [|v vs IH]; intros h n h' PB H; cbn [mark_all] in H.
  - injection H as <-. split; [intros w; reflexivity|]. split.
    + intros p. split; [|tauto]. intros C. split; [exact C|]. intros (v & [] & _).
    + intros v p. simpl. tauto.
  - destruct (is_mark_source h v) as [b|e] eqn:S; [|discriminate].
    apply is_mark_source_spec in S. destruct b.
    + destruct (marked_from fuel h v) as [[marked|e]|] eqn:M; [|discriminate|discriminate].
      pose proof (proj1 S eq_refl) as SV.
      pose proof (marked_spec h v fuel marked M) as MS.
      destruct (apply_marks_spec h v marked) as (E & C & P).
      assert (PB' : preds_below (apply_marks h v marked) n).
      { intros u p I. apply (PB u p). pose proof (unmark_inj _ _ (E u)) as A. decompose [and] A. congruence. }
      destruct (IH _ _ _ PB' H) as (E2 & C2 & P2).
      assert (HC : forall p, In p marked <-> header_caller h v p).
      { intros p. destruct (MS p) as [A B]. split; [exact A|]. intros X. destruct (B X) as [->|]; [|auto].
        exfalso. eapply marked_not_self; eauto. }
      assert (tr : forall w p, assumed_outside_header (apply_marks h v marked) w /\ header_caller (apply_marks h v marked) w p <->
                               assumed_outside_header h w /\ header_caller h w p).
      { intros w p. split; intros [X Y]; split.
        - eapply assumed_marks; eauto.
        - eapply header_caller_marks; eauto.
        - eapply assumed_marks; [apply marks_eq_sym; exact E|exact X].
        - eapply header_caller_marks; [apply marks_eq_sym; exact E|exact Y]. }
      split; [|split].
      * intros w. rewrite E2. apply E.
      * intros p. rewrite C2, C, andb_true_iff, negb_true_iff, mem_not_In, HC. split.
        -- intros ((A & B) & D). split; [exact A|]. intros (w & [<-|I] & X & Y); [contradiction|].
           apply D. exists w. split; [exact I|]. apply tr. auto.
        -- intros (A & D). split.
           ++ split; [exact A|]. intros Y. apply D. exists v. simpl. auto.
           ++ intros (w & I & XY). apply tr in XY. apply D. exists w. simpl. tauto.
      * intros w p. rewrite P2, P, tr. destruct (Nat.eqb_spec w v) as [->|N].
        -- rewrite in_app_iff, HC. simpl. tauto.
        -- simpl. intuition congruence.
    + assert (NV : ~ assumed_outside_header h v) by (intros C; apply S in C; discriminate).
      destruct (IH _ _ _ PB H) as (E2 & C2 & P2). split; [exact E2|]. split.
      * intros p. rewrite C2. split; intros (A & D); (split; [exact A|]).
        -- intros (w & [<-|I] & X & Y); [contradiction|]. apply D. eauto.
        -- intros (w & I & X & Y). apply D. exists w. simpl. auto.
      * intros w p. rewrite P2. simpl. intuition congruence.
Qed.

Lemma mark_all_terminates vs : forall h n,
  preds_below h n -> terminates (fun fuel => mark_all fuel h vs).
Proof.
  induction vs as [|v vs IH]; intros h n PB.
  - exists (Ok h), 0. reflexivity.
  - destruct (is_mark_source h v) as [[]|e] eqn:S.
    + destruct (marked_terminates h n v PB) as ([marked|e] & k & T).
      * assert (PB' : preds_below (apply_marks h v marked) n).
        { intros u p I. apply (PB u p). destruct (apply_marks_spec h v marked) as (E & _).
          pose proof (unmark_inj _ _ (E u)) as A. decompose [and] A. congruence. }
        destruct (IH _ _ PB') as (r & k' & T'). exists r, (k + k'). intros m L.
        cbn [mark_all]. rewrite S, T by lia. apply T'. lia.
      * exists (Err e), k. intros m L. cbn [mark_all]. rewrite S, T by lia. reflexivity.
    + destruct (IH _ _ PB) as (r & k' & T'). exists r, k'. intros m L. cbn [mark_all]. rewrite S.
      apply T'. exact L.
    + exists (Err e), 0. intros m L. cbn [mark_all]. rewrite S. reflexivity.
Qed.

Lemma mark_all_succeeds fuel vs : forall h e,
  mark_all fuel h vs = Some (Err e) ->
  e = AttributeError /\
  ((exists v, In v vs /\ fst (v_files (h v)) = None) \/
   exists u p, In p (fst (v_pred (h u))) /\ fst (v_files (h p)) = None).
Proof.
  induction vs as [|v vs IH]; intros h e H; cbn [mark_all] in H; [discriminate|].
  destruct (is_mark_source h v) as [b|e'] eqn:S.
  - destruct b.
    + destruct (marked_from fuel h v) as [[marked|e'']|] eqn:M; [|injection H as ->|discriminate].
      * destruct (IH _ _ H) as (-> & [(w & I & F)|(u & p & I & F)]); (split; [reflexivity|]);
          destruct (apply_marks_spec h v marked) as (E & _).
        -- left. exists w. pose proof (unmark_inj _ _ (E w)) as A. decompose [and] A.
           split; [right; exact I|congruence].
        -- right. exists u, p. pose proof (unmark_inj _ _ (E u)) as A. pose proof (unmark_inj _ _ (E p)) as B.
           decompose [and] A. decompose [and] B. split; congruence.
      * apply marked_err in M. destruct M as (-> & M). auto.
    + destruct (IH _ _ H) as (-> & [(w & I & F)|X]); (split; [reflexivity|]); [left|right; exact X].
      exists w. simpl. auto.
  - injection H as ->. unfold is_mark_source in S.
    destruct (kind_eqb (v_result (h v)) ASSUMED_EQUAL); [|discriminate].
    destruct (fst (v_files (h v))) as [f|] eqn:F; [discriminate|]. injection S as <-.
    split; [reflexivity|]. left. exists v. simpl. auto.
Qed.
