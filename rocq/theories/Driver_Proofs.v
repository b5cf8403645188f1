(** * Proofs about the comparison of one function pair *)
From Coq Require Import String Ascii ZArith Arith Bool Lia List Permutation.
From Verif Require Import PyBase Path_Model Result_Model Result_Spec Result_Proofs Graph_Model Graph_Spec
  Graph_Proofs Graph_Objects Cache_Model Module_Model Driver_Model Driver_Spec Module_Props.
Import ListNotations.
Open Scope list_scope.

Lemma runs_app a b : runs (a ++ b) = runs a + runs b.
Proof. induction a as [|[] a IH]; simpl; rewrite ?IH; reflexivity. Qed.

Lemma link_modules_grow o files d m mods d' m' b : link_modules o files d m mods = (d', m', b) ->
  (b = true -> exists x, In x mods /\ ~ In x (m_linked m) /\ In x (m_linked m')) /\
  (forall x, In x (m_linked m) -> In x (m_linked m')) /\ (b = false -> m' = m).
Proof.
  unfold link_modules. set (new := filter _ mods).
  assert (HN : forall x, In x new <-> In x mods /\ ~ In x (m_linked m)).
  { intros x. unfold new. rewrite filter_In, negb_true_iff, mem_not_In. reflexivity. }
  destruct new as [|x0 new'] eqn:E.
  - intros H; injection H as <- <- <-. repeat split; auto; discriminate.
  - destruct o as [| |parses]; intros H; injection H as <- <- <-; try (repeat split; auto; discriminate).
    cbn [m_linked].
    split; [|split; [|discriminate]].
    + intros _. exists x0. destruct (proj1 (HN x0) (or_introl eq_refl)) as [A B]. split; [exact A|]. split; [exact B|].
      apply (set_adds_In (x0 :: new')). right. left. reflexivity.
    + intros x I. apply (set_adds_In (x0 :: new')). auto.
Qed.

Section Proofs.
  Variable w : world.
  Variables cwd dir : string.
  Variable cfg : dconfig.

  (** [st'] differs from [st] only in the modules, the files and the log. *)
  Definition frame (st st' : dst) : Prop :=
    s_heap st' = s_heap st /\ s_cache st' = s_cache st /\ s_prev st' = s_prev st /\ s_curr st' = s_curr st.
  Definition extends (st st' : dst) : Prop :=
    exists new, s_log st' = new ++ s_log st /\ Forall (fun e => ~ only_shows e) new.
  Definition links (st st' : dst) : Prop :=
    frame st st' /\ extends st st' /\ runs (s_log st') = runs (s_log st) /\
    (forall s x, In x (m_linked (module_of s st)) -> In x (m_linked (module_of s st'))).

  Lemma frame_refl st : frame st st. Proof. repeat split. Qed.
  Lemma frame_trans a b c : frame a b -> frame b c -> frame a c.
  Proof. unfold frame. intros (A & B & C & D) (A' & B' & C' & D'). repeat split; congruence. Qed.
  Lemma extends_refl st : extends st st. Proof. exists []. split; [reflexivity|constructor]. Qed.
  Lemma extends_trans a b c : extends a b -> extends b c -> extends a c.
  Proof.
    intros (x & E & Fx) (y & F & Fy). exists (y ++ x). split; [rewrite F, E, app_assoc; reflexivity|].
    apply Forall_app; auto.
  Qed.
  Lemma extends_log e st : ~ only_shows e -> extends st (log e st).
  Proof. intros N. exists [e]. split; [reflexivity|repeat constructor; exact N]. Qed.
  Lemma extends_same st st' : s_log st' = s_log st -> extends st st'.
  Proof. intros E. exists []. split; [exact E|constructor]. Qed.
  Lemma extends_one e st st' : s_log st' = e :: s_log st -> ~ only_shows e -> extends st st'.
  Proof. intros E N. exists [e]. split; [exact E|repeat constructor; exact N]. Qed.
  Lemma links_refl st : links st st.
  Proof. split; [apply frame_refl|split; [apply extends_refl|split; auto]]. Qed.
  Lemma links_trans a b c : links a b -> links b c -> links a c.
  Proof.
    intros (A & B & C & D) (A' & B' & C' & D'). split; [eapply frame_trans; eauto|].
    split; [eapply extends_trans; eauto|]. split; [congruence|auto].
  Qed.

  (** Which modules the finder can return. *)
  Variable avail : side -> mid -> Prop.
  Hypothesis finite : forall lg s x m, w_find w lg s x = Some m -> avail s m.

  Lemma link_symbol_spec s x st st' b : link_symbol_def w s x st = (st', b) ->
    links st st' /\
    (b = true -> exists m, avail s m /\ ~ In m (m_linked (module_of s st)) /\ In m (m_linked (module_of s st'))) /\
    (b = false -> s_first st' = s_first st /\ s_second st' = s_second st) /\
    (module_of (match s with LEFT => RIGHT | RIGHT => LEFT end) st' =
     module_of (match s with LEFT => RIGHT | RIGHT => LEFT end) st).
  Proof.
    unfold link_symbol_def. destruct (w_find w (s_log st) s x) as [m|] eqn:F.
    - destruct (link_modules _ _ _ _ _) as [[d mod'] a] eqn:L.
      apply link_modules_grow in L. destruct L as (G & K & U). intros H; injection H as <- <-.
      assert (MO : module_of s (log (ELink s m) (log (EFind s x) st)) = module_of s st) by (destruct s; reflexivity).
      rewrite MO in *.
      split; [|split; [|split]].
      + split; [destruct s; repeat split|]. split; [exists [ELink s m; EFind s x]; split; [destruct s; reflexivity|repeat constructor; intros []]|].
        split; [destruct s; reflexivity|]. intros s' y I. destruct s, s'; cbn in *; auto.
      + intros ->. destruct (G eq_refl) as (y & [<- | []] & A & B). exists m.
        split; [eapply finite; eauto|]. split; [exact A|]. destruct s; exact B.
      + intros ->. specialize (U eq_refl). subst mod'. destruct s; cbn; auto.
      + destruct s; reflexivity.
    - intros H; injection H as <- <-. split; [|split; [discriminate|split; [|destruct s; reflexivity]]].
      + split; [repeat split|]. split; [apply extends_log; intros []|]. split; [reflexivity|].
        intros s' y I. destruct s'; exact I.
      + intros _. split; reflexivity.
  Qed.

  Definition fresh_link (st st' : dst) : Prop :=
    exists s m, avail s m /\ ~ In m (m_linked (module_of s st)) /\ In m (m_linked (module_of s st')).

  Lemma fresh_link_widen a b c d : links a b -> fresh_link b c -> links c d -> fresh_link a d.
  Proof.
    intros (_ & _ & _ & A) (s & m & I & N & L) (_ & _ & _ & B). exists s, m. split; [exact I|]. split; auto.
  Qed.
  Lemma link_side_spec s x st b st' b' : link_side w s x (st, b) = (st', b') ->
    links st st' /\ (b' = true -> b = true \/ fresh_link st st') /\ (b = true -> b' = true) /\
    (b' = false -> s_first st' = s_first st /\ s_second st' = s_second st).
  Proof.
    unfold link_side. destruct x as [x|].
    - cbn [fst snd]. destruct (link_symbol_def w s x st) as [st1 b1] eqn:L.
      destruct (link_symbol_spec _ _ _ _ _ L) as (A & B & C & _). intros H; injection H as <- <-.
      split; [exact A|]. split; [|split; [intros ->; reflexivity|]].
      + destruct b; [auto|]. cbn [orb]. intros ->. right. destruct (B eq_refl) as (m & X). exists s, m. exact X.
      + intros E. apply orb_false_iff in E. apply C. tauto.
    - intros H; injection H as <- <-. split; [apply links_refl|]. auto.
  Qed.
  Lemma link_missing_spec ms : forall st b st' b', fold_left (link_pair w) ms (st, b) = (st', b') ->
    links st st' /\ (b' = true -> b = true \/ fresh_link st st') /\ (b = true -> b' = true) /\
    (b' = false -> s_first st' = s_first st /\ s_second st' = s_second st).
  Proof.
    induction ms as [|[x y] ms IH]; intros st b st' b' H.
    - cbn in H. injection H as <- <-. split; [apply links_refl|]. auto.
    - cbn [fold_left] in H. unfold link_pair in H at 2. cbn [fst snd] in H.
      destruct (link_side w LEFT x (st, b)) as [st1 b1] eqn:L1.
      destruct (link_side w RIGHT y (st1, b1)) as [st2 b2] eqn:L2.
      destruct (link_side_spec _ _ _ _ _ _ L1) as (A1 & B1 & M1 & C1).
      destruct (link_side_spec _ _ _ _ _ _ L2) as (A2 & B2 & M2 & C2).
      destruct (IH _ _ _ _ H) as (A3 & B3 & M3 & C3).
      assert (A12 : links st st2) by (eapply links_trans; eauto).
      split; [eapply links_trans; eauto|]. split; [|split; [auto|]].
      + intros E. destruct (B3 E) as [E2|F3].
        * destruct (B2 E2) as [E1|F2].
          -- destruct (B1 E1) as [E0|F1]; [auto|]. right.
             eapply fresh_link_widen; [apply links_refl|exact F1|]. eapply links_trans; eauto.
          -- right. eapply fresh_link_widen; [exact A1|exact F2|exact A3].
        * right. eapply fresh_link_widen; [exact A12|exact F3|apply links_refl].
      + intros ->. destruct (C3 eq_refl) as (-> & ->).
        destruct b2; [discriminate (M3 eq_refl)|]. destruct (C2 eq_refl) as (-> & ->).
        destruct b1; [discriminate (M2 eq_refl)|]. apply C1. reflexivity.
  Qed.

  (** Modules that can still be linked. *)
  Variable mods : side -> list mid.
  Hypothesis avail_mods : forall s m, avail s m -> In m (mods s).
  Definition todo (st : dst) (s : side) : nat :=
    length (filter (fun m => negb (mem m (m_linked (module_of s st)))) (mods s)).
  Lemma todo_le a b s : links a b -> todo b s <= todo a s.
  Proof.
    intros (_ & _ & _ & L). apply filter_length_le. intros x. rewrite !negb_true_iff, !mem_not_In.
    intros N I. apply N, L, I.
  Qed.
  Lemma todo_lt a b : links a b -> fresh_link a b ->
    todo b LEFT + todo b RIGHT < todo a LEFT + todo a RIGHT.
  Proof.
    intros L (s & m & I & N & J). pose proof (todo_le a b LEFT L). pose proof (todo_le a b RIGHT L).
    assert (todo b s < todo a s).
    { apply filter_length_lt with (x := m); auto.
      - intros x. rewrite !negb_true_iff, !mem_not_In. intros M K. apply M. destruct L as (_ & _ & _ & L). apply L, K.
      - apply mem_In in J. rewrite J. reflexivity.
      - apply mem_not_In in N. rewrite N. reflexivity. }
    destruct s; lia.
  Qed.

  Lemma merge_log st g st' o : merge_results cwd dir st g = (st', o) ->
    extends st st' /\ runs (s_log st') = runs (s_log st) /\ s_first st' = s_first st /\ s_second st' = s_second st.
  Proof.
    unfold merge_results. destruct (s_prev st) as [p|].
    - destruct (absorb_graph (s_heap st) p g) as [h' p'].
      destruct (s_cache st) as [c|].
      + destruct (update_from_graph cwd dir c h' p') as [c'|e]; intros H; injection H as <- <-;
          (split; [eapply extends_one; [reflexivity|intros []]|repeat split]).
      + intros H; injection H as <- <-. split; [apply extends_same; reflexivity|repeat split].
    - intros H; injection H as <- <-. split; [apply extends_refl|repeat split].
  Qed.

  Lemma loop_mono f1 : forall n st r, simplify_loop w cwd dir n f1 st = Some r ->
    forall m, n <= m -> simplify_loop w cwd dir m f1 st = Some r.
  Proof.
    induction n as [|n IH]; intros st r H m L; [discriminate|]. destruct m as [|m]; [lia|].
    cbn [simplify_loop] in *. destruct (reusable st f1); [exact H|].
    destruct (w_simpll _ _ _ _ _) as [[[h' g] ms]|e]; [|exact H].
    destruct (link_missing _ _ _) as [st3 again]. destruct again; [|exact H].
    apply IH; [exact H|lia].
  Qed.

  Lemma loop_terminates f1 : forall u st, todo st LEFT + todo st RIGHT <= u ->
    exists st' r, simplify_loop w cwd dir (S u) f1 st = Some (st', r) /\
                  runs (s_log st') <= runs (s_log st) + S u /\ extends st st'.
  Proof.
    induction u as [|u IH]; intros st U; cbn [simplify_loop].
    all: destruct (reusable st f1);
      [do 2 eexists; split; [reflexivity|split; [cbn; lia|apply extends_same; reflexivity]]|].
    all: destruct (w_simpll _ _ _ _ _) as [[[h' g] ms]|e];
      [|do 2 eexists; split; [reflexivity|split; [cbn; lia|eapply extends_one; [reflexivity|intros []]]]].
    all: set (st2 := set_curr h' (Some g) _).
    all: assert (T2 : forall s, todo st2 s = todo st s) by (intros []; reflexivity).
    all: assert (R2 : runs (s_log st2) = S (runs (s_log st))) by reflexivity.
    all: assert (X2 : extends st st2) by (eapply extends_one; [reflexivity|intros []]).
    all: clearbody st2.
    all: destruct (link_missing w st2 ms) as [st3 again] eqn:L.
    all: destruct (link_missing_spec ms _ _ _ _ L) as (A & B & _ & _).
    all: pose proof A as (_ & X3 & R3 & _).
    all: destruct again.
    1,3: destruct (B eq_refl) as [C|F]; [discriminate|].
    1,2: pose proof (todo_lt _ _ A F) as LT; rewrite !T2 in LT.
    - lia.
    - destruct (IH st3) as (st' & r & E & R & X); [lia|].
      exists st', r. split; [exact E|]. split; [lia|].
      eapply extends_trans; [exact X2|]. eapply extends_trans; [exact X3|exact X].
    - destruct (merge_results cwd dir st3 g) as [st4 o] eqn:M.
      destruct (merge_log _ _ _ _ M) as (X4 & R4 & _).
      destruct o; do 2 eexists; (split; [reflexivity|split; [lia|]]);
        (eapply extends_trans; [exact X2|]; eapply extends_trans; [exact X3|exact X4]).
    - destruct (merge_results cwd dir st3 g) as [st4 o] eqn:M.
      destruct (merge_log _ _ _ _ M) as (X4 & R4 & _).
      destruct o; do 2 eexists; (split; [reflexivity|split; [lia|]]);
        (eapply extends_trans; [exact X2|]; eapply extends_trans; [exact X3|exact X4]).
  Qed.
End Proofs.

Section General.
  Variable w : world.
  Variables cwd dir : string.
  Variable cfg : dconfig.

  Notation r0 f1 f2 := (@new_result graph NONE f1 f2).

  Lemma link_missing_links ms st st' b : link_missing w st ms = (st', b) ->
    links st st' /\ (b = false -> s_first st' = s_first st /\ s_second st' = s_second st).
  Proof.
    intros H. destruct (link_missing_spec w (fun _ _ => True) (fun _ _ _ _ _ => I) ms st false st' b H)
      as (A & _ & _ & C). auto.
  Qed.

  (** How the loop ends. *)
  Lemma loop_end f1 : forall n st st1 lo, simplify_loop w cwd dir n f1 st = Some (st1, lo) ->
    extends st st1 /\
    match lo with
    | Err e => last_action_failed w cwd dir (s_log st1) e
    | Ok true => reusable st1 f1 = true /\ s_curr st1 = s_prev st1 /\ s_prev st1 = s_prev st /\ s_cache st1 = s_cache st
    | Ok false => runs (s_log st) < runs (s_log st1) /\ exists g, s_curr st1 = Some g /\
                  (s_prev st = None -> s_prev st1 = None) /\ (s_prev st <> None -> s_prev st1 = Some g)
    end.
  Proof.
    induction n as [|n IH]; intros st st1 lo H; [discriminate|]. cbn [simplify_loop] in H.
    destruct (reusable st f1) eqn:RU.
    { injection H as <- <-. split; [apply extends_same; reflexivity|]. repeat split. exact RU. }
    destruct (w_simpll _ _ _ _ _) as [[[h' g] ms]|e] eqn:SL.
    2:{ injection H as <- <-. split; [apply extends_log; intros []|]. cbn. eauto. }
    set (st2 := set_curr h' (Some g) _) in H.
    assert (X2 : extends st st2) by (eapply extends_one; [reflexivity|intros []]).
    assert (R2 : runs (s_log st2) = S (runs (s_log st))) by reflexivity.
    assert (P2 : s_prev st2 = s_prev st) by reflexivity.
    assert (K2 : s_cache st2 = s_cache st) by reflexivity.
    assert (C2 : s_curr st2 = Some g) by reflexivity.
    clearbody st2.
    destruct (link_missing w st2 ms) as [st3 again] eqn:L.
    destruct (link_missing_links _ _ _ _ L) as (((H3 & K3 & P3 & C3) & X3 & R3 & _) & _).
    destruct again.
    - destruct (IH _ _ _ H) as (X & E). split; [eapply extends_trans; [exact X2|]; eapply extends_trans; eauto|].
      destruct lo as [[]|]; [| |exact E].
      + destruct E as (A & B & C & D). repeat split; congruence.
      + destruct E as (A & g1 & B & C & D). split; [lia|]. exists g1. rewrite P3, P2 in *. auto.
    - destruct (merge_results cwd dir st3 g) as [st4 o] eqn:M.
      destruct (merge_log _ _ _ _ _ _ M) as (X4 & R4 & _).
      assert (XX : extends st st4) by (eapply extends_trans; [exact X2|]; eapply extends_trans; eauto).
      unfold merge_results in M. rewrite P3, P2 in M.
      destruct (s_prev st) as [p|] eqn:P.
      + destruct (absorb_graph (s_heap st3) p g) as [hm pm].
        destruct (s_cache st3) as [c|].
        * destruct (update_from_graph cwd dir c hm pm) as [c'|e] eqn:U; injection M as <- <-;
            injection H as <- <-; (split; [exact XX|]).
          -- split; [lia|]. exists pm. repeat split; congruence.
          -- cbn. eauto.
        * injection M as <- <-. injection H as <- <-. split; [exact XX|]. split; [lia|].
          exists pm. repeat split; congruence.
      + injection M as <- <-. injection H as <- <-. split; [exact XX|]. split; [lia|].
        exists g. split; [congruence|]. split; congruence.
  Qed.

  (** ** The objects *)
  Definition inner_of (x : cobject * (kind * option string)) : result graph :=
    mkResult (fst (snd x)) (o_first (fst x)) (o_second (fst x)) (snd (snd x)) None [].
  Definition kept (x : cobject * (kind * option string)) : bool :=
    negb (object_skipped (fst (snd x)) (snd (snd x))).
  Definition judged (o : cobject) (kd : kind * option string) : Prop :=
    (is_function o = true \/ semdiff_tool cfg = false -> fst kd = o_kind o) /\
    (snd kd = None <-> fst kd <> NOT_EQUAL /\ full_diff cfg = false).

  Definition shows_only (st st' : dst) : Prop :=
    frame st st' /\ s_first st' = s_first st /\ s_second st' = s_second st /\
    exists new, s_log st' = new ++ s_log st /\ Forall only_shows new /\
                (forall o, In (ESemdiff o) new -> is_function o = false /\ semdiff_tool cfg = true).
  Lemma shows_only_refl st : shows_only st st.
  Proof. repeat split. exists []. split; [reflexivity|]. split; [constructor|]. intros o []. Qed.
  Lemma shows_only_trans a b c : shows_only a b -> shows_only b c -> shows_only a c.
  Proof.
    intros (A & B & C & n & D & E & F) (A' & B' & C' & n' & D' & E' & F').
    split; [eapply frame_trans; eauto|]. split; [congruence|]. split; [congruence|].
    exists (n' ++ n). split; [rewrite D', D, app_assoc; reflexivity|].
    split; [apply Forall_app; auto|]. intros o I. apply in_app_iff in I as [I|I]; auto.
  Qed.

  Lemma object_kind_spec reused st o st1 k : object_kind w cfg reused st o = (st1, k) ->
    shows_only st st1 /\
    match k with
    | Ok k => is_function o = true \/ semdiff_tool cfg = false -> k = o_kind o
    | Err e => last_action_failed w cwd dir (s_log st1) e \/ e = AttributeError
    end.
  Proof.
    unfold object_kind. destruct (negb (is_function o) && semdiff_tool cfg) eqn:B; intros H; injection H as <- <-.
    - apply andb_true_iff in B. destruct B as [B1 B2]. apply negb_true_iff in B1. split.
      + repeat split. exists [ESemdiff o]. split; [reflexivity|]. split; [repeat constructor|].
        intros o' [X|[]]. injection X as <-. auto.
      + destruct reused; [auto|]. destruct (w_semdiff w (s_log st) o) eqn:E.
        * intros [X|X]; congruence.
        * left. exact E.
    - split; [apply shows_only_refl|auto].
  Qed.
  Lemma object_diff_spec p st o k st1 d : object_diff w cfg p st o k = (st1, d) ->
    shows_only st st1 /\
    match d with
    | Ok d => d = None <-> k <> NOT_EQUAL /\ full_diff cfg = false
    | Err e => last_action_failed w cwd dir (s_log st1) e \/ e = KeyError
    end.
  Proof.
    unfold object_diff.
    assert (L : shows_only st (log (ESyntaxDiff o) st)).
    { repeat split. exists [ESyntaxDiff o]. split; [reflexivity|]. split; [repeat constructor|].
      intros o' [X|[]]. discriminate. }
    destruct (kind_eqb_spec k NOT_EQUAL) as [E|E]; [|destruct (full_diff cfg) eqn:FD]; cbn [orb].
    3:{ intros H; injection H as <- <-. split; [apply shows_only_refl|]. tauto. }
    all: destruct (en_kind (o_first o)); intros H; injection H as <- <-.
    all: split; [try exact L; apply shows_only_refl|].
    all: try (destruct (w_syntax_diff w (s_log st) o) eqn:S; [split; [discriminate|]|left; exact S]).
    all: try (destruct (dget (p_bodies_left p) _); [destruct (dget (p_bodies_right p) _); [split; [discriminate|]|auto]|auto]).
    all: intros [X Y]; congruence.
  Qed.

  Lemma process_spec reused p : forall os st r st' r' out,
    process_objects w cfg reused p os st r = (st', r', out) ->
    shows_only st st' /\
    match out with
    | Ok _ => exists kds, Forall2 judged os kds /\
                add_inners r (map inner_of (filter kept (combine os kds))) = Ok r'
    | Err e => last_action_failed w cwd dir (s_log st') e \/ e = KeyError \/ e = AttributeError
    end.
  Proof.
    induction os as [|o os IH]; intros st r st' r' out H; cbn [process_objects] in H.
    { injection H as <- <- <-. split; [apply shows_only_refl|]. exists []. split; [constructor|reflexivity]. }
    destruct (object_kind w cfg reused st o) as [st1 k] eqn:K.
    destruct (object_kind_spec _ _ _ _ _ K) as (S1 & K1). destruct k as [k|e].
    2:{ injection H as <- <- <-. split; [exact S1|]. tauto. }
    destruct (object_diff w cfg p st1 o k) as [st2 d] eqn:D.
    destruct (object_diff_spec _ _ _ _ _ _ D) as (S2 & D2). destruct d as [d|e].
    2:{ injection H as <- <- <-. split; [eapply shows_only_trans; eauto|]. tauto. }
    assert (J : judged o (k, d)) by (split; [exact K1|exact D2]).
    destruct (object_skipped k d) eqn:SK.
    - destruct (IH _ _ _ _ _ H) as (S3 & O3).
      split; [eapply shows_only_trans; [exact S1|]; eapply shows_only_trans; eauto|].
      destruct out as [u|e]; [|exact O3]. destruct O3 as (kds & F & A).
      exists ((k, d) :: kds). split; [constructor; auto|]. cbn [combine filter].
      unfold kept at 1. cbn [fst snd]. rewrite SK. exact A.
    - destruct (add_inner_ok r (mkResult k (o_first o) (o_second o) d None [])) as (r1 & E & _).
      rewrite E in H. destruct (IH _ _ _ _ _ H) as (S3 & O3).
      split; [eapply shows_only_trans; [exact S1|]; eapply shows_only_trans; eauto|].
      destruct out as [u|e]; [|exact O3]. destruct O3 as (kds & F & A).
      exists ((k, d) :: kds). split; [constructor; auto|]. cbn [combine filter].
      unfold kept at 1. cbn [fst snd]. rewrite SK. cbn [negb map]. rewrite add_inners_cons.
      unfold inner_of at 1. cbn [fst snd]. rewrite E. exact A.
  Qed.

  (** ** Decomposition of a run *)
  Definition fd n f1 f2 st := functions_diff w cwd dir cfg n f1 f2 st.
  Definition loop_from f1 st n := simplify_loop w cwd dir n f1 (set_curr (s_heap st) None st).
  Definition objects_from f1 f2 st1 g n :=
    graph_to_fun_pair_list (w_order w) n (s_heap st1) g f1 f2 (full_diff cfg).
  Definition conclude f1 f2 (st1 : dst) (reused : bool) (p : pair_list) : dst * res (result graph) :=
    match p_objects p with
    | [] => finish (restore_modules st1) (with_kind (r0 f1 f2) EQUAL) (Ok tt)
    | os => let '(st3, r, out) := process_objects w cfg reused p os (restore_modules st1) (r0 f1 f2) in
            finish st3 r out
    end.

  Lemma fd_cases f1 f2 st st' out :
    (forall l, Permutation (w_order w l) l) ->
    terminates_with (fun n => fd n f1 f2 st) (st', out) ->
    exists st1 lo, terminates_with (loop_from f1 st) (st1, lo) /\
    match lo with
    | Err e => (st', out) = finish st1 (r0 f1 f2) (Err e)
    | Ok reused => exists g, s_curr st1 = Some g /\
       ((exists e, terminates_with (objects_from f1 f2 st1 g) (Err e) /\ (e = KeyError \/ e = AttributeError) /\
                   st' = st1 /\ out = Err e) \/
        (exists p, terminates_with (objects_from f1 f2 st1 g) (Ok p) /\
                   (st', out) = conclude f1 f2 st1 reused p))
    end.
  Proof.
    intros PO (n & H). pose proof (H n (le_n _)) as Hn. unfold fd, functions_diff in Hn.
    destruct (simplify_loop w cwd dir n f1 (set_curr (s_heap st) None st)) as [[st1 lo]|] eqn:L; [|discriminate].
    exists st1, lo. split; [exists n; intros m M; eapply loop_mono; eauto|].
    destruct lo as [reused|e]; [|congruence].
    destruct (loop_end _ _ _ _ _ L) as (_ & LE).
    assert (exists g, s_curr st1 = Some g) as (g & G).
    { destruct reused.
      - destruct LE as (R & C & _). unfold reusable in R. rewrite C.
        destruct (s_prev st1) as [g|]; [eauto|discriminate].
      - destruct LE as (_ & g & C & _). eauto. }
    exists g. split; [exact G|]. rewrite G in Hn.
    destruct (pair_list_total (w_order w) (s_heap st1) g f1 f2 (full_diff cfg) PO) as [(p & T)|(e & T & EK)].
    - right. exists p. split; [exact T|]. destruct T as (k & T).
      pose proof (H (n + k) ltac:(lia)) as Hm. unfold fd, functions_diff in Hm.
      rewrite (loop_mono _ _ _ _ _ _ _ L) in Hm by lia. rewrite G in Hm.
      unfold objects_from in T. rewrite T in Hm by lia. unfold conclude.
      destruct (p_objects p); [congruence|].
      destruct (process_objects _ _ _ _ _ _ _) as [[st3 r] o]. congruence.
    - left. exists e. split; [exact T|]. split; [exact EK|]. destruct T as (k & T).
      pose proof (H (n + k) ltac:(lia)) as Hm. unfold fd, functions_diff in Hm.
      rewrite (loop_mono _ _ _ _ _ _ _ L) in Hm by lia. rewrite G in Hm.
      unfold objects_from in T. rewrite T in Hm by lia.
      destruct EK as [-> | ->]; cbn [finish] in Hm; split; congruence.
  Qed.

  Lemma fd_terminates f1 f2 st mods :
    (forall l, Permutation (w_order w l) l) ->
    (forall lg s x m, w_find w lg s x = Some m -> In m (mods s)) ->
    exists st' out, terminates_with (fun n => fd n f1 f2 st) (st', out) /\
      runs (s_log st') <= runs (s_log st) + length (mods LEFT) + length (mods RIGHT) + 1.
  Proof.
    intros PO FI.
    set (s0 := set_curr (s_heap st) None st).
    set (u := length (mods LEFT) + length (mods RIGHT)).
    destruct (loop_terminates w cwd dir (fun s m => In m (mods s)) FI mods (fun _ _ X => X) f1 u s0)
      as (st1 & lo & L & R & X).
    { unfold todo, u. pose proof (filter_length_le (fun m => negb (mem m (m_linked (module_of LEFT s0)))) (fun _ => true) (mods LEFT)).
      pose proof (filter_length_le (fun m => negb (mem m (m_linked (module_of RIGHT s0)))) (fun _ => true) (mods RIGHT)).
      assert (FT : forall l : list mid, filter (fun _ => true) l = l) by (induction l as [|a l IHl]; simpl; congruence).
      rewrite !FT in *. specialize (H (fun _ _ => eq_refl)). specialize (H0 (fun _ _ => eq_refl)). lia. }
    change (runs (s_log s0)) with (runs (s_log st)) in R.
    assert (FIN : forall s r o, s_log (fst (finish s r o)) = s_log s).
    { intros s r o. unfold finish. destruct o as [|[]]; reflexivity. }
    destruct lo as [reused|e].
    2:{ exists (fst (finish st1 (r0 f1 f2) (Err e))), (snd (finish st1 (r0 f1 f2) (Err e))). split.
        - exists (S u). intros m M. unfold fd, functions_diff. fold s0. rewrite (loop_mono _ _ _ _ _ _ _ L) by lia.
          rewrite <- surjective_pairing. reflexivity.
        - rewrite FIN. unfold u in *. lia. }
    destruct (loop_end _ _ _ _ _ L) as (_ & LE).
    assert (exists g, s_curr st1 = Some g) as (g & G).
    { destruct reused.
      - destruct LE as (RU & C & _). unfold reusable in RU. rewrite C.
        destruct (s_prev st1) as [g|]; [eauto|discriminate].
      - destruct LE as (_ & g & C & _). eauto. }
    destruct (pair_list_total (w_order w) (s_heap st1) g f1 f2 (full_diff cfg) PO) as [(p & k & T)|(e & (k & T) & EK)].
    - destruct (conclude f1 f2 st1 reused p) as [st' out] eqn:C. exists st', out. split.
      + exists (S u + k). intros m M. unfold fd, functions_diff. fold s0. rewrite (loop_mono _ _ _ _ _ _ _ L) by lia.
        rewrite G, T by lia. unfold conclude in C. destruct (p_objects p); [congruence|].
        destruct (process_objects _ _ _ _ _ _ _) as [[st3 r] o]. congruence.
      + unfold conclude in C. destruct (p_objects p) as [|o os].
        * injection C as <- _. cbn. unfold u in R. lia.
        * destruct (process_objects _ _ _ _ _ _ _) as [[st3 r] oo] eqn:PR.
          destruct (process_spec _ _ _ _ _ _ _ _ PR) as ((_ & _ & _ & new & LG & SH & _) & _).
          assert (s_log st' = s_log st3) as -> by (rewrite <- (FIN st3 r oo), C; reflexivity).
          rewrite LG, runs_app. change (s_log (restore_modules st1)) with (s_log st1).
          assert (runs new = 0) as ->.
          { clear -SH. induction SH as [|[] l S SH IH]; cbn in *; tauto || auto. }
          unfold u in R. lia.
    - exists (fst (finish st1 (r0 f1 f2) (Err e))), (snd (finish st1 (r0 f1 f2) (Err e))). split.
      + exists (S u + k). intros m M. unfold fd, functions_diff. fold s0. rewrite (loop_mono _ _ _ _ _ _ _ L) by lia.
        rewrite G, T by lia. rewrite <- surjective_pairing. reflexivity.
      + rewrite FIN. unfold u in *. lia.
  Qed.
End General.

Section More.
  Variable w : world.
  Variables cwd dir : string.

  Lemma extends_runs a b : extends a b -> runs (s_log a) <= runs (s_log b).
  Proof. intros (n & -> & _). rewrite runs_app. lia. Qed.
  Lemma loop_extends f1 n st st1 lo : simplify_loop w cwd dir n f1 st = Some (st1, lo) -> extends st st1.
  Proof. intros H. apply loop_end in H. apply H. Qed.

  (** Without a known result SimpLL is run. *)
  Lemma loop_runs f1 n st st1 lo : reusable st f1 = false ->
    simplify_loop w cwd dir n f1 st = Some (st1, lo) -> runs (s_log st) < runs (s_log st1).
  Proof.
    intros RU H. destruct n as [|n]; [discriminate|]. cbn [simplify_loop] in H. rewrite RU in H.
    destruct (w_simpll _ _ _ _ _) as [[[h' g] ms]|e].
    2:{ injection H as <- <-. cbn. lia. }
    set (st2 := set_curr h' (Some g) _) in H.
    assert (R2 : runs (s_log st2) = S (runs (s_log st))) by reflexivity. clearbody st2.
    destruct (link_missing w st2 ms) as [st3 again] eqn:L.
    destruct (link_missing_links _ _ _ _ _ L) as ((_ & _ & R3 & _) & _).
    destruct again.
    - apply loop_extends, extends_runs in H. lia.
    - destruct (merge_results cwd dir st3 g) as [st4 o] eqn:M.
      destruct (merge_log _ _ _ _ _ _ M) as (_ & R4 & _).
      destruct o; injection H as <- _; lia.
  Qed.

  (** A known result: the state is untouched. *)
  Lemma loop_reuse f1 n st : reusable st f1 = true ->
    simplify_loop w cwd dir (S n) f1 st = Some (set_curr (s_heap st) (s_prev st) st, Ok true).
  Proof. intros RU. cbn [simplify_loop]. rewrite RU. reflexivity. Qed.

  (** A run of SimpLL that fails whatever the heap is the last action of the loop. *)
  Lemma runs_zero_no (n : list event) l r : runs n = 0 -> ~ In (ERunSimpll l r) n.
  Proof.
    induction n as [|e n IH]; intros R I; [destruct I|]. destruct I as [->|I]; [discriminate|].
    destruct e; try discriminate; apply IH; auto.
  Qed.
  Lemma loop_failed_run f1 l r e : forall n st st1 lo pre new,
    simplify_loop w cwd dir n f1 st = Some (st1, lo) ->
    s_log st1 = pre ++ ERunSimpll l r :: new ++ s_log st ->
    (forall h, w_simpll w (new ++ s_log st) h l r = Err e) ->
    pre = [] /\ lo = Err e.
  Proof.
    induction n as [|n IH]; intros st st1 lo pre new H E F; [discriminate|]. cbn [simplify_loop] in H.
    destruct (reusable st f1).
    { injection H as <- <-. cbn in E. apply (f_equal (@length event)) in E.
      rewrite app_length in E. cbn [length] in E. rewrite app_length in E. lia. }
    destruct (w_simpll _ _ _ _ _) as [[[h' g] ms]|e'] eqn:SL.
    2:{ injection H as <- <-. cbn in E.
        destruct pre as [|x pre].
        - cbn in E. injection E as E1 E2 E3. split; [reflexivity|].
          assert (new = []).
          { destruct new; [reflexivity|]. apply (f_equal (@length event)) in E3. cbn in E3. rewrite app_length in E3. lia. }
          subst new. cbn in F. specialize (F (s_heap st)). congruence.
        - apply (f_equal (@length event)) in E. cbn in E. rewrite app_length in E. cbn in E. rewrite app_length in E. lia. }
    set (st2 := set_curr h' (Some g) _) in H.
    assert (L2 : s_log st2 = ERunSimpll (m_llvm (s_first st)) (m_llvm (s_second st)) :: s_log st) by reflexivity.
    clearbody st2.
    destruct (link_missing w st2 ms) as [st3 again] eqn:L.
    destruct (link_missing_links _ _ _ _ _ L) as ((_ & (n3 & L3 & _) & R3 & _) & _).
    assert (Z3 : runs n3 = 0) by (rewrite L3, runs_app in R3; lia).
    assert (REST : forall n4, runs n4 = 0 -> s_log st1 = n4 ++ s_log st3 -> False).
    { intros n4 Z4 E4. rewrite E4, L3, L2 in E. rewrite app_assoc in E.
      assert (Z : runs (n4 ++ n3) = 0) by (rewrite runs_app; lia).
      apply app_eq_app in E. destruct E as (t & [(A & B)|(A & B)]).
      - destruct t as [|x t].
        + cbn in B. injection B as B1 B2 B3. 
          assert (new = []).
          { destruct new; [reflexivity|]. apply (f_equal (@length event)) in B3. cbn in B3. rewrite app_length in B3. lia. }
          subst new. cbn in F. specialize (F (s_heap st)). congruence.
        + cbn in B. injection B as B1 B2. apply (runs_zero_no _ l r Z). rewrite A. apply in_or_app. right. left. auto.
      - destruct t as [|x t].
        + cbn in B. injection B as B1 B2 B3.
          assert (new = []).
          { destruct new; [reflexivity|]. apply (f_equal (@length event)) in B3. cbn in B3. rewrite app_length in B3. lia. }
          subst new. cbn in F. specialize (F (s_heap st)). congruence.
        + apply (f_equal (@length event)) in B. cbn in B. rewrite app_length in B. cbn in B. rewrite app_length in B. lia. }
    destruct again.
    - destruct (loop_extends _ _ _ _ _ H) as (n5 & L5 & _).
      pose proof E as E'. rewrite L5 in E'.
      assert (SP : exists new', new ++ s_log st = new' ++ s_log st3 \/ exists a b, n5 = a /\ s_log st3 = b ++ ERunSimpll l r :: new ++ s_log st).
      { apply app_eq_app in E'. destruct E' as (t & [(A & B)|(A & B)]).
        - destruct t as [|x t].
          + cbn in B. exists []. right. exists n5, []. rewrite B. auto.
          + cbn in B. injection B as B1 B2. exists t. left. exact B2.
        - exists []. right. exists n5, t. auto. }
      destruct SP as (new' & [SP|(a & b & _ & SP)]).
      + apply (IH st3 st1 lo pre new' H); rewrite <- SP; assumption.
      + exfalso. rewrite L3, L2 in SP.
        apply app_eq_app in SP. destruct SP as (t & [(A & B)|(A & B)]).
        * destruct t as [|x t].
          -- cbn in B. injection B as B1 B2 B3.
             assert (new = []).
             { destruct new; [reflexivity|]. apply (f_equal (@length event)) in B3. cbn in B3. rewrite app_length in B3. lia. }
             subst new. cbn in F. specialize (F (s_heap st)). congruence.
          -- cbn in B. injection B as B1 B2. apply (runs_zero_no _ l r Z3). rewrite A. apply in_or_app. right. left. auto.
        * destruct t as [|x t].
          -- cbn in B. injection B as B1 B2 B3.
             assert (new = []).
             { destruct new; [reflexivity|]. apply (f_equal (@length event)) in B3. cbn in B3. rewrite app_length in B3. lia. }
             subst new. cbn in F. specialize (F (s_heap st)). congruence.
          -- apply (f_equal (@length event)) in B. cbn in B. rewrite app_length in B. cbn in B. rewrite app_length in B. lia.
    - exfalso. destruct (merge_results cwd dir st3 g) as [st4 o] eqn:M.
      destruct (merge_log _ _ _ _ _ _ M) as ((n4 & L4 & _) & R4 & _).
      assert (Z4 : runs n4 = 0) by (rewrite L4, runs_app in R4; lia).
      destruct o; injection H as <- <-; exact (REST n4 Z4 L4).
  Qed.

  (** The graph after a successful loop is the previous one with SimpLL's last graph merged in. *)
  Lemma loop_merged f1 : forall n st st1, simplify_loop w cwd dir n f1 st = Some (st1, Ok false) ->
    exists lg h0 l r h1 gl ms, w_simpll w lg h0 l r = Ok (h1, gl, ms) /\
      match s_prev st with
      | None => s_curr st1 = Some gl /\ s_heap st1 = h1
      | Some p => exists g, s_curr st1 = Some g /\ absorb_graph h1 p gl = (s_heap st1, g)
      end.
  Proof.
    induction n as [|n IH]; intros st st1 H; [discriminate|]. cbn [simplify_loop] in H.
    destruct (reusable st f1); [discriminate|].
    destruct (w_simpll _ _ _ _ _) as [[[h' g] ms]|e'] eqn:SL; [|discriminate].
    set (st2 := set_curr h' (Some g) _) in H.
    assert (P2 : s_prev st2 = s_prev st) by reflexivity.
    assert (H2 : s_heap st2 = h') by reflexivity.
    assert (C2 : s_curr st2 = Some g) by reflexivity.
    clearbody st2.
    destruct (link_missing w st2 ms) as [st3 again] eqn:L.
    destruct (link_missing_links _ _ _ _ _ L) as (((H3 & _ & P3 & C3) & _) & _).
    destruct again.
    - specialize (IH _ _ H). rewrite P3, P2 in IH. exact IH.
    - exists (s_log st), (s_heap st), (m_llvm (s_first st)), (m_llvm (s_second st)), h', g, ms.
      split; [exact SL|]. unfold merge_results in H. rewrite P3, P2, H3, H2 in H.
      destruct (s_prev st) as [p|].
      + destruct (absorb_graph h' p g) as [hm pm] eqn:A. exists pm.
        destruct (s_cache st3) as [c|].
        * destruct (update_from_graph cwd dir c hm pm); [|discriminate]. injection H as <-. auto.
        * injection H as <-. auto.
      + injection H as <-. split; congruence.
  Qed.

  (** Modules stay in one of their two states. *)
  Lemma link_side_state s x fl fr st b st' b' : link_side w s x (st, b) = (st', b') ->
    state_of fl (s_first st) -> state_of fr (s_second st) ->
    state_of fl (s_first st') /\ state_of fr (s_second st').
  Proof.
    unfold link_side. destruct x as [x|]; [|intros H; injection H as <- <-; auto].
    cbn [fst snd]. unfold link_symbol_def. destruct (w_find w (s_log st) s x) as [m|].
    - destruct (link_modules _ _ _ _ _) as [[d mod'] a] eqn:L. intros H S1 S2; injection H as <- <-.
      destruct s; cbn in *.
      + split; [|exact S2]. eapply link_state in L; [|exact S1]. apply L.
      + split; [exact S1|]. eapply link_state in L; [|exact S2]. apply L.
    - intros H S1 S2; injection H as <- <-. auto.
  Qed.
  Lemma link_missing_state fl fr ms : forall st b st' b', fold_left (link_pair w) ms (st, b) = (st', b') ->
    state_of fl (s_first st) -> state_of fr (s_second st) ->
    state_of fl (s_first st') /\ state_of fr (s_second st').
  Proof.
    induction ms as [|[x y] ms IH]; intros st b st' b' H S1 S2.
    - cbn in H. injection H as <- <-. auto.
    - cbn [fold_left] in H. unfold link_pair in H at 2. cbn [fst snd] in H.
      destruct (link_side w LEFT x (st, b)) as [st1 b1] eqn:L1.
      destruct (link_side w RIGHT y (st1, b1)) as [st2 b2] eqn:L2.
      destruct (link_side_state _ _ fl fr _ _ _ _ L1 S1 S2) as (A1 & A2).
      destruct (link_side_state _ _ fl fr _ _ _ _ L2 A1 A2) as (B1 & B2). eapply IH; eauto.
  Qed.
  Lemma loop_state fl fr f1 : forall n st st1 lo, simplify_loop w cwd dir n f1 st = Some (st1, lo) ->
    state_of fl (s_first st) -> state_of fr (s_second st) ->
    state_of fl (s_first st1) /\ state_of fr (s_second st1).
  Proof.
    induction n as [|n IH]; intros st st1 lo H S1 S2; [discriminate|]. cbn [simplify_loop] in H.
    destruct (reusable st f1); [injection H as <- <-; auto|].
    destruct (w_simpll _ _ _ _ _) as [[[h' g] ms]|e']; [|injection H as <- <-; auto].
    set (st2 := set_curr h' (Some g) _) in H.
    assert (T1 : state_of fl (s_first st2)) by exact S1.
    assert (T2 : state_of fr (s_second st2)) by exact S2. clearbody st2.
    destruct (link_missing w st2 ms) as [st3 again] eqn:L.
    destruct (link_missing_state fl fr _ _ _ _ _ L T1 T2) as (U1 & U2).
    destruct again; [eapply IH; eauto|].
    destruct (merge_results cwd dir st3 g) as [st4 o] eqn:M.
    destruct (merge_log _ _ _ _ _ _ M) as (_ & _ & M1 & M2).
    destruct o; injection H as <- <-; rewrite M1, M2; auto.
  Qed.
End More.
