(** * Proofs about graph_to_fun_pair_list and about the cost of the traversal *)
From Coq Require Import String Ascii ZArith Arith Bool Lia List Permutation.
From Verif Require Import PyBase Result_Model Graph_Model Graph_Spec Graph_Proofs.
Import ListNotations.
Open Scope list_scope.

Lemma skip_vertex_hidden fd x : skip_vertex fd x = true <-> hidden fd (v_result x).
Proof.
  unfold skip_vertex, hidden. rewrite orb_true_iff, andb_true_iff, negb_true_iff.
  destruct (kind_eqb_spec (v_result x) EQUAL) as [E|E], (kind_eqb_spec (v_result x) ASSUMED_EQUAL) as [F|F];
    intuition congruence.
Qed.

Section Objects.
  Variables (h : heap) (g : graph) (f1 f2 : string) (fd : bool) (sl sr : vid).
  Variables (bl br : dict vid (vid * edge)) (fuel : nat).
  Hypothesis (D1 : dget (g_verts g) f1 = Some sl) (D2 : dget (g_verts g) f2 = Some sr).
  Hypothesis (OKl : back_ok h g LEFT sl bl) (OKr : back_ok h g RIGHT sr br).
  Hypothesis (Fl : length bl <= fuel) (Fr : length br <= fuel).

  Definition base_of (s : side) := match s with LEFT => f1 | RIGHT => f2 end.
  Definition start_of (s : side) := match s with LEFT => sl | RIGHT => sr end.
  Definition back_of (s : side) := match s with LEFT => bl | RIGHT => br end.
  Lemma base_start s : getitem g (base_of s) = Ok (start_of s).
  Proof. apply getitem_ok. destruct s; assumption. Qed.
  Lemma back_of_ok s : back_ok h g s (start_of s) (back_of s).
  Proof. destruct s; assumption. Qed.
  Lemma back_of_fuel s : length (back_of s) <= fuel.
  Proof. destruct s; assumption. Qed.
  Definition discovered s v := v = start_of s \/ In v (dkeys (back_of s)).

  Lemma callstack_some s v : discovered s v ->
    exists es, get_callstack fuel (back_of s) (start_of s) v = Some (Ok es) /\
               chain h g s (start_of s) (start_of s) es v.
  Proof.
    intros I. destruct (get_callstack_chain h g s (start_of s) (back_of s) v (back_of_ok s) I)
      as (es & H & C & _).
    exists es. split; [apply H, back_of_fuel|exact C].
  Qed.

  Lemma fun_entity_ok s v : discovered s v ->
    exists en, fun_entity fuel h g s (base_of s) (back_of s) v = Some (Ok en) /\
      en_name en = sel s (v_names (h v)) /\ en_file en = sel s (v_files (h v)) /\
      en_line en = sel s (v_lines (h v)) /\ en_kind en = DFunction /\
      en_covered en = negb (Nat.eqb (length (v_nonfun (h v))) 0) /\
      function_stack h g s (start_of s) (base_of s) v (en_callstack en).
  Proof.
    intros I. unfold fun_entity, function_stack.
    destruct (String.eqb_spec (base_of s) (sel s (v_names (h v)))) as [E|N].
    - eexists. split; [reflexivity|]. simpl. repeat split; auto.
    - rewrite base_start. destruct (callstack_some s v I) as (es & H & C). rewrite H. simpl.
      eexists. split; [reflexivity|]. simpl. repeat split; auto.
      right. split; [congruence|]. exists es. auto.
  Qed.

  Lemma nonfun_entity_ok s v d : discovered s v ->
    exists en, nonfun_entity fuel g s (base_of s) (back_of s) v d = Some (Ok en) /\
      shows_nonfun s d en /\
      nonfun_stack h g s (start_of s) (base_of s) v d (en_callstack en).
  Proof.
    intros I. unfold nonfun_entity, nonfun_stack.
    destruct (String.eqb_spec (nf_parent d) (base_of s)) as [E|N].
    - simpl. eexists. split; [reflexivity|]. destruct d; simpl; repeat split; auto;
        exists []; auto.
    - rewrite base_start. destruct (callstack_some s v I) as (es & H & C). rewrite H. simpl.
      eexists. split; [reflexivity|]. destruct d; simpl; repeat split; auto;
        exists es; split; auto.
  Qed.

  Definition nonfun_described (v : vid) (d : nonfun) (o : cobject) : Prop :=
    reports_nonfun d o /\
    nonfun_stack h g LEFT sl f1 v d (en_callstack (o_first o)) /\
    nonfun_stack h g RIGHT sr f2 v d (en_callstack (o_second o)).
  Definition fun_described (v : vid) (o : cobject) : Prop :=
    reports_function h v o /\
    function_stack h g LEFT sl f1 v (en_callstack (o_first o)) /\
    function_stack h g RIGHT sr f2 v (en_callstack (o_second o)).

  Lemma nonfun_objects_ok v ds : discovered LEFT v -> discovered RIGHT v ->
    exists os, nonfun_objects fuel g f1 f2 bl br v ds = Some (Ok os) /\
               Forall2 (nonfun_described v) ds os.
  Proof.
    intros IL IR. induction ds as [|d ds (os & E & F)]; cbn [nonfun_objects].
    - exists []. split; [reflexivity|constructor].
    - destruct (nonfun_entity_ok LEFT v d IL) as (e1 & E1 & N1 & S1).
      destruct (nonfun_entity_ok RIGHT v d IR) as (e2 & E2 & N2 & S2).
      simpl in E1, E2. rewrite E1. simpl. rewrite E2. simpl. rewrite E. simpl.
      eexists. split; [reflexivity|]. constructor; [|exact F].
      split; [|split; assumption]. split; [exact N1|split; [exact N2|reflexivity]].
  Qed.

  Definition block_ok (v : vid) (b : cobject * list cobject) : Prop :=
    fun_described v (fst b) /\ Forall2 (nonfun_described v) (v_nonfun (h v)) (snd b).

  Lemma objects_of_ok vs :
    (forall v, In v vs -> discovered LEFT v /\ discovered RIGHT v) ->
    exists blocks,
      objects_of fuel h g f1 f2 fd bl br vs = Some (Ok (flat_map (fun b => fst b :: snd b) blocks)) /\
      Forall2 block_ok (filter (fun v => negb (skip_vertex fd (h v))) vs) blocks.
  Proof.
    induction vs as [|v vs IH]; intros D; cbn [objects_of filter].
    - exists []. split; [reflexivity|constructor].
    - destruct IH as (blocks & E & F); [intros w I; apply D; right; exact I|].
      destruct (skip_vertex fd (h v)) eqn:S; simpl negb; cbv iota.
      + exists blocks. auto.
      + destruct (D v (or_introl eq_refl)) as (IL & IR).
        destruct (fun_entity_ok LEFT v IL) as (e1 & E1 & N1 & F1 & L1 & K1 & C1 & S1).
        destruct (fun_entity_ok RIGHT v IR) as (e2 & E2 & N2 & F2 & L2 & K2 & C2 & S2).
        destruct (nonfun_objects_ok v (v_nonfun (h v)) IL IR) as (ns & En & Fn).
        simpl in E1, E2. rewrite E1. simpl. rewrite E2. simpl. rewrite En. simpl. rewrite E. simpl.
        exists ((mkObject e1 e2 (v_result (h v)), ns) :: blocks). split; [reflexivity|].
        constructor; [|exact F]. split; [|exact Fn]. simpl.
        split; [|split; assumption].
        unfold reports_function. simpl. rewrite K1, K2, N1, N2, F1, F2, L1, L2, C1, C2.
        cbn [sel].
        repeat split; auto using surjective_pairing; try (symmetry; apply surjective_pairing).
        * intros X C. rewrite C in X. discriminate.
        * intros X. destruct (v_nonfun (h v)); [congruence|reflexivity].
  Qed.
End Objects.

Lemma add_body_keys s ds : forall acc n,
  In n (dkeys (fold_left (add_body s) ds acc)) <->
  In n (dkeys acc) \/ exists p st b, In (SyntaxDiff n p st b) ds.
Proof.
  induction ds as [|d ds IH]; intros acc n; simpl.
  - split; [auto|intros [|(? & ? & ? & [])]; auto].
  - rewrite IH. destruct d as [n' p' st' b'|n' p' st' fl ln]; simpl.
    + rewrite dkeys_dset_In. split.
      * intros [[->|I]|(p & st & b & I)]; eauto 8.
      * intros [I|(p & st & b & [E|I])]; eauto 8. left. left. congruence.
    + split.
      * intros [I|(p & st & b & I)]; eauto 8.
      * intros [I|(p & st & b & [E|I])]; eauto 8. discriminate.
Qed.

Lemma bodies_of_keys s h fd vs n :
  In n (dkeys (bodies_of s h fd vs)) <->
  exists v p st b, In v vs /\ skip_vertex fd (h v) = false /\ In (SyntaxDiff n p st b) (v_nonfun (h v)).
Proof.
  unfold bodies_of.
  assert (G : forall acc, In n (dkeys (fold_left (fun acc v => if skip_vertex fd (h v) then acc
                          else fold_left (add_body s) (v_nonfun (h v)) acc) vs acc)) <->
     In n (dkeys acc) \/ exists v p st b, In v vs /\ skip_vertex fd (h v) = false /\ In (SyntaxDiff n p st b) (v_nonfun (h v))).
  { induction vs as [|v vs IH]; intros acc; simpl.
    - split; [auto|intros [|(? & ? & ? & ? & [] & _)]; auto].
    - rewrite IH. destruct (skip_vertex fd (h v)) eqn:S.
      + split.
        * intros [I|(w & p & st & b & I & R)]; [auto|right]. exists w, p, st, b. auto.
        * intros [I|(w & p & st & b & [<-|I] & R1 & R2)]; [auto|congruence|right]. exists w, p, st, b. auto.
      + rewrite add_body_keys. split.
        * intros [[I|(p & st & b & I)]|(w & p & st & b & I & R)]; [auto| |].
          -- right. exists v, p, st, b. auto.
          -- right. exists w, p, st, b. auto.
        * intros [I|(w & p & st & b & [<-|I] & R1 & R2)]; [auto| |].
          -- left. right. eauto.
          -- right. exists w, p, st, b. auto. }
  rewrite G. simpl. split; [intros [[]|]; auto|auto].
Qed.

(** Both bodies stored under a name come from one recorded difference. *)
Lemma bodies_of_source h fd vs n :
  (exists v p st b, In v vs /\ skip_vertex fd (h v) = false /\ In (SyntaxDiff n p st b) (v_nonfun (h v))) ->
  exists v p st b, In v vs /\ skip_vertex fd (h v) = false /\ In (SyntaxDiff n p st b) (v_nonfun (h v)) /\
    dget (bodies_of LEFT h fd vs) n = Some (fst b) /\ dget (bodies_of RIGHT h fd vs) n = Some (snd b).
Proof.
  unfold bodies_of.
  assert (A : forall ds (al ar : dict string string),
    (dget (fold_left (add_body LEFT) ds al) n = dget al n /\ dget (fold_left (add_body RIGHT) ds ar) n = dget ar n /\
     forall p st b, ~ In (SyntaxDiff n p st b) ds) \/
    (exists p st b, In (SyntaxDiff n p st b) ds /\
       dget (fold_left (add_body LEFT) ds al) n = Some (fst b) /\ dget (fold_left (add_body RIGHT) ds ar) n = Some (snd b))).
  { induction ds as [|d ds IH]; intros al ar; cbn [fold_left].
    - left. auto.
    - destruct (IH (add_body LEFT al d) (add_body RIGHT ar d)) as [(E1 & E2 & N)|(p & st & b & I & E)].
      + destruct d as [n' p' st' b'|n' p' st' fl ln]; cbn [add_body] in *.
        * rewrite E1, E2, !dget_dset. destruct (eqb_spec n n') as [->|NE].
          -- right. exists p', st', b'. simpl. auto.
          -- left. split; [reflexivity|]. split; [reflexivity|]. intros p st b [X|X]; [congruence|eapply N; eauto].
        * left. split; [exact E1|]. split; [exact E2|]. intros p st b [X|X]; [discriminate|eapply N; eauto].
      + right. exists p, st, b. simpl. auto. }
  assert (G : forall vs' al ar,
    let F s acc := fold_left (fun acc v => if skip_vertex fd (h v) then acc
                          else fold_left (add_body s) (v_nonfun (h v)) acc) vs' acc in
    (dget (F LEFT al) n = dget al n /\ dget (F RIGHT ar) n = dget ar n /\
     ~ exists v p st b, In v vs' /\ skip_vertex fd (h v) = false /\ In (SyntaxDiff n p st b) (v_nonfun (h v))) \/
    (exists v p st b, In v vs' /\ skip_vertex fd (h v) = false /\ In (SyntaxDiff n p st b) (v_nonfun (h v)) /\
       dget (F LEFT al) n = Some (fst b) /\ dget (F RIGHT ar) n = Some (snd b))).
  { induction vs' as [|v vs' IH]; intros al ar F; unfold F; cbn [fold_left].
    - left. split; [reflexivity|]. split; [reflexivity|]. intros (v & p & st & b & [] & _).
    - destruct (skip_vertex fd (h v)) eqn:S.
      + destruct (IH al ar) as [(E1 & E2 & N)|(w & p & st & b & I & R)].
        * left. split; [exact E1|]. split; [exact E2|].
          intros (w & p & st & b & [<-|I] & R1 & R2); [congruence|]. apply N. exists w, p, st, b. auto.
        * right. exists w, p, st, b. simpl. tauto.
      + destruct (IH (fold_left (add_body LEFT) (v_nonfun (h v)) al) (fold_left (add_body RIGHT) (v_nonfun (h v)) ar))
          as [(E1 & E2 & N)|(w & p & st & b & I & R)].
        * cbv zeta in E1, E2. rewrite E1, E2. destruct (A (v_nonfun (h v)) al ar) as [(B1 & B2 & BN)|(p & st & b & I & B1 & B2)].
          -- left. split; [exact B1|]. split; [exact B2|].
             intros (w & p & st & b & [<-|I] & R1 & R2); [eapply BN; eauto|]. apply N. exists w, p, st, b. auto.
          -- right. exists v, p, st, b. simpl. auto.
        * right. exists w, p, st, b. simpl. tauto. }
  intros X. destruct (G vs [] []) as [(_ & _ & N)|R]; [contradiction|exact R].
Qed.

Lemma common_In l r v : In v (common l r) <-> In v l /\ In v r.
Proof. unfold common. rewrite filter_In, dedup_In, mem_In. reflexivity. Qed.
Lemma common_NoDup l r : NoDup (common l r).
Proof. unfold common. apply NoDup_filter, dedup_NoDup. Qed.

Lemma NoDup_Permutation_NoDup {A} (l l' : list A) : Permutation l l' -> NoDup l -> NoDup l'.
Proof. apply Permutation_NoDup. Qed.

(** Everything in the result list was discovered. *)
Lemma inv_result_discovered h g s start vis acc v :
  inv h g s start [] vis acc -> In v (ra_result acc) ->
  v = start \/ In v (dkeys (ra_back acc)).
Proof.
  intros I R. apply (inv_discovered h g s start vis acc v I).
  destruct (inv_sound h g s start vis acc v I R) as [->|(path & u & e & C & _)].
  - exists []. constructor.
  - exists (path ++ [(u, e)]). exact C.
Qed.

Lemma reachable_from_succeeds h g s f start :
  dget (g_verts g) f = Some start -> all_files h g s ->
  exists acc, terminates_with (fun n => reachable_from n h g s f) (Ok acc).
Proof.
  intros D A. destruct (reachable_from_terminates h g s f) as ([acc|e] & T).
  - exists acc. exact T.
  - exfalso. destruct T as (n & T). specialize (T n (le_n _)).
    apply reachable_from_err in T. destruct T as [(_ & C)|(_ & C)]; [congruence|contradiction].
Qed.

Lemma pair_list_reached order h g f1 f2 fd sl sr l r :
  (forall l, Permutation (order l) l) ->
  dget (g_verts g) f1 = Some sl -> dget (g_verts g) f2 = Some sr ->
  terminates_with (fun n => reachable_from n h g LEFT f1) (Ok l) ->
  terminates_with (fun n => reachable_from n h g RIGHT f2) (Ok r) ->
  exists p vs blocks,
    terminates_with (fun n => graph_to_fun_pair_list order n h g f1 f2 fd) (Ok p) /\
    NoDup vs /\
    (forall v, In v vs <-> In v (ra_result l) /\ In v (ra_result r) /\ ~ hidden fd (v_result (h v))) /\
    p_objects p = flat_map (fun b => fst b :: snd b) blocks /\
    Forall2 (block_ok h g f1 f2 sl sr) vs blocks /\
    (forall v n pf st b, In v vs -> In (SyntaxDiff n pf st b) (v_nonfun (h v)) ->
       exists v' pf' st' b', In v' vs /\ In (SyntaxDiff n pf' st' b') (v_nonfun (h v')) /\
         dget (p_bodies_left p) n = Some (fst b') /\ dget (p_bodies_right p) n = Some (snd b')).
Proof.
  intros PO D1 D2 Tl Tr.
  destruct Tl as (nl & Hl), Tr as (nr & Hr).
  pose proof (Hl nl (le_n _)) as Hl0. pose proof (Hr nr (le_n _)) as Hr0.
  apply reachable_from_ok in Hl0. destruct Hl0 as (sl' & El & visl & Il).
  apply reachable_from_ok in Hr0. destruct Hr0 as (sr' & Er & visr & Ir).
  rewrite D1 in El. injection El as <-. rewrite D2 in Er. injection Er as <-.
  set (vall := order (common (ra_result l) (ra_result r))).
  assert (Vin : forall v, In v vall <-> In v (ra_result l) /\ In v (ra_result r)).
  { intros v. rewrite <- common_In. unfold vall.
    split; apply Permutation_in; [apply PO|apply Permutation_sym, PO]. }
  assert (Disc : forall v, In v vall -> discovered sl sr (ra_back l) (ra_back r) LEFT v /\
                                   discovered sl sr (ra_back l) (ra_back r) RIGHT v).
  { intros v I. apply Vin in I. destruct I as [I1 I2]. unfold discovered. simpl. split.
    - eapply inv_result_discovered; eauto.
    - eapply inv_result_discovered; eauto. }
  set (N := nl + nr + length (ra_back l) + length (ra_back r)).
  destruct (objects_of_ok h g f1 f2 fd sl sr (ra_back l) (ra_back r) N) with (vs := vall)
    as (blocks & E & F); auto; try (unfold N; lia).
  { eapply inv_back; eauto. } { eapply inv_back; eauto. }
  set (vs := filter (fun v => negb (skip_vertex fd (h v))) vall) in *.
  set (os := flat_map (fun b => fst b :: snd b) blocks) in *.
  exists (mkPairs os (bodies_of LEFT h fd vall) (bodies_of RIGHT h fd vall)), vs, blocks.
  split; [|split; [|split; [|split; [|split]]]].
  - exists N. intros m L. unfold graph_to_fun_pair_list.
    rewrite Hl by (unfold N in L; lia). cbn [obind].
    rewrite Hr by (unfold N in L; lia). cbn [obind].
    destruct (objects_of_ok h g f1 f2 fd sl sr (ra_back l) (ra_back r) m) with (vs := vall)
      as (blocks' & E' & F'); auto; try (unfold N in L; lia).
    { eapply inv_back; eauto. } { eapply inv_back; eauto. }
    (* both fuels give the same list: the call stacks do not depend on the fuel *)
    assert (EQ : objects_of m h g f1 f2 fd (ra_back l) (ra_back r) vall =
                 objects_of N h g f1 f2 fd (ra_back l) (ra_back r) vall).
    { assert (CS : forall s v, discovered sl sr (ra_back l) (ra_back r) s v ->
        get_callstack m (back_of (ra_back l) (ra_back r) s) (start_of sl sr s) v =
        get_callstack N (back_of (ra_back l) (ra_back r) s) (start_of sl sr s) v).
      { intros s v Dv.
        destruct (get_callstack_chain h g s (start_of sl sr s) (back_of (ra_back l) (ra_back r) s) v)
          as (es & H & _); [destruct s; eapply inv_back; eauto|exact Dv|].
        rewrite !H; [reflexivity|destruct s; unfold N in *; simpl; lia|destruct s; unfold N in *; simpl; lia]. }
      clear -CS Disc D1 D2. induction vall as [|v vall IH]; [reflexivity|].
      cbn [objects_of]. rewrite IH by (intros w I; apply Disc; right; exact I).
      destruct (Disc v (or_introl eq_refl)) as (DL & DR).
      assert (FE : forall s, discovered sl sr (ra_back l) (ra_back r) s v ->
                 fun_entity m h g s (base_of f1 f2 s) (back_of (ra_back l) (ra_back r) s) v =
                 fun_entity N h g s (base_of f1 f2 s) (back_of (ra_back l) (ra_back r) s) v).
      { intros s Ds. unfold fun_entity. rewrite (base_start g f1 f2 sl sr D1 D2 s).
        rewrite (CS s v Ds). reflexivity. }
      assert (NE : forall d s, discovered sl sr (ra_back l) (ra_back r) s v ->
                 nonfun_entity m g s (base_of f1 f2 s) (back_of (ra_back l) (ra_back r) s) v d =
                 nonfun_entity N g s (base_of f1 f2 s) (back_of (ra_back l) (ra_back r) s) v d).
      { intros d s Ds. unfold nonfun_entity. rewrite (base_start g f1 f2 sl sr D1 D2 s).
        rewrite (CS s v Ds). reflexivity. }
      pose proof (FE LEFT DL) as FL. pose proof (FE RIGHT DR) as FR. simpl in FL, FR.
      rewrite FL, FR.
      assert (NO : forall ds, nonfun_objects m g f1 f2 (ra_back l) (ra_back r) v ds =
                              nonfun_objects N g f1 f2 (ra_back l) (ra_back r) v ds).
      { induction ds as [|d ds IHd]; [reflexivity|]. cbn [nonfun_objects]. rewrite IHd.
        pose proof (NE d LEFT DL) as NL. pose proof (NE d RIGHT DR) as NR. simpl in NL, NR.
        rewrite NL, NR. reflexivity. }
      rewrite NO. reflexivity. }
    cbv zeta. fold vall. rewrite EQ, E. reflexivity.
  - apply NoDup_filter. eapply Permutation_NoDup; [apply Permutation_sym, PO|apply common_NoDup].
  - intros v. unfold vs. rewrite filter_In, Vin, negb_true_iff.
    rewrite <- skip_vertex_hidden. destruct (skip_vertex fd (h v)); intuition congruence.
  - reflexivity.
  - exact F.
  - intros v n pf st b Iv Id. simpl.
    destruct (bodies_of_source h fd vall n) as (v' & pf' & st' & b' & I' & S' & Id' & B).
    { exists v, pf, st, b. unfold vs in Iv. apply filter_In in Iv.
      destruct Iv as [Iv Sv]. apply negb_true_iff in Sv. auto. }
    exists v', pf', st', b'. split; [|auto]. apply filter_In. rewrite S'. auto.
Qed.

Lemma pair_list_correct order h g f1 f2 fd sl sr :
  (forall l, Permutation (order l) l) ->
  dget (g_verts g) f1 = Some sl -> dget (g_verts g) f2 = Some sr ->
  all_files h g LEFT -> all_files h g RIGHT ->
  exists l r p vs blocks,
    terminates_with (fun n => reachable_from n h g LEFT f1) (Ok l) /\
    terminates_with (fun n => reachable_from n h g RIGHT f2) (Ok r) /\
    terminates_with (fun n => graph_to_fun_pair_list order n h g f1 f2 fd) (Ok p) /\
    NoDup vs /\
    (forall v, In v vs <-> In v (ra_result l) /\ In v (ra_result r) /\ ~ hidden fd (v_result (h v))) /\
    p_objects p = flat_map (fun b => fst b :: snd b) blocks /\
    Forall2 (block_ok h g f1 f2 sl sr) vs blocks /\
    (forall v n pf st b, In v vs -> In (SyntaxDiff n pf st b) (v_nonfun (h v)) ->
       exists v' pf' st' b', In v' vs /\ In (SyntaxDiff n pf' st' b') (v_nonfun (h v')) /\
         dget (p_bodies_left p) n = Some (fst b') /\ dget (p_bodies_right p) n = Some (snd b')).
Proof.
  intros PO D1 D2 A1 A2.
  destruct (reachable_from_succeeds h g LEFT f1 sl D1 A1) as (l & Tl).
  destruct (reachable_from_succeeds h g RIGHT f2 sr D2 A2) as (r & Tr).
  destruct (pair_list_reached order h g f1 f2 fd sl sr l r PO D1 D2 Tl Tr) as (p & vs & blocks & H).
  exists l, r, p, vs, blocks. auto.
Qed.

(** The computation ends for every graph, with a list or with one of two exceptions. *)
Lemma pair_list_total order h g f1 f2 fd :
  (forall l, Permutation (order l) l) ->
  (exists p, terminates_with (fun n => graph_to_fun_pair_list order n h g f1 f2 fd) (Ok p)) \/
  (exists e, terminates_with (fun n => graph_to_fun_pair_list order n h g f1 f2 fd) (Err e) /\
             (e = KeyError \/ e = AttributeError)).
Proof.
  intros PO.
  destruct (reachable_from_terminates h g LEFT f1) as (rl & nl & Hl).
  destruct (reachable_from_terminates h g RIGHT f2) as (rr & nr & Hr).
  pose proof (Hl nl (le_n _)) as Hl0. pose proof (Hr nr (le_n _)) as Hr0.
  destruct rl as [l|e].
  2:{ right. exists e. split.
      - exists (nl + nr). intros m L. unfold graph_to_fun_pair_list. rewrite Hl by lia. reflexivity.
      - apply reachable_from_err in Hl0. intuition. }
  destruct rr as [r|e].
  2:{ right. exists e. split.
      - exists (nl + nr). intros m L. unfold graph_to_fun_pair_list. rewrite Hl by lia. cbn [obind].
        rewrite Hr by lia. reflexivity.
      - apply reachable_from_err in Hr0. intuition. }
  left.
  apply reachable_from_ok in Hl0. destruct Hl0 as (sl & D1 & _).
  apply reachable_from_ok in Hr0. destruct Hr0 as (sr & D2 & _).
  destruct (pair_list_reached order h g f1 f2 fd sl sr l r PO D1 D2) as (p & vs & blocks & T & _).
  { exists nl; exact Hl. } { exists nr; exact Hr. }
  exists p. exact T.
Qed.

(** ** Exponential cost: layered diamonds *)
Fixpoint xs (n : nat) : string := match n with O => ""%string | S k => String "x" (xs k) end.
Lemma xs_inj a b : xs a = xs b -> a = b.
Proof. revert b. induction a; destruct b; simpl; intros E; try discriminate; auto. injection E. auto. Qed.

Definition dcall (j : nat) : edge := mkEdge (xs j) "a.c" 1%Z STRONG.
Definition dia_targets (j : vid) : list vid :=
  match Nat.modulo j 3 with
  | 0 => [j + 1; j + 2]
  | 1 => [j + 2]
  | _ => [j + 1]
  end.
Definition dia_heap : heap := fun j =>
  mkVertex (xs j, xs j) NOT_EQUAL [] (map dcall (dia_targets j), map dcall (dia_targets j))
           (Some "a.c"%string, Some "a.c"%string) (Some 1%Z, Some 1%Z) no_stats true [] ([], []).
Definition dia_graph (n : nat) : graph :=
  mkGraph (map (fun j => (xs j, j)) (seq 0 (3 * n + 1))) [] [] [].

Lemma dget_xs l j : dget (map (fun j => (xs j, j)) l) (xs j) = if mem j l then Some j else None.
Proof.
  induction l as [|k l IH]; simpl; [reflexivity|].
  destruct (String.eqb_spec (xs j) (xs k)) as [E|N].
  - apply xs_inj in E. subst. rewrite Nat.eqb_refl. reflexivity.
  - destruct (Nat.eqb_spec j k) as [->|]; [congruence|]. exact IH.
Qed.
Lemma dia_get n j : j < 3 * n + 1 -> dget (g_verts (dia_graph n)) (xs j) = Some j.
Proof.
  intros L. unfold dia_graph; cbn [g_verts]. rewrite dget_xs.
  assert (M : mem j (seq 0 (3 * n + 1)) = true) by (apply mem_In, in_seq; lia).
  rewrite M. reflexivity.
Qed.
Lemma dia_files n s : all_files dia_heap (dia_graph n) s.
Proof. intros m v _. destruct s; discriminate. Qed.

Section Dia.
  Variable n : nat.
  Notation body := (rbody dia_heap (dia_graph n) LEFT 0).

  Lemma dia_scan (vis : list vid) (c : vid) (ts : list vid) : forall acc,
    (forall t, In t ts -> t < 3 * n + 1 /\ ~ In t vis) ->
    exists acc', scan_edges dia_heap (dia_graph n) LEFT 0 vis c (map dcall ts) acc = Ok (ts, acc') /\
                 ra_result acc' = ra_result acc ++ ts.
  Proof.
    induction ts as [|t ts IH]; intros acc H; cbn [map scan_edges].
    - exists acc. rewrite app_nil_r. auto.
    - destruct (H t (or_introl eq_refl)) as [L V].
      unfold dcall at 1; cbn [e_target]. rewrite (dia_get n t L).
      assert (V' : mem (K := vid) t vis = false) by (apply mem_not_In; exact V). rewrite V'.
      change (sel LEFT (v_files (dia_heap t))) with (Some "a.c"%string).
      change (sel LEFT (v_files (dia_heap 0))) with (Some "a.c"%string).
      cbv iota. match goal with |- context [if ?b && ?c then _ else _] => change (b && c) with false end.
      cbv iota zeta. cbn [dcall e_kind dep_eqb].
      edestruct IH as (acc' & E & R); [intros t' I; apply H; right; exact I|].
      rewrite E. exists acc'. split; [reflexivity|]. rewrite R. cbn [ra_result].
      rewrite <- app_assoc. reflexivity.
  Qed.

  Lemma dia_prefix (l1 : list vid) : forall (l2 vis : list vid) acc,
    (forall c t, In c l1 -> In t (dia_targets c) -> t < 3 * n + 1 /\ ~ In t vis /\ ~ In t l1) ->
    exists vis' acc',
      (forall f, bfs body (length l1 + f) (l1 ++ l2) vis acc =
                 bfs body f (l2 ++ flat_map dia_targets l1) vis' acc') /\
      ra_result acc' = ra_result acc ++ flat_map dia_targets l1 /\
      (forall x, In x vis' -> In x vis \/ In x l1).
  Proof.
    induction l1 as [|c l1 IH]; intros l2 vis acc H.
    - exists vis, acc. split; [intros f; simpl; rewrite app_nil_r; reflexivity|].
      simpl. rewrite app_nil_r. auto.
    - destruct (dia_scan (set_add c vis) c (dia_targets c) acc) as (acc1 & E & R).
      { intros t I. destruct (H c t (or_introl eq_refl) I) as (L & V & N). split; [exact L|].
        rewrite set_add_In. intros [->|C]; [apply N; left; reflexivity|contradiction]. }
      destruct (IH (l2 ++ dia_targets c) (set_add c vis) acc1) as (vis' & acc' & E' & R' & V').
      { intros c' t Ic It. destruct (H c' t (or_intror Ic) It) as (L & V & N). split; [exact L|]. split.
        - rewrite set_add_In. intros [->|C]; [apply N; left; reflexivity|contradiction].
        - intros C. apply N. right. exact C. }
      exists vis', acc'. split; [|split].
      + intros f. simpl length. simpl app. cbn [Nat.add bfs].
        unfold rbody at 1. change (sel LEFT (v_succ (dia_heap c))) with (map dcall (dia_targets c)).
        rewrite E. rewrite <- app_assoc. rewrite E'. simpl. rewrite <- app_assoc. reflexivity.
      + rewrite R', R, <- app_assoc. reflexivity.
      + intros x I. destruct (V' x I) as [C|C]; [apply set_add_In in C|]; simpl; intuition.
  Qed.

  Lemma flat_map_repeat {A B} (f : A -> list B) x k : flat_map f (repeat x k) = concat (repeat (f x) k).
  Proof. induction k; simpl; congruence. Qed.
  Lemma concat_repeat_pairs (a b c : nat) k :
    dia_targets a = [c] -> dia_targets b = [c] ->
    flat_map dia_targets (concat (repeat [a; b] k)) = repeat c (k + k).
  Proof.
    intros Ea Eb. induction k as [|k IH]; [reflexivity|].
    simpl. rewrite Ea, Eb, IH. simpl. replace (k + S k) with (S (k + k)) by lia. reflexivity.
  Qed.
  Lemma dia_targets_0 i : dia_targets (3 * i) = [3 * i + 1; 3 * i + 2].
  Proof. unfold dia_targets. rewrite Nat.mul_comm, Nat.mod_mul by lia. reflexivity. Qed.
  Lemma dia_targets_1 i : dia_targets (3 * i + 1) = [3 * S i].
  Proof.
    unfold dia_targets. replace (3 * i + 1) with (1 + i * 3) by lia. rewrite Nat.mod_add by lia.
    change (1 mod 3) with 1. cbv iota. f_equal. lia.
  Qed.
  Lemma dia_targets_2 i : dia_targets (3 * i + 2) = [3 * S i].
  Proof.
    unfold dia_targets. replace (3 * i + 2) with (2 + i * 3) by lia. rewrite Nat.mod_add by lia.
    change (2 mod 3) with 2. cbv iota. f_equal. lia.
  Qed.

  Lemma in_concat_repeat (a b x k : nat) : In x (concat (repeat [a; b] k)) -> x = a \/ x = b.
  Proof. induction k; simpl; [tauto|intros [|[|]]; auto]. Qed.

  Lemma concat_repeat_length (a b : nat) k : length (concat (repeat [a; b] k)) = k + k.
  Proof. induction k as [|k IH]; [reflexivity|]. cbn [repeat concat app length]. rewrite IH. lia. Qed.

  Lemma dia_layers i : i <= n ->
    exists m vis acc,
      (forall f, bfs body (m + f) [0] [] (mkRacc [0] []) = bfs body f (repeat (3 * i) (2 ^ i)) vis acc) /\
      (forall x, In x vis -> x < 3 * i) /\ 2 ^ i <= length (ra_result acc).
  Proof.
    induction i as [|i IH]; intros L.
    - exists 0, [], (mkRacc [0] []). split; [reflexivity|]. split; [intros x []|]. simpl. lia.
    - destruct IH as (m & vis & acc & E & V & R); [lia|].
      set (k := 2 ^ i) in *.
      assert (H1 : forall c t, In c (repeat (3 * i) k) -> In t (dia_targets c) ->
                   t < 3 * n + 1 /\ ~ In t vis /\ ~ In t (repeat (3 * i) k)).
      { intros c t Ic It. apply repeat_spec in Ic. subst c. rewrite dia_targets_0 in It.
        assert (t = 3 * i + 1 \/ t = 3 * i + 2) by (simpl in It; intuition).
        split; [lia|]. split; [intros C; apply V in C; lia|].
        intros C. apply repeat_spec in C. lia. }
      destruct (dia_prefix _ [] vis acc H1) as (vis1 & acc1 & E1 & _ & V1').
      rewrite repeat_length, app_nil_r in E1. cbn [app] in E1.
      rewrite flat_map_repeat, dia_targets_0 in E1.
      assert (V1 : forall x, In x vis1 -> x <= 3 * i).
      { intros x I. destruct (V1' x I) as [C|C]; [apply V in C; lia|apply repeat_spec in C; lia]. }
      assert (H2 : forall c t, In c (concat (repeat [3 * i + 1; 3 * i + 2] k)) -> In t (dia_targets c) ->
                   t < 3 * n + 1 /\ ~ In t vis1 /\ ~ In t (concat (repeat [3 * i + 1; 3 * i + 2] k))).
      { intros c t Ic It. apply in_concat_repeat in Ic.
        assert (t = 3 * S i).
        { destruct Ic as [-> | ->]; [rewrite dia_targets_1 in It|rewrite dia_targets_2 in It];
            simpl in It; intuition. }
        subst t. split; [lia|]. split; [intros C; apply V1 in C; lia|].
        intros C. apply in_concat_repeat in C. lia. }
      assert (Len : length (concat (repeat [3 * i + 1; 3 * i + 2] k)) = k + k).
      { apply concat_repeat_length. }
      destruct (dia_prefix _ [] vis1 acc1 H2) as (vis2 & acc2 & E2 & R2' & V2').
      rewrite Len, app_nil_r in E2. cbn [app] in E2.
      rewrite (concat_repeat_pairs _ _ _ _ (dia_targets_1 i) (dia_targets_2 i)) in R2', E2.
      assert (V2 : forall x, In x vis2 -> x < 3 * S i).
      { intros x I. destruct (V2' x I) as [C|C]; [apply V1 in C; lia|apply in_concat_repeat in C; lia]. }
      assert (R2 : k + k <= length (ra_result acc2)).
      { rewrite R2', app_length, repeat_length. lia. }
      exists (m + (k + (k + k))), vis2, acc2. split; [|split].
      + intros f. replace (m + (k + (k + k)) + f) with (m + (k + (k + k + f))) by lia.
        rewrite E, E1, E2. simpl Nat.pow. fold k. rewrite Nat.add_0_r. reflexivity.
      + exact V2.
      + simpl Nat.pow. fold k. lia.
  Qed.

  Lemma bfs_ok_fuel {A} (b : list vid -> vid -> A -> res (list vid * A)) f q vis acc acc' :
    bfs b f q vis acc = Some (Ok acc') -> length q < f.
  Proof.
    revert q vis acc. induction f as [|f IH]; intros q vis acc H; [discriminate|].
    simpl in H. destruct q as [|c q]; [simpl; lia|].
    destruct (b (set_add c vis) c acc) as [[p a]|e]; [|discriminate].
    apply IH in H. rewrite app_length in H. simpl. lia.
  Qed.

  Lemma dia_exponential acc :
    terminates_with (fun f => reachable_from f dia_heap (dia_graph n) LEFT (xs 0)) (Ok acc) ->
    2 ^ n <= length (ra_result acc) /\
    forall f, f <= 2 ^ n -> reachable_from f dia_heap (dia_graph n) LEFT (xs 0) = None.
  Proof.
    intros (N & T).
    destruct (dia_layers n (le_n _)) as (m & vis & acc0 & E & V & R).
    assert (D0 : dget (g_verts (dia_graph n)) (xs 0) = Some 0) by (apply dia_get; lia).
    split.
    - pose proof (T (m + N) ltac:(lia)) as H.
      rewrite (reachable_from_unfold _ _ _ _ _ _ D0), E in H.
      apply (bfs_invariant _ (fun _ _ a => 2 ^ n <= length (ra_result a))) in H.
      + destruct H as (_ & H). exact H.
      + intros c q vis0 a p a' I B. destruct (scan_spec _ _ _ _ _ _ _ _ _ _ B) as (_ & (ar & Er & _) & _).
        rewrite Er, app_length. lia.
      + exact R.
    - intros f L.
      destruct (reachable_from f dia_heap (dia_graph n) LEFT (xs 0)) as [r|] eqn:F; [exfalso|reflexivity].
      pose proof (reachable_from_mono _ _ _ _ f (m + f) r ltac:(lia) F) as F2.
      pose proof (reachable_from_mono _ _ _ _ f (f + N) r ltac:(lia) F) as F3.
      rewrite T in F3 by lia. injection F3 as <-.
      rewrite (reachable_from_unfold _ _ _ _ _ _ D0), E in F2.
      apply bfs_ok_fuel in F2. rewrite repeat_length in F2. lia.
  Qed.
End Dia.
