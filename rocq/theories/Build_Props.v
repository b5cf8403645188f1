(** * Properties of graph construction and normalisation (C11-C14, C57-C60) *)
From Coq Require Import String Ascii ZArith Arith Bool Lia List Permutation.
From Verif Require Import PyBase Result_Model Graph_Model Graph_Spec Graph_Proofs Graph_Objects
  Graph_Merge Graph_Normalize Graph_Build Graph_Props.
Import ListNotations.
Open Scope list_scope.

(** ** A SimpLL output used in the examples *)
Definition ex_info (n file : string) (cs : list ycall) : yinfo := mkYInfo n (Some file) (Some 1%Z) (Some cs).
Definition ex_result (n r file : string) (cs : list ycall) : yresult :=
  mkYResult r (ex_info n file cs) (ex_info n file cs) no_stats [].
Definition ex_ycall (n : string) (weak : bool) : ycall := mkYCall n "a.c" 3%Z weak.
(** [main] calls [f], its variant and the variant of [g]; [g] itself was not compared. *)
Definition ex_output : list yresult :=
  [ ex_result "main" "not-equal" "a.c" [ex_ycall "f" false; ex_ycall "g.void" false; ex_ycall "k" false];
    ex_result "f" "not-equal" "a.c" [];
    ex_result "k" "equal" "b.h" [ex_ycall "f.void" false; ex_ycall "g.void" false];
    ex_result "f.void" "equal" "a.c" [];
    ex_result "g.void" "equal" "a.c" [ex_ycall "f" true] ].
Definition start_heap : heap := fun _ => new_vertex ("", "")%string NONE (None, None) (None, None) no_stats.
Lemma no_double_check ys :
  forallb (fun y => forallb (fun n => negb (endswith (chop 5 n) ".void")) (names_in y)) ys = true ->
  no_double_variants ys.
Proof.
  intros F y n I In_ (p & ->). rewrite forallb_forall in F. specialize (F y I).
  rewrite forallb_forall in F. specialize (F _ In_). rewrite chop_variant in F.
  assert (T : endswith (variant p) ".void" = true) by (apply is_variant_endswith; exists p; reflexivity).
  rewrite T in F. discriminate.
Qed.
Lemma ex_no_double : no_double_variants ex_output.
Proof. apply no_double_check. vm_compute. reflexivity. Qed.
Lemma ex_stored y k : In y ex_output -> stored_as y k -> yi_fun (yr_first y) = k.
Proof.
  intros I [(_ & ->)|(_ & ->)]; [reflexivity|].
  simpl in I. repeat (destruct I as [<-|I]; [reflexivity|]). destruct I.
Qed.
Lemma ex_closed : variants_closed ex_output.
Proof.
  assert (G : forall n, In n ["f.void"; "g.void"]%string -> exists y, In y ex_output /\ stored_as y n).
  { intros n [<-|[<-|[]]].
    - exists (ex_result "f.void" "equal" "a.c" []). split; [simpl; auto|]. left. split; [exists "f"%string, "void"%string|]; reflexivity.
    - exists (ex_result "g.void" "equal" "a.c" [ex_ycall "f" true]). split; [simpl; auto 8|].
      left. split; [exists "g"%string, "void"%string|]; reflexivity. }
  intros y s c I Ic V. apply is_variant_endswith in V. simpl in I.
  repeat (destruct I as [<-|I]; [destruct s; simpl in Ic;
    repeat (destruct Ic as [<-|Ic]; [first [discriminate V | apply G; simpl; auto]|]); destruct Ic|]).
  destruct I.
Qed.
Lemma ex_distinct : variants_distinct ex_output.
Proof.
  intros i j y y' k I J _ E E'.
  apply ex_stored in E; [|eapply nth_error_In; eauto]. apply ex_stored in E'; [|eapply nth_error_In; eauto].
  assert (N : NoDup (map (fun z => yi_fun (yr_first z)) ex_output)) by (repeat constructor; simpl; intuition discriminate).
  rewrite NoDup_nth_error in N. apply N.
  - rewrite map_length. apply nth_error_Some. congruence.
  - rewrite !nth_error_map, I, J. simpl. congruence.
Qed.
Lemma ex_ok : Forall yresult_ok ex_output.
Proof.
  repeat constructor; try (eexists; reflexivity); try discriminate.
Qed.

(** ** C11 *)
(** After a successful normalisation of a graph built from a SimpLL output:
    no variant name is a key and no function of the graph calls a variant;
    a function that was stored under its plain name is unchanged apart from its call list;
    a function that only had a variant is stored under the plain name, called by that name on
    both sides, with EQUAL weakened to ASSUMED_EQUAL; no other name is known;
    and each function's calls are the original ones normalised one by one. *)
Theorem C11_normalisation_removes_variants :
  forall h0 n0 ys h n g fuel h' g',
    built h0 n0 ys h n g -> no_double_variants ys ->
    normalize fuel h g = Some (Ok (h', g')) ->
    (forall k, is_variant k -> dget (g_verts g') k = None) /\
    (forall k v s e, dget (g_verts g') k = Some v -> In e (sel s (v_succ (h' v))) -> ~ is_variant (e_target e)) /\
    (forall k v, ~ is_variant k -> dget (g_verts g) k = Some v ->
       dget (g_verts g') k = Some v /\
       v_names (h' v) = v_names (h v) /\ v_result (h' v) = v_result (h v) /\ same_rest (h' v) (h v)) /\
    (forall k v, ~ is_variant k -> dget (g_verts g) k = None -> dget (g_verts g) (variant k) = Some v ->
       dget (g_verts g') k = Some v /\ v_names (h' v) = (k, k) /\
       (v_result (h v) = EQUAL -> v_result (h' v) = ASSUMED_EQUAL) /\
       (v_result (h v) <> EQUAL -> v_result (h' v) = v_result (h v)) /\ same_rest (h' v) (h v)) /\
    (forall k, dget (g_verts g) k = None -> dget (g_verts g) (variant k) = None -> dget (g_verts g') k = None) /\
    (forall k v s, dget (g_verts g') k = Some v ->
       Forall2 (edge_normalized h g v) (sel s (v_succ (h v))) (sel s (v_succ (h' v)))).
Proof.
  intros h0 n0 ys h n g fuel h' g' BU ND H. pose proof (built_binv _ _ _ _ _ _ BU) as B.
  destruct (normalize_built_final _ _ _ _ _ _ _ _ _ B ND H) as (_ & V & P & E & K1 & K2 & _).
  split; [exact V|]. split; [|split; [|split; [|split]]].
  - intros k v s e D I VE.
    pose proof (normalized_range _ _ _ _ _ _ _ _ _ _ _ B ND H D) as R.
    specialize (E v s R).
    assert (X : exists e0, In e0 (sel s (v_succ (h v))) /\ edge_normalized h g v e0 e).
    { clear - E I. induction E as [|a b la lb N F IH]; [destruct I|]. destruct I as [->|I].
      - exists a. simpl. auto.
      - destruct (IH I) as (e0 & I0 & N0). exists e0. simpl. auto. }
    destruct X as (e0 & I0 & (S & _)).
    assert (LT : v - n0 < length ys) by (pose proof (bi_n _ _ _ _ _ _ B); lia).
    destruct (nth_error ys (v - n0)) as [y|] eqn:Y; [|apply nth_error_None in Y; lia].
    destruct (bi_rep _ _ _ _ _ _ B _ y Y) as (_ & _ & _ & SU & _).
    replace (n0 + (v - n0)) with v in SU by lia.
    assert (I1 : exists c, In c (ycalls y s) /\ yc_fun c = e_target e0).
    { rewrite SU in I0. destruct s; simpl in I0; apply in_map_iff in I0; destruct I0 as (c & <- & Ic); exists c; auto. }
    destruct I1 as (c & Ic & Ec).
    destruct S as [S|[NV S]]; [|rewrite S in VE; contradiction].
    destruct VE as (m & VE). apply (ND y (yc_fun c)).
    + eapply nth_error_In; eauto.
    + apply (ycalls_names _ s). exact Ic.
    + exists m. rewrite Ec, S, VE. reflexivity.
  - intros k v NV D. rewrite P, D by exact NV. split; [reflexivity|]. apply (K1 k v NV D).
  - intros k v NV D D2. rewrite P, D by exact NV. split; [exact D2|].
    destruct (K2 k v NV D D2) as (N & R & S). split; [exact N|].
    destruct (kind_eqb_spec (v_result (h v)) EQUAL) as [X|X]; rewrite R; repeat split; try congruence; try apply S.
  - intros k D D2. destruct (is_variant_dec k) as [Y|N]; [apply V; exact Y|]. rewrite P, D, D2 by exact N. reflexivity.
  - intros k v s D. apply E. eapply normalized_range; eauto.
Qed.
Print Assumptions C11_normalisation_removes_variants.

Example C11_example :
  no_double_variants ex_output /\
  exists h n g h' g', built start_heap 0 ex_output h n g /\ normalize 1 h g = Some (Ok (h', g')) /\
    g_verts g' = [("main", 0); ("f", 1); ("k", 2); ("g", 4)]%string /\
    v_result (h' 4) = ASSUMED_EQUAL /\
    map e_target (fst (v_succ (h' 2))) = ["f"; "g"]%string /\
    map e_kind (fst (v_succ (h' 0))) = [STRONG; WEAK; STRONG].
Proof.
  split; [exact ex_no_double|].
  eexists _, _, _, _, _. split; [vm_compute; reflexivity|]. split; [vm_compute; reflexivity|].
  split; [vm_compute; reflexivity|]. split; [vm_compute; reflexivity|]. split; vm_compute; reflexivity.
Qed.

(** ** C12 *)
(** Normalisation always ends; on a graph built from SimpLL output it succeeds iff every called
    variant has a result and no two variants share their key, and otherwise raises KeyError. *)
Theorem C12_normalisation_terminates :
  forall h g, terminates (fun fuel => normalize fuel h g).
Proof. exact normalize_terminates. Qed.
Print Assumptions C12_normalisation_terminates.

Theorem C12_normalisation_succeeds_iff :
  forall h0 n0 ys h n g, built h0 n0 ys h n g -> no_double_variants ys ->
    ((exists h' g', terminates_with (fun fuel => normalize fuel h g) (Ok (h', g'))) <->
     variants_closed ys /\ variants_distinct ys) /\
    (~ (variants_closed ys /\ variants_distinct ys) ->
     terminates_with (fun fuel => normalize fuel h g) (Err KeyError)).
Proof.
  intros h0 n0 ys h n g BU ND. pose proof (built_binv _ _ _ _ _ _ BU) as B.
  rewrite <- vclosed_spec, <- vdistinct_spec.
  assert (A : (exists h' g', terminates_with (fun fuel => normalize fuel h g) (Ok (h', g'))) -> vclosed ys /\ vdistinct ys).
  { intros (h' & g' & k & T). specialize (T k (le_n _)).
    destruct (normalize_built_ok _ _ _ _ _ _ B ND _ _ _ T) as (C & D & _). auto. }
  split.
  - split; [exact A|]. intros (C & D). destruct (normalize_built_succeeds _ _ _ _ _ _ B ND C D) as (h' & g' & T).
    exists h', g', 1. exact T.
  - intros N. destruct (normalize_terminates h g) as ([[h' g']|e] & T).
    + exfalso. apply N, A. exists h', g'. exact T.
    + destruct T as (k & T). pose proof (normalize_built_err _ _ _ _ _ _ B ND k e (T k (le_n _))). subst e.
      exists k. exact T.
Qed.
Print Assumptions C12_normalisation_succeeds_iff.

(** Both failures occur for well-formed outputs. *)
Theorem C12_normalisation_never_fails_refuted :
  exists ys1 ys2, Forall yresult_ok ys1 /\ Forall yresult_ok ys2 /\
    (** a call of a variant that has no result *)
    (exists h n g, built start_heap 0 ys1 h n g /\
       terminates_with (fun fuel => normalize fuel h g) (Err KeyError)) /\
    (** two results of the same variant *)
    (exists h n g, built start_heap 0 ys2 h n g /\
       terminates_with (fun fuel => normalize fuel h g) (Err KeyError)).
Proof.
  exists [ex_result "main" "equal" "a.c" [ex_ycall "f.void" false]],
         [ex_result "f.void" "equal" "a.c" []; ex_result "f.void" "not-equal" "a.c" []].
  split; [repeat constructor; try (eexists; reflexivity); discriminate|].
  split; [repeat constructor; try (eexists; reflexivity); discriminate|].
  split; eexists _, _, _; (split; [vm_compute; reflexivity|]).
  - exists 0. intros m _. vm_compute. reflexivity.
  - exists 1. intros [|m] L; [lia|]. vm_compute. reflexivity.
Qed.
Print Assumptions C12_normalisation_never_fails_refuted.

Example C12_example : variants_closed ex_output /\ variants_distinct ex_output.
Proof. split; [exact ex_closed|exact ex_distinct]. Qed.

(** ** C14 *)
(** Recomputing predecessor lists adds exactly the callers; on functions without recorded
    predecessors, predecessors are exactly the callers. *)
Theorem C14_predecessors_are_callers :
  forall h g, dictionary_keys_distinct g ->
    let h' := populate_predecessor_lists h g in
    (forall v, same_but_pred (h' v) (h v)) /\
    forall u t s, In u (sel s (v_pred (h' t))) <->
      In u (sel s (v_pred (h t))) \/
      ((exists k, dget (g_verts g) k = Some u) /\ exists e, calls h g s u e t).
Proof.
  intros h g N. destruct (populate_spec h g) as (E & P). split.
  - intros v. destruct (with_pred_inj _ _ _ (E v)) as (A1 & A2 & A3 & A4 & A5 & A6 & A7 & A8 & A9).
    unfold same_but_pred. auto 10.
  - intros u t s. rewrite P. apply or_iff_compat_l. apply and_iff_compat_r. split.
    + apply dvals_dget. exact N.
    + intros (k & D). eapply dget_dvals; eauto.
Qed.
Print Assumptions C14_predecessors_are_callers.

Theorem C14_fresh_predecessors_are_exactly_callers :
  forall h g, dictionary_keys_distinct g -> (forall t, v_pred (h t) = ([], [])) ->
    forall u t s, In u (sel s (v_pred (populate_predecessor_lists h g t))) <->
      (exists k, dget (g_verts g) k = Some u) /\ exists e, calls h g s u e t.
Proof.
  intros h g N F u t s. destruct (C14_predecessors_are_callers h g N) as (_ & P). rewrite P, F.
  destruct s; simpl; tauto.
Qed.
Print Assumptions C14_fresh_predecessors_are_exactly_callers.

Example C14_example :
  dictionary_keys_distinct ex_graph /\
  v_pred (populate_predecessor_lists ex_heap ex_graph 1) = ([0; 1], [0; 1]).
Proof. split; [repeat constructor; simpl; intuition discriminate|reflexivity]. Qed.

(** ** C13 *)
(** The marking ends, on any graph whose predecessor lists mention finitely many functions. *)
Theorem C13_marking_terminates :
  forall h g n, (forall u p, In p (fst (v_pred (h u))) -> p < n) ->
    terminates (fun fuel => mark_uncachable fuel h g).
Proof. intros h g n PB. eapply mark_all_terminates. exact PB. Qed.
Print Assumptions C13_marking_terminates.

(** Exactly the functions whose header-only callers lead to an assumption made outside
    headers lose their mark, each assumption remembers exactly those functions, and nothing
    else changes. *)
Theorem C13_marks_exactly_dependents :
  forall h g n fuel h', dictionary_keys_distinct g ->
    (forall u p, In p (fst (v_pred (h u))) -> p < n) ->
    mark_uncachable fuel h g = Some (Ok h') ->
    (forall v, same_but_marks (h' v) (h v)) /\
    (forall p, v_cachable (h' p) = true <->
       v_cachable (h p) = true /\
       ~ exists k v, dget (g_verts g) k = Some v /\ assumed_outside_header h v /\ header_caller h v p) /\
    (forall v p, In p (v_prevents (h' v)) <->
       In p (v_prevents (h v)) \/
       ((exists k, dget (g_verts g) k = Some v) /\ assumed_outside_header h v /\ header_caller h v p)).
Proof.
  intros h g n fuel h' N PB H. destruct (mark_all_spec _ _ _ _ _ PB H) as (E & C & P).
  assert (DV : forall v, In v (dvals (g_verts g)) <-> exists k, dget (g_verts g) k = Some v).
  { intros v. split; [apply dvals_dget; exact N|]. intros (k & D). eapply dget_dvals; eauto. }
  split; [|split].
  - intros v. exact (unmark_inj _ _ (E v)).
  - intros p. rewrite C. apply and_iff_compat_l. split; intros X Y; apply X.
    + destruct Y as (k & v & D & A). exists v. split; [apply DV; eauto|exact A].
    + destruct Y as (v & I & A). apply DV in I. destruct I as (k & D). exists k, v. split; auto.
  - intros v p. rewrite P, DV. reflexivity.
Qed.
Print Assumptions C13_marks_exactly_dependents.

(** It fails only when a function has no source file. *)
Theorem C13_marking_errors :
  forall h g fuel e, mark_uncachable fuel h g = Some (Err e) ->
    e = AttributeError /\ exists v, fst (v_files (h v)) = None.
Proof.
  intros h g fuel e H. apply mark_all_succeeds in H. destruct H as (-> & [(v & _ & F)|(_ & v & _ & F)]); eauto.
Qed.
Print Assumptions C13_marking_errors.

(** ** C57 *)
(** The graph built from a SimpLL output has, for every name, exactly the last result stored
    under that name, with all its details; nothing else. *)
Theorem C57_graph_represents_output :
  forall h0 n0 ys h n g, built h0 n0 ys h n g ->
    dictionary_keys_distinct g /\
    (forall k v, dget (g_verts g) k = Some v ->
       exists i y, v = n0 + i /\ nth_error ys i = Some y /\ stored_as y k /\ represents y (h v) /\
         forall j y', i < j -> nth_error ys j = Some y' -> ~ stored_as y' k) /\
    (forall k, dget (g_verts g) k = None <-> forall y, In y ys -> ~ stored_as y k) /\
    (forall w, w < n0 \/ n <= w -> h w = h0 w).
Proof.
  intros h0 n0 ys h n g BU. pose proof (built_binv _ _ _ _ _ _ BU) as B.
  split; [exact (bi_keys _ _ _ _ _ _ B)|]. split; [|split].
  - intros k v D. destruct (bi_get _ _ _ _ _ _ B _ _ D) as (i & y & -> & Y & K & L).
    exists i, y. split; [reflexivity|]. split; [exact Y|]. split; [apply stored_as_ykey; exact K|].
    split; [apply (bi_rep _ _ _ _ _ _ B); exact Y|].
    intros j y' LT Y' S. apply stored_as_ykey in S. exact (L j y' LT Y' S).
  - intros k. split.
    + intros D y I S. apply stored_as_ykey in S. exact (bi_none _ _ _ _ _ _ B k D y I S).
    + intros A. destruct (dget (g_verts g) k) as [v|] eqn:D; [|reflexivity]. exfalso.
      destruct (bi_get _ _ _ _ _ _ B _ _ D) as (i & y & _ & Y & K & _).
      apply (A y); [eapply nth_error_In; eauto|apply stored_as_ykey; exact K].
  - exact (bi_old _ _ _ _ _ _ B).
Qed.
Print Assumptions C57_graph_represents_output.

(** Building succeeds on every well-formed output. *)
Theorem C57_wellformed_output_accepted :
  forall h0 n0 ys, Forall yresult_ok ys -> exists h n g, built h0 n0 ys h n g.
Proof. exact built_exists. Qed.
Print Assumptions C57_wellformed_output_accepted.

(** A second result for the same name overwrites the first: a difference can disappear. *)
Theorem C57_no_result_overwritten_refuted :
  exists ys h n g, Forall yresult_ok ys /\ built start_heap 0 ys h n g /\
    (exists y, In y ys /\ yr_result y = "not-equal"%string) /\
    forall k v, dget (g_verts g) k = Some v -> v_result (h v) = EQUAL.
Proof.
  exists [ex_result "f" "not-equal" "a.c" []; ex_result "f" "equal" "b.c" []].
  eexists _, _, _. split; [repeat constructor; try (eexists; reflexivity); discriminate|].
  split; [vm_compute; reflexivity|].
  split; [eexists; split; [left; reflexivity|reflexivity]|].
  intros k v D. apply dget_In in D. destruct D as [D|[]]. injection D as <- <-. reflexivity.
Qed.
Print Assumptions C57_no_result_overwritten_refuted.

(** ** C58 *)
(** The whole construction (reading, normalising, computing predecessors, marking) succeeds on
    well-formed outputs, and the finished graph knows a name iff the output has a result
    stored under it or its variant.  A function of the finished graph may be cached unless it
    lives in a header and calls, through header functions only, a function outside headers that
    is merely assumed equal: the marks agree with the finished graph's own calls. *)
Theorem C58_construction_succeeds :
  forall h0 n0 ys,
    (forall u, v_pred (h0 u) = ([], []) \/ u < n0) ->
    (forall u p, In p (fst (v_pred (h0 u))) -> p < n0 /\ fst (v_files (h0 p)) <> None) ->
    Forall yresult_ok ys -> no_double_variants ys -> variants_closed ys -> variants_distinct ys ->
    (forall y, In y ys -> yi_file (yr_first y) <> None) ->
    exists h n g,
      terminates_with (fun fuel => build_graph fuel h0 n0 ys) (Ok (h, n, g)) /\
      dictionary_keys_distinct g /\
      (forall k, dget (g_verts g) k <> None <->
         ~ is_variant k /\ exists y, In y ys /\ (stored_as y k \/ stored_as y (variant k))) /\
      (forall k p, dget (g_verts g) k = Some p ->
         (v_cachable (h p) = true <->
          ~ exists k' v, dget (g_verts g) k' = Some v /\ assumed_outside_header h v /\
                         called_through_headers h g v p)).
Proof.
  intros h0 n0 ys FR PF OK ND C D FI. apply vclosed_spec in C. apply vdistinct_spec in D.
  destruct (build_graph_ok h0 n0 ys) as (h1 & n & g1 & h2 & g2 & h4 & BU & (f1 & N) & (f2 & M) & PB & T); auto.
  { intros u p I. apply (PF u p I). } { intros u p I. apply (PF u p I). }
  pose proof (built_binv _ _ _ _ _ _ BU) as B.
  destruct (C57_graph_represents_output _ _ _ _ _ _ BU) as (_ & G1 & G2 & _).
  destruct (normalize_built_final _ _ _ _ _ _ _ _ _ B ND N) as (NK & NV & NP & _ & _ & _ & SR & OUT).
  exists h4, n, g2. split; [exact T|]. split; [exact NK|]. split.
  - intros k. split.
    + intros X. destruct (is_variant_dec k) as [Y|Y]; [rewrite NV in X by exact Y; congruence|].
      split; [exact Y|]. rewrite NP in X by exact Y.
      destruct (dget (g_verts g1) k) as [v|] eqn:E.
      * destruct (G1 _ _ E) as (i & y & _ & I & S & _). exists y. split; [eapply nth_error_In; eauto|auto].
      * destruct (dget (g_verts g1) (variant k)) as [v|] eqn:E2; [|congruence].
        destruct (G1 _ _ E2) as (i & y & _ & I & S & _). exists y. split; [eapply nth_error_In; eauto|auto].
    + intros (Y & y & I & S). rewrite NP by exact Y.
      destruct (dget (g_verts g1) k) as [v|] eqn:E; [discriminate|].
      destruct (dget (g_verts g1) (variant k)) as [v|] eqn:E2; [discriminate|].
      exfalso. destruct S as [S|S]; [exact (proj1 (G2 k) E y I S)|exact (proj1 (G2 (variant k)) E2 y I S)].
  - intros k p Dp. set (h3 := populate_predecessor_lists h2 g2) in *.
    destruct (C13_marks_exactly_dependents h3 g2 n f2 h4 NK PB M) as (SM & CA & _).
    destruct (C14_predecessors_are_callers h2 g2 NK) as (SP & PR). fold h3 in SP, PR.
    assert (RNG : forall k v, dget (g_verts g2) k = Some v -> n0 <= v < n).
    { intros k' v E. eapply normalized_range; eauto. }
    assert (FRESH : forall v, n0 <= v < n -> v_pred (h2 v) = ([], []) /\ v_cachable (h2 v) = true).
    { intros v L. destruct (SR v) as (_ & _ & _ & _ & -> & _ & ->).
      assert (LT : v - n0 < length ys) by (pose proof (bi_n _ _ _ _ _ _ B); lia).
      destruct (nth_error ys (v - n0)) as [y|] eqn:Y; [|apply nth_error_None in Y; lia].
      destruct (bi_rep _ _ _ _ _ _ B _ y Y) as (_ & _ & _ & _ & _ & _ & _ & CC & _ & P).
      replace (n0 + (v - n0)) with v in * by lia. auto. }
    assert (FIL : forall v, v_files (h4 v) = v_files (h3 v)) by (intros v; apply (SM v)).
    assert (RES : forall v, v_result (h4 v) = v_result (h3 v)) by (intros v; apply (SM v)).
    assert (SUC : forall v, v_succ (h4 v) = v_succ (h2 v)).
    { intros v. destruct (SM v) as (_ & _ & _ & -> & _). apply (SP v). }
    assert (PRED : forall u t, n0 <= t < n -> In u (fst (v_pred (h3 t))) <->
               (exists k, dget (g_verts g2) k = Some u) /\ exists e, calls h4 g2 LEFT u e t).
    { intros u t L. specialize (PR u t LEFT). cbn [sel] in PR. rewrite PR.
      destruct (FRESH t L) as (-> & _). cbn [fst In]. unfold calls. rewrite SUC. cbn [sel]. tauto. }
    assert (HC : forall v, n0 <= v < n -> forall q, header_caller h3 v q -> called_through_headers h4 g2 v q /\ n0 <= q < n).
    { intros v L q HQ. induction HQ as [q f I F X|q0 q f HQ IH I F X].
      - apply PRED in I; [|exact L]. destruct I as ((k' & Dk) & e & Ce). split; [|eapply RNG; eauto].
        econstructor 1; eauto. rewrite FIL. exact F.
      - destruct IH as (C0 & L0). apply PRED in I; [|exact L0]. destruct I as ((k' & Dk) & e & Ce).
        split; [|eapply RNG; eauto]. econstructor 2; eauto. rewrite FIL. exact F. }
    assert (CH : forall v, n0 <= v < n -> forall q, called_through_headers h4 g2 v q -> header_caller h3 v q /\ n0 <= q < n).
    { intros v L q HQ. induction HQ as [k' q e f Dk Ce F X|q0 k' q e f HQ IH Dk Ce F X]; (split; [|eapply RNG; eauto]).
      - econstructor 1; [apply PRED; [exact L|eauto]|rewrite <- FIL; exact F|exact X].
      - destruct IH as (C0 & L0). econstructor 2; [exact C0|apply PRED; [exact L0|eauto]|rewrite <- FIL; exact F|exact X]. }
    rewrite CA.
    assert (C3 : v_cachable (h3 p) = true).
    { destruct (SP p) as (_ & _ & _ & _ & _ & _ & _ & -> & _). apply FRESH. eapply RNG; eauto. }
    assert (AO : forall v, assumed_outside_header h3 v <-> assumed_outside_header h4 v).
    { intros v. unfold assumed_outside_header. rewrite FIL, RES. reflexivity. }
    split.
    + intros (_ & X) (k' & v & Dk & A & Hc). apply X. exists k', v. split; [exact Dk|]. split; [apply AO; exact A|].
      apply (CH v); [eapply RNG; eauto|exact Hc].
    + intros X. split; [exact C3|]. intros (k' & v & Dk & A & Hc). apply X. exists k', v.
      split; [exact Dk|]. split; [apply AO; exact A|]. apply (HC v); [eapply RNG; eauto|exact Hc].
Qed.
Print Assumptions C58_construction_succeeds.

Example C58_example :
  Forall yresult_ok ex_output /\ no_double_variants ex_output /\ variants_closed ex_output /\
  variants_distinct ex_output /\
  exists h n g, build_graph 10 start_heap 0 ex_output = Some (Ok (h, n, g)) /\
    v_cachable (h 2) = false /\ v_cachable (h 0) = true /\ v_prevents (h 4) = [2].
Proof.
  split; [exact ex_ok|]. split; [exact ex_no_double|]. split; [exact ex_closed|]. split; [exact ex_distinct|].
  eexists _, _, _. split; [vm_compute; reflexivity|]. repeat split.
Qed.

(** ** C06, C07, C56: an example object list *)
Example C06_example :
  exists p, graph_to_fun_pair_list (fun l => l) 10 ex_heap ex_graph "main" "main" false = Some (Ok p) /\
    map (fun o => (en_name (o_first o), o_kind o)) (p_objects p) =
      [("f"%string, NOT_EQUAL); ("g"%string, NOT_EQUAL); ("MACRO"%string, NOT_EQUAL)] /\
    p_bodies_left p = [("MACRO", "1")]%string /\ p_bodies_right p = [("MACRO", "2")]%string.
Proof. eexists. split; [vm_compute; reflexivity|]. repeat split. Qed.

(** C56: with two differences of one name the bodies of one of them are shown for both. *)
Definition two_macros : list vertex :=
  [ ex_fun "main" NOT_EQUAL "a.c"
      [SyntaxDiff "M" "main" ([], []) ("1", "2")%string; SyntaxDiff "M" "main" ([], []) ("3", "4")%string] [] ].
Theorem C56_bodies_not_mixed_refuted :
  exists h g p v pf st b,
    terminates_with (fun fuel => graph_to_fun_pair_list (fun l => l) fuel h g "main" "main" false) (Ok p) /\
    (exists o, In o (p_objects p) /\ reports_function h v o) /\
    In (SyntaxDiff "M" pf st b) (v_nonfun (h v)) /\
    dget (p_bodies_left p) "M"%string <> Some (fst b).
Proof.
  destruct (C06_object_list_computed (fun l => l) (heap_of two_macros) (graph_of two_macros) "main" "main" false 0 0)
    as (p & T); try reflexivity; try (intros l; apply Permutation_refl);
    try (intros n v D; apply dget_In in D; destruct D as [D|[]]; injection D as <- <-; discriminate).
  exists (heap_of two_macros), (graph_of two_macros), p, 0, "main"%string, ([], []), ("1", "2")%string.
  split; [exact T|]. destruct T as (k & T). specialize (T (k + 5) ltac:(lia)).
  replace (k + 5) with (S (S (S (S (S k))))) in T by lia. vm_compute in T. injection T as <-.
  split; [|split; [simpl; auto|discriminate]].
  eexists. split; [left; reflexivity|]. repeat split; try reflexivity. discriminate.
Qed.
Print Assumptions C56_bodies_not_mixed_refuted.

(** ** C59 *)
(** A callee whose name differs between the two versions (for example because LLVM numbered it
    differently) is stored under one name only, so the traversal of the other side never
    finds it: its difference is not listed although both versions of the compared function
    call it directly. *)
Definition renamed_output : list yresult :=
  [ mkYResult "equal" (ex_info "main" "a.c" [ex_ycall "f.1" false]) (ex_info "main" "a.c" [ex_ycall "f.2" false]) no_stats [];
    mkYResult "not-equal" (ex_info "f.1" "a.c" []) (ex_info "f.2" "a.c" []) no_stats [] ].
Theorem C59_renamed_callee_reported_refuted :
  exists ys h n g p,
    Forall yresult_ok ys /\
    terminates_with (fun fuel => build_graph fuel start_heap 0 ys) (Ok (h, n, g)) /\
    (exists y c1 c2 callee, In y ys /\ stored_as y "main" /\
       In c1 (ycalls y LEFT) /\ In c2 (ycalls y RIGHT) /\ yc_weak c1 = false /\ yc_weak c2 = false /\
       In callee ys /\ yi_fun (yr_first callee) = yc_fun c1 /\ yi_fun (yr_second callee) = yc_fun c2 /\
       yr_result callee = "not-equal"%string) /\
    terminates_with (fun fuel => graph_to_fun_pair_list (fun l => l) fuel h g "main" "main" false) (Ok p) /\
    p_objects p = [].
Proof.
  assert (B : exists h g, build_graph 5 start_heap 0 renamed_output = Some (Ok (h, 2, g)) /\
              g_verts g = [("main", 0); ("f.1", 1)]%string /\
              h 0 = mkVertex ("main", "main")%string EQUAL [] ([mkEdge "f.1" "a.c" 3 STRONG], [mkEdge "f.2" "a.c" 3 STRONG])
                     (Some "a.c", Some "a.c")%string (Some 1%Z, Some 1%Z) no_stats true [] ([], []) /\
              all_files h g LEFT /\ all_files h g RIGHT /\ v_files (h 1) = (Some "a.c", Some "a.c")%string /\
              v_succ (h 1) = ([], [])).
  { eexists _, _. split; [vm_compute; reflexivity|]. split; [vm_compute; reflexivity|].
    split; [vm_compute; reflexivity|].
    split; [|split; [|split; vm_compute; reflexivity]];
    intros n v D; apply dget_In in D; vm_compute in D;
      (destruct D as [D|[D|[]]]; injection D as <- <-; vm_compute; discriminate). }
  destruct B as (h & g & B & V & H0 & F1 & F2 & F3 & S1).
  destruct (C06_object_list_computed (fun l => l) h g "main" "main" false 0 0) as (p & T); auto;
    try (rewrite V; reflexivity).
  exists renamed_output, h, 2, g, p.
  split; [repeat constructor; try (eexists; reflexivity); discriminate|].
  split.
  { destruct (C58_construction_succeeds start_heap 0 renamed_output) as (h' & n' & g' & T' & _).
    - intros u. left. reflexivity.
    - intros u q [].
    - repeat constructor; try (eexists; reflexivity); discriminate.
    - apply no_double_check. vm_compute. reflexivity.
    - intros y s c I Ic VV. apply is_variant_endswith in VV. exfalso.
      simpl in I. destruct I as [<-|[<-|[]]]; destruct s; simpl in Ic; first [destruct Ic as [<-|[]]; discriminate VV|destruct Ic].
    - intros i j y y' k I J VV E E'. exfalso. apply is_variant_endswith in VV.
      apply nth_error_In in I. simpl in I. destruct I as [<-|[<-|[]]]; destruct E as [(_ & ->)|(_ & ->)]; discriminate.
    - intros y I. simpl in I. destruct I as [<-|[<-|[]]]; discriminate.
    - destruct T' as (k & T'). exists k. intros m L. rewrite (T' m L). specialize (T' (k + 5) ltac:(lia)).
      replace (k + 5) with (S (S (S (S (S k))))) in T' by lia. rewrite <- T'. clear - B.
      rewrite <- B. reflexivity. }
  split.
  { eexists _, (ex_ycall "f.1" false), (ex_ycall "f.2" false), _. split; [left; reflexivity|].
    split; [right; split; [intros (a & b & E); destruct a as [|? [|? [|? [|? [|? a]]]]]; discriminate E|reflexivity]|].
    split; [left; reflexivity|]. split; [left; reflexivity|]. split; [reflexivity|]. split; [reflexivity|].
    split; [right; left; reflexivity|]. repeat split. }
  split; [exact T|].
  destruct (p_objects p) as [|o os] eqn:P; [reflexivity|exfalso].
  destruct (C06_only_nonequal_reachable_functions_listed (fun l => l) h g "main" "main" false 0 0
              (fun l => Permutation_refl l) ltac:(rewrite V; reflexivity) ltac:(rewrite V; reflexivity) F1 F2 p o T
              ltac:(rewrite P; left; reflexivity)) as (v & _ & (path & R) & NH & _).
  inversion R as [|? e w path' ? (I & D) _ R']; subst.
  - apply NH. right. rewrite H0. split; reflexivity.
  - rewrite H0 in I. destruct I as [<-|[]]. rewrite V in D. discriminate.
Qed.
Print Assumptions C59_renamed_callee_reported_refuted.

(** ** C60 *)
(** When the compared function calls a changed function both with its result used ([f]) and
    with its result ignored (the variant [f.void], found EQUAL), normalisation weakens also
    the first call: the difference of [f] is no longer listed. *)
Definition both_calls_output : list yresult :=
  [ ex_result "main" "equal" "a.c" [ex_ycall "f" false; ex_ycall "f.void" false];
    ex_result "f" "not-equal" "a.c" [];
    ex_result "f.void" "equal" "a.c" [] ].
Theorem C60_used_result_difference_listed_refuted :
  exists ys h n g p,
    Forall yresult_ok ys /\ no_double_variants ys /\ variants_closed ys /\ variants_distinct ys /\
    terminates_with (fun fuel => build_graph fuel start_heap 0 ys) (Ok (h, n, g)) /\
    (exists y c callee, In y ys /\ stored_as y "main" /\ In c (ycalls y LEFT) /\ In c (ycalls y RIGHT) /\
       yc_weak c = false /\ In callee ys /\ stored_as callee (yc_fun c) /\ yr_result callee = "not-equal"%string) /\
    terminates_with (fun fuel => graph_to_fun_pair_list (fun l => l) fuel h g "main" "main" false) (Ok p) /\
    p_objects p = [].
Proof.
  assert (ST : forall y k, In y both_calls_output -> stored_as y k -> yi_fun (yr_first y) = k).
  { intros y k I [(_ & ->)|(_ & ->)]; [reflexivity|].
    simpl in I. repeat (destruct I as [<-|I]; [reflexivity|]). destruct I. }
  assert (ND : forall n, String.length n < 5 -> has_char "." n = false -> ~ dotted n).
  { intros n _ E D. apply dotted_spec in D. congruence. }
  exists both_calls_output. eexists _, _, _, _.
  split; [repeat constructor; try (eexists; reflexivity); discriminate|].
  split; [apply no_double_check; vm_compute; reflexivity|].
  split.
  { intros y s c I Ic V. exists (ex_result "f.void" "equal" "a.c" []). split; [simpl; auto|].
    left. split; [exists "f"%string, "void"%string; reflexivity|].
    apply is_variant_endswith in V. simpl in I.
    repeat (destruct I as [<-|I]; [destruct s; simpl in Ic;
      repeat (destruct Ic as [<-|Ic]; [first [discriminate V|reflexivity]|]); destruct Ic|]). destruct I. }
  split.
  { intros i j y y' k I J _ E E'. apply ST in E; [|eapply nth_error_In; eauto]. apply ST in E'; [|eapply nth_error_In; eauto].
    assert (N : NoDup (map (fun z => yi_fun (yr_first z)) both_calls_output)) by (repeat constructor; simpl; intuition discriminate).
    rewrite NoDup_nth_error in N. apply N.
    - rewrite map_length. apply nth_error_Some. congruence.
    - rewrite !nth_error_map, I, J. simpl. congruence. }
  split.
  { exists 10. intros m L. do 10 (destruct m as [|m]; [lia|]). vm_compute. reflexivity. }
  split.
  { eexists _, (ex_ycall "f" false), _. split; [left; reflexivity|].
    split; [right; split; [apply ND; [simpl; lia|reflexivity]|reflexivity]|].
    split; [left; reflexivity|]. split; [left; reflexivity|]. split; [reflexivity|].
    split; [right; left; reflexivity|]. split; [right; split; [apply ND; [simpl; lia|reflexivity]|reflexivity]|reflexivity]. }
  split.
  { exists 10. intros m L. do 10 (destruct m as [|m]; [lia|]). vm_compute. reflexivity. }
  reflexivity.
Qed.
Print Assumptions C60_used_result_difference_listed_refuted.
