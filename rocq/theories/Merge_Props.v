(** * Properties of graph merging (C08-C10) *)
From Coq Require Import String Ascii ZArith Arith Bool Lia List Permutation.
From Verif Require Import PyBase Result_Model Graph_Model Graph_Spec Graph_Proofs Graph_Objects
  Graph_Merge Graph_Props.
Import ListNotations.
Open Scope list_scope.


Lemma merged_dec x y : replaces x y \/ ~ replaces x y.
Proof. rewrite <- priority_replaces. destruct (compare_vertex_priority x y); auto. Qed.

(** ** C08 *)
(** A name is known afterwards iff one of the graphs knew it; it denotes the old record, or the
    absorbed one exactly if the name is new or the absorbed record takes precedence; nothing in
    a record changes except that caching may be allowed again. *)
Theorem C08_merge_keeps_every_function :
  forall h self other h' g', dictionary_keys_distinct self -> dictionary_keys_distinct other ->
    absorb_graph h self other = (h', g') ->
    dictionary_keys_distinct g' /\
    (forall n, dget (g_verts g') n = None <-> dget (g_verts self) n = None /\ dget (g_verts other) n = None) /\
    (forall n, dget (g_verts other) n = None -> dget (g_verts g') n = dget (g_verts self) n) /\
    (forall n, dget (g_verts self) n = None -> dget (g_verts g') n = dget (g_verts other) n) /\
    (forall n o v, dget (g_verts self) n = Some o -> dget (g_verts other) n = Some v ->
       (replaces (h o) (h v) /\ dget (g_verts g') n = Some v) \/
       (~ replaces (h o) (h v) /\ dget (g_verts g') n = Some o)) /\
    (forall v, same_but_cachable (h' v) (h v)).
Proof.
  intros h self other h' g' N1 N2 H.
  destruct (absorb_fold _ _ _ _ _ N2 H) as (E & G & _ & _ & _ & N).
  split; [apply N; exact N1|].
  split; [|split; [|split; [|split]]].
  - intros n. rewrite G. unfold merged. destruct (dget (g_verts self) n), (dget (g_verts other) n);
      split; try tauto; try discriminate; intros [? ?]; discriminate.
  - intros n D. rewrite G, D. unfold merged. destruct (dget (g_verts self) n); reflexivity.
  - intros n D. rewrite G, D. reflexivity.
  - intros n o v D1 D2. rewrite G, D1, D2. unfold merged. rewrite <- priority_replaces.
    destruct (compare_vertex_priority (h o) (h v)); [left|right]; split; auto; congruence.
  - intros v. exact (with_cachable_inj _ _ _ (E v)).
Qed.
Print Assumptions C08_merge_keeps_every_function.

(** Absorbing any number of graphs one after the other, as a run over many functions does. *)
Theorem C08_run_keeps_every_function :
  forall others h self h' g', dictionary_keys_distinct self -> Forall dictionary_keys_distinct others ->
    fold_left (fun st o => absorb_graph (fst st) (snd st) o) others (h, self) = (h', g') ->
    forall n, dget (g_verts g') n = None <->
      dget (g_verts self) n = None /\ Forall (fun o => dget (g_verts o) n = None) others.
Proof.
  induction others as [|o others IH]; intros h self h' g' N F H n.
  - cbn in H. injection H as <- <-. split; [auto|tauto].
  - cbn [fold_left fst snd] in H. inversion F as [|? ? No Fo]; subst.
    destruct (absorb_graph h self o) as [h1 g1] eqn:A.
    destruct (C08_merge_keeps_every_function _ _ _ _ _ N No A) as (N1 & K & _).
    rewrite (IH _ _ _ _ N1 Fo H n), K. rewrite Forall_cons_iff. tauto.
Qed.
Print Assumptions C08_run_keeps_every_function.

(** An example: [self] knows [f] (assumed equal, preventing the caching of [p]) and [k];
    [other] knows [f] (not equal), [k] (unknown) and [m]. *)
Definition mg_heap : heap := heap_of
  [ mkVertex ("f", "f")%string ASSUMED_EQUAL [] ([], []) (Some "a.c", Some "a.c")%string (None, None) no_stats true [2] ([], []);
    ex_fun "k" NOT_EQUAL "a.c" [] [];
    with_cachable (ex_fun "p" EQUAL "a.h" [] []) false;
    ex_fun "f" NOT_EQUAL "a.c" [] [ex_call "k" STRONG];
    ex_fun "k" UNKNOWN "a.c" [] [];
    ex_fun "m" EQUAL "a.c" [] [] ].
Definition mg_self := mkGraph [("f", 0); ("k", 1); ("p", 2)]%string ["p"%string] [] [].
Definition mg_other := mkGraph [("f", 3); ("k", 4); ("m", 5)]%string ["m"%string] [] [].
Example mg_self_dictionary_keys_distinct : dictionary_keys_distinct mg_self /\ dictionary_keys_distinct mg_other.
Proof. split; repeat constructor; simpl; intuition discriminate. Qed.
Example C08_example :
  g_verts (snd (absorb_graph mg_heap mg_self mg_other)) = [("f", 3); ("k", 1); ("p", 2); ("m", 5)]%string.
Proof. reflexivity. Qed.

(** ** C09 *)
(** A recorded difference is replaced only by a record with more calls, or, when it relates
    different files, by an EQUAL one; otherwise the name still denotes the same record, still
    NOT_EQUAL with all its details. *)
Theorem C09_difference_kept :
  forall h self other h' g' n o, dictionary_keys_distinct self -> dictionary_keys_distinct other ->
    absorb_graph h self other = (h', g') ->
    dget (g_verts self) n = Some o -> v_result (h o) = NOT_EQUAL ->
    (forall v, dget (g_verts other) n = Some v ->
       ~ more_calls (h o) (h v) /\
       (fst (v_files (h o)) = snd (v_files (h o)) \/ v_result (h v) <> EQUAL)) ->
    dget (g_verts g') n = Some o /\ same_but_cachable (h' o) (h o).
Proof.
  intros h self other h' g' n o N1 N2 A D R K.
  destruct (C08_merge_keeps_every_function _ _ _ _ _ N1 N2 A) as (_ & _ & K1 & _ & K3 & K4).
  split; [|apply K4]. destruct (dget (g_verts other) n) as [v|] eqn:O.
  - destruct (K3 _ _ _ D O) as [(P & _)|(_ & E)]; [exfalso|exact E].
    destruct (K v eq_refl) as (M & F). destruct P as [P|[P|[(P1 & P2 & P3)|P]]]; try contradiction; try congruence.
    destruct F; contradiction.
  - rewrite K1 by exact O. exact D.
Qed.
Print Assumptions C09_difference_kept.

(** In particular a difference never becomes undecided when undecided records have no more
    calls than decided ones. *)
Theorem C09_difference_never_undecided :
  forall h self other h' g' n o v, dictionary_keys_distinct self -> dictionary_keys_distinct other ->
    absorb_graph h self other = (h', g') ->
    dget (g_verts self) n = Some o -> v_result (h o) = NOT_EQUAL ->
    dget (g_verts g') n = Some v ->
    (forall w, dget (g_verts other) n = Some w ->
       v_result (h w) = UNKNOWN \/ v_result (h w) = ASSUMED_EQUAL -> ~ more_calls (h o) (h w)) ->
    v_result (h' v) <> UNKNOWN /\ v_result (h' v) <> ASSUMED_EQUAL.
Proof.
  intros h self other h' g' n o v N1 N2 A D R V K.
  destruct (C08_merge_keeps_every_function _ _ _ _ _ N1 N2 A) as (_ & _ & K1 & _ & K3 & K4).
  assert (RV : v_result (h' v) = v_result (h v)) by apply (K4 v). rewrite RV.
  destruct (dget (g_verts other) n) as [w|] eqn:O.
  - destruct (K3 _ _ _ D O) as [(P & E)|(_ & E)]; rewrite E in V; injection V as <-.
    + destruct P as [P|[P|[(_ & _ & P)|P]]]; try congruence; [rewrite P; split; discriminate|].
      specialize (K w eq_refl). split; intros X; apply K; auto.
    + rewrite R. split; discriminate.
  - rewrite K1 in V by exact O. rewrite D in V. injection V as <-. rewrite R. split; discriminate.
Qed.
Print Assumptions C09_difference_never_undecided.

(** Without that condition the difference can be lost: the later record is undecided but has
    one more call. *)
Theorem C09_difference_never_lost_refuted :
  exists h self other h' g' n o v,
    dictionary_keys_distinct self /\ dictionary_keys_distinct other /\ absorb_graph h self other = (h', g') /\
    dget (g_verts self) n = Some o /\ v_result (h o) = NOT_EQUAL /\
    dget (g_verts g') n = Some v /\ v_result (h' v) = ASSUMED_EQUAL.
Proof.
  set (h := heap_of [ex_fun "f" NOT_EQUAL "a.c" [] []; ex_fun "f" ASSUMED_EQUAL "a.c" [] [ex_call "g" WEAK]]).
  exists h, (mkGraph [("f", 0)]%string [] [] []), (mkGraph [("f", 1)]%string [] [] []).
  eexists _, _, "f"%string, 0, 1.
  split; [|split; [|split; [reflexivity|]]]; [repeat constructor; simpl; tauto|repeat constructor; simpl; tauto|].
  repeat split; reflexivity.
Qed.
Print Assumptions C09_difference_never_lost_refuted.

Example C09_example :
  dget (g_verts mg_self) "k"%string = Some 1 /\ v_result (mg_heap 1) = NOT_EQUAL /\
  dget (g_verts mg_other) "k"%string = Some 4 /\ ~ more_calls (mg_heap 1) (mg_heap 4) /\
  dget (g_verts (snd (absorb_graph mg_heap mg_self mg_other))) "k"%string = Some 1.
Proof. repeat split. intros [X|X]; simpl in X; lia. Qed.

(** ** C10 *)
Theorem C10_undecided_results_resolved :
  forall h self other h' g' n o v, dictionary_keys_distinct self -> dictionary_keys_distinct other ->
    absorb_graph h self other = (h', g') ->
    dget (g_verts self) n = Some o -> v_result (h o) = UNKNOWN \/ v_result (h o) = ASSUMED_EQUAL ->
    dget (g_verts other) n = Some v ->
    dget (g_verts g') n = Some v /\ v_result (h' v) = v_result (h v).
Proof.
  intros h self other h' g' n o v N1 N2 A D R V.
  destruct (C08_merge_keeps_every_function _ _ _ _ _ N1 N2 A) as (_ & _ & _ & _ & K3 & K4).
  split; [|apply (K4 v)]. destruct (K3 _ _ _ D V) as [(_ & E)|(P & _)]; [exact E|].
  exfalso. apply P. unfold replaces. tauto.
Qed.
Print Assumptions C10_undecided_results_resolved.

(** A function is cachable afterwards iff it was, or an ASSUMED_EQUAL function that prevented
    its caching gets a different verdict from the absorbed graph. *)
Theorem C10_caching_allowed_again :
  forall h self other h' g', dictionary_keys_distinct self -> dictionary_keys_distinct other ->
    absorb_graph h self other = (h', g') ->
    forall w, v_cachable (h' w) = true <->
      v_cachable (h w) = true \/
      exists n o v, dget (g_verts self) n = Some o /\ dget (g_verts other) n = Some v /\
        v_result (h o) = ASSUMED_EQUAL /\ v_result (h v) <> ASSUMED_EQUAL /\ In w (v_prevents (h o)).
Proof.
  intros h self other h' g' N1 N2 H w.
  destruct (absorb_fold _ _ _ _ _ N2 H) as (_ & _ & C & _). rewrite C, orb_true_iff, existsb_exists.
  split; (intros [X|X]; [auto|right]).
  - destruct X as ([n v] & I & R). unfold resets in R. cbn [fst snd] in R.
    destruct (dget (g_verts self) n) as [o|] eqn:D; [|discriminate].
    rewrite !andb_true_iff, negb_true_iff in R. destruct R as (((P & A) & B) & M).
    exists n, o, v. split; [exact D|]. split; [apply dget_In_NoDup; assumption|].
    destruct (kind_eqb_spec (v_result (h o)) ASSUMED_EQUAL) as [E|]; [|discriminate].
    destruct (kind_eqb_spec (v_result (h v)) ASSUMED_EQUAL) as [|NE]; [discriminate|].
    apply mem_In in M. auto.
  - destruct X as (n & o & v & D & V & A & B & M). exists (n, v). split; [apply dget_In; exact V|].
    unfold resets. cbn [fst snd]. rewrite D.
    assert (P : compare_vertex_priority (h o) (h v) = true) by (apply priority_replaces; left; exact A).
    rewrite P, A. apply mem_In in M. rewrite M.
    destruct (kind_eqb_spec (v_result (h v)) ASSUMED_EQUAL) as [|_]; [contradiction|]. reflexivity.
Qed.
Print Assumptions C10_caching_allowed_again.

Example C10_example :
  v_cachable (mg_heap 2) = false /\
  v_cachable (fst (absorb_graph mg_heap mg_self mg_other) 2) = true /\
  v_result (fst (absorb_graph mg_heap mg_self mg_other) 3) = NOT_EQUAL.
Proof. repeat split. Qed.
