(** * Properties of the comparison graph (C01-C14, C56-C58) *)
From Coq Require Import String Ascii ZArith Arith Bool Lia List Permutation.
From Verif Require Import PyBase Result_Model Graph_Model Graph_Spec Graph_Proofs Graph_Objects
  Graph_Merge Graph_Normalize Graph_Build.
Import ListNotations.
Open Scope list_scope.

(** ** A concrete graph used in the examples: [main] calls [f] (strongly) and [w] (weakly), [f]
    calls [g] and itself, [g] calls [main]; [f] and [g] differ and [g] has a macro difference;
    [ext] lies in another C file. *)
Definition ex_fun (n : string) (k : kind) (file : string) (ds : list nonfun) (es : list edge) : vertex :=
  mkVertex (n, n) k ds (es, es) (Some file, Some file) (Some 1%Z, Some 1%Z) no_stats true [] ([], []).
Definition ex_call (t : string) (d : dep) : edge := mkEdge t "a.c" 7%Z d.
Definition ex_macro : nonfun := SyntaxDiff "MACRO" "g" ([mkCall "MACRO" "a.c" 9%Z], [mkCall "MACRO" "a.c" 9%Z]) ("1", "2")%string.
Definition ex_vertices : list vertex :=
  [ ex_fun "main" EQUAL "a.c" [] [ex_call "f" STRONG; ex_call "w" WEAK; ex_call "ext" STRONG];
    ex_fun "f" NOT_EQUAL "a.c" [] [ex_call "g" STRONG; ex_call "f" STRONG];
    ex_fun "g" NOT_EQUAL "h.h" [ex_macro] [ex_call "main" STRONG];
    ex_fun "w" NOT_EQUAL "a.c" [] [];
    ex_fun "ext" NOT_EQUAL "b.c" [] [] ].
Definition heap_of (l : list vertex) : heap := fun v => nth v l (ex_fun "" NONE "" [] []).
Definition graph_of (l : list vertex) : graph :=
  mkGraph (combine (map (fun x => fst (v_names x)) l) (seq 0 (length l))) [] [] [].
Definition ex_heap := heap_of ex_vertices.
Definition ex_graph := graph_of ex_vertices.

(** ** C01 *)
(** The traversal ends for every heap, graph, side and start name; it fails only with KeyError
    when the start function is unknown, or because a function has no source file; when the
    start is known and all functions have files it succeeds. *)
Theorem C01_traversal_terminates :
  forall h g s name, terminates (fun fuel => reachable_from fuel h g s name).
Proof. exact reachable_from_terminates. Qed.
Print Assumptions C01_traversal_terminates.

Theorem C01_traversal_errors :
  forall h g s name fuel e,
    reachable_from fuel h g s name = Some (Err e) ->
    (e = KeyError /\ dget (g_verts g) name = None) \/ (e = AttributeError /\ ~ all_files h g s).
Proof. exact reachable_from_err. Qed.
Print Assumptions C01_traversal_errors.

Theorem C01_traversal_succeeds :
  forall h g s name start,
    dget (g_verts g) name = Some start -> all_files h g s ->
    exists acc, terminates_with (fun fuel => reachable_from fuel h g s name) (Ok acc).
Proof. exact reachable_from_succeeds. Qed.
Print Assumptions C01_traversal_succeeds.

Lemma ex_all_files s : all_files ex_heap ex_graph s.
Proof.
  intros n v H. apply dget_In in H. simpl in H.
  repeat (destruct H as [H|H]; [injection H as <- <-; destruct s; discriminate|]). destruct H.
Qed.
Example C01_example :
  reachable_from 10 ex_heap ex_graph LEFT "main" =
    Some (Ok (mkRacc [0; 1; 2] [(1, (0, ex_call "f" STRONG)); (3, (0, ex_call "w" WEAK)); (2, (1, ex_call "g" STRONG))])).
Proof. vm_compute. reflexivity. Qed.

(** ** C02 *)
Theorem C02_reported_functions_are_reachable :
  forall h g s name start fuel acc v,
    dget (g_verts g) name = Some start ->
    reachable_from fuel h g s name = Some (Ok acc) -> In v (ra_result acc) ->
    v = start \/
    exists path u e, chain h g s start start (path ++ [(u, e)]) v /\ e_kind e = STRONG.
Proof.
  intros h g s name start fuel acc v D H I. apply reachable_from_ok in H.
  destruct H as (start' & D' & vis & J). rewrite D in D'. injection D' as <-.
  eapply inv_sound; eauto.
Qed.
Print Assumptions C02_reported_functions_are_reachable.

(** The start function is always reported. *)
Theorem C02_start_is_reported :
  forall h g s name start fuel acc,
    dget (g_verts g) name = Some start ->
    reachable_from fuel h g s name = Some (Ok acc) -> In start (ra_result acc).
Proof.
  intros h g s name start fuel acc D H. apply reachable_from_ok in H.
  destruct H as (start' & D' & vis & J). rewrite D in D'. injection D' as <-.
  destruct (inv_first _ _ _ _ _ _ _ J) as (l & ->). left. reflexivity.
Qed.
Print Assumptions C02_start_is_reported.

(** Functions in other C files are not entered: [ext] is called by [main] but not reported. *)
Example C02_example :
  ~ reachable ex_heap ex_graph LEFT 0 4 /\
  exists acc, reachable_from 10 ex_heap ex_graph LEFT "main" = Some (Ok acc) /\ In 2 (ra_result acc).
Proof.
  split.
  - intros (path & C).
    assert (E : enterable ex_heap LEFT 0 4).
    { eapply chain_end_enterable; [exact C|discriminate]. }
    destruct E as (f & Ef & X). simpl in Ef. injection Ef as <-.
    assert (H : has_ext "b.c" ".c") by (exists "b"%string; reflexivity).
    specialize (X H). simpl in X. discriminate.
  - eexists. split; [vm_compute; reflexivity|]. simpl. auto.
Qed.

(** ** C03 *)
(** Completeness: a reachable function is reported whenever no reachable function calls it
    weakly; on graphs without weak calls this is full completeness. *)
Theorem C03_reachable_reported_unless_weakly_called :
  forall h g s name start fuel acc v,
    dget (g_verts g) name = Some start ->
    reachable_from fuel h g s name = Some (Ok acc) ->
    reachable h g s start v ->
    (forall u e, reachable h g s start u -> calls h g s u e v -> e_kind e = STRONG) ->
    In v (ra_result acc).
Proof.
  intros h g s name start fuel acc v D H R W. apply reachable_from_ok in H.
  destruct H as (start' & D' & vis & J). rewrite D in D'. injection D' as <-.
  eapply inv_complete; eauto.
Qed.
Print Assumptions C03_reachable_reported_unless_weakly_called.

Theorem C03_exact_without_weak_calls :
  forall h g s name start fuel acc,
    dget (g_verts g) name = Some start ->
    (forall u e t, calls h g s u e t -> e_kind e = STRONG) ->
    reachable_from fuel h g s name = Some (Ok acc) ->
    forall v, In v (ra_result acc) <-> reachable h g s start v.
Proof.
  intros h g s name start fuel acc D NW H v. split.
  - intros I. destruct (C02_reported_functions_are_reachable _ _ _ _ _ _ _ _ D H I) as [->|(p & u & e & C & _)].
    + exists []. constructor.
    + exists (p ++ [(u, e)]). exact C.
  - intros R. eapply C03_reachable_reported_unless_weakly_called; eauto.
Qed.
Print Assumptions C03_exact_without_weak_calls.

(** The discovered functions (those having a call stack) are exactly the reachable ones, weak
    calls included. *)
Theorem C03_discovered_iff_reachable :
  forall h g s name start fuel acc v,
    dget (g_verts g) name = Some start ->
    reachable_from fuel h g s name = Some (Ok acc) ->
    (v = start \/ dget (ra_back acc) v <> None <-> reachable h g s start v).
Proof.
  intros h g s name start fuel acc v D H. apply reachable_from_ok in H.
  destruct H as (start' & D' & vis & J). rewrite D in D'. injection D' as <-.
  rewrite <- (inv_discovered h g s start vis acc v J).
  assert (E : dget (ra_back acc) v <> None <-> In v (dkeys (ra_back acc))).
  { rewrite dget_None. split; [|auto]. intros X. destruct (in_dec Nat.eq_dec v (dkeys (ra_back acc))); tauto. }
  rewrite E. reflexivity.
Qed.
Print Assumptions C03_discovered_iff_reachable.

(** The unrestricted statement is false: [start] calls [a] weakly and [b] strongly, and [b]
    calls [a] strongly; [a] is strongly reachable but never reported, because it was already
    visited when its strong call was seen. *)
Definition weak_first : list vertex :=
  [ ex_fun "start" EQUAL "a.c" [] [ex_call "a" WEAK; ex_call "b" STRONG];
    ex_fun "a" NOT_EQUAL "a.c" [] [];
    ex_fun "b" EQUAL "a.c" [] [ex_call "a" STRONG] ].
Theorem C03_strongly_reachable_reported_refuted :
  exists h g name start v acc,
    dget (g_verts g) name = Some start /\
    terminates_with (fun fuel => reachable_from fuel h g LEFT name) (Ok acc) /\
    strongly_reachable h g LEFT start v /\ v_result (h v) = NOT_EQUAL /\ ~ In v (ra_result acc).
Proof.
  exists (heap_of weak_first), (graph_of weak_first), "start"%string, 0, 1.
  assert (E : exists acc, reachable_from 10 (heap_of weak_first) (graph_of weak_first) LEFT "start" = Some (Ok acc)
                          /\ ~ In 1 (ra_result acc)).
  { eexists. split; [vm_compute; reflexivity|]. simpl. intuition discriminate. }
  destruct E as (acc & E & N). exists acc. split; [reflexivity|].
  split; [exists 10; intros m L; eapply reachable_from_mono; eauto|].
  split; [|split; [reflexivity|exact N]].
  exists [(0, ex_call "b" STRONG); (2, ex_call "a" STRONG)]. split.
  - econstructor; [split; [simpl; auto|reflexivity]| |].
    + exists "a.c"%string. split; [reflexivity|reflexivity].
    + econstructor; [split; [simpl; auto|reflexivity]| |constructor].
      exists "a.c"%string. split; [reflexivity|reflexivity].
  - repeat constructor.
Qed.
Print Assumptions C03_strongly_reachable_reported_refuted.

Example C03_example :
  In 2 (ra_result (mkRacc [0; 1; 2] [])) /\ reachable ex_heap ex_graph LEFT 0 2 /\
  forall u e, calls ex_heap ex_graph LEFT u e 2 -> e_kind e = STRONG.
Proof.
  split; [simpl; auto|]. split.
  - exists [(0, ex_call "f" STRONG); (1, ex_call "g" STRONG)].
    econstructor; [split; [simpl; auto|reflexivity]|exists "a.c"%string; split; reflexivity|].
    econstructor; [split; [simpl; auto|reflexivity]|exists "h.h"%string; split; [reflexivity|]|constructor].
    intros (p & E). exfalso. apply (f_equal (fun x => endswith x ".c")) in E.
    assert (endswith (p ++ ".c") ".c" = true) as T by (apply endswith_spec; eauto). rewrite T in E. discriminate.
  - intros u e (I & D). destruct u as [|[|[|[|[|u]]]]]; simpl in I;
      repeat (destruct I as [<-|I]; [try reflexivity; try discriminate D|]); try destruct I; destruct u; destruct I.
Qed.

(** ** C04 *)
(** For every discovered function the call stack is computed (the walk ends), is a chain of
    recorded calls from the start to the function, and is non-empty for any function but the
    start. *)
Theorem C04_callstacks_are_call_chains :
  forall h g s name start fuel acc v,
    dget (g_verts g) name = Some start ->
    reachable_from fuel h g s name = Some (Ok acc) ->
    v = start \/ dget (ra_back acc) v <> None ->
    exists es,
      terminates_with (fun k => get_callstack k (ra_back acc) start v) (Ok es) /\
      chain h g s start start es v /\ (v <> start -> es <> []).
Proof.
  intros h g s name start fuel acc v D H I. apply reachable_from_ok in H.
  destruct H as (start' & D' & vis & J). rewrite D in D'. injection D' as <-.
  destruct (get_callstack_chain h g s start (ra_back acc) v (inv_back _ _ _ _ _ _ _ J)) as (es & T & C & NE).
  { destruct I as [I|I]; [auto|right]. destruct (in_dec Nat.eq_dec v (dkeys (ra_back acc))); [assumption|].
    exfalso. apply I, dget_None. assumption. }
  exists es. split; [exists (length (ra_back acc)); exact T|]. auto.
Qed.
Print Assumptions C04_callstacks_are_call_chains.

(** The displayed stack names, for each call on the chain, the called function with the file
    and line of the call; its last entry names the reported function. *)
Theorem C04_callstack_text :
  forall h g s start es v, chain h g s start start es v ->
    callstack_of_edges es = calls_along es /\
    forall es' u e, es = es' ++ [(u, e)] -> dget (g_verts g) (e_target e) = Some v.
Proof.
  intros h g s start es v C. split; [reflexivity|]. intros es' u e ->.
  apply chain_snoc_inv in C. destruct C as (_ & (_ & X) & _). exact X.
Qed.
Print Assumptions C04_callstack_text.

Example C04_example :
  exists acc, reachable_from 10 ex_heap ex_graph LEFT "main" = Some (Ok acc) /\
    get_callstack 5 (ra_back acc) 0 2 = Some (Ok [(0, ex_call "f" STRONG); (1, ex_call "g" STRONG)]).
Proof. eexists. split; vm_compute; reflexivity. Qed.

(** ** C05 *)
(** The cost is exponential: for every [n] there is a graph of [3n+1] functions, each with at
    most two calls, on which the returned list has at least [2^n] elements and the loop body
    runs at least [2^n] times. *)
Theorem C05_polynomial_cost_refuted :
  forall n, exists h g name acc,
    length (g_verts g) = 3 * n + 1 /\
    (forall v s, length (sel s (v_succ (h v))) <= 2) /\
    terminates_with (fun fuel => reachable_from fuel h g LEFT name) (Ok acc) /\
    2 ^ n <= length (ra_result acc) /\
    (forall fuel, fuel <= 2 ^ n -> reachable_from fuel h g LEFT name = None).
Proof.
  intros n.
  destruct (reachable_from_succeeds dia_heap (dia_graph n) LEFT (xs 0) 0) as (acc & T).
  { apply dia_get. lia. } { apply dia_files. }
  exists dia_heap, (dia_graph n), (xs 0), acc. split; [|split; [|split]].
  - unfold dia_graph. cbn [g_verts]. rewrite map_length, seq_length. reflexivity.
  - intros v s. assert (L : length (dia_targets v) <= 2) by (unfold dia_targets; destruct (v mod 3) as [|[|]]; simpl; lia).
    destruct s; simpl; rewrite map_length; exact L.
  - exact T.
  - exact (dia_exponential n acc T).
Qed.
Print Assumptions C05_polynomial_cost_refuted.

(** ** C06, C07 *)
Section PairList.
  Variables (order : list vid -> list vid) (h : heap) (g : graph) (f1 f2 : string) (full_diff : bool).
  Variables (sl sr : vid).
  (** Python iterates over a set in some order. *)
  Hypothesis any_order : forall l, Permutation (order l) l.
  Hypothesis known1 : dget (g_verts g) f1 = Some sl.
  Hypothesis known2 : dget (g_verts g) f2 = Some sr.
  Hypothesis files1 : all_files h g LEFT.
  Hypothesis files2 : all_files h g RIGHT.
  Notation run := (fun fuel => graph_to_fun_pair_list order fuel h g f1 f2 full_diff).

  (** The list is always computed. *)
  Theorem C06_object_list_computed : exists p, terminates_with run (Ok p).
  Proof.
    destruct (pair_list_correct order h g f1 f2 full_diff sl sr any_order known1 known2 files1 files2)
      as (l & r & p & vs & blocks & _ & _ & T & _). exists p. exact T.
  Qed.

  (** Soundness: each listed object is either a function reached on both sides whose verdict is
      to be shown, reported with its recorded names, places, verdict and call stacks that are
      real chains; or a non-function difference recorded for such a function, always
      NOT_EQUAL. *)
  Theorem C06_only_nonequal_reachable_functions_listed :
    forall p o, terminates_with run (Ok p) -> In o (p_objects p) ->
    exists v, reachable h g LEFT sl v /\ reachable h g RIGHT sr v /\
      ~ hidden full_diff (v_result (h v)) /\
      ((reports_function h v o /\
        function_stack h g LEFT sl f1 v (en_callstack (o_first o)) /\
        function_stack h g RIGHT sr f2 v (en_callstack (o_second o))) \/
       (exists d, In d (v_nonfun (h v)) /\ reports_nonfun d o /\
        nonfun_stack h g LEFT sl f1 v d (en_callstack (o_first o)) /\
        nonfun_stack h g RIGHT sr f2 v d (en_callstack (o_second o)))).
  Proof.
    intros p o T Io.
    destruct (pair_list_correct order h g f1 f2 full_diff sl sr any_order known1 known2 files1 files2)
      as (l & r & p' & vs & blocks & Tl & Tr & T' & N & IN & E & F & _).
    assert (p' = p) by (pose proof (terminates_with_det _ _ _ T T'); congruence). subst p'.
    rewrite E in Io. apply in_flat_map in Io. destruct Io as (b & Ib & Io).
    assert (G : exists v, In v vs /\ block_ok h g f1 f2 sl sr v b).
    { clear - F Ib. induction F as [|v b' vs bs B F IH]; [destruct Ib|]. destruct Ib as [->|Ib].
      - exists v. simpl. auto.
      - destruct (IH Ib) as (w & Iw & Bw). exists w. simpl. auto. }
    destruct G as (v & Iv & (FD & ND)). exists v. apply IN in Iv. destruct Iv as (Il & Ir & NH).
    assert (RE : forall s name start acc, dget (g_verts g) name = Some start ->
               terminates_with (fun n => reachable_from n h g s name) (Ok acc) -> In v (ra_result acc) ->
               reachable h g s start v).
    { intros s name start acc D (n & H) I. specialize (H n (le_n _)).
      destruct (C02_reported_functions_are_reachable _ _ _ _ _ _ _ _ D H I) as [->|(q & u & e & C & _)].
      - exists []. constructor.
      - eexists. exact C. }
    split; [eapply RE; eauto|]. split; [eapply RE; eauto|]. split; [exact NH|].
    destruct Io as [<-|Io].
    - left. exact FD.
    - right. clear - ND Io. induction ND as [|d o' ds os D F IH]; [destruct Io|]. destruct Io as [->|Io].
      + exists d. split; [left; reflexivity|exact D].
      + destruct (IH Io) as (d' & I' & X). exists d'. split; [right; exact I'|exact X].
  Qed.

  (** Completeness: there is a duplicate-free enumeration of the functions the traversal
      returned on both sides and whose verdict is to be shown; the object list consists of one
      block per such function, in that order: the function itself followed by exactly its
      non-function differences.  The bodies of every listed syntactic difference are found. *)
  Theorem C07_every_reached_difference_listed_once :
    forall p l r, terminates_with run (Ok p) ->
    terminates_with (fun n => reachable_from n h g LEFT f1) (Ok l) ->
    terminates_with (fun n => reachable_from n h g RIGHT f2) (Ok r) ->
    exists vs blocks,
      NoDup vs /\
      (forall v, In v vs <-> In v (ra_result l) /\ In v (ra_result r) /\ ~ hidden full_diff (v_result (h v))) /\
      p_objects p = concat (map (fun b => fst b :: snd b) blocks) /\
      Forall2 (fun v b => reports_function h v (fst b) /\ Forall2 reports_nonfun (v_nonfun (h v)) (snd b)) vs blocks /\
      (forall v n pf st b, In v vs -> In (SyntaxDiff n pf st b) (v_nonfun (h v)) ->
         dget (p_bodies_left p) n <> None /\ dget (p_bodies_right p) n <> None).
  Proof.
    intros p l r T Tl Tr.
    destruct (pair_list_correct order h g f1 f2 full_diff sl sr any_order known1 known2 files1 files2)
      as (l' & r' & p' & vs & blocks & Tl' & Tr' & T' & N & IN & E & F & BO).
    assert (p' = p) by (pose proof (terminates_with_det _ _ _ T T'); congruence). subst p'.
    assert (l' = l) by (pose proof (terminates_with_det _ _ _ Tl Tl'); congruence). subst l'.
    assert (r' = r) by (pose proof (terminates_with_det _ _ _ Tr Tr'); congruence). subst r'.
    exists vs, blocks. split; [exact N|]. split; [exact IN|]. split; [rewrite E; apply flat_map_concat_map|].
    split.
    - clear - F. induction F as [|v b vs bs ((RF & _) & ND) F IH]; constructor; auto. split; [exact RF|].
      clear - ND. induction ND as [|d o ds os (D & _) F IH]; constructor; auto.
    - intros v n pf st b Iv Id. destruct (BO v n pf st b Iv Id) as (v' & pf' & st' & b' & _ & _ & -> & ->).
      split; discriminate.
  Qed.

  (** On graphs without weak calls, every reachable difference is reported: a function that can
      be reached on both sides and whose verdict is to be shown appears in the list. *)
  Theorem C07_no_difference_missed_without_weak_calls :
    (forall s u e t, calls h g s u e t -> e_kind e = STRONG) ->
    forall p v, terminates_with run (Ok p) ->
    reachable h g LEFT sl v -> reachable h g RIGHT sr v -> ~ hidden full_diff (v_result (h v)) ->
    (exists o, In o (p_objects p) /\ reports_function h v o) /\
    (forall d, In d (v_nonfun (h v)) -> exists o, In o (p_objects p) /\ reports_nonfun d o).
  Proof.
    intros NW p v T R1 R2 NH.
    destruct (reachable_from_succeeds h g LEFT f1 sl known1 files1) as (l & Tl).
    destruct (reachable_from_succeeds h g RIGHT f2 sr known2 files2) as (r & Tr).
    destruct (C07_every_reached_difference_listed_once p l r T Tl Tr) as (vs & blocks & N & IN & E & F & _).
    assert (Iv : In v vs).
    { apply IN. destruct Tl as (nl & Hl), Tr as (nr & Hr).
      pose proof (Hl nl (le_n _)) as Hl0. pose proof (Hr nr (le_n _)) as Hr0.
      split; [|split; [|exact NH]].
      - eapply (C03_exact_without_weak_calls _ _ _ _ _ _ _ known1); eauto.
      - eapply (C03_exact_without_weak_calls _ _ _ _ _ _ _ known2); eauto. }
    assert (G : exists b, In b blocks /\ reports_function h v (fst b) /\ Forall2 reports_nonfun (v_nonfun (h v)) (snd b)).
    { clear - F Iv. induction F as [|w b vs bs B F IH]; [destruct Iv|]. destruct Iv as [->|Iv].
      - exists b. simpl. auto.
      - destruct (IH Iv) as (b' & Ib & X). exists b'. simpl. auto. }
    destruct G as (b & Ib & RF & RN). split.
    - exists (fst b). split; [|exact RF]. rewrite E. apply in_concat. exists (fst b :: snd b).
      split; [apply in_map_iff; exists b; auto|left; reflexivity].
    - intros d Id.
      assert (X : exists o, In o (snd b) /\ reports_nonfun d o).
      { clear - RN Id. induction RN as [|d' o ds os D F IH]; [destruct Id|]. destruct Id as [->|Id].
        - exists o. simpl. auto.
        - destruct (IH Id) as (o' & Io & Y). exists o'. simpl. auto. }
      destruct X as (o & Io & Ro). exists o. split; [|exact Ro]. rewrite E. apply in_concat.
      exists (fst b :: snd b). split; [apply in_map_iff; exists b; auto|right; exact Io].
  Qed.

  (** C56: a syntactic difference is shown with its own bodies, provided no other listed
      difference of the same name has different bodies. *)
  Theorem C56_bodies_belong_to_the_difference :
    forall p v n pf st b, terminates_with run (Ok p) ->
    In (SyntaxDiff n pf st b) (v_nonfun (h v)) ->
    (forall w pf' st' b', In (SyntaxDiff n pf' st' b') (v_nonfun (h w)) -> b' = b) ->
    (exists l r, terminates_with (fun k => reachable_from k h g LEFT f1) (Ok l) /\
                 terminates_with (fun k => reachable_from k h g RIGHT f2) (Ok r) /\
                 In v (ra_result l) /\ In v (ra_result r) /\ ~ hidden full_diff (v_result (h v))) ->
    dget (p_bodies_left p) n = Some (fst b) /\ dget (p_bodies_right p) n = Some (snd b).
  Proof.
    intros p v n pf st b T Id U (l & r & Tl & Tr & Il & Ir & NH).
    destruct (pair_list_correct order h g f1 f2 full_diff sl sr any_order known1 known2 files1 files2)
      as (l' & r' & p' & vs & blocks & Tl' & Tr' & T' & N & IN & E & F & BO).
    assert (p' = p) by (pose proof (terminates_with_det _ _ _ T T'); congruence). subst p'.
    assert (l' = l) by (pose proof (terminates_with_det _ _ _ Tl Tl'); congruence). subst l'.
    assert (r' = r) by (pose proof (terminates_with_det _ _ _ Tr Tr'); congruence). subst r'.
    assert (Iv : In v vs) by (apply IN; auto).
    destruct (BO v n pf st b Iv Id) as (v' & pf' & st' & b' & _ & Id' & Bl & Br).
    rewrite (U _ _ _ _ Id') in Bl, Br. auto.
  Qed.
End PairList.
Print Assumptions C06_object_list_computed.
Print Assumptions C06_only_nonequal_reachable_functions_listed.
Print Assumptions C07_every_reached_difference_listed_once.
Print Assumptions C07_no_difference_missed_without_weak_calls.
Print Assumptions C56_bodies_belong_to_the_difference.
