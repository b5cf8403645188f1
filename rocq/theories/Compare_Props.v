(** * Properties of the compare command (C27-C31, C67-C69) *)
From Coq Require Import String Ascii ZArith Arith Bool Lia List Sorted Permutation.
From Verif Require Import PyBase Path_Model Result_Model Result_Spec Result_Proofs Result_Props Cache_Proofs
  Snapshot_Model Snapshot_Spec Snapshot_Proofs Compare_Model Compare_Spec Compare_Proofs.
Import ListNotations.
Open Scope list_scope.

(** ** C27 compare covers every common function *)

Lemma dict_like_lookup s g fs f d : dict_like s -> In (g, fs) s -> In (f, d) fs -> get_by_name s f g = Some d.
Proof.
  intros [N F] I J. unfold get_by_name. rewrite (dget_In_NoDup _ _ _ N I). apply dget_In_NoDup; [|exact J].
  eapply Forall_forall in F; [|exact I]. exact F.
Qed.

Lemma compare_inv (G : Type) (an : analysis G) o od dirs s1 s2 st y :
  dict_like s1 -> compare an o od dirs s1 s2 = Ok (st, y) ->
  exists gs, sorted_groups s1 = Ok gs /\ Permutation s1 gs /\ StronglySorted group_lt gs /\
    inv an o s1 s2 (new_result NONE od od) st /\
    map entry_key (c_trace st) = flat_map (fun kg => map (fun fd => (fst kg, fst fd)) (sort_items (snd kg))) gs /\
    fold_res (compare_group an o s2) (mkCstate (new_result NONE od od) None false dirs [] []) gs = Ok st /\
    y = match o_output o with Some d => mem d (c_dirs st) | None => false end.
Proof.
  intros W. unfold compare. destruct (sorted_groups s1) as [gs|] eqn:S; [|discriminate]. cbn [bind].
  destruct (fold_res _ _ gs) as [st1|] eqn:F; [|discriminate]. cbn [bind]. intros E. injection E as <- <-.
  destruct (sorted_groups_spec s1 gs (proj1 W) S) as [P SS].
  exists gs. split; [reflexivity|]. split; [exact P|]. split; [exact SS|].
  destruct (groups_inv an o s1 s2 (new_result NONE od od) gs (mkCstate (new_result NONE od od) None false dirs [] []) st1) as [I K];
    [split; [apply good_nil|split; [constructor|reflexivity]]| | | |exact F|].
  - intros g fs f old I J. eapply dict_like_lookup; [exact W| |exact J].
    eapply Permutation_in; [apply Permutation_sym, P|exact I].
  - eapply Permutation_NoDup; [apply Permutation_map, P|]. apply W.
  - intros g _ [].
  - split; [exact I|]. split; [exact K|]. auto.
Qed.

(** Every function of the old snapshot is handled exactly once, and rightly: skipped iff it
    is not in the same group of the new snapshot, UNKNOWN without a comparison iff one side
    has no module, compared otherwise. *)
Theorem C27_every_function_handled_once : forall (G : Type) (an : analysis G) o od dirs s1 s2 st y,
  dict_like s1 -> compare an o od dirs s1 s2 = Ok (st, y) ->
  Permutation (map entry_key (c_trace st)) (all_functions s1) /\
  NoDup (map entry_key (c_trace st)) /\
  (forall e, In e (c_trace st) -> rightly_handled s1 s2 e).
Proof.
  intros G an o od dirs s1 s2 st y W E.
  destruct (compare_inv G an o od dirs s1 s2 st y W E) as (gs & _ & P & SS & (_ & R & _) & K & _).
  assert (PP : Permutation (map entry_key (c_trace st)) (all_functions s1)).
  { rewrite K. unfold all_functions. rewrite (Permutation_flat_map _ P). clear.
    induction gs as [|[g fs] gs IH]; [constructor|]. cbn [flat_map fst snd]. apply Permutation_app; [|exact IH].
    apply Permutation_map, Permutation_sym, sort_perm. }
  split; [exact PP|]. split.
  - eapply Permutation_NoDup; [apply Permutation_sym, PP|]. destruct W as [N F]. unfold all_functions. clear - N F.
    induction s1 as [|[g fs] s IH]; [constructor|]. cbn [flat_map fst snd]. inversion N as [|? ? N1 N2]; subst.
    inversion F as [|? ? F1 F2]; subst. cbn [snd] in F1.
    assert (A : forall l : group, NoDup (dkeys l) -> NoDup (map (fun fd : string * fdesc => (g, fst fd)) l)).
    { intros l Nl. induction l as [|[f d] l IHl]; [constructor|]. inversion Nl; subst. cbn [map fst]. constructor; [|auto].
      intros I. apply in_map_iff in I as ([f2 d2] & Q & I). injection Q as ->. apply H1. apply in_map_iff. exists (f, d2). auto. }
    assert (D : forall x, In x (map (fun fd : string * fdesc => (g, fst fd)) fs) ->
              ~ In x (flat_map (fun kg => map (fun fd : string * fdesc => (fst kg, fst fd)) (snd kg)) s)).
    { intros x I J. apply in_map_iff in I as (? & <- & _). apply in_flat_map in J as ([g2 fs2] & J1 & J2).
      apply in_map_iff in J2 as (? & Q & _). injection Q as Q _. cbn in Q. subst g2.
      apply N1, in_map_iff. exists (g, fs2). auto. }
    specialize (IH N2 F2). specialize (A fs F1).
    induction (map (fun fd : string * fdesc => (g, fst fd)) fs) as [|x l IHl]; [exact IH|]. inversion A; subst.
    cbn [app]. constructor.
    + rewrite in_app_iff. intros [I|I]; [contradiction|]. apply (D x); [left; reflexivity|exact I].
    + apply IHl; [assumption|]. intros z I. apply D. right. exact I.
  - intros e I. eapply Forall_forall in R; eauto.
Qed.
Print Assumptions C27_every_function_handled_once.

(** The functions are handled in the order of group and function names. *)
Theorem C27_sorted_order : forall (G : Type) (an : analysis G) o od dirs s1 s2 st y,
  dict_like s1 -> compare an o od dirs s1 s2 = Ok (st, y) ->
  StronglySorted key_before (map entry_key (c_trace st)).
Proof.
  intros G an o od dirs s1 s2 st y W E.
  destruct (compare_inv G an o od dirs s1 s2 st y W E) as (gs & _ & P & SS & _ & K & _). rewrite K.
  assert (F : Forall (fun kg : option string * group => NoDup (dkeys (snd kg))) gs).
  { apply Forall_forall. intros kg I. destruct W as [_ F]. eapply Forall_forall in F; [exact F|].
    eapply Permutation_in; [apply Permutation_sym, P|exact I]. }
  clear - SS F. induction SS as [|[g fs] gs SS IH L]; [constructor|]. cbn [flat_map fst snd]. inversion F; subst.
  apply ss_app.
  - eapply ss_map; [|apply sort_sorted; eassumption]. intros a b Q. left. auto.
  - auto.
  - intros a b I J. apply in_map_iff in I as (fd & <- & _). apply in_flat_map in J as ([g2 fs2] & J & J2).
    apply in_map_iff in J2 as (fd2 & <- & _). eapply Forall_forall in L; [|exact J].
    destruct L as (x & y & E1 & E2 & Q). right. exists x, y. auto.
Qed.
Print Assumptions C27_sorted_order.

(** Each comparison is given the graph of the last comparison of the same group (none for
    the first), and its result enters the trace after the regex filter. *)
Theorem C27_graph_handed_on_within_group : forall (G : Type) (an : analysis G) o od dirs s1 s2 st y,
  dict_like s1 -> compare an o od dirs s1 s2 = Ok (st, y) ->
  forall t1 c r t2, c_trace st = t1 ++ Compared c r :: t2 ->
  ca_prev c = last_graph (ca_group c) t1 /\
  exists r0, an (calls_of t1) c = Ok r0 /\ filter_result (o_regex o) r0 = Ok r.
Proof.
  intros G an o od dirs s1 s2 st y W E t1 c r t2 T.
  destruct (compare_inv G an o od dirs s1 s2 st y W E) as (gs & _ & _ & _ & (GT & _) & _).
  exact (GT t1 _ t2 T).
Qed.
Print Assumptions C27_graph_handed_on_within_group.

(** The overall result is the combination of the results of all handled functions. *)
Theorem C27_overall_result : forall (G : Type) (an : analysis G) o od dirs s1 s2 st y,
  dict_like s1 -> compare an o od dirs s1 s2 = Ok (st, y) ->
  add_inners (new_result NONE od od) (flat_map contributed (c_trace st)) = Ok (c_result st).
Proof.
  intros G an o od dirs s1 s2 st y W E.
  destruct (compare_inv G an o od dirs s1 s2 st y W E) as (gs & _ & _ & _ & (_ & _ & R) & _). exact R.
Qed.
Print Assumptions C27_overall_result.

(** The comparison fails only if the comparison of one function fails, the regex filter
    meets an object without a difference text, or the old snapshot has both named and
    unnamed groups. *)
Theorem C27_failures : forall (G : Type) (an : analysis G) o od dirs s1 s2 e,
  compare an o od dirs s1 s2 = Err e ->
  (e = TypeError /\ In None (dkeys s1) /\ exists g, In (Some g) (dkeys s1)) \/
  (exists calls c, an calls c = Err e) \/
  (exists calls c r, an calls c = Ok r /\ filter_result (o_regex o) r = Err e).
Proof.
  intros G an o od dirs s1 s2 e. unfold compare. destruct (sorted_groups s1) as [gs|e2] eqn:S; cbn [bind].
  - destruct (fold_res _ _ gs) as [st|e2] eqn:F; [discriminate|]. cbn [bind]. intros E. injection E as <-.
    right. apply (fold_fail _ (one_failed an o)) in F.
    + destruct F as (calls & c & [F|(r & F1 & F2)]); [left; eauto|right; eauto].
    + intros st kg e3 E. unfold compare_group in E. eapply fold_fail; [|exact E]. intros; eapply step_fail; eassumption.
  - intros E. injection E as <-. left. apply (sorted_groups_total s1 _ S).
Qed.
Print Assumptions C27_failures.

(** Example: one function compared, one without module, one skipped, in two groups. *)
Definition C27_desc (m : string) : fdesc := mkDesc (Some m) None None.
Definition C27_old : groups :=
  [(Some "kernel.b"%string, [("z"%string, C27_desc "a"); ("f"%string, C27_desc "a"); ("gone"%string, C27_desc "a")]);
   (Some "kernel.a"%string, [("f"%string, mkDesc None None None)])].
Definition C27_new : groups :=
  [(Some "kernel.b"%string, [("f"%string, C27_desc "b"); ("z"%string, C27_desc "b")]);
   (Some "kernel.a"%string, [("f"%string, C27_desc "b")])].
(** The graph is the list of functions compared so far. *)
Definition C27_an : analysis (list string) := fun _ c =>
  let g := match ca_prev c with Some l => l | None => [] end ++ [ca_fun c] in
  Ok (mkResult (if String.eqb (ca_fun c) "z" then NOT_EQUAL else EQUAL)
               (plain_entity (ca_fun c)) (plain_entity (ca_fun c)) None (Some g)
               (if String.eqb (ca_fun c) "z"
                then [("h"%string, mkResult NOT_EQUAL (plain_entity "h") (plain_entity "h") (Some "-a +b"%string) None [])]
                else [])).
Example C27_example :
  dict_like C27_old /\
  match compare C27_an (mkCopts None false (Some "out"%string)) "old" [] C27_old C27_new with
  | Ok (st, y) =>
      map (fun e => match e with Skipped g f => (0, g, f, None) | NoModule g f => (1, g, f, None)
                                | Compared c r => (2, ca_group c, ca_fun c, ca_prev c) end) (c_trace st) =
        [(1, Some "kernel.a", "f", None); (2, Some "kernel.b", "f", None);
         (0, Some "kernel.b", "gone", None); (2, Some "kernel.b", "z", Some ["f"])]%string /\
      r_kind (c_result st) = UNKNOWN /\ c_dirs st = ["out"; "out/kernel.b"]%string /\ y = true
  | Err _ => False
  end.
Proof.
  split; [|vm_compute; repeat split].
  split; repeat constructor; simpl; intuition discriminate.
Qed.

(** ** C28 Regex filter only hides, never reveals *)

(** A filtered result differs from the original only in the verdict: kept if the difference
    text of one of the objects matches, EQUAL otherwise. *)
Theorem C28_verdict_kept_iff_match : forall (G : Type) (rx : string -> bool) (r r2 : result G),
  filter_result (Some rx) r = Ok r2 ->
  same_but_verdict r2 r /\
  ((exists i d, In i (dvals (r_inner r)) /\ r_diff i = Some d /\ rx d = true) -> r_kind r2 = r_kind r) /\
  (~ (exists i d, In i (dvals (r_inner r)) /\ r_diff i = Some d /\ rx d = true) -> r_kind r2 = EQUAL).
Proof.
  intros G rx r r2. unfold filter_result. pose proof (search_inner_spec rx (dvals (r_inner r))) as S.
  destruct (search_inner rx (dvals (r_inner r))) as [[|]|e]; [| |discriminate]; cbn [bind]; intros E; apply Ok_inj in E; subst r2.
  - split; [repeat split|]. split; [reflexivity|]. intros N. exfalso. apply N. destruct S as (i & d & S). eauto.
  - split; [repeat split|]. split; [|reflexivity].
    intros (i & d & I & D & R). destruct (S i I) as (d2 & D2 & R2). congruence.
Qed.
Print Assumptions C28_verdict_kept_iff_match.

(** Whatever a filtered comparison says about a function, the unfiltered comparison says
    too - the same, or with --full-diff the same up to the verdict - and every directory
    made with the filter is made without it. *)
Theorem C28_only_hides : forall (G : Type) (an : analysis G) rx full out od dirs s1 s2 st y,
  compare an (mkCopts (Some rx) full out) od dirs s1 s2 = Ok (st, y) ->
  exists st0 y0, compare an (mkCopts None full out) od dirs s1 s2 = Ok (st0, y0) /\
  (forall x, mentions x -> In x (c_shown st) ->
     In x (c_shown st0) \/
     (full = true /\ exists g f r r0, x = ShowDiff g f r /\ In (ShowDiff g f r0) (c_shown st0) /\ same_but_verdict r r0)) /\
  (forall d, In d (c_dirs st) -> In d (c_dirs st0)) /\
  (y = true -> y0 = true).
Proof.
  intros G an rx full out od dirs s1 s2 st y. unfold compare. destruct (sorted_groups s1) as [gs|] eqn:S; [|discriminate].
  cbn [bind]. destruct (fold_res _ _ gs) as [st1|] eqn:F; [|discriminate]. cbn [bind o_output]. intros E. injection E as <- <-.
  set (st0 := mkCstate (new_result NONE od od) None false dirs [] []) in *.
  destruct (groups_sim an rx full out s2 gs st0 st0 st1) as (st2 & E2 & S2); [|exact F|].
  { unfold sim. repeat split; auto. intros x _ []. }
  rewrite E2. cbn [bind]. exists st2. eexists. split; [reflexivity|]. destruct S2 as (_ & _ & SH & D).
  split; [|split; [exact D|]].
  - intros x M I. destruct (SH x M I) as (z & Mz & Iz & [<-|(Fu & g & f & r & r0 & -> & -> & B)]); [auto|].
    right. split; [exact Fu|]. exists g, f, r, r0. auto.
  - destruct out as [d|]; [|auto]. rewrite !mem_In. apply D.
Qed.
Print Assumptions C28_only_hides.

(** It hides failures too: a function that ended in ERROR is reported EQUAL when nothing
    matches. *)
Theorem C28_failures_stay_visible_refuted : exists (rx : string -> bool) (r r2 : result unit),
  r_kind r = ERROR /\ filter_result (Some rx) r = Ok r2 /\ r_kind r2 = EQUAL.
Proof.
  exists (fun _ => false), (new_result ERROR "f" "f"). eexists. split; [reflexivity|]. split; reflexivity.
Qed.
Print Assumptions C28_failures_stay_visible_refuted.

(** The filter fails with a TypeError exactly if it meets an object without a difference
    text before a match. *)
Theorem C28_filter_fails_iff_object_without_text : forall (G : Type) (rx : string -> bool) (r : result G) e,
  filter_result (Some rx) r = Err e <->
  e = TypeError /\ exists l1 i l2, dvals (r_inner r) = l1 ++ i :: l2 /\ r_diff i = None /\
    forall j, In j l1 -> exists d, r_diff j = Some d /\ rx d = false.
Proof.
  intros G rx r e. unfold filter_result. induction (dvals (r_inner r)) as [|i l IH]; cbn [search_inner].
  - cbn [bind]. split; [discriminate|]. intros (_ & l1 & i & l2 & E & _). destruct l1; discriminate.
  - destruct (r_diff i) as [d|] eqn:D.
    + destruct (rx d) eqn:R.
      * cbn [bind]. split; [discriminate|]. intros (_ & l1 & j & l2 & E & N & A). destruct l1 as [|k l1]; injection E as <- E.
        -- congruence.
        -- destruct (A i (or_introl eq_refl)) as (d2 & D2 & R2). congruence.
      * rewrite IH. split; intros (-> & l1 & j & l2 & E & N & A); (split; [reflexivity|]).
        -- exists (i :: l1), j, l2. rewrite E. repeat split; [exact N|]. intros k [<-|I]; [eauto|auto].
        -- destruct l1 as [|k l1]; injection E as <- E; [congruence|]. exists l1, j, l2. repeat split; try assumption.
           intros k I. apply A. right. exact I.
    + cbn [bind]. split.
      * intros E. injection E as <-. split; [reflexivity|]. exists [], i, l. repeat split; [exact D|]. intros j [].
      * intros (-> & _). reflexivity.
Qed.
Print Assumptions C28_filter_fails_iff_object_without_text.

Example C28_example :
  match compare C27_an (mkCopts (Some (fun d => String.eqb d "-a +b")) false None) "old" [] C27_old C27_new,
        compare C27_an (mkCopts (Some (fun d => String.eqb d "other")) false None) "old" [] C27_old C27_new with
  | Ok (a, _), Ok (b, _) =>
      map (fun x => match x with ShowGroup g => g | ShowLine _ f _ => f | ShowDiff _ f _ => f | MakeDir d => d end) (c_shown a) =
        ["kernel.a"; "f"; "kernel.b"; "z"]%string /\
      map (fun x => match x with ShowGroup g => g | ShowLine _ f _ => f | ShowDiff _ f _ => f | MakeDir d => d end) (c_shown b) =
        ["kernel.a"; "f"]%string
  | _, _ => False
  end.
Proof. vm_compute. auto. Qed.

(** ** C29 Output directories never overwrite *)

(** On any finite set of directories the search ends with the first name of base, base-0,
    base-1, ... that is not an existing directory. *)
Theorem C29_first_free_directory : forall (isdir : string -> bool) l base,
  (forall d, isdir d = true -> In d l) ->
  exists k, (forall fuel, S (length l) <= fuel -> default_output_dir fuel isdir base = Some (candidate base k)) /\
    isdir (candidate base k) = false /\ forall j, j < k -> isdir (candidate base j) = true.
Proof.
  intros isdir l base F. destruct (first_free isdir base l F) as (k & K & N & A). exists k. split; [|auto].
  intros fuel L. unfold default_output_dir. destruct (isdir base) eqn:B.
  - change base with (candidate base 0) at 2. rewrite (free_dir_finds isdir base k 0 fuel); [reflexivity| |exact N|lia].
    intros j J. apply A. lia.
  - destruct k as [|k]; [reflexivity|]. specialize (A 0). cbn [candidate] in A. rewrite A in B by lia. discriminate.
Qed.
Print Assumptions C29_first_free_directory.

(** The directory used for the output never exists before, however it was chosen; an
    explicitly given existing directory is an error. *)
Theorem C29_output_directory_is_new : forall fuel isdir stdout arg base d,
  output_dir fuel isdir stdout arg base = Some (Ok (Some d)) -> isdir d = false.
Proof.
  intros fuel isdir stdout arg base d. unfold output_dir.
  assert (Q : match default_output_dir fuel isdir base with Some x => Some (Ok (Some x)) | None => None end = Some (Ok (Some d)) ->
    isdir d = false).
  { destruct (default_output_dir fuel isdir base) as [x|] eqn:E; [|discriminate]. intros Q. injection Q as ->.
    unfold default_output_dir in E. destruct (isdir base) eqn:B; [|congruence].
    revert E. generalize base at 2 as dirname. generalize 0. induction fuel as [|fuel IH]; intros n dirname; cbn [free_dir]; [discriminate|].
    destruct (isdir dirname) eqn:D; [apply IH|congruence]. }
  destruct stdout; [discriminate|]. destruct arg as [a|]; [|exact Q].
  destruct (String.eqb a ""); [exact Q|]. destruct (isdir a) eqn:A; congruence.
Qed.
Print Assumptions C29_output_directory_is_new.

(** A plain file of the chosen name is not noticed (only directories are looked at). *)
Theorem C29_plain_file_refuted : exists (isdir present : string -> bool) base d,
  (forall x, isdir x = true -> present x = true) /\
  default_output_dir 1 isdir base = Some d /\ present d = true.
Proof.
  exists (fun _ => false), (String.eqb "diff-a-b"), "diff-a-b"%string, "diff-a-b"%string. repeat split. discriminate.
Qed.
Print Assumptions C29_plain_file_refuted.

Example C29_example :
  default_output_dir 20 (fun d => mem d ["diff-a-b"; "diff-a-b-0"; "diff-a-b-2"]%string) "diff-a-b" = Some "diff-a-b-1"%string /\
  output_dir 20 (fun d => mem d ["o"]%string) false (Some "o"%string) "diff-a-b" = Some (Err FileExistsError).
Proof. vm_compute. auto. Qed.

(** ** C30 Module caching threshold *)

(** The cached modules are exactly those referenced at least [min] times by the functions
    present in both snapshots, where each such function refers to its old and to its new
    module. *)
Theorem C30_cached_iff_referenced_often : forall fs g s2 min m,
  In m (modules_to_cache fs g s2 min) <->
  In m (references fs g s2) /\ min <= count_occ string_dec (references fs g s2) m.
Proof.
  intros fs g s2 min m. unfold modules_to_cache. destruct (frequencies_count fs g s2) as [N C].
  rewrite (count_occ_In string_dec (references fs g s2)). split.
  - intros I. apply in_map_iff in I as ([m2 n] & <- & I). apply filter_In in I as [I L]. cbn [fst snd] in *.
    apply (dget_In_NoDup _ _ _ N) in I. rewrite C in I. apply Nat.leb_le in L.
    destruct (count_occ string_dec (references fs g s2) m2) eqn:Q; [discriminate|]. injection I as <-. lia.
  - intros [P L]. apply in_map_iff. exists (m, count_occ string_dec (references fs g s2) m). split; [reflexivity|].
    apply filter_In. split; [|apply Nat.leb_le; exact L]. apply dget_In. rewrite C.
    destruct (count_occ string_dec (references fs g s2) m); [lia|reflexivity].
Qed.
Print Assumptions C30_cached_iff_referenced_often.

Theorem C30_each_module_once : forall fs g s2 min, NoDup (modules_to_cache fs g s2 min).
Proof.
  intros fs g s2 min. unfold modules_to_cache. destruct (frequencies_count fs g s2) as [N _]. clear - N.
  unfold dkeys in N. induction (module_frequencies fs g s2) as [|[m n] l IH]; [constructor|]. cbn [map fst] in N. inversion N; subst.
  cbn [filter snd]. destruct (min <=? n); [|auto]. cbn [map fst]. constructor; [|auto].
  intros I. apply in_map_iff in I as (x & E & I). apply filter_In in I as [I _]. apply H1, in_map_iff. eauto.
Qed.
Print Assumptions C30_each_module_once.

(** A module used on both sides by a single function already reaches the threshold 2. *)
Theorem C30_two_functions_needed_refuted : exists fs s2 m,
  length fs = 1 /\ In m (modules_to_cache fs None s2 2).
Proof.
  exists [("f"%string, C27_desc "m")], [(None, [("f"%string, C27_desc "m")])], "m"%string.
  split; [reflexivity|]. vm_compute. auto.
Qed.
Print Assumptions C30_two_functions_needed_refuted.

Example C30_example :
  modules_to_cache [("f"%string, C27_desc "m"); ("g"%string, C27_desc "m"); ("h"%string, C27_desc "k"); ("x"%string, C27_desc "k")]
    None [(None, [("f"%string, C27_desc "n"); ("g"%string, mkDesc None None None); ("h"%string, C27_desc "o")])] 2 = ["m"%string].
Proof. vm_compute. reflexivity. Qed.

(** ** C31 Symbol list parsing *)
Theorem C31_symbols_of_the_lines : forall text,
  exists lines, lines_of text lines /\ symbols_of lines (read_symbol_list text).
Proof.
  intros text. destruct (lines_exist_len (String.length text) text (le_n _)) as [lines L].
  exists lines. split; [exact L|]. unfold read_symbol_list. rewrite (lines_split _ _ L). apply symbols_of_map.
Qed.
Print Assumptions C31_symbols_of_the_lines.

(** The division into lines is unique, so this determines the symbols. *)
Theorem C31_lines_unique : forall text lines1 lines2,
  lines_of text lines1 -> lines_of text lines2 -> lines1 = lines2.
Proof. intros text l1 l2 A B. rewrite <- (lines_split _ _ A), <- (lines_split _ _ B). reflexivity. Qed.
Print Assumptions C31_lines_unique.

Example C31_example :
  read_symbol_list ("  foo " ++ LF ++ "#comment" ++ CR ++ LF ++ "_bar" ++ CR ++ "9x" ++ LF ++ LF ++ "baz")%string = ["foo"; "_bar"; "baz"]%string.
Proof. vm_compute. reflexivity. Qed.

(** ** C67 Restricting the comparison to one function *)

(** With --function the comparison proceeds iff the function is in the unnamed group of both
    snapshots; then it is the only function of that group on both sides. *)
Theorem C67_selected_function_only : forall f s1 s2 t1 t2, f <> ""%string ->
  filtered_snapshots (Some f) s1 s2 = Ok (t1, t2) ->
  forall n, get_by_name t1 n None = (if String.eqb n f then get_by_name s1 n None else None) /\
            get_by_name t2 n None = (if String.eqb n f then get_by_name s2 n None else None) /\
            get_by_name t1 f None <> None /\ get_by_name t2 f None <> None.
Proof.
  intros f s1 s2 t1 t2 N. unfold filtered_snapshots. apply String.eqb_neq in N. rewrite N.
  destruct (filter_funs s1 [f] None) as [u1|] eqn:E1; [|discriminate]. cbn [bind].
  destruct (filter_funs s2 [f] None) as [u2|] eqn:E2; [|discriminate]. cbn [bind]. intros E. injection E as <- <-.
  assert (A : forall s u, filter_funs s [f] None = Ok u ->
    (forall n, get_by_name u n None = (if String.eqb n f then get_by_name s n None else None)) /\ get_by_name u f None <> None).
  { intros s u. unfold filter_funs, get_by_name. destruct (dget s None) as [fs|]; [|discriminate]. cbn [fold_res].
    destruct (dget fs f) as [d|] eqn:D; [|discriminate]. cbn [bind dset]. intros E. apply Ok_inj in E. subst u.
    rewrite dget_dset_same. cbn [dget]. change (eqb f f) with (String.eqb f f). rewrite String.eqb_refl.
    split; [|discriminate]. intros n. change (eqb n f) with (String.eqb n f). destruct (String.eqb_spec n f) as [->|_]; [symmetry; exact D|reflexivity]. }
  intros n. destruct (A _ _ E1), (A _ _ E2). auto.
Qed.
Print Assumptions C67_selected_function_only.

(** Otherwise the command stops with a KeyError: a function missing in one snapshot is not
    skipped, and snapshots of sysctl options, which have no unnamed group, always fail. *)
Theorem C67_fails_iff_function_missing : forall f s1 s2, f <> ""%string ->
  (filtered_snapshots (Some f) s1 s2 = Err KeyError <-> get_by_name s1 f None = None \/ get_by_name s2 f None = None) /\
  (forall e, filtered_snapshots (Some f) s1 s2 = Err e -> e = KeyError).
Proof.
  intros f s1 s2 N. unfold filtered_snapshots. apply String.eqb_neq in N. rewrite N.
  assert (A : forall s, (get_by_name s f None = None /\ filter_funs s [f] None = Err KeyError) \/
                        (get_by_name s f None <> None /\ exists u, filter_funs s [f] None = Ok u)).
  { intros s. unfold filter_funs, get_by_name. destruct (dget s None) as [fs|]; [|auto]. cbn [fold_res].
    destruct (dget fs f) as [d|]; [|auto]. cbn [bind]. right. split; [discriminate|eauto]. }
  destruct (A s1) as [[L1 E1]|[L1 [u1 E1]]]; rewrite E1; cbn [bind]; [split; [split; auto|congruence]|].
  destruct (A s2) as [[L2 E2]|[L2 [u2 E2]]]; rewrite E2; cbn [bind]; [split; [split; auto|congruence]|].
  split; [|discriminate]. split; [discriminate|]. intros [C|C]; congruence.
Qed.
Print Assumptions C67_fails_iff_function_missing.

Example C67_example :
  filtered_snapshots (Some "f"%string) [(None, [("f"%string, C27_desc "a"); ("g"%string, C27_desc "a")])]
                     [(None, [("g"%string, C27_desc "b"); ("f"%string, C27_desc "b")])] =
    Ok ([(None, [("f"%string, C27_desc "a")])], [(None, [("f"%string, C27_desc "b")])]) /\
  filtered_snapshots (Some "f"%string) C27_old C27_new = Err KeyError.
Proof. vm_compute. auto. Qed.

(** ** C68 What compare shows *)

(** The output mentions exactly the functions it should: differences of NOT_EQUAL functions
    and one line for UNKNOWN and ERROR ones (with --full-diff: every compared function). *)
Theorem C68_shown_exactly : forall (G : Type) (an : analysis G) o od dirs s1 s2 st y,
  compare an o od dirs s1 s2 = Ok (st, y) ->
  forall x, mentions x -> (In x (c_shown st) <-> exists e, In e (c_trace st) /\ about (o_full o) e x).
Proof.
  intros G an o od dirs s1 s2 st y. unfold compare. destruct (sorted_groups s1) as [gs|]; [|discriminate]. cbn [bind].
  destruct (fold_res _ _ gs) as [st1|] eqn:F; [|discriminate]. cbn [bind]. intros E. injection E as <- <-.
  eapply groups_told in F; [exact F|]. intros x M. cbn. split; [intros []|intros (e & [] & _)].
Qed.
Print Assumptions C68_shown_exactly.

(** A line is printed below the heading of its own group (none for the unnamed group), and so
    is a difference printed to the terminal. *)
Theorem C68_lines_below_their_group : forall (G : Type) (an : analysis G) o od dirs s1 s2 st y,
  dict_like s1 -> compare an o od dirs s1 s2 = Ok (st, y) ->
  (forall a g f k b, c_shown st = a ++ ShowLine g f k :: b -> last_heading a = g) /\
  (o_output o = None -> forall a g f r b, c_shown st = a ++ ShowDiff g f r :: b -> last_heading a = g).
Proof.
  intros G an o od dirs s1 s2 st y W E.
  destruct (compare_inv G an o od dirs s1 s2 st y W E) as (gs & S & P & SS & _ & _ & F & _).
  apply (groups_heading an o s2 gs) in F.
  - split; [intros a g f k b Q; exact (F a _ b Q)|intros O a g f r b Q; exact (F a _ b Q O)].
  - intros a x b Q. destruct a; discriminate.
  - intros I. split; [reflexivity|]. clear - SS I.
    destruct gs as [|[g fs] [|[g2 fs2] gs]]; [destruct I|reflexivity|]. exfalso.
    assert (A : forall x, In x ((g, fs) :: (g2, fs2) :: gs) -> fst x <> None).
    { intros x J. inversion SS as [|? ? S2 L]; subst. destruct J as [<-|J].
      - apply Forall_inv in L as (a & b & E & _). congruence.
      - eapply Forall_forall in L; [|exact J]. destruct L as (a & b & _ & E & _). congruence. }
    apply in_map_iff in I as (x & E & J). exact (A x J E).
Qed.
Print Assumptions C68_lines_below_their_group.

(** The YAML report is written iff some difference was shown (given that the output
    directory did not exist before). *)
Theorem C68_report_written_iff_difference : forall (G : Type) (an : analysis G) o od dirs s1 s2 st y d,
  compare an o od dirs s1 s2 = Ok (st, y) -> o_output o = Some d -> ~ In d dirs ->
  (y = true <-> exists g f r, In (ShowDiff g f r) (c_shown st)).
Proof.
  intros G an o od dirs s1 s2 st y d. unfold compare. destruct (sorted_groups s1) as [gs|]; [|discriminate]. cbn [bind].
  destruct (fold_res _ _ gs) as [st1|] eqn:F; [|discriminate]. cbn [bind]. intros E. injection E as <- <-.
  intros O N. rewrite O, mem_In.
  destruct (groups_dirs an o s2 dirs d gs (mkCstate (new_result NONE od od) None false dirs [] []) st1) as [DM [_ DK]];
    [intros I; left; exact I|split; [auto|intros ? ? ? ? []]|exact F|].
  split.
  - intros I. destruct (DM I) as [J|(g & f & r & J & Q)]; [contradiction|]. eauto.
  - intros (g & f & r & I). eapply DK; eauto.
Qed.
Print Assumptions C68_report_written_iff_difference.

(** Not shown: a function whose comparison timed out; and if all failures are UNKNOWN or
    ERROR, no report is written at all. *)
Theorem C68_timeout_shown_refuted : exists (an : analysis unit) o s1 s2 st y,
  compare an o "old" [] s1 s2 = Ok (st, y) /\ r_kind (c_result st) = TIMEOUT /\ c_shown st = [].
Proof.
  exists (fun _ c => Ok (new_result TIMEOUT (ca_fun c) (ca_fun c))), (mkCopts None false (Some "out"%string)),
    [(None, [("f"%string, C27_desc "a")])], [(None, [("f"%string, C27_desc "b")])].
  do 2 eexists. split; [reflexivity|]. split; reflexivity.
Qed.
Print Assumptions C68_timeout_shown_refuted.

Example C68_example :
  match compare C27_an (mkCopts None false (Some "out"%string)) "old" [] C27_old C27_new with
  | Ok (st, y) =>
      map (fun x => match x with ShowGroup g => ("group", g) | ShowLine _ f _ => ("line", f) | ShowDiff _ f _ => ("diff", f)
                                | MakeDir d => ("mkdir", d) end)%string (c_shown st) =
        [("group", "kernel.a"); ("line", "f"); ("mkdir", "out"); ("mkdir", "out/kernel.b"); ("diff", "z")]%string /\ y = true
  | Err _ => False
  end.
Proof. vm_compute. auto. Qed.

(** ** C69 The report keeps the result of every compared function *)
Theorem C69_results_kept_if_names_differ : forall (G : Type) (an : analysis G) o od dirs s1 s2 st y,
  dict_like s1 -> NoDup (map snd (all_functions s1)) ->
  (forall calls c r, an calls c = Ok r -> en_name (r_first r) = ca_fun c) ->
  compare an o od dirs s1 s2 = Ok (st, y) ->
  forall e r, In e (c_trace st) -> In r (contributed e) ->
  dget (r_inner (c_result st)) (snd (entry_key e)) = Some r.
Proof.
  intros G an o od dirs s1 s2 st y W N A E e r I C.
  pose proof (C27_overall_result G an o od dirs s1 s2 st y W E) as R.
  destruct (C27_every_function_handled_once G an o od dirs s1 s2 st y W E) as (P & _ & _).
  assert (Nm : forall e r, In e (c_trace st) -> In r (contributed e) -> en_name (r_first r) = snd (entry_key e)).
  { intros e2 r2 I2 C2. destruct e2 as [g f|g f|c r3]; [destruct C2|destruct C2 as [<-|[]]; reflexivity|].
    destruct C2 as [->|[]]. apply in_split in I2 as (t1 & t2 & T).
    destruct (C27_graph_handed_on_within_group G an o od dirs s1 s2 st y W E t1 c r2 t2 T) as (_ & r0 & A0 & F).
    apply A in A0. apply filter_result_cases in F as [-> | ->]; cbn; exact A0. }
  rewrite <- (Nm e r I C).
  apply (C22_distinct_names_never_shadow G (new_result NONE od od) (flat_map contributed (c_trace st))); [exact R| |].
  - assert (Q : NoDup (map snd (map entry_key (c_trace st)))).
    { eapply Permutation_NoDup; [|exact N]. apply Permutation_map, Permutation_sym, P. }
    clear - Q Nm. induction (c_trace st) as [|e t IH]; [constructor|]. cbn [flat_map map] in *. inversion Q as [|? ? Q1 Q2]; subst.
    assert (IH2 : NoDup (map (fun x => en_name (r_first x)) (flat_map contributed t))).
    { apply IH; [|exact Q2]. intros e2 r2 I2. apply Nm. right. exact I2. }
    assert (L : contributed e = [] \/ exists r, contributed e = [r]) by (destruct e; cbn; eauto).
    destruct L as [L|[r L]]; rewrite L; [exact IH2|]. cbn [app map]. constructor; [|exact IH2].
    rewrite (Nm e r); [|left; reflexivity|rewrite L; left; reflexivity].
    intros J. apply Q1. rewrite map_map. apply in_map_iff in J as (r2 & E2 & J). apply in_flat_map in J as (e2 & J & K).
    apply in_map_iff. exists e2. split; [|exact J]. rewrite <- E2. symmetry. apply Nm; [right; exact J|exact K].
  - apply in_flat_map. eauto.
Qed.
Print Assumptions C69_results_kept_if_names_differ.

(** A function in two groups keeps only the result of the last group in the report: here it
    differs in one group, but the report counts one equal function and no difference. *)
Theorem C69_all_results_kept_refuted : exists (an : analysis unit) o s1 s2 st y,
  dict_like s1 /\ compare an o "old" [] s1 s2 = Ok (st, y) /\
  (exists c r, In (Compared c r) (c_trace st) /\ ca_fun c = "f"%string /\ r_kind r = NOT_EQUAL) /\
  map (fun p => (fst p, r_kind (snd p))) (r_inner (c_result st)) = [("f"%string, EQUAL)] /\
  st_neq (symbol_stats (c_result st)) = 0.
Proof.
  exists (fun _ c => Ok (new_result (if eqb (ca_group c) (Some "a"%string) then NOT_EQUAL else EQUAL) (ca_fun c) (ca_fun c))),
    (mkCopts None false None),
    [(Some "a"%string, [("f"%string, C27_desc "m")]); (Some "b"%string, [("f"%string, C27_desc "m")])],
    [(Some "a"%string, [("f"%string, C27_desc "n")]); (Some "b"%string, [("f"%string, C27_desc "n")])].
  do 2 eexists. split; [split; repeat constructor; simpl; intuition discriminate|].
  split; [vm_compute; reflexivity|]. split; [|split; reflexivity].
  do 2 eexists. split; [left; reflexivity|]. split; reflexivity.
Qed.
Print Assumptions C69_all_results_kept_refuted.

Example C69_example :
  NoDup (map snd (all_functions [(None, [("f"%string, C27_desc "a"); ("z"%string, C27_desc "a")])])) /\
  match compare C27_an (mkCopts None false None) "old" [] [(None, [("z"%string, C27_desc "a"); ("f"%string, C27_desc "a")])]
          [(None, [("f"%string, C27_desc "b"); ("z"%string, C27_desc "b")])] with
  | Ok (st, _) => map (fun p => (fst p, r_kind (snd p))) (r_inner (c_result st)) = [("f"%string, EQUAL); ("z"%string, NOT_EQUAL)]
  | Err _ => False
  end.
Proof. split; [repeat constructor; simpl; intuition discriminate|]. vm_compute. reflexivity. Qed.
