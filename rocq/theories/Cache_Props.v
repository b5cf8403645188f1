(** * Theorems about the SimpLL cache (C15-C18, C61) *)
From Coq Require Import String Ascii ZArith Arith Bool Lia List Permutation.
From Verif Require Import PyBase Path_Model Result_Model Graph_Model Cache_Model Cache_Spec Cache_Proofs.
Import ListNotations.
Open Scope list_scope.

(** ** C15 *)

(** Whatever happened before, an update appends to each cache file exactly one line for every
    cachable vertex passed in whose source files are stored in that file, and nothing else.
    Where a pair of source files is stored is determined by [cache_filename]. *)
Theorem C15_update_writes_exactly_cachable : forall cwd directory us c vs c',
  history cwd directory us c -> update cwd directory c vs = Ok c' ->
  (forall name, exists pairs appended,
     Lines pairs appended /\
     text (cache_fs c') name = (text (cache_fs c) name ++ appended)%string /\
     Permutation pairs (map v_names (filter (fun x => v_cachable x && stored_in c' name x) vs))) /\
  (forall x, In x vs -> v_cachable x = true ->
     exists name, cache_filename cwd directory (v_files x) = Ok name /\ stored_in c' name x = true) /\
  (forall name, (forall x, In x vs -> v_cachable x = true -> stored_in c' name x = false) ->
     dget (cache_fs c') name = dget (cache_fs c) name).
Proof.
  intros cwd d us c vs c' H U. destruct (history_inv _ _ _ _ H) as (M & _).
  split; [intros name; exact (update_perm _ _ _ _ _ M U name)|].
  unfold update in U. destruct (write_groups _ _ _ _ _ M U) as (M' & K' & _ & _ & UU & _). split.
  - intros x I C. assert (Ik : In (v_files x) (dkeys (cache_map c'))).
    { apply K'. right. apply groups_keys. right. eauto. }
    destruct (dkeys_dget _ _ Ik) as [n D]. exists n. split; [apply M', D|].
    unfold stored_in. unfold files_t in *. rewrite D. apply String.eqb_refl.
  - intros name Hn. apply UU. intros k I. apply groups_keys in I as [[]|(x & I & C & <-)].
    exact (Hn x I C).
Qed.
Print Assumptions C15_update_writes_exactly_cachable.

(** An update succeeds exactly when every cachable vertex knows both its source files. *)
Theorem C15_update_succeeds_iff : forall cwd directory us c vs, history cwd directory us c ->
  (exists c', update cwd directory c vs = Ok c') <->
  (forall x, In x vs -> v_cachable x = true ->
     exists l r, v_files x = (Some l, Some r) /\ l <> ""%string /\ r <> ""%string).
Proof.
  intros cwd d us c vs H.
  assert (CF : forall k, (exists n, cache_filename cwd d k = Ok n) <->
                         exists l r, k = (Some l, Some r) /\ l <> ""%string /\ r <> ""%string).
  { intros [[l|] [r|]]; unfold cache_filename; split;
      try (intros [n X]; discriminate X); try (intros (l' & r' & X & _); discriminate X).
    - unfold relpath. destruct (String.eqb_spec l "") as [->|Nl]; [intros [n X]; discriminate X|].
      intros [n X]. exists l, r. split; [reflexivity|]. split; [exact Nl|]. intros ->.
      cbv zeta in X. destruct (repeat _ _ ++ _); discriminate X.
    - intros (l' & r' & X & Nl & Nr). injection X as <- <-. unfold relpath.
      apply String.eqb_neq in Nl, Nr. rewrite Nl, Nr. cbv zeta.
      destruct (repeat _ _ ++ _), (repeat _ _ ++ _); eauto. }
  destruct (history_inv _ _ _ _ H) as (M & _). unfold update. split.
  - intros [c' U] x I C. apply CF. destruct (write_groups _ _ _ _ _ M U) as (M' & K' & _).
    assert (Ik : In (v_files x) (dkeys (cache_map c'))).
    { apply K'. right. apply groups_keys. right. eauto. }
    destruct (dkeys_dget _ _ Ik) as [n D]. exists n. apply M', D.
  - intros A. apply write_groups_ok. intros k I. apply groups_keys in I as [[]|(x & I & C & <-)].
    apply CF. exact (A x I C).
Qed.
Print Assumptions C15_update_succeeds_iff.

(** What functions_diff hands to the cache after a comparison: a pair appears in the text
    appended only if some vertex of the graph with these names is cachable and its result is
    neither UNKNOWN nor ASSUMED_EQUAL. *)
Theorem C15_graph_update_only_decided : forall cwd directory us c h g c',
  history cwd directory us c -> update_from_graph cwd directory c h g = Ok c' ->
  forall name, exists pairs appended,
    Lines pairs appended /\
    text (cache_fs c') name = (text (cache_fs c) name ++ appended)%string /\
    (forall n, In n pairs <-> exists key v, In (key, v) (g_verts g) /\ v_names (h v) = n /\
        v_cachable (h v) = true /\ v_result (h v) <> UNKNOWN /\ v_result (h v) <> ASSUMED_EQUAL /\
        stored_in c' name (h v) = true).
Proof.
  intros cwd d us c h g c' H U name. destruct (history_inv _ _ _ _ H) as (M & _).
  destruct (update_perm _ _ _ _ _ M U name) as (ps & t & L & T & P).
  exists ps, t. split; [exact L|]. split; [exact T|]. intros n.
  assert (Dec : forall x, decided x = true <-> v_result x <> UNKNOWN /\ v_result x <> ASSUMED_EQUAL).
  { intros x. unfold decided. destruct (v_result x); cbv; split;
      try (intros _; split; discriminate); try discriminate; intros [A B]; congruence. }
  split.
  - intros I. apply (Permutation_in _ P) in I. apply in_map_iff in I as (x & E & I).
    apply filter_In in I as [I C]. apply andb_true_iff in C as [C S].
    apply filter_In in I as [I D]. apply in_map_iff in I as (v & <- & I).
    apply in_map_iff in I as ([k v'] & E' & I). cbn in E'. subst v'. apply Dec in D as [D1 D2]. exists k, v. auto 10.
  - intros (k & v & I & E & C & D1 & D2 & S). apply (Permutation_in _ (Permutation_sym P)).
    rewrite <- E. apply in_map. apply filter_In. split; [|rewrite C, S; reflexivity].
    apply filter_In. split; [|apply Dec; auto]. apply in_map.
    change v with (snd (k, v)). apply in_map, I.
Qed.
Print Assumptions C15_graph_update_only_decided.

(** ** C16 *)

(** After any history of updates for absolute source paths (with no path component starting
    with a dollar sign on the left), SimpLL finds no function pair of any absolute file pair
    in the cache: the writer and the reader never agree on a file name. *)
Theorem C16_cache_never_hit : forall cwd directory us c, history cwd directory us c ->
  (forall vs x, In vs us -> In x vs -> v_cachable x = true ->
     forall l, fst (v_files x) = Some l -> isabs l = true /\ no_dollar l) ->
  forall l r names, isabs l = true -> is_cached (cache_fs c) directory l r names = false.
Proof.
  intros cwd d us c H A l r names Al. unfold is_cached.
  destruct (dget (cache_fs c) (simpll_filename d l r)) as [t|] eqn:D; [exfalso|reflexivity].
  destruct (history_inv _ _ _ _ H) as (M & N1 & _ & K & F).
  apply dget_Some_key, F in D. apply in_map_iff in D as ([k n] & E & I). cbn in E. subst n.
  assert (Dk := dget_In_NoDup _ _ _ N1 I). assert (Fk := M _ _ Dk).
  destruct (proj1 (K k) (dget_Some_key _ _ _ Dk)) as (vs & x & I1 & I2 & C & E).
  destruct k as [[kl|] kr]; [|discriminate Fk].
  destruct (A vs x I1 I2 C kl) as [A1 A2]; [rewrite E; reflexivity|].
  exact (names_never_meet _ _ _ _ _ _ r A1 A2 Al Fk eq_refl).
Qed.
Print Assumptions C16_cache_never_hit.

Definition ex_vertex l r n cach : vertex :=
  with_cachable (new_vertex (n, n) EQUAL (Some l, Some r) (None, None) no_stats) cach.

(** The wished property fails: a pair that was just written for these very files is not found. *)
Theorem C16_written_pair_found_refuted : exists cwd directory c c' x l r,
  history cwd directory [] c /\ v_cachable x = true /\ v_files x = (Some l, Some r) /\
  isabs l = true /\ isabs r = true /\
  update cwd directory c [x] = Ok c' /\ is_cached (cache_fs c') directory l r (v_names x) = false.
Proof.
  exists "/"%string, "/tmp/cache"%string, (mkCache [] []).
  eexists. exists (ex_vertex "/p/v1/a.c" "/p/v2/a.c" "f" true), "/p/v1/a.c"%string, "/p/v2/a.c"%string.
  split; [constructor|]. repeat split; vm_compute; reflexivity.
Qed.
Print Assumptions C16_written_pair_found_refuted.

(** ** C17 *)

(** After any history of updates, SimpLL's reader sees in each file exactly the pairs written
    for it (and the empty pair of the last line), if the names do not contain the separators. *)
Theorem C17_contents_round_trip : forall cwd directory us c, history cwd directory us c ->
  (forall vs x, In vs us -> In x vs -> plain (v_names x)) ->
  forall name, exists pairs,
    import_file (text (cache_fs c) name) = pairs ++ [(""%string, ""%string)] /\
    Permutation pairs (map v_names (filter (fun x => v_cachable x && stored_in c name x) (concat us))).
Proof.
  intros cwd d us c H A name. destruct (history_text _ _ _ _ H name) as (ps & T & P).
  exists ps. split; [|exact P]. rewrite T. apply import_lines. apply Forall_forall. intros n I.
  apply (Permutation_in _ P) in I. apply in_map_iff in I as (x & <- & I).
  apply filter_In in I as [I _]. apply in_concat in I as (vs & I1 & I2). eauto.
Qed.
Print Assumptions C17_contents_round_trip.

(** A left name containing ':' never comes back. *)
Theorem C17_left_colon_misread : forall l r, has_char ":" l = true ->
  has_char "010" l = false -> has_char "010" r = false ->
  mem (l, r) (import_file (lines_of [(l, r)])) = false.
Proof.
  intros l r C N1 N2. apply mem_not_In. intros I. unfold import_file in I.
  apply in_map_iff in I as (s & E & _). pose proof (split_first_has_char ":" s) as X.
  rewrite E in X. cbn [fst] in X. congruence.
Qed.
Print Assumptions C17_left_colon_misread.

Example C17_example : exists us c, history "/" "/tmp/c" us c /\ length us = 2%nat /\
  import_file (text (cache_fs c) "/tmp/c/..$v1$a.c:..$v2$a.c")
  = [("f", "f"); ("h", "h"); ("f", "f"); ("", "")]%string.
Proof.
  eexists [_; _], _. split.
  - eapply (history_snoc _ _ [_]). eapply (history_snoc _ _ []). constructor.
    + instantiate (2 := [ex_vertex "/p/v1/a.c" "/p/v2/a.c" "f" true; ex_vertex "/p/v1/a.c" "/p/v2/a.c" "g" false;
                         ex_vertex "/p/v1/a.c" "/p/v2/a.c" "h" true]). vm_compute. reflexivity.
    + instantiate (2 := [ex_vertex "/p/v1/a.c" "/p/v2/a.c" "f" true]). vm_compute. reflexivity.
  - split; [reflexivity|]. vm_compute. reflexivity.
Qed.

(** ** C18 *)

(** Clearing removes every file of the cache and the directory, unless two pairs of source
    files share a cache file; then it fails on the second removal. *)
Theorem C18_clear_removes_everything : forall cwd directory us c, history cwd directory us c ->
  (NoDup (dvals (cache_map c)) -> clear c = Ok []) /\
  (~ NoDup (dvals (cache_map c)) -> clear c = Err FileNotFoundError).
Proof. exact clear_spec. Qed.
Print Assumptions C18_clear_removes_everything.

(** Every file in the cache directory is known to the cache object, and conversely. *)
Theorem C18_files_tracked : forall cwd directory us c, history cwd directory us c ->
  forall name, In name (dkeys (cache_fs c)) <->
    exists vs x, In vs us /\ In x vs /\ v_cachable x = true /\
                 cache_filename cwd directory (v_files x) = Ok name /\ In name (dvals (cache_map c)).
Proof.
  intros cwd d us c H name. destruct (history_inv _ _ _ _ H) as (M & N1 & _ & K & F). rewrite F. split.
  - intros I. assert (I0 := I). apply in_map_iff in I as ([k n] & E & I). cbn in E. subst n.
    assert (D := dget_In_NoDup _ _ _ N1 I).
    destruct (proj1 (K k) (dget_Some_key _ _ _ D)) as (vs & x & I1 & I2 & C & <-).
    exists vs, x. repeat split; auto.
  - intros (vs & x & _ & _ & _ & _ & I). exact I.
Qed.
Print Assumptions C18_files_tracked.

(** A file that is not of the cache keeps the directory from being removed. *)
Theorem C18_other_file : forall c name, In name (dkeys (cache_fs c)) -> ~ In name (dvals (cache_map c)) ->
  clear c = Err OSError \/ clear c = Err FileNotFoundError.
Proof.
  intros c name I N. unfold clear. revert I N. generalize (cache_fs c) (dvals (cache_map c)). intros f l. revert f.
  induction l as [|x l IH]; intros f I N.
  - cbn [fold_res]. destruct f as [|kv f]; [destruct I|]. left. reflexivity.
  - cbn [fold_res]. destruct (remove_file f x) as [f'|e] eqn:R; unfold remove_file in R; destruct (dmem f x); try discriminate; injection R as <-; [|right; reflexivity].
    apply IH; [|intros K; apply N; right; exact K].
    assert (Q : name <> x) by (intros ->; apply N; left; reflexivity).
    clear - I Q. induction f as [|[k v] f IHf]; [destruct I|]. cbn [ddel]. destruct (eqb_spec x k) as [->|_].
    + destruct I as [E|I]; [cbn [fst] in E; congruence|exact I].
    + destruct I as [E|I]; [left; exact E|right; apply IHf; exact I].
Qed.
Print Assumptions C18_other_file.
Example C18_other_file_met : let c := mkCache [] [("notes"%string, ""%string)] in
  In "notes"%string (dkeys (cache_fs c)) /\ ~ In "notes"%string (dvals (cache_map c)) /\ clear c = Err OSError.
Proof. cbv zeta. split; [left; reflexivity|]. split; [intros []|reflexivity]. Qed.

(** ** C61 *)

(** Under two fixed roots that differ in some character, distinct pairs of (normalised,
    dollar- and colon-free) source files get distinct cache files. *)
Theorem C61_distinct_files_for_distinct_pairs : forall cwd directory q a A b B l1 r1 l2 r2 f,
  a <> b ->
  (forall l, In l [l1; l2] -> startswith l (q ++ String a A) = true) ->
  (forall r, In r [r1; r2] -> startswith r (q ++ String b B) = true) ->
  (forall p, In p [l1; l2; r1; r2] ->
     (exists comps, normal_path p comps) /\ has_char "$" p = false /\ has_char ":" p = false) ->
  cache_filename cwd directory (Some l1, Some r1) = Ok f ->
  cache_filename cwd directory (Some l2, Some r2) = Ok f ->
  l1 = l2 /\ r1 = r2.
Proof.
  intros cwd d q a A b B l1 r1 l2 r2 f N HL HR H F1 F2.
  destruct (proj1 (startswith_spec _ _) (HL l1 (or_introl eq_refl))) as [x1 X1].
  destruct (proj1 (startswith_spec _ _) (HL l2 (or_intror (or_introl eq_refl)))) as [x2 X2].
  destruct (proj1 (startswith_spec _ _) (HR r1 (or_introl eq_refl))) as [y1 Y1].
  destruct (proj1 (startswith_spec _ _) (HR r2 (or_intror (or_introl eq_refl)))) as [y2 Y2].
  apply (cache_filename_inj cwd d q l1 l2 r1 r2 f H); auto.
  - rewrite X1, Y1, !app_assoc_s. apply common_prefix_roots, N.
  - rewrite X2, Y2, !app_assoc_s. apply common_prefix_roots, N.
Qed.
Print Assumptions C61_distinct_files_for_distinct_pairs.

Example C61_example : exists f1 f2,
  startswith "/p/v1/a.c" ("/p/v" ++ String "1" "/") = true /\
  (forall p, In p ["/p/v1/a.c"; "/p/v1/b.c"; "/p/v2/a.c"; "/p/v2/b.c"]%string ->
     (exists comps, normal_path p comps) /\ has_char "$" p = false /\ has_char ":" p = false) /\
  cache_filename "/" "/c" (Some "/p/v1/a.c", Some "/p/v2/a.c")%string = Ok f1 /\
  cache_filename "/" "/c" (Some "/p/v1/b.c", Some "/p/v2/b.c")%string = Ok f2 /\ f1 <> f2.
Proof.
  eexists _, _. split; [reflexivity|]. split.
  - assert (N : forall v x, ordinary v -> ordinary x -> exists comps, normal_path ("/p/" ++ v ++ "/" ++ x) comps).
    { intros v x Ov Ox. exists ["p"; v; x]%string. split; [reflexivity|]. split; [discriminate|].
      apply Forall_cons; [repeat split; discriminate|]. apply Forall_cons; [exact Ov|].
      apply Forall_cons; [exact Ox|apply Forall_nil]. }
    assert (O : forall c s, has_char "/" (String c s) = false -> c <> "."%char -> ordinary (String c s)).
    { intros c s Hs Nc. repeat split; try discriminate; try congruence. }
    intros p I. simpl in I. destruct I as [<-|[<-|[<-|[<-|[]]]]]; (split; [|split; reflexivity]);
    [apply (N "v1" "a.c")%string|apply (N "v1" "b.c")%string|apply (N "v2" "a.c")%string|apply (N "v2" "b.c")%string];
    apply O; (reflexivity || discriminate).
  - split; [vm_compute; reflexivity|]. split; [vm_compute; reflexivity|]. discriminate.
Qed.

(** When a function is compared with itself in the same file (both sides name one path), all
    such files share the single cache file ".:." *)
Theorem C61_same_path_pairs_collide : forall cwd directory f g, f <> ""%string -> g <> ""%string ->
  cache_filename cwd directory (Some f, Some f) = cache_filename cwd directory (Some g, Some g).
Proof. intros. rewrite !same_file_name; auto. Qed.
Print Assumptions C61_same_path_pairs_collide.

(** ... and then clearing the cache raises an exception and leaves the directory behind. *)
Theorem C61_clear_always_succeeds_refuted : exists cwd directory us c,
  history cwd directory us c /\ clear c = Err FileNotFoundError.
Proof.
  exists "/"%string, "/tmp/c"%string. eexists [_], _. split.
  - eapply (history_snoc _ _ []). constructor.
    instantiate (2 := [ex_vertex "/p/a.h" "/p/a.h" "f" true; ex_vertex "/p/b.h" "/p/b.h" "g" true]).
    vm_compute. reflexivity.
  - vm_compute. reflexivity.
Qed.
Print Assumptions C61_clear_always_succeeds_refuted.
