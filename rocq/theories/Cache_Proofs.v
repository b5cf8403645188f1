(** * Proofs about the cache *)
From Coq Require Import String Ascii ZArith Arith Bool Lia List Permutation.
From Verif Require Import PyBase Path_Model Result_Model Graph_Model Cache_Model Cache_Spec.
Import ListNotations.
Open Scope list_scope.

(** ** Lines *)
Lemma Lines_lines_of ps : Lines ps (lines_of ps).
Proof.
  induction ps as [|[l r] ps IH]; simpl; [constructor|].
  unfold pair_line. simpl. rewrite ?app_assoc_s. simpl. rewrite ?app_assoc_s. simpl.
  apply Lines_cons. exact IH.
Qed.
Lemma Lines_fun ps t : Lines ps t -> t = lines_of ps.
Proof.
  induction 1 as [|l r ps t H ->]; [reflexivity|].
  simpl. unfold pair_line. simpl. rewrite ?app_assoc_s. simpl. rewrite ?app_assoc_s. reflexivity.
Qed.
Lemma lines_of_app a b : lines_of (a ++ b) = (lines_of a ++ lines_of b)%string.
Proof. induction a as [|p a IH]; simpl; [reflexivity|]. rewrite IH, app_assoc_s. reflexivity. Qed.

Lemma split_first_app c a b : has_char c a = false ->
  split_first c (a ++ String c b)%string = (a, b).
Proof.
  induction a as [|x a IH]; cbn [has_char]; intros H.
  - simpl. rewrite Ascii.eqb_refl. reflexivity.
  - apply orb_false_iff in H as [H1 H2]. simpl.
    rewrite Ascii.eqb_sym, H1. rewrite IH; auto.
Qed.
Lemma split_first_has_char c s : has_char c (fst (split_first c s)) = false.
Proof.
  induction s as [|x s IH]; [reflexivity|]. cbn [split_first].
  destruct (Ascii.eqb x c) eqn:E; [reflexivity|].
  destruct (split_first c s) as [a b]. cbn [fst has_char] in *. rewrite Ascii.eqb_sym, E. exact IH.
Qed.
Lemma import_lines ps : Forall plain ps ->
  import_file (lines_of ps) = ps ++ [(""%string, ""%string)].
Proof.
  unfold import_file. induction 1 as [|[l r] ps (Hl & Hl2 & Hr) H IH]; [reflexivity|].
  cbn [fst snd] in *. cbn [lines_of]. unfold pair_line. cbn [fst snd].
  replace ((l ++ ":" ++ r ++ String "010" "") ++ lines_of ps)%string
    with ((l ++ ":" ++ r) ++ String "010" (lines_of ps))%string
    by (rewrite ?app_assoc_s; simpl; rewrite ?app_assoc_s; reflexivity).
  rewrite split_char_app.
  - cbn [map]. rewrite IH. cbn [app]. f_equal.
    apply (split_first_app ":" l r Hl).
  - rewrite !has_char_app, Hl2, Hr. reflexivity.
Qed.

(** ** Updating *)
Definition cach (x : vertex) := v_cachable x.
Definition groups vs := fold_left sort_vertex vs [].

Lemma sort_vertex_keys m x : NoDup (dkeys m) -> NoDup (dkeys (sort_vertex m x)).
Proof. intros H. unfold sort_vertex. destruct (v_cachable x); cbn [negb]; [apply dset_NoDup|]; exact H. Qed.
Lemma groups_NoDup vs : forall m, NoDup (dkeys m) -> NoDup (dkeys (fold_left sort_vertex vs m)).
Proof. induction vs as [|x vs IH]; simpl; intros m H; auto using sort_vertex_keys. Qed.

(** All pairs of the groups whose source files satisfy [P]. *)
Definition flat (P : files_t -> bool) (m : dict files_t (list (string * string))) :=
  concat (map snd (filter (fun g => P (fst g)) m)).
Lemma flat_cons P k l m : flat P ((k, l) :: m) = (if P k then l else []) ++ flat P m.
Proof. unfold flat. simpl. destruct (P k); reflexivity. Qed.
Lemma flat_dset P m k n :
  Permutation (flat P (dset m k (match dget m k with Some l => l | None => [] end ++ [n])))
              (flat P m ++ (if P k then [n] else [])).
Proof.
  induction m as [|[k0 l0] m IH]; cbn [dset dget].
  - rewrite flat_cons. unfold flat. simpl. rewrite app_nil_r. apply Permutation_refl.
  - destruct (eqb k k0) eqn:E.
    + destruct (eqb_spec k k0) as [->|]; [|discriminate].
      rewrite !flat_cons. destruct (P k0); cbn [app]; [|rewrite app_nil_r; apply Permutation_refl].
      rewrite <- !app_assoc. apply Permutation_app_head. apply Permutation_app_comm.
    + rewrite !flat_cons, <- app_assoc. apply Permutation_app_head. exact IH.
Qed.
Lemma groups_perm P vs : forall m,
  Permutation (flat P (fold_left sort_vertex vs m))
              (flat P m ++ map v_names (filter (fun x => v_cachable x && P (v_files x)) vs)).
Proof.
  induction vs as [|x vs IH]; intros m; cbn [fold_left filter].
  - simpl. rewrite app_nil_r. apply Permutation_refl.
  - eapply Permutation_trans; [apply IH|]. unfold sort_vertex.
    destruct (v_cachable x); cbn [negb andb]; [|apply Permutation_refl].
    eapply Permutation_trans; [apply Permutation_app_tail, flat_dset|].
    destruct (P (v_files x)); cbn [map]; rewrite <- app_assoc; apply Permutation_refl.
Qed.
Lemma groups_keys vs k : forall m,
  In k (dkeys (fold_left sort_vertex vs m))
  <-> In k (dkeys m) \/ exists x, In x vs /\ v_cachable x = true /\ v_files x = k.
Proof.
  induction vs as [|x vs IH]; intros m; cbn [fold_left].
  - split; [auto|intros [H|(x & [] & _)]; exact H].
  - rewrite IH. unfold sort_vertex. destruct (v_cachable x) eqn:C; cbn [negb].
    + rewrite dkeys_dset_In. split.
      * intros [[->|H]|(y & I & H)]; [right; exists x; simpl; auto|auto|right; exists y; simpl; tauto].
      * intros [H|(y & [->|I] & H1 & H2)]; [auto|left; left; auto|right; exists y; auto].
    + split.
      * intros [H|(y & I & H)]; [auto|right; exists y; simpl; tauto].
      * intros [H|(y & [->|I] & H1 & H2)]; [auto|congruence|right; exists y; auto].
Qed.

Definition maps_to (c : cache) (name : string) (k : files_t) : bool :=
  match dget (cache_map c) k with Some n => String.eqb n name | None => false end.

Lemma text_add f n ps name :
  text (add_function_pairs f n ps) name
  = (text f name ++ (if String.eqb n name then lines_of ps else ""))%string.
Proof.
  unfold text, add_function_pairs. rewrite dget_dset.
  change (eqb name n) with (String.eqb name n). rewrite String.eqb_sym.
  destruct (String.eqb_spec n name) as [->|N]; [reflexivity|].
  rewrite app_nil_r_s. reflexivity.
Qed.
Lemma text_add_same f n ps name : n <> name ->
  dget (add_function_pairs f n ps) name = dget f name.
Proof. intros N. unfold add_function_pairs. apply dget_dset_other. congruence. Qed.

Definition map_ok cwd directory (c : cache) :=
  forall k n, dget (cache_map c) k = Some n -> cache_filename cwd directory k = Ok n.

Lemma write_group_spec cwd directory c k ps c1 : map_ok cwd directory c ->
  write_group cwd directory c (k, ps) = Ok c1 ->
  exists n, cache_filename cwd directory k = Ok n /\ cache_map c1 = dset (cache_map c) k n
            /\ cache_fs c1 = add_function_pairs (cache_fs c) n ps.
Proof.
  unfold write_group. cbn [fst snd]. intros M. destruct (dget (cache_map c) k) as [n|] eqn:D.
  - intros E; injection E as <-. exists n. split; [apply M; exact D|]. cbn. split; [|reflexivity].
    clear M. revert D. generalize (cache_map c). intros m.
    induction m as [|[k0 l0] m IH]; cbn [dget dset]; [discriminate|].
    destruct (eqb_spec k k0) as [->|N].
    + intros E; injection E as <-; reflexivity.
    + intros E. rewrite <- IH; auto.
  - destruct (cache_filename cwd directory k) as [n|e]; [|discriminate].
    intros E; injection E as <-. exists n. auto.
Qed.
Lemma map_ok_step cwd directory c k n c1 : map_ok cwd directory c ->
  cache_filename cwd directory k = Ok n -> cache_map c1 = dset (cache_map c) k n ->
  map_ok cwd directory c1.
Proof.
  intros M F E k' n'. rewrite E, dget_dset. destruct (eqb_spec k' k) as [->|N]; [congruence|apply M].
Qed.

Lemma write_groups cwd directory gs : forall c c', map_ok cwd directory c ->
  fold_res (write_group cwd directory) c gs = Ok c' ->
  map_ok cwd directory c' /\
  (forall k, In k (dkeys (cache_map c')) <-> In k (dkeys (cache_map c)) \/ In k (dkeys gs)) /\
  (NoDup (dkeys (cache_map c)) -> NoDup (dkeys (cache_map c'))) /\
  (forall name, text (cache_fs c') name
      = text (cache_fs c) name ++ lines_of (flat (maps_to c' name) gs))%string /\
  (forall name, (forall k, In k (dkeys gs) -> maps_to c' name k = false) ->
                dget (cache_fs c') name = dget (cache_fs c) name) /\
  (forall name, In name (dkeys (cache_fs c')) <->
                In name (dkeys (cache_fs c)) \/ exists k, In k (dkeys gs) /\ maps_to c' name k = true) /\
  (NoDup (dkeys (cache_fs c)) -> NoDup (dkeys (cache_fs c'))).
Proof.
  induction gs as [|[k ps] gs IH]; intros c c' M; cbn [fold_res].
  - intros E; injection E as <-. repeat split; auto.
    + intros [H|[]]; exact H.
    + intros name. unfold flat. simpl. rewrite app_nil_r_s. reflexivity.
    + intros [H|(k & [] & _)]; exact H.
  - destruct (write_group cwd directory c (k, ps)) as [c1|e] eqn:W; [|discriminate].
    intros E. destruct (write_group_spec _ _ _ _ _ _ M W) as (n & Fn & Em & Ef).
    assert (M1 := map_ok_step _ _ _ _ _ _ M Fn Em).
    destruct (IH _ _ M1 E) as (M' & K' & ND & T & U & FK & FND).
    assert (Kk : In k (dkeys (cache_map c'))).
    { apply K'. left. rewrite Em. apply dkeys_dset_In. auto. }
    assert (MT : forall name, maps_to c' name k = String.eqb n name).
    { intros name. unfold maps_to. destruct (dkeys_dget _ _ Kk) as [n' D]. rewrite D.
      apply M' in D. rewrite Fn in D. injection D as <-. reflexivity. }
    assert (DK : dkeys ((k, ps) :: gs) = k :: dkeys gs) by reflexivity.
    rewrite DK. split; [exact M'|]. split; [|split; [|split; [|split; [|split]]]].
    + intros x. rewrite K', Em, dkeys_dset_In. simpl. intuition.
    + intros H. apply ND. rewrite Em. apply dset_NoDup, H.
    + intros name. rewrite T, flat_cons, MT, Ef, text_add, lines_of_app, app_assoc_s.
      destruct (String.eqb n name); reflexivity.
    + intros name H. rewrite U by (intros k0 I; apply H; right; exact I).
      rewrite Ef. apply text_add_same. intros ->.
      specialize (H k (or_introl eq_refl)). rewrite MT, String.eqb_refl in H. discriminate.
    + intros name. rewrite FK, Ef. unfold add_function_pairs. rewrite dkeys_dset_In. split.
      * intros [[->|H]|(k0 & I & H)].
        -- right. exists k. rewrite MT, String.eqb_refl. simpl. auto.
        -- auto.
        -- right. exists k0. simpl. auto.
      * intros [H|(k0 & [<-|I] & H)]; [auto| |right; exists k0; auto].
        rewrite MT in H. apply String.eqb_eq in H. auto.
    + intros H. apply FND. rewrite Ef. apply dset_NoDup, H.
Qed.

Lemma write_groups_ok cwd directory gs : forall c,
  (forall k, In k (dkeys gs) -> exists n, cache_filename cwd directory k = Ok n) ->
  exists c', fold_res (write_group cwd directory) c gs = Ok c'.
Proof.
  induction gs as [|[k ps] gs IH]; intros c H; cbn [fold_res]; [eauto|].
  unfold write_group. cbn [fst snd]. destruct (dget (cache_map c) k) as [n|].
  - apply IH. intros k0 I. apply H. right. exact I.
  - destruct (H k (or_introl eq_refl)) as [n ->]. apply IH. intros k0 I. apply H. right. exact I.
Qed.

Lemma update_perm cwd directory c vs c' : map_ok cwd directory c ->
  update cwd directory c vs = Ok c' -> forall name, exists ps t,
    Lines ps t /\ text (cache_fs c') name = (text (cache_fs c) name ++ t)%string /\
    Permutation ps (map v_names (filter (fun x => v_cachable x && stored_in c' name x) vs)).
Proof.
  unfold update. intros M E name. destruct (write_groups _ _ _ _ _ M E) as (_ & _ & _ & T & _).
  exists (flat (maps_to c' name) (fold_left sort_vertex vs [])), (lines_of (flat (maps_to c' name) (fold_left sort_vertex vs []))).
  split; [apply Lines_lines_of|]. split; [apply T|].
  exact (groups_perm (maps_to c' name) vs []).
Qed.

(** ** Histories *)
Lemma history_inv cwd directory us c : history cwd directory us c ->
  map_ok cwd directory c /\ NoDup (dkeys (cache_map c)) /\ NoDup (dkeys (cache_fs c)) /\
  (forall k, In k (dkeys (cache_map c)) <-> exists vs x, In vs us /\ In x vs /\ v_cachable x = true /\ v_files x = k) /\
  (forall name, In name (dkeys (cache_fs c)) <-> In name (dvals (cache_map c))).
Proof.
  induction 1 as [|us c vs c' H (M & N1 & N2 & K & F) U].
  - split; [intros k n; discriminate|]. split; [constructor|]. split; [constructor|].
    split; [|reflexivity]. intros k. split; [intros []|]. intros (vs & x & [] & _).
  - unfold update in U. destruct (write_groups _ _ _ _ _ M U) as (M' & K' & ND & T & UU & FK & FND).
    split; [exact M'|]. split; [auto|]. split; [auto|]. split.
    + intros k. rewrite K', K, groups_keys. split.
      * intros [(ws & x & I & J)|[[]|(x & I & J)]].
        -- exists ws, x. split; [apply in_or_app; auto|auto].
        -- exists vs, x. split; [apply in_or_app; right; left; reflexivity|auto].
      * intros (ws & x & I & J). apply in_app_or in I as [I|[<-|[]]].
        -- left. exists ws, x. auto.
        -- right. right. exists x. auto.
    + intros name. rewrite FK, F. split.
      * intros [I|(k & I & J)].
        -- apply in_map_iff in I as ([k n] & E & I). cbn in E. subst n.
           assert (D := dget_In_NoDup _ _ _ N1 I). assert (F1 := M _ _ D).
           assert (I' : In k (dkeys (cache_map c'))) by (apply K'; left; eapply dget_Some_key, D).
           destruct (dkeys_dget _ _ I') as [n' D']. assert (F2 := M' _ _ D').
           rewrite F1 in F2. injection F2 as <-. eapply dget_dvals, D'.
        -- unfold maps_to in J. destruct (dget (cache_map c') k) eqn:D; [|discriminate].
           apply String.eqb_eq in J. subst. eapply dget_dvals, D.
      * intros I. apply in_map_iff in I as ([k n] & E & I). cbn in E. subst n.
        assert (D := dget_In_NoDup _ _ _ (ND N1) I).
        assert (I' := dget_Some_key _ _ _ D). apply K' in I' as [I'|I'].
        -- left. destruct (dkeys_dget _ _ I') as [n' D']. assert (F2 := M _ _ D').
           rewrite (M' _ _ D) in F2. injection F2 as <-. eapply dget_dvals, D'.
        -- right. exists k. split; [exact I'|]. unfold maps_to. rewrite D. apply String.eqb_refl.
Qed.

Lemma history_text cwd directory us c : history cwd directory us c ->
  forall name, exists ps, text (cache_fs c) name = lines_of ps /\
    Permutation ps (map v_names (filter (fun x => v_cachable x && stored_in c name x) (concat us))).
Proof.
  induction 1 as [|us c vs c' H IH U]; intros name.
  - exists []. split; [reflexivity|constructor].
  - destruct (history_inv _ _ _ _ H) as (M & N1 & _ & K & _).
    destruct (IH name) as (ps & T & P).
    destruct (update_perm _ _ _ _ _ M U name) as (qs & t & L & T' & P').
    exists (ps ++ qs). split.
    + rewrite T', T, lines_of_app, (Lines_fun _ _ L). reflexivity.
    + rewrite concat_app. cbn [concat]. rewrite app_nil_r, filter_app, map_app.
      apply Permutation_app; [|exact P'].
      eapply Permutation_trans; [exact P|]. apply Permutation_map.
      replace (filter (fun x => v_cachable x && stored_in c' name x) (concat us))
        with (filter (fun x => v_cachable x && stored_in c name x) (concat us)); [apply Permutation_refl|].
      apply filter_ext_in. intros x I. destruct (v_cachable x) eqn:C; [|reflexivity]. cbn [andb].
      unfold stored_in. unfold update in U. destruct (write_groups _ _ _ _ _ M U) as (M' & K' & _).
      assert (Ik : In (v_files x) (dkeys (cache_map c))).
      { apply K. apply in_concat in I as (ws & I1 & I2). exists ws, x. auto. }
      destruct (dkeys_dget _ _ Ik) as [n D]. unfold files_t in *. rewrite D.
      destruct (dkeys_dget (cache_map c') (v_files x)) as [n' D']; [apply K'; auto|].
      unfold files_t in *. rewrite D'. apply M in D. apply M' in D'. congruence.
Qed.

(** ** Clearing *)
Lemma remove_all names : forall f, NoDup (dkeys f) -> NoDup names ->
  (forall n, In n names -> In n (dkeys f)) ->
  exists f', fold_res remove_file f names = Ok f' /\ NoDup (dkeys f') /\
             (forall n, In n (dkeys f') <-> In n (dkeys f) /\ ~ In n names).
Proof.
  induction names as [|n ns IH]; intros f N1 N2 H; cbn [fold_res].
  - exists f. split; [reflexivity|]. split; [exact N1|]. simpl. tauto.
  - inversion N2 as [|? ? Nn N3]; subst. unfold remove_file at 1.
    assert (D : dmem f n = true) by (apply dmem_spec, H; left; reflexivity). rewrite D.
    assert (KD : forall x, In x (dkeys (ddel f n)) <-> In x (dkeys f) /\ x <> n).
    { intros x. split.
      - intros I. split; [eapply ddel_keys_In, I|]. intros ->.
        pose proof (dget_ddel_same f n N1) as G. apply dget_None in G. contradiction.
      - intros [I Nx]. destruct (dkeys_dget _ _ I) as [v V].
        rewrite <- (dget_ddel_other f n x Nx) in V. eapply dget_Some_key, V. }
    destruct (IH (ddel f n)) as (f' & E & N' & K').
    + apply ddel_NoDup, N1.
    + exact N3.
    + intros x I. apply KD. split; [apply H; right; exact I|]. intros ->. contradiction.
    + exists f'. split; [exact E|]. split; [exact N'|]. intros x. rewrite K', KD. simpl.
      split; [intros [[A B] C]; split; [exact A|intros [->|I]; auto]|].
      intros [A B]. split; [split; [exact A|intros ->; apply B; auto]|intros I; apply B; auto].
Qed.
Lemma remove_dup names : forall f, NoDup (dkeys f) -> ~ NoDup names ->
  fold_res remove_file f names = Err FileNotFoundError.
Proof.
  induction names as [|n ns IH]; intros f N1 N2; cbn [fold_res]; [destruct N2; constructor|].
  unfold remove_file at 1. destruct (dmem f n) eqn:D; [|reflexivity].
  destruct (in_dec String.string_dec n ns) as [I|I].
  - (* n is removed again later *)
    assert (G : ~ In n (dkeys (ddel f n))) by (apply dget_None, dget_ddel_same, N1).
    assert (N3 := ddel_NoDup f n N1). clear IH N2 D N1. revert G N3. generalize (ddel f n). clear f.
    induction ns as [|m ns IH]; intros f G N; [destruct I|].
    cbn [fold_res]. unfold remove_file at 1. destruct (dmem f m) eqn:D; [|reflexivity].
    destruct I as [->|I]; [apply dmem_spec in D; contradiction|].
    apply IH; [exact I| |apply ddel_NoDup, N].
    intros J. apply G. eapply ddel_keys_In, J.
  - apply IH; [apply ddel_NoDup, N1|]. intros N. apply N2. constructor; assumption.
Qed.

Lemma clear_spec cwd directory us c : history cwd directory us c ->
  (NoDup (dvals (cache_map c)) -> clear c = Ok []) /\
  (~ NoDup (dvals (cache_map c)) -> clear c = Err FileNotFoundError).
Proof.
  intros H. destruct (history_inv _ _ _ _ H) as (_ & _ & N2 & _ & F). unfold clear. split.
  - intros N. destruct (remove_all (dvals (cache_map c)) (cache_fs c) N2 N) as (f' & E & _ & K).
    + intros n I. apply F, I.
    + rewrite E. destruct f' as [|[a b] f']; [reflexivity|].
      exfalso. destruct (proj1 (K a)) as [A B]; [left; reflexivity|]. apply B, F, A.
  - intros N. rewrite remove_dup; auto.
Qed.

(** ** Names of cache files *)
Lemma replace_char_no c d s : c <> d -> has_char c (replace_char c d s) = false.
Proof.
  intros N. induction s as [|x s IH]; [reflexivity|]. cbn [replace_char has_char]. rewrite IH, orb_false_r.
  destruct (Ascii.eqb_spec x c) as [->|E]; apply Ascii.eqb_neq; congruence.
Qed.
Lemma replace_char_inj c d a : forall b, has_char d a = false -> has_char d b = false ->
  replace_char c d a = replace_char c d b -> a = b.
Proof.
  induction a as [|x a IH]; intros [|y b]; cbn [has_char replace_char]; try discriminate; [reflexivity|].
  rewrite !orb_false_iff. intros [A1 A2] [B1 B2] E. injection E as E1 E2.
  rewrite (IH b A2 B2 E2). f_equal.
  apply Ascii.eqb_neq in A1. apply Ascii.eqb_neq in B1.
  destruct (Ascii.eqb_spec x c), (Ascii.eqb_spec y c); congruence.
Qed.

Lemma norm_comps_In comps : forall acc c, In c (norm_comps acc comps) -> In c acc \/ In c comps.
Proof.
  induction comps as [|x comps IH]; intros acc c; cbn [norm_comps].
  - rewrite <- in_rev. auto.
  - destruct (String.eqb x "" || String.eqb x "."); [intros I; destruct (IH _ _ I); simpl; auto|].
    destruct (String.eqb x "..").
    + intros I. destruct (IH _ _ I) as [J|J]; [|simpl; auto]. destruct acc; simpl in *; auto.
    + intros I. destruct (IH _ _ I) as [[->|J]|J]; simpl; auto.
Qed.
Lemma norm_comps_ordinary comps : forall acc, Forall ordinary comps ->
  norm_comps acc comps = rev acc ++ comps.
Proof.
  induction comps as [|x comps IH]; intros acc H; cbn [norm_comps].
  - symmetry. apply app_nil_r.
  - inversion H as [|? ? (O1 & O2 & O3 & _) H2]; subst.
    apply String.eqb_neq in O1, O2, O3. rewrite O1, O2, O3. cbn [orb].
    rewrite IH by exact H2. simpl. rewrite <- app_assoc. reflexivity.
Qed.

Lemma split_join comps : comps <> [] -> Forall (fun c => has_char "/" c = false) comps ->
  split_char "/" (join "/" comps) = comps.
Proof.
  unfold join. intros N H. induction H as [|c comps Hc H IH]; [contradiction|].
  destruct comps as [|d comps].
  - simpl. apply split_char_no, Hc.
  - change (String.concat "/" (c :: d :: comps)) with (c ++ String "/" (String.concat "/" (d :: comps)))%string.
    rewrite split_char_app by exact Hc. rewrite IH by discriminate. reflexivity.
Qed.
Lemma join_inj a b : a <> [] -> b <> [] -> Forall (fun c => has_char "/" c = false) a ->
  Forall (fun c => has_char "/" c = false) b -> join "/" a = join "/" b -> a = b.
Proof. intros Na Nb Ha Hb E. rewrite <- (split_join a), <- (split_join b); auto. congruence. Qed.

Lemma abs_comps_normal cwd p comps : normal_path p comps -> abs_comps cwd p = comps.
Proof.
  intros (-> & N & O). unfold abs_comps, isabs. cbn [startswith append].
  rewrite Ascii.eqb_refl. cbn [andb]. change (startswith _ "") with true. cbv iota.
  change ("/" ++ join "/" comps)%string with (String slash (join "/" comps)).
  unfold slash at 1. cbn [split_char]. rewrite Ascii.eqb_refl.
  cbn [norm_comps]. change (String.eqb "" "") with true. cbn [orb].
  unfold slash. rewrite split_join; [|exact N|].
  - rewrite norm_comps_ordinary by exact O. reflexivity.
  - eapply Forall_impl; [|exact O]. intros c (_ & _ & _ & H). exact H.
Qed.

Lemma split_char_no_sep c s w : In w (split_char c s) -> has_char c w = false.
Proof.
  revert w. induction s as [|x s IH]; intros w; cbn [split_char].
  - intros [<-|[]]. reflexivity.
  - destruct (Ascii.eqb_spec x c) as [->|N].
    + intros [<-|I]; [reflexivity|auto].
    + destruct (split_char c s) as [|v vs]; [intros [<-|[]]|intros [<-|I]].
      * cbn [has_char]. rewrite orb_false_r. apply Ascii.eqb_neq. congruence.
      * cbn [has_char]. rewrite IH by (left; reflexivity). rewrite orb_false_r. apply Ascii.eqb_neq. congruence.
      * apply IH. right. exact I.
Qed.
Lemma norm_comps_nonempty comps : forall acc c, ~ In ""%string acc -> In c (norm_comps acc comps) -> c <> ""%string.
Proof.
  induction comps as [|x comps IH]; intros acc c N; cbn [norm_comps].
  - rewrite <- in_rev. intros I ->. contradiction.
  - destruct (String.eqb_spec x "") as [->|Nx]; cbn [orb]; [apply IH, N|].
    destruct (String.eqb x "."); [apply IH, N|]. destruct (String.eqb x "..").
    + apply IH. destruct acc; simpl in *; auto.
    + apply IH. intros [E|I]; auto.
Qed.
Lemma abs_comps_props cwd p c : isabs p = true -> In c (abs_comps cwd p) ->
  c <> ""%string /\ has_char "/" c = false /\ In c (split_char "/" p).
Proof.
  unfold abs_comps. intros ->. unfold slash. intros I. split; [|].
  - eapply norm_comps_nonempty; [|exact I]. intros [].
  - apply norm_comps_In in I as [[]|I]. split; [eapply split_char_no_sep, I|exact I].
Qed.
Lemma skipn_In {A} n : forall (l : list A) x, In x (skipn n l) -> In x l.
Proof. induction n as [|n IH]; intros [|y l] x; simpl; auto. Qed.

(** The first character of a relative path to a file with no dollar components. *)
Lemma relpath_first cwd p start r : isabs p = true -> no_dollar p ->
  relpath cwd p start = Ok r ->
  exists c r', replace_char "/" "$" r = String c r' /\ c <> "$"%char.
Proof.
  unfold relpath. intros A D. destruct (String.eqb p ""); [discriminate|].
  set (rel := repeat _ _ ++ _).
  assert (C : forall c, In c rel -> exists x c', c = String x c' /\ x <> "$"%char /\ x <> "/"%char).
  { intros c I. apply in_app_or in I as [I|I].
    - apply repeat_spec in I. subst c. exists "."%char, "."%string. repeat split; discriminate.
    - apply skipn_In, abs_comps_props in I as (N & S & I); [|exact A].
      destruct c as [|x c']; [contradiction|]. exists x, c'. split; [reflexivity|].
      specialize (D _ I). cbn [startswith] in D. rewrite andb_true_r in D.
      apply Ascii.eqb_neq in D. split; [congruence|].
      cbn [has_char] in S. apply orb_false_iff in S as [S _]. apply Ascii.eqb_neq in S. congruence. }
  destruct rel as [|c rel'] eqn:E.
  - intros H; injection H as <-. exists "."%char, ""%string. split; [reflexivity|discriminate].
  - intros H; injection H as <-. destruct (C c (or_introl eq_refl)) as (x & c' & -> & N1 & N2).
    destruct rel' as [|d rel']; unfold join; cbn [String.concat append replace_char];
      apply Ascii.eqb_neq in N2; rewrite N2; eauto.
Qed.

Lemma path_join_no_slash d s : s <> ""%string -> has_char "/" s = false ->
  path_join d s = (d ++ s)%string /\ (d = ""%string \/ endswith d "/" = true) \/ path_join d s = (d ++ "/" ++ s)%string.
Proof.
  intros N H. unfold path_join, isabs. destruct s as [|x s]; [contradiction|].
  cbn [startswith]. rewrite andb_true_r. cbn [has_char] in H. apply orb_false_iff in H as [H _].
  rewrite H. destruct (String.eqb_spec d "") as [->|Nd]; cbn [orb]; [auto|].
  destruct (endswith d "/"); auto.
Qed.
Lemma app_inj_l a b c : (a ++ b)%string = (a ++ c)%string -> b = c.
Proof. induction a as [|x a IH]; simpl; auto. intros E. injection E. auto. Qed.

Lemma names_never_meet cwd d l r f l' r' : isabs l = true -> no_dollar l -> isabs l' = true ->
  cache_filename cwd d (Some l, r) = Ok f -> f <> simpll_filename d l' r'.
Proof.
  intros A D A'. destruct r as [r|]; [|discriminate]. unfold cache_filename.
  destruct (relpath cwd l (common_prefix l r)) as [rl|] eqn:E1; [|discriminate].
  destruct (relpath cwd r (common_prefix l r)) as [rr|] eqn:E2; [|discriminate].
  intros H; injection H as <-.
  destruct (relpath_first _ _ _ _ A D E1) as (c & rl' & E & Nc).
  unfold simpll_filename. destruct l' as [|x l']; [discriminate|].
  unfold isabs in A'. cbn [startswith] in A'. rewrite andb_true_r in A'. apply Ascii.eqb_eq in A'. subst x.
  cbn [replace_char]. rewrite Ascii.eqb_refl.
  set (s := (replace_char "/" "$" rl ++ ":" ++ replace_char "/" "$" rr)%string).
  assert (Hs : s = String c (rl' ++ ":" ++ replace_char "/" "$" rr)%string) by (unfold s; rewrite E; reflexivity).
  assert (Ns : has_char "/" s = false).
  { unfold s. rewrite !has_char_app, !replace_char_no by discriminate. reflexivity. }
  assert (N0 : s <> ""%string) by (rewrite Hs; discriminate).
  destruct (path_join_no_slash d s N0 Ns) as [[PJ _]|PJ]; change (replace_char "/" "$" rl ++ String ":" (replace_char "/" "$" rr))%string with s; rewrite PJ; intros X; apply app_inj_l in X.
  - rewrite X in Ns. cbn in Ns. discriminate.
  - apply (app_inj_l "/") in X. rewrite Hs in X. injection X. intros. congruence.
Qed.

(** ** Injectivity of the names *)
Lemma common_prefix_roots q a A b B : a <> b ->
  common_prefix (q ++ String a A) (q ++ String b B) = q.
Proof.
  intros N. induction q as [|x q IH]; simpl.
  - apply Ascii.eqb_neq in N. rewrite N. reflexivity.
  - rewrite Ascii.eqb_refl, IH. reflexivity.
Qed.
Lemma common_len_le a : forall b, (common_len a b <= length a)%nat.
Proof. induction a as [|x a IH]; intros [|y b]; simpl; try lia. destruct (String.eqb x y); [|lia]. specialize (IH b). lia. Qed.
Lemma common_len_firstn a : forall b, firstn (common_len a b) b = firstn (common_len a b) a.
Proof.
  induction a as [|x a IH]; intros [|y b]; simpl; try reflexivity.
  destruct (String.eqb_spec x y) as [->|]; simpl; [rewrite IH|]; reflexivity.
Qed.
Lemma repeat_dots_inj n : forall m a b, Forall ordinary a -> Forall ordinary b ->
  repeat ".."%string n ++ a = repeat ".."%string m ++ b -> n = m /\ a = b.
Proof.
  induction n as [|n IH]; intros [|m] a b Ha Hb; simpl; intros E.
  - auto.
  - subst a. inversion Ha as [|? ? (_ & _ & O & _)]. contradiction.
  - subst b. inversion Hb as [|? ? (_ & _ & O & _)]. contradiction.
  - injection E as E. destruct (IH m a b Ha Hb E). auto.
Qed.
Lemma Forall_skipn {A} (P : A -> Prop) n : forall l, Forall P l -> Forall P (skipn n l).
Proof. induction n as [|n IH]; intros [|x l] H; simpl; auto. inversion H; auto. Qed.

Lemma Ok_inj {A} (a b : A) : Ok a = Ok b -> a = b.
Proof. intros H. injection H. auto. Qed.
Lemma relpath_inj cwd start p1 c1 p2 c2 r : normal_path p1 c1 -> normal_path p2 c2 ->
  relpath cwd p1 start = Ok r -> relpath cwd p2 start = Ok r -> p1 = p2.
Proof.
  intros N1 N2. unfold relpath. rewrite (abs_comps_normal _ _ _ N1), (abs_comps_normal _ _ _ N2).
  destruct N1 as (E1 & M1 & O1). destruct N2 as (E2 & M2 & O2). subst p1 p2.
  cbn [append]. change (String.eqb (String "/" (join "/" c1)) "") with false.
  change (String.eqb (String "/" (join "/" c2)) "") with false. cbv iota.
  generalize (abs_comps cwd start). intros sl.
  set (rel1 := repeat _ (length sl - common_len sl c1) ++ _).
  set (rel2 := repeat _ (length sl - common_len sl c2) ++ _).
  assert (F : forall n a, Forall ordinary a -> Forall (fun c => has_char "/" c = false /\ c <> "."%string) (repeat ".."%string n ++ a)).
  { intros n a H. apply Forall_app. split.
    - apply Forall_forall. intros x I. apply repeat_spec in I. subst x. split; [reflexivity|discriminate].
    - eapply Forall_impl; [|exact H]. intros x (_ & D & _ & S). auto. }
  assert (F1 : Forall (fun c => has_char "/" c = false /\ c <> "."%string) rel1) by (apply F, Forall_skipn, O1).
  assert (F2 : Forall (fun c => has_char "/" c = false /\ c <> "."%string) rel2) by (apply F, Forall_skipn, O2).
  intros R1 R2. assert (E : rel1 = rel2).
  { assert (Dot : forall rel, Forall (fun c => has_char "/" c = false /\ c <> "."%string) rel -> rel <> [] -> join "/" rel <> "."%string).
    { intros rel Fr Nr J. assert (X : rel = ["."%string]).
      { apply join_inj; [exact Nr|discriminate| | |exact J].
        - eapply Forall_impl; [|exact Fr]. intros z [Z1 Z2]. exact Z1.
        - repeat constructor. }
      subst rel. inversion Fr as [|? ? [_ Z] _]. apply Z. reflexivity. }
    destruct rel1 as [|x1 rel1], rel2 as [|x2 rel2].
    - reflexivity.
    - apply Ok_inj in R1. subst r. apply Ok_inj in R2. exfalso. eapply Dot; [exact F2|discriminate|exact R2].
    - apply Ok_inj in R2. subst r. apply Ok_inj in R1. exfalso. eapply Dot; [exact F1|discriminate|exact R1].
    - apply Ok_inj in R1. apply Ok_inj in R2. apply join_inj; try discriminate; [| |congruence].
      + eapply Forall_impl; [|exact F1]. intros z [Z1 Z2]. exact Z1.
      + eapply Forall_impl; [|exact F2]. intros z [Z1 Z2]. exact Z1. }
  unfold rel1, rel2 in E. apply repeat_dots_inj in E as [En Es]; [|apply Forall_skipn, O1|apply Forall_skipn, O2].
  pose proof (common_len_le sl c1). pose proof (common_len_le sl c2).
  assert (Ei : common_len sl c1 = common_len sl c2) by lia.
  assert (X : c1 = c2).
  { rewrite <- (firstn_skipn (common_len sl c1) c1), <- (firstn_skipn (common_len sl c2) c2).
    rewrite Es, !common_len_firstn, Ei. reflexivity. }
  rewrite X. reflexivity.
Qed.

Lemma has_char_concat c sep l : has_char c sep = false -> Forall (fun x => has_char c x = false) l ->
  has_char c (join sep l) = false.
Proof.
  intros Hs H. unfold join. induction H as [|x l Hx H IH]; [reflexivity|].
  destruct l as [|y l]; [exact Hx|].
  change (String.concat sep (x :: y :: l)) with (x ++ sep ++ String.concat sep (y :: l))%string.
  rewrite !has_char_app, Hx, Hs. exact IH.
Qed.
Lemma has_char_join_inv c sep l : has_char c (join sep l) = false -> Forall (fun x => has_char c x = false) l.
Proof.
  unfold join. induction l as [|x l IH]; intros H; [constructor|].
  destruct l as [|y l]; [repeat constructor; exact H|].
  change (String.concat sep (x :: y :: l)) with (x ++ sep ++ String.concat sep (y :: l))%string in H.
  rewrite !has_char_app in H. apply orb_false_iff in H as [H1 H2]. apply orb_false_iff in H2 as [_ H2].
  constructor; auto.
Qed.
Lemma relpath_has_char c cwd start p comps r : normal_path p comps -> c <> "/"%char -> c <> "."%char ->
  has_char c p = false -> relpath cwd p start = Ok r -> has_char c r = false.
Proof.
  intros N Ns Nd H. unfold relpath. rewrite (abs_comps_normal _ _ _ N). destruct N as (-> & Ne & O).
  cbn [append]. cbv zeta.
  rewrite has_char_app in H. apply orb_false_iff in H as [_ H]. apply has_char_join_inv in H.
  change (String.eqb (String "/" (join "/" comps)) "") with false. cbv iota.
  set (rel := repeat _ _ ++ _).
  assert (F : Forall (fun x => has_char c x = false) rel).
  { apply Forall_app. split.
    - apply Forall_forall. intros x I. apply repeat_spec in I. subst x. cbn [has_char].
      apply Ascii.eqb_neq in Nd. rewrite Nd. reflexivity.
    - apply Forall_skipn, H. }
  apply Ascii.eqb_neq in Ns, Nd.
  destruct rel as [|x rel]; intros R; apply Ok_inj in R; subst r.
  - cbn [has_char]. rewrite Nd. reflexivity.
  - apply has_char_concat; [|exact F]. cbn [has_char]. rewrite Ns. reflexivity.
Qed.
Lemma replace_char_has e c d s : e <> d -> has_char e s = false -> has_char e (replace_char c d s) = false.
Proof.
  intros N. induction s as [|x s IH]; [auto|]. cbn [has_char replace_char].
  rewrite !orb_false_iff. intros [A B]. split; [|auto].
  destruct (Ascii.eqb x c); [apply Ascii.eqb_neq; exact N|exact A].
Qed.
Lemma colon_inj a b a' b' : has_char ":" a = false -> has_char ":" a' = false ->
  (a ++ ":" ++ b)%string = (a' ++ ":" ++ b')%string -> a = a' /\ b = b'.
Proof.
  intros H H' E. apply (f_equal (split_first ":")) in E.
  change (":" ++ b)%string with (String ":" b) in E. change (":" ++ b')%string with (String ":" b') in E.
  rewrite !split_first_app in E by assumption. injection E. auto.
Qed.

Lemma cache_filename_inj cwd d q l1 l2 r1 r2 f :
  (forall p, In p [l1; l2; r1; r2] -> (exists comps, normal_path p comps) /\ has_char "$" p = false /\ has_char ":" p = false) ->
  common_prefix l1 r1 = q -> common_prefix l2 r2 = q ->
  cache_filename cwd d (Some l1, Some r1) = Ok f -> cache_filename cwd d (Some l2, Some r2) = Ok f ->
  l1 = l2 /\ r1 = r2.
Proof.
  intros H C1 C2. unfold cache_filename. rewrite C1, C2. intros F1 F2.
  destruct (relpath cwd l1 q) as [a1|] eqn:A1; [|discriminate].
  destruct (relpath cwd r1 q) as [b1|] eqn:B1; [|discriminate].
  destruct (relpath cwd l2 q) as [a2|] eqn:A2; [|discriminate].
  destruct (relpath cwd r2 q) as [b2|] eqn:B2; [|discriminate].
  apply Ok_inj in F1. apply Ok_inj in F2.
  destruct (H l1) as ((cl1 & Nl1) & Dl1 & Kl1); [simpl; auto|].
  destruct (H l2) as ((cl2 & Nl2) & Dl2 & Kl2); [simpl; auto|].
  destruct (H r1) as ((cr1 & Nr1) & Dr1 & Kr1); [simpl; auto|].
  destruct (H r2) as ((cr2 & Nr2) & Dr2 & Kr2); [simpl; auto|].
  assert (HC : forall c p comps x, c <> "/"%char -> c <> "."%char -> normal_path p comps -> has_char c p = false -> relpath cwd p q = Ok x -> has_char c x = false).
  { intros. eapply relpath_has_char; eauto. }
  assert (X : (replace_char "/" "$" a1 ++ ":" ++ replace_char "/" "$" b1)%string = (replace_char "/" "$" a2 ++ ":" ++ replace_char "/" "$" b2)%string).
  { assert (S1 : has_char "/" (replace_char "/" "$" a1 ++ ":" ++ replace_char "/" "$" b1) = false)
      by (rewrite !has_char_app, !replace_char_no by discriminate; reflexivity).
    assert (S2 : has_char "/" (replace_char "/" "$" a2 ++ ":" ++ replace_char "/" "$" b2) = false)
      by (rewrite !has_char_app, !replace_char_no by discriminate; reflexivity).
    revert F1 F2. unfold path_join, isabs.
    assert (St : forall s, has_char "/" s = false -> startswith s "/" = false).
    { intros [|x s]; cbn [has_char startswith]; [reflexivity|]. rewrite orb_false_iff, andb_true_r. intros [E _].
      exact E. }
    rewrite !St by assumption. destruct (String.eqb d "" || endswith d "/"); intros <- E;
      apply app_inj_l in E; [symmetry; exact E|]. symmetry. exact (app_inj_l "/" _ _ E). }
  apply colon_inj in X as [Xa Xb].
  - apply replace_char_inj in Xa; [|eapply HC with (c := "$"%char); [discriminate|discriminate|exact Nl1|exact Dl1|exact A1]|eapply HC with (c := "$"%char); [discriminate|discriminate|exact Nl2|exact Dl2|exact A2]].
    apply replace_char_inj in Xb; [|eapply HC with (c := "$"%char); [discriminate|discriminate|exact Nr1|exact Dr1|exact B1]|eapply HC with (c := "$"%char); [discriminate|discriminate|exact Nr2|exact Dr2|exact B2]].
    subst a2 b2. split; eapply relpath_inj; eauto.
  - apply replace_char_has; [discriminate|]. eapply HC with (c := ":"%char); [discriminate|discriminate|exact Nl1|exact Kl1|exact A1].
  - apply replace_char_has; [discriminate|]. eapply HC with (c := ":"%char); [discriminate|discriminate|exact Nl2|exact Kl2|exact A2].
Qed.

Lemma common_prefix_same f : common_prefix f f = f.
Proof. induction f as [|c f IH]; [reflexivity|]. simpl. rewrite Ascii.eqb_refl, IH. reflexivity. Qed.
Lemma common_len_same l : common_len l l = length l.
Proof. induction l as [|c f IH]; [reflexivity|]. simpl. rewrite String.eqb_refl, IH. reflexivity. Qed.
Lemma same_file_name cwd d f : f <> ""%string ->
  cache_filename cwd d (Some f, Some f) = Ok (path_join d ".:.").
Proof.
  intros N. unfold cache_filename. rewrite common_prefix_same. unfold relpath.
  apply String.eqb_neq in N. rewrite N. cbv zeta.
  rewrite common_len_same, Nat.sub_diag, skipn_all. reflexivity.
Qed.
