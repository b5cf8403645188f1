(** * Proofs about snapshots *)
From Coq Require Import String Ascii ZArith Arith Bool Lia List.
From Verif Require Import PyBase Path_Model Cache_Spec Cache_Proofs Snapshot_Model Snapshot_Spec.
Import ListNotations.
Open Scope list_scope.

(** ** Paths *)
Lemma split_char_sep c a b : split_char c (a ++ String c b)%string = split_char c a ++ split_char c b.
Proof.
  induction a as [|x a IH]; cbn [append split_char].
  - rewrite Ascii.eqb_refl. reflexivity.
  - destruct (Ascii.eqb_spec x c) as [->|N]; rewrite IH; [reflexivity|].
    destruct (split_char c a) eqn:E; [destruct (split_char_nonempty _ _ E)|reflexivity].
Qed.
Lemma norm_comps_app a b : forall acc, norm_comps acc (a ++ b) = norm_comps (rev (norm_comps acc a)) b.
Proof.
  induction a as [|x a IH]; intros acc; cbn [app norm_comps].
  - rewrite rev_involutive. reflexivity.
  - destruct (String.eqb x "" || String.eqb x "."); [apply IH|]. destruct (String.eqb x ".."); apply IH.
Qed.
Lemma norm_split_join_path acc a b : isabs b = false ->
  norm_comps acc (split_char slash (path_join a b)) = norm_comps acc (split_char slash a ++ split_char slash b).
Proof.
  unfold path_join. intros ->. destruct (String.eqb_spec a "") as [->|N]; cbn [orb].
  - cbn. reflexivity.
  - destruct (endswith a "/") eqn:E.
    + apply endswith_spec in E as [a' ->]. rewrite app_assoc_s.
      change ("/" ++ b)%string with (String slash b).
      change (a' ++ "/")%string with (a' ++ String slash "")%string.
      rewrite !split_char_sep, <- app_assoc, !norm_comps_app. cbn [split_char].
      cbn [norm_comps String.eqb orb]. rewrite rev_involutive. reflexivity.
    + change ("/" ++ b)%string with (String slash b). rewrite split_char_sep. reflexivity.
Qed.

Lemma abs_comps_join cwd a b : isabs cwd = true -> isabs b = false ->
  abs_comps cwd (path_join a b) = norm_comps (rev (abs_comps cwd a)) (split_char slash b).
Proof.
  intros C B. unfold abs_comps.
  assert (J : isabs (path_join a b) = isabs a \/ a = ""%string).
  { unfold path_join. rewrite B. destruct (String.eqb_spec a "") as [->|N]; [auto|]. left. cbn [orb].
    destruct a; [contradiction|]. destruct (endswith _ _); reflexivity. }
  assert (JJ : isabs (path_join a b) = isabs a).
  { destruct J as [J| ->]; [exact J|]. unfold path_join. rewrite B. cbn. exact B. }
  rewrite JJ. destruct (isabs a) eqn:A.
  - rewrite norm_split_join_path by exact B. apply norm_comps_app.
  - rewrite norm_split_join_path by exact JJ.
    rewrite norm_comps_app, norm_split_join_path by exact B.
    rewrite <- norm_comps_app, app_assoc, norm_comps_app. f_equal. f_equal.
    rewrite norm_split_join_path by exact A. reflexivity.
Qed.

Lemma abs_ordinary cwd p : isabs cwd = true -> Forall ordinary (abs_comps cwd p).
Proof.
  intros C. unfold abs_comps.
  set (q := if isabs p then p else path_join cwd p).
  assert (G : forall comps acc, Forall ordinary acc -> Forall (fun c => has_char "/" c = false) comps ->
            Forall ordinary (norm_comps acc comps)).
  { induction comps as [|x comps IH]; intros acc A S; cbn [norm_comps]; [apply Forall_rev, A|].
    inversion S; subst. destruct (String.eqb_spec x "") as [->|N1]; cbn [orb]; [auto|].
    destruct (String.eqb_spec x ".") as [->|N2]; [auto|].
    destruct (String.eqb_spec x "..") as [->|N3].
    - apply IH; [|assumption]. destruct acc; [constructor|]. inversion A; assumption.
    - apply IH; [|assumption]. constructor; [|exact A]. repeat split; assumption. }
  apply G; [constructor|]. apply Forall_forall. intros c. apply split_char_no_sep.
Qed.

(** Walking from [sl] along the relative path to [pl] arrives at [pl]. *)
Lemma norm_up n : forall acc rest, norm_comps acc (repeat ".."%string n ++ rest) = norm_comps (skipn n acc) rest.
Proof.
  induction n as [|n IH]; intros acc rest; [reflexivity|]. cbn [repeat app norm_comps].
  change (String.eqb ".." "" || String.eqb ".." ".") with false. cbv iota.
  change (String.eqb ".." "..") with true. cbv iota. rewrite IH.
  destruct acc; [|reflexivity]. rewrite skipn_nil. reflexivity.
Qed.
Lemma common_len_firstn a : forall b, firstn (common_len a b) a = firstn (common_len a b) b.
Proof.
  induction a as [|x a IH]; intros [|y b]; cbn [common_len firstn]; try reflexivity.
  destruct (String.eqb_spec x y) as [->|N]; [|reflexivity]. cbn [firstn]. rewrite IH. reflexivity.
Qed.
Lemma common_len_le a : forall b, common_len a b <= length a.
Proof.
  induction a as [|x a IH]; intros [|y b]; cbn [common_len length]; try lia.
  destruct (String.eqb x y); [specialize (IH b)|]; lia.
Qed.
Lemma walk sl pl : Forall ordinary pl ->
  norm_comps (rev sl) (repeat ".."%string (length sl - common_len sl pl) ++ skipn (common_len sl pl) pl) = pl.
Proof.
  intros O. rewrite norm_up, skipn_rev, norm_comps_ordinary.
  - replace (length sl - (length sl - common_len sl pl)) with (common_len sl pl)
      by (pose proof (common_len_le sl pl); lia).
    rewrite rev_involutive, common_len_firstn. apply firstn_skipn.
  - apply Forall_forall. intros x I. apply skipn_In in I. eapply Forall_forall in O; eauto.
Qed.

Lemma rel_no_slash n k pl : Forall ordinary pl ->
  Forall (fun c => has_char "/" c = false) (repeat ".."%string n ++ skipn k pl).
Proof.
  intros O. apply Forall_app. split; apply Forall_forall; intros x I.
  - apply repeat_spec in I as ->. reflexivity.
  - apply skipn_In in I. eapply Forall_forall in O; [|exact I]. destruct O as (_ & _ & _ & H). exact H.
Qed.
Lemma rel_nonempty n k pl x : Forall ordinary pl -> In x (repeat ".."%string n ++ skipn k pl) -> x <> ""%string.
Proof.
  intros O I. apply in_app_or in I as [I|I].
  - apply repeat_spec in I as ->. discriminate.
  - apply skipn_In in I. eapply Forall_forall in O; [|exact I]. apply O.
Qed.

Lemma relpath_walk cwd p start r : isabs cwd = true -> relpath cwd p start = Ok r ->
  isabs r = false /\ r <> ""%string /\
  norm_comps (rev (abs_comps cwd start)) (split_char slash r) = abs_comps cwd p.
Proof.
  intros C. unfold relpath. destruct (String.eqb p ""); [discriminate|].
  pose proof (abs_ordinary cwd p C) as O. pose proof (walk (abs_comps cwd start) (abs_comps cwd p) O) as W.
  pose proof (rel_no_slash (length (abs_comps cwd start) - common_len (abs_comps cwd start) (abs_comps cwd p))
                (common_len (abs_comps cwd start) (abs_comps cwd p)) _ O) as S.
  pose proof (fun x => rel_nonempty (length (abs_comps cwd start) - common_len (abs_comps cwd start) (abs_comps cwd p))
                (common_len (abs_comps cwd start) (abs_comps cwd p)) _ x O) as NE.
  set (rel := repeat _ _ ++ skipn _ _) in *. clearbody rel.
  destruct rel as [|x rel].
  - intros E. injection E as <-. repeat split; [discriminate|]. exact W.
  - intros E. apply Ok_inj in E. subst r. pose proof (NE x (or_introl eq_refl)) as Nx.
    inversion S as [|? ? Hx _]; subst.
    assert (J : exists t, join "/" (x :: rel) = (x ++ t)%string).
    { unfold join. destruct rel; cbn [String.concat]; [exists ""%string; symmetry; apply app_nil_r_s|eauto]. }
    destruct J as [t J]. repeat split.
    + rewrite J. destruct x as [|c x]; [contradiction|]. unfold isabs. cbn [append startswith].
      cbn [has_char] in Hx. apply orb_false_iff in Hx as [Hx _]. rewrite Ascii.eqb_sym in Hx.
      destruct (Ascii.eqb_spec "/" c) as [E|_]; [|reflexivity]. subst c. discriminate.
    + rewrite J. destruct x; [contradiction|discriminate].
    + unfold slash. rewrite split_join; [exact W|discriminate|exact S].
Qed.

(** Saving a path relative to a directory and joining it again gives the same file. *)
Lemma path_round_trip cwd1 dir1 m l cwd2 dir2 r :
  isabs cwd1 = true -> isabs cwd2 = true -> same_file cwd1 dir1 cwd2 dir2 ->
  relpath cwd1 m dir1 = Ok l -> relpath cwd2 dir2 "." = Ok r ->
  l <> ""%string /\ same_file cwd1 m cwd2 (path_join r l).
Proof.
  unfold same_file. intros C1 C2 D L R.
  destruct (relpath_walk _ _ _ _ C1 L) as (Ll & Ln & Lw).
  destruct (relpath_walk _ _ _ _ C2 R) as (Rl & Rn & Rw).
  split; [exact Ln|]. rewrite abs_comps_join by assumption.
  assert (RR : abs_comps cwd2 r = abs_comps cwd2 dir2).
  { rewrite <- Rw. unfold abs_comps at 1. rewrite Rl, norm_split_join_path by exact Rl.
    rewrite norm_comps_app. f_equal. f_equal. unfold abs_comps.
    change (isabs ".") with false. cbv iota. rewrite norm_split_join_path by reflexivity.
    rewrite norm_comps_app. cbn. rewrite rev_involutive. reflexivity. }
  rewrite RR, <- D. symmetry. exact Lw.
Qed.

(** ** Dictionaries *)
Section Dict.
  Context {K V : Type} `{EqB K}.
  Lemma dset_absent (d : dict K V) k v : ~ In k (dkeys d) -> dset d k v = d ++ [(k, v)].
  Proof.
    induction d as [|[k2 v2] d IH]; cbn [dset dkeys map fst In]; [reflexivity|].
    intros N. destruct (eqb_spec k k2) as [->|E]; [exfalso; auto|].
    rewrite IH by auto. reflexivity.
  Qed.
  Lemma dset_last (d : dict K V) k v w : ~ In k (dkeys d) -> dset (d ++ [(k, v)]) k w = d ++ [(k, w)].
  Proof.
    induction d as [|[k2 v2] d IH]; cbn [app dset dkeys map fst In].
    - intros _. destruct (eqb_spec k k); [reflexivity|congruence].
    - intros N. destruct (eqb_spec k k2) as [->|E]; [exfalso; auto|]. rewrite IH by auto. reflexivity.
  Qed.
  Lemma dget_last (d : dict K V) k v : ~ In k (dkeys d) -> dget (d ++ [(k, v)]) k = Some v.
  Proof.
    induction d as [|[k2 v2] d IH]; cbn [app dget dkeys map fst In].
    - intros _. destruct (eqb_spec k k); [reflexivity|congruence].
    - intros N. destruct (eqb_spec k k2) as [->|E]; [exfalso; auto|]. auto.
  Qed.
  Lemma dkeys_app (a b : dict K V) : dkeys (a ++ b) = dkeys a ++ dkeys b.
  Proof. apply map_app. Qed.
End Dict.

(** ** Lookup after additions *)
Lemma after_snoc h g n d : after (h ++ [(g, n, d)]) = add_fun n d g (after h).
Proof. unfold after. rewrite fold_left_app. reflexivity. Qed.

Lemma get_add n d g s n2 g2 :
  get_by_name (add_fun n d g s) n2 g2 =
  if opt_eqb g g2 && String.eqb n n2 then Some d else get_by_name s n2 g2.
Proof.
  unfold get_by_name, add_fun. destruct (opt_eqb_spec g g2) as [->|N]; cbn [andb].
  - rewrite dget_dset_same. destruct (String.eqb_spec n n2) as [->|M].
    + apply dget_dset_same.
    + rewrite dget_dset_other by congruence. destruct (dget s g2); reflexivity.
  - rewrite dget_dset_other by congruence. reflexivity.
Qed.

Lemma lookup_after h g n d : get_by_name (after h) n g = Some d <-> last_added g n h d.
Proof.
  split.
  - induction h as [|[[g2 n2] d2] h IH] using rev_ind; [discriminate|].
    rewrite after_snoc, get_add. destruct (opt_eqb_spec g2 g) as [->|N]; cbn [andb].
    + destruct (String.eqb_spec n2 n) as [->|M].
      * intros E. injection E as <-. constructor.
      * intros E. apply la_before; [congruence|auto].
    + intros E. apply la_before; [congruence|auto].
  - induction 1 as [h d|h g2 n2 d2 d N L IH]; rewrite after_snoc, get_add.
    + destruct (opt_eqb_spec g g); [|congruence]. rewrite String.eqb_refl. reflexivity.
    + destruct (opt_eqb_spec g2 g) as [->|]; [|exact IH]. destruct (String.eqb_spec n2 n) as [->|]; [congruence|exact IH].
Qed.
Lemma lookup_after_None h g n : get_by_name (after h) n g = None <-> ~ (exists d, In (g, n, d) h).
Proof.
  induction h as [|[[g2 n2] d2] h IH] using rev_ind.
  - split; [intros _ [d []]|reflexivity].
  - rewrite after_snoc, get_add. destruct (opt_eqb_spec g2 g) as [->|N]; cbn [andb];
      [destruct (String.eqb_spec n2 n) as [->|M]|].
    + split; [discriminate|]. intros C. exfalso. apply C. exists d2. apply in_app_iff. simpl. auto.
    + rewrite IH. split; intros C [d I]; apply C; exists d; [apply in_app_iff in I as [I|[I|[]]]|apply in_app_iff];
        [exact I|congruence|auto].
    + rewrite IH. split; intros C [d I]; apply C; exists d; [apply in_app_iff in I as [I|[I|[]]]|apply in_app_iff];
        [exact I|congruence|auto].
Qed.

(** ** Shape of a snapshot *)
Definition wf (s : groups) : Prop :=
  NoDup (dkeys s) /\ Forall (fun kg => NoDup (dkeys (snd kg)) /\ snd kg <> []) s.
Lemma wf_add n d g s : wf s -> wf (add_fun n d g s).
Proof.
  intros [N F]. unfold add_fun. split; [apply dset_NoDup, N|].
  apply Forall_forall. intros p I. apply dset_In in I as [-> | I].
  - cbn [snd]. split.
    + apply dset_NoDup. destruct (dget s g) as [fs|] eqn:E; [|constructor].
      apply dget_In in E. eapply Forall_forall in F; [|exact E]. apply F.
    + destruct (match dget s g with Some fs => fs | None => [] end) as [|[k v] fs]; cbn [dset]; [discriminate|].
      destruct (eqb n k); discriminate.
  - eapply Forall_forall in F; [|exact I]. exact F.
Qed.
Lemma wf_after h : wf (after h).
Proof.
  induction h as [|[[g n] d] h IH] using rev_ind; [split; constructor|].
  rewrite after_snoc. apply wf_add, IH.
Qed.
Lemma after_keys h g : In g (dkeys (after h)) <-> exists n d, In (g, n, d) h.
Proof.
  induction h as [|[[g2 n2] d2] h IH] using rev_ind.
  - split; [intros []|intros (n & d & [])].
  - rewrite after_snoc. unfold add_fun. rewrite dkeys_dset_In, IH. split.
    + intros [-> | (n & d & I)]; [exists n2, d2|exists n, d]; apply in_app_iff; simpl; auto.
    + intros (n & d & I). apply in_app_iff in I as [I|[I|[]]]; [right; eauto|left; congruence].
Qed.

(** ** Round trip *)
Section Trip.
  Variables (cwd1 dir1 cwd2 dir2 : string).
  Hypothesis C1 : isabs cwd1 = true.
  Hypothesis C2 : isabs cwd2 = true.
  Hypothesis D : same_file cwd1 dir1 cwd2 dir2.
  Hypothesis D2 : dir2 <> ""%string.

  Lemma rel_dir : exists r, relpath cwd2 dir2 "." = Ok r.
  Proof.
    unfold relpath. apply String.eqb_neq in D2. rewrite D2.
    destruct (_ ++ _); eauto.
  Qed.

  Lemma funs_trip fs : forall ys g s pre,
    map_res (fun_to_yaml cwd1 dir1) fs = Ok ys -> ~ In g (dkeys s) ->
    NoDup (dkeys pre ++ dkeys fs) ->
    pre <> [] ->
    exists fs2, fold_res (fun_from_yaml cwd2 dir2 g) (s ++ [(g, pre)]) ys = Ok (s ++ [(g, pre ++ fs2)]) /\
      Forall2 (same_fun cwd1 cwd2) fs fs2.
  Proof.
    induction fs as [|[n d] fs IH]; intros ys g s pre M Ng ND Np; cbn [map_res] in M.
    - injection M as <-. exists []. cbn. rewrite app_nil_r. split; constructor.
    - destruct (fun_to_yaml cwd1 dir1 (n, d)) as [y|] eqn:Y; [|discriminate].
      destruct (map_res (fun_to_yaml cwd1 dir1) fs) as [ys'|] eqn:M2; [|discriminate].
      injection M as <-. cbn [fold_res].
      assert (Nn : ~ In n (dkeys pre)).
      { cbn [dkeys map fst] in ND. apply NoDup_remove_2 in ND. intros I. apply ND, in_app_iff. auto. }
      assert (ND2 : forall d2 : fdesc, NoDup (dkeys (pre ++ [(n, d2)]) ++ dkeys fs)).
      { intros d2. rewrite dkeys_app. cbn [dkeys map fst]. rewrite <- app_assoc. exact ND. }
      assert (step : exists d2, fun_from_yaml cwd2 dir2 g (s ++ [(g, pre)]) y = Ok (s ++ [(g, pre ++ [(n, d2)])]) /\
                same_fun cwd1 cwd2 (n, d) (n, d2)).
      { assert (A : forall d2, add_fun n d2 g (s ++ [(g, pre)]) = s ++ [(g, pre ++ [(n, d2)])]).
        { intros d2. unfold add_fun. rewrite dget_last by exact Ng. rewrite (dset_absent pre n d2 Nn).
          apply dset_last, Ng. }
        unfold fun_to_yaml in Y. destruct (fd_mod d) as [m|] eqn:Em.
        - destruct (relpath cwd1 m dir1) as [l|] eqn:L; [|discriminate]. cbn [bind] in Y. injection Y as <-.
          unfold fun_from_yaml. cbn [y_llvm y_name y_glob y_tag].
          destruct rel_dir as [r R]. destruct (path_round_trip _ _ _ _ _ _ _ C1 C2 D L R) as [Nl S].
          apply String.eqb_neq in Nl. rewrite Nl, R. cbn [bind].
          eexists. split; [rewrite A; reflexivity|]. unfold same_fun. cbn [fst snd fd_glob fd_tag fd_mod].
          rewrite Em. auto.
        - injection Y as <-. unfold fun_from_yaml. cbn [y_llvm y_name y_glob y_tag].
          eexists. split; [rewrite A; reflexivity|]. unfold same_fun. cbn [fst snd fd_glob fd_tag fd_mod].
          rewrite Em. auto. }
      destruct step as (d2 & -> & S2).
      destruct (IH ys' g s (pre ++ [(n, d2)]) eq_refl Ng (ND2 d2)) as (fs2 & E & F).
      { destruct pre; discriminate. }
      exists ((n, d2) :: fs2). rewrite <- app_assoc in E. split; [exact E|constructor; assumption].
  Qed.

  Lemma group_trip fs ys g s : map_res (fun_to_yaml cwd1 dir1) fs = Ok ys -> ~ In g (dkeys s) ->
    NoDup (dkeys fs) -> fs <> [] ->
    exists fs2, fold_res (fun_from_yaml cwd2 dir2 g) s ys = Ok (s ++ [(g, fs2)]) /\
      Forall2 (same_fun cwd1 cwd2) fs fs2.
  Proof.
    intros M Ng ND Nf. destruct fs as [|[n d] fs]; [contradiction|]. cbn [map_res] in M.
    destruct (fun_to_yaml cwd1 dir1 (n, d)) as [y|] eqn:Y; [|discriminate].
    destruct (map_res (fun_to_yaml cwd1 dir1) fs) as [ys'|] eqn:M2; [|discriminate].
    injection M as <-. cbn [fold_res].
    assert (Gn : dget s g = None) by (apply dget_None; exact Ng).
    assert (A : forall d2, add_fun n d2 g s = s ++ [(g, [(n, d2)])]).
    { intros d2. unfold add_fun. rewrite Gn. cbn [dset]. apply dset_absent, Ng. }
    assert (step : exists d2, fun_from_yaml cwd2 dir2 g s y = Ok (s ++ [(g, [(n, d2)])]) /\
              same_fun cwd1 cwd2 (n, d) (n, d2)).
    { unfold fun_to_yaml in Y. destruct (fd_mod d) as [m|] eqn:Em.
      - destruct (relpath cwd1 m dir1) as [l|] eqn:L; [|discriminate]. cbn [bind] in Y. injection Y as <-.
        unfold fun_from_yaml. cbn [y_llvm y_name y_glob y_tag].
        destruct rel_dir as [r R]. destruct (path_round_trip _ _ _ _ _ _ _ C1 C2 D L R) as [Nl S].
        apply String.eqb_neq in Nl. rewrite Nl, R. cbn [bind].
        eexists. split; [rewrite A; reflexivity|]. unfold same_fun. cbn [fst snd fd_glob fd_tag fd_mod].
        rewrite Em. auto.
      - injection Y as <-. unfold fun_from_yaml. cbn [y_llvm y_name y_glob y_tag].
        eexists. split; [rewrite A; reflexivity|]. unfold same_fun. cbn [fst snd fd_glob fd_tag fd_mod].
        rewrite Em. auto. }
    destruct step as (d2 & -> & S2).
    destruct (funs_trip fs ys' g s [(n, d2)] M2 Ng) as (fs2 & E & F); [exact ND|discriminate|].
    exists ((n, d2) :: fs2). split; [exact E|constructor; assumption].
  Qed.

  Lemma groups_trip ss : forall ys s, map_res (group_to_yaml cwd1 dir1) ss = Ok ys ->
    NoDup (dkeys s ++ dkeys ss) -> Forall (fun kg => NoDup (dkeys (snd kg)) /\ snd kg <> []) ss ->
    exists ss2, fold_res (fun s kg => fold_res (fun_from_yaml cwd2 dir2 (fst kg)) s (snd kg)) s ys = Ok (s ++ ss2) /\
      same_snapshot cwd1 cwd2 ss ss2.
  Proof.
    induction ss as [|[g fs] ss IH]; intros ys s M ND F; cbn [map_res] in M.
    - injection M as <-. exists []. rewrite app_nil_r. split; [reflexivity|constructor].
    - unfold group_to_yaml at 1 in M. cbn [fst snd] in M.
      destruct (map_res (fun_to_yaml cwd1 dir1) fs) as [yf|] eqn:Y; [|discriminate].
      cbn [bind] in M. destruct (map_res (group_to_yaml cwd1 dir1) ss) as [ys'|] eqn:M2; [|discriminate].
      injection M as <-. inversion F as [|? ? [Nf Ne] F2]; subst. cbn [snd] in Nf, Ne.
      cbn [fold_res fst snd].
      assert (Ng : ~ In g (dkeys s)).
      { cbn [dkeys map fst] in ND. apply NoDup_remove_2 in ND. intros I. apply ND, in_app_iff. auto. }
      destruct (group_trip fs yf g s Y Ng Nf Ne) as (fs2 & -> & S).
      destruct (IH ys' (s ++ [(g, fs2)]) eq_refl) as (ss2 & E & S2); [|exact F2|].
      { rewrite dkeys_app. cbn [dkeys map fst]. rewrite <- app_assoc. exact ND. }
      exists ((g, fs2) :: ss2). rewrite <- app_assoc in E. split; [exact E|].
      constructor; [split; [reflexivity|exact S]|exact S2].
  Qed.

  Lemma map_res_len {A B} (f : A -> res B) l : forall ys, map_res f l = Ok ys -> length ys = length l.
  Proof.
    induction l as [|x l IH]; intros ys; cbn [map_res]; [intros E; injection E as <-; reflexivity|].
    destruct (f x); [|discriminate]. destruct (map_res f l); [|discriminate].
    intros E. injection E as <-. cbn. f_equal. auto.
  Qed.

  Lemma trip_function s y : wf s -> (forall g, In g (dkeys s) -> g = None) ->
    to_yaml cwd1 dir1 "function" s = Ok y ->
    exists s2, from_yaml cwd2 dir2 "function" y = Ok s2 /\ same_snapshot cwd1 cwd2 s s2.
  Proof.
    intros [N F] G. unfold to_yaml, from_yaml. change (String.eqb "function" "function") with true. cbv iota.
    destruct (map_res _ s) as [gs|] eqn:M; [|discriminate]. cbn [bind].
    destruct s as [|[g fs] s].
    - injection M as <-. intros E. injection E as <-. exists []. split; [reflexivity|constructor].
    - assert (g = None) by (apply G; left; reflexivity). subst g.
      destruct s as [|[g2 fs2] s].
      + cbn [map_res] in M. unfold group_to_yaml in M. cbn [fst snd] in M.
        destruct (map_res (fun_to_yaml cwd1 dir1) fs) as [yf|] eqn:Y; [|discriminate]. cbn [bind] in M.
        injection M as <-. intros E. injection E as <-.
        inversion F as [|? ? [Nf Ne] _]; subst.
        destruct (group_trip fs yf None [] Y) as (fs2 & -> & S); [intros []|exact Nf|exact Ne|].
        eexists. split; [reflexivity|]. constructor; [split; [reflexivity|exact S]|constructor].
      + exfalso. assert (g2 = None) by (apply G; right; left; reflexivity). subst g2.
        inversion N as [|? ? I _]. apply I. left. reflexivity.
  Qed.

  Lemma trip_sysctl s y : wf s -> (forall g, In g (dkeys s) -> g <> None) ->
    to_yaml cwd1 dir1 "sysctl" s = Ok y ->
    exists s2, from_yaml cwd2 dir2 "sysctl" y = Ok s2 /\ same_snapshot cwd1 cwd2 s s2.
  Proof.
    intros [N F] G. unfold to_yaml, from_yaml. change (String.eqb "sysctl" "function") with false. cbv iota.
    destruct (map_res _ s) as [gs|] eqn:M; [|discriminate]. cbn [bind].
    destruct (groups_trip s gs [] M N F) as (s2 & E & S). cbn [app] in E.
    intros Y. exists s2. split; [|exact S].
    assert (y = YGroups "sysctl" gs).
    { destruct gs as [|[[g|] yf] [|? ?]]; try congruence. exfalso.
      destruct s as [|[g fs] s]; [discriminate|]. cbn [map_res] in M. unfold group_to_yaml at 1 in M.
      destruct (map_res _ (snd (g, fs))); [|discriminate]. cbn [bind fst] in M.
      destruct (map_res _ s); [|discriminate]. assert (g = None) by congruence.
      apply (G g); [left; reflexivity|assumption]. }
    subst y. change (String.eqb "sysctl" "sysctl") with true. exact E.
  Qed.

  Lemma to_yaml_total lk s : (forall kg nf m, In kg s -> In nf (snd kg) -> fd_mod (snd nf) = Some m -> m <> ""%string) ->
    exists y, to_yaml cwd1 dir1 lk s = Ok y.
  Proof.
    intros H. unfold to_yaml.
    assert (E : exists gs, map_res (group_to_yaml cwd1 dir1) s = Ok gs).
    { induction s as [|[g fs] s IH]; [eexists; reflexivity|]. cbn [map_res]. unfold group_to_yaml at 1. cbn [fst snd].
      assert (E : exists ys, map_res (fun_to_yaml cwd1 dir1) fs = Ok ys).
      { assert (H2 : forall nf m, In nf fs -> fd_mod (snd nf) = Some m -> m <> ""%string)
          by (intros nf m I; apply (H (g, fs)); [left; reflexivity|exact I]).
        clear H IH. induction fs as [|[n d] fs IH]; [eexists; reflexivity|]. cbn [map_res].
        destruct IH as [ys ->]; [intros nf m I; apply H2; right; exact I|].
        unfold fun_to_yaml. destruct (fd_mod d) as [m|] eqn:Em; [|eauto].
        assert (Nm : m <> ""%string) by (apply (H2 (n, d)); [left; reflexivity|exact Em]).
        unfold relpath. apply String.eqb_neq in Nm. rewrite Nm.
        destruct (_ ++ _); cbn [bind]; eauto. }
      destruct E as [ys ->]. cbn [bind].
      destruct IH as [gs ->]; [intros kg nf m I; apply H; right; exact I|]. eauto. }
    destruct E as [gs ->]. cbn [bind]. destruct gs as [|[[g|] yf] [|? ?]]; eauto.
  Qed.
End Trip.

(** ** Filtering *)
Lemma filter_fold (fs : group) names : forall acc,
  (forall k v, dget acc k = Some v -> dget fs k = Some v) ->
  (forall f, In f names -> dget fs f <> None) ->
  exists out, fold_res (fun acc f => match dget fs f with Some d => Ok (dset acc f d) | None => Err KeyError end) acc names = Ok out /\
    (forall f, dget out f = if mem f (dkeys acc) || mem f names then dget fs f else None).
Proof.
  induction names as [|n names IH]; intros acc A H; cbn [fold_res].
  - exists acc. split; [reflexivity|]. intros f. cbn [mem]. rewrite orb_false_r.
    destruct (mem f (dkeys acc)) eqn:M.
    + apply mem_In in M. apply dkeys_dget in M as [v E]. rewrite E. symmetry. apply A, E.
    + apply mem_not_In in M. apply dget_None, M.
  - destruct (dget fs n) as [d|] eqn:E; [|exfalso; apply (H n); [left; reflexivity|exact E]].
    destruct (IH (dset acc n d)) as (out & -> & S).
    + intros k v. rewrite dget_dset. destruct (eqb_spec k n) as [->|N]; [congruence|apply A].
    + intros f I. apply H. right. exact I.
    + exists out. split; [reflexivity|]. intros f. rewrite S. cbn [mem].
      replace (mem f (dkeys (dset acc n d))) with (eqb f n || mem f (dkeys acc)).
      * destruct (eqb f n), (mem f (dkeys acc)); reflexivity.
      * apply eq_true_iff_eq. rewrite orb_true_iff, !mem_In, dkeys_dset_In.
        destruct (eqb_spec f n); intuition congruence.
Qed.
Lemma filter_fold_fails (fs : group) names : forall acc,
  (exists f, In f names /\ dget fs f = None) ->
  fold_res (fun acc f => match dget fs f with Some d => Ok (dset acc f d) | None => Err KeyError end) acc names = Err KeyError.
Proof.
  induction names as [|n names IH]; intros acc (f & I & E); [destruct I|]. cbn [fold_res].
  destruct (dget fs n) as [d|] eqn:En; [|reflexivity]. apply IH. destruct I as [->|I]; [congruence|eauto].
Qed.
Lemma filter_keys (fs : group) names : forall seen acc out,
  first_occurrences seen (dkeys acc) ->
  fold_res (fun acc f => match dget fs f with Some d => Ok (dset acc f d) | None => Err KeyError end) acc names = Ok out ->
  first_occurrences (seen ++ names) (dkeys out).
Proof.
  induction names as [|n names IH]; intros seen acc out S; cbn [fold_res].
  - intros E. injection E as <-. rewrite app_nil_r. exact S.
  - destruct (dget fs n) as [d|]; [|discriminate]. intros E.
    replace (seen ++ n :: names) with ((seen ++ [n]) ++ names) by (rewrite <- app_assoc; reflexivity).
    eapply IH; [|exact E]. rewrite dkeys_dset.
    assert (K : forall (l k : list string) x, first_occurrences l k -> (In x l <-> In x k)).
    { intros l k x F. induction F as [|l k y F IHF N|l k y F IHF I]; [reflexivity| |].
      - rewrite !in_app_iff, IHF. reflexivity.
      - rewrite in_app_iff, IHF. cbn [In]. split; [|auto]. intros [J|[<-|[]]]; [exact J|]. apply IHF, I. }
    destruct (mem n (dkeys acc)) eqn:M.
    + apply mem_In in M. apply fo_old; [exact S|]. apply (K _ _ _ S); exact M.
    + apply mem_not_In in M. apply fo_new; [exact S|]. intros I. apply M. apply (K _ _ _ S), I.
Qed.

(** ** Generation *)
Definition contribution := string -> option string -> fdesc -> Prop.
Definition grows (s s2 : groups) (C : contribution) : Prop :=
  (forall f g, get_by_name s f g <> None -> get_by_name s2 f g <> None) /\
  (forall f g d, get_by_name s2 f g = Some d -> get_by_name s f g = Some d \/ C f g d) /\
  (forall f g d, C f g d -> get_by_name s2 f g <> None).
Lemma grows_refl s : grows s s (fun _ _ _ => False).
Proof. split; [|split]; auto; try contradiction. Qed.
Lemma grows_add n d g s : grows s (add_fun n d g s) (fun f g2 d2 => f = n /\ g2 = g /\ d2 = d).
Proof.
  assert (G : forall f g2, get_by_name (add_fun n d g s) f g2 =
              if opt_eqb g g2 && String.eqb n f then Some d else get_by_name s f g2) by (intros; apply get_add).
  split; [|split]; intros f g2; [|intros d2..]; rewrite G; clear G;
    (destruct (opt_eqb_spec g g2) as [<-|Ng]; cbn [andb]; [destruct (String.eqb_spec n f) as [<-|Nn]|]);
    intros; try discriminate; try (left; assumption); try assumption.
  - right. repeat split; congruence.
  - destruct H. congruence.
  - destruct H as (_ & H & _). congruence.
Qed.
Lemma grows_trans s1 s2 s3 (C D : contribution) : grows s1 s2 C -> grows s2 s3 D ->
  grows s1 s3 (fun f g d => C f g d \/ D f g d).
Proof.
  intros (A1 & A2 & A3) (B1 & B2 & B3). split; [|split].
  - auto.
  - intros f g d E. apply B2 in E as [E|E]; [apply A2 in E as [E|E]|]; auto.
  - intros f g d [E|E]; eauto.
Qed.
Lemma grows_iff s s2 (C D : contribution) : (forall f g d, C f g d <-> D f g d) -> grows s s2 C -> grows s s2 D.
Proof.
  intros I (A1 & A2 & A3). split; [exact A1|split].
  - intros f g d E. apply A2 in E as [E|E]; [auto|right; apply I, E].
  - intros f g d E. eapply A3, I, E.
Qed.
Lemma grows_fold {X} (step : groups -> X -> groups) (C : X -> contribution) l :
  (forall s x, grows s (step s x) (C x)) -> forall s,
  grows s (fold_left step l s) (fun f g d => exists x, In x l /\ C x f g d).
Proof.
  intros S. induction l as [|x l IH]; intros s; cbn [fold_left].
  - eapply grows_iff; [|apply grows_refl]. intros f g d. split; [contradiction|intros (x & [] & _)].
  - eapply grows_iff; [|eapply grows_trans; [apply S|apply IH]]. intros f g d. cbn [In]. split.
    + intros [E|(y & I & E)]; [exists x|exists y]; auto.
    + intros (y & [<-|I] & E); [left|right; exists y]; auto.
Qed.
Lemma grows_fold_res {X} (step : groups -> X -> res groups) (C : X -> contribution) l :
  (forall s x s2, step s x = Ok s2 -> grows s s2 (C x)) -> forall s s2, fold_res step s l = Ok s2 ->
  grows s s2 (fun f g d => exists x, In x l /\ C x f g d).
Proof.
  intros S. induction l as [|x l IH]; intros s s2; cbn [fold_res].
  - intros E. apply Ok_inj in E. subst s2.
    eapply grows_iff; [|apply grows_refl]. intros f g d. split; [contradiction|intros (x & [] & _)].
  - destruct (step s x) as [s1|] eqn:E1; [|discriminate]. intros E2.
    eapply grows_iff; [|eapply grows_trans; [apply S, E1|apply IH, E2]]. intros f g d. cbn [In]. split.
    + intros [E|(y & I & E)]; [exists x|exists y]; auto.
    + intros (y & [<-|I] & E); [left|right; exists y]; auto.
Qed.
Lemma fold_res_ok {X S} (step : S -> X -> res S) (good : X -> Prop) l :
  (forall s x, (exists s2, step s x = Ok s2) <-> good x) ->
  forall s, (exists s2, fold_res step s l = Ok s2) <-> (forall x, In x l -> good x).
Proof.
  intros G. induction l as [|x l IH]; intros s; cbn [fold_res].
  - split; [intros _ x []|eauto].
  - destruct (step s x) as [s1|e] eqn:E.
    + rewrite IH. split; [intros H y [<-|I]; [apply (G s); eauto|auto]|intros H y I; apply H; right; exact I].
    + split; [intros [s2 C]; discriminate|]. intros H. exfalso.
      destruct (proj2 (G s x) (H x (or_introl eq_refl))) as [s2 C]. congruence.
Qed.

Section Sysctl.
  Variable w : sysctl_world.
  (** What one sysctl contributes. *)
  Definition handler (m sysctl f : string) (d : fdesc) : Prop :=
    w_proc w m sysctl = Some f /\ f <> ""%string /\
    exists pm, w_module_for w f = Some pm /\ d = mkDesc (Some pm) None (Some "proc handler function"%string).
  Definition data_user (m sysctl f : string) (d : fdesc) : Prop :=
    exists v ms um fs, w_data w m sysctl = Some v /\ w_using w v = Ok ms /\ In (um, fs) ms /\ In f fs /\
      w_proc w m sysctl <> Some f /\ d = mkDesc (Some um) (Some v) (Some (data_tag v)).

  Lemma grows_data proc v sysctl s mf : grows s (add_data_funs proc v sysctl s mf)
    (fun f g d => g = Some sysctl /\ In f (snd mf) /\ proc <> Some f /\
                  d = mkDesc (Some (fst mf)) (Some v) (Some (data_tag v))).
  Proof.
    unfold add_data_funs. eapply grows_iff;
      [|apply (grows_fold _ (fun x f g d => x = f /\ g = Some sysctl /\ proc <> Some x /\
                  d = mkDesc (Some (fst mf)) (Some v) (Some (data_tag v))))].
    - intros f g d. split.
      + intros (x & I & -> & E2 & E3 & E4). auto.
      + intros (E1 & I & E2 & E3). exists f. auto.
    - intros s0 x. destruct (opt_eqb_spec (Some x) proc) as [<-|N].
      + eapply grows_iff; [|apply grows_refl]. intros f g d. split; [contradiction|]. intros (_ & _ & E & _). congruence.
      + eapply grows_iff; [|apply grows_add]. intros f g d. split.
        * intros (-> & -> & ->). auto.
        * intros (<- & -> & _ & ->). auto.
  Qed.

  Definition with_handler (m sysctl : string) (s : groups) : groups :=
    match w_proc w m sysctl with
    | Some p => if String.eqb p "" then s else
        match w_module_for w p with
        | Some pm => add_fun p (mkDesc (Some pm) None (Some "proc handler function"%string)) (Some sysctl) s
        | None => s
        end
    | None => s
    end.
  Lemma grows_handler m s sysctl : grows s (with_handler m sysctl s) (fun f g d => g = Some sysctl /\ handler m sysctl f d).
  Proof.
    unfold with_handler, handler. destruct (w_proc w m sysctl) as [p|].
      - destruct (String.eqb_spec p "") as [->|N].
        + eapply grows_iff; [|apply grows_refl]. intros f g d. split; [contradiction|].
          intros (_ & E & F & _). congruence.
        + destruct (w_module_for w p) as [pm|] eqn:P.
          * eapply grows_iff; [|apply grows_add]. intros f g d. split.
            -- intros (-> & -> & ->). repeat split; try assumption. eauto.
            -- intros (-> & E & _ & pm2 & E2 & ->). injection E as E. subst f. assert (pm2 = pm) by congruence. subst. auto.
          * eapply grows_iff; [|apply grows_refl]. intros f g d. split; [contradiction|].
            intros (_ & E & _ & pm & E2 & _). congruence.
      - eapply grows_iff; [|apply grows_refl]. intros f g d. split; [contradiction|]. intros (_ & E & _). congruence.
  Qed.

  Lemma grows_one m s sysctl s2 : sysctl_one w m s sysctl = Ok s2 ->
    grows s s2 (fun f g d => g = Some sysctl /\ (handler m sysctl f d \/ data_user m sysctl f d)).
  Proof.
    unfold sysctl_one. fold (with_handler m sysctl s).
    pose proof (grows_handler m s sysctl) as G1. set (s1 := with_handler m sysctl s) in *.
    clearbody s1. unfold data_user. destruct (w_data w m sysctl) as [v|].
    - destruct (w_using w v) as [ms|] eqn:U; [|discriminate]. intros E. apply Ok_inj in E. subst s2.
      eapply grows_iff; [|eapply grows_trans; [exact G1|apply grows_fold; intros; apply grows_data]].
      intros f g d. cbn beta. split.
      + intros [[-> H]|([um fs] & I & -> & I2 & N & ->)]; split; auto. right.
        exists v, ms, um, fs. cbn [fst snd] in *. repeat split; auto.
      + intros [-> [H|(v2 & ms2 & um & fs & E1 & E2 & I & I2 & N & ->)]]; [left; auto|right].
        injection E1 as <-. rewrite U in E2. injection E2 as <-. exists (um, fs). cbn [fst snd]. repeat split; auto.
    - intros E. apply Ok_inj in E. subst s2. eapply grows_iff; [|exact G1]. intros f g d. split.
      + intros [-> H]. auto.
      + intros [-> [H|(v & ms & um & fs & E & _)]]; [auto|discriminate].
  Qed.

  Lemma grows_entry s e s2 : sysctl_entry w s e = Ok s2 ->
    grows s s2 (fun f g d => exists m sysctl, w_sysctl_module w e = Some m /\ In sysctl (w_parse w m e) /\
      g = Some sysctl /\ (handler m sysctl f d \/ data_user m sysctl f d)).
  Proof.
    unfold sysctl_entry. destruct (w_sysctl_module w e) as [m|].
    - intros E. eapply grows_iff; [|eapply grows_fold_res; [intros; apply grows_one; eassumption|exact E]].
      intros f g d. cbn beta. split.
      + intros (x & I & -> & H). exists m, x. auto.
      + intros (m2 & x & E2 & I & -> & H). injection E2 as <-. exists x. auto.
    - intros E. apply Ok_inj in E. subst s2. eapply grows_iff; [|apply grows_refl].
      intros f g d. split; [contradiction|]. intros (m & x & C & _). discriminate.
  Qed.
End Sysctl.
