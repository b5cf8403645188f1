(** * Properties of snapshots (C34-C36, C65, C66) *)
From Coq Require Import String Ascii ZArith Arith Bool Lia List.
From Verif Require Import PyBase Path_Model Cache_Proofs Snapshot_Model Snapshot_Spec Snapshot_Proofs.
Import ListNotations.
Open Scope list_scope.

(** ** C34 Snapshot YAML round trip *)

(** A snapshot filled by any additions to the unnamed group, saved with list kind "function"
    and loaded from the same directory (possibly from another working directory), has the
    same functions in the same order, with the same variables and tags and with module paths
    that name the same files. *)
Theorem C34_function_list_round_trip : forall cwd1 dir1 cwd2 dir2 h,
  isabs cwd1 = true -> isabs cwd2 = true ->
  dir2 <> ""%string -> same_file cwd1 dir1 cwd2 dir2 ->
  (forall g n d, In (g, n, d) h -> g = None /\ fd_mod d <> Some ""%string) ->
  exists y s2, to_yaml cwd1 dir1 "function" (after h) = Ok y /\
    from_yaml cwd2 dir2 "function" y = Ok s2 /\ same_snapshot cwd1 cwd2 (after h) s2.
Proof.
  intros cwd1 dir1 cwd2 dir2 h C1 C2 N D H.
  destruct (to_yaml_total cwd1 dir1 "function" (after h)) as [y Y].
  { intros [g fs] [n d] m I1 I2 E ->. cbn [snd] in *.
    assert (L : get_by_name (after h) n g = Some d).
    { unfold get_by_name. destruct (wf_after h) as [W1 W2].
      rewrite (dget_In_NoDup _ _ _ W1 I1). apply dget_In_NoDup; [|exact I2].
      eapply Forall_forall in W2; [|exact I1]. apply W2. }
    apply lookup_after in L. clear I1 I2. induction L as [h d|h g2 n2 d2 d _ L IH].
    - destruct (H g n d) as [_ F]; [apply in_app_iff; simpl; auto|congruence].
    - apply IH; [|exact E]. intros g3 n3 d3 I. apply (H g3 n3 d3), in_app_iff. auto. }
  destruct (trip_function cwd1 dir1 cwd2 dir2 C1 C2 D N (after h) y (wf_after h)) as (s2 & E & S); [|exact Y|].
  - intros g I. apply after_keys in I as (n & d & I). apply (H _ _ _ I).
  - exists y, s2. auto.
Qed.
Print Assumptions C34_function_list_round_trip.

(** The same for sysctl snapshots, whose groups are all named. *)
Theorem C34_sysctl_round_trip : forall cwd1 dir1 cwd2 dir2 h,
  isabs cwd1 = true -> isabs cwd2 = true ->
  dir2 <> ""%string -> same_file cwd1 dir1 cwd2 dir2 ->
  (forall g n d, In (g, n, d) h -> g <> None /\ fd_mod d <> Some ""%string) ->
  exists y s2, to_yaml cwd1 dir1 "sysctl" (after h) = Ok y /\
    from_yaml cwd2 dir2 "sysctl" y = Ok s2 /\ same_snapshot cwd1 cwd2 (after h) s2.
Proof.
  intros cwd1 dir1 cwd2 dir2 h C1 C2 N D H.
  destruct (to_yaml_total cwd1 dir1 "sysctl" (after h)) as [y Y].
  { intros [g fs] [n d] m I1 I2 E ->. cbn [snd] in *.
    assert (L : get_by_name (after h) n g = Some d).
    { unfold get_by_name. destruct (wf_after h) as [W1 W2].
      rewrite (dget_In_NoDup _ _ _ W1 I1). apply dget_In_NoDup; [|exact I2].
      eapply Forall_forall in W2; [|exact I1]. apply W2. }
    apply lookup_after in L. clear I1 I2. induction L as [h d|h g2 n2 d2 d _ L IH].
    - destruct (H g n d) as [_ F]; [apply in_app_iff; simpl; auto|congruence].
    - apply IH; [|exact E]. intros g3 n3 d3 I. apply (H g3 n3 d3), in_app_iff. auto. }
  destruct (trip_sysctl cwd1 dir1 cwd2 dir2 C1 C2 D N (after h) y (wf_after h)) as (s2 & E & S); [|exact Y|].
  - intros g I. apply after_keys in I as (n & d & I). apply (H _ _ _ I).
  - exists y, s2. auto.
Qed.
Print Assumptions C34_sysctl_round_trip.

(** Other shapes are written without complaint and cannot be loaded: a function-list
    snapshot with a named group, and a sysctl snapshot with functions only in the unnamed
    group. *)
Theorem C34_other_shapes_refuted :
  (exists cwd dir s y, to_yaml cwd dir "function" s = Ok y /\ from_yaml cwd dir "function" y = Err KeyError) /\
  (exists cwd dir s y, to_yaml cwd dir "sysctl" s = Ok y /\ from_yaml cwd dir "sysctl" y = Err TypeError).
Proof.
  split.
  - exists "/w"%string, "/w/snap"%string, (after [(Some "grp"%string, "f"%string, mkDesc None None None)]).
    eexists. split; vm_compute; reflexivity.
  - exists "/w"%string, "/w/snap"%string, (after [(None, "f"%string, mkDesc None None None)]).
    eexists. split; vm_compute; reflexivity.
Qed.
Print Assumptions C34_other_shapes_refuted.

Example C34_example :
  let h := [(Some "kernel.x"%string, "f"%string, mkDesc (Some "/w/snap/kernel/a.ll"%string) (Some "v"%string) None);
            (Some "kernel.y"%string, "g"%string, mkDesc None None (Some "tag"%string));
            (Some "kernel.x"%string, "g"%string, mkDesc (Some "snap/b.ll"%string) None None)] in
  match to_yaml "/w" "snap" "sysctl" (after h) with
  | Ok y => from_yaml "/w/other" "../snap" "sysctl" y
  | Err e => Err e
  end =
  Ok [(Some "kernel.x"%string, [("f"%string, mkDesc (Some "../snap/kernel/a.ll"%string) (Some "v"%string) None);
                                ("g"%string, mkDesc (Some "../snap/b.ll"%string) None None)]);
      (Some "kernel.y"%string, [("g"%string, mkDesc None None (Some "tag"%string))])] /\
  same_file "/w" "snap" "/w/other" "../snap".
Proof. vm_compute. auto. Qed.

(** ** C35 Snapshot lookup is last-writer-wins *)
Theorem C35_lookup_is_last_added : forall h g n d,
  get_by_name (after h) n g = Some d <-> last_added g n h d.
Proof. intros. apply lookup_after. Qed.
Print Assumptions C35_lookup_is_last_added.

Theorem C35_lookup_none_iff_never_added : forall h g n,
  get_by_name (after h) n g = None <-> ~ (exists d, In (g, n, d) h).
Proof. intros. apply lookup_after_None. Qed.
Print Assumptions C35_lookup_none_iff_never_added.

(** The modules of a snapshot are those of its current functions. *)
Theorem C35_modules_of_current_functions : forall h m,
  In m (modules (after h)) <-> exists g n d, last_added g n h d /\ fd_mod d = Some m.
Proof.
  intros h m. unfold modules. rewrite in_flat_map. destruct (wf_after h) as [W1 W2]. split.
  - intros ([g fs] & I & J). apply in_flat_map in J as ([n d] & J & K). cbn [snd] in *.
    destruct (fd_mod d) as [m2|] eqn:E; [|destruct K]. destruct K as [<-|[]].
    exists g, n, d. split; [|exact E]. apply lookup_after. unfold get_by_name.
    rewrite (dget_In_NoDup _ _ _ W1 I). apply dget_In_NoDup; [|exact J].
    eapply Forall_forall in W2; [|exact I]. apply W2.
  - intros (g & n & d & L & E). apply lookup_after in L. unfold get_by_name in L.
    destruct (dget (after h) g) as [fs|] eqn:G; [|discriminate].
    exists (g, fs). split; [apply dget_In, G|]. apply in_flat_map. exists (n, d). cbn [snd].
    split; [apply dget_In, L|]. rewrite E. left. reflexivity.
Qed.
Print Assumptions C35_modules_of_current_functions.

Example C35_example :
  let h := [(None, "f"%string, mkDesc (Some "a"%string) None None);
            (Some "k"%string, "f"%string, mkDesc (Some "b"%string) None None);
            (None, "f"%string, mkDesc None None None)] in
  get_by_name (after h) "f" None = Some (mkDesc None None None) /\
  get_by_name (after h) "f" (Some "k"%string) = Some (mkDesc (Some "b"%string) None None) /\
  get_by_name (after h) "g" None = None /\ modules (after h) = ["b"%string].
Proof. vm_compute. auto. Qed.

(** ** C36 Snapshot filtering *)

(** Filtering keeps exactly the requested functions of the group, in the order requested,
    with their descriptions, and leaves the other groups alone. *)
Theorem C36_filter_keeps_requested : forall s names g s2,
  filter_funs s names g = Ok s2 ->
  (forall n, get_by_name s2 n g = if mem n names then get_by_name s n g else None) /\
  (forall n, In n names -> get_by_name s2 n g <> None) /\
  (forall n g2, g2 <> g -> get_by_name s2 n g2 = get_by_name s n g2) /\
  (exists fs2, dget s2 g = Some fs2 /\ first_occurrences names (dkeys fs2)) /\
  dkeys s2 = dkeys s.
Proof.
  intros s names g s2. unfold filter_funs, get_by_name. destruct (dget s g) as [fs|] eqn:G; [|discriminate].
  destruct (fold_res (fun acc f => match dget fs f with Some d => Ok (dset acc f d) | None => Err KeyError end) [] names)
    as [fs2|] eqn:F; [|discriminate]. cbn [bind]. intros E. apply Ok_inj in E. subst s2.
  assert (H : forall f, In f names -> dget fs f <> None).
  { intros f I C. rewrite filter_fold_fails in F; [discriminate|eauto]. }
  destruct (filter_fold fs names []) as (out & E & S); [discriminate|exact H|].
  rewrite E in F. apply Ok_inj in F. subst fs2. rewrite !dget_dset_same. repeat split.
  - intros n. rewrite S. reflexivity.
  - intros n I. rewrite S. assert (M : mem n names = true) by (apply mem_In; exact I). rewrite M.
    cbn [dkeys map mem orb]. auto.
  - intros n g2 N. rewrite dget_dset_other by exact N. reflexivity.
  - exists out. split; [reflexivity|]. eapply (filter_keys fs names [] []); [constructor|exact E].
  - rewrite dkeys_dset. assert (M : mem g (dkeys s) = true).
    { apply mem_In. eapply dget_Some_key, G. }
    rewrite M. reflexivity.
Qed.
Print Assumptions C36_filter_keeps_requested.

(** It fails, with KeyError, exactly when the group or one of the functions is missing. *)
Theorem C36_filter_fails_iff_missing : forall s names g,
  (filter_funs s names g = Err KeyError <->
     ~ In g (dkeys s) \/ exists n, In n names /\ get_by_name s n g = None) /\
  (forall e, filter_funs s names g = Err e -> e = KeyError).
Proof.
  intros s names g. unfold filter_funs, get_by_name. destruct (dget s g) as [fs|] eqn:G.
  - assert (K : In g (dkeys s)) by (eapply dget_Some_key; exact G).
    assert (D : (exists f, In f names /\ dget fs f = None) \/ (forall f, In f names -> dget fs f <> None)).
    { clear. induction names as [|n l IH]; [right; intros f []|]. destruct IH as [IH|IH].
      - left. destruct IH as (f & I & E). exists f. simpl; auto.
      - destruct (dget fs n) as [d|] eqn:E.
        + right. intros k [<-|I]; [congruence|auto].
        + left. exists n. simpl; auto. }
    destruct D as [D|D].
    + rewrite (filter_fold_fails fs names [] D). cbn [bind]. split; [|congruence]. split; auto.
    + destruct (filter_fold fs names []) as (out & -> & _); [discriminate|exact D|]. cbn [bind]. split; [|discriminate].
      split; [discriminate|]. intros [C|(n & I & E)]; [contradiction|]. destruct (D n I E).
  - split; [|congruence]. split; [|reflexivity]. intros _. left. apply dget_None, G.
Qed.
Print Assumptions C36_filter_fails_iff_missing.

Example C36_example :
  let s := after [(None, "f"%string, mkDesc (Some "a"%string) None None);
                  (None, "g"%string, mkDesc None None None);
                  (None, "h"%string, mkDesc None None None)] in
  filter_funs s ["h"; "f"; "h"]%string None =
    Ok [(None, [("h"%string, mkDesc None None None); ("f"%string, mkDesc (Some "a"%string) None None)])] /\
  filter_funs s ["h"; "x"]%string None = Err KeyError /\
  filter_funs s ["h"]%string (Some "k"%string) = Err KeyError.
Proof. vm_compute. auto. Qed.

(** ** C65 Snapshots from a function list have an entry for every listed symbol *)
Theorem C65_every_symbol_has_an_entry : forall find l n d,
  get_by_name (generate_from_function_list find l []) n None = Some d <->
  In n l /\ d = mkDesc (match find n with FunctionIn m => Some m | _ => None end) None None.
Proof.
  intros find l n d. unfold generate_from_function_list.
  induction l as [|x l IH] using rev_ind; [split; [discriminate|intros [[] _]]|].
  rewrite fold_left_app. cbn [fold_left]. set (s := fold_left (generate_fun find) l []) in *.
  assert (E : generate_fun find s x = add_fun x (mkDesc (match find x with FunctionIn m => Some m | _ => None end) None None) None s).
  { unfold generate_fun. destruct (find x); reflexivity. }
  rewrite E, get_add. cbn [opt_eqb andb]. rewrite in_app_iff. cbn [In].
  destruct (String.eqb_spec x n) as [->|N].
  - split; [intros F; injection F as <-; auto|intros [_ ->]; reflexivity].
  - rewrite IH. intuition congruence.
Qed.
Print Assumptions C65_every_symbol_has_an_entry.

Theorem C65_only_the_unnamed_group : forall find l g,
  In g (dkeys (generate_from_function_list find l [])) -> g = None.
Proof.
  intros find l g. unfold generate_from_function_list.
  induction l as [|x l IH] using rev_ind; [intros []|]. rewrite fold_left_app. cbn [fold_left].
  unfold generate_fun at 1. destruct (find x); unfold add_fun; intros I; apply dkeys_dset_In in I as [I|I]; auto.
Qed.
Print Assumptions C65_only_the_unnamed_group.

Example C65_example :
  let find := fun s => if String.eqb s "f" then FunctionIn "a.ll" else if String.eqb s "v" then NotAFunction else NotFound in
  generate_from_function_list find ["f"; "v"; "z"; "f"]%string [] =
  [(None, [("f"%string, mkDesc (Some "a.ll"%string) None None); ("v"%string, mkDesc None None None);
           ("z"%string, mkDesc None None None)])].
Proof. vm_compute. reflexivity. Qed.

(** ** C66 Snapshots from a sysctl list *)

(** [describes w l sysctl m]: an entry of the list has the module [m] as its sysctl module
    and matches the option [sysctl] there. *)
Definition describes (w : sysctl_world) (l : list string) (sysctl m : string) : Prop :=
  exists e, In e l /\ w_sysctl_module w e = Some m /\ In sysctl (w_parse w m e).

(** The function is the proc handler of the option, and its module was found. *)
Definition is_handler (w : sysctl_world) (m sysctl f pm : string) : Prop :=
  w_proc w m sysctl = Some f /\ f <> ""%string /\ w_module_for w f = Some pm.
(** The function uses the data variable [v] of the option in module [um] and is not named
    as the option's proc handler. *)
Definition is_data_user (w : sysctl_world) (m sysctl f v um : string) : Prop :=
  w_data w m sysctl = Some v /\ w_proc w m sysctl <> Some f /\
  exists ms fs, w_using w v = Ok ms /\ In (um, fs) ms /\ In f fs.

Theorem C66_functions_of_an_option : forall w l s,
  generate_from_sysctl_list w l [] = Ok s ->
  forall sysctl f,
  (* the functions listed are the handler and the users of the data variable ... *)
  (get_by_name s f (Some sysctl) <> None <->
     exists m, describes w l sysctl m /\
       ((exists pm, is_handler w m sysctl f pm) \/ (exists v um, is_data_user w m sysctl f v um))) /\
  (* ... with the module, variable and tag belonging to that role *)
  (forall d, get_by_name s f (Some sysctl) = Some d ->
     exists m, describes w l sysctl m /\
       ((exists pm, is_handler w m sysctl f pm /\ d = mkDesc (Some pm) None (Some "proc handler function"%string)) \/
        (exists v um, is_data_user w m sysctl f v um /\ d = mkDesc (Some um) (Some v) (Some (data_tag v))))) /\
  (* and there are only named groups *)
  get_by_name s f None = None.
Proof.
  intros w l s E sysctl f.
  assert (G := grows_fold_res _ _ l (grows_entry w) _ _ E). destruct G as (_ & G2 & G3).
  assert (P : forall d, get_by_name s f (Some sysctl) = Some d ->
     exists m, describes w l sysctl m /\
       ((exists pm, is_handler w m sysctl f pm /\ d = mkDesc (Some pm) None (Some "proc handler function"%string)) \/
        (exists v um, is_data_user w m sysctl f v um /\ d = mkDesc (Some um) (Some v) (Some (data_tag v))))).
  { intros d L. apply G2 in L as [L|(e & I & m & sc & M & J & Q & H)]; [discriminate|]. injection Q as <-.
    exists m. split; [exists e; auto|]. destruct H as [(H1 & H2 & pm & H3 & ->)|(v & ms & um & fs & H1 & H2 & H3 & H4 & H5 & ->)].
    - left. exists pm. repeat split; assumption.
    - right. exists v, um. repeat split; try assumption. eauto. }
  split; [|split].
  - split.
    + intros N. destruct (get_by_name s f (Some sysctl)) as [d|] eqn:L; [|congruence].
      destruct (P d eq_refl) as (m & D & [(pm & H & _)|(v & um & H & _)]); exists m; split; auto; [left|right]; eauto.
    + intros (m & (e & I & M & J) & [(pm & H1 & H2 & H3)|(v & um & H1 & H5 & ms & fs & H2 & H3 & H4)]).
      * eapply G3. exists e. split; [exact I|]. exists m, sysctl. repeat split; try assumption.
        left. unfold handler. repeat split; try assumption. eauto.
      * eapply G3. exists e. split; [exact I|]. exists m, sysctl. repeat split; try assumption.
        right. exists v, ms, um, fs. repeat split; try assumption.
  - exact P.
  - destruct (get_by_name s f None) as [d|] eqn:L; [|reflexivity].
    apply G2 in L as [L|(e & I & m & sc & M & J & Q & H)]; discriminate.
Qed.
Print Assumptions C66_functions_of_an_option.

(** Generation succeeds iff the uses of every data variable can be determined; otherwise the
    whole generation stops, although a missing proc handler or sysctl module is skipped. *)
Theorem C66_generation_fails_iff_uses_unknown : forall w l,
  (exists s, generate_from_sysctl_list w l [] = Ok s) <->
  (forall sysctl m v, describes w l sysctl m -> w_data w m sysctl = Some v -> exists ms, w_using w v = Ok ms).
Proof.
  intros w l. unfold generate_from_sysctl_list.
  rewrite (fold_res_ok (sysctl_entry w) (fun e => forall m sysctl v, w_sysctl_module w e = Some m ->
      In sysctl (w_parse w m e) -> w_data w m sysctl = Some v -> exists ms, w_using w v = Ok ms)).
  - split.
    + intros H sysctl m v (e & I & M & J) D. exact (H e I m sysctl v M J D).
    + intros H e I m sysctl v M J D. apply (H sysctl m v); [exists e; auto|exact D].
  - intros s e. unfold sysctl_entry. destruct (w_sysctl_module w e) as [m|].
    + rewrite (fold_res_ok (sysctl_one w m) (fun sysctl => forall v, w_data w m sysctl = Some v -> exists ms, w_using w v = Ok ms)).
      * split.
        -- intros H m2 sysctl v E I D. injection E as <-. exact (H sysctl I v D).
        -- intros H sysctl I v D. exact (H m sysctl v eq_refl I D).
      * intros s0 sysctl. unfold sysctl_one. destruct (w_data w m sysctl) as [v|].
        -- destruct (w_using w v) as [ms|e0] eqn:U.
           ++ split; [intros _ v2 E; injection E as <-; eauto|eauto].
           ++ split; [intros [s2 C]; discriminate|]. intros H. destruct (H v eq_refl) as [ms C]. congruence.
        -- split; [discriminate|eauto].
    + split; [discriminate|eauto].
Qed.
Print Assumptions C66_generation_fails_iff_uses_unknown.

Definition C66_world : sysctl_world := mkSysctlWorld
  (fun e => if String.eqb e "kernel.*" then Some "kernel/sysctl.ll"%string else None)
  (fun _ _ => ["kernel.a"; "kernel.b"]%string)
  (fun _ s => if String.eqb s "kernel.a" then Some "proc_a"%string else None)
  (fun f => if String.eqb f "proc_a" then Some "proc.ll"%string else None)
  (fun _ s => if String.eqb s "kernel.a" then Some "var_a"%string else None)
  (fun v => Ok [("u.ll"%string, ["use1"; "proc_a"]%string)]).
Example C66_example :
  generate_from_sysctl_list C66_world ["net.x"; "kernel.*"]%string [] =
  Ok [(Some "kernel.a"%string,
       [("proc_a"%string, mkDesc (Some "proc.ll"%string) None (Some "proc handler function"%string));
        ("use1"%string, mkDesc (Some "u.ll"%string) (Some "var_a"%string) (Some (data_tag "var_a")))])].
Proof. vm_compute. reflexivity. Qed.
