(** * Proofs about the start and the end of a comparison *)
From Coq Require Import String ZArith Arith Bool Lia List.
From Verif Require Import PyBase Path_Model Snapshot_Model Config_Model Kernel_Model Kernel_Spec Kernel_Proofs Start_Model Start_Spec.
Import ListNotations.
Open Scope list_scope.

Lemma upd_same {A} (f : string -> A) k v : upd f k v k = v.
Proof. unfold upd. now rewrite String.eqb_refl. Qed.
Lemma upd_other {A} (f : string -> A) k v x : x <> k -> upd f k v x = f x.
Proof. intros N. unfold upd. destruct (String.eqb_spec x k); congruence. Qed.

Lemma truthy_some f n : truthy f = Some n <-> f = Some n /\ n <> ""%string.
Proof.
  destruct f as [s|]; cbn; [|split; [discriminate|intros [? _]; discriminate]]. destruct (String.eqb_spec s "") as [->|N].
  - split; [discriminate|]. intros [E N]. congruence.
  - split; [intros E; injection E as <-; auto|intros [E _]; exact E].
Qed.
Lemma truthy_none f : truthy f = None <-> forall n, f = Some n -> n = ""%string.
Proof.
  destruct f as [s|]; cbn; [|split; [congruence|reflexivity]]. destruct (String.eqb_spec s "") as [->|N].
  - split; [congruence|reflexivity].
  - split; [discriminate|]. intros H. elim N. now apply H.
Qed.

(** What [load] does, step by step *)
Lemma load_cases d cwd llvm dir w r w' : load d cwd llvm dir w = (r, w') ->
  (d_yaml d dir = None /\ r = inl (Raised FileNotFoundError) /\ w' = w) \/
  (exists y, d_yaml d dir = Some y /\
    ((y_finder y = "wrapper_build_tree"%string /\ d_wdb d dir = None /\ r = inl (Raised FileNotFoundError) /\ w' = w) \/
     exists t w1 s, open_tree d dir y w = (Ok t, w1) /\ open_source d t y w1 = (s, w') /\
       match from_yaml cwd dir (y_kind y) (y_list y) with
       | Err e => r = inl (Raised e)
       | Ok fs => if Z.eqb llvm (y_version y) then r = inr (mkOpened t s fs) else r = inl (Exit 22)
       end)).
Proof.
  unfold load. destruct (d_yaml d dir) as [y|]; [|intros E; injection E as <- <-; auto]. intros E. right. exists y. split; [reflexivity|].
  destruct (open_tree d dir y w) as [[t|e] w1] eqn:T.
  - destruct (open_source d t y w1) as [s w2] eqn:S. right. exists t, w1, s.
    destruct (from_yaml cwd dir (y_kind y) (y_list y)) as [fs|e]; [destruct (Z.eqb llvm (y_version y))|]; injection E as <- <-; auto.
  - left. injection E as <- <-. unfold open_tree in T. destruct (String.eqb_spec (y_finder y) "kernel_with_builder"); [discriminate|].
    destruct (String.eqb_spec (y_finder y) "wrapper_build_tree"); [|discriminate]. destruct (d_wdb d dir); [discriminate|]. injection T as <- <-. auto.
Qed.
Lemma load_inr d cwd llvm dir w : (exists o w', load d cwd llvm dir w = (inr o, w')) <->
  exists y fs, readable d cwd dir y fs /\ y_version y = llvm.
Proof.
  split.
  - intros (o & w' & E). apply load_cases in E. destruct E as [(_ & C & _)|(y & Y & [(_ & _ & C & _)|(t & w1 & s & T & _ & M)])]; [discriminate|discriminate|].
    destruct (from_yaml cwd dir (y_kind y) (y_list y)) as [fs|e] eqn:F; [|discriminate]. destruct (Z.eqb_spec llvm (y_version y)) as [->|]; [|discriminate].
    exists y, fs. split; [|reflexivity]. repeat split; [exact Y|exact F|]. intros K. unfold open_tree in T. rewrite K in T. cbn in T.
    destruct (d_wdb d dir) as [l|]; [eauto|discriminate].
  - intros (y & fs & (Y & F & W) & V). unfold load. rewrite Y. destruct (open_tree d dir y w) as [[t|e] w1] eqn:T.
    + destruct (open_source d t y w1) as [s w2]. rewrite F, <- V, Z.eqb_refl. eauto.
    + exfalso. unfold open_tree in T. destruct (String.eqb_spec (y_finder y) "kernel_with_builder"); [discriminate|].
      destruct (String.eqb_spec (y_finder y) "wrapper_build_tree") as [K|]; [|discriminate]. destruct (W K) as (l & L). rewrite L in T. discriminate.
Qed.
Lemma load_funs d cwd llvm dir w o w' : load d cwd llvm dir w = (inr o, w') ->
  exists y, readable d cwd dir y (o_funs o) /\ y_version y = llvm.
Proof.
  intros E. destruct (proj1 (load_inr d cwd llvm dir w) (ex_intro _ o (ex_intro _ w' E))) as (y & fs & R & V). exists y. split; [|exact V].
  apply load_cases in E. destruct R as (Y & F & W). destruct E as [(C & _)|(y' & Y' & [(_ & _ & C & _)|(t & w1 & s & _ & _ & M)])]; [congruence|discriminate|].
  assert (y' = y) as -> by congruence. rewrite F in M. destruct (Z.eqb llvm (y_version y)); [|discriminate]. injection M as ->. repeat split; auto.
Qed.
(** The trees that are opened are those of the directories that belong to the snapshot. *)
Lemma load_trees d cwd llvm dir w o w' x : load d cwd llvm dir w = (inr o, w') ->
  (o_tree o = Kernel x \/ o_source o = Some (Kernel x)) <-> kernel_dir d dir x.
Proof.
  intros E. apply load_cases in E. destruct E as [(_ & C & _)|(y & Y & [(_ & _ & C & _)|(t & w1 & s & T & S & M)])]; [discriminate|discriminate|].
  destruct (from_yaml cwd dir (y_kind y) (y_list y)) as [fs|e]; [|discriminate]. destruct (Z.eqb llvm (y_version y)); [|discriminate]. injection M as ->. cbn [o_tree o_source].
  unfold open_tree in T. destruct (String.eqb_spec (y_finder y) "kernel_with_builder") as [K|K].
  - injection T as <- <-. unfold open_source in S. split.
    + intros [C|C]; exists y; [injection C as <-; auto|]. subst s. destruct (y_source y) as [z|] eqn:Z; [|discriminate].
      destruct (d_isdir d z) eqn:D; [|discriminate]. cbn in S. injection S as -> _. auto.
    + intros (y' & Y' & _ & [->|(Z & D)]); [auto|]. assert (y' = y) as -> by congruence. rewrite Z, D in S. cbn in S. injection S as <- _. auto.
  - assert (N : forall a, t <> Kernel a).
    { intros a ->. destruct (String.eqb (y_finder y) "wrapper_build_tree"); [destruct (d_wdb d dir)|]; discriminate. }
    split.
    + intros [C|C]; [elim (N _ C)|]. subst s. unfold open_source in S. destruct (y_source y); [|discriminate]. destruct (d_isdir d s); [|discriminate].
      destruct t; cbn in S; [discriminate|elim (N dir0 eq_refl)|discriminate].
    + intros (y' & Y' & C & _). assert (y' = y) as -> by congruence. contradiction.
Qed.

(** Headers only change by being prepared. *)
Section Headers.
  Variable h : string -> option string.
  Definition state (w : world) : Prop := forall x, exists n, w_header w x = option_map (repeated n disable_header) (h x).
  Lemma prepare_state dir w : state w -> state (prepare dir w).
  Proof.
    intros H x. unfold prepare. cbn [w_header]. destruct (String.eqb_spec x dir) as [->|N]; [rewrite upd_same|rewrite upd_other by exact N; apply H].
    destruct (H dir) as (n & ->). exists (S n). now destruct (h dir).
  Qed.
  Hypothesis O : original h.
  Lemma restored_header w dir : state w -> w_header (restore dir w) dir = h dir.
  Proof.
    intros H. unfold restore. cbn [w_header]. rewrite upd_same. destruct (H dir) as (n & ->). destruct (h dir) as [t|] eqn:T; [|reflexivity]. cbn.
    destruct (O dir t T) as [A B]. now rewrite (round_trip n t A B).
  Qed.
  Lemma restore_state dir w : state w -> state (restore dir w).
  Proof.
    intros H x. destruct (String.eqb_spec x dir) as [->|N].
    - exists 0. rewrite restored_header by exact H. now destruct (h dir).
    - unfold restore. cbn [w_header]. rewrite upd_other by exact N. apply H.
  Qed.
  Lemma finalize_tree_state t w : state w -> state (finalize_tree t w).
  Proof. destruct t; cbn; auto using restore_state. Qed.
  Lemma finalize_state o w : state w -> state (finalize o w).
  Proof. intros H. unfold finalize. apply finalize_tree_state. destruct (o_source o); auto using finalize_tree_state. Qed.
  Lemma finalize_tree_header t w x : state w -> t = Kernel x \/ w_header w x = h x -> w_header (finalize_tree t w) x = h x.
  Proof.
    intros H [->|E]; [apply restored_header, H|]. destruct t; cbn; [exact E| |exact E]. destruct (String.eqb_spec x dir) as [->|N]; [apply restored_header, H|].
    rewrite upd_other by exact N. exact E.
  Qed.
  Lemma finalize_header o w x : state w -> (o_tree o = Kernel x \/ o_source o = Some (Kernel x)) \/ w_header w x = h x -> w_header (finalize o w) x = h x.
  Proof.
    intros H E. unfold finalize. assert (S : state (match o_source o with Some t => finalize_tree t w | None => w end)) by (destruct (o_source o); auto using finalize_tree_state).
    apply finalize_tree_header; [exact S|]. destruct E as [[E|E]|E]; [auto| |].
    - right. rewrite E. apply finalize_tree_header; auto.
    - right. destruct (o_source o); [apply finalize_tree_header; auto|exact E].
  Qed.
  Lemma load_state d cwd llvm dir w r w' : load d cwd llvm dir w = (r, w') -> state w -> state w'.
  Proof.
    intros E H. apply load_cases in E. destruct E as [(_ & _ & ->)|(y & _ & [(_ & _ & _ & ->)|(t & w1 & s & T & S & _)])]; [exact H|exact H|].
    assert (H1 : state w1).
    { unfold open_tree in T. destruct (String.eqb _ _); [injection T as <- <-; apply prepare_state, H|]. destruct (String.eqb _ _); [|injection T as <- <-; exact H].
      destruct (d_wdb d dir); [|discriminate]. injection T as <- <-. exact H. }
    unfold open_source in S. destruct (y_source y); [|injection S as <- <-; exact H1]. destruct (d_isdir d s0); [|injection S as <- <-; exact H1].
    destruct t; cbn in S; injection S as <- <-; [exact H1|apply prepare_state, H1|exact H1].
  Qed.
End Headers.

(** Only what belongs to the snapshot is written. *)
Lemma load_outside d cwd llvm dir w r w' : load d cwd llvm dir w = (r, w') ->
  (forall x, ~ kernel_dir d dir x -> w_header w' x = w_header w x) /\ (forall x, ~ wrapper_dir d dir x -> w_functions w' x = w_functions w x).
Proof.
  intros E. apply load_cases in E. destruct E as [(_ & _ & ->)|(y & Y & [(_ & _ & _ & ->)|(t & w1 & s & T & S & _)])]; [auto|auto|].
  unfold open_tree in T. unfold open_source in S. destruct (String.eqb_spec (y_finder y) "kernel_with_builder") as [K|K].
  - injection T as <- <-.
    assert (E : w_functions w' = w_functions w /\ forall x, x <> dir -> (forall z, y_source y = Some z -> d_isdir d z = true -> x <> z) -> w_header w' x = w_header w x).
    { destruct (y_source y) as [z|]; [|injection S as <- <-; split; [reflexivity|intros x N _; now apply upd_other]].
      destruct (d_isdir d z) eqn:D; cbn in S; injection S as <- <-; (split; [reflexivity|]); intros x N M; [|now apply upd_other].
      cbn [prepare w_header]. rewrite upd_other by (apply M; auto). now apply upd_other. }
    destruct E as [E1 E2]. split; [|intros x _; now rewrite E1]. intros x N. apply E2; [intros ->|intros z Z D ->]; apply N; exists y; auto.
  - destruct (String.eqb_spec (y_finder y) "wrapper_build_tree") as [W|W].
    + destruct (d_wdb d dir) as [l|]; [|discriminate]. injection T as <- <-.
      assert (E : w_header w' = w_header w /\ forall x, x <> dir -> (forall z, y_source y = Some z -> d_isdir d z = true -> x <> z) -> w_functions w' x = w_functions w x).
      { destruct (y_source y) as [z|]; [|injection S as <- <-; split; [reflexivity|intros x N _; now apply upd_other]].
        destruct (d_isdir d z) eqn:D; cbn in S; injection S as <- <-; (split; [reflexivity|]); intros x N M; [|now apply upd_other].
        cbn [write_list w_functions]. rewrite upd_other by (apply M; auto). now apply upd_other. }
      destruct E as [E1 E2]. split; [intros x _; now rewrite E1|]. intros x N. apply E2; [intros ->|intros z Z D ->]; apply N; exists y; auto.
    + injection T as <- <-. destruct (y_source y); [destruct (d_isdir d s0)|]; injection S as <- <-; auto.
Qed.
Lemma load_lists d cwd llvm dir w o w' x : load d cwd llvm dir w = (inr o, w') -> wrapper_dir d dir x -> w_functions w' x = d_wdb d dir.
Proof.
  intros E (y & Y & F & B). apply load_cases in E. destruct E as [(_ & C & _)|(y' & Y' & [(_ & _ & C & _)|(t & w1 & s & T & S & _)])]; [discriminate|discriminate|].
  assert (y' = y) as -> by congruence. unfold open_tree in T. rewrite F in T. cbn in T. destruct (d_wdb d dir) as [l|]; [|discriminate]. injection T as <- <-.
  unfold open_source in S. destruct B as [->|[Z D]].
  - destruct (y_source y) as [z|]; [|injection S as <- <-; cbn; apply upd_same]. destruct (d_isdir d z); cbn in S; injection S as <- <-; cbn; [|apply upd_same].
    unfold upd. now destruct (String.eqb dir z); rewrite ?String.eqb_refl.
  - rewrite Z, D in S. cbn in S. injection S as <- <-. cbn. apply upd_same.
Qed.

Lemma chosen_ok f o : (exists o', chosen f o = Ok o') <-> (forall n, f = Some n -> n <> ""%string -> get_by_name (o_funs o) n None <> None).
Proof.
  unfold chosen. destruct (truthy f) as [n|] eqn:T.
  - apply truthy_some in T. destruct T as [-> N]. unfold filter_funs, get_by_name. destruct (dget (o_funs o) None) as [fs|].
    + cbn [fold_res]. destruct (dget fs n) as [x|] eqn:D; cbn [bind].
      * split; [|eauto]. intros _ m E _. injection E as <-. congruence.
      * split; [intros [? C]; discriminate|]. intros H. elim (H n eq_refl N). exact D.
    + cbn [bind]. split; [intros [? C]; discriminate|]. intros H. now elim (H n eq_refl N).
  - split; [|eauto]. intros _ n E N. pose proof (proj1 (truthy_none f) T). elim N. auto.
Qed.
Lemma chosen_spec f o o' : chosen f o = Ok o' -> o_tree o' = o_tree o /\ o_source o' = o_source o /\
  forall n g, get_by_name (o_funs o') n g =
    match f, g with Some m, None => if String.eqb m "" || String.eqb n m then get_by_name (o_funs o) n g else None | _, _ => get_by_name (o_funs o) n g end.
Proof.
  unfold chosen. destruct (truthy f) as [m|] eqn:T.
  - apply truthy_some in T. destruct T as [-> N]. apply String.eqb_neq in N. unfold filter_funs. destruct (dget (o_funs o) None) as [fs|] eqn:G; [|discriminate].
    cbn [fold_res]. destruct (dget fs m) as [x|] eqn:D; [|discriminate]. cbn [bind]. intros E. injection E as <-. cbn [o_tree o_source o_funs]. repeat split. rewrite N. cbn [orb].
    intros n g. unfold get_by_name. rewrite dget_dset. destruct g as [g|]; [reflexivity|]. cbn. rewrite G. change (eqb n m) with (String.eqb n m).
    destruct (String.eqb_spec n m) as [->|_]; [now rewrite D|reflexivity].
  - intros E. injection E as <-. repeat split. intros n g. destruct f as [m|]; [|reflexivity]. destruct g; [reflexivity|].
    rewrite (proj1 (truthy_none (Some m)) T m eq_refl). reflexivity.
Qed.

(** The configuration *)
Lemma from_args_inr d cwd llvm built custom a settings w c w' : from_args d cwd llvm built custom a settings w = (inr c, w') ->
  exists o1 w1 o2, load d cwd llvm (a_old a) w = (inr o1, w1) /\ load d cwd llvm (a_new a) w1 = (inr o2, w') /\
    chosen (a_function a) o1 = Ok (c_first c) /\ chosen (a_function a) o2 = Ok (c_second c) /\
    (forall p, a_custom a = Some p -> p <> ""%string -> custom p = None) /\ (a_semdiff a = true -> built = true) /\
    c_settings c = settings /\ c_show c = (negb (a_no_show a) || a_show a)%bool /\ c_verbosity c = verbosity (a_verbose a) (a_debug a) /\ c_ffi c = negb (a_no_ffi a).
Proof.
  unfold from_args. destruct (load d cwd llvm (a_old a) w) as [[s|o1] w1] eqn:L1; [discriminate|].
  destruct (load d cwd llvm (a_new a) w1) as [[s|o2] w2] eqn:L2; [discriminate|].
  destruct (chosen (a_function a) o1) as [f|] eqn:C1; [|discriminate]. destruct (chosen (a_function a) o2) as [s|] eqn:C2; [|discriminate].
  destruct (match truthy (a_custom a) with Some p => custom p | None => None end) eqn:P; [discriminate|].
  destruct (a_semdiff a && negb built) eqn:B; [discriminate|]. intros E. injection E as <- <-. exists o1, w1, o2. repeat split; auto.
  - intros p A N. assert (T : truthy (a_custom a) = Some p) by (apply truthy_some; auto). rewrite T in P. exact P.
  - intros A. rewrite A in B. now destruct built.
Qed.
Lemma from_args_outside d cwd llvm built custom a settings w r w' : from_args d cwd llvm built custom a settings w = (r, w') ->
  (forall x, ~ kernel_dir d (a_old a) x -> ~ kernel_dir d (a_new a) x -> w_header w' x = w_header w x) /\
  (forall x, ~ wrapper_dir d (a_old a) x -> ~ wrapper_dir d (a_new a) x -> w_functions w' x = w_functions w x) /\
  (forall h, state h w -> state h w').
Proof.
  unfold from_args. destruct (load d cwd llvm (a_old a) w) as [r1 w1] eqn:L1. destruct (load_outside _ _ _ _ _ _ _ L1) as [H1 F1].
  assert (S1 : forall h, state h w -> state h w1) by (intros h; now apply (load_state h _ _ _ _ _ _ _ L1)).
  destruct r1 as [s|o1]; [intros E; injection E as <- <-; auto|].
  destruct (load d cwd llvm (a_new a) w1) as [r2 w2] eqn:L2. destruct (load_outside _ _ _ _ _ _ _ L2) as [H2 F2].
  assert (S2 : forall h, state h w -> state h w2) by (intros h H; now apply (load_state h _ _ _ _ _ _ _ L2), S1).
  intros E. assert (w' = w2) as ->.
  { destruct r2 as [s|o2]; [injection E as <- <-; reflexivity|]. destruct (chosen (a_function a) o1), (chosen (a_function a) o2); try (injection E as <- <-; reflexivity).
    destruct (match truthy (a_custom a) with Some p => custom p | None => None end); [injection E as <- <-; reflexivity|]. destruct (a_semdiff a && negb built); injection E as <- <-; reflexivity. }
  split; [|split; [|exact S2]]; intros x N1 N2; [rewrite H2, H1|rewrite F2, F1]; auto.
Qed.

Lemma finalize_tree_other t w x : t <> Kernel x -> w_header (finalize_tree t w) x = w_header w x.
Proof. destruct t; cbn; [reflexivity| |reflexivity]. intros N. apply upd_other. congruence. Qed.
Lemma finalize_functions o w : w_functions (finalize o w) = w_functions w.
Proof. unfold finalize. destruct (o_tree o); cbn; destruct (o_source o) as [[]|]; reflexivity. Qed.
Lemma finalize_other o w x : ~ (o_tree o = Kernel x \/ o_source o = Some (Kernel x)) -> w_header (finalize o w) x = w_header w x.
Proof.
  intros N. unfold finalize. rewrite finalize_tree_other by tauto. destruct (o_source o) as [t|]; [|reflexivity]. apply finalize_tree_other. intros ->. tauto.
Qed.

(** How runs end *)
Lemma run_cases d cwd llvm built custom comparison a w r w' : run d cwd llvm built custom comparison a w = (r, w') ->
  (r <> None /\ w' = w) \/
  (exists settings s, from_args d cwd llvm built custom a settings w = (inl s, w') /\ r = Some s) \/
  (exists settings c w1, from_args d cwd llvm built custom a settings w = (inr c, w1) /\ builtin_patterns (a_patterns a) = Ok settings /\
     ((exists e, comparison c = Some e /\ r = Some (Raised e) /\ w' = w1) \/
      (comparison c = None /\ r = None /\ w' = finalize (c_second c) (finalize (c_first c) w1)))).
Proof.
  unfold run. destruct (builtin_patterns (a_patterns a)) as [settings|e]; [|intros E; injection E as <- <-; left; split; [discriminate|reflexivity]].
  destruct (_ && _); [intros E; injection E as <- <-; left; split; [discriminate|reflexivity]|].
  destruct (from_args d cwd llvm built custom a settings w) as [[s|c] w1] eqn:F.
  - intros E. injection E as <- <-. right. left. eauto.
  - intros E. right. right. exists settings, c, w1. split; [exact F|]. split; [reflexivity|].
    destruct (comparison c) as [e|]; injection E as <- <-; [left; eauto|right; auto].
Qed.
Lemma run_state d cwd llvm built custom comparison a w r w' h : original h -> run d cwd llvm built custom comparison a w = (r, w') -> state h w -> state h w'.
Proof.
  intros O E H. apply run_cases in E. destruct E as [[_ ->]|[(settings & s & F & _)|(settings & c & w1 & F & _ & [(e & _ & _ & ->)|(_ & _ & ->)])]]; [exact H| | |].
  - apply (proj2 (proj2 (from_args_outside _ _ _ _ _ _ _ _ _ _ F))), H.
  - apply (proj2 (proj2 (from_args_outside _ _ _ _ _ _ _ _ _ _ F))), H.
  - apply finalize_state; [exact O|]. apply finalize_state; [exact O|]. apply (proj2 (proj2 (from_args_outside _ _ _ _ _ _ _ _ _ _ F))), H.
Qed.
Lemma after_state h w : original h -> After h w -> state h w.
Proof.
  intros O A. induction A as [w E|w d cwd llvm built custom comparison a r w' A IH R].
  - intros x. exists 0. rewrite E. now destruct (h x).
  - eapply run_state; eauto.
Qed.
