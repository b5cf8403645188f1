(** * Properties of the start and the end of a comparison (C145, C146) *)
From Coq Require Import String ZArith Arith Bool Lia List.
From Verif Require Import PyBase Path_Model Snapshot_Model Config_Model Kernel_Model Kernel_Spec Kernel_Proofs Start_Model Start_Spec Start_Proofs.
Import ListNotations.
Open Scope list_scope.

(** ** C145 Which snapshots are compared *)

(** The comparison starts iff both snapshots can be read and were made with the version of LLVM in use, a function that is asked for is in
    the unnamed group of both, the custom patterns can be read, and the semantic tool, if asked for, is built. *)
Theorem C145_started : forall d cwd llvm built custom a settings w,
  (exists c w', from_args d cwd llvm built custom a settings w = (inr c, w')) <->
  exists y1 fs1 y2 fs2,
    readable d cwd (a_old a) y1 fs1 /\ readable d cwd (a_new a) y2 fs2 /\ y_version y1 = llvm /\ y_version y2 = llvm /\
    (forall f, a_function a = Some f -> f <> ""%string -> get_by_name fs1 f None <> None /\ get_by_name fs2 f None <> None) /\
    (forall p, a_custom a = Some p -> p <> ""%string -> custom p = None) /\
    (a_semdiff a = true -> built = true).
Proof.
  intros d cwd llvm built custom a settings w. split.
  - intros (c & w' & E). apply from_args_inr in E. destruct E as (o1 & w1 & o2 & L1 & L2 & C1 & C2 & P & B & _).
    destruct (load_funs _ _ _ _ _ _ _ L1) as (y1 & R1 & V1), (load_funs _ _ _ _ _ _ _ L2) as (y2 & R2 & V2).
    exists y1, (o_funs o1), y2, (o_funs o2). repeat split; try assumption; try (apply R1); try (apply R2).
    + apply (proj1 (chosen_ok (a_function a) o1)); eauto.
    + apply (proj1 (chosen_ok (a_function a) o2)); eauto.
  - intros (y1 & fs1 & y2 & fs2 & R1 & R2 & V1 & V2 & F & P & B).
    destruct (proj2 (load_inr d cwd llvm (a_old a) w)) as (o1 & w1 & L1); [eauto|].
    destruct (proj2 (load_inr d cwd llvm (a_new a) w1)) as (o2 & w2 & L2); [eauto|].
    assert (G1 : o_funs o1 = fs1). { destruct (load_funs _ _ _ _ _ _ _ L1) as (y & (Y & G & _) & _). destruct R1 as (Y' & G' & _). congruence. }
    assert (G2 : o_funs o2 = fs2). { destruct (load_funs _ _ _ _ _ _ _ L2) as (y & (Y & G & _) & _). destruct R2 as (Y' & G' & _). congruence. }
    destruct (proj2 (chosen_ok (a_function a) o1)) as (f & C1). { rewrite G1. intros n A N. apply (F n A N). }
    destruct (proj2 (chosen_ok (a_function a) o2)) as (s & C2). { rewrite G2. intros n A N. apply (F n A N). }
    unfold from_args. rewrite L1, L2, C1, C2.
    assert (T : match truthy (a_custom a) with Some p => custom p | None => None end = None).
    { destruct (truthy (a_custom a)) as [p|] eqn:T; [|reflexivity]. apply truthy_some in T. destruct T. auto. }
    rewrite T. destruct (a_semdiff a && negb built) eqn:X; [|eauto]. apply andb_prop in X. destruct X as [X Z]. rewrite (B X) in Z. discriminate.
Qed.
Print Assumptions C145_started.

(** Compared are the functions of the snapshots; of the unnamed group only the one asked for, all of the other groups.  Differences are
    shown unless --no-show-diff is given without --show-diff; the verbosity is one more than the number of -d, however often -v is given. *)
Theorem C145_compared : forall d cwd llvm built custom a settings w c w',
  from_args d cwd llvm built custom a settings w = (inr c, w') ->
  (forall y fs, readable d cwd (a_old a) y fs -> forall n g, get_by_name (o_funs (c_first c)) n g = get_by_name fs n g \/
     (get_by_name (o_funs (c_first c)) n g = None /\ g = None /\ exists f, a_function a = Some f /\ f <> ""%string /\ n <> f)) /\
  (forall y fs, readable d cwd (a_new a) y fs -> forall n g, get_by_name (o_funs (c_second c)) n g = get_by_name fs n g \/
     (get_by_name (o_funs (c_second c)) n g = None /\ g = None /\ exists f, a_function a = Some f /\ f <> ""%string /\ n <> f)) /\
  (forall f, a_function a = Some f -> f <> ""%string -> forall n, n <> f ->
     get_by_name (o_funs (c_first c)) n None = None /\ get_by_name (o_funs (c_second c)) n None = None) /\
  c_settings c = settings /\
  (c_show c = false <-> a_no_show a = true /\ a_show a = false) /\
  (a_verbose a = 0 -> a_debug a = 0 -> c_verbosity c = 0) /\
  (a_verbose a <> 0 \/ a_debug a <> 0 -> c_verbosity c = a_debug a + 1) /\
  (c_ffi c = true <-> a_no_ffi a = false).
Proof.
  intros d cwd llvm built custom a settings w c w' E. apply from_args_inr in E. destruct E as (o1 & w1 & o2 & L1 & L2 & C1 & C2 & P & B & -> & -> & -> & ->).
  apply chosen_spec in C1. apply chosen_spec in C2. destruct C1 as (_ & _ & C1), C2 as (_ & _ & C2).
  assert (X : forall o c' fs, o_funs o = fs -> (forall n g, get_by_name (o_funs c') n g =
      match a_function a, g with Some m, None => if (m =? "")%string || (n =? m)%string then get_by_name (o_funs o) n g else None | _, _ => get_by_name (o_funs o) n g end) ->
      forall n g, get_by_name (o_funs c') n g = get_by_name fs n g \/
       (get_by_name (o_funs c') n g = None /\ g = None /\ exists f, a_function a = Some f /\ f <> ""%string /\ n <> f)).
  { intros o c' fs <- H n g. rewrite (H n g). destruct (a_function a) as [m|]; [|auto]. destruct g; [auto|]. destruct (String.eqb_spec m ""); [auto|].
    destruct (String.eqb_spec n m); [auto|]. right. repeat split. exists m. auto. }
  split; [|split; [|split; [|split; [reflexivity|split; [|split; [|split]]]]]].
  - intros y fs (Y & F & _). apply (X o1); [|exact C1]. destruct (load_funs _ _ _ _ _ _ _ L1) as (y' & (Y' & F' & _) & _). congruence.
  - intros y fs (Y & F & _). apply (X o2); [|exact C2]. destruct (load_funs _ _ _ _ _ _ _ L2) as (y' & (Y' & F' & _) & _). congruence.
  - intros f A N n M. apply String.eqb_neq in N, M. rewrite C1, C2, A, N, M. auto.
  - destruct (a_no_show a), (a_show a); cbn; split; intros H; try discriminate; try (destruct H; discriminate); auto.
  - intros -> ->. reflexivity.
  - intros N. unfold verbosity. destruct (Nat.eqb_spec (a_verbose a) 0), (Nat.eqb_spec (a_debug a) 0); cbn; lia.
  - destruct (a_no_ffi a); cbn; split; congruence.
Qed.
Print Assumptions C145_compared.

(** A snapshot of another version of LLVM stops the run with the exit code EINVAL (22); nothing is ever compared then. *)
Theorem C145_version : forall d cwd llvm built custom comparison a w,
  (forall w' y fs, run d cwd llvm built custom comparison a w = (None, w') ->
     (readable d cwd (a_old a) y fs \/ readable d cwd (a_new a) y fs) -> y_version y = llvm) /\
  (forall y fs settings, readable d cwd (a_old a) y fs -> y_version y <> llvm ->
     fst (from_args d cwd llvm built custom a settings w) = inl (Exit 22)).
Proof.
  intros d cwd llvm built custom comparison a w. split.
  - intros w' y fs E R. apply run_cases in E. destruct E as [[C _]|[(settings & s & _ & C)|(settings & c & w1 & F & _ & _)]]; [congruence|discriminate|].
    apply from_args_inr in F. destruct F as (o1 & w2 & o2 & L1 & L2 & _).
    destruct (load_funs _ _ _ _ _ _ _ L1) as (y1 & (Y1 & _) & V1), (load_funs _ _ _ _ _ _ _ L2) as (y2 & (Y2 & _) & V2).
    destruct R as [(Y & _)|(Y & _)]; congruence.
  - intros y fs settings (Y & F & W) N. unfold from_args. destruct (load d cwd llvm (a_old a) w) as [r w1] eqn:L.
    apply load_cases in L. destruct L as [(C & _)|(y' & Y' & [(K & C & _)|(t & w2 & s & _ & _ & M)])]; [congruence| |].
    + assert (y' = y) as -> by congruence. destruct (W K). congruence.
    + assert (y' = y) as -> by congruence. rewrite F in M. apply not_eq_sym in N. apply Z.eqb_neq in N. rewrite N in M. subst r. reflexivity.
Qed.
Print Assumptions C145_version.

(** ** C146 What a comparison leaves behind *)

(** Whatever happens, headers and lists of functions are only written in the directories of the snapshots and of their sources: headers for
    kernels, lists for snapshots made with the compiler wrapper.  A run that is refused because of its options writes nothing. *)
Theorem C146_only_there : forall d cwd llvm built custom comparison a w r w',
  run d cwd llvm built custom comparison a w = (r, w') ->
  (forall x, ~ kernel_dir d (a_old a) x -> ~ kernel_dir d (a_new a) x -> w_header w' x = w_header w x) /\
  (forall x, ~ wrapper_dir d (a_old a) x -> ~ wrapper_dir d (a_new a) x -> w_functions w' x = w_functions w x) /\
  (forall o, a_stdout a = false -> a_out a = Some o -> o <> ""%string -> d_isdir d o = true -> w' = w /\ r <> None).
Proof.
  intros d cwd llvm built custom comparison a w r w' E. split; [|split].
  3: { intros o S O N D. unfold run in E. destruct (builtin_patterns (a_patterns a)); [|injection E as <- <-; split; [reflexivity|discriminate]].
       rewrite S in E. rewrite (proj2 (truthy_some (a_out a) o) (conj O N)), D in E. cbn in E. injection E as <- <-. split; [reflexivity|discriminate]. }
  - intros x N1 N2. apply run_cases in E. destruct E as [[_ ->]|[(settings & s & F & _)|(settings & c & w1 & F & _ & [(e & _ & _ & ->)|(_ & _ & ->)])]]; [reflexivity| | |].
    + apply (from_args_outside _ _ _ _ _ _ _ _ _ _ F); auto.
    + apply (from_args_outside _ _ _ _ _ _ _ _ _ _ F); auto.
    + rewrite <- (proj1 (from_args_outside _ _ _ _ _ _ _ _ _ _ F) x N1 N2). apply from_args_inr in F. destruct F as (o1 & w2 & o2 & L1 & L2 & C1 & C2 & _).
      apply chosen_spec in C1. apply chosen_spec in C2. destruct C1 as (T1 & S1 & _), C2 as (T2 & S2 & _).
      rewrite !finalize_other; [reflexivity| |].
      * rewrite T1, S1, (load_trees _ _ _ _ _ _ _ x L1). exact N1.
      * rewrite T2, S2, (load_trees _ _ _ _ _ _ _ x L2). exact N2.
  - intros x N1 N2. apply run_cases in E. destruct E as [[_ ->]|[(settings & s & F & _)|(settings & c & w1 & F & _ & [(e & _ & _ & ->)|(_ & _ & ->)])]]; [reflexivity| | |].
    1,2: apply (from_args_outside _ _ _ _ _ _ _ _ _ _ F); auto.
    rewrite !finalize_functions. apply (from_args_outside _ _ _ _ _ _ _ _ _ _ F); auto.
Qed.
Print Assumptions C146_only_there.

(** After any history of runs, however they ended, a comparison that reaches its end restores the headers of all directories of its
    snapshots, also those both snapshots share. *)
Theorem C146_restored : forall h w d cwd llvm built custom comparison a w',
  original h -> After h w -> run d cwd llvm built custom comparison a w = (None, w') ->
  forall x, kernel_dir d (a_old a) x \/ kernel_dir d (a_new a) x -> w_header w' x = h x.
Proof.
  intros h w d cwd llvm built custom comparison a w' O A E x K. pose proof (after_state h w O A) as S.
  apply run_cases in E. destruct E as [[C _]|[(settings & s & _ & C)|(settings & c & w1 & F & _ & [(e & _ & C & _)|(_ & _ & ->)])]]; [congruence|discriminate|discriminate|].
  pose proof (proj2 (proj2 (from_args_outside _ _ _ _ _ _ _ _ _ _ F)) h S) as S'.
  apply from_args_inr in F. destruct F as (o1 & w2 & o2 & L1 & L2 & C1 & C2 & _). apply chosen_spec in C1. apply chosen_spec in C2. destruct C1 as (T1 & S1 & _), C2 as (T2 & S2 & _).
  apply finalize_header; [exact O|apply finalize_state; assumption|]. rewrite T2, S2, (load_trees _ _ _ _ _ _ _ x L2).
  destruct K as [K|K]; [right|left; exact K]. apply finalize_header; [exact O|exact S'|]. left. now rewrite T1, S1, (load_trees _ _ _ _ _ _ _ x L1).
Qed.
Print Assumptions C146_restored.
(** In particular, a first run that reaches its end leaves all headers as they were. *)
Theorem C146_unchanged : forall w d cwd llvm built custom comparison a w',
  original (w_header w) -> run d cwd llvm built custom comparison a w = (None, w') -> forall x, w_header w' x = w_header w x.
Proof.
  intros w d cwd llvm built custom comparison a w' O E x. pose proof (after_state _ w O (After_none _ w eq_refl)) as S.
  apply run_cases in E. destruct E as [[C _]|[(settings & s & _ & C)|(settings & c & w1 & F & _ & [(e & _ & C & _)|(_ & _ & ->)])]]; [congruence|discriminate|discriminate|].
  pose proof (from_args_outside _ _ _ _ _ _ _ _ _ _ F) as (H & _ & S'). specialize (S' _ S).
  apply from_args_inr in F. destruct F as (o1 & w2 & o2 & L1 & L2 & C1 & C2 & _). apply chosen_spec in C1. apply chosen_spec in C2. destruct C1 as (T1 & S1 & _), C2 as (T2 & S2 & _).
  assert (D1 : (o_tree (c_first c) = Kernel x \/ o_source (c_first c) = Some (Kernel x)) \/ ~ (o_tree (c_first c) = Kernel x \/ o_source (c_first c) = Some (Kernel x))).
  { destruct (o_tree (c_first c)) as [|z|]; destruct (o_source (c_first c)) as [[|u|]|]; try (destruct (String.eqb_spec z x) as [->|]; [left; left; reflexivity|]);
      try (destruct (String.eqb_spec u x) as [->|]; [left; right; reflexivity|]); right; intros [?|?]; congruence. }
  assert (D2 : (o_tree (c_second c) = Kernel x \/ o_source (c_second c) = Some (Kernel x)) \/ ~ (o_tree (c_second c) = Kernel x \/ o_source (c_second c) = Some (Kernel x))).
  { destruct (o_tree (c_second c)) as [|z|]; destruct (o_source (c_second c)) as [[|u|]|]; try (destruct (String.eqb_spec z x) as [->|]; [left; left; reflexivity|]);
      try (destruct (String.eqb_spec u x) as [->|]; [left; right; reflexivity|]); right; intros [?|?]; congruence. }
  destruct D2 as [D2|D2].
  - apply finalize_header; [exact O|now apply finalize_state|auto].
  - rewrite finalize_other by exact D2. destruct D1 as [D1|D1]; [apply finalize_header; [exact O|exact S'|auto]|]. rewrite finalize_other by exact D1. apply H.
    + intros K. apply D1. rewrite T1, S1. now apply (load_trees _ _ _ _ _ _ _ x L1).
    + intros K. apply D2. rewrite T2, S2. now apply (load_trees _ _ _ _ _ _ _ x L2).
Qed.
Print Assumptions C146_unchanged.

(** The list of functions in the sources of a snapshot made with the compiler wrapper is replaced by that of the snapshot, whatever it was:
    that of the new snapshot, where both have the same sources. *)
Theorem C146_lists : forall d cwd llvm built custom comparison a w w', run d cwd llvm built custom comparison a w = (None, w') ->
  (forall x, wrapper_dir d (a_new a) x -> w_functions w' x = d_wdb d (a_new a) /\ d_wdb d (a_new a) <> None) /\
  (forall x, wrapper_dir d (a_old a) x -> ~ wrapper_dir d (a_new a) x -> w_functions w' x = d_wdb d (a_old a) /\ d_wdb d (a_old a) <> None).
Proof.
  intros d cwd llvm built custom comparison a w w' E.
  apply run_cases in E. destruct E as [[C _]|[(settings & s & _ & C)|(settings & c & w1 & F & _ & [(e & _ & C & _)|(_ & _ & ->)])]]; [congruence|discriminate|discriminate|].
  rewrite !finalize_functions. apply from_args_inr in F. destruct F as (o1 & w2 & o2 & L1 & L2 & _).
  assert (W : forall dir w o w' x, load d cwd llvm dir w = (inr o, w') -> wrapper_dir d dir x -> d_wdb d dir <> None).
  { intros dir v o v' x L (y & Y & K & _). destruct (load_funs _ _ _ _ _ _ _ L) as (y' & (Y' & _ & W) & _). assert (y' = y) as -> by congruence. destruct (W K). congruence. }
  split.
  - intros x B. split; [exact (load_lists _ _ _ _ _ _ _ x L2 B)|eapply W; eauto].
  - intros x B N. split; [|eapply W; eauto]. rewrite (proj2 (load_outside _ _ _ _ _ _ _ L2) x N). exact (load_lists _ _ _ _ _ _ _ x L1 B).
Qed.
Print Assumptions C146_lists.

(** A run that is stopped leaves the headers changed: here because the old snapshot, of a kernel whose sources are at hand, was made with
    another version of LLVM. *)
Definition ex_text : string := "#define asm_volatile_goto(x...) asm goto(x)".
Definition ex_doc (version : Z) (finder : string) (source : option string) : document :=
  mkDocument version finder source "function" (YFuns [mkYfun "f" (Some "a.ll"%string) None None; mkYfun "g" (Some "a.ll"%string) None None]).
Definition ex_disk : disk :=
  mkDisk (fun x => if String.eqb x "/old" then Some (ex_doc 16 "kernel_with_builder" (Some "/linux"%string))
                   else if String.eqb x "/new" then Some (ex_doc 17 "kernel_with_builder" (Some "/linux"%string))
                   else if String.eqb x "/wrapped" then Some (ex_doc 17 "wrapper_build_tree" (Some "/src"%string)) else None)
         (fun x => (String.eqb x "/linux" || String.eqb x "/src")%bool)
         (fun x => if String.eqb x "/wrapped" then Some ["f"; "g"]%string else None).
Definition ex_world : world :=
  mkWorld (fun x => if (String.eqb x "/linux")%bool then Some ex_text else None) (fun x => if String.eqb x "/src" then Some ["mine"%string] else None).
Definition ex_args (old new : string) : arguments :=
  mkArguments old new None true (Some "f"%string) [] None false false 3 0 false false.
Theorem C146_stopped_refuted :
  let r := run ex_disk "/" 17 true (fun _ => None) (fun _ => None) (ex_args "/old" "/new") ex_world in
  fst r = Some (Exit 22) /\ original (w_header ex_world) /\ w_header (snd r) "/linux" <> w_header ex_world "/linux" /\
  (** and the next comparison that reaches its end restores them *)
  w_header (snd (run ex_disk "/" 17 true (fun _ => None) (fun _ => None) (ex_args "/new" "/new") (snd r))) "/linux" = w_header ex_world "/linux".
Proof.
  cbn zeta. split; [vm_compute; reflexivity|]. split; [|split; [vm_compute; discriminate|vm_compute; reflexivity]].
  intros x t. cbn. destruct (String.eqb x "/linux"); [|discriminate]. intros E. injection E as <-.
  split; intros (u & v & E); apply (proj2 (contains_spec ex_text _)) in E || (assert (X : exists a b, ex_text = (a ++ _ ++ b)%string) by eauto; apply contains_spec in X; vm_compute in X; discriminate).
Qed.
Print Assumptions C146_stopped_refuted.
(** The own list of functions in the sources is lost. *)
Theorem C146_own_list_refuted :
  let r := run ex_disk "/" 17 true (fun _ => None) (fun _ => None) (ex_args "/wrapped" "/new") ex_world in
  fst r = None /\ w_functions ex_world "/src" = Some ["mine"%string] /\ w_functions (snd r) "/src" = Some ["f"; "g"]%string.
Proof. vm_compute. auto. Qed.
Print Assumptions C146_own_list_refuted.

Example C145_example : exists c w', from_args ex_disk "/" 17 true (fun _ => None) (ex_args "/wrapped" "/new") [] ex_world = (inr c, w') /\
  get_by_name (o_funs (c_first c)) "f" None <> None /\ get_by_name (o_funs (c_first c)) "g" None = None /\ c_verbosity c = 1.
Proof. eexists _, _. vm_compute. repeat split. discriminate. Qed.
Example C146_example :
  readable ex_disk "/" "/wrapped" (ex_doc 17 "wrapper_build_tree" (Some "/src"%string)) [(None, [("f"%string, mkDesc (Some "wrapped/a.ll"%string) None None); ("g"%string, mkDesc (Some "wrapped/a.ll"%string) None None)])] /\
  wrapper_dir ex_disk "/wrapped" "/src" /\ kernel_dir ex_disk "/new" "/linux".
Proof.
  repeat split; [eexists; reflexivity| |]; eexists; (split; [reflexivity|]); vm_compute; auto.
Qed.
