(** * Properties of the reports (C47, C48, C72, C73, C74) *)
From Coq Require Import String Ascii ZArith Arith Bool Lia Permutation Sorted List.
From Verif Require Import PyBase Path_Model Result_Model Result_Spec Result_Proofs Graph_Model Graph_Spec Graph_Props Syndiff_Model Syndiff_Spec
  Driver_Model Driver_Spec Driver_Proofs Driver_Props Output_Model Output_Spec Output_Proofs.
From Verif Require Compare_Model Compare_Spec Compare_Proofs Compare_Props.
Import ListNotations.
Open Scope list_scope.
Local Arguments Ascii.eqb : simpl never.

(** ** C47 The YAML report *)
Lemma filter_kept {A} (P : A -> Prop) (f : A -> bool) l : (forall x, f x = true <-> P x) -> Kept P l (filter f l).
Proof.
  intros H. induction l as [|x l IH]; cbn; [constructor|]. destruct (f x) eqn:E.
  - constructor; [apply H, E|exact IH].
  - constructor; [|exact IH]. intros X. apply H in X. congruence.
Qed.
Lemma create_output_results cwd el h of ot od nd r rp :
  create_output cwd el h of ot od nd r = Ok rp ->
  exists rs, create_results od nd r = Ok rs /\ rp_results rp = fst rs /\ rp_old rp = od /\ rp_new rp = nd.
Proof.
  unfold create_output. intros E. apply bind_Ok in E as (rs & R & E). exists rs. split; [exact R|].
  destruct (r_graph r) as [g|].
  - apply bind_Ok in E as (fd & _ & E). apply bind_Ok in E as (td & _ & E). apply Ok_inj in E. subst rp. auto.
  - apply Ok_inj in E. subst rp. auto.
Qed.
Lemma entry_entry_ok od nd fr : od <> ""%string -> nd <> ""%string -> entry_ok od nd fr (entry od nd fr).
Proof.
  intros O N. split; [reflexivity|]. exists (filter (fun r => negb (unlisted r)) (by_name (dvals (r_inner (snd fr))))).
  split; [|split].
  - eapply selection_perm; [symmetry; apply by_name_perm|]. apply filter_selection.
  - unfold entry. cbn [yr_diffs]. induction (filter _ _) as [|x l IH]; cbn; constructor; [apply describes_ydiff; assumption|exact IH].
  - unfold entry. cbn [yr_diffs]. rewrite map_map. cbn.
    pose proof (by_name_sorted (dvals (r_inner (snd fr)))) as S. induction (by_name (dvals (r_inner (snd fr)))) as [|x l IH]; cbn; [constructor|].
    cbn in S. inversion S as [|? ? Sl F]; subst. destruct (negb (unlisted x)); [|auto]. cbn. constructor; [auto|].
    apply Forall_forall. intros y I. apply in_map_iff in I as (z & <- & I). apply filter_In in I as [I _].
    rewrite Forall_forall in F. apply F. apply in_map_iff. eauto.
Qed.

(** The report names both snapshots and has exactly one entry per NOT_EQUAL function, in the
    order of the results; the entry lists exactly the differing functions with a non-empty
    text or without a covering nested difference, sorted by name, each with its call stacks
    (paths without the snapshot directory). *)
Theorem C47_results : forall cwd end_line h order_funs order_types old_dir new_dir r rp,
  old_dir <> ""%string -> new_dir <> ""%string ->
  create_output cwd end_line h order_funs order_types old_dir new_dir r = Ok rp ->
  rp_old rp = old_dir /\ rp_new rp = new_dir /\
  exists frs, Kept (fun fr => r_kind (snd fr) = NOT_EQUAL) (r_inner r) frs /\
    Forall2 (entry_ok old_dir new_dir) frs (rp_results rp).
Proof.
  intros cwd el h of ot od nd r rp O N E. apply create_output_results in E as (rs & R & E1 & E2 & E3).
  split; [exact E2|]. split; [exact E3|].
  apply (create_results_fold cwd el) in R as (R & _ & _). cbn [fst app] in R.
  exists (filter (fun fr => kind_eqb (r_kind (snd fr)) NOT_EQUAL) (r_inner r)). split.
  - apply filter_kept. intros x. destruct (kind_eqb_spec (r_kind (snd x)) NOT_EQUAL); split; congruence.
  - rewrite E1, R. clear - O N. induction (filter _ _) as [|x l IH]; cbn; [constructor|]. constructor; [apply entry_entry_ok; assumption|exact IH].
Qed.
Print Assumptions C47_results.

Lemma funs_of_listed r n : funs_of (r_inner r) n <-> listed_function r n.
Proof.
  unfold funs_of, listed_function, differing, is_ne. split.
  - intros ([m fr] & I & K & [E|(x & cs & c & Ix & L & CS & Ic & Nf)]); cbn in *.
    + left. exists fr. subst m. auto.
    + right. exists m, cs, c. split; [exists fr, x; repeat split; auto|auto].
  - intros [(fr & I & K)|(m & cs & c & (fr & x & (I & K) & Ix & L & CS) & Ic & Nf)].
    + exists (n, fr). auto.
    + exists (m, fr). split; [exact I|]. split; [exact K|]. right. exists x, cs, c. auto.
Qed.
Lemma types_of_listed r n p : types_of (r_inner r) n p <-> listed_type r n p.
Proof.
  unfold types_of, listed_type, differing, is_ne. split.
  - intros ([m fr] & I & K & x & pre & c & post & Ix & L & CS & Nt & ->). cbn in *.
    exists m, pre, c, post. split; [exists fr, x; repeat split; auto|auto].
  - intros (m & pre & c & post & (fr & x & (I & K) & Ix & L & CS) & Nt & ->).
    exists (m, fr). split; [exact I|]. split; [exact K|]. exists x, pre, c, post. auto.
Qed.

Section Definitions.
  Variables (cwd : string) (end_line : string -> option Z -> string -> res Z) (h : heap).
  Variable order_funs : list string -> list string.
  Variable order_types : list (string * string) -> list (string * string).
  Variables (old_dir new_dir : string) (r : result graph).
  Hypothesis OF : any_set_order order_funs.
  Hypothesis OT : any_set_order order_types.
  Notation out := (create_output cwd end_line h order_funs order_types old_dir new_dir r).

  Lemma create_output_defs rp g : r_graph r = Some g -> out = Ok rp -> forall n,
    (type_known h r g n -> exists p v d, listed_type r n p /\ known g h p v /\
       type_definition cwd end_line old_dir new_dir v n d /\ dget (rp_definitions rp) n = Some d) /\
    (~ type_known h r g n -> forall v, listed_function r n -> known g h n v ->
       exists d, function_definition cwd end_line old_dir new_dir v d /\ dget (rp_definitions rp) n = Some d) /\
    (~ type_known h r g n -> ~ (listed_function r n /\ exists v, known g h n v) -> dget (rp_definitions rp) n = None).
  Proof.
    intros G E n. unfold create_output in E. apply bind_Ok in E as (rs & R & E). rewrite G in E.
    apply bind_Ok in E as (fd & FD & E). apply bind_Ok in E as (td & TD & E). apply Ok_inj in E. subst rp. cbn [rp_definitions].
    apply (create_results_fold cwd end_line) in R as (_ & RF & RT). cbn [snd s_funs s_types] in RF, RT.
    destruct (function_defs_fold cwd end_line h order_funs old_dir new_dir g _ [] fd FD (NoDup_nil _)) as (NF & FD').
    destruct (type_defs_fold cwd end_line h order_types old_dir new_dir g _ [] td TD (NoDup_nil _)) as (NT & TD').
    destruct (FD' n) as (FD1 & FD2). destruct (TD' n) as (TD1 & TD2).
    assert (INF : In n (order_funs (s_funs (snd rs))) <-> listed_function r n).
    { rewrite <- funs_of_listed. rewrite (Permutation_in_iff _ _ _ (OF _)). rewrite RF. cbn. tauto. }
    assert (INT : forall p, In (n, p) (order_types (s_types (snd rs))) <-> listed_type r n p).
    { intros p. rewrite <- types_of_listed. rewrite (Permutation_in_iff _ _ _ (OT _)). rewrite RT. cbn. tauto. }
    assert (TK : (exists p t, In (n, p) (order_types (s_types (snd rs))) /\ type_here h g n p t) <-> type_known h r g n).
    { split.
      - intros (p & t & I & v & V & F). apply find_type_first in F as (pre & q & s & post & F1 & F2).
        exists p, (h v), (fst t), (snd t). split; [apply INT, I|]. split; [exists v; auto|]. exists pre, q, s, post. auto.
      - intros (p & v & file & line & L & (i & V & <-) & pre & q & s & post & F1 & F2).
        exists p, (file, line). split; [apply INT, L|]. exists i. split; [exact V|]. apply find_type_first. exists pre, q, s, post. auto. }
    assert (UPD : dget (dict_update (dict_update [] fd) td) n = match dget td n with Some x => Some x | None => dget fd n end).
    { rewrite dict_update_get by exact NT. destruct (dget td n); [reflexivity|]. rewrite dict_update_get by exact NF. destruct (dget fd n); reflexivity. }
    rewrite UPD. split; [|split].
    - intros K. apply TK in K. destruct (TD1 K) as (p & t & d & I & (v & V & F) & D & G2). rewrite G2.
      exists p, (h v), d. split; [apply INT, I|]. split; [exists v; auto|]. split; [eapply type_def_ok; eassumption|reflexivity].
    - intros K v L (i & V & <-). rewrite TD2 by (rewrite TK; exact K). cbn.
      destruct (FD1 (proj2 INF L) i V) as (d & D & G2). exists d. split; [apply function_def_ok, D|exact G2].
    - intros K K2. rewrite TD2 by (rewrite TK; exact K). cbn. rewrite FD2; [reflexivity|].
      destruct (dget (g_verts g) n) as [i|] eqn:V; [|right; reflexivity]. left. intros I. apply K2. split; [apply INF, I|].
      exists (h i), i. auto.
  Qed.
End Definitions.

(** Definitions of the symbols on the listed call stacks: a type known to the graph has the
    definition found at one of its parents, a function known to the graph (and not also such a
    type) has its own, and nothing else has one. *)
Theorem C47_definitions : forall cwd end_line h order_funs order_types old_dir new_dir r rp g,
  any_set_order order_funs -> any_set_order order_types ->
  r_graph r = Some g ->
  create_output cwd end_line h order_funs order_types old_dir new_dir r = Ok rp -> forall n,
  (type_known h r g n -> exists p v d, listed_type r n p /\ known g h p v /\
     type_definition cwd end_line old_dir new_dir v n d /\ dget (rp_definitions rp) n = Some d) /\
  (~ type_known h r g n -> forall v, listed_function r n -> known g h n v ->
     exists d, function_definition cwd end_line old_dir new_dir v d /\ dget (rp_definitions rp) n = Some d) /\
  (~ type_known h r g n -> ~ (listed_function r n /\ exists v, known g h n v) -> dget (rp_definitions rp) n = None).
Proof. intros. eapply create_output_defs; eassumption. Qed.
Print Assumptions C47_definitions.

(** A definition's path, read from the snapshot directory, denotes the file it was made from. *)
Theorem C47_paths_resolve : forall cwd end_line dir line file kind i,
  isabs dir = true -> place cwd end_line line file dir kind i ->
  exists f, file = Some f /\ isabs (yi_file i) = false /\
    abs_comps cwd (path_join dir (yi_file i)) = abs_comps cwd f.
Proof.
  intros cwd el dir line file kind i A (_ & f & F & R & _). exists f. split; [exact F|]. eapply relpath_join; eassumption.
Qed.
Print Assumptions C47_paths_resolve.

(** The report is produced exactly if every name on a listed call stack has at most one space
    and every listed symbol the graph knows has a file whose end line can be asked for. *)
Theorem C47_succeeds_iff : forall cwd end_line h order_funs order_types old_dir new_dir r,
  any_set_order order_funs -> any_set_order order_types ->
  (exists rp, create_output cwd end_line h order_funs order_types old_dir new_dir r = Ok rp) <->
  (forall name cs c, listed_stack r name cs -> In c cs -> readable c) /\
  (forall g, r_graph r = Some g ->
     (forall n v, listed_function r n -> known g h n v -> function_placed end_line v) /\
     (forall n p v, listed_type r n p -> known g h p v -> type_placed end_line v n)).
Proof.
  intros cwd el h of ot od nd r OF OT.
  assert (RD : (exists rs, create_results od nd r = Ok rs) <-> (forall name cs c, listed_stack r name cs -> In c cs -> readable c)).
  { unfold create_results. rewrite (fold_res_Ok_iff (create_result od nd) readable_result (create_result_ok od nd)).
    rewrite Forall_forall. split.
    - intros F name cs c (fr & x & (I & K) & Ix & L & CS) Ic. specialize (F (name, fr) I K). rewrite Forall_forall in F.
      specialize (F x Ix L cs CS). rewrite Forall_forall in F. apply F, Ic.
    - intros F [name fr] I K. apply Forall_forall. intros x Ix L cs CS. apply Forall_forall. intros c Ic.
      apply (F name cs c); [|exact Ic]. exists fr, x. repeat split; auto. }
  rewrite <- RD. unfold create_output. split.
  - intros (rp & E). apply bind_Ok in E as (rs & R & E). split; [eauto|]. intros g G. rewrite G in E.
    apply bind_Ok in E as (fd & FD & E). apply bind_Ok in E as (td & TD & E).
    apply (create_results_fold cwd el) in R as (_ & RF & RT). cbn [snd s_funs s_types] in RF, RT.
    assert (FT := proj1 (function_defs_total cwd el h od nd g _ []) (ex_intro _ fd FD)).
    assert (TT := proj1 (type_defs_total cwd el h od nd g _ []) (ex_intro _ td TD)).
    rewrite Forall_forall in FT, TT. split.
    + intros n v L (i & V & <-). apply (FT n); [|exact V]. rewrite (Permutation_in_iff _ _ _ (OF _)), RF. right. apply funs_of_listed, L.
    + intros n p v L (i & V & <-). apply (TT (n, p)); [|exact V]. rewrite (Permutation_in_iff _ _ _ (OT _)), RT. right. apply types_of_listed, L.
  - intros ((rs & R) & P). rewrite R. cbn [bind]. destruct (r_graph r) as [g|]; [|eauto]. destruct (P g eq_refl) as [PF PT].
    apply (create_results_fold cwd el) in R as (_ & RF & RT). cbn [snd s_funs s_types] in RF, RT.
    destruct (proj2 (function_defs_total cwd el h od nd g (of (s_funs (snd rs))) [])) as [fd FD].
    { apply Forall_forall. intros n I v V. rewrite (Permutation_in_iff _ _ _ (OF _)), RF in I. destruct I as [[]|I].
      apply (PF n); [apply funs_of_listed, I|exists v; auto]. }
    destruct (proj2 (type_defs_total cwd el h od nd g (ot (s_types (snd rs))) [])) as [td TD].
    { apply Forall_forall. intros [n p] I v V. rewrite (Permutation_in_iff _ _ _ (OT _)), RT in I. destruct I as [[]|I].
      apply (PT n p); [apply types_of_listed, I|exists v; auto]. }
    unfold function_defs, type_defs. rewrite FD. cbn [bind]. rewrite TD. cbn [bind]. eauto.
Qed.
Print Assumptions C47_succeeds_iff.

(** Without a graph there is no definition at all. *)
Theorem C47_no_graph_no_definitions : forall cwd end_line h order_funs order_types old_dir new_dir r rp,
  r_graph r = None ->
  create_output cwd end_line h order_funs order_types old_dir new_dir r = Ok rp -> rp_definitions rp = [].
Proof.
  intros cwd el h of ot od nd r rp G E. unfold create_output in E. apply bind_Ok in E as (rs & R & E). rewrite G in E.
  apply Ok_inj in E. subst rp. reflexivity.
Qed.
Print Assumptions C47_no_graph_no_definitions.

(** *** A concrete report: [f] calls the changed [g], which uses the changed type [t]. *)
Definition out_type : nonfun := TypeDiff "t" "g" ([], []) ("/o/t.h", "/n/t.h")%string (3, 4)%Z.
Definition out_heap : heap := heap_of
  [ ex_fun "f" EQUAL "/o/a.c" [] [ex_call "g" STRONG]; ex_fun "g" NOT_EQUAL "/o/g.c" [out_type] [] ].
Definition out_graph : graph := mkGraph [("f", 0); ("g", 1)]%string [] [] [].
Definition out_stack : callstack := [mkCall "g" "/o/a.c" 7%Z; mkCall "t (type)" "/o/g.c" 9%Z].
Definition out_inner (n : string) (d : option string) (cs : option callstack) : result graph :=
  mkResult NOT_EQUAL (mkEntity n None None cs DFunction false) (mkEntity n None None cs DFunction false) d None [].
Definition out_f : result graph :=
  mkResult NOT_EQUAL (plain_entity "f") (plain_entity "f") None (Some out_graph)
    [("t"%string, out_inner "t" (Some "@@"%string) (Some out_stack)); ("g"%string, out_inner "g" (Some "@@"%string) None)].
Definition out_all (g : option graph) : result graph :=
  mkResult NOT_EQUAL (plain_entity "/o") (plain_entity "/n") None g [("f"%string, out_f); ("k"%string, new_result EQUAL "k" "k")].
Definition out_end (f : string) (l : option Z) (k : string) : res Z :=
  match l with Some n => Ok (n + 5)%Z | None => Err TypeError end.
Definition out_report (g : option graph) := create_output "/" out_end out_heap (fun l => l) (@rev _) "/o" "/n" (out_all g).
Example C47_example :
  out_report (Some out_graph) = Ok (mkReport "/o" "/n"
    [mkYresult "f" [mkYdiff "g" [] []; mkYdiff "t" [mkCall "g" "/a.c" 7; mkCall "t (type)" "/g.c" 9] [mkCall "g" "/o/a.c" 7; mkCall "t (type)" "/o/g.c" 9]]]
    [("f"%string, mkYdef "function" (mkYinfo (Some 1%Z) "a.c" (Some 6%Z) None) (mkYinfo (Some 1%Z) "../o/a.c" (Some 6%Z) None));
     ("g"%string, mkYdef "function" (mkYinfo (Some 1%Z) "g.c" (Some 6%Z) None) (mkYinfo (Some 1%Z) "../o/g.c" (Some 6%Z) None));
     ("t"%string, mkYdef "type" (mkYinfo (Some 3%Z) "t.h" (Some 8%Z) None) (mkYinfo (Some 4%Z) "t.h" (Some 9%Z) None))])
  /\ type_known out_heap (out_all (Some out_graph)) out_graph "t"
  /\ listed_function (out_all (Some out_graph)) "g" /\ any_set_order (@rev (string * string)).
Proof.
  assert (LS : listed_stack (out_all (Some out_graph)) "f" out_stack).
  { exists out_f, (out_inner "t" (Some "@@"%string) (Some out_stack)). split; [split; [left; reflexivity|reflexivity]|].
    split; [left; reflexivity|]. split; [left; discriminate|reflexivity]. }
  split; [vm_compute; reflexivity|]. split; [|split].
  - exists "g"%string, (out_heap 1), ("/o/t.h", "/n/t.h")%string, (3, 4)%Z. split; [|split].
    + exists "f"%string, [mkCall "g" "/o/a.c" 7%Z], (mkCall "t (type)" "/o/g.c" 9%Z), []. split; [exact LS|]. repeat split.
    + exists 1. split; reflexivity.
    + exists [], "g"%string, ([], []), []. split; [reflexivity|constructor].
  - right. exists "f"%string, out_stack, (mkCall "g" "/o/a.c" 7%Z). split; [exact LS|]. split; [left; reflexivity|]. split; [reflexivity|left; reflexivity].
  - intros l. symmetry. apply Permutation_rev.
Qed.

(** A function name with two spaces on a listed call stack ends the report with ValueError. *)
Theorem C47_always_succeeds_refuted : exists r,
  create_output "/" out_end out_heap (fun l => l) (fun l => l) "/o" "/n" r = Err ValueError.
Proof.
  exists (mkResult NOT_EQUAL (plain_entity "/o") (plain_entity "/n") None None
    [("f"%string, mkResult NOT_EQUAL (plain_entity "f") (plain_entity "f") None None
       [("g"%string, out_inner "g" (Some "@@"%string) (Some [mkCall "a b c" "/o/a.c" 7%Z]))])]).
  vm_compute. reflexivity.
Qed.
Print Assumptions C47_always_succeeds_refuted.

(** ** C72 Which symbols the report can define *)

(** The graph used for the definitions is that of the last function handled: none, if that
    function had no module. *)
Theorem C72_graph_of_last_function : forall (an : Compare_Model.analysis graph) o od dirs s1 s2 st y,
  Compare_Spec.dict_like s1 -> Compare_Model.compare an o od dirs s1 s2 = Ok (st, y) ->
  forall before e after, Compare_Model.c_trace st = before ++ e :: after ->
  (forall x, In x after -> exists g f, x = Compare_Model.Skipped g f) ->
  match e with
  | Compare_Model.Skipped _ _ => True
  | Compare_Model.NoModule _ _ => r_graph (Compare_Model.c_result st) = None
  | Compare_Model.Compared _ r => r_graph (Compare_Model.c_result st) = r_graph r
  end.
Proof.
  intros an o od dirs s1 s2 st y W E before e after T S.
  pose proof (Compare_Props.C27_overall_result graph an o od dirs s1 s2 st y W E) as R. apply add_inners_graph in R.
  rewrite T, flat_map_app in R. cbn [flat_map] in R.
  assert (A : flat_map Compare_Spec.contributed after = []).
  { clear - S. induction after as [|x l IH]; [reflexivity|]. cbn. rewrite IH by (intros; apply S; right; assumption).
    destruct (S x (or_introl eq_refl)) as (g & f & ->). reflexivity. }
  rewrite A, app_nil_r in R. destruct e as [g f|g f|c r]; [exact Logic.I| |]; cbn [Compare_Spec.contributed] in R; rewrite rev_app_distr in R; exact R.
Qed.
Print Assumptions C72_graph_of_last_function.

(** So a report can list a difference without defining any of its symbols: [f] differs and its
    symbols are known, but the function compared last has no module. *)
Definition out_s1 : Snapshot_Model.groups :=
  [(None, [("f"%string, Compare_Props.C27_desc "m"); ("k"%string, Snapshot_Model.mkDesc None None None)])].
Theorem C72_symbols_defined_refuted : exists an o s1 s2 st y rp,
  Compare_Model.compare an o "/o" [] s1 s2 = Ok (st, y) /\
  create_output "/" out_end out_heap (fun l => l) (fun l => l) "/o" "/n" (Compare_Model.c_result st) = Ok rp /\
  (exists c r, In (Compare_Model.Compared c r) (Compare_Model.c_trace st) /\ r_graph r = Some out_graph) /\
  map yr_function (rp_results rp) = ["f"%string] /\ known out_graph out_heap "f" (out_heap 0) /\ rp_definitions rp = [].
Proof.
  exists (fun _ _ => Ok out_f), (Compare_Model.mkCopts None false None), out_s1, out_s1.
  do 3 eexists. split; [vm_compute; reflexivity|]. split; [vm_compute; reflexivity|].
  split; [do 2 eexists; split; [left; reflexivity|reflexivity]|]. split; [reflexivity|]. split; [exists 0; split; reflexivity|reflexivity].
Qed.
Print Assumptions C72_symbols_defined_refuted.

Lemma last_compared_snoc {G} g0 (l : list (Compare_Model.entry G)) x : Compare_Spec.last_compared g0 (l ++ [x]) =
  match x with Compare_Model.Compared c r => if opt_eqb (Compare_Model.ca_group c) g0 then Some r else Compare_Spec.last_compared g0 l
             | _ => Compare_Spec.last_compared g0 l end.
Proof.
  induction l as [|a l IHl]; cbn [app Compare_Spec.last_compared].
  - destruct x as [| |c r]; reflexivity.
  - rewrite IHl. destruct x as [| |c r]; try reflexivity. destruct (opt_eqb (Compare_Model.ca_group c) g0); reflexivity.
Qed.
(** With all functions in one group and a module for every function, everything any comparison
    knew is known to the report, provided each comparison keeps what its predecessor knew. *)
Theorem C72_known_symbols_kept : forall (an : Compare_Model.analysis graph) o od dirs s1 s2 st y g0,
  Compare_Spec.dict_like s1 -> Compare_Model.compare an o od dirs s1 s2 = Ok (st, y) ->
  (forall e, In e (Compare_Model.c_trace st) -> match e with
     | Compare_Model.Compared c _ => Compare_Model.ca_group c = g0 | Compare_Model.NoModule _ _ => False | _ => True end) ->
  (forall calls c r, an calls c = Ok r -> exists g, r_graph r = Some g /\
     forall p n, Compare_Model.ca_prev c = Some p -> dget (g_verts p) n <> None -> dget (g_verts g) n <> None) ->
  forall c r g n, In (Compare_Model.Compared c r) (Compare_Model.c_trace st) -> r_graph r = Some g -> dget (g_verts g) n <> None ->
  exists gf, r_graph (Compare_Model.c_result st) = Some gf /\ dget (g_verts gf) n <> None.
Proof.
  intros an o od dirs s1 s2 st y g0 W E AG KE.
  pose proof (Compare_Props.C27_overall_result graph an o od dirs s1 s2 st y W E) as R. apply add_inners_graph in R.
  pose proof (Compare_Props.C27_graph_handed_on_within_group graph an o od dirs s1 s2 st y W E) as H.
  set (t := Compare_Model.c_trace st) in *. clearbody t.
  assert (LG : forall t1 t2, t = t1 ++ t2 ->
    (forall c r g n, In (Compare_Model.Compared c r) t1 -> r_graph r = Some g -> dget (g_verts g) n <> None ->
      exists gf, Compare_Spec.last_graph g0 t1 = Some gf /\ dget (g_verts gf) n <> None)).
  { induction t1 as [|e t1 IH] using rev_ind; intros t2 T; [intros ? ? ? ? []|].
    rewrite <- app_assoc in T. specialize (IH _ T). intros c r g n I G D.
    assert (Ie : In e t) by (rewrite T; apply in_or_app; right; left; reflexivity).
    unfold Compare_Spec.last_graph. rewrite last_compared_snoc. destruct e as [a b|a b|c2 r2].
    - apply (IH c r g n); [|exact G|exact D]. apply in_app_iff in I as [I|[I|[]]]; [exact I|discriminate].
    - destruct (AG _ Ie).
    - pose proof (AG _ Ie) as AG2. cbn in AG2.
      assert (OE : opt_eqb (Compare_Model.ca_group c2) g0 = true).
      { rewrite AG2. destruct g0; cbn; [apply String.eqb_refl|reflexivity]. }
      rewrite OE. destruct (H t1 c2 r2 t2 T) as (P & r0 & A & FI).
      destruct (KE _ _ _ A) as (g2 & G2 & K).
      assert (GG : r_graph r2 = Some g2).
      { clear - FI G2. unfold Compare_Model.filter_result in FI. destruct (Compare_Model.o_regex o); [|apply Ok_inj in FI; congruence].
        apply bind_Ok in FI as (hit & _ & FI). apply Ok_inj in FI. subst r2. destruct hit; exact G2. }
      exists g2. split; [exact GG|]. apply in_app_iff in I as [I|[I|[]]].
      + destruct (IH c r g n I G D) as (gf & LGf & D2). apply (K gf); [|exact D2]. rewrite P, AG2. exact LGf.
      + injection I as -> ->. congruence. }
  intros c r g n I G D. destruct (LG t [] (eq_sym (app_nil_r t)) c r g n I G D) as (gf & L & D2).
  exists gf. split; [|exact D2]. rewrite R, <- L. clear - AG L. unfold Compare_Spec.last_graph in *.
  induction t as [|e t IH] using rev_ind; [discriminate|].
  assert (Ie : In e (t ++ [e])) by (apply in_or_app; right; left; reflexivity). pose proof (AG e Ie) as AGe.
  rewrite flat_map_app, rev_app_distr. rewrite last_compared_snoc in *. destruct e as [a b|a b|c r].
  - cbn. apply IH; [|exact L]. intros e I. apply AG, in_or_app. left. exact I.
  - destruct AGe.
  - assert (OE : opt_eqb (Compare_Model.ca_group c) g0 = true).
    { rewrite AGe. destruct g0; cbn; [apply String.eqb_refl|reflexivity]. }
    rewrite OE. reflexivity.
Qed.
Print Assumptions C72_known_symbols_kept.
Example C72_example : exists st y,
  Compare_Model.compare (fun _ _ => Ok out_f) (Compare_Model.mkCopts None false None) "/o" [] out_s1 out_s1 = Ok (st, y) /\
  Compare_Spec.dict_like out_s1.
Proof.
  do 2 eexists. split; [vm_compute; reflexivity|]. split; [repeat constructor; intros []|].
  repeat constructor; [intros [X|[]]; discriminate|intros []].
Qed.

(** ** C73 Printed differences *)

(** A difference is printed exactly if the function is NOT_EQUAL, or (with --full-diff) some
    object has a text.  It goes to "<function>.diff" in the output directory or to the
    standard output, and consists of a heading and one block per listed difference, sorted by
    name, with its call stacks and its text. *)
Theorem C73_printed_exactly : forall cwd dir_old dir_new fn r tag output_dir show full indent o,
  print_syntax_diff cwd dir_old dir_new fn r tag output_dir show full indent = Ok o ->
  (o <> None <-> r_kind r = NOT_EQUAL \/
     (full = true /\ exists i d, In i (dvals (r_inner r)) /\ r_diff i = Some d /\ d <> ""%string)) /\
  forall dest text, o = Some (dest, text) ->
  (forall d, output_dir = Some d -> d <> ""%string -> dest = Some (path_join d (fn ++ ".diff"))) /\
  (output_dir = None \/ output_dir = Some ""%string -> dest = None) /\
  exists header blocks rs width, text = header :: concat blocks /\
    selection listed (dvals (r_inner r)) rs /\ StronglySorted name_le (map (fun x => en_name (r_first x)) rs) /\
    width = indent + (match dest with Some _ => 2 | None => 4 end) /\
    Forall2 (printed_block cwd dir_old dir_new width show) rs blocks.
Proof.
  intros cwd d1 d2 fn r tag od show full ind o E.
  assert (PR : is_printed full r = true <-> (r_kind r = NOT_EQUAL \/
     (full = true /\ exists i d, In i (dvals (r_inner r)) /\ r_diff i = Some d /\ d <> ""%string))).
  { unfold is_printed. rewrite orb_true_iff, andb_true_iff, existsb_exists.
    assert (K : kind_eqb (r_kind r) NOT_EQUAL = true <-> r_kind r = NOT_EQUAL) by (destruct (kind_eqb_spec (r_kind r) NOT_EQUAL); split; congruence).
    rewrite K. split; (intros [A|(A & B)]; [left; exact A|right; split; [exact A|]]).
    - destruct B as (i & I & H). unfold has_text in H. destruct (r_diff i) as [d|] eqn:D; [|discriminate].
      exists i, d. split; [exact I|]. split; [exact D|]. intros ->. discriminate.
    - destruct B as (i & d & I & D & N). exists i. split; [exact I|]. unfold has_text. rewrite D. apply String.eqb_neq in N. rewrite N. reflexivity. }
  destruct o as [[dest text]|].
  - apply print_cases in E as (P & DE & header & blocks & T & F). cbn [fst snd] in *. split; [split; [intros _; apply PR, P|discriminate]|].
    intros dest' text' X. injection X as <- <-. split; [|split].
    + intros d -> N. apply String.eqb_neq in N. rewrite N in DE. exact DE.
    + intros [-> | ->]; exact DE.
    + exists header, blocks, (filter (fun x => negb (unlisted x)) (by_name (dvals (r_inner r)))). eexists. split; [exact T|]. split.
      { eapply selection_perm; [symmetry; apply by_name_perm|]. apply filter_selection. }
      split.
      { clear F. pose proof (by_name_sorted (dvals (r_inner r))) as S. induction (by_name (dvals (r_inner r))) as [|x l IH]; cbn; [constructor|].
        cbn in S. inversion S as [|? ? Sl Fo]; subst. destruct (negb (unlisted x)); [|auto]. cbn. constructor; [auto|].
        apply Forall_forall. intros y I. apply in_map_iff in I as (z & <- & I). apply filter_In in I as [I _].
        rewrite Forall_forall in Fo. apply Fo. apply in_map_iff. eauto. }
      split; [reflexivity|]. rewrite DE. destruct od as [d|]; [destruct (String.eqb d "")|]; exact F.
  - split; [|discriminate]. split; [congruence|]. intros X. apply PR in X. exfalso. unfold print_syntax_diff in E. rewrite X in E. cbn [negb] in E.
    destruct (match od with Some d => if String.eqb d "" then None else Some d | None => None end); apply bind_Ok in E as (bs & _ & E); discriminate.
Qed.
Print Assumptions C73_printed_exactly.

(** Printing fails exactly if texts are to be shown and a listed difference has none. *)
Theorem C73_succeeds_iff : forall cwd dir_old dir_new fn r tag output_dir show full indent,
  (exists o, print_syntax_diff cwd dir_old dir_new fn r tag output_dir show full indent = Ok o) <->
  (is_printed full r = true -> show = true -> forall i, In i (dvals (r_inner r)) -> listed i -> r_diff i <> None).
Proof.
  intros cwd d1 d2 fn r tag od show full ind. unfold print_syntax_diff. destruct (is_printed full r) eqn:P; cbn [negb].
  2:{ split; [intros _ X; discriminate|eauto]. }
  assert (MR : forall tf w, (exists bs, map_res (print_called cwd d1 d2 tf show w) (by_name (dvals (r_inner r))) = Ok bs) <->
    (show = true -> forall i, In i (dvals (r_inner r)) -> listed i -> r_diff i <> None)).
  { intros tf w. rewrite map_res_total, Forall_forall. split.
    - intros F S i I L. apply (Permutation_in i (by_name_perm _)) in I. apply F in I. exact (proj1 (print_called_total _ _ _ _ _ _ _) I L S).
    - intros F i I. apply print_called_total. intros L S. apply F; auto. apply (Permutation_in i (Permutation_sym (by_name_perm _)) I). }
  split.
  - intros (o & E) _. destruct (match od with Some d => if String.eqb d "" then None else Some d | None => None end) as [d|];
      apply bind_Ok in E as (bs & B & _); apply (proj1 (MR _ _) (ex_intro _ bs B)).
  - intros H. specialize (H eq_refl). destruct (match od with Some d => if String.eqb d "" then None else Some d | None => None end) as [d|].
    + destruct (proj2 (MR true (ind + 2)) H) as [bs B]. rewrite B. cbn [bind]. eauto.
    + destruct (proj2 (MR false (ind + 4)) H) as [bs B]. rewrite B. cbn [bind]. eauto.
Qed.
Print Assumptions C73_succeeds_iff.

(** What is printed for a NOT_EQUAL function and what the report lists for it are the same
    differences in the same order. *)
Theorem C73_same_as_report : forall cwd dir_old dir_new fn r tag output_dir show full indent dest text
    cwd2 end_line h order_funs order_types all rp,
  print_syntax_diff cwd dir_old dir_new fn r tag output_dir show full indent = Ok (Some (dest, text)) ->
  create_output cwd2 end_line h order_funs order_types dir_old dir_new all = Ok rp ->
  In (fn, r) (r_inner all) -> r_kind r = NOT_EQUAL ->
  exists y header blocks rs width, In y (rp_results rp) /\ yr_function y = fn /\ text = header :: concat blocks /\
    Forall2 (printed_block cwd dir_old dir_new width show) rs blocks /\
    map (fun x => en_name (r_first x)) rs = map yd_function (yr_diffs y).
Proof.
  intros cwd d1 d2 fn r tag od show full ind dest text cwd2 el h of ot all rp P E I K.
  apply print_cases in P as (_ & _ & header & blocks & T & F). cbn [snd] in T.
  apply create_output_results in E as (rs & R & E1 & _). apply (create_results_fold cwd2 el) in R as (R & _ & _). cbn [fst app] in R.
  exists (entry d1 d2 (fn, r)), header, blocks. do 2 eexists. split; [|split; [reflexivity|split; [exact T|split; [exact F|]]]].
  - rewrite E1, R. apply in_map, filter_In. split; [exact I|]. cbn. rewrite K. reflexivity.
  - unfold entry. cbn [yr_diffs snd]. rewrite map_map. reflexivity.
Qed.
Print Assumptions C73_same_as_report.

Lemma last_named_In {A} (f : A -> string) n l x : last_named f n l = Some x -> In x l.
Proof.
  induction l as [|y l IH]; cbn; [discriminate|]. destruct (last_named f n l); [intros X; right; auto|].
  destruct (String.eqb _ _); [|discriminate]. intros X. injection X as ->. left. reflexivity.
Qed.

(** Results of the comparison always have the texts that are printed: without a semantic
    checker for a NOT_EQUAL function (SimpLL gives every function a verdict), and with
    --full-diff for every function whose comparison did not fail. *)
Theorem C73_texts_available : forall w cwd dir cfg f1 f2 st st' r,
  any_order w -> ends w cwd dir cfg f1 f2 st st' (Ok r) -> r_kind r <> ERROR ->
  (full_diff cfg = true \/
   (semdiff_tool cfg = false /\ r_kind r = NOT_EQUAL /\
    forall g p, r_graph r = Some g -> object_list w (s_heap st') g f1 f2 false p -> forall o, In o (p_objects p) -> o_kind o <> NONE)) ->
  forall cwd2 dir_old dir_new fn tag output_dir indent,
  exists o, print_syntax_diff cwd2 dir_old dir_new fn r tag output_dir true (full_diff cfg) indent = Ok o.
Proof.
  intros w cwd dir cfg f1 f2 st st' r PO H NE C cwd2 d1 d2 fn tag od ind. apply C73_succeeds_iff. intros _ _ i I _.
  destruct (fd_cases w cwd dir cfg f1 f2 st st' (Ok r) PO H) as (st1 & lo & T & D).
  destruct lo as [reused|e].
  2:{ exfalso. symmetry in D. apply finish_err in D. destruct D as (-> & [(r' & E & CA & K & _)|(E & _)]); [|discriminate].
      injection E as <-. contradiction. }
  destruct D as (g & G & [(e & _ & _ & _ & E)|(p & P & E)]); [discriminate|]. unfold conclude in E.
  destruct (p_objects p) as [|ob os] eqn:EO.
  { rewrite finish_ok in E. injection E as -> ->. destruct I. }
  destruct (process_objects _ _ _ _ _ _ _) as [[st3 r3] oo] eqn:PR.
  destruct (process_spec w cwd dir _ _ _ _ _ _ _ _ _ PR) as ((FR & _) & O).
  destruct oo as [u|e].
  2:{ exfalso. symmetry in E. apply finish_err in E. destruct E as (-> & [(r' & E & CA & K & _)|(E & _)]); [|discriminate].
      injection E as <-. contradiction. }
  rewrite finish_ok in E. injection E as -> ->. destruct O as (kds & F & A).
  assert (HH : s_heap st3 = s_heap st1) by (destruct FR as (FR & _); exact FR).
  assert (HC : s_curr st3 = Some g) by (destruct FR as (_ & _ & _ & FR); rewrite FR; exact G).
  cbn [with_graph r_inner r_graph r_kind] in I, C. apply in_map_iff in I as ([n x] & <- & I). cbn [snd].
  pose proof (add_inners_inner_NoDup _ _ _ A (NoDup_nil _)) as ND.
  apply dget_In_NoDup in I; [|exact ND]. rewrite (add_inners_get _ _ _ n A) in I. cbn [r_inner new_result dget] in I.
  match type of I with match ?m with _ => _ end = _ => destruct m as [z|] eqn:LN end; [|discriminate]. injection I as ->.
  apply last_named_In in LN. pose proof (in_map r_kind _ _ LN) as LK.
  apply in_map_iff in LN as ([ob2 [k d]] & <- & J). apply filter_In in J as [J _].
  assert (JU : judged cfg ob2 (k, d) /\ In ob2 (ob :: os)).
  { clear - F J. induction F as [|a b l l' Ja F IH]; [destruct J|]. cbn in J. destruct J as [X|J]; [|destruct (IH J); cbn; auto].
    injection X as -> ->. cbn. auto. }
  destruct JU as ((J1 & J2 & _) & IO). cbn in J1, J2, LK |- *. intros ->. destruct (J2 eq_refl) as [NK FD].
  destruct C as [C|(SD & RK & NN)]; [congruence|]. unfold objects_from in P. rewrite FD in P.
  rewrite HC, HH in NN. specialize (NN g p eq_refl P ob2). rewrite EO in NN. specialize (NN IO).
  destruct (pair_list_kinds w _ _ _ _ p PO P ob2) as [P1 P2]; [rewrite EO; exact IO|].
  rewrite J1 in NK, LK by auto. destruct (add_inners_kind _ _ _ A) as (U & _).
  specialize (U _ (or_intror LK)). rewrite RK in U. clear - U NK NN P1 P2. apply at_most_int in U. destruct (o_kind ob2); cbn in U; try congruence; lia.
Qed.
Print Assumptions C73_texts_available.

Definition out_heap2 : heap := heap_of
  [ ex_fun "f" EQUAL "/o/a.c" [] [ex_call "g" STRONG]; ex_fun "g" NOT_EQUAL "/o/g.h" [out_type] [] ].
(** With a semantic checker an object judged EQUAL is stored without a text, and printing the
    differences of its function ends with AttributeError. *)
Theorem C73_texts_available_with_checker_refuted : exists w st st' r,
  any_order w /\ ends w "/" "/" (mkDConfig false true) "f" "f" st st' (Ok r) /\ r_kind r = NOT_EQUAL /\
  print_syntax_diff "/" "/o" "/n" "f" r None None true false 0 = Err AttributeError.
Proof.
  exists (mkWorld (fun lg h l r => Ok (out_heap2, out_graph, [])) (fun lg s x => None) (fun lg s m => Module_Model.LinkOk true) (fun m => "g.ll"%string)
    (fun lg o => Ok "text"%string) (fun lg o => Ok EQUAL) (fun l => l)),
    (mkDst [] out_heap2 [] (Module_Model.new_mod "a.ll"%string) (Module_Model.new_mod "b.ll"%string) None None None).
  do 2 eexists. split; [intros l; apply Permutation_refl|].
  split; [exists 10; intros m L; do 10 (destruct m as [|m]; [lia|]); vm_compute; reflexivity|].
  split; vm_compute; reflexivity.
Qed.
Print Assumptions C73_texts_available_with_checker_refuted.
Example C73_example : exists text,
  print_syntax_diff "/" "/o" "/n" "f" out_f None (Some "out"%string) true false 0 = Ok (Some (Some "out/f.diff"%string, text)) /\
  String.concat "" text = (
    "Found differences in functions called by f" ++ lf ++ lf ++
    "g differs:" ++ lf ++ "  Diff:" ++ lf ++ "  @@" ++ lf ++
    "t differs:" ++ lf ++ "  Callstack (/o):" ++ lf ++ "  g at a.c:7" ++ lf ++ "  t (type) at g.c:9" ++ lf ++ lf ++
    "  Callstack (/n):" ++ lf ++ "  g at /o/a.c:7" ++ lf ++ "  t (type) at /o/g.c:9" ++ lf ++ lf ++
    "  Diff:" ++ lf ++ "  @@" ++ lf)%string.
Proof. eexists. split; [vm_compute; reflexivity|vm_compute; reflexivity]. Qed.

(** ** C74 Preparation of the viewer *)
Section View.
  Variables (dt : difftool) (f : fs) (copyable : string -> res unit).
  Variables source_directory diff_directory old_snapshot new_snapshot : string.
  Notation view := (view_definitions dt f copyable source_directory diff_directory old_snapshot new_snapshot).

  Lemma diff_of_Some d o : diff_of dt f old_snapshot new_snapshot d = Ok o ->
    forall t, o = Some t <-> (difference_between dt f old_snapshot new_snapshot d t /\ ~ blank t).
  Proof.
    unfold diff_of, difference_between. intros E t. split.
    - intros ->. destruct (yi_end (yf_old d)) as [e1|]; [|destruct (yi_line (yf_old d)); discriminate].
      destruct (yi_end (yf_new d)) as [e2|]; [|discriminate].
      destruct (yi_line (yf_old d)) as [l1|]; [|discriminate]. destruct (yi_line (yf_new d)) as [l2|]; [|discriminate].
      apply bind_Ok in E as (t' & T & E). destruct (isspace t' || String.eqb t' "") eqn:B; apply Ok_inj in E; [discriminate|]. injection E as ->.
      split; [exists l1, e1, l2, e2; auto 6|]. intros X. apply blank_iff in X. congruence.
    - intros ((l1 & e1 & l2 & e2 & L1 & E1 & L2 & E2 & T) & NB). rewrite L1, E1, L2, E2, T in E. cbn [bind] in E.
      destruct (isspace t || String.eqb t "") eqn:B; apply Ok_inj in E; [|congruence]. exfalso. apply NB, blank_iff, B.
  Qed.

  (** Every definition gets a flag; it is set, and the file diffs/<name>.diff holds the text,
      exactly if both definitions have an end line and their lines differ in a visible way. *)
  Theorem C74_difference_flags : forall defs st,
    NoDup (dkeys defs) -> Forall (fun n => has_char "/" n = false) (dkeys defs) ->
    view defs = Ok st -> forall n d, In (n, d) defs ->
    (exists b, dget (vs_flags st) n = Some b /\
       (b = true <-> exists t, difference_between dt f old_snapshot new_snapshot d t /\ ~ blank t)) /\
    (forall t, dget (vs_diffs st) (path_join diff_directory (n ++ ".diff")) = Some t <->
       (difference_between dt f old_snapshot new_snapshot d t /\ ~ blank t)).
  Proof.
    intros defs st N NS E n d I.
    destruct (view_fold dt f copyable source_directory diff_directory old_snapshot new_snapshot defs (mkVstate [] [] [] []) st E N NS)
      as (_ & _ & _ & _ & R); [reflexivity|].
    destruct (R n d I) as (o & O & F & D). pose proof (diff_of_Some d o O) as S. split.
    - eexists. split; [exact F|]. destruct o as [t|].
      + split; [|reflexivity]. intros _. exists t. apply S. reflexivity.
      + split; [discriminate|]. intros (t & T). apply S in T. discriminate.
    - intros t. fold (diff_file diff_directory n). rewrite D. apply S.
  Qed.

  (** Every old source file with a definition is copied exactly once, to its place below the
      source directory of the viewer. *)
  Theorem C74_sources_copied_once : forall cwd defs st,
    NoDup (dkeys defs) -> Forall (fun n => has_char "/" n = false) (dkeys defs) ->
    isabs source_directory = true -> view defs = Ok st ->
    exists files, NoDup files /\
      (forall p, In p files <-> exists n d, In (n, d) defs /\ yi_file (yf_old d) = p) /\
      Forall2 (fun p c => fst c = path_join old_snapshot p /\
        (names_file p -> abs_comps cwd (snd c) = abs_comps cwd (path_join source_directory p)) /\
        (stays_below p -> below cwd source_directory (snd c))) files (vs_copies st).
  Proof.
    intros cwd defs st N NS A E.
    destruct (view_fold dt f copyable source_directory diff_directory old_snapshot new_snapshot defs (mkVstate [] [] [] []) st E N NS)
      as (P & C & _); [reflexivity|]. cbn [vs_processed] in P. specialize (C eq_refl).
    exists (vs_processed st). split; [|split].
    - rewrite P. unfold set_update. assert (G : forall l acc, NoDup acc -> NoDup (fold_left (fun a (x : string) => set_add x a) l acc)).
      { induction l as [|x l IH]; intros acc Na; cbn; [exact Na|]. apply IH, set_add_NoDup, Na. }
      apply G. constructor.
    - intros p. rewrite P, set_update_In, in_map_iff. split.
      + intros [[]|([n d] & <- & I)]. eauto.
      + intros (n & d & I & <-). right. exists (n, d). auto.
    - rewrite C. clear - A. induction (vs_processed st) as [|p l IH]; cbn [map]; constructor; [|exact IH].
      split; [reflexivity|]. split; [intros NF; apply copy_place; assumption|].
      intros S. unfold below. rewrite (copy_place cwd source_directory old_snapshot p A (stays_below_file p S)), (join_below cwd source_directory p A S).
      destruct (split_char slash p) as [|c rest] eqn:EC; [apply split_char_nonempty in EC; destruct EC|]. eauto.
  Qed.
End View.
Print Assumptions C74_difference_flags.
Print Assumptions C74_sources_copied_once.

(** A source file inside the old snapshot is copied to a place inside the viewer's data. *)
Theorem C74_snapshot_sources_stay_inside : forall cwd end_line dir line f kind i,
  place cwd end_line line (Some f) dir kind i -> below cwd dir f -> stays_below (yi_file i).
Proof.
  intros cwd el dir line f kind i (_ & f' & F & R & _) B. injection F as <-. eapply relpath_below; eassumption.
Qed.
Print Assumptions C74_snapshot_sources_stay_inside.

(** A source file outside the snapshot is copied outside the viewer's data. *)
Definition out_view (file : string) :=
  view_definitions (fun _ _ _ => (0%Z, Ok ""%string)) (fun _ => Ok ""%string) (fun _ => Ok tt) "/v/src" "/v/diffs" "/o/snap" "/n/snap"
    [("f"%string, mkYdef "function" (mkYinfo (Some 1%Z) file (Some 2%Z) None) (mkYinfo (Some 1%Z) "a.c" None None))].
Theorem C74_copies_inside_refuted : exists file st src dst,
  relpath "/" "/usr/x.h" "/o/snap" = Ok file /\ out_view file = Ok st /\ vs_copies st = [(src, dst)] /\
  abs_comps "/" dst = ["usr"; "x.h"]%string /\ ~ below "/" "/v/src" dst.
Proof.
  do 4 eexists. split; [vm_compute; reflexivity|]. split; [vm_compute; reflexivity|]. split; [reflexivity|].
  split; [vm_compute; reflexivity|]. intros (c & rest & X). vm_compute in X. discriminate.
Qed.
Print Assumptions C74_copies_inside_refuted.
Example C74_example : exists st, out_view "dir/a.c" = Ok st /\ vs_copies st = [("/o/snap/dir/a.c", "/v/src/dir/a.c")]%string /\
  vs_flags st = [("f"%string, false)] /\ stays_below "dir/a.c".
Proof. eexists. split; [vm_compute; reflexivity|]. split; [reflexivity|]. split; [reflexivity|]. split; [discriminate|]. repeat constructor; discriminate. Qed.

(** Two definitions in one file, one of them with a difference. *)
Definition out_lines : string := ("a" ++ lf ++ "b" ++ lf ++ "c" ++ lf)%string.
Definition out_diff : string := ("--- x" ++ lf ++ "+++ y" ++ lf ++ "@@ -1 +1 @@" ++ lf ++ "-a" ++ lf ++ "+b" ++ lf)%string.
Example C74_difference_example : exists st t,
  view_definitions (fun _ _ _ => (1%Z, Ok out_diff)) (fun _ => Ok out_lines) (fun _ => Ok tt) "/v/src" "/v/diffs" "/o/snap" "/n/snap"
    [("f"%string, mkYdef "function" (mkYinfo (Some 2%Z) "a.c" (Some 3%Z) None) (mkYinfo (Some 1%Z) "a.c" (Some 2%Z) None));
     ("g"%string, mkYdef "function" (mkYinfo (Some 1%Z) "a.c" None None) (mkYinfo (Some 1%Z) "b.c" None None))] = Ok st /\
  vs_copies st = [("/o/snap/a.c", "/v/src/a.c")]%string /\ vs_flags st = [("f"%string, true); ("g"%string, false)] /\
  vs_diffs st = [("/v/diffs/f.diff"%string, t)] /\ ~ blank t.
Proof.
  do 2 eexists. split; [vm_compute; reflexivity|]. split; [reflexivity|]. split; [reflexivity|]. split; [reflexivity|].
  vm_compute. discriminate.
Qed.

(** ** C48 The viewer's index *)

(** In a report without repeated functions every list of the viewer has exactly the functions
    it should have, each once, in the viewer's order; the difference shown for a pair is the
    one in the report. *)
Theorem C48_lists : forall leb ys, total_order leb -> distinct_report ys ->
  let ix := make_index leb ys in
  (Permutation (comp_funs ix) (map yr_function ys) /\ StronglySorted (fun a b => leb a b = true) (comp_funs ix)) /\
  (NoDup (diff_funs ix) /\ StronglySorted (fun a b => leb a b = true) (diff_funs ix) /\
   forall f, In f (diff_funs ix) <-> exists c d, lists_diff ys c f d) /\
  (forall c l, diff_funs_of ix c = Ok l -> NoDup l /\ StronglySorted (fun a b => leb a b = true) l /\
     forall f, In f l <-> exists d, lists_diff ys c f d) /\
  (forall c, (exists l, diff_funs_of ix c = Ok l) <-> In c (comp_funs ix)) /\
  (forall f l, comp_funs_of ix f = Some l -> NoDup l /\ StronglySorted (fun a b => leb a b = true) l /\
     forall c, In c l <-> exists d, lists_diff ys c f d) /\
  (forall f, (exists l, comp_funs_of ix f = Some l) <-> In f (diff_funs ix)) /\
  (forall c f d, get_diff ix c f = Ok (Some d) <-> lists_diff ys c f d).
Proof.
  intros leb ys T D ix. unfold ix. split; [|split; [|split; [|split; [|split; [|split]]]]].
  - rewrite (comp_funs_eq leb ys D). split; [apply Permutation_map, sort_by_perm|apply sorted_names, sort_by_sorted, T].
  - split; [apply ix_diff_NoDup, D|]. split; [apply diff_funs_sorted, T|]. intros f. apply diff_funs_In, D.
  - intros c l E. apply (diff_funs_of_Ok leb ys D) in E as (y & I & N & ->). split; [|split].
    + destruct D as (_ & Dy). rewrite Forall_forall in Dy. eapply Permutation_NoDup; [|exact (Dy y I)].
      symmetry. apply Permutation_map, sort_by_perm.
    + apply sorted_names, sort_by_sorted, T.
    + intros f. rewrite in_map_iff. split.
      * intros (d & F & J). rewrite sort_by_perm in J. exists d, y. auto.
      * intros (d & y' & I' & N' & J & F). exists d. split; [exact F|]. rewrite sort_by_perm.
        assert (y' = y); [|subst; exact J]. destruct D as (Dn & _). clear - Dn I I' N N'. subst c.
        induction ys as [|z l IH]; [destruct I|]. cbn in Dn. inversion Dn as [|? ? Nz Nl]; subst.
        destruct I as [->|I], I' as [->|I']; auto; exfalso; apply Nz; [rewrite <- N'; apply in_map, I'|rewrite N'; apply in_map, I].
  - intros c. rewrite (ix_comp_In leb ys D). split.
    + intros (l & E). apply (diff_funs_of_Ok leb ys D) in E as (y & I & N & _). eauto.
    + intros (y & I & N). eexists. apply (diff_funs_of_Ok leb ys D). exists y. eauto.
  - intros f l E. apply (comp_funs_of_spec leb ys D) in E as (-> & _).
    split; [apply having_NoDup, D|]. split; [apply having_sorted, T|]. intros c. apply having_In.
  - intros f. rewrite (diff_funs_In leb ys D). split.
    + intros (l & E). apply (comp_funs_of_spec leb ys D) in E as (_ & E). exact E.
    + intros L. eexists. apply (comp_funs_of_spec leb ys D). split; [reflexivity|exact L].
  - intros c f d. apply get_diff_Ok, D.
Qed.
Print Assumptions C48_lists.

(** The two views agree: [f] is among the differing functions of [c] iff [c] is among the
    compared functions of [f]; this needs nothing of the order. *)
Theorem C48_views_agree : forall leb ys, distinct_report ys ->
  forall c f, (exists l, diff_funs_of (make_index leb ys) c = Ok l /\ In f l) <->
              (exists l, comp_funs_of (make_index leb ys) f = Some l /\ In c l).
Proof.
  intros leb ys D c f. split.
  - intros (l & E & I). apply (diff_funs_of_Ok leb ys D) in E as (y & Iy & N & ->).
    apply in_map_iff in I as (d & F & J). rewrite sort_by_perm in J.
    assert (L : lists_diff ys c f d) by (exists y; auto).
    eexists. split; [apply (comp_funs_of_spec leb ys D); split; [reflexivity|eauto]|]. apply having_In. eauto.
  - intros (l & E & I). apply (comp_funs_of_spec leb ys D) in E as (-> & _). apply having_In in I as (d & y & Iy & N & J & F).
    eexists. split; [apply (diff_funs_of_Ok leb ys D); exists y; eauto|]. apply in_map_iff. exists d. rewrite sort_by_perm. auto.
Qed.
Print Assumptions C48_views_agree.

(** Navigation in a list without repetitions: "next" and "previous" are inverse to each other,
    "next" is the following element, and there is no next (previous) element exactly at the
    end (start) of the list. *)
Theorem C48_navigation : forall l x, NoDup l -> In x l ->
  (forall y, next_in l x = Some y <-> exists a b, l = a ++ x :: y :: b) /\
  (forall y, In y l -> (next_in l x = Some y <-> prev_in l y = Some x)) /\
  (is_last_in l x = true <-> next_in l x = None) /\
  (is_first_in l x = true <-> prev_in l x = None).
Proof.
  intros l x N I. split; [|split; [|split]].
  - intros y. apply next_in_iff; assumption.
  - intros y _. rewrite next_in_iff by assumption. rewrite prev_in_iff by assumption. reflexivity.
  - apply is_last_iff; assumption.
  - apply is_first_iff; assumption.
Qed.
Print Assumptions C48_navigation.

(** A name that is not in the list has the first element as its next one. *)
Theorem C48_next_of_unknown_name : forall x y l, ~ In x (y :: l) -> next_in (y :: l) x = Some y /\ prev_in (y :: l) x = None.
Proof. intros x y l N. apply index_of_None in N. unfold next_in, prev_in. rewrite N. auto. Qed.
Print Assumptions C48_next_of_unknown_name.

(** The reports made from results stored under their names have no repetitions, and adding
    results one by one stores them so. *)
Theorem C48_reports_are_distinct : forall cwd end_line h order_funs order_types old_dir new_dir r rp,
  named_by_function (r_inner r) -> (forall n x, In (n, x) (r_inner r) -> named_by_function (r_inner x)) ->
  create_output cwd end_line h order_funs order_types old_dir new_dir r = Ok rp -> distinct_report (rp_results rp).
Proof.
  intros cwd el h of ot od nd r rp (N & NM) IN E. apply create_output_results in E as (rs & R & -> & _).
  apply (create_results_fold cwd el) in R as (R & _ & _). cbn [fst app] in R. rewrite R. split.
  - rewrite map_map. cbn. clear - N. unfold dkeys in N. induction (r_inner r) as [|[n x] l IH]; cbn; [constructor|].
    cbn in N. inversion N as [|? ? Nn Nl]; subst. destruct (kind_eqb (r_kind x) NOT_EQUAL); [|auto]. cbn. constructor; [|auto].
    intros I. apply Nn. apply in_map_iff in I as (z & E & I). apply filter_In in I as [I _]. rewrite <- E. apply in_map, I.
  - apply Forall_forall. intros y I. apply in_map_iff in I as ([n x] & <- & I). apply filter_In in I as [I _].
    destruct (IN n x I) as (Nx & NMx). unfold entry. cbn [yr_diffs snd]. rewrite map_map. cbn.
    assert (S : NoDup (map (fun x => en_name (r_first x)) (by_name (dvals (r_inner x))))).
    { eapply Permutation_NoDup; [apply Permutation_map, by_name_perm|]. unfold dvals. rewrite map_map.
      replace (map (fun p => en_name (r_first (snd p))) (r_inner x)) with (dkeys (r_inner x)); [exact Nx|].
      unfold dkeys. apply map_ext_in. intros [m z] J. symmetry. apply NMx, J. }
    clear - S. induction (by_name (dvals (r_inner x))) as [|z l IH]; cbn; [constructor|].
    cbn in S. inversion S as [|? ? Nz Nl]; subst. destruct (negb (unlisted z)); [|auto]. cbn. constructor; [|auto].
    intros I. apply Nz. apply in_map_iff in I as (w & E & I). apply filter_In in I as [I _]. rewrite <- E. apply (in_map (fun x => en_name (r_first x))), I.
Qed.
Print Assumptions C48_reports_are_distinct.
Theorem C48_stored_by_name : forall (o : result graph) is r,
  named_by_function (r_inner o) -> add_inners o is = Ok r -> named_by_function (r_inner r).
Proof.
  intros o is. revert o. induction is as [|i is IH]; intros o r N E.
  - apply Ok_inj in E. subst r. exact N.
  - rewrite add_inners_cons in E. destruct (add_inner o i) as [o'|] eqn:A; [|discriminate]. apply (IH o'); [|exact E].
    unfold add_inner in A. destruct (kind_of_int _); [|discriminate]. apply Ok_inj in A. subst o'. cbn. destruct N as (N & M). split.
    + apply dset_NoDup, N.
    + intros n x I. apply dset_In in I as [X|I]; [injection X as -> ->; reflexivity|apply M, I].
Qed.
Print Assumptions C48_stored_by_name.

(** A report that repeats a compared function (not made by DiffKemp, see above) breaks the
    agreement of the views. *)
Theorem C48_views_agree_with_repetition_refuted : exists leb ys c f, total_order leb /\
  (exists l, comp_funs_of (make_index leb ys) f = Some l /\ In c l) /\
  ~ (exists l, diff_funs_of (make_index leb ys) c = Ok l /\ In f l).
Proof.
  exists String.leb, [mkYresult "c" [mkYdiff "f" [] []]; mkYresult "c" [mkYdiff "g" [] []]], "c"%string, "f"%string.
  split; [|split].
  - split; [intros a b; destruct (String.leb a b) eqn:L; [auto|right; apply name_le_total, L]|].
    intros a b c. apply name_le_trans.
  - eexists. split; [vm_compute; reflexivity|]. left. reflexivity.
  - intros (l & E & I). vm_compute in E. apply Ok_inj in E. subst l. destruct I as [I|[]]; discriminate.
Qed.
Print Assumptions C48_views_agree_with_repetition_refuted.
Example C48_example :
  let ys := [mkYresult "b" [mkYdiff "y" [] []; mkYdiff "x" [] []]; mkYresult "a" [mkYdiff "y" [] []]] in
  let ix := make_index String.leb ys in
  distinct_report ys /\ comp_funs ix = ["a"; "b"]%string /\ diff_funs ix = ["x"; "y"]%string /\
  comp_funs_of ix "y" = Some ["a"; "b"]%string /\ diff_funs_of ix "b" = Ok ["x"; "y"]%string /\
  next_in (comp_funs ix) "a" = Some "b"%string /\ prev_in (comp_funs ix) "b" = Some "a"%string.
Proof.
  cbv zeta. split; [|vm_compute; repeat split].
  split; cbn; repeat constructor; cbn; try tauto; intros [X|X]; try discriminate; destruct X.
Qed.
