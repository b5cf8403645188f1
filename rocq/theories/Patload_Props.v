(** * Property C162: the custom patterns that were accepted are those that are used
    (diffkemp/semdiff/custom_pattern_config.py, diffkemp/simpll/CustomPatternSet.cpp). *)
From Coq Require Import String Ascii ZArith Arith Bool Lia List.
From Verif Require Import PyBase Config_Model Config_Proofs Patload_Model.
Import ListNotations.
Open Scope list_scope.

(** The path ends with ".ll", in letters of any size. *)
Definition ends_ll (p : string) : Prop := exists q, p = (q ++ ".ll")%string.
Definition ends_any_ll (p : string) : Prop := exists q e, In e [".ll"; ".Ll"; ".lL"; ".LL"]%string /\ p = (q ++ e)%string.
(** What opt accepts is parsed. *)
Definition parsed_if_valid (x : pfiles) : Prop := forall f, p_valid x f = true -> p_parses x f = true.

Lemma rsplit_app c a b : has_char c b = false -> rsplit c (a ++ String c b) = Some (a, b).
Proof.
  intros N. assert (B : rsplit c b = None).
  { pose proof (rsplit_spec c b) as R. destruct (rsplit c b) as [[u v]|]; [|reflexivity]. destruct R as [-> _].
    rewrite has_char_app in N. cbn in N. rewrite Ascii.eqb_refl, orb_true_r in N. discriminate. }
  induction a as [|d a IH]; cbn [append rsplit]; [rewrite B, Ascii.eqb_refl; reflexivity | rewrite IH; reflexivity].
Qed.

Lemma llvm_ll p : llvm_extension p = ".ll"%string <-> ends_ll p.
Proof.
  split.
  - unfold llvm_extension. intros H.
    assert (K : forall f, match rsplit "." f with None => EmptyString | Some (_, e) => if String.eqb f "." || String.eqb f ".." then EmptyString else ("." ++ e)%string end = ".ll"%string ->
                exists q, f = (q ++ ".ll")%string).
    { intros f E. pose proof (rsplit_spec "." f) as R. destruct (rsplit "." f) as [[b e]|]; [|discriminate].
      destruct (String.eqb f "." || String.eqb f ".."); [discriminate|]. injection E as ->. destruct R as [-> _]. exists b; reflexivity. }
    apply K in H. pose proof (rsplit_spec "/" p) as R. destruct (rsplit "/" p) as [[a b]|]; [|exact H].
    destruct R as [-> _]. destruct H as [q ->]. exists (a ++ String "/" q)%string. rewrite app_assoc_s. reflexivity.
  - intros [q ->]. unfold llvm_extension.
    assert (F : exists r, match rsplit "/" (q ++ ".ll") with Some (_, x) => x | None => (q ++ ".ll")%string end = (r ++ ".ll")%string).
    { pose proof (rsplit_spec "/" q) as R. destruct (rsplit "/" q) as [[a b]|].
      - destruct R as [-> N]. exists b. rewrite app_assoc_s. change (String "/" b ++ ".ll")%string with (String "/" (b ++ ".ll")).
        rewrite rsplit_app; [reflexivity|]. rewrite has_char_app, N; reflexivity.
      - exists q. pose proof (rsplit_spec "/" (q ++ ".ll")) as R2. destruct (rsplit "/" (q ++ ".ll")) as [[a b]|]; [|reflexivity].
        destruct R2 as [E _]. assert (C : has_char "/" (q ++ ".ll") = true) by (rewrite E, has_char_app; cbn; rewrite orb_true_r; reflexivity).
        rewrite has_char_app, R in C; discriminate C. }
    destruct F as [r ->]. change (r ++ ".ll")%string with (r ++ String "." "ll")%string. rewrite rsplit_app by reflexivity.
    assert (L : forall s : string, (String.length s < 3)%nat -> String.eqb (r ++ String "." "ll") s = false).
    { intros s Hs. apply String.eqb_neq. intros E. apply (f_equal String.length) in E. rewrite length_app_s in E. simpl in E. lia. }
    rewrite !L by (simpl; lia). reflexivity.
Qed.

Lemma lower_l c : lower_char c = "l"%char -> c = "l"%char \/ c = "L"%char.
Proof.
  intros H. destruct (Ascii.eqb_spec c "l"); [auto|]. destruct (Ascii.eqb_spec c "L"); [auto|]. exfalso.
  destruct c as [[] [] [] [] [] [] [] []]; try discriminate H; congruence.
Qed.
Lemma python_ll p : get_extension p = "ll"%string -> ends_any_ll p.
Proof.
  unfold get_extension. pose proof (splitext_app p) as A. destruct (splitext p) as [q e] eqn:E; cbn [fst snd] in *. intros H.
  destruct e as [|d e]; [discriminate|]. cbn [lower drop] in H.
  assert (D : d = "."%char).
  { unfold splitext in E. destruct (rsplit "." p) as [[b r]|]; [|discriminate E]. destruct (has_char "/" r); [discriminate E|].
    destruct (all_dots _); [discriminate E|]. injection E as _ <- _. reflexivity. }
  destruct e as [|a [|b [|c e]]]; try discriminate H. cbn [lower] in H. injection H as Ha Hb.
  exists q, (String d (String a (String b EmptyString))). split; [|symmetry; exact A]. subst d.
  destruct (lower_l a Ha) as [-> | ->], (lower_l b Hb) as [-> | ->]; simpl; auto 6.
Qed.
Lemma ends_ll_python q : contains "ll" (get_extension (q ++ ".ll")) = true.
Proof.
  unfold get_extension, splitext. change (q ++ ".ll")%string with (q ++ String "." "ll")%string. rewrite rsplit_app by reflexivity. cbn [has_char].
  replace (has_char "/" "ll") with false by reflexivity. destruct (all_dots _); reflexivity.
Qed.

Lemma load_all x l : (forall f, In f l -> p_parses x f = true) -> flat_map (load_file x) l = l.
Proof.
  induction l as [|f l IH]; intros H; [reflexivity|]. cbn [flat_map]. unfold load_file at 1. rewrite (H f (or_introl eq_refl)). cbn [app]. f_equal. apply IH; intros g I; apply H; right; exact I.
Qed.
Lemma load_some x l f : In f (flat_map (load_file x) l) <-> In f l /\ p_parses x f = true.
Proof.
  rewrite in_flat_map. unfold load_file. split.
  - intros (g & I & H). destruct (p_parses x g) eqn:P; [destruct H as [<- | []]; auto | destruct H].
  - intros [I P]. exists f. split; [exact I|]. rewrite P; left; reflexivity.
Qed.

(** In mode ERROR, what was added is valid. *)
Lemma added_valid x l : forall c c', pc_on_failure c = "ERROR"%string -> fold_res (add_pattern (python_files x) None) c l = Ok c' ->
  forall f, In f l -> p_valid x f = true.
Proof.
  induction l as [|p l IH]; intros c c' E H f I; [destruct I|]. cbn [fold_res] in H.
  destruct (add_pattern (python_files x) None c p) as [c1|] eqn:A; [|discriminate].
  unfold add_pattern, on_parse_failure in A. cbn [pattern_path truthy] in A. rewrite E in A. cbn [String.eqb] in A.
  change (f_readable (python_files x)) with (p_readable x) in A. change (f_valid (python_files x)) with (p_valid x) in A.
  destruct (p_readable x p); cbn [negb] in A; [|discriminate].
  destruct (String.eqb (get_extension p) "ll"); [|discriminate A]. destruct (p_valid x p) eqn:V; cbn [bind] in A; [|discriminate A].
  injection A as A. destruct I as [<- | I]; [exact V|]. apply (IH c1 c'); [subst c1; exact E | exact H | exact I].
Qed.

Lemma pattern_accepted x path c : create_from_file (python_files x) path None = Ok c -> contains "ll" (get_extension path) = true ->
  get_extension path = "ll"%string /\ p_valid x path = true /\ p_readable x path = true /\ pc_files c = [path].
Proof.
  unfold create_from_file. change (f_readable (python_files x)) with (p_readable x). destruct (p_readable x path) eqn:R; cbn [negb]; [|discriminate].
  intros H C. rewrite C in H. cbn [negb] in H. unfold add_pattern, on_parse_failure in H. cbn [pattern_path truthy pc_on_failure] in H.
  change (f_readable (python_files x)) with (p_readable x) in H. change (f_valid (python_files x)) with (p_valid x) in H. rewrite R in H. cbn [negb] in H.
  destruct (String.eqb_spec (get_extension path) "ll") as [E|E]; [|discriminate H]. destruct (p_valid x path) eqn:V; [|discriminate H].
  cbn [bind] in H. injection H as H. subst c. auto.
Qed.

Lemma config_accepted x path c d : create_from_file (python_files x) path None = Ok c -> ~ ends_any_ll path -> p_doc x path = Some d ->
  p_readable x path = true /\ load_yaml (python_files x) None (mkPatternConfig [] "ERROR") (mkCyaml (d_patterns d) (d_on_failure d)) = Ok c
  /\ (d_others d = [] -> load_patterns x path = flat_map (load_file x) (match d_patterns d with Some l => l | None => [] end))
  /\ (d_others d <> [] -> load_patterns x path = []).
Proof.
  intros H N D. destruct (contains "ll" (get_extension path)) eqn:C.
  - exfalso. apply N, python_ll. apply (pattern_accepted x path c H C).
  - unfold create_from_file in H. change (f_readable (python_files x)) with (p_readable x) in H. destruct (p_readable x path) eqn:R; cbn [negb] in H; [|discriminate].
    rewrite C in H. cbn [negb] in H. split; [reflexivity|]. split; [unfold python_files in H at 2; cbn [f_yaml] in H; rewrite D in H; exact H|].
    assert (NE : path <> ""%string) by (intros ->; discriminate C).
    assert (NL : llvm_extension path <> ".ll"%string).
    { intros E. apply llvm_ll in E. destruct E as [q ->]. rewrite ends_ll_python in C; discriminate. }
    apply String.eqb_neq in NE, NL. unfold load_patterns. rewrite NE, NL. unfold load_config. rewrite R, D. destruct d as [ps of os]; cbn [d_others d_patterns].
    split; [intros ->; reflexivity | destruct os; [congruence | reflexivity]].
Qed.

(** A file of patterns that was accepted is loaded. *)
Theorem C162_file_loaded : forall x path c,
  parsed_if_valid x -> create_from_file (python_files x) path None = Ok c -> ends_ll path -> load_patterns x path = [path].
Proof.
  intros x path c V H L. pose proof (proj2 (llvm_ll path) L) as E. destruct L as [q ->].
  destruct (pattern_accepted x _ c H (ends_ll_python q)) as (_ & Va & _). apply V in Va.
  unfold load_patterns. rewrite E. destruct (String.eqb_spec (q ++ ".ll") "") as [Q|_]; [destruct q; discriminate Q|]. cbn. unfold load_file. rewrite Va. reflexivity.
Qed.

(** Of a configuration that was accepted all files are loaded in order, if warnings are not asked
    for and there are no other keys. *)
Theorem C162_all_loaded : forall x path c d l,
  parsed_if_valid x -> create_from_file (python_files x) path None = Ok c -> ~ ends_any_ll path ->
  p_doc x path = Some d -> d_others d = [] -> d_patterns d = Some l -> d_on_failure d <> Some "WARN"%string ->
  load_patterns x path = l.
Proof.
  intros x path c d l V H N D O L W. destruct (config_accepted x path c d H N D) as (_ & Y & K & _). rewrite (K O), L. apply load_all.
  unfold load_yaml in Y. cbn [cy_patterns cy_on_failure] in Y. rewrite L in Y. intros f I. apply V.
  destruct (d_on_failure d) as [a|].
  - destruct (mem a ["ERROR"; "WARN"]%string) eqn:M; cbn [bind] in Y; [|discriminate]. apply mem_In in M. destruct M as [<- | [<- | []]]; [|congruence].
    eapply added_valid; [|exact Y | exact I]; reflexivity.
  - cbn [bind] in Y. eapply added_valid; [|exact Y | exact I]; reflexivity.
Qed.

(** In any mode, exactly those listed files are loaded that are LLVM IR. *)
Theorem C162_some_loaded : forall x path c d,
  create_from_file (python_files x) path None = Ok c -> ~ ends_any_ll path -> p_doc x path = Some d -> d_others d = [] ->
  forall f, In f (load_patterns x path) <-> p_parses x f = true /\ exists l, d_patterns d = Some l /\ In f l.
Proof.
  intros x path c d H N D O f. destruct (config_accepted x path c d H N D) as (_ & _ & K & _). rewrite (K O), load_some.
  destruct (d_patterns d) as [l|].
  - split; [intros [I P]; eauto | intros (P & l' & [= <-] & I); auto].
  - split; [intros [[] _] | intros (_ & l' & Q & _); discriminate Q].
Qed.

(** A file of patterns with capitals in its extension is accepted; none of its patterns is used. *)
Theorem C162_capitals_refuted :
  (forall x path, ends_any_ll path -> ~ ends_ll path -> p_doc x path = None -> load_patterns x path = [])
  /\ exists x c, parsed_if_valid x /\ p_parses x "p.LL" = true /\ p_doc x "p.LL" = None /\ create_from_file (python_files x) "p.LL" None = Ok c /\ pc_files c = ["p.LL"%string].
Proof.
  split.
  - intros x path _ N D. unfold load_patterns. destruct (String.eqb path ""); [reflexivity|].
    destruct (String.eqb_spec (llvm_extension path) ".ll") as [E|_]; [apply llvm_ll in E; contradiction|]. unfold load_config. rewrite D. destruct (p_readable x path); reflexivity.
  - exists (mkPfiles (fun _ => true) (fun _ => true) (fun _ => true) (fun _ => None)). eexists. split; [intros f _; reflexivity|].
    split; [reflexivity|]. split; [reflexivity|]. split; [vm_compute; reflexivity | reflexivity].
Qed.

(** A configuration with another key is accepted just as without it; nothing is loaded. *)
Theorem C162_keys_refuted : forall x path c d,
  create_from_file (python_files x) path None = Ok c -> ~ ends_any_ll path -> p_doc x path = Some d -> d_others d <> [] -> load_patterns x path = [].
Proof. intros x path c d H N D O. destruct (config_accepted x path c d H N D) as (_ & _ & _ & K). exact (K O). Qed.

(** With warnings, a file that is said not to be supported is loaded. *)
Theorem C162_unsupported_refuted : exists x c,
  create_from_file (python_files x) "c.yaml" None = Ok c /\ pc_files c = ["a.ll"%string] /\ load_patterns x "c.yaml" = ["a.ll"; "b.bc"]%string.
Proof.
  exists (mkPfiles (fun _ => true) (fun _ => true) (fun _ => true) (fun _ => Some (mkYdoc (Some ["a.ll"; "b.bc"]%string) (Some "WARN"%string) []))). eexists.
  split; [vm_compute; reflexivity|]. split; reflexivity.
Qed.

Definition example_files (others : list string) : pfiles :=
  mkPfiles (fun _ => true) (fun f => endswith f ".ll") (fun f => endswith f ".ll")
           (fun f => if endswith f ".yaml" then Some (mkYdoc (Some ["d/a.ll"; "b.ll"]%string) None others) else None).
Example C162_example :
  parsed_if_valid (example_files [])
  /\ (exists c, create_from_file (python_files (example_files [])) "c.yaml" None = Ok c) /\ load_patterns (example_files []) "c.yaml" = ["d/a.ll"; "b.ll"]%string
  /\ (exists c, create_from_file (python_files (example_files ["name"%string])) "c.yaml" None = Ok c) /\ load_patterns (example_files ["name"%string]) "c.yaml" = []
  /\ (exists c, create_from_file (python_files (example_files [])) "b.ll" None = Ok c) /\ load_patterns (example_files []) "b.ll" = ["b.ll"%string].
Proof.
  split; [intros f H; exact H|]. repeat split; try (eexists; vm_compute; reflexivity); reflexivity.
Qed.
Example C162_no_pattern_file : ~ ends_any_ll "c.yaml".
Proof.
  intros (q & e & He & H). apply (f_equal (fun s => endswith s e)) in H. rewrite (proj2 (endswith_spec (q ++ e) e)) in H by (exists q; reflexivity).
  destruct He as [<- | [<- | [<- | [<- | []]]]]; discriminate H.
Qed.

Print Assumptions C162_file_loaded.
Print Assumptions C162_all_loaded.
Print Assumptions C162_some_loaded.
Print Assumptions C162_capitals_refuted.
Print Assumptions C162_keys_refuted.
Print Assumptions C162_unsupported_refuted.
