(** * Properties of the sysctl tables (C53, C88, C89) *)
From Coq Require Import String Ascii ZArith Arith Bool Lia List.
From Verif Require Import PyBase Source_Spec Sysctl_Model Sysctl_Spec Sysctl_Proofs.
Import ListNotations.
Open Scope list_scope.

(** ** C53: patterns in Python and in C++ *)

(** The Python side accepts exactly the names the pattern stands for. *)
Theorem C53_python n p : py_matches n p = true <-> Matches p n.
Proof. apply py_matches_iff. Qed.
Print Assumptions C53_python.

(** So does the C++ side, for every name that is not empty. *)
Theorem C53_cpp n p : n <> ""%string -> (cpp_matches n p = true <-> Matches p n).
Proof. apply cpp_matches_iff. Qed.
Print Assumptions C53_cpp.

Theorem C53_agree n p : n <> ""%string -> py_matches n p = cpp_matches n p.
Proof.
  intros N. pose proof (C53_python n p) as A. pose proof (C53_cpp n p N) as B.
  destruct (py_matches n p), (cpp_matches n p); auto; exfalso; rewrite <- A in B; intuition discriminate.
Qed.
Print Assumptions C53_agree.

(** The empty name is a member of {a|b|c} for C++ only if an alternative other than the last one
    is empty. *)
Theorem C53_empty_name l : Forall (fun w => has_char "|" w = false) l -> l <> [] ->
  (py_matches "" ("{" ++ join "|" l ++ "}") = true <-> In ""%string l) /\
  (cpp_matches "" ("{" ++ join "|" l ++ "}") = true <-> In ""%string (removelast l)).
Proof.
  intros F N. assert (S : split_char "|" (join "|" l) = l) by (change "|"%string with (String "|" ""); apply Syndiff_Proofs.split_join; assumption).
  split.
  - rewrite py_matches_iff, matches_braces, S. reflexivity.
  - rewrite cpp_empty_iff. split; [|intros I; right; right; exists (join "|" l); rewrite S; auto].
    intros [E|[E|(b & E & I)]]; try discriminate. apply (f_equal Source_Model.inner) in E. rewrite !inner_braces in E. subst b. rewrite S in I. exact I.
Qed.
Print Assumptions C53_empty_name.

(** The two sides do differ. *)
Theorem C53_empty_name_refuted : exists p, py_matches "" p = true /\ cpp_matches "" p = false.
Proof. exists "{a|}"%string. split; reflexivity. Qed.
Print Assumptions C53_empty_name_refuted.

Example C53_example : py_matches "b" "{a|b|c}" = true /\ cpp_matches "b" "{a|b|c}" = true /\ cpp_matches "d" "{a|b|c}" = false /\ cpp_matches "d" "*" = true.
Proof. repeat split. Qed.

(** ** C88: the entries of one table *)

(** Parsing "prefix.pattern" lists the entries of the table whose names match the pattern, in the
    order of the table, each as "prefix.name"; it succeeds exactly if the entries can be read. *)
Theorem C88_parse opaque m t c a p smap : Table m t c -> pattern_ok a p -> WellNamed opaque m (operands c) ->
  forall names smap', parse_sysctls opaque m t (a ++ p) smap = Some (names, smap') ->
  exists sel, Selected opaque m (Matches p) (operands c) sel /\ names = map (fun nc => a ++ fst nc)%string sel /\
    (forall n e, LastOf sel n e -> dget smap' (a ++ n)%string = Some e) /\
    (forall k, (forall n e, In (n, e) sel -> k <> (a ++ n)%string) -> dget smap' k = dget smap k).
Proof.
  intros T OK WN names smap' P. apply (parse_sysctls_iff _ _ _ _ _ _ _ _ T OK) in P. destruct P as (sel & S & E). injection E as -> ->.
  exists sel. split; [|split; [reflexivity|split]].
  - eapply selected_ext; [|exact S]. intros d n I N. apply cpp_matches_iff. destruct (WN _ _ I N). assumption.
  - intros n e L. apply insert_last. exact L.
  - intros k H. apply insert_other. exact H.
Qed.
Print Assumptions C88_parse.

Theorem C88_parse_defined opaque m t c a p smap : Table m t c -> pattern_ok a p ->
  ((exists r, parse_sysctls opaque m t (a ++ p) smap = Some r) <-> forall d, In d (operands c) -> ~ Dangling opaque m d).
Proof.
  intros T OK. split.
  - intros (r & P) d. apply (parse_sysctls_iff _ _ _ _ _ _ _ _ T OK) in P. destruct P as (sel & S & _). apply (selected_not_dangling _ _ _ _ _ _ S).
  - intros D. destruct (selected_exists opaque m (accepts p)) with (ops := operands c) as [sel S]; [|exact D|].
    + intros k. unfold accepts. destruct (cpp_matches k p); auto.
    + eexists. apply (parse_sysctls_iff _ _ _ _ _ _ _ _ T OK). exists sel. split; [exact S|reflexivity].
Qed.
Print Assumptions C88_parse_defined.

(** Whatever was looked up in the table before, an option is the last entry with its name. *)
Theorem C88_lookup opaque m t c smap a n r smap' : Table m t c -> WellNamed opaque m (operands c) -> History opaque m t smap ->
  prefix_ok a -> part_ok n -> ~ special n -> get_sysctl opaque m t (a ++ n) smap = Some (r, smap') ->
  forall e, r = Some e <-> LastNamed opaque m (operands c) n e.
Proof.
  intros T WN H PA PN SP G e.
  destruct (get_sysctl_cases _ _ _ _ _ _ _ _ _ T (plain_pattern _ _ PA PN SP) G) as [(x & D & -> & ->)|(D & sel & S & -> & ->)].
  - pose proof (history_sound _ _ _ _ _ T WN H a n x PA PN D) as L. split; [intros [= <-]; exact L|]. intros L'. f_equal. eapply last_named_fun; eassumption.
  - apply (plain_lookup _ _ _ _ _ _ _ _ S SP D).
Qed.
Print Assumptions C88_lookup.

(** The lookup gives an answer if the entries can be read. *)
Theorem C88_lookup_defined opaque m t c smap a n : Table m t c -> pattern_ok a n -> (forall d, In d (operands c) -> ~ Dangling opaque m d) ->
  exists r smap', get_sysctl opaque m t (a ++ n) smap = Some (r, smap').
Proof. apply get_sysctl_defined. Qed.
Print Assumptions C88_lookup_defined.

(** The data variable is the one the second element of the entry is the address of, with the
    constant indices of that address; the child the one of the fifth; the handler is the function
    that the sixth element is. *)
Theorem C88_data e g idx : data_of (Some e) = Some (g, idx) <-> exists o, nth_error (operands e) 1 = Some o /\ Address o g idx.
Proof. apply variable_at_iff. Qed.
Print Assumptions C88_data.
Theorem C88_child e g idx : child_of (Some e) = Some (g, idx) <-> exists o, nth_error (operands e) 4 = Some o /\ Address o g idx.
Proof. apply variable_at_iff. Qed.
Print Assumptions C88_child.
Theorem C88_handler e f : proc_fun (Some e) = Some f <-> nth_error (operands e) 5 = Some (Func f).
Proof.
  unfold proc_fun. destruct (nth_error (operands e) 5) as [[]|]; split; intros E; try discriminate; congruence.
Qed.
Print Assumptions C88_handler.

(** A cast around a computed address is not looked through. *)
Theorem C88_cast_of_address_refuted : exists e g idx,
  nth_error (operands e) 1 = Some (BitCast (Gep (GlobalVar g) (map Number idx))) /\ data_of (Some e) = None.
Proof. exists (Aggregate true [Other; BitCast (Gep (GlobalVar "g") [Number 0])]), "g"%string, [0%Z]. split; reflexivity. Qed.
Print Assumptions C88_cast_of_address_refuted.

(** Without the condition on the prefix the listed names are wrong. *)
Definition example_names : globals :=
  [("n1", Some (Text (String "x" (String zero "")))); ("n2", Some (Text (String "y" (String zero "")))); ("n3", Some (Text ("a.b" ++ String zero "")));
   ("t", Some (Aggregate false [Aggregate true [GlobalVar "n1"; GlobalVar "d1"; Other; Other; Other; Func "f1"];
                               Aggregate true [GlobalVar "n2"; BitCast (GlobalVar "d2"); Other; Other; Gep (GlobalVar "u") [Number 0; Number 0]; Func "f2"];
                               Aggregate true [GlobalVar "n1"; Gep (GlobalVar "d3") [Number 1]; Other; Other; Other; Func "f3"];
                               Aggregate true [Other; Other]]));
   ("u", Some (Aggregate false [Aggregate true [GlobalVar "n1"; GlobalVar "d4"; Other; Other; Other; Func "f4"]]));
   ("v", Some (Aggregate false [Aggregate true [GlobalVar "n3"; GlobalVar "d5"; Other; Other; Other; Func "f5"]]))]%string.
Theorem C88_prefix_refuted : exists m t smap, Table m t (Aggregate false [Aggregate true [GlobalVar "n1"; GlobalVar "d4"; Other; Other; Other; Func "f4"]]) /\
  parse_sysctls true m t "*.*" [] = Some (["x.x"%string], smap).
Proof.
  exists example_names, "u"%string. eexists. split; [|reflexivity]. constructor; [split; [discriminate|reflexivity]|reflexivity].
Qed.
Print Assumptions C88_prefix_refuted.

(** A name with a dot is found or not depending on what was asked before. *)
Theorem C88_dotted_name_refuted : exists m t c smap smap' l e,
  Table m t c /\ History true m t smap /\ parse_sysctls true m t "vm.*" [] = Some (l, smap) /\
  get_sysctl true m t "vm.a.b" smap = Some (Some e, smap) /\ get_sysctl true m t "vm.a.b" [] = Some (None, smap').
Proof.
  exists example_names, "v"%string, (Aggregate false [Aggregate true [GlobalVar "n3"; GlobalVar "d5"; Other; Other; Other; Func "f5"]]).
  eexists. eexists. eexists. eexists. split; [constructor; [split; [discriminate|reflexivity]|reflexivity]|]. split; [|split; [reflexivity|split; reflexivity]].
  apply (History_parse true example_names "v" "vm." "*" [] ["vm.a.b"%string] _ (History_nil _ _ _)); [|reflexivity].
  split; [right; exists "vm"%string; reflexivity|]. split; [split; [discriminate|reflexivity]|]. intros _ (a & b & E).
  destruct a as [|x [|y [|z [|]]]]; cbn [append] in E; discriminate.
Qed.
Print Assumptions C88_dotted_name_refuted.

Lemma table_t : Table example_names "t" (Aggregate false [Aggregate true [GlobalVar "n1"; GlobalVar "d1"; Other; Other; Other; Func "f1"];
                               Aggregate true [GlobalVar "n2"; BitCast (GlobalVar "d2"); Other; Other; Gep (GlobalVar "u") [Number 0; Number 0]; Func "f2"];
                               Aggregate true [GlobalVar "n1"; Gep (GlobalVar "d3") [Number 1]; Other; Other; Other; Func "f3"];
                               Aggregate true [Other; Other]]).
Proof. constructor; [split; [discriminate|reflexivity]|reflexivity]. Qed.
Example C88_example_hypotheses : exists c, Table example_names "t" c /\ WellNamed true example_names (operands c) /\
  (forall d, In d (operands c) -> ~ Dangling true example_names d) /\ pattern_ok "vm." "*" /\ pattern_ok "vm." "x" /\ ~ special "x".
Proof.
  eexists. split; [apply table_t|]. split; [|split; [|split; [|split]]].
  - intros c n I N. apply entry_named in N. cbn [operands In] in I. repeat (destruct I as [<-|I]; [vm_compute in N; first [discriminate|injection N as <-; split; [discriminate|reflexivity]]|]). destruct I.
  - intros d I D. destruct (entry_name_cases true example_names d) as [(n & E & N)|[(E & ND & _)|(E & _)]].
    + exact (named_not_dangling _ _ _ _ N D).
    + exact (ND D).
    + cbn [operands In] in I. repeat (destruct I as [<-|I]; [vm_compute in E; discriminate|]). destruct I.
  - split; [right; exists "vm"%string; reflexivity|]. split; [split; [discriminate|reflexivity]|]. intros _ (a & b & E).
    destruct a as [|x [|y [|z [|]]]]; cbn [append] in E; discriminate.
  - apply plain_pattern; [right; exists "vm"%string; reflexivity|split; [discriminate|reflexivity]|]. intros [E|E]; discriminate.
  - intros [E|E]; discriminate.
Qed.
Example C88_example : exists s s',
  parse_sysctls true example_names "t" "vm.*" [] = Some (["vm.x"; "vm.y"; "vm.x"]%string, s) /\
  get_sysctl true example_names "t" "vm.x" s = Some (Some (Aggregate true [GlobalVar "n1"; Gep (GlobalVar "d3") [Number 1]; Other; Other; Other; Func "f3"]), s) /\
  get_sysctl true example_names "t" "vm.z" s = Some (None, s') /\
  data_of (dget s "vm.y"%string) = Some ("d2"%string, []) /\ proc_fun (dget s "vm.x"%string) = Some "f3"%string.
Proof. do 2 eexists. repeat split. Qed.

(** ** C89: finding the table of an option *)

(** For an option given by its parts, the module and the table are the ones its parts lead to
    from the table its first parts stand for; there is no other way to get a module. *)
Theorem C89_table opaque module_for s : plain_children module_for ->
  (forall t entries, Starts (split_char "." s) t entries -> Forall (fun e => part_ok e /\ ~ special e) (removelast entries)) ->
  forall m t', get_sysctl_module opaque module_for s = Some (Ok (m, t')) <->
    exists t entries, Starts (split_char "." s) t entries /\ Leads opaque module_for t entries m t'.
Proof.
  intros PC F m t'. unfold get_sysctl_module. pose proof (fun t r => start_iff (split_char "." s) t r (split_char_nonempty "." s)) as S. split.
  - destruct (start_table (split_char "." s)) as [[t entries]|] eqn:E; [|discriminate]. intros W.
    assert (NE : entries <> []) by (intros ->; discriminate).
    destruct (proj1 (S t entries) (conj eq_refl NE)) as [ST _]. exists t, entries. split; [exact ST|].
    apply walk_leads; [exact PC|exact (F _ _ ST)| |exact W]. destruct ST; [left|right; reflexivity|left|left]; split; (discriminate || reflexivity).
  - intros (t & entries & ST & L). assert (NE : entries <> []) by (intros ->; inversion L).
    destruct (proj2 (S t entries) (conj ST NE)) as [E _]. rewrite E. apply leads_walk. exact L.
Qed.
Print Assumptions C89_table.

(** Options of other areas are reported as not found. *)
Theorem C89_other opaque module_for e l s : split_char "." s = e :: l ->
  ~ In e ["kernel"; "vm"; "fs"; "debug"; "dev"; "net"]%string -> get_sysctl_module opaque module_for s = Some (Err SourceNotFoundException).
Proof.
  intros E N. unfold get_sysctl_module, start_table. rewrite E.
  destruct (mem e _) eqn:M; [exfalso; apply N; apply mem_In in M; cbn [In] in *; intuition|].
  destruct (String.eqb_spec e "net") as [->|]; [|reflexivity]. exfalso. apply N. cbn [In]. intuition.
Qed.
Print Assumptions C89_other.
(** So are options of the network areas that are not known, but not those cut short. *)
Theorem C89_other_net opaque module_for f l s : split_char "." s = ("net" :: f :: l)%string -> f <> "ipv4"%string -> f <> "core"%string ->
  get_sysctl_module opaque module_for s = Some (Err SourceNotFoundException).
Proof.
  intros E A B. unfold get_sysctl_module, start_table. rewrite E. cbn -[String.eqb].
  change (String.eqb "net" "kernel") with false. cbn -[String.eqb].
  destruct (String.eqb_spec f "ipv4"); [congruence|]. destruct (String.eqb_spec f "core"); [congruence|]. reflexivity.
Qed.
Print Assumptions C89_other_net.
Theorem C89_net_refuted opaque module_for : get_sysctl_module opaque module_for "net" = Some (Err IndexError) /\
  get_sysctl_module opaque module_for "net.ipv4" = Some (Err IndexError).
Proof. split; reflexivity. Qed.
Print Assumptions C89_net_refuted.

(** An entry on the way that is missing or leads to no table is an AttributeError. *)
Theorem C89_missing_entry opaque module_for t root e f rest m c : part_ok root -> (t = root \/ exists i, t = (root ++ "." ++ i)%string) ->
  module_for root = Ok m -> Table m t c -> (forall d, In d (operands c) -> ~ Dangling opaque m d) -> part_ok e -> ~ special e ->
  (forall entry o g idx, LastNamed opaque m (operands c) e entry -> nth_error (operands entry) 4 = Some o -> ~ Address o g idx) ->
  walk opaque module_for t (e :: f :: rest) = Some (Err AttributeError).
Proof.
  intros P R M T D PE SE N. cbn [walk]. rewrite (root_of _ _ P R), M.
  destruct (get_sysctl_defined opaque m t c "" e [] T (plain_pattern "" e (or_introl eq_refl) PE SE) D) as (r & s & G). cbn [append] in G. rewrite G.
  destruct (get_plain _ _ _ _ _ _ _ T PE SE G) as [_ Q].
  destruct (child_of r) as [[g idx]|] eqn:C; [|reflexivity]. exfalso. destruct r as [entry|]; [|discriminate].
  apply variable_at_iff in C. destruct C as (o & O & A). exact (N entry o g idx (proj1 (Q _) eq_refl) O A).
Qed.
Print Assumptions C89_missing_entry.

(** A child whose variable has a dot in its name, as local variables have, is taken for a part of
    another variable: here the process ends although the table exists. *)
Definition dotted_child : globals :=
  [("n1", Some (Text (String "x" (String zero ""))));
   ("sysctl_base_table", Some (Aggregate false [Aggregate true [GlobalVar "vm"; Other; Other; Other; GlobalVar "vm_table.5"; Other]]));
   ("vm", Some (Text ("vm" ++ String zero "")));
   ("vm_table", Some (Aggregate false []));
   ("vm_table.5", Some (Aggregate false [Aggregate true [GlobalVar "x"; Other; Other; Other; GlobalVar "u"; Other]]));
   ("x", Some (Text ("x" ++ String zero ""))); ("u", Some (Aggregate false []))]%string.
Theorem C89_dotted_child_refuted : exists module_for m c,
  module_for "sysctl_base_table"%string = Ok m /\ module_for "vm_table"%string = Ok m /\
  dget m "vm_table.5"%string = Some (Some c) /\ get_sysctl_module true module_for "vm.x.y" = None.
Proof.
  exists (fun _ => Ok dotted_child), dotted_child. eexists. repeat split.
Qed.
Print Assumptions C89_dotted_child_refuted.

Definition example_base : globals :=
  [("sysctl_base_table", Some (Aggregate false [Aggregate true [GlobalVar "vm"; Other; Other; Other; GlobalVar "vm_table"; Other]]));
   ("vm", Some (Text ("vm" ++ String zero "")))]%string.
Definition example_modules (s : string) : res globals :=
  if String.eqb s "sysctl_base_table" then Ok example_base else if String.eqb s "vm_table" then Ok [] else Err SourceNotFoundException.
Example C89_example : get_sysctl_module true example_modules "vm.swappiness" = Some (Ok ([], "vm_table"%string)) /\
  get_sysctl_module true example_modules "vm.*" = Some (Ok ([], "vm_table"%string)) /\
  get_sysctl_module true example_modules "kernel.panic" = Some (Err AttributeError) /\
  get_sysctl_module true example_modules "abi.x" = Some (Err SourceNotFoundException).
Proof. repeat split. Qed.
Lemma no_gep_part t c : Table example_base t c -> c = Text ("vm" ++ String zero "") \/ t = "sysctl_base_table"%string \/
  (forall d, In d (operands c) -> operands d = []).
Proof.
  intros T. induction T as [g c P G|t c i n c' T IH Q O].
  - cbn [example_base dget] in G. destruct (eqb_spec g "sysctl_base_table"%string) as [->|]; [auto|]. destruct (eqb_spec g "vm"%string); [|discriminate]. injection G as <-. auto.
  - destruct IH as [->|[->|IH]]; [destruct n; discriminate| |].
    + apply find_table_ok in T. cbn in T. injection T as <-. destruct n as [|[|]]; [|discriminate..]. injection O as <-. right. right.
      intros d I. cbn [operands In] in I. repeat (destruct I as [<-|I]; [reflexivity|]). destruct I.
    + right. right. intros d I. rewrite (IH c' (nth_error_In _ _ O)) in I. destruct I.
Qed.
Example C89_example_hypotheses : plain_children example_modules /\
  (forall t entries, Starts (split_char "." "vm.*") t entries -> Forall (fun e => part_ok e /\ ~ special e) (removelast entries)).
Proof.
  split.
  - intros root m t c entry o g idx M T I O A. unfold example_modules in M. destruct (String.eqb root "sysctl_base_table").
    + injection M as <-. destruct (no_gep_part _ _ T) as [->|[->|N]]; [destruct I| |rewrite (N _ I) in O; discriminate].
      apply find_table_ok in T. cbn in T. injection T as <-. destruct I as [<-|[]]. cbn in O. injection O as <-.
      inversion A as [c g' B|]; subst. inversion B. split; [discriminate|reflexivity].
    + destruct (String.eqb root "vm_table"); [|discriminate]. injection M as <-. exfalso. clear -T.
      induction T; [discriminate|assumption].
  - intros t entries S. change (split_char "." "vm.*") with ["vm"; "*"]%string in S. inversion S; subst. constructor; [|constructor].
    split; [split; [discriminate|reflexivity]|]. intros [E|E]; discriminate.
Qed.
