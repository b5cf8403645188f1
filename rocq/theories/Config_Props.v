(** * Properties of the configuration (C32, C33, C70, C71) *)
From Coq Require Import String Ascii ZArith Arith Bool Lia List DecimalString DecimalNat Permutation.
From Verif Require Import PyBase Path_Model Cache_Proofs Compare_Model Config_Model Config_Spec Config_Proofs.
Import ListNotations.
Open Scope list_scope.

(** ** C32 Built-in pattern options *)

(** Every pattern has the value the options ask for, except that control-flow-only forces
    type-casts on. *)
Theorem C32_every_pattern_has_the_wanted_value : forall l s,
  builtin_patterns l = Ok s ->
  exists cfo, wanted l "control-flow-only" (default_of "control-flow-only") cfo /\
  (forall p, In p ["struct-alignment"; "function-splits"; "unused-return-types"; "kernel-prints"; "dead-code";
                   "numerical-macros"; "relocations"; "control-flow-only"; "inverse-conditions";
                   "reordered-bin-ops"; "group-vars"]%string ->
     exists b, wanted l p (default_of p) b /\ dget s p = Some b) /\
  (exists b, wanted l "type-casts" (default_of "type-casts") b /\ dget s "type-casts"%string = Some (b || cfo)).
Proof.
  intros l s H. destruct (builtin_patterns_get l s H) as (_ & e & d & P & _ & G).
  exists (base_value e d "control-flow-only" false).
  split; [apply (base_value_wanted l e d); [exact P|discriminate]|]. split.
  - intros p I. exists (base_value e d p (default_of p)).
    assert (D : dget initial_settings p = Some (default_of p) /\ p <> "all"%string /\ String.eqb p "type-casts" = false).
    { cbn [In] in I. decompose [or] I; subst; try contradiction; repeat split; discriminate. }
    destruct D as (D1 & D2 & D3). split; [apply (base_value_wanted l e d); assumption|].
    rewrite (G p _ D1), D3. reflexivity.
  - exists (base_value e d "type-casts" false). split; [apply (base_value_wanted l e d); [exact P|discriminate]|].
    rewrite (G "type-casts"%string false eq_refl). reflexivity.
Qed.
Print Assumptions C32_every_pattern_has_the_wanted_value.

(** The options are accepted iff every named pattern is an advertised one. *)
Theorem C32_options_accepted_iff_advertised : forall l,
  ((exists s, builtin_patterns l = Ok s) <-> (forall o p, In o l -> In p (names_of o) -> In p cli_patterns)) /\
  (forall e, builtin_patterns l = Err e -> e = SystemExit).
Proof.
  intros l. unfold builtin_patterns. split; [split|].
  - intros [s H]. destruct (parse_popts l) as [[e d]|] eqn:P; [|discriminate].
    destruct (parse_popts_spec l [] [] e d P) as (_ & _ & C). exact C.
  - intros H. destruct (parse_popts_ok l ([], []) H) as [r R]. unfold parse_popts. rewrite R. cbn [bind]. eauto.
  - intros e. destruct (parse_popts l) eqn:P; [discriminate|]. cbn [bind]. intros E. injection E as <-.
    eapply parse_popts_err, P.
Qed.
Print Assumptions C32_options_accepted_iff_advertised.

(** Order and repetition of the options do not matter. *)
Lemma settings_determined l1 l2 s1 s2 :
  (forall p b0 b, In p (map fst initial_settings) -> wanted l1 p b0 b -> wanted l2 p b0 b) ->
  builtin_patterns l1 = Ok s1 -> builtin_patterns l2 = Ok s2 -> s1 = s2.
Proof.
  intros W H1 H2. destruct (builtin_patterns_get l1 s1 H1) as (K1 & e1 & d1 & P1 & _ & G1).
  destruct (builtin_patterns_get l2 s2 H2) as (K2 & e2 & d2 & P2 & _ & G2).
  assert (B : forall p b0, In p (map fst initial_settings) -> base_value e1 d1 p b0 = base_value e2 d2 p b0).
  { intros p b0 I. assert (N : p <> "all"%string) by (cbn in I; intuition (subst; discriminate)).
    eapply wanted_fun; [eapply W; [exact I|]; apply base_value_wanted|apply base_value_wanted]; eassumption. }
  assert (E : forall p, In p (map fst initial_settings) -> dget s1 p = dget s2 p).
  { intros p I. assert (D : exists b0, dget initial_settings p = Some b0).
    { cbn in I. decompose [or] I; subst; try contradiction; eexists; reflexivity. }
    destruct D as [b0 D]. rewrite (G1 _ _ D), (G2 _ _ D), (B p b0 I), (B "control-flow-only"%string false); [reflexivity|].
    cbn. tauto. }
  assert (ND : NoDup (map fst initial_settings)) by (apply no_dup_NoDup; reflexivity).
  rewrite <- K1 in E, ND. rewrite <- K1 in K2. clear - E K2 ND.
  revert s2 E K2. induction s1 as [|[k b] s1 IH]; intros [|[k2 b2] s2] E K; try discriminate; [reflexivity|].
  cbn [map fst] in *. injection K as -> K. inversion ND as [|? ? N1 N2]; subst. f_equal.
  - specialize (E k (or_introl eq_refl)). cbn [dget] in E. destruct (eqb_spec k k); congruence.
  - apply IH; [exact N2| |exact K]. intros p I. specialize (E p (or_intror I)). cbn [dget] in E.
    destruct (eqb_spec p k) as [Q|Q]; [rewrite Q in I; contradiction|exact E].
Qed.
Theorem C32_order_irrelevant : forall l1 l2 s1 s2,
  (forall o, In o l1 <-> In o l2) -> builtin_patterns l1 = Ok s1 -> builtin_patterns l2 = Ok s2 -> s1 = s2.
Proof.
  intros l1 l2 s1 s2 S H1 H2. eapply settings_determined; [|exact H1|exact H2].
  intros p b0 b _. unfold wanted. rewrite !S. auto.
Qed.
Print Assumptions C32_order_irrelevant.

(** Without options the patterns have their documented defaults; disabling a pattern wins
    over enabling it whatever the order. *)
Example C32_example :
  builtin_patterns [] = Ok initial_settings /\
  builtin_patterns [DisablePattern "dead-code"; EnableAll; EnablePattern "dead-code"; DisablePattern "type-casts"] =
    Ok (dset (dset (map (fun kv => (fst kv, true)) initial_settings) "dead-code"%string false) "type-casts"%string true) /\
  builtin_patterns [EnablePattern "all"] = Err SystemExit.
Proof. vm_compute. auto. Qed.

(** ** C33 Every advertised pattern name has an effect *)

(** The advertised names other than unused-returns control the pattern of that name. *)
Theorem C33_advertised_names_work : forall l s p,
  In p cli_patterns -> p <> "unused-returns"%string ->
  (builtin_patterns (l ++ [EnablePattern p]) = Ok s -> ~ In (DisablePattern p) l -> dget s p = Some true) /\
  (builtin_patterns (l ++ [DisablePattern p]) = Ok s ->
     dget s p = Some false \/ (p = "type-casts"%string /\ dget s "control-flow-only"%string = Some true)).
Proof.
  intros l s p I N.
  assert (D : exists b0, dget initial_settings p = Some b0).
  { cbn in I. decompose [or] I; subst; try contradiction; eexists; reflexivity. }
  destruct D as [b0 D].
  assert (A : p <> "all"%string) by (cbn in I; intuition (subst; discriminate)).
  split.
  - intros H ND. destruct (builtin_patterns_get _ _ H) as (_ & e & d & P & _ & G). rewrite (G p b0 D).
    assert (W : base_value e d p b0 = true).
    { pose proof (base_value_wanted _ e d p b0 P A) as W. unfold wanted in W. rewrite !in_app_iff in W. cbn [In] in W.
      intuition (congruence || discriminate). }
    rewrite W. destruct (String.eqb p "type-casts"); reflexivity.
  - intros H. destruct (builtin_patterns_get _ _ H) as (_ & e & d & P & C & G). rewrite (G p b0 D).
    assert (W : base_value e d p b0 = false).
    { pose proof (base_value_wanted _ e d p b0 P A) as W. unfold wanted in W. rewrite !in_app_iff in W. cbn [In] in W.
      intuition (congruence || discriminate). }
    rewrite W. destruct (String.eqb_spec p "type-casts") as [E|E]; [|auto].
    destruct (base_value e d "control-flow-only" false); auto.
Qed.
Print Assumptions C33_advertised_names_work.

(** The name unused-returns is accepted but never has an effect ... *)
Theorem C33_unused_returns_has_no_effect : forall l s s',
  builtin_patterns l = Ok s ->
  builtin_patterns (filter (fun o => negb (about_unused_returns o)) l) = Ok s' -> s = s'.
Proof.
  intros l s s' H1 H2. eapply settings_determined; [|exact H1|exact H2].
  intros p b0 b I.
  assert (E : forall o, about_unused_returns o = false -> (In o (filter (fun o => negb (about_unused_returns o)) l) <-> In o l)).
  { intros o A. rewrite filter_In, A. cbn. tauto. }
  assert (A : String.eqb p "unused-returns" = false) by (cbn in I; intuition (subst; reflexivity)).
  unfold wanted. rewrite !E; [auto| | | |]; cbn; auto.
Qed.
Print Assumptions C33_unused_returns_has_no_effect.

(** ... and the pattern meant by it can only be switched together with all others. *)
Theorem C33_unused_return_types_only_with_all : forall l s,
  builtin_patterns l = Ok s ->
  (dget s "unused-return-types"%string = Some false <-> In DisableAll l).
Proof.
  intros l s H. pose proof (C32_options_accepted_iff_advertised l) as [[A _] _].
  specialize (A (ex_intro _ s H)). destruct (builtin_patterns_get _ _ H) as (_ & e & d & P & C & G).
  rewrite (G "unused-return-types"%string true eq_refl). cbn [String.eqb Ascii.eqb Bool.eqb].
  change (String.eqb "unused-return-types" "type-casts") with false. cbv iota.
  pose proof (base_value_wanted _ e d "unused-return-types" true P) as W. specialize (W ltac:(discriminate)).
  assert (N1 : ~ In (EnablePattern "unused-return-types") l).
  { intros I. specialize (A _ _ I (or_introl eq_refl)). cbn in A. intuition discriminate. }
  assert (N2 : ~ In (DisablePattern "unused-return-types") l).
  { intros I. specialize (A _ _ I (or_introl eq_refl)). cbn in A. intuition discriminate. }
  unfold wanted in W. split.
  - intros E. injection E as E. rewrite E in W. intuition discriminate.
  - intros I. f_equal. intuition.
Qed.
Print Assumptions C33_unused_return_types_only_with_all.

Theorem C33_every_name_has_an_effect_refuted : exists p, In p cli_patterns /\
  builtin_patterns [EnablePattern p] = builtin_patterns [DisablePattern p].
Proof. exists "unused-returns"%string. split; [cbn; tauto|]. vm_compute. reflexivity. Qed.
Print Assumptions C33_every_name_has_an_effect_refuted.

Example C33_example :
  exists s, builtin_patterns [DisablePattern "unused-returns"; DisablePattern "relocations"] = Ok s /\
    dget s "unused-return-types"%string = Some true /\ dget s "relocations"%string = Some false.
Proof. eexists. vm_compute. repeat split. Qed.

(** ** C70 The library and the binary get the same configuration *)
Theorem C70_same_configuration : forall q l,
  builtin_patterns l = Ok (q_settings q) -> all_ascii q -> transportable q ->
  (truthy (q_suffix q) <> None -> snd (splitext (q_file1 q)) <> ""%string /\ snd (splitext (q_file2 q)) <> ""%string) ->
  exists a b, through_library q = Ok a /\ simpll_main (command q) = Some b /\ same_comparison a b /\
    (q_ir q = true -> truthy (q_suffix q) <> None -> s_out1 a = s_out1 b /\ s_out2 a = s_out2 b).
Proof.
  intros q l HP (A1 & A2 & A3 & A4 & A5 & A6 & A7 & A8) (T1 & T2 & T3 & T4) SX.
  destruct (builtin_patterns_get _ _ HP) as (K & e & d & _ & _ & G).
  assert (P : exists ps, as_ffi_struct (q_settings q) = Ok ps /\
    forall k, In k (map fst initial_settings) -> exists b, dget (q_settings q) k = Some b).
  { assert (D : forall k, In k (map fst initial_settings) -> exists b, dget (q_settings q) k = Some b).
    { intros k I. cbn in I. decompose [or] I; subst; try contradiction; (erewrite G; [eauto|reflexivity]). }
    unfold as_ffi_struct, setting.
    assert (In1 : forall k, In k (map fst initial_settings) -> In k (map fst initial_settings)) by auto.
    destruct (D "struct-alignment"%string) as [b1 E1]; [cbn; tauto|]. destruct (D "function-splits"%string) as [b2 E2]; [cbn; tauto|].
    destruct (D "unused-return-types"%string) as [b3 E3]; [cbn; tauto|]. destruct (D "kernel-prints"%string) as [b4 E4]; [cbn; tauto|].
    destruct (D "dead-code"%string) as [b5 E5]; [cbn; tauto|]. destruct (D "numerical-macros"%string) as [b6 E6]; [cbn; tauto|].
    destruct (D "relocations"%string) as [b7 E7]; [cbn; tauto|]. destruct (D "type-casts"%string) as [b8 E8]; [cbn; tauto|].
    destruct (D "control-flow-only"%string) as [b9 E9]; [cbn; tauto|]. destruct (D "inverse-conditions"%string) as [b10 E10]; [cbn; tauto|].
    destruct (D "reordered-bin-ops"%string) as [b11 E11]; [cbn; tauto|]. destruct (D "group-vars"%string) as [b12 E12]; [cbn; tauto|].
    rewrite E1, E2, E3, E4, E5, E6, E7, E8, E9, E10, E11, E12. cbn [bind]. eexists. split; [reflexivity|exact D]. }
  destruct P as (ps & PS & D).
  assert (EO : forall x, opt_ascii x -> encode_opt x = Ok (match truthy x with Some v => v | None => ""%string end)).
  { intros [x|] O; [|reflexivity]. unfold encode_opt, truthy. destruct (String.eqb x ""); [reflexivity|]. unfold encode. cbn in O. rewrite O. reflexivity. }
  assert (L : through_library q = Ok (mkSconfig (q_fun1 q) (q_fun2 q) (q_file1 q) (q_file2 q)
     (out_name (q_suffix q) (q_file1 q)) (out_name (q_suffix q) (q_file2 q))
     (match truthy (q_cache q) with Some v => v | None => ""%string end)
     (match truthy (q_custom q) with Some v => v | None => ""%string end) ps
     (match truthy (q_var q) with Some v => v | None => ""%string end) (q_ir q) (q_asm q) true (q_ext q) (q_verb q))).
  { unfold through_library. rewrite PS. cbn [bind]. rewrite (EO _ A5), (EO _ A7), (EO _ A8). cbn [bind]. unfold encode.
    rewrite A1, A2, A3, A4, !out_name_ascii by assumption. reflexivity. }
  rewrite L. clear L.
  assert (GB : forall k b, dget (q_settings q) k = Some b ->
     ~ In k ["print-callstacks"; "fun"; "var"; "suffix"; "cache-dir"; "custom-pattern-config"]%string ->
     cl_bool (map item_pair (items_of q (fun_arg q))) k = Some b).
  { intros k b E N. unfold cl_bool. rewrite dget_items, E. cbn [In] in N.
    do 6 (match goal with |- context [String.eqb k ?x] => destruct (String.eqb_spec k x); [exfalso; apply N; subst; tauto|] end).
    destruct b; reflexivity. }
  assert (NS : forall k, ~ In k (map fst initial_settings) -> dget (q_settings q) k = None).
  { intros k N. apply dget_None. unfold dkeys. rewrite K. exact N. }
  unfold simpll_main. rewrite command_items. cbn [cl_parse]. rewrite (positional _ T1). cbn [app cl_parse]. rewrite (positional _ T2). cbn [app].
  destruct (items_good q (fun_arg q) K) as [IG ND].
  rewrite cl_parse_items by (assumption || (intros i _ [])). cbn [app].
  set (V := map item_pair (items_of q (fun_arg q))) in *.
  revert PS. unfold as_ffi_struct, setting.
  destruct (D "struct-alignment"%string) as [b1 E1]; [cbn; tauto|]. destruct (D "function-splits"%string) as [b2 E2]; [cbn; tauto|].
  destruct (D "unused-return-types"%string) as [b3 E3]; [cbn; tauto|]. destruct (D "kernel-prints"%string) as [b4 E4]; [cbn; tauto|].
  destruct (D "dead-code"%string) as [b5 E5]; [cbn; tauto|]. destruct (D "numerical-macros"%string) as [b6 E6]; [cbn; tauto|].
  destruct (D "relocations"%string) as [b7 E7]; [cbn; tauto|]. destruct (D "type-casts"%string) as [b8 E8]; [cbn; tauto|].
  destruct (D "control-flow-only"%string) as [b9 E9]; [cbn; tauto|]. destruct (D "inverse-conditions"%string) as [b10 E10]; [cbn; tauto|].
  destruct (D "reordered-bin-ops"%string) as [b11 E11]; [cbn; tauto|]. destruct (D "group-vars"%string) as [b12 E12]; [cbn; tauto|].
  rewrite E1, E2, E3, E4, E5, E6, E7, E8, E9, E10, E11, E12. cbn [bind]. intros PS. injection PS as <-.
  rewrite (GB _ _ E1), (GB _ _ E2), (GB _ _ E3), (GB _ _ E4), (GB _ _ E5), (GB _ _ E6), (GB _ _ E7), (GB _ _ E8), (GB _ _ E9),
    (GB _ _ E10), (GB _ _ E11), (GB _ _ E12) by (cbn; intuition discriminate).
  assert (S1 : cl_string V "cache-dir" = match truthy (q_cache q) with Some v => v | None => ""%string end).
  { unfold cl_string, V. rewrite dget_items, NS by (cbn; intuition discriminate). cbn. destruct (truthy (q_cache q)); reflexivity. }
  assert (S2 : cl_string V "custom-pattern-config" = match truthy (q_custom q) with Some v => v | None => ""%string end).
  { unfold cl_string, V. rewrite dget_items, NS by (cbn; intuition discriminate). cbn. unfold truthy. destruct (q_custom q) as [x|]; [|reflexivity].
    destruct (String.eqb_spec x ""); auto. }
  assert (S3 : cl_string V "var" = match truthy (q_var q) with Some v => v | None => ""%string end).
  { unfold cl_string, V. rewrite dget_items, NS by (cbn; intuition discriminate). cbn. destruct (truthy (q_var q)); reflexivity. }
  assert (S4 : cl_string V "fun" = fun_arg q) by (unfold cl_string, V; rewrite dget_items; reflexivity).
  assert (S5 : cl_string V "suffix" = if q_ir q then match truthy (q_suffix q) with Some v => v | None => ""%string end else ""%string).
  { unfold cl_string, V. rewrite dget_items, NS by (cbn; intuition discriminate). cbn. destruct (q_ir q), (truthy (q_suffix q)); reflexivity. }
  assert (F1 : cl_bool V "output-llvm-ir" = Some (q_ir q)).
  { unfold cl_bool, V. rewrite dget_items, NS by (cbn; intuition discriminate). cbn. destruct (q_ir q); reflexivity. }
  assert (F2 : cl_bool V "print-asm-diffs" = Some (q_asm q)).
  { unfold cl_bool, V. rewrite dget_items, NS by (cbn; intuition discriminate). cbn. destruct (q_asm q); reflexivity. }
  assert (F3 : cl_bool V "extended-stat" = Some (q_ext q)).
  { unfold cl_bool, V. rewrite dget_items, NS by (cbn; intuition discriminate). cbn. destruct (q_ext q); reflexivity. }
  assert (F4 : cl_bool V "print-callstacks" = Some true) by (unfold cl_bool, V; rewrite dget_items; reflexivity).
  assert (F5 : cl_nat V "verbosity" = Some (q_verb q)).
  { unfold cl_nat, V. rewrite dget_items, NS by (cbn; intuition discriminate).
    change (String.eqb "verbosity" "verbosity") with true. cbn [String.eqb Ascii.eqb Bool.eqb].
    destruct (Nat.ltb_spec 0 (q_verb q)) as [Q|Q].
    - rewrite dec_read. f_equal. apply Unsigned.of_to.
    - f_equal. lia. }
  rewrite F1, F2, F3, F4, F5, S1, S2, S3, S4, S5, (parse_fun_arg q T3).
  destruct (q_ir q).
  - destruct (truthy (q_suffix q)) as [x|] eqn:SU.
    + destruct SX as [X1 X2]; [discriminate|]. assert (NE : String.eqb x "" = false).
      { unfold truthy in SU. destruct (q_suffix q) as [z|]; [|discriminate]. destruct (String.eqb z "") eqn:Z; congruence. }
      rewrite NE, (suffixes_agree _ x X1), (suffixes_agree _ x X2). do 2 eexists. split; [reflexivity|]. split; [reflexivity|].
      split; [repeat split|]. intros _ _. unfold out_name. rewrite SU. split; reflexivity.
    + cbn [String.eqb]. do 2 eexists. split; [reflexivity|]. split; [reflexivity|]. split; [repeat split|]. congruence.
  - cbn [String.eqb]. do 2 eexists. split; [reflexivity|]. split; [reflexivity|]. split; [repeat split|]. discriminate.
Qed.
Print Assumptions C70_same_configuration.

(** Each pattern setting reaches SimpLL's switch of that name (through the library; by C70
    also through the binary). *)
Theorem C70_patterns_reach_simpll : forall l s, builtin_patterns l = Ok s ->
  exists ps, as_ffi_struct s = Ok ps /\
    dget s "struct-alignment"%string = Some (StructAlignment ps) /\ dget s "function-splits"%string = Some (FunctionSplits ps) /\
    dget s "unused-return-types"%string = Some (UnusedReturnTypes ps) /\ dget s "kernel-prints"%string = Some (KernelPrints ps) /\
    dget s "dead-code"%string = Some (DeadCode ps) /\ dget s "numerical-macros"%string = Some (NumericalMacros ps) /\
    dget s "relocations"%string = Some (Relocations ps) /\ dget s "type-casts"%string = Some (TypeCasts ps) /\
    dget s "control-flow-only"%string = Some (ControlFlowOnly ps) /\ dget s "inverse-conditions"%string = Some (InverseConditions ps) /\
    dget s "reordered-bin-ops"%string = Some (ReorderedBinOps ps) /\ dget s "group-vars"%string = Some (GroupVars ps).
Proof.
  intros l s H. destruct (builtin_patterns_get _ _ H) as (K & e & d & _ & _ & G).
  unfold as_ffi_struct, setting.
  rewrite (G "struct-alignment"%string _ eq_refl), (G "function-splits"%string _ eq_refl), (G "unused-return-types"%string _ eq_refl),
    (G "kernel-prints"%string _ eq_refl), (G "dead-code"%string _ eq_refl), (G "numerical-macros"%string _ eq_refl),
    (G "relocations"%string _ eq_refl), (G "type-casts"%string _ eq_refl), (G "control-flow-only"%string _ eq_refl),
    (G "inverse-conditions"%string _ eq_refl), (G "reordered-bin-ops"%string _ eq_refl), (G "group-vars"%string _ eq_refl).
  cbn [bind]. eexists. split; [reflexivity|]. repeat split.
Qed.
Print Assumptions C70_patterns_reach_simpll.

(** Outside these conditions they differ: a path with a non-ASCII character works only
    with the binary ... *)
Theorem C70_any_path_refuted : exists q, 
  through_library q = Err UnicodeEncodeError /\ exists b, simpll_main (command q) = Some b.
Proof.
  exists (mkRequest (String "195" (String "169" "/f.ll")) "g.ll" "f" "f" None (Some "simpl"%string) None None initial_settings
            false false false 0).
  split; [vm_compute; reflexivity|]. eexists. vm_compute. reflexivity.
Qed.
Print Assumptions C70_any_path_refuted.
(** ... and for files without an extension below a directory with a dot the output goes to
    different files; without any dot the binary crashes. *)
Theorem C70_any_file_name_refuted : exists q1 q2 a b,
  through_library q1 = Ok a /\ simpll_main (command q1) = Some b /\ s_out1 a <> s_out1 b /\
  (exists c, through_library q2 = Ok c) /\ simpll_main (command q2) = None.
Proof.
  exists (mkRequest "v1.0/file" "v2.0/file" "f" "f" None (Some "simpl"%string) None None initial_settings true false false 0),
         (mkRequest "old/file" "new/file" "f" "f" None (Some "simpl"%string) None None initial_settings true false false 0).
  do 2 eexists. split; [vm_compute; reflexivity|]. split; [vm_compute; reflexivity|]. split; [vm_compute; discriminate|].
  split; [eexists; vm_compute; reflexivity|vm_compute; reflexivity].
Qed.
Print Assumptions C70_any_file_name_refuted.

Example C70_example :
  let q := mkRequest "old/kernel.ll" "new/kernel.ll" "f" "f.1" (Some "v"%string) (Some "simpl"%string) (Some "/tmp/c"%string)
                     None initial_settings true false true 2 in
  builtin_patterns [] = Ok (q_settings q) /\ all_ascii q /\ transportable q /\
  snd (splitext (q_file1 q)) = ".ll"%string /\
  match simpll_main (command q) with
  | Some b => s_fun2 b = "f.1"%string /\ s_out1 b = "old/kernel-simpl.ll"%string /\ s_verb b = 2
  | None => False
  end.
Proof. vm_compute. repeat split. Qed.

(** ** C71 Custom pattern files *)
Lemma add_patterns_spec fl pp l : forall c,
  (exists c2, fold_res (add_pattern fl pp) c l = Ok c2) <->
  (forall p, In p l -> f_readable fl (pattern_path pp p) = true /\
     (pc_on_failure c <> "ERROR"%string \/ good_pattern fl (pattern_path pp p))).
Proof.
  induction l as [|p l IH]; intros c; cbn [fold_res]; [split; [intros _ p []|eauto]|].
  assert (S : forall c1, add_pattern fl pp c p = Ok c1 -> pc_on_failure c1 = pc_on_failure c).
  { intros c1. unfold add_pattern, on_parse_failure. destruct (f_readable fl _); [|discriminate]. cbn [negb].
    destruct (String.eqb (get_extension _) "ll").
    - destruct (f_valid fl _); cbn [bind]; [intros E; apply Ok_inj in E; subst; reflexivity|].
      destruct (String.eqb (pc_on_failure c) "ERROR"); cbn [bind]; [discriminate|]. intros E. apply Ok_inj in E. subst. reflexivity.
    - destruct (String.eqb (pc_on_failure c) "ERROR"); [discriminate|]. congruence. }
  assert (T : (exists c1, add_pattern fl pp c p = Ok c1) <->
    f_readable fl (pattern_path pp p) = true /\ (pc_on_failure c <> "ERROR"%string \/ good_pattern fl (pattern_path pp p))).
  { unfold add_pattern, on_parse_failure, good_pattern. destruct (f_readable fl _); cbn [negb]; [|split; [intros [? Q]; discriminate|intros [Q _]; discriminate]].
    destruct (String.eqb_spec (get_extension (pattern_path pp p)) "ll") as [E|E].
    - destruct (f_valid fl _); cbn [bind].
      + split; [intros _; split; [reflexivity|]; right; auto|eauto].
      + destruct (String.eqb_spec (pc_on_failure c) "ERROR") as [W|W]; cbn [bind].
        * split; [intros [? Q]; discriminate|]. intros [_ [Q|(_ & _ & Q)]]; [contradiction|discriminate].
        * split; [auto|eauto].
    - destruct (String.eqb_spec (pc_on_failure c) "ERROR") as [W|W].
      + split; [intros [? Q]; discriminate|]. intros [_ [Q|(_ & Q & _)]]; contradiction.
      + split; [auto|eauto]. }
  destruct (add_pattern fl pp c p) as [c1|e] eqn:A.
  - rewrite IH, (S c1 eq_refl). destruct T as [T _]. specialize (T (ex_intro _ c1 eq_refl)). split.
    + intros H q [<-|I]; [exact T|auto].
    + intros H q I. apply H. right. exact I.
  - split; [intros [? Q]; discriminate|]. intros H. destruct T as [_ T]. destruct (T (H p (or_introl eq_refl))) as [? Q]. discriminate.
Qed.

Lemma add_patterns_files fl pp l : forall c c2, fold_res (add_pattern fl pp) c l = Ok c2 ->
  forall f, In f (pc_files c2) <->
    In f (pc_files c) \/ exists p, In p l /\ f = pattern_path pp p /\ get_extension f = "ll"%string.
Proof.
  induction l as [|p l IH]; intros c c2 H f; cbn [fold_res] in H.
  - apply Ok_inj in H. subst. split; [auto|intros [I|(? & [] & _)]; exact I].
  - destruct (add_pattern fl pp c p) as [c1|] eqn:A; [|discriminate]. rewrite (IH _ _ H f).
    assert (B : In f (pc_files c1) <-> In f (pc_files c) \/ (f = pattern_path pp p /\ get_extension f = "ll"%string)).
    { unfold add_pattern, on_parse_failure in A. destruct (f_readable fl _); [|discriminate]. cbn [negb] in A.
      destruct (String.eqb_spec (get_extension (pattern_path pp p)) "ll") as [E|E].
      - assert (Q : pc_files c1 = set_add (pattern_path pp p) (pc_files c)).
        { destruct (f_valid fl _); cbn [bind] in A; [apply Ok_inj in A; subst; reflexivity|].
          destruct (String.eqb (pc_on_failure c) "ERROR"); cbn [bind] in A; [discriminate|]. apply Ok_inj in A. subst. reflexivity. }
        rewrite Q, set_add_In. split; [intros [->|I]; auto|intros [I|[-> _]]; auto].
      - destruct (String.eqb (pc_on_failure c) "ERROR"); [discriminate|]. apply Ok_inj in A. subst c1.
        split; [auto|]. intros [I|[-> Q]]; [exact I|contradiction]. }
    rewrite B. split.
    + intros [[I|[-> E]]|(q & I & Q)]; [auto|right; exists p; cbn; auto|right; exists q; cbn; tauto].
    + intros [I|(q & [<-|I] & Q)]; [auto|left; right; exact Q|right; eauto].
Qed.

Lemma pattern_file_iff pp p f : pattern_file pp p f <-> f = pattern_path pp p.
Proof.
  assert (AB : forall p, isabs p = true <-> exists r, p = ("/" ++ r)%string).
  { intros q. unfold isabs. split; [intros H; apply startswith_spec in H; destruct H as (r & ->); eauto|intros (r & ->); apply startswith_spec; eauto]. }
  assert (EN : forall d, endswith d "/" = true <-> exists e, d = (e ++ "/")%string).
  { intros d. split; [intros H; apply endswith_spec in H; exact H|intros H; apply endswith_spec; exact H]. }
  unfold pattern_path. split.
  - intros F. destruct F as [p|p|d r|d p N|d p N D E]; [reflexivity|reflexivity| | |].
    + cbn [truthy]. destruct (String.eqb d "") eqn:D; [reflexivity|]. unfold path_join. rewrite (proj2 (AB _)) by eauto. reflexivity.
    + cbn [truthy]. assert (D : String.eqb (d ++ "/") "" = false) by (destruct d; reflexivity). rewrite D. unfold path_join.
      assert (I : isabs p = false) by (destruct (isabs p) eqn:Y; [apply AB in Y as (r & ->); destruct (N r eq_refl)|reflexivity]). rewrite I, D.
      rewrite (proj2 (EN _)) by eauto. cbn [orb]. rewrite app_assoc_s. reflexivity.
    + cbn [truthy]. destruct (String.eqb_spec d "") as [->|_]; [contradiction|]. unfold path_join.
      assert (I : isabs p = false) by (destruct (isabs p) eqn:Y; [apply AB in Y as (r & ->); destruct (N r eq_refl)|reflexivity]). rewrite I.
      destruct (String.eqb_spec d "") as [->|_]; [contradiction|]. destruct (endswith d "/") eqn:Y; [apply EN in Y as (e & ->); destruct (E e eq_refl)|]. reflexivity.
  - intros ->. destruct pp as [d|]; [|constructor]. cbn [truthy]. destruct (String.eqb_spec d "") as [->|D]; [constructor|]. unfold path_join.
    destruct (isabs p) eqn:Y; [apply AB in Y as (r & ->); constructor|].
    assert (N : forall r, p <> ("/" ++ r)%string) by (intros r ->; rewrite (proj2 (AB _)) in Y by eauto; discriminate).
    destruct (String.eqb_spec d "") as [->|_]; [contradiction|]. destruct (endswith d "/") eqn:E.
    + apply EN in E as (e & ->). cbn [orb]. rewrite app_assoc_s. constructor. exact N.
    + cbn [orb]. constructor; [exact N|exact D|]. intros e ->. rewrite (proj2 (EN _)) in E by eauto. discriminate.
Qed.
(** A configuration file (extension not "", "l" or "ll") is accepted exactly if it has no
    pattern list, or its failure mode is known, every listed file is readable and, unless
    the mode is WARN, every listed file is a valid .ll file. *)
Theorem C71_configuration_accepted_iff : forall fl path pp,
  contains "ll" (get_extension path) = false ->
  ((exists c, create_from_file fl path pp = Ok c) <->
   f_readable fl path = true /\
   match cy_patterns (f_yaml fl path) with
   | None => True
   | Some l =>
       (cy_on_failure (f_yaml fl path) = Some "WARN"%string /\ forall p f, In p l -> pattern_file pp p f -> f_readable fl f = true) \/
       ((cy_on_failure (f_yaml fl path) = None \/ cy_on_failure (f_yaml fl path) = Some "ERROR"%string) /\
        forall p f, In p l -> pattern_file pp p f -> good_pattern fl f)
   end).
Proof.
  intros fl path pp X.
  cut ((exists c, create_from_file fl path pp = Ok c) <->
   f_readable fl path = true /\
   match cy_patterns (f_yaml fl path) with
   | None => True
   | Some l =>
       (cy_on_failure (f_yaml fl path) = Some "WARN"%string /\ forall p, In p l -> f_readable fl (pattern_path pp p) = true) \/
       ((cy_on_failure (f_yaml fl path) = None \/ cy_on_failure (f_yaml fl path) = Some "ERROR"%string) /\
        forall p, In p l -> good_pattern fl (pattern_path pp p))
   end).
  { assert (Q : forall (P : string -> Prop) l, (forall p, In p l -> P (pattern_path pp p)) <-> (forall p f, In p l -> pattern_file pp p f -> P f)).
    { intros P l. split; [intros H p f I F; apply pattern_file_iff in F; subst; auto|]. intros H p I. apply (H p); [exact I|apply pattern_file_iff; reflexivity]. }
    intros ->. destruct (cy_patterns _) as [l|]; [|reflexivity]. rewrite (Q (fun f => f_readable fl f = true)), (Q (good_pattern fl)). reflexivity. } unfold create_from_file. destruct (f_readable fl path); cbn [negb]; [|split; [intros [? Q]; discriminate|intros [Q _]; discriminate]].
  rewrite X. cbn [negb]. unfold load_yaml. destruct (cy_patterns (f_yaml fl path)) as [l|]; [|split; [auto|eauto]].
  assert (GP : forall p, good_pattern fl p -> f_readable fl p = true) by (intros p Q; apply Q).
  destruct (cy_on_failure (f_yaml fl path)) as [a|].
  - destruct (mem a ["ERROR"; "WARN"]%string) eqn:M; cbn [bind].
    + rewrite add_patterns_spec. cbn [pc_on_failure]. apply mem_In in M. destruct M as [<-|[<-|[]]].
      * split.
        -- intros H. split; [reflexivity|]. right. split; [auto|]. intros p I. destruct (H p I) as [_ [Q|Q]]; [contradiction|exact Q].
        -- intros (_ & [[Q _]|[_ H]]); [discriminate|]. intros p I. split; [apply GP, H, I|]. right. apply H, I.
      * split.
        -- intros H. split; [reflexivity|]. left. split; [reflexivity|]. intros p I. apply H, I.
        -- intros (_ & [[_ H]|[[Q|Q] _]]); [|discriminate|discriminate]. intros p I. split; [apply H, I|]. left. discriminate.
    + split; [intros [? Q]; discriminate|]. intros (_ & [[E _]|[[E|E] _]]); [| |]; try discriminate; injection E as ->; discriminate.
  - cbn [bind]. rewrite add_patterns_spec. cbn [pc_on_failure]. split.
    + intros H. split; [reflexivity|]. right. split; [auto|]. intros p I. destruct (H p I) as [_ [Q|Q]]; [contradiction|exact Q].
    + intros (_ & [[Q _]|[_ H]]); [discriminate|]. intros p I. split; [apply GP, H, I|]. right. apply H, I.
Qed.
Print Assumptions C71_configuration_accepted_iff.

(** The pattern files used are the listed files with the extension .ll. *)
Theorem C71_files_of_a_configuration : forall fl path pp c l,
  contains "ll" (get_extension path) = false ->
  create_from_file fl path pp = Ok c -> cy_patterns (f_yaml fl path) = Some l ->
  forall f, In f (pc_files c) <-> exists p, In p l /\ pattern_file pp p f /\ get_extension f = "ll"%string.
Proof.
  intros fl path pp c l X. cut (create_from_file fl path pp = Ok c -> cy_patterns (f_yaml fl path) = Some l ->
    forall f, In f (pc_files c) <-> exists p, In p l /\ f = pattern_path pp p /\ get_extension f = "ll"%string).
  { intros Z C Y f. rewrite (Z C Y f). split; intros (p & I & F & E); exists p; repeat split; auto; apply pattern_file_iff; assumption. } unfold create_from_file. destruct (f_readable fl path); [|discriminate]. cbn [negb]. rewrite X. cbn [negb].
  intros H Y. unfold load_yaml in H. rewrite Y in H. intros f.
  destruct (match cy_on_failure (f_yaml fl path) with None => _ | Some _ => _ end) as [c1|] eqn:M; [|discriminate]. cbn [bind] in H.
  rewrite (add_patterns_files _ _ _ _ _ H f).
  assert (E : pc_files c1 = []).
  { destruct (cy_on_failure (f_yaml fl path)); [destruct (mem _ _); [|discriminate]|]; apply Ok_inj in M; subst; reflexivity. }
  rewrite E. split; [intros [[]|Q]; exact Q|auto].
Qed.
Print Assumptions C71_files_of_a_configuration.

(** In WARN mode files that are not valid LLVM IR stay in use. *)
Theorem C71_only_valid_patterns_used_refuted : exists fl path c f,
  create_from_file fl path None = Ok c /\ In f (pc_files c) /\ f_valid fl f = false.
Proof.
  exists (mkCfiles (fun _ => true) (fun _ => false) (fun _ => mkCyaml (Some ["bad.ll"%string]) (Some "WARN"%string))),
    "patterns.yaml"%string.
  do 2 eexists. split; [vm_compute; reflexivity|]. split; [left; reflexivity|reflexivity].
Qed.
Print Assumptions C71_only_valid_patterns_used_refuted.

(** A configuration in a file without extension (or with the extension .l) is rejected
    whatever it contains: it is taken for a pattern file. *)
Theorem C71_configuration_needs_extension : forall fl path pp,
  get_extension path = ""%string \/ get_extension path = "l"%string ->
  get_extension (pattern_path pp path) = get_extension path ->
  exists e, create_from_file fl path pp = Err e /\ (e = ValueError \/ e = UnsupportedCustomPatternError).
Proof.
  intros fl path pp X E. unfold create_from_file. destruct (f_readable fl path); cbn [negb]; [|eauto].
  assert (C : contains "ll" (get_extension path) = true) by (destruct X as [-> | ->]; reflexivity). rewrite C. cbn [negb].
  unfold add_pattern, on_parse_failure. destruct (f_readable fl (pattern_path pp path)); cbn [negb]; [|eauto].
  rewrite E. cbn [pc_on_failure String.eqb]. destruct X as [-> | ->]; cbn; eauto.
Qed.
Print Assumptions C71_configuration_needs_extension.

Example C71_example :
  let fl := mkCfiles (fun _ => true) (fun f => String.eqb f "d/a.LL")
                     (fun f => mkCyaml (Some ["a.LL"; "b.txt"]%string) (if String.eqb f "w.yaml" then Some "WARN"%string else None)) in
  create_from_file fl "w.yaml" (Some "d"%string) = Ok (mkPatternConfig ["d/a.LL"%string] "WARN") /\
  create_from_file fl "e.yaml" (Some "d"%string) = Err UnsupportedCustomPatternError /\
  create_from_file fl "noext" None = Err UnsupportedCustomPatternError.
Proof. vm_compute. auto. Qed.
