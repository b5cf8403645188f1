(** * Property C160: the kernel symbol table is not compared
    (diffkemp/simpll/passes/SimplifyKernelGlobalsPass.cpp). *)
From Coq Require Import String Ascii ZArith Arith Bool Lia List.
From Verif Require Import PyBase Ksym_Model Ksym_Spec Ksym_Proof.
Import ListNotations.
Open Scope list_scope.
Open Scope nat_scope.

(** There are no symbols left, and nothing refers to one that was removed. *)
Theorem C160_symbols_gone : forall m m',
  remove_symbol_table m = Some m' ->
  (forall v, In v (m_vars m') -> ~ symbol (v_name v))
  /\ (forall n v c, symbol_of m n -> In v (m_vars m') -> v_init v = Some c -> ~ refers n c)
  /\ (forall n f c, symbol_of m n -> In f (m_funs m') -> In c (snd f) -> ~ refers n c).
Proof.
  intros m m' H. apply table_removed in H; destruct H as (es & L & ->); simpl.
  assert (V : forall v, In v (map (drops_var (table m)) (filter plain (m_vars m)) ++ map (drops_var (table m)) (used_new es)) ->
              exists w, v = drops_var (table m) w /\ ~ symbol (v_name w)).
  { intros v Hv; apply in_app_or in Hv; destruct Hv as [Hv | Hv]; apply in_map_iff in Hv; destruct Hv as (w & <- & Hw); exists w; split; try reflexivity.
    - apply filter_In in Hw; destruct Hw as [_ Hw]; apply plain_spec in Hw; tauto.
    - unfold used_new in Hw; destruct es; [destruct Hw | destruct Hw as [<- | []]]. intros [r Hr]; discriminate Hr. }
  split; [|split].
  - intros v Hv. destruct (V v Hv) as (w & -> & Hw). exact Hw.
  - intros n v c Hn Hv Hc R. destruct (V v Hv) as (w & -> & _). destruct w as [x [d|]]; simpl in Hc; [|discriminate]. injection Hc as <-.
    destruct (without_refers _ n d _ (drops_without (table m) d) R) as [K _]; apply K, in_table, Hn.
  - intros n f c Hn Hf Hc R. apply in_map_iff in Hf; destruct Hf as (g & <- & Hg). simpl in Hc; apply in_map_iff in Hc; destruct Hc as (d & <- & Hd).
    destruct (without_refers _ n d _ (drops_without (table m) d) R) as [K _]; apply K, in_table, Hn.
Qed.

(** Everything else stays as it was, in its order, with null pointers in the place of what was
    removed; "llvm.used" comes last, with the entries that are not symbols, if there are any. *)
Theorem C160_rest_kept : forall m m',
  named m -> remove_symbol_table m = Some m' ->
  exists vs ws us,
    part (fun v => ~ symbol (v_name v) /\ v_name v <> "llvm.used"%string) (m_vars m) vs
    /\ m_vars m' = ws ++ us
    /\ Forall2 (without_var (symbol_of m)) vs ws
    /\ Forall2 (without_fun (symbol_of m)) (m_funs m) (m_funs m')
    /\ ((forall v, In v (m_vars m) -> v_name v <> "llvm.used"%string) -> us = [])
    /\ (forall es, used m es -> exists es1, part (fun e => ~ symbol_entry e) es es1
          /\ (es1 = [] -> us = [])
          /\ (es1 <> [] -> exists es2, Forall2 (without (symbol_of m)) es1 es2 /\ us = [mkVar "llvm.used" (Some (KArray es2))])).
Proof.
  intros m m' N H. apply table_removed in H; destruct H as (es & L & ->); simpl.
  exists (filter plain (m_vars m)), (map (drops_var (table m)) (filter plain (m_vars m))), (map (drops_var (table m)) (used_new es)).
  split; [apply part_filter, plain_spec|]. split; [reflexivity|].
  split; [apply Forall2_map_self, without_drops_var|]. split; [apply Forall2_map_self, without_drops_fun|].
  split.
  - intros A. destruct L as [(es0 & U & _) | [_ ->]]; [|reflexivity]. exfalso; exact (A _ U eq_refl).
  - intros es0 U. exists es. destruct L as [(es0' & U' & ->) | [A _]].
    + assert (es0' = es0) as ->.
      { pose proof (lookup_here _ _ N U) as K1. pose proof (lookup_here _ _ N U') as K2. simpl in *. rewrite K1 in K2; congruence. }
      split; [|split].
      * apply part_filter. intros e. rewrite negb_true_iff, <- entry_spec, not_true_iff_false; reflexivity.
      * intros ->; reflexivity.
      * intros K. destruct (filter _ es0) as [|e l] eqn:E; [contradiction|]. exists (map (drops (table m)) (e :: l)).
        split; [apply without_drops_list|]. unfold used_new; simpl map at 1. unfold drops_var; simpl v_name; simpl v_init; simpl option_map.
        rewrite map_drops_array; reflexivity.
    + exfalso; apply A. change "llvm.used"%string with (v_name (mkVar "llvm.used" (Some (KArray es0)))). apply in_map, U.
Qed.

(** Two modules that differ in their symbols only, to which nothing else refers, become the same. *)
Theorem C160_symbols_not_compared : forall m1 m2 m1' m2' vs es1 es2 es,
  named m1 -> named m2 ->
  part (fun v => ~ symbol (v_name v) /\ v_name v <> "llvm.used"%string) (m_vars m1) vs ->
  part (fun v => ~ symbol (v_name v) /\ v_name v <> "llvm.used"%string) (m_vars m2) vs ->
  m_funs m1 = m_funs m2 ->
  (used m1 es1 \/ es1 = [] /\ forall v, In v (m_vars m1) -> v_name v <> "llvm.used"%string) -> part (fun e => ~ symbol_entry e) es1 es ->
  (used m2 es2 \/ es2 = [] /\ forall v, In v (m_vars m2) -> v_name v <> "llvm.used"%string) -> part (fun e => ~ symbol_entry e) es2 es ->
  (forall n, symbol n -> (forall v c, In v vs -> v_init v = Some c -> ~ refers n c) /\ (forall f c, In f (m_funs m1) -> In c (snd f) -> ~ refers n c)
     /\ (forall c, In c es -> ~ refers n c)) ->
  remove_symbol_table m1 = Some m1' -> remove_symbol_table m2 = Some m2' -> m1' = m2'.
Proof.
  assert (one : forall m m' vs es0 es, named m ->
    part (fun v => ~ symbol (v_name v) /\ v_name v <> "llvm.used"%string) (m_vars m) vs ->
    (used m es0 \/ es0 = [] /\ forall v, In v (m_vars m) -> v_name v <> "llvm.used"%string) -> part (fun e => ~ symbol_entry e) es0 es ->
    (forall n, symbol n -> (forall v c, In v vs -> v_init v = Some c -> ~ refers n c) /\ (forall f c, In f (m_funs m) -> In c (snd f) -> ~ refers n c)
       /\ (forall c, In c es -> ~ refers n c)) ->
    remove_symbol_table m = Some m' -> m' = mkModule (vs ++ used_new es) (m_funs m)).
  { intros m m' vs es0 es N P U Q R H. apply table_removed in H; destruct H as (l & L & ->).
    apply (part_is_filter _ _ _ _ plain_spec) in P. rewrite <- P.
    assert (Q' : es = filter (fun e => negb (symbol_name (entry_name e))) es0).
    { refine (part_is_filter _ _ _ _ _ Q). intros e. rewrite negb_true_iff, <- entry_spec, not_true_iff_false; reflexivity. }
    assert (l = es) as ->.
    { rewrite Q'. destruct L as [(l0 & U0 & ->) | [A ->]].
      - destruct U as [U | [_ A]]; [|exfalso; exact (A _ U0 eq_refl)]. f_equal.
        pose proof (lookup_here _ _ N U) as K1. pose proof (lookup_here _ _ N U0) as K2. simpl in *. rewrite K1 in K2; congruence.
      - destruct U as [U | [-> _]]; [|reflexivity]. exfalso; apply A.
        change "llvm.used"%string with (v_name (mkVar "llvm.used" (Some (KArray es0)))). apply in_map, U. }
    assert (D : forall c, (forall n, symbol n -> ~ refers n c) -> drops (table m) c = c).
    { intros c Hc. apply (without_unused (fun x => In x (table m)) c); [apply drops_without|]. intros n Hn; apply Hc. apply in_table in Hn; apply Hn. }
    f_equal; [f_equal|].
    - rewrite <- (map_id vs) at 2. apply map_ext_in. intros [x [c|]] Hv; unfold drops_var; simpl; [|reflexivity].
      rewrite D; [reflexivity|]. intros n Hn; apply (proj1 (R n Hn) _ c Hv); reflexivity.
    - unfold used_new; destruct es as [|e es']; [reflexivity|]. unfold drops_var; simpl map; simpl v_name; simpl v_init; simpl option_map.
      rewrite map_drops_array. do 4 f_equal. rewrite <- (map_id (e :: es')) at 2. apply map_ext_in. intros c Hc. apply D. intros n Hn; apply (R n Hn); exact Hc.
    - rewrite <- (map_id (m_funs m)) at 2. apply map_ext_in. intros [x cs] Hf; unfold drops_fun; simpl; f_equal.
      rewrite <- (map_id cs) at 2. apply map_ext_in. intros c Hc. apply D. intros n Hn. apply (proj1 (proj2 (R n Hn)) _ c Hf Hc). }
  intros m1 m2 m1' m2' vs es1 es2 es N1 N2 P1 P2 F U1 Q1 U2 Q2 R H1 H2.
  rewrite (one m1 m1' vs es1 es N1 P1 U1 Q1 R H1). rewrite F in *. symmetry. exact (one m2 m2' vs es2 es N2 P2 U2 Q2 R H2).
Qed.

(** The removal works for symbols that have a value with a reference of its own (to the text of
    the name), and a "llvm.used" that is an array. *)
Theorem C160_works : forall m,
  named m ->
  (forall v, In v (m_vars m) -> v_name v = "llvm.used"%string -> exists es, v_init v = Some (KArray es)) ->
  (forall v, In v (m_vars m) -> symbol (v_name v) ->
     exists c p, v_init v = Some c /\ ~ symbol p /\ refers p c /\ ~ referred_elsewhere m (v_name v) p) ->
  exists m', remove_symbol_table m = Some m'.
Proof. exact table_works. Qed.

(** It fails for every symbol that is only declared. *)
Theorem C160_declared_refuted : forall m v, named m -> In v (m_vars m) -> symbol (v_name v) -> v_init v = None -> remove_symbol_table m = None.
Proof.
  intros m v N Hv Hs Hi. destruct (remove_symbol_table m) as [m'|] eqn:E; [exfalso|reflexivity].
  assert (step : forall ns k k', remove_symbols ns k = Some k' -> NoDup ns -> In (v_name v) ns -> named k -> In v (m_vars k) -> False).
  { induction ns as [|n ns IH]; intros k k' H D Hn Nk Hk; [destruct Hn|]. inversion D; subst. simpl in H.
    destruct (remove_symbol n k) as [k1|] eqn:S; [|discriminate].
    destruct (string_dec n (v_name v)) as [-> | Hne].
    - unfold remove_symbol in S. rewrite (lookup_here (m_vars k) v Nk Hk) in S. destruct v as [x i]; simpl in *; subst; discriminate.
    - apply (IH k1 k' H); [assumption| | |].
      + destruct Hn; [contradiction | assumption].
      + apply remove_symbol_is in S; subst. unfold named; simpl. rewrite drop_names. apply NoDup_names_filter, Nk.
      + apply remove_symbol_is in S; subst; simpl. replace v with (drop_var n v) by (destruct v as [x i]; simpl in Hi; subst; reflexivity).
        apply in_map, erase_In; split; [exact Hk | congruence]. }
  unfold remove_symbol_table in E. destruct (clean_used (m_vars m)) as [l|] eqn:C; [|discriminate].
  assert (Hl : In v l /\ NoDup (map v_name l)).
  { unfold clean_used in C. destruct (lookup "llvm.used" (m_vars m)) as [u|]; [|injection C as <-; split; assumption].
    destruct (v_init u) as [[| | | | |es]|]; try discriminate. injection C as <-. split.
    - apply in_or_app; left; apply erase_In; split; [exact Hv|]. intros J; rewrite J in Hs; destruct Hs; discriminate.
    - rewrite map_app. destruct (filter _ es) as [|e l']; simpl; [rewrite app_nil_r; apply NoDup_names_filter, N|].
      apply NoDup_Add with (a := "llvm.used"%string) (l := map v_name (erase_var "llvm.used" (m_vars m))).
      + rewrite <- (app_nil_r (map v_name (erase_var "llvm.used" (m_vars m)))) at 1. apply Add_app.
      + split; [apply NoDup_names_filter, N|]. intros K; apply in_map_iff in K; destruct K as (w & Hw & Hi'). apply erase_In in Hi'; tauto. }
  apply (step _ _ _ E); simpl; [apply NoDup_filter, N | | apply Hl | apply Hl].
  apply filter_In; split; [apply in_map, Hv | apply symbol_name_spec, Hs].
Qed.

(** It fails for every "llvm.used" without a value that is an array of elements. *)
Theorem C160_used_refuted : forall m v,
  named m -> In v (m_vars m) -> v_name v = "llvm.used"%string -> (forall es, v_init v <> Some (KArray es)) -> remove_symbol_table m = None.
Proof.
  intros m v N Hv Hn Hi. unfold remove_symbol_table, clean_used. rewrite <- Hn, (lookup_here (m_vars m) v N Hv).
  destruct (v_init v) as [[| | | | |es]|]; try reflexivity. exfalso; apply (Hi es); reflexivity.
Qed.

(** Two symbols with the same structure as their value: the removal fails. *)
Theorem C160_shared_refuted : exists m,
  named m /\ (forall v, In v (m_vars m) -> exists c, v_init v = Some c) /\ remove_symbol_table m = None.
Proof.
  exists (mkModule [mkVar "__ksymtab_a" (Some (KStruct [KGlobal "f"; KInt 0])); mkVar "__ksymtab_b" (Some (KStruct [KGlobal "f"; KInt 0]))] []).
  split; [|split; [|reflexivity]].
  - repeat constructor; simpl; intuition discriminate.
  - intros v [<- | [<- | []]]; eexists; reflexivity.
Qed.

(** Functions that use different symbols become the same, and names that only start as those of
    symbols are removed too. *)
Theorem C160_uses_refuted : exists m1 m2 m',
  m_funs m1 <> m_funs m2 /\ remove_symbol_table m1 = Some m' /\ remove_symbol_table m2 = Some m'.
Proof.
  exists (mkModule [mkVar "__ksymbol_lock" (Some (KInt 0))] [("main"%string, [KGlobal "__ksymbol_lock"])]),
         (mkModule [mkVar "__ksymbol_list" (Some (KInt 1))] [("main"%string, [KGlobal "__ksymbol_list"])]), (mkModule [] [("main"%string, [KNull])]).
  split; [discriminate | split; reflexivity].
Qed.

Definition kernel : kmodule := mkModule
  [ mkVar "__kstrtab_f" (Some (KArray [KInt 102; KInt 0])); mkVar "__ksymtab_f" (Some (KStruct [KGlobal "f"; KGlobal "__kstrtab_f"]));
    mkVar "llvm.used" (Some (KArray [KCast (KGlobal "__ksymtab_f") "i8*"; KGlobal "lock"])); mkVar "lock" (Some (KInt 0)) ]
  [("f"%string, [KGlobal "lock"]); ("g"%string, [])].
Definition kernel_plain : kmodule := mkModule
  [ mkVar "__kstrtab_f" (Some (KArray [KInt 102; KInt 0])); mkVar "lock" (Some (KInt 0)); mkVar "llvm.used" (Some (KArray [KGlobal "lock"])) ]
  [("f"%string, [KGlobal "lock"]); ("g"%string, [])].
Example C160_result : remove_symbol_table kernel = Some kernel_plain /\ remove_symbol_table kernel_plain = Some kernel_plain.
Proof. split; reflexivity. Qed.
Example C160_hypotheses_met :
  named kernel /\ (forall v, In v (m_vars kernel) -> v_name v = "llvm.used"%string -> exists es, v_init v = Some (KArray es))
  /\ (forall v, In v (m_vars kernel) -> symbol (v_name v) ->
     exists c p, v_init v = Some c /\ ~ symbol p /\ refers p c /\ ~ referred_elsewhere kernel (v_name v) p).
Proof.
  split; [repeat constructor; simpl; intuition discriminate|]. split.
  - intros v [<- | [<- | [<- | [<- | []]]]] H; try discriminate H; eexists; reflexivity.
  - intros v [<- | [<- | [<- | [<- | []]]]] [r H]; simpl in H; try discriminate H.
    exists (KStruct [KGlobal "f"; KGlobal "__kstrtab_f"]), "__kstrtab_f"%string. split; [reflexivity|]. split; [intros [r' K]; discriminate K|].
    split; [eapply refers_struct; [right; left; reflexivity | constructor]|].
    intros [(w & d & Hw & Hn & Hd & R) | (f & d & Hf & Hd & R)].
    + destruct Hw as [<- | [<- | [<- | [<- | []]]]]; simpl in *; try (exact (Hn eq_refl)); injection Hd as <-; inversion R; subst;
        repeat match goal with H : In _ [] |- _ => destruct H | H : In _ (_ :: _) |- _ => destruct H as [<- | H]
               | H : refers _ _ |- _ => inversion H; clear H; subst end.
    + destruct Hf as [<- | [<- | []]]; simpl in Hd; [destruct Hd as [<- | []]; inversion R | destruct Hd].
Qed.

Example C160_compared_met : forall m1' m2',
  remove_symbol_table kernel = Some m1' -> remove_symbol_table kernel_plain = Some m2' -> m1' = m2'.
Proof.
  intros m1' m2'.
  assert (no : forall n (x : string), symbol n -> symbol_name x = false -> ~ refers n (KGlobal x)).
  { intros n x Hn Hx R; inversion R; subst. apply symbol_name_spec in Hn; congruence. }
  apply (C160_symbols_not_compared kernel kernel_plain m1' m2'
           [mkVar "__kstrtab_f" (Some (KArray [KInt 102; KInt 0])); mkVar "lock" (Some (KInt 0))]
           [KCast (KGlobal "__ksymtab_f") "i8*"; KGlobal "lock"] [KGlobal "lock"] [KGlobal "lock"]).
  - repeat constructor; simpl; intuition discriminate.
  - repeat constructor; simpl; intuition discriminate.
  - exact (part_filter _ _ (m_vars kernel) plain_spec).
  - exact (part_filter _ _ (m_vars kernel_plain) plain_spec).
  - reflexivity.
  - left; right; right; left; reflexivity.
  - apply part_skip; [intros H; apply H; exists "__ksymtab_f"%string; split; [exists "tab_f"%string; reflexivity | right; eexists; reflexivity]|].
    apply part_keep; [|constructor]. intros H; apply entry_spec in H; discriminate H.
  - left; right; right; left; reflexivity.
  - apply part_keep; [|constructor]. intros H; apply entry_spec in H; discriminate H.
  - intros n Hn. split; [|split].
    + intros v c [<- | [<- | []]] [= <-] R; inversion R; subst.
      repeat match goal with H : In _ [] |- _ => destruct H | H : In _ (_ :: _) |- _ => destruct H as [<- | H]
             | H : refers _ _ |- _ => inversion H; clear H; subst end.
    + intros f c [<- | [<- | []]] Hc; simpl in Hc; [destruct Hc as [<- | []]; apply no; [exact Hn | reflexivity] | destruct Hc].
    + intros c [<- | []]; apply no; [exact Hn | reflexivity].
Qed.

Print Assumptions C160_symbols_gone.
Print Assumptions C160_rest_kept.
Print Assumptions C160_symbols_not_compared.
Print Assumptions C160_works.
Print Assumptions C160_declared_refuted.
Print Assumptions C160_used_refuted.
Print Assumptions C160_shared_refuted.
Print Assumptions C160_uses_refuted.
