(** * Lemmas about the configuration *)
From Coq Require Import String Ascii ZArith Arith Bool Lia List DecimalString DecimalNat.
From Verif Require Import PyBase Path_Model Cache_Proofs Snapshot_Proofs Compare_Model Compare_Proofs Config_Model Config_Spec.
Import ListNotations.
Open Scope list_scope.

(** ** Pattern options *)
Lemma parse_popts_spec l : forall e0 d0 e d, fold_res parse_popt (e0, d0) l = Ok (e, d) ->
  (forall p, In p e <-> In p e0 \/ In (EnablePattern p) l \/ (p = "all"%string /\ In EnableAll l)) /\
  (forall p, In p d <-> In p d0 \/ In (DisablePattern p) l \/ (p = "all"%string /\ In DisableAll l)) /\
  (forall o p, In o l -> In p (names_of o) -> In p cli_patterns).
Proof.
  induction l as [|o l IH]; intros e0 d0 e d H; cbn [fold_res] in H.
  - apply Ok_inj in H. injection H as <- <-. split; [|split]; [intros p; cbn; intuition|intros p; cbn; intuition|intros o p []].
  - destruct (parse_popt (e0, d0) o) as [[e1 d1]|] eqn:P; [|discriminate]. destruct (IH _ _ _ _ H) as (A & B & C). clear IH H.
    destruct o as [p|p| |]; cbn [parse_popt] in P.
    + destruct (mem p cli_patterns) eqn:M; [|discriminate]. injection P as <- <-. apply mem_In in M. split; [|split].
      * intros q. rewrite A, in_app_iff. cbn [In]. intuition (congruence || (subst; auto)).
      * intros q. rewrite B. cbn [In]. intuition congruence.
      * intros o q [<-|I] J; [|eauto]. destruct J as [<-|[]]. exact M.
    + destruct (mem p cli_patterns) eqn:M; [|discriminate]. injection P as <- <-. apply mem_In in M. split; [|split].
      * intros q. rewrite A. cbn [In]. intuition congruence.
      * intros q. rewrite B, in_app_iff. cbn [In]. intuition (congruence || (subst; auto)).
      * intros o q [<-|I] J; [|eauto]. destruct J as [<-|[]]. exact M.
    + injection P as <- <-. split; [|split].
      * intros q. rewrite A, in_app_iff. cbn [In]. intuition congruence.
      * intros q. rewrite B. cbn [In]. intuition congruence.
      * intros o q [<-|I] J; [destruct J|eauto].
    + injection P as <- <-. split; [|split].
      * intros q. rewrite A. cbn [In]. intuition congruence.
      * intros q. rewrite B, in_app_iff. cbn [In]. intuition congruence.
      * intros o q [<-|I] J; [destruct J|eauto].
Qed.

Lemma parse_popts_ok l : forall ed, (forall o p, In o l -> In p (names_of o) -> In p cli_patterns) ->
  exists r, fold_res parse_popt ed l = Ok r.
Proof.
  induction l as [|o l IH]; intros [e d] H; [cbn; eauto|]. cbn [fold_res].
  assert (H2 : forall o p, In o l -> In p (names_of o) -> In p cli_patterns) by (intros; eapply H; [right|]; eassumption).
  destruct o as [p|p| |]; cbn [parse_popt]; try (apply IH; exact H2);
    (assert (M : mem p cli_patterns = true) by (apply mem_In; eapply H; [left; reflexivity|left; reflexivity]));
    rewrite M; apply IH; exact H2.
Qed.
Lemma parse_popts_err l : forall ed e, fold_res parse_popt ed l = Err e -> e = SystemExit.
Proof.
  induction l as [|o l IH]; intros [e d] x H; [discriminate|]. cbn [fold_res] in H.
  destruct o as [p|p| |]; cbn [parse_popt] in H; eauto; destruct (mem p cli_patterns); eauto; congruence.
Qed.

Definition base_value (e d : list string) (p : string) (b0 : bool) : bool :=
  if mem p d then false else if mem p e then true
  else if mem "all"%string d then false else if mem "all"%string e then true else b0.

Lemma dget_map_val {V W} (f : string * V -> W) (s : dict string V) k :
  dget (map (fun kv => (fst kv, f kv)) s) k = match dget s k with Some v => Some (f (k, v)) | None => None end.
Proof.
  induction s as [|[k1 v1] s IH]; [reflexivity|]. cbn [map dget fst].
  destruct (eqb_spec k k1) as [->|_]; [reflexivity|exact IH].
Qed.

Lemma updated_get e d s p :
  dget (map (update_one e d) (let s1 := if mem "all"%string e then set_all true s else s in
                              if mem "all"%string d then set_all false s1 else s1)) p =
  match dget s p with Some b => Some (base_value e d p b) | None => None end.
Proof.
  unfold update_one. cbv zeta.
  rewrite (dget_map_val (fun kv : string * bool => if mem (fst kv) d then false else if mem (fst kv) e then true else snd kv)).
  unfold base_value, set_all. cbn [fst snd].
  destruct (mem "all"%string d), (mem "all"%string e);
    rewrite ?(dget_map_val (fun _ : string * bool => false)), ?(dget_map_val (fun _ : string * bool => true));
    destruct (dget s p); try reflexivity; destruct (mem p d), (mem p e); reflexivity.
Qed.
Lemma updated_keys e d s :
  map fst (map (update_one e d) (let s1 := if mem "all"%string e then set_all true s else s in
                              if mem "all"%string d then set_all false s1 else s1)) = map fst s.
Proof.
  rewrite map_map. unfold update_one, set_all. cbn [fst].
  destruct (mem "all"%string d), (mem "all"%string e); rewrite ?map_map; reflexivity.
Qed.

Lemma dset_keys_in {V} (s : dict string V) k v : In k (map fst s) -> map fst (dset s k v) = map fst s.
Proof.
  induction s as [|[k1 v1] s IH]; [intros []|]. cbn [map fst dset]. destruct (eqb_spec k k1) as [->|N]; cbn [map fst]; [reflexivity|].
  intros [->|I]; [contradiction|]. f_equal. apply IH, I.
Qed.

Lemma builtin_patterns_get l s : builtin_patterns l = Ok s ->
  map fst s = map fst initial_settings /\
  exists e d, parse_popts l = Ok (e, d) /\
  let cfo := base_value e d "control-flow-only" false in
  dget s "control-flow-only"%string = Some cfo /\
  forall p b0, dget initial_settings p = Some b0 ->
    dget s p = Some (if String.eqb p "type-casts" then base_value e d p b0 || cfo else base_value e d p b0).
Proof.
  unfold builtin_patterns. destruct (parse_popts l) as [[e d]|] eqn:P; [|discriminate]. cbn [bind fst snd]. intros H.
  apply Ok_inj in H. subst s. change (resolve_dependencies initial_settings) with initial_settings.
  unfold update_from_args, resolve_dependencies. cbv zeta.
  pose proof (updated_get e d initial_settings) as G. pose proof (updated_keys e d initial_settings) as K. cbv zeta in G, K.
  set (t := map (update_one e d) _) in *.
  assert (C : dget t "control-flow-only"%string = Some (base_value e d "control-flow-only" false)) by (rewrite G; reflexivity).
  rewrite C. split.
  - destruct (base_value e d "control-flow-only" false); [|exact K]. rewrite dset_keys_in; [exact K|]. rewrite K. cbn. tauto.
  - exists e, d. split; [reflexivity|]. destruct (base_value e d "control-flow-only" false) eqn:B.
    + split; [rewrite dget_dset_other; [exact C|discriminate]|]. intros p b0 I.
      destruct (String.eqb_spec p "type-casts") as [->|N].
      * rewrite dget_dset_same, orb_true_r. reflexivity.
      * rewrite dget_dset_other by exact N. rewrite G, I. reflexivity.
    + split; [exact C|]. intros p b0 I. rewrite G, I, orb_false_r. destruct (String.eqb p "type-casts"); reflexivity.
Qed.

Lemma base_value_wanted l e d p b0 : parse_popts l = Ok (e, d) -> p <> "all"%string -> wanted l p b0 (base_value e d p b0).
Proof.
  intros P N. destruct (parse_popts_spec l [] [] e d P) as (A & B & C).
  assert (NE : ~ In (EnablePattern "all") l). { intros I. specialize (C _ "all"%string I (or_introl eq_refl)). cbn in C. intuition discriminate. }
  assert (ND : ~ In (DisablePattern "all") l). { intros I. specialize (C _ "all"%string I (or_introl eq_refl)). cbn in C. intuition discriminate. }
  unfold base_value, wanted.
  destruct (mem p d) eqn:M1; [left; apply mem_In in M1; apply B in M1; cbn in M1; intuition congruence|].
  assert (D1 : ~ In (DisablePattern p) l). { intros I. assert (J : mem p d = true) by (apply mem_In, B; auto). congruence. }
  right. destruct (mem p e) eqn:M2; [left; apply mem_In in M2; apply A in M2; cbn in M2; intuition congruence|].
  assert (E1 : ~ In (EnablePattern p) l). { intros I. assert (J : mem p e = true) by (apply mem_In, A; auto). congruence. }
  right. split; [exact D1|]. split; [exact E1|].
  destruct (mem "all"%string d) eqn:M3; [left; apply mem_In in M3; apply B in M3; cbn in M3; intuition congruence|].
  assert (D2 : ~ In DisableAll l). { intros I. assert (J : mem "all"%string d = true) by (apply mem_In, B; auto). congruence. }
  right. destruct (mem "all"%string e) eqn:M4; [left; apply mem_In in M4; apply A in M4; cbn in M4; intuition congruence|].
  assert (E2 : ~ In EnableAll l). { intros I. assert (J : mem "all"%string e = true) by (apply mem_In, A; auto). congruence. }
  right. auto.
Qed.

Lemma popt_eq_dec (a b : popt) : {a = b} + {a <> b}.
Proof. decide equality; apply string_dec. Qed.
Lemma wanted_fun l p b0 b1 b2 : wanted l p b0 b1 -> wanted l p b0 b2 -> b1 = b2.
Proof. unfold wanted. intuition congruence. Qed.

(** ** File suffixes *)
Lemma rsplit_spec c s : match rsplit c s with
                        | Some (a, b) => s = (a ++ String c b)%string /\ has_char c b = false
                        | None => has_char c s = false
                        end.
Proof.
  induction s as [|x s IH]; [reflexivity|]. cbn [rsplit]. destruct (rsplit c s) as [[a b]|].
  - destruct IH as [-> H]. auto.
  - destruct (Ascii.eqb_spec x c) as [->|N]; [auto|]. cbn [has_char]. rewrite IH.
    destruct (Ascii.eqb_spec c x); [congruence|reflexivity].
Qed.
Lemma suffixes_agree file suffix : snd (splitext file) <> ""%string -> addSuffix file suffix = Some (add_suffix file suffix).
Proof.
  unfold addSuffix, add_suffix, splitext. destruct (rsplit "." file) as [[b e]|]; [|cbn; congruence].
  destruct (has_char "/" e); [cbn; congruence|].
  destruct (all_dots _); [cbn; congruence|]. intros _. reflexivity.
Qed.

(** ** The command line *)
Inductive item := Flag (n : string) | FlagValue (n v : string) | Value (n v : string).
Definition render (i : item) : list string :=
  match i with
  | Flag n => [("--" ++ n)%string]
  | FlagValue n v => [("--" ++ n ++ "=" ++ v)%string]
  | Value n v => [("--" ++ n)%string; v]
  end.
Definition item_pair (i : item) : string * string :=
  match i with Flag n => (n, "true"%string) | FlagValue n v => (n, v) | Value n v => (n, v) end.
Definition item_ok (i : item) : bool :=
  match i with
  | Flag n | FlagValue n _ => match dget simpll_options n with Some OBool => true | _ => false end
  | Value n _ => match dget simpll_options n with Some OValue => true | _ => false end
  end && negb (has_char "=" (fst (item_pair i))).

Lemma split_eq_none n : has_char "=" n = false -> split_eq n = (n, None).
Proof.
  induction n as [|c n IH]; [reflexivity|]. cbn [has_char split_eq]. intros H. apply orb_false_iff in H as [A B].
  rewrite Ascii.eqb_sym, A, (IH B). reflexivity.
Qed.
Lemma split_eq_some n v : has_char "=" n = false -> split_eq (n ++ "=" ++ v)%string = (n, Some v).
Proof.
  induction n as [|c n IH]; [reflexivity|]. cbn [has_char]. intros H. apply orb_false_iff in H as [A B].
  change (String c n ++ "=" ++ v)%string with (String c (n ++ "=" ++ v)). cbn [split_eq].
  rewrite Ascii.eqb_sym, A, (IH B). reflexivity.
Qed.

Lemma cl_parse_items items : forall pos vals,
  forallb item_ok items = true -> NoDup (map (fun i => fst (item_pair i)) items) ->
  (forall i, In i items -> ~ In (fst (item_pair i)) (dkeys vals)) ->
  cl_parse (flat_map render items) pos vals = Some (pos, vals ++ map item_pair items).
Proof.
  induction items as [|i items IH]; intros pos vals O N F; cbn [flat_map map].
  - rewrite app_nil_r. reflexivity.
  - cbn [forallb] in O. apply andb_true_iff in O as [O1 O2]. cbn [map] in N. inversion N as [|? ? N1 N2]; subst.
    assert (A : dmem vals (fst (item_pair i)) = false).
    { destruct (dmem vals (fst (item_pair i))) eqn:D; [|reflexivity]. exfalso. apply (F i (or_introl eq_refl)).
      unfold dmem in D. destruct (dget vals (fst (item_pair i))) eqn:Q; [|discriminate]. eapply dget_Some_key, Q. }
    assert (S : dset vals (fst (item_pair i)) (snd (item_pair i)) = vals ++ [item_pair i]).
    { rewrite dset_absent; [destruct (item_pair i); reflexivity|]. apply F. left. reflexivity. }
    assert (R : cl_parse (flat_map render items) pos (vals ++ [item_pair i]) = Some (pos, vals ++ item_pair i :: map item_pair items)).
    { rewrite IH; [rewrite <- app_assoc; reflexivity|exact O2|exact N2|].
      intros j J. unfold dkeys. rewrite map_app, in_app_iff. intros [Q|[Q|[]]].
      - apply (F j (or_intror J)), Q.
      - apply N1. rewrite Q. apply in_map_iff. eauto. }
    unfold item_ok in O1. apply andb_true_iff in O1 as [K E]. apply negb_true_iff in E.
    destruct i as [n|n v|n v]; cbn [item_pair fst snd render app] in *.
    + assert (Q : option_name ("--" ++ n)%string = Some n) by reflexivity. cbn [cl_parse]. rewrite Q, (split_eq_none n E).
      destruct (dget simpll_options n) as [[|]|]; try discriminate. rewrite A, S. exact R.
    + assert (Q : option_name ("--" ++ n ++ "=" ++ v)%string = Some (n ++ "=" ++ v)%string) by reflexivity.
      cbn [cl_parse]. rewrite Q, (split_eq_some n v E).
      destruct (dget simpll_options n) as [[|]|]; try discriminate. rewrite A, S. exact R.
    + assert (Q : option_name ("--" ++ n)%string = Some n) by reflexivity. cbn [cl_parse]. rewrite Q, (split_eq_none n E).
      destruct (dget simpll_options n) as [[|]|]; try discriminate. rewrite A, S. exact R.
Qed.

Definition opt_item (n : string) (x : option string) : list item :=
  match truthy x with Some v => [Value n v] | None => [] end.
Definition seg (b : bool) (l : list item) : list item := if b then l else [].
Definition items_of (q : request) (fa : string) : list item :=
  [Flag "print-callstacks"; Value "fun" fa] ++
  opt_item "var" (q_var q) ++ seg (q_ir q) (opt_item "suffix" (q_suffix q)) ++ opt_item "cache-dir" (q_cache q) ++
  (match q_custom q with Some p => [Value "custom-pattern-config" p] | None => [] end) ++
  map (fun kv => FlagValue (fst kv) (py_bool (snd kv))) (q_settings q) ++
  seg (q_ir q) [Flag "output-llvm-ir"] ++ seg (q_asm q) [Flag "print-asm-diffs"] ++ seg (q_ext q) [Flag "extended-stat"] ++
  seg (0 <? q_verb q)%nat [Value "verbosity" (dec (q_verb q))].
Definition fun_arg (q : request) : string :=
  if String.eqb (q_fun1 q) (q_fun2 q) then q_fun1 q else (q_fun1 q ++ "," ++ q_fun2 q)%string.

Lemma command_items q : command q = q_file1 q :: q_file2 q :: flat_map render (items_of q (fun_arg q)).
Proof.
  unfold command, items_of, opt_arg, opt_item, seg, fun_arg. cbn [app flat_map render]. do 5 f_equal.
  rewrite !flat_map_app. f_equal; [destruct (truthy (q_var q)); reflexivity|].
  f_equal; [destruct (q_ir q), (truthy (q_suffix q)); reflexivity|].
  f_equal; [destruct (truthy (q_cache q)); reflexivity|].
  f_equal; [destruct (q_custom q); reflexivity|].
  f_equal; [induction (q_settings q) as [|kv s IH]; [reflexivity|]; cbn [map flat_map render app]; rewrite IH; reflexivity|].
  f_equal; [destruct (q_ir q); reflexivity|].
  f_equal; [destruct (q_asm q); reflexivity|].
  f_equal; [destruct (q_ext q); reflexivity|].
  destruct (0 <? q_verb q)%nat; reflexivity.
Qed.

Lemma positional a : startswith a "-" = false -> option_name a = None.
Proof.
  destruct a as [|c [|d a]]; [reflexivity|reflexivity|]. cbn [startswith option_name]. rewrite Ascii.eqb_sym.
  destruct (Ascii.eqb c "-"); [discriminate|reflexivity].
Qed.

Fixpoint no_dup (l : list string) : bool :=
  match l with [] => true | x :: l' => negb (mem x l') && no_dup l' end.
Lemma no_dup_NoDup l : no_dup l = true -> NoDup l.
Proof.
  induction l as [|x l IH]; [constructor|]. cbn [no_dup]. intros H. apply andb_true_iff in H as [A B]. constructor; [|auto].
  intros I. apply mem_In in I. rewrite I in A. discriminate.
Qed.
Inductive sub {A} : list A -> list A -> Prop :=
| sub_nil : sub [] []
| sub_keep x l m : sub l m -> sub (x :: l) (x :: m)
| sub_skip x l m : sub l m -> sub l (x :: m).
Lemma sub_In {A} (l m : list A) x : sub l m -> In x l -> In x m.
Proof. induction 1; cbn; intuition. Qed.
Lemma sub_NoDup {A} (l m : list A) : sub l m -> NoDup m -> NoDup l.
Proof.
  induction 1; intros N; inversion N; subst; auto. constructor; [|auto]. intros I. eapply sub_In in I; eauto.
Qed.
Lemma sub_app {A} (a b c d : list A) : sub a c -> sub b d -> sub (a ++ b) (c ++ d).
Proof. intros H K. induction H; cbn; [exact K|constructor; assumption|constructor; assumption]. Qed.
Lemma sub_refl {A} (l : list A) : sub l l.
Proof. induction l; constructor; assumption. Qed.
Lemma items_good q fa : map fst (q_settings q) = map fst initial_settings ->
  forallb item_ok (items_of q fa) = true /\ NoDup (map (fun i => fst (item_pair i)) (items_of q fa)).
Proof.
  intros K. split.
  - unfold items_of. rewrite !forallb_app, !andb_true_iff. unfold opt_item, seg.
    split; [reflexivity|]. split; [destruct (truthy (q_var q)); reflexivity|].
    split; [destruct (q_ir q), (truthy (q_suffix q)); reflexivity|].
    split; [destruct (truthy (q_cache q)); reflexivity|].
    split; [destruct (q_custom q); reflexivity|].
    split; [|split; [destruct (q_ir q); reflexivity|]; split; [destruct (q_asm q); reflexivity|];
             split; [destruct (q_ext q); reflexivity|destruct (0 <? q_verb q)%nat; reflexivity]].
    apply forallb_forall. intros i I. apply in_map_iff in I as (kv & <- & I).
    assert (J : In (fst kv) (map fst initial_settings)) by (rewrite <- K; apply in_map, I).
    unfold item_ok. cbn [item_pair fst]. cbn [map fst initial_settings In] in J.
    decompose [or] J; try contradiction; match goal with E : _ = fst kv |- _ => rewrite <- E; reflexivity end.
  - apply sub_NoDup with (m := ["print-callstacks"; "fun"]%string ++ ["var"%string] ++ ["suffix"%string] ++ ["cache-dir"%string] ++
      ["custom-pattern-config"%string] ++ map fst initial_settings ++ ["output-llvm-ir"%string] ++ ["print-asm-diffs"%string] ++
      ["extended-stat"%string] ++ ["verbosity"%string]);
      [|apply no_dup_NoDup; vm_compute; reflexivity].
    unfold items_of. rewrite !map_app. unfold opt_item, seg.
    apply sub_app; [apply sub_refl|]. apply sub_app; [destruct (truthy (q_var q)); repeat constructor|].
    apply sub_app; [destruct (q_ir q), (truthy (q_suffix q)); repeat constructor|].
    apply sub_app; [destruct (truthy (q_cache q)); repeat constructor|].
    apply sub_app; [destruct (q_custom q); repeat constructor|].
    apply sub_app; [rewrite map_map; change (map _ (q_settings q)) with (map fst (q_settings q)); rewrite K; apply sub_refl|].
    apply sub_app; [destruct (q_ir q); repeat constructor|].
    apply sub_app; [destruct (q_asm q); repeat constructor|].
    apply sub_app; [destruct (q_ext q); repeat constructor|].
    destruct (0 <? q_verb q)%nat; repeat constructor.
Qed.

(** Values of the options after parsing. *)
Lemma dget_app_s {V} (a b : dict string V) k : dget (a ++ b) k = match dget a k with Some v => Some v | None => dget b k end.
Proof. induction a as [|[k1 v1] a IH]; [reflexivity|]. cbn [app dget]. destruct (eqb k k1); [reflexivity|exact IH]. Qed.
Lemma dget_opt_item n x k : dget (map item_pair (opt_item n x)) k = if String.eqb k n then truthy x else None.
Proof. unfold opt_item. destruct (truthy x); cbn; [|destruct (String.eqb k n); reflexivity]. reflexivity. Qed.
Lemma dget_seg_opt b n x k :
  dget (map item_pair (seg b (opt_item n x))) k = if String.eqb k n then (if b then truthy x else None) else None.
Proof. unfold seg. destruct b; [apply dget_opt_item|]. cbn. destruct (String.eqb k n); reflexivity. Qed.
Lemma dget_seg_flag b n k :
  dget (map item_pair (seg b [Flag n])) k = if String.eqb k n then (if b then Some "true"%string else None) else None.
Proof. unfold seg. destruct b; cbn; [reflexivity|]. destruct (String.eqb k n); reflexivity. Qed.
Lemma dget_seg_value b n v k :
  dget (map item_pair (seg b [Value n v])) k = if String.eqb k n then (if b then Some v else None) else None.
Proof. unfold seg. destruct b; cbn; [reflexivity|]. destruct (String.eqb k n); reflexivity. Qed.
Lemma dget_custom (x : option string) n k :
  dget (map item_pair (match x with Some p => [Value n p] | None => [] end)) k = if String.eqb k n then x else None.
Proof. destruct x; cbn; [reflexivity|]. destruct (String.eqb k n); reflexivity. Qed.
Lemma dget_settings (s : dict string bool) k :
  dget (map item_pair (map (fun kv => FlagValue (fst kv) (py_bool (snd kv))) s)) k =
  match dget s k with Some b => Some (py_bool b) | None => None end.
Proof.
  induction s as [|[k1 b1] s IH]; [reflexivity|]. cbn [map item_pair fst snd dget]. destruct (eqb k k1); [reflexivity|exact IH].
Qed.
Lemma dget_items q fa k : dget (map item_pair (items_of q fa)) k =
  if String.eqb k "print-callstacks" then Some "true"%string else
  if String.eqb k "fun" then Some fa else
  match (if String.eqb k "var" then truthy (q_var q) else None) with Some v => Some v | None =>
  match (if String.eqb k "suffix" then (if q_ir q then truthy (q_suffix q) else None) else None) with Some v => Some v | None =>
  match (if String.eqb k "cache-dir" then truthy (q_cache q) else None) with Some v => Some v | None =>
  match (if String.eqb k "custom-pattern-config" then q_custom q else None) with Some v => Some v | None =>
  match dget (q_settings q) k with Some b => Some (py_bool b) | None =>
  match (if String.eqb k "output-llvm-ir" then (if q_ir q then Some "true"%string else None) else None) with Some v => Some v | None =>
  match (if String.eqb k "print-asm-diffs" then (if q_asm q then Some "true"%string else None) else None) with Some v => Some v | None =>
  match (if String.eqb k "extended-stat" then (if q_ext q then Some "true"%string else None) else None) with Some v => Some v | None =>
  if String.eqb k "verbosity" then (if (0 <? q_verb q)%nat then Some (dec (q_verb q)) else None) else None
  end end end end end end end end.
Proof.
  unfold items_of. rewrite !map_app, !dget_app_s, dget_opt_item, dget_seg_opt, dget_opt_item, dget_custom, dget_settings,
    !dget_seg_flag, dget_seg_value.
  cbn [map item_pair dget]. change (@eqb string _) with String.eqb.
  destruct (String.eqb k "print-callstacks"); [reflexivity|]. destruct (String.eqb k "fun"); [reflexivity|].
  destruct (dget (q_settings q) k); reflexivity.
Qed.

Lemma split_comma_spec a b : has_char "," a = false -> split_comma (a ++ "," ++ b)%string = Some (a, b).
Proof.
  induction a as [|c a IH]; [reflexivity|]. cbn [has_char]. intros H. apply orb_false_iff in H as [A B].
  change (String c a ++ "," ++ b)%string with (String c (a ++ "," ++ b)). cbn [split_comma].
  rewrite Ascii.eqb_sym, A, (IH B). reflexivity.
Qed.
Lemma split_comma_none a : has_char "," a = false -> split_comma a = None.
Proof.
  induction a as [|c a IH]; [reflexivity|]. cbn [has_char split_comma]. intros H. apply orb_false_iff in H as [A B].
  rewrite Ascii.eqb_sym, A, (IH B). reflexivity.
Qed.
Lemma parse_fun_arg q : has_char "," (q_fun1 q) = false -> parse_fun (fun_arg q) = (q_fun1 q, q_fun2 q).
Proof.
  intros H. unfold parse_fun, fun_arg. destruct (String.eqb_spec (q_fun1 q) (q_fun2 q)) as [E|E].
  - rewrite (split_comma_none _ H). rewrite <- E. reflexivity.
  - rewrite (split_comma_spec _ _ H). reflexivity.
Qed.
Lemma dec_read n : NilZero.uint_of_string (dec n) = Some (Nat.to_uint n).
Proof.
  unfold dec. apply NilZero.usu. intros E. pose proof (Unsigned.of_to n) as O. rewrite E in O. cbn in O. subst n. discriminate.
Qed.
Lemma is_ascii_app a b : is_ascii (a ++ b)%string = is_ascii a && is_ascii b.
Proof. induction a as [|c a IH]; [reflexivity|]. cbn. rewrite IH. apply andb_assoc. Qed.
Lemma splitext_app p : (fst (splitext p) ++ snd (splitext p))%string = p.
Proof.
  unfold splitext. pose proof (rsplit_spec "." p) as R. destruct (rsplit "." p) as [[b e]|]; [|apply app_nil_r_s].
  destruct R as [R _]. destruct (has_char "/" e); [apply app_nil_r_s|]. destruct (all_dots _); [apply app_nil_r_s|].
  cbn [fst snd]. rewrite R. reflexivity.
Qed.
Lemma out_name_ascii suffix file : is_ascii file = true -> opt_ascii suffix -> is_ascii (out_name suffix file) = true.
Proof.
  unfold out_name, truthy, opt_ascii. destruct suffix as [x|]; [|auto]. destruct (String.eqb x ""); [auto|]. intros F S.
  unfold add_suffix. pose proof (splitext_app file) as E. destruct (splitext file) as [a b]. cbn [fst snd] in E. rewrite <- E in F.
  rewrite is_ascii_app in F. apply andb_true_iff in F as [A B]. rewrite !is_ascii_app, A, B, S. reflexivity.
Qed.
