(** * Properties of verdicts and their aggregation (C19-C22, C55) *)
From Coq Require Import String Ascii ZArith Arith Bool Lia List.
From Verif Require Import PyBase Result_Model Result_Spec Result_Proofs.
Import ListNotations.
Open Scope list_scope.

(** C19: after adding any sequence of inner results the overall verdict exists, is at least
    as severe as the initial one and each inner one, and is one of them. *)
Theorem C19_verdict_is_worst :
  forall (G : Type) (o : result G) (is : list (result G)),
    exists r, add_inners o is = Ok r /\
      (forall k, In k (r_kind o :: map r_kind is) -> at_most k (r_kind r)) /\
      In (r_kind r) (r_kind o :: map r_kind is).
Proof.
  intros G o is. destruct (add_inners_total o is) as [r E]. exists r. split; [exact E|].
  exact (add_inners_kind o is r E).
Qed.
Print Assumptions C19_verdict_is_worst.

(** A NOT_EQUAL inner result can only be displaced by UNKNOWN, TIMEOUT or ERROR. *)
Theorem C19_difference_never_masked_by_equal :
  forall (G : Type) (o : result G) (is : list (result G)) r i,
    add_inners o is = Ok r -> In i is -> r_kind i = NOT_EQUAL ->
    r_kind r = NOT_EQUAL \/ r_kind r = UNKNOWN \/ r_kind r = TIMEOUT \/ r_kind r = ERROR.
Proof.
  intros G o is r i E I K. destruct (add_inners_kind o is r E) as [U _].
  assert (at_most NOT_EQUAL (r_kind r)) as L.
  { rewrite <- K. apply U. right. apply in_map. exact I. }
  apply at_most_int in L. destruct (r_kind r); simpl in L; auto; lia.
Qed.
Print Assumptions C19_difference_never_masked_by_equal.

(** ... but UNKNOWN does displace it: a function with a real difference and one undecided
    callee is reported UNKNOWN (and then left out of the YAML report, see C47). *)
Theorem C19_not_equal_wins_over_unknown_refuted :
  exists (o : result unit) is r,
    add_inners o is = Ok r /\ In NOT_EQUAL (map r_kind is) /\ r_kind r = UNKNOWN.
Proof.
  exists (new_result NONE "f" "f"),
    [new_result NOT_EQUAL "g" "g"; new_result UNKNOWN "h" "h"].
  eexists. split; [reflexivity|]. split; [left; reflexivity|reflexivity].
Qed.
Print Assumptions C19_not_equal_wins_over_unknown_refuted.

Example C19_example :
  exists r, add_inners (new_result (G := unit) NONE "f" "f")
              [new_result EQUAL "a" "a"; new_result NOT_EQUAL "b" "b"; new_result EQUAL "c" "c"]
            = Ok r /\ r_kind r = NOT_EQUAL /\ dkeys (r_inner r) = ["a"; "b"; "c"]%string.
Proof. eexists. split; [reflexivity|]. split; reflexivity. Qed.

(** C20: every verdict SimpLL can print is read back as the same verdict; only the seven
    documented spellings are accepted; different spellings give different verdicts; anything
    else raises KeyError. *)
Theorem C20_simpll_verdicts_read_back :
  forall k s, simpll_spelling k = Some s -> kind_from_string s = Ok k.
Proof. exact from_string_simpll. Qed.
Print Assumptions C20_simpll_verdicts_read_back.

Theorem C20_from_string_injective :
  forall s1 s2 k, kind_from_string s1 = Ok k -> kind_from_string s2 = Ok k -> s1 = s2.
Proof. intros s1 s2 k E1 E2. rewrite (from_string_ok _ _ E1), (from_string_ok _ _ E2). reflexivity. Qed.
Print Assumptions C20_from_string_injective.

Theorem C20_from_string_rejects_by_KeyError :
  forall s, (exists k, kind_from_string s = Ok k /\
     In s ["none"; "equal"; "assumed-equal"; "not-equal"; "unknown"; "timeout"; "error"]%string)
     \/ (kind_from_string s = Err KeyError /\
     ~ In s ["none"; "equal"; "assumed-equal"; "not-equal"; "unknown"; "timeout"; "error"]%string).
Proof.
  intros s. destruct (kind_from_string s) as [k|e] eqn:E.
  - left. exists k. split; [reflexivity|]. rewrite (from_string_ok _ _ E). destruct k; simpl; tauto.
  - right. rewrite (from_string_err _ _ E) in *. split; [reflexivity|]. simpl. intros C.
    repeat (destruct C as [C|C]; [rewrite <- C in E; discriminate E|]). exact C.
Qed.
Print Assumptions C20_from_string_rejects_by_KeyError.

(** The printed form of a verdict is not accepted back for the two-word verdicts. *)
Theorem C20_print_roundtrip_refuted :
  exists k, kind_from_string (kind_str k) <> Ok k.
Proof. exists NOT_EQUAL. vm_compute. discriminate. Qed.
Print Assumptions C20_print_roundtrip_refuted.

Theorem C20_print_roundtrip_exactly :
  forall k, kind_from_string (kind_str k) = Ok k <-> k <> NOT_EQUAL /\ k <> ASSUMED_EQUAL.
Proof.
  intros k. destruct k; vm_compute; (split; [intros H; try discriminate H; split; discriminate
    | intros [H1 H2]; congruence]).
Qed.
Print Assumptions C20_print_roundtrip_exactly.

(** C21: the printed counts partition the symbols, except for verdicts NONE and
    ASSUMED_EQUAL, which are in the total but in no category. *)
Theorem C21_symbol_stats_partition :
  forall (G : Type) (r : result G),
    let s := symbol_stats r in
    st_eq s + st_neq s + st_unknown s + st_errs s +
      length (filter (fun x => kind_eqb (r_kind x) NONE || kind_eqb (r_kind x) ASSUMED_EQUAL)
                     (dvals (r_inner r))) = st_total s
    /\ st_empty s <= st_neq s.
Proof. intros G r. split; [exact (symbol_partition r)|exact (empty_le r)]. Qed.
Print Assumptions C21_symbol_stats_partition.

(** Each printed count is the number of symbols with that verdict: [number r P c] says that
    exactly [c] symbols of [r] have a result satisfying [P]. *)
Definition number {G} (r : result G) (P : result G -> Prop) (c : nat) : Prop :=
  exists names, NoDup names /\ length names = c /\
    forall n, In n names <-> exists x, dget (r_inner r) n = Some x /\ P x.
Lemma number_filter {G} (r : result G) f (P : result G -> Prop) :
  NoDup (dkeys (r_inner r)) -> (forall x, f x = true <-> P x) ->
  number r P (count f (dvals (r_inner r))).
Proof.
  intros N E. exists (map fst (filter (fun p => f (snd p)) (r_inner r))).
  unfold number, count, dvals, dkeys in *. induction (r_inner r) as [|[k v] l IH].
  - simpl. split; [constructor|]. split; [reflexivity|]. intros n. split; [tauto|intros (x & D & _); discriminate].
  - simpl in N. inversion N as [|? ? Nk Nl]; subst. destruct (IH Nl) as (D & L & I). clear IH.
    cbn [map filter fst snd dget].
    assert (NI : ~ In k (map fst (filter (fun p => f (snd p)) l))).
    { intros X. apply Nk. apply in_map_iff in X. destruct X as (q & <- & Iq). apply filter_In in Iq.
      apply in_map. tauto. }
    assert (NG : dget l k = None) by (apply dget_None; exact Nk).
    destruct (f v) eqn:F; cbn [map length fst].
    + split; [constructor; assumption|]. split; [rewrite L; reflexivity|].
      intros n. cbn [In]. rewrite I. destruct (String.eqb_spec n k) as [->|NE]; cbn.
      * rewrite String.eqb_refl. split; [intros _; exists v; split; [reflexivity|apply E; exact F]|auto].
      * destruct (String.eqb_spec n k); [contradiction|]. split; [intros [X|X]; [congruence|exact X]|auto].
    + split; [exact D|]. split; [exact L|]. intros n. rewrite I.
      destruct (String.eqb_spec n k) as [->|NE]; cbn.
      * rewrite String.eqb_refl. rewrite NG. split; [intros (x & X & _); discriminate|].
        intros (x & [= <-] & Px). apply E in Px. congruence.
      * destruct (String.eqb_spec n k); [contradiction|]. reflexivity.
Qed.
Theorem C21_symbol_counts :
  forall (G : Type) (r : result G), NoDup (dkeys (r_inner r)) ->
    let s := symbol_stats r in
    number r (fun _ => True) (st_total s) /\
    number r (fun x => r_kind x = EQUAL) (st_eq s) /\
    number r (fun x => r_kind x = NOT_EQUAL) (st_neq s) /\
    number r (fun x => r_kind x = UNKNOWN) (st_unknown s) /\
    number r (fun x => r_kind x = ERROR \/ r_kind x = TIMEOUT) (st_errs s) /\
    number r (fun x => r_kind x = NOT_EQUAL /\
                       forall y, In y (dvals (r_inner x)) -> r_diff y = Some ""%string) (st_empty s).
Proof.
  intros G r N s.
  assert (KE : forall x k, kind_eqb (r_kind (G := G) x) k = true <-> r_kind x = k).
  { intros x k. destruct (kind_eqb_spec (r_kind x) k); split; congruence. }
  split; [|split; [|split; [|split; [|split]]]]; unfold s, symbol_stats; cbn [st_total st_eq st_neq st_unknown st_errs st_empty].
  - replace (length (r_inner r)) with (count (fun _ : result G => true) (dvals (r_inner r))).
    + apply number_filter; [exact N|]. intuition.
    + unfold count, dvals. clear. induction (r_inner r); simpl; congruence.
  - apply number_filter; [exact N|]. intros x. apply KE.
  - apply number_filter; [exact N|]. intros x. apply KE.
  - apply number_filter; [exact N|]. intros x. apply KE.
  - apply number_filter; [exact N|]. intros x. rewrite orb_true_iff, !KE. reflexivity.
  - apply number_filter; [exact N|]. intros x. rewrite andb_true_iff, KE, forallb_forall.
    split; intros [A B]; split; auto; intros y I; specialize (B y I) || specialize (A y I);
      unfold diff_is_empty in *; destruct (opt_eqb_spec (r_diff y) (Some ""%string)); congruence.
Qed.
Print Assumptions C21_symbol_counts.

Theorem C21_listing_unknown_complete :
  forall (G : Type) (r : result G) n, NoDup (dkeys (r_inner r)) ->
    In n (listed_unknown r) <-> exists x, dget (r_inner r) n = Some x /\ r_kind x = UNKNOWN.
Proof. exact @listed_unknown_spec. Qed.
Print Assumptions C21_listing_unknown_complete.

(** The error listing omits TIMEOUT results although they are counted as errors. *)
Theorem C21_listing_errors_refuted :
  exists (r : result unit) n x, NoDup (dkeys (r_inner r)) /\
    dget (r_inner r) n = Some x /\ r_kind x = TIMEOUT /\
    st_errs (symbol_stats r) = 1 /\ listed_errors r = [].
Proof.
  exists (mkResult NONE (plain_entity "") (plain_entity "") None None
            [("f"%string, new_result TIMEOUT "f" "f")]), "f"%string.
  eexists. split; [repeat constructor; simpl; tauto|]. repeat split.
Qed.
Print Assumptions C21_listing_errors_refuted.

Theorem C21_object_stats_partition :
  forall (G : Type) (r : result G),
    let s := object_stats r in
    os_funs s + os_types s + os_macros s + os_asm s = os_total s.
Proof. exact @object_partition. Qed.
Print Assumptions C21_object_stats_partition.

(** The total number of differences counts each visible differing object name once. *)
Theorem C21_object_total_counts_names_once :
  forall (G : Type) (r : result G),
    exists names : list string,
      NoDup names /\ os_total (object_stats r) = length names /\
      forall n, In n names <->
        exists o x, In o (dvals (r_inner r)) /\ In x (dvals (r_inner o)) /\
          ~ (r_diff x = Some ""%string /\ en_covered (r_first x) = true) /\
          n = en_name (r_first x).
Proof.
  intros G r. destruct (unique_diffs_spec r) as [N K]. exists (dkeys (unique_diffs r)).
  split; [exact N|]. split.
  - simpl. unfold dvals, dkeys. rewrite !map_length. reflexivity.
  - intros n. rewrite K. split; intros (o & x & A & B & V & E); exists o, x; repeat split; auto.
    + unfold visible, diff_is_empty in V. intros [C1 C2]. rewrite C1, C2 in V. discriminate V.
    + unfold visible, diff_is_empty.
      destruct (opt_eqb_spec (r_diff x) (Some ""%string)) as [D|D]; [|reflexivity].
      destruct (en_covered (r_first x)) eqn:C; [|reflexivity]. exfalso. apply V. auto.
Qed.
Print Assumptions C21_object_total_counts_names_once.

Example C21_example :
  let r := mkResult (G := unit) NOT_EQUAL (plain_entity "") (plain_entity "") None None
     [("a", new_result EQUAL "a" "a"); ("b", new_result NOT_EQUAL "b" "b");
      ("c", new_result NONE "c" "c")]%string in
  NoDup (dkeys (r_inner r)) /\
  st_total (symbol_stats r) = 3 /\ st_eq (symbol_stats r) = 1 /\ st_neq (symbol_stats r) = 1.
Proof.
  split; [|repeat split].
  repeat constructor; simpl; intros C; intuition discriminate.
Qed.

(** C22: a lookup by name gives the last result added under that name. *)
Theorem C22_lookup_is_last_added :
  forall (G : Type) (o : result G) is r n,
    add_inners o is = Ok r ->
    dget (r_inner r) n = match last_named (fun x => en_name (r_first x)) n is with
                         | Some x => Some x
                         | None => dget (r_inner o) n
                         end.
Proof. exact @add_inners_get. Qed.
Print Assumptions C22_lookup_is_last_added.

(** Hence with pairwise different names nothing is lost. *)
Theorem C22_distinct_names_never_shadow :
  forall (G : Type) (o : result G) is r i,
    add_inners o is = Ok r -> NoDup (map (fun x => en_name (r_first x)) is) -> In i is ->
    dget (r_inner r) (en_name (r_first i)) = Some i.
Proof.
  intros G o is r i E N I. rewrite (add_inners_get o is r _ E).
  replace (last_named (fun x => en_name (r_first x)) (en_name (r_first i)) is) with (Some i);
    [reflexivity|]. symmetry. clear E.
  induction is as [|j is IH]; [destruct I|]. simpl in N. inversion N as [|? ? Nj Nis]; subst. simpl.
  destruct I as [->|I].
  - replace (last_named (fun x => en_name (r_first x)) (en_name (r_first i)) is) with (@None (result G)).
    + rewrite String.eqb_refl. reflexivity.
    + symmetry. clear - Nj. induction is as [|k is IH]; [reflexivity|]. simpl in *.
      rewrite IH by tauto.
      destruct (String.eqb_spec (en_name (r_first k)) (en_name (r_first i))); [|reflexivity].
      exfalso. apply Nj. auto.
  - rewrite (IH Nis I). reflexivity.
Qed.
Print Assumptions C22_distinct_names_never_shadow.

(** With a repeated name (the same function in two sysctl groups) an earlier difference is
    lost from the recorded results, although it still determines the overall verdict. *)
Theorem C22_no_shadowing_refuted :
  exists (o : result unit) i1 i2 r,
    add_inners o [i1; i2] = Ok r /\ i1 <> i2 /\ r_kind i1 = NOT_EQUAL /\
    ~ In i1 (dvals (r_inner r)) /\ r_kind r = NOT_EQUAL.
Proof.
  exists (new_result NONE "" ""), (new_result NOT_EQUAL "f" "f"), (new_result EQUAL "f" "f").
  eexists. split; [reflexivity|]. split; [discriminate|]. split; [reflexivity|].
  split; [|reflexivity]. simpl. intros [C|[]]. discriminate C.
Qed.
Print Assumptions C22_no_shadowing_refuted.

(** C55: the graph kept for the report is the one of the last inner result - also when that
    result carries none, so a single function without a module discards the graph of the whole
    comparison. *)
Theorem C55_outer_graph_is_last_inner_graph :
  forall (G : Type) (o : result G) is i r,
    add_inners o (is ++ [i]) = Ok r -> r_graph r = r_graph i.
Proof.
  intros G o is i r E. rewrite (add_inners_graph _ _ _ E), rev_app_distr. reflexivity.
Qed.
Print Assumptions C55_outer_graph_is_last_inner_graph.

Theorem C55_graph_never_lost_refuted :
  exists (o : result nat) is r,
    add_inners o is = Ok r /\ (exists i, In i is /\ r_graph i = Some 42) /\ r_graph r = None.
Proof.
  exists (new_result NONE "" ""),
    [mkResult EQUAL (plain_entity "a") (plain_entity "a") None (Some 42) [];
     new_result UNKNOWN "b" "b"].
  eexists. split; [reflexivity|]. split; [|reflexivity].
  eexists. split; [left; reflexivity|reflexivity].
Qed.
Print Assumptions C55_graph_never_lost_refuted.
