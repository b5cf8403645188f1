From Coq Require Import String Ascii ZArith Permutation Arith Bool Lia List.
From Verif Require Import PyBase Result_Model Result_Spec.
Import ListNotations.
Open Scope list_scope.

Lemma at_most_int a b : at_most a b <-> kind_int a <= kind_int b.
Proof.
  split.
  - intros (l1 & l2 & E & I). unfold severity_order in E.
    do 7 (destruct l1 as [|? l1]; [injection E as <- <-; simpl in I; intuition (subst; simpl; lia)|];
          injection E as <- E).
    destruct l1; discriminate E.
  - intros L. unfold severity_order.
    destruct a;
      [ exists [] | exists [NONE] | exists [NONE; EQUAL] | exists [NONE; EQUAL; ASSUMED_EQUAL]
      | exists [NONE; EQUAL; ASSUMED_EQUAL; NOT_EQUAL]
      | exists [NONE; EQUAL; ASSUMED_EQUAL; NOT_EQUAL; UNKNOWN]
      | exists [NONE; EQUAL; ASSUMED_EQUAL; NOT_EQUAL; UNKNOWN; TIMEOUT] ];
      eexists; (split; [reflexivity|]); destruct b; simpl in L; try lia; simpl; tauto.
Qed.

Lemma kind_of_int_inv n k : kind_of_int n = Ok k -> n = kind_int k.
Proof. intros E. do 7 (destruct n as [|n]; [injection E as <-; reflexivity|]). discriminate. Qed.
Lemma kind_of_int_ok k : kind_of_int (kind_int k) = Ok k.
Proof. destruct k; reflexivity. Qed.
Lemma kind_int_inj a b : kind_int a = kind_int b -> a = b.
Proof. destruct a, b; simpl; congruence. Qed.
Lemma kind_max_ok a b : kind_of_int (Nat.max (kind_int a) (kind_int b)) =
  Ok (if kind_int a <=? kind_int b then b else a).
Proof. destruct a, b; reflexivity. Qed.

Section P.
  Context {G : Type}.
  Implicit Types o i r : result G.

  Lemma add_inner_ok o i : exists r, add_inner o i = Ok r /\
    r_kind r = (if kind_int (r_kind o) <=? kind_int (r_kind i) then r_kind i else r_kind o) /\
    r_graph r = r_graph i /\ r_inner r = dset (r_inner o) (en_name (r_first i)) i /\
    r_first r = r_first o /\ r_second r = r_second o /\ r_diff r = r_diff o.
  Proof. unfold add_inner. rewrite kind_max_ok. eexists. repeat split. Qed.

  Lemma add_inners_cons o i is : add_inners o (i :: is) =
    match add_inner o i with Ok o' => add_inners o' is | Err e => Err e end.
  Proof. reflexivity. Qed.

  Lemma add_inners_total o is : exists r, add_inners o is = Ok r.
  Proof.
    revert o. induction is as [|i is IH]; intros o; [exists o; reflexivity|].
    rewrite add_inners_cons. destruct (add_inner_ok o i) as (r & -> & _). apply IH.
  Qed.

  Lemma add_inners_kind o is r : add_inners o is = Ok r ->
    (forall k, In k (r_kind o :: map r_kind is) -> at_most k (r_kind r)) /\
    In (r_kind r) (r_kind o :: map r_kind is).
  Proof.
    revert o. induction is as [|i is IH]; intros o E.
    - injection E as <-. split; [|left; reflexivity].
      intros k [<-|[]]. apply at_most_int. lia.
    - rewrite add_inners_cons in E. destruct (add_inner_ok o i) as (o' & E' & K & _).
      rewrite E' in E. destruct (IH o' E) as [U M]. split.
      + intros k I. apply at_most_int.
        assert (kind_int (r_kind o') <= kind_int (r_kind r)) as L
          by (apply at_most_int, U; left; reflexivity).
        destruct I as [<-|[<-|I]].
        * rewrite K in L. destruct (Nat.leb_spec (kind_int (r_kind o)) (kind_int (r_kind i))); lia.
        * rewrite K in L. destruct (Nat.leb_spec (kind_int (r_kind o)) (kind_int (r_kind i))); lia.
        * apply at_most_int, U. right. exact I.
      + destruct M as [M|M]; [|right; right; exact M].
        rewrite <- M, K. destruct (kind_int (r_kind o) <=? kind_int (r_kind i)); simpl; auto.
  Qed.

  Lemma add_inners_get o is r n : add_inners o is = Ok r ->
    dget (r_inner r) n = match last_named (fun x => en_name (r_first x)) n is with
                         | Some x => Some x
                         | None => dget (r_inner o) n
                         end.
  Proof.
    revert o. induction is as [|i is IH]; intros o E.
    - injection E as <-. reflexivity.
    - rewrite add_inners_cons in E. destruct (add_inner_ok o i) as (o' & E' & _ & _ & I & _).
      rewrite E' in E. rewrite (IH o' E). simpl.
      destruct (last_named (fun x => en_name (r_first x)) n is) as [x|]; [reflexivity|].
      rewrite I, dget_dset. simpl. rewrite String.eqb_sym.
      destruct (String.eqb (en_name (r_first i)) n); reflexivity.
  Qed.

  Lemma add_inners_inner_NoDup o is r : add_inners o is = Ok r ->
    NoDup (dkeys (r_inner o)) -> NoDup (dkeys (r_inner r)).
  Proof.
    revert o. induction is as [|i is IH]; intros o E.
    - injection E as <-. auto.
    - rewrite add_inners_cons in E. destruct (add_inner_ok o i) as (o' & E' & _ & _ & I & _).
      rewrite E' in E. intros N. apply (IH o' E). rewrite I. apply dset_NoDup. exact N.
  Qed.

  Lemma add_inners_graph o is r : add_inners o is = Ok r ->
    r_graph r = match rev is with i :: _ => r_graph i | [] => r_graph o end.
  Proof.
    revert o. induction is as [|i is IH]; intros o E.
    - injection E as <-. reflexivity.
    - rewrite add_inners_cons in E. destruct (add_inner_ok o i) as (o' & E' & _ & Gr & _).
      rewrite E' in E. rewrite (IH o' E). simpl. destruct (rev is); simpl; auto.
  Qed.

  (** Counting *)
  Lemma count_split {A} (f g : A -> bool) l :
    (forall x, f x = true -> g x = true -> False) ->
    count (fun x => f x || g x) l = count f l + count g l.
  Proof.
    intros D. unfold count. induction l as [|x l IH]; [reflexivity|]. simpl.
    specialize (D x). destruct (f x), (g x); simpl; try lia.
  Qed.
  Lemma count_le {A} (f g : A -> bool) l :
    (forall x, f x = true -> g x = true) -> count f l <= count g l.
  Proof.
    intros D. unfold count. induction l as [|x l IH]; [simpl; lia|]. simpl.
    specialize (D x). destruct (f x); [rewrite D by reflexivity; simpl; lia|].
    destruct (g x); simpl; lia.
  Qed.

  Lemma symbol_partition r :
    st_eq (symbol_stats r) + st_neq (symbol_stats r) + st_unknown (symbol_stats r) +
    st_errs (symbol_stats r) +
    count (fun x => kind_eqb (r_kind x) NONE || kind_eqb (r_kind x) ASSUMED_EQUAL)
          (dvals (r_inner r)) = st_total (symbol_stats r).
  Proof.
    unfold symbol_stats; simpl. unfold count, dvals. rewrite <- (map_length snd (r_inner r)).
    induction (map snd (r_inner r)) as [|x l IH]; [reflexivity|]. simpl.
    destruct (r_kind x); simpl; lia.
  Qed.

  Lemma empty_le r : st_empty (symbol_stats r) <= st_neq (symbol_stats r).
  Proof. simpl. apply count_le. intros x. rewrite andb_true_iff. tauto. Qed.

  Lemma count_pos_filter {A} (f : A -> bool) l x : In x l -> f x = true -> 0 < count f l.
  Proof.
    intros I F. unfold count. assert (In x (filter f l)) as J by (apply filter_In; auto).
    destruct (filter f l); simpl in *; [tauto|lia].
  Qed.

  Lemma listed_unknown_spec r n : NoDup (dkeys (r_inner r)) ->
    In n (listed_unknown r) <-> exists x, dget (r_inner r) n = Some x /\ r_kind x = UNKNOWN.
  Proof.
    intros N. unfold listed_unknown. split.
    - destruct (0 <? _); [|simpl; tauto]. rewrite in_map_iff. intros ([n' x] & <- & I).
      apply filter_In in I. destruct I as [I K]. simpl in K. exists x. split.
      + apply dget_In_NoDup; assumption.
      + destruct (kind_eqb_spec (r_kind x) UNKNOWN); congruence.
    - intros (x & D & K). pose proof (dget_In _ _ _ D) as I.
      replace (0 <? st_unknown (symbol_stats r)) with true.
      + apply in_map_iff. exists (n, x). split; [reflexivity|]. apply filter_In. split; [exact I|].
        simpl. rewrite K. reflexivity.
      + symmetry. apply Nat.ltb_lt. simpl. eapply count_pos_filter.
        * apply in_map_iff. exists (n, x). split; [reflexivity|exact I].
        * simpl. rewrite K. reflexivity.
  Qed.

  Lemma listed_errors_spec r n : NoDup (dkeys (r_inner r)) ->
    In n (listed_errors r) <-> exists x, dget (r_inner r) n = Some x /\ r_kind x = ERROR.
  Proof.
    intros N. unfold listed_errors. split.
    - destruct (0 <? _); [|simpl; tauto]. rewrite in_map_iff. intros ([n' x] & <- & I).
      apply filter_In in I. destruct I as [I K]. simpl in K. exists x. split.
      + apply dget_In_NoDup; assumption.
      + destruct (kind_eqb_spec (r_kind x) ERROR); congruence.
    - intros (x & D & K). pose proof (dget_In _ _ _ D) as I.
      replace (0 <? st_errs (symbol_stats r)) with true.
      + apply in_map_iff. exists (n, x). split; [reflexivity|]. apply filter_In. split; [exact I|].
        simpl. rewrite K. reflexivity.
      + symmetry. apply Nat.ltb_lt. simpl. eapply count_pos_filter.
        * apply in_map_iff. exists (n, x). split; [reflexivity|exact I].
        * simpl. rewrite K. reflexivity.
  Qed.

  Lemma object_partition r :
    os_funs (object_stats r) + os_types (object_stats r) + os_macros (object_stats r) +
    os_asm (object_stats r) = os_total (object_stats r).
  Proof.
    unfold object_stats; simpl. unfold count.
    induction (dvals (unique_diffs r)) as [|x l IH]; [reflexivity|]. simpl.
    destruct (en_kind (r_first x)); simpl; [lia|lia|]. destruct (is_asm x); simpl; lia.
  Qed.

  (** unique_diffs: exactly the visible inner-inner results, one per name. *)
  Definition visible r := negb (diff_is_empty r && en_covered (r_first r)).

  Lemma add_unique_keys acc r : NoDup (dkeys acc) ->
    NoDup (dkeys (add_unique acc r)) /\
    (forall n, In n (dkeys (add_unique acc r)) <->
       In n (dkeys acc) \/ (visible r = true /\ n = en_name (r_first r))) /\
    (forall n x, In (n, x) (add_unique acc r) -> In (n, x) acc \/ (x = r /\ n = en_name (r_first r))).
  Proof.
    intros N. unfold add_unique, visible.
    destruct (diff_is_empty r && en_covered (r_first r)) eqn:V; simpl.
    - split; [exact N|]. split; [intros n; intuition discriminate|intros n x I; auto].
    - destruct (dmem acc (en_name (r_first r))) eqn:M.
      + apply dmem_spec in M. split; [exact N|]. split; [|intros n x I; auto].
        intros n. split; [auto|]. intros [I|[_ ->]]; auto.
      + assert (~ In (en_name (r_first r)) (dkeys acc)) as Nin.
        { intros C. apply dmem_spec in C. congruence. }
        unfold dkeys in *. rewrite map_app. simpl. split; [|split].
        * rewrite <- (rev_involutive (_ ++ [_])). apply NoDup_rev. rewrite rev_app_distr. simpl.
          constructor; [rewrite <- in_rev; exact Nin|apply NoDup_rev; exact N].
        * intros n. rewrite in_app_iff. simpl. intuition.
        * intros n x I. apply in_app_iff in I. destruct I as [I|[I|[]]]; [auto|].
          injection I as <- <-. auto.
  Qed.

  Lemma add_uniques_keys l : forall acc, NoDup (dkeys acc) ->
    NoDup (dkeys (fold_left add_unique l acc)) /\
    (forall n, In n (dkeys (fold_left add_unique l acc)) <->
       In n (dkeys acc) \/ exists x, In x l /\ visible x = true /\ n = en_name (r_first x)).
  Proof.
    induction l as [|x l IH]; intros acc N; simpl.
    - split; [exact N|]. intros n. split; [auto|intros [I|(x & [] & _)]; auto].
    - destruct (add_unique_keys acc x N) as (N' & K & _). destruct (IH _ N') as [N2 K2].
      split; [exact N2|]. intros n. rewrite K2, K. split.
      + intros [[I|[V ->]]|(y & I & V)]; [auto| |].
        * right. exists x. auto.
        * right. exists y. tauto.
      + intros [I|(y & [<-|I] & V & ->)]; [auto|auto|]. right. exists y. auto.
  Qed.

  Lemma unique_diffs_spec r :
    NoDup (dkeys (unique_diffs r)) /\
    (forall n, In n (dkeys (unique_diffs r)) <->
       exists o x, In o (dvals (r_inner r)) /\ In x (dvals (r_inner o)) /\
                   visible x = true /\ n = en_name (r_first x)).
  Proof.
    unfold unique_diffs.
    assert (forall l (acc : dict string (result G)), NoDup (dkeys acc) ->
      NoDup (dkeys (fold_left (fun a o => fold_left add_unique (dvals (r_inner o)) a) l acc)) /\
      (forall n, In n (dkeys (fold_left (fun a o => fold_left add_unique (dvals (r_inner o)) a) l acc)) <->
        In n (dkeys acc) \/ exists o x, In o l /\ In x (dvals (r_inner o)) /\
                   visible x = true /\ n = en_name (r_first x))) as H.
    { induction l as [|o l IH]; intros acc N; simpl.
      - split; [exact N|]. intros n. split; [auto|intros [I|(o & x & [] & _)]; auto].
      - destruct (add_uniques_keys (dvals (r_inner o)) acc N) as [N' K].
        destruct (IH _ N') as [N2 K2]. split; [exact N2|]. intros n. rewrite K2, K. split.
        + intros [[I|(x & I & V & E)]|(o' & x & I & J)]; [auto| |].
          * right. exists o, x. auto.
          * right. exists o', x. tauto.
        + intros [I|(o' & x & [<-|I] & J & V & E)]; [auto| |].
          * left. right. exists x. auto.
          * right. exists o', x. auto. }
    destruct (H (dvals (r_inner r)) [] (NoDup_nil _)) as [N K]. split; [exact N|].
    intros n. rewrite K. simpl. intuition.
  Qed.
End P.

Lemma from_string_simpll k s : simpll_spelling k = Some s -> kind_from_string s = Ok k.
Proof. destruct k; simpl; intros E; try discriminate; injection E as <-; reflexivity. Qed.

Lemma from_string_ok s k : kind_from_string s = Ok k ->
  s = match k with
      | NONE => "none" | EQUAL => "equal" | ASSUMED_EQUAL => "assumed-equal"
      | NOT_EQUAL => "not-equal" | UNKNOWN => "unknown" | TIMEOUT => "timeout"
      | ERROR => "error"
      end%string.
Proof.
  unfold kind_from_string. destruct (dget _ s) as [k'|] eqn:E; [|discriminate].
  intros [= ->]. apply dget_In in E. simpl in E.
  repeat (destruct E as [E|E]; [injection E as <- <-; reflexivity|]). destruct E.
Qed.

Lemma from_string_err s e : kind_from_string s = Err e -> e = KeyError.
Proof. unfold kind_from_string. destruct (dget _ s); congruence. Qed.
