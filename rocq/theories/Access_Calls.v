(** * Calls for changed structures *)
From Coq Require Import String Ascii ZArith Arith Bool Lia List.
From Verif Require Import PyBase Funcomp_Model Funcomp_Spec Access_Model Access_Spec.
Import ListNotations.
Open Scope list_scope.
Open Scope nat_scope.

Lemma Forall2_length {A B} (R : A -> B -> Prop) l m : Forall2 R l m -> length l = length m.
Proof. induction 1; cbn; congruence. Qed.

Section Calls.
  Variables p_structs p_control : bool.
  Variable cv : comparer.
  Variable called : bool -> inst -> option string.
  Variable memset : string -> bool.
  Variable following : bool -> inst -> option inst.
  Variable bit_cast : bool -> value -> option value.
  Variable pointee : bool -> value -> string * Z.
  Variable is_zero : const -> bool.
  Variable same_types : value -> value -> bool.
  Definition found (a b : value) : Prop := exists s s', cv a b s = Some (true, s').
  Notation cmp_calls := (cmp_calls p_structs p_control cv called memset following bit_cast pointee is_zero same_types).
  Notation cmp_allocs := (cmp_allocs cv following bit_cast pointee).
  Notation cmp_memset := (cmp_memset cv bit_cast pointee).
  Notation cmp_extra := (cmp_extra cv is_zero same_types).

  Lemma alloc_iff a : is_alloc a = true <-> In a allocators.
  Proof.
    unfold is_alloc, allocators. rewrite !orb_true_iff, !String.eqb_eq. cbn [In]. intuition congruence.
  Qed.
  Lemma same_structs_iff l r x y : same_structs pointee l r x y = true <-> sizes_of_structure pointee l r x y.
  Proof.
    unfold same_structs, sizes_of_structure, int_is, constant_int. destruct (pointee true l) as [a n]. destruct (pointee false r) as [b m]. cbn [fst snd]. split.
    - rewrite !andb_true_iff, !negb_true_iff, !String.eqb_neq, String.eqb_eq. intros ((((A & B) & ->) & X) & Y).
      destruct x as [| | |[z|]]; try discriminate. destruct y as [| | |[u|]]; try discriminate. apply Z.eqb_eq in X, Y. exists b, n, m, z, u. repeat split; assumption.
    - intros (name & p & q & z & u & N & E1 & E2 & -> & -> & X & Y). injection E1 as -> ->. injection E2 as -> ->. rewrite X, Y, !Z.eqb_refl, String.eqb_refl.
      rewrite (proj2 (String.eqb_neq name "") N). reflexivity.
  Qed.
  Lemma result_of_used left i : used_as following bit_cast left i (result_of following bit_cast left i).
  Proof.
    unfold used_as, result_of. destruct (following left i) as [k|] eqn:F; [|right; split; [discriminate|reflexivity]].
    destruct (bit_cast left (VReg (i_reg k))) as [u|] eqn:B; [left; eauto|right]. split; [|reflexivity]. intros k' E. injection E as <-. exact B.
  Qed.
  Lemma used_unique left i v : used_as following bit_cast left i v -> v = result_of following bit_cast left i.
  Proof.
    unfold used_as, result_of. intros [(k & u & F & -> & B)|(F & ->)].
    - rewrite F, B. reflexivity.
    - destruct (following left i) as [k|]; [|reflexivity]. rewrite (F k eq_refl). reflexivity.
  Qed.
  Lemma destination_before left i : before_cast bit_cast left (op 0 i) (destination bit_cast left i).
  Proof. unfold before_cast, destination. destruct (bit_cast left (op 0 i)); auto. Qed.
  Lemma before_unique left i v : before_cast bit_cast left (op 0 i) v -> v = destination bit_cast left i.
  Proof. unfold before_cast, destination. intros [E|[E ->]]; rewrite E; reflexivity. Qed.

  Lemma allocs_sound i j s s' : cmp_allocs i j s = Some (true, s') -> same_allocation found pointee following bit_cast i j.
  Proof.
    unfold Access_Model.cmp_allocs, same_allocation. destruct (cv (op 0 i) (op 0 j) s) as [[[|] s1]|] eqn:C; [|intros H|discriminate].
    - intros _. left. exists s, s1. exact C.
    - right. destruct (constant_int (op 0 i)) eqn:A; [|discriminate]. destruct (constant_int (op 0 j)) eqn:B; [|discriminate].
      injection H as H _. exists (result_of following bit_cast true i), (result_of following bit_cast false j).
      split; [apply result_of_used|]. split; [apply result_of_used|]. apply same_structs_iff. exact H.
  Qed.
  Lemma memset_sound i j s s' : length (i_ops i) = 5 -> length (i_ops j) = 5 -> cmp_memset i j s = Some (true, s') -> same_setting found pointee bit_cast i j.
  Proof.
    intros LI LJ. unfold Access_Model.cmp_memset.
    pose proof (destination_before true i) as DI. pose proof (destination_before false j) as DJ.
    destruct (i_ops i) as [|a [|v [|n [|x [|f [|]]]]]] eqn:OI; try discriminate. destruct (i_ops j) as [|b [|u [|m [|y [|g [|]]]]]] eqn:OJ; try discriminate.
    unfold args, op in *. rewrite OI, OJ in *. cbn [removelast cmp_but_size Nat.eqb nth] in *.
    destruct (cv a b s) as [[[|] s1]|] eqn:C1; try discriminate. destruct (cv v u s1) as [[[|] s2]|] eqn:C2; try discriminate.
    destruct (cv x y s2) as [[[|] s3]|] eqn:C3; try discriminate.
    intros H. exists a, v, n, x, b, u, m, y, f, g. do 2 (split; [assumption|]). split; [eexists; eexists; exact C1|]. split; [eexists; eexists; exact C2|]. split; [eexists; eexists; exact C3|].
    destruct (cv n m s3) as [[[|] s4]|] eqn:C4; [left; eexists; eexists; exact C4| |discriminate]. right. injection H as H _.
    eexists. eexists. split; [exact DI|]. split; [exact DJ|]. apply same_structs_iff. exact H.
  Qed.
  Lemma common_sound xs : forall ys s s', length xs = length ys -> cmp_common cv same_types xs ys s = Some (true, s') ->
    Forall2 (fun x y => same_types x y = true /\ found x y) xs ys.
  Proof.
    induction xs as [|x xs IH]; intros [|y ys] s s' L H; try discriminate; [constructor|]. cbn [cmp_common] in H.
    destruct (same_types x y) eqn:T; [|discriminate]. destruct (cv x y s) as [[[|] s1]|] eqn:C; try discriminate.
    constructor; [split; [exact T|eexists; eexists; exact C]|]. eapply IH; [injection L as L; exact L|exact H].
  Qed.
  Lemma split_last2 {A} (l : list A) n x : length l = S (S n) -> nth_error l n = Some x -> exists y, l = firstn n l ++ [x; y].
  Proof.
    revert l. induction n as [|n IH]; intros l L N.
    - destruct l as [|a [|b [|]]]; try discriminate. injection N as ->. exists b. reflexivity.
    - destruct l as [|a l]; [discriminate|]. injection L as L. destruct (IH l L N) as (y & E). exists y. cbn [firstn app]. f_equal. exact E.
  Qed.
  Lemma split_last {A} (l : list A) n : length l = S n -> exists x, l = removelast l ++ [x].
  Proof.
    revert n. induction l as [|a l IH]; intros n L; [discriminate|]. destruct l as [|b l]; [exists a; reflexivity|].
    destruct n as [|n]; [discriminate|]. injection L as L. destruct (IH n) as (x & E); [cbn [length]; congruence|]. exists x. cbn [removelast app] in *. f_equal. exact E.
  Qed.
  Lemma removelast_length {A} (l : list A) n : length l = S n -> length (removelast l) = n.
  Proof. intros L. destruct (split_last l n L) as (x & E). rewrite E, app_length in L. cbn [length] in L. lia. Qed.
  Lemma one_more_sound more fewer s s' : length (i_ops more) = S (length (i_ops fewer)) -> 1 <= length (i_ops fewer) ->
    match nth_error (i_ops more) (length (i_ops more) - 2) with
    | Some (VConst c) =>
      if negb (is_zero c) then Some (false, s)
      else if negb (same_types (VReg (i_reg more)) (VReg (i_reg fewer))) then Some (false, s)
      else cmp_common cv same_types (firstn (length (i_ops fewer) - 1) (i_ops more)) (args fewer) s
    | _ => Some (false, s)
    end = Some (true, s') -> one_more is_zero same_types found more fewer.
  Proof.
    intros L P. destruct (length (i_ops fewer)) as [|n] eqn:LF; [lia|]. rewrite L. replace (S (S n) - 2) with n by lia. replace (S n - 1) with n by lia.
    destruct (nth_error (i_ops more) n) as [[| | |c]|] eqn:N; try discriminate. destruct (is_zero c) eqn:Z; [|discriminate]. cbn [negb].
    destruct (same_types (VReg (i_reg more)) (VReg (i_reg fewer))) eqn:T; [|discriminate]. cbn [negb]. intros H.
    destruct (split_last2 _ _ _ L N) as (f & E). destruct (split_last _ _ LF) as (g & G).
    exists (firstn n (i_ops more)), (args fewer), c, f, g. split; [exact E|]. split; [exact G|]. split; [exact Z|]. split; [exact T|].
    eapply common_sound; [|exact H]. rewrite firstn_length, L. unfold args. rewrite (removelast_length _ _ LF). lia.
  Qed.
  Lemma extra_sound i j s s' : 1 <= length (i_ops i) -> 1 <= length (i_ops j) ->
    length (i_ops i) = S (length (i_ops j)) \/ length (i_ops j) = S (length (i_ops i)) -> cmp_extra i j s = Some (true, s') ->
    one_more is_zero same_types found i j \/ one_more is_zero same_types found j i.
  Proof.
    intros PI PJ L H. unfold Access_Model.cmp_extra in H. destruct (Nat.ltb_spec (length (i_ops j)) (length (i_ops i))) as [B|B].
    - left. eapply one_more_sound; [lia|exact PJ|exact H].
    - right. eapply one_more_sound; [lia|exact PI|exact H].
  Qed.
  Lemma calls_sound i j result need need' s s' :
    (forall a, memset a = true -> (called true i = Some a -> length (i_ops i) = 5) /\ (called false j = Some a -> length (i_ops j) = 5)) ->
    1 <= length (i_ops i) -> 1 <= length (i_ops j) ->
    cmp_calls i j result need s = Some (true, need', s') ->
    (result = true /\ need' = need) \/
    (i_code i = Call /\ i_code j = Call /\ need' = false /\ exists a, called true i = Some a /\ called false j = Some a /\
      ((p_structs = true /\ In a allocators /\ same_allocation found pointee following bit_cast i j) \/
       (p_structs = true /\ memset a = true /\ same_setting found pointee bit_cast i j) \/
       (result = false /\ p_control = true /\ (one_more is_zero same_types found i j \/ one_more is_zero same_types found j i)))).
  Proof.
    intros M PI PJ. unfold Access_Model.cmp_calls.
    destruct (i_code i) eqn:CI; try (intros H; injection H as -> -> <-; left; auto; fail).
    destruct (i_code j) eqn:CJ; try (intros H; injection H as -> -> <-; left; auto; fail).
    destruct (called true i) as [a|] eqn:A; [|intros H; injection H as -> -> <-; left; auto].
    destruct (called false j) as [b|] eqn:B; [|intros H; injection H as -> -> <-; left; auto].
    destruct (String.eqb_spec a b) as [<-|]; cbn [negb]; [|intros H; injection H as -> -> <-; left; auto].
    destruct (is_alloc a && p_structs) eqn:G.
    { apply andb_true_iff in G. destruct G as [G S]. apply alloc_iff in G. destruct (cmp_allocs i j s) as [[[|] s1]|] eqn:X; [| |discriminate].
      - intros H. injection H as <- <-. right. repeat (split; [reflexivity|]). exists a. repeat (split; [reflexivity|]). left. split; [exact S|]. split; [exact G|]. eapply allocs_sound. exact X.
      - clear s X. rename s1 into s. intros H. revert H.
        destruct (memset a && memset a && p_structs) eqn:Y.
        { rewrite andb_diag in Y. apply andb_true_iff in Y. destruct Y as [Y _]. destruct (cmp_memset i j s) as [[[|] s1]|] eqn:X; [| |discriminate].
          - intros H. injection H as <- <-. right. repeat (split; [reflexivity|]). exists a. repeat (split; [reflexivity|]). right. left. split; [exact S|]. split; [exact Y|].
            destruct (M a Y) as [MI MJ]. eapply memset_sound; [apply MI; reflexivity|apply MJ; reflexivity|exact X].
          - destruct (negb result && p_control && _) eqn:W.
            + rewrite !andb_true_iff, negb_true_iff, orb_true_iff, !Nat.eqb_eq in W. destruct W as ((-> & ->) & W).
              destruct (cmp_extra i j s1) as [[c s2]|] eqn:V; [|discriminate]. intros H. injection H as -> <- <-. right. repeat (split; [reflexivity|]). exists a. repeat (split; [reflexivity|]).
              right. right. repeat (split; [reflexivity|]). eapply extra_sound; eassumption.
            + intros H. injection H as -> -> <-. left. auto. }
        destruct (negb result && p_control && _) eqn:W.
        + rewrite !andb_true_iff, negb_true_iff, orb_true_iff, !Nat.eqb_eq in W. destruct W as ((-> & ->) & W).
          destruct (cmp_extra i j s) as [[c s2]|] eqn:V; [|discriminate]. intros H. injection H as -> <- <-. right. repeat (split; [reflexivity|]). exists a. repeat (split; [reflexivity|]).
          right. right. repeat (split; [reflexivity|]). eapply extra_sound; eassumption.
        + intros H. injection H as -> -> <-. left. auto. }
    destruct (memset a && memset a && p_structs) eqn:Y.
    { rewrite andb_diag in Y. apply andb_true_iff in Y. destruct Y as [Y S]. destruct (cmp_memset i j s) as [[[|] s1]|] eqn:X; [| |discriminate].
      - intros H. injection H as <- <-. right. repeat (split; [reflexivity|]). exists a. repeat (split; [reflexivity|]). right. left. split; [exact S|]. split; [exact Y|].
        destruct (M a Y) as [MI MJ]. eapply memset_sound; [apply MI; reflexivity|apply MJ; reflexivity|exact X].
      - destruct (negb result && p_control && _) eqn:W.
        + rewrite !andb_true_iff, negb_true_iff, orb_true_iff, !Nat.eqb_eq in W. destruct W as ((-> & ->) & W).
          destruct (cmp_extra i j s1) as [[c s2]|] eqn:V; [|discriminate]. intros H. injection H as -> <- <-. right. repeat (split; [reflexivity|]). exists a. repeat (split; [reflexivity|]).
          right. right. repeat (split; [reflexivity|]). eapply extra_sound; eassumption.
        + intros H. injection H as -> -> <-. left. auto. }
    destruct (negb result && p_control && _) eqn:W.
    + rewrite !andb_true_iff, negb_true_iff, orb_true_iff, !Nat.eqb_eq in W. destruct W as ((-> & ->) & W).
      destruct (cmp_extra i j s) as [[c s2]|] eqn:V; [|discriminate]. intros H. injection H as -> <- <-. right. repeat (split; [reflexivity|]). exists a. repeat (split; [reflexivity|]).
      right. right. repeat (split; [reflexivity|]). eapply extra_sound; eassumption.
    + intros H. injection H as -> -> <-. left. auto.
  Qed.

  (** ** The other way, if the comparison of values has no state *)
  Section Pure.
    Variable same : value -> value -> bool.
    Hypothesis pure : forall a b s, cv a b s = Some (same a b, s).
    Definition same_values (a b : value) : Prop := same a b = true.
    Lemma allocs_complete i j s : same_allocation same_values pointee following bit_cast i j -> cmp_allocs i j s = Some (true, s).
    Proof.
      unfold Access_Model.cmp_allocs. rewrite pure. intros [E|(l & r & UL & UR & S)]; [unfold same_values in E; rewrite E; reflexivity|].
      destruct (same (op 0 i) (op 0 j)); [reflexivity|]. apply used_unique in UL, UR. subst.
      pose proof S as (name & a & b & x & y & _ & _ & _ & EX & EY & _). replace (constant_int (op 0 i)) with (Some x) by (rewrite EX; reflexivity). replace (constant_int (op 0 j)) with (Some y) by (rewrite EY; reflexivity).
      apply same_structs_iff in S. rewrite S. reflexivity.
    Qed.
    Lemma memset_complete i j s : same_setting same_values pointee bit_cast i j -> cmp_memset i j s = Some (true, s).
    Proof.
      intros (a & v & n & x & b & u & m & y & f & g & OI & OJ & A & V & X & N). unfold Access_Model.cmp_memset.
      pose proof (before_unique true i) as DI. pose proof (before_unique false j) as DJ.
      unfold args, op in *. rewrite OI, OJ in *. cbn [removelast cmp_but_size Nat.eqb nth] in *. unfold same_values in *. rewrite pure, A, pure, V, pure, X, pure.
      destruct (same n m) eqn:E; [reflexivity|]. destruct N as [N|(l & r & L & R & S)]; [discriminate|].
      apply same_structs_iff in S. rewrite <- (DI l L), <- (DJ r R), S. reflexivity.
    Qed.
    Lemma common_complete xs ys s : Forall2 (fun x y => same_types x y = true /\ same_values x y) xs ys -> cmp_common cv same_types xs ys s = Some (true, s).
    Proof.
      induction 1 as [|x y xs ys [T V] F IH]; [reflexivity|]. cbn [cmp_common]. rewrite T, pure. unfold same_values in V. rewrite V. exact IH.
    Qed.
    Lemma one_more_length more fewer (P : value -> value -> Prop) : one_more is_zero same_types P more fewer -> length (i_ops more) = S (length (i_ops fewer)).
    Proof.
      intros (xs & ys & c & f & g & E & G & _ & _ & F). rewrite E, G, !app_length. rewrite (Forall2_length _ _ _ F). cbn [length]. lia.
    Qed.
    Lemma extra_complete more fewer s : one_more is_zero same_types same_values more fewer ->
      match nth_error (i_ops more) (length (i_ops more) - 2) with
      | Some (VConst c) =>
        if negb (is_zero c) then Some (false, s)
        else if negb (same_types (VReg (i_reg more)) (VReg (i_reg fewer))) then Some (false, s)
        else cmp_common cv same_types (firstn (length (i_ops fewer) - 1) (i_ops more)) (args fewer) s
      | _ => Some (false, s)
      end = Some (true, s).
    Proof.
      intros (xs & ys & c & f & g & E & G & Z & T & F). unfold args. rewrite E, G, !app_length. cbn [length].
      replace (length xs + 2 - 2) with (length xs) by lia. replace (length ys + 1 - 1) with (length xs) by (rewrite (Forall2_length _ _ _ F); lia).
      rewrite nth_error_app2, Nat.sub_diag by lia. cbn [nth_error]. rewrite Z, T. cbn [negb].
      rewrite firstn_app, Nat.sub_diag, firstn_all, firstn_O, app_nil_r, removelast_last. apply common_complete, F.
    Qed.
    Lemma calls_complete i j result need s a :
      i_code i = Call -> i_code j = Call -> called true i = Some a -> called false j = Some a ->
      (p_structs = true /\ In a allocators /\ same_allocation same_values pointee following bit_cast i j) \/
      (p_structs = true /\ memset a = true /\ same_setting same_values pointee bit_cast i j) \/
      (p_control = true /\ (one_more is_zero same_types same_values i j \/ one_more is_zero same_types same_values j i)) ->
      result = true \/ cmp_calls i j result need s = Some (true, false, s).
    Proof.
      intros CI CJ A B H. destruct result; [left; reflexivity|right]. unfold Access_Model.cmp_calls. rewrite CI, CJ, A, B, String.eqb_refl. cbn [negb].
      assert (KA : exists b, (if is_alloc a && p_structs then cmp_allocs i j s else Some (false, s)) = Some (b, s)).
      { destruct (is_alloc a && p_structs); [|eauto]. unfold Access_Model.cmp_allocs. rewrite pure. destruct (same _ _); [eauto|]. destruct (constant_int _); [|eauto]. destruct (constant_int _); eauto. }
      assert (KB : forall k xs ys, exists b, cmp_but_size cv k xs ys s = Some (b, s)).
      { intros k xs. revert k. induction xs as [|x xs IH]; intros k [|y ys]; cbn [cmp_but_size]; eauto. destruct (k =? 2); [apply IH|]. rewrite pure. destruct (same x y); [apply IH|eauto]. }
      assert (KM : exists b, (if memset a && memset a && p_structs then cmp_memset i j s else Some (false, s)) = Some (b, s)).
      { destruct (memset a && memset a && p_structs); [|eauto]. unfold Access_Model.cmp_memset. destruct (KB 0 (args i) (args j)) as [b E]. rewrite E. destruct b; [|eauto]. rewrite pure. destruct (same _ _); eauto. }
      destruct H as [(S & G & X)|[(S & G & X)|(PC & X)]].
      - apply alloc_iff in G. rewrite G, S. cbn [andb]. rewrite (allocs_complete i j s X). reflexivity.
      - destruct KA as [b E]. rewrite E. destruct b; [reflexivity|]. rewrite G, S. cbn [andb]. rewrite (memset_complete i j s X). reflexivity.
      - destruct KA as [b E]. rewrite E. destruct b; [reflexivity|]. destruct KM as [b E']. rewrite E'. destruct b; [reflexivity|]. rewrite PC. cbn [negb andb].
        unfold Access_Model.cmp_extra. destruct X as [X|X].
        + rewrite (one_more_length _ _ _ X) at 1. rewrite Nat.eqb_refl. cbn [orb]. pose proof (one_more_length _ _ _ X) as L. destruct (Nat.ltb_spec (length (i_ops j)) (length (i_ops i))); [|lia].
          rewrite (extra_complete i j s X). reflexivity.
        + pose proof (one_more_length _ _ _ X) as L. rewrite (proj2 (Nat.eqb_eq (length (i_ops j)) (S (length (i_ops i)))) L), orb_true_r. destruct (Nat.ltb_spec (length (i_ops j)) (length (i_ops i))); [lia|].
          rewrite (extra_complete j i s X). reflexivity.
    Qed.
  End Pure.
End Calls.
