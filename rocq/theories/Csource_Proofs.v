(** * Proofs about the comparison of arguments by their source text *)
From Coq Require Import String Ascii ZArith Arith Bool Lia List.
From Verif Require Import PyBase Source_Model Source_Spec Source_Proofs Info_Model Info_Proofs Info_Props Access_Model Csource_Model Csource_Spec.
Import ListNotations.
Open Scope list_scope.

Lemma ident_char_iff c : ident_char c = true <-> Letter c.
Proof.
  unfold ident_char, is_letter, is_digit, Letter. cbv zeta. rewrite !orb_true_iff, !andb_true_iff, !Nat.leb_le, Ascii.eqb_eq.
  assert (E : c = "_"%char <-> nat_of_ascii c = 95) by (split; [intros ->; reflexivity|intros H; rewrite <- (ascii_nat_embedding c), H; reflexivity]).
  rewrite E. change (nat_of_ascii "0") with 48. change (nat_of_ascii "9") with 57. lia.
Qed.
Lemma all_ident_iff s : all_ident s = true <-> Identifier s.
Proof.
  unfold Identifier. induction s as [|c s IH]; cbn; [split; [constructor|reflexivity]|]. rewrite andb_true_iff, ident_char_iff, IH. split; [intros (A & B); constructor; assumption|intros H; inversion H; auto].
Qed.
Lemma type_of_name s x : Identifier x -> type_of s x = match dget (s_globals s) x with Some t => Some t | None => dget (s_locals s) (s_fun s ++ "::" ++ x)%string end.
Proof.
  intros I. assert (A := proj2 (all_ident_iff x) I). destruct x as [|c x]; [reflexivity|]. inversion I as [|? ? L _]; subst.
  assert (N1 : c <> "*"%char) by (intros ->; apply ident_char_iff in L; discriminate L). assert (N2 : c <> "&"%char) by (intros ->; apply ident_char_iff in L; discriminate L).
  remember (String c x) as e eqn:E. unfold type_of. destruct e as [|d e]; [discriminate|]. injection E as -> ->. rewrite A.
  destruct c as [[] [] [] [] [] [] [] []]; try reflexivity; exfalso; auto.
Qed.
Lemma type_of_other s x : ~ Identifier x -> (forall e, x <> String "*" e) -> (forall e, x <> String "&" e) -> type_of s x = None.
Proof.
  intros I N1 N2. destruct (all_ident x) eqn:A; [apply all_ident_iff in A; contradiction|]. destruct x as [|c x]; [discriminate A|].
  remember (String c x) as e eqn:E. unfold type_of. destruct e as [|d e]; [discriminate|]. injection E as -> ->. rewrite A.
  destruct c as [[] [] [] [] [] [] [] []]; try reflexivity; exfalso; [exact (N2 x eq_refl)|exact (N1 x eq_refl)].
Qed.
Lemma not_ident_star e : ~ Identifier (String "*" e). Proof. intros I. inversion I as [|? ? L _]. apply ident_char_iff in L. discriminate L. Qed.
Lemma not_ident_amp e : ~ Identifier (String "&" e). Proof. intros I. inversion I as [|? ? L _]. apply ident_char_iff in L. discriminate L. Qed.
Lemma points_pointer t b : Only_pointers t -> Points t b -> exists n, t = Derived Pointer n (Some b).
Proof. intros O P. destruct P as [n b|k n t b K P]; [eauto|]. destruct O as (-> & _). contradiction. Qed.

Lemma type_of_iff s : Simple s -> forall e t, (type_of s e = Some t <-> C_type s e t) /\ (type_of s e = Some t -> Only_pointers t).
Proof.
  intros (S1 & S2 & S3). induction e as [|c e IH]; intros t.
  - rewrite type_of_name by constructor. split; [|destruct (dget (s_globals s) ""%string) eqn:E; intros H; [injection H as <-; eapply S2; eassumption|eapply S3; eassumption]]. split.
    + intros H. apply C_name; [constructor|]. destruct (dget (s_globals s) ""%string) eqn:E; [injection H as <-; right; split; [apply S1; congruence|exact E]|left; exact H].
    + intros H. inversion H as [x t0 I V| |]; subst. destruct V as [V|(V & W)]; [|rewrite W; reflexivity]. destruct (dget (s_globals s) ""%string) eqn:E; [|exact V]. rewrite (S1 ""%string) in V by congruence. discriminate.
  - destruct (ascii_dec c "*") as [->|N1]; [|destruct (ascii_dec c "&") as [->|N2]].
    + change (type_of s (String "*" e)) with (match type_of s e with Some (Derived _ _ b) => b | _ => None end). split.
      * split.
        -- intros H. destruct (type_of s e) as [[k n b|n]|] eqn:E; try discriminate. subst b. destruct (IH (Derived k n (Some t))) as (I1 & I2). apply C_deref with (t := Derived k n (Some t)); [apply I1; reflexivity|]. destruct (I2 eq_refl) as (-> & _). apply Points_to.
        -- intros H. inversion H as [x t0 I V|e0 t0 b C P|]; subst; [destruct (not_ident_star _ I)|]. destruct (IH t0) as (I1 & I2). apply I1 in C. destruct (points_pointer t0 t (I2 C) P) as (n & ->). rewrite C. reflexivity.
      * intros H. destruct (type_of s e) as [[k n b|n]|] eqn:E; try discriminate. subst b. destruct (IH (Derived k n (Some t))) as (_ & I2). apply (I2 eq_refl).
    + change (type_of s (String "&" e)) with (match type_of s e with Some t => Some (Derived Pointer "" (Some t)) | None => None end). split.
      * split.
        -- intros H. destruct (type_of s e) as [u|] eqn:E; [|discriminate]. injection H as <-. apply C_ref. apply IH. exact eq_refl.
        -- intros H. inversion H as [x t0 I V| |e0 t0 C]; subst; [destruct (not_ident_amp _ I)|]. apply (IH t0) in C. rewrite C. reflexivity.
      * intros H. destruct (type_of s e) as [u|] eqn:E; [|discriminate]. injection H as <-. split; [reflexivity|]. apply (IH u). reflexivity.
    + assert (B : {Identifier (String c e)} + {~ Identifier (String c e)}).
      { destruct (all_ident (String c e)) eqn:A; [left; apply all_ident_iff; exact A|right; intros I; apply all_ident_iff in I; congruence]. }
      destruct B as [I|I].
      * rewrite type_of_name by exact I. split; [|destruct (dget (s_globals s) (String c e)) eqn:E; intros H; [injection H as <-; eapply S2; eassumption|eapply S3; eassumption]]. split.
        -- intros H. apply C_name; [exact I|]. destruct (dget (s_globals s) (String c e)) eqn:E; [injection H as <-; right; split; [apply S1; congruence|exact E]|left; exact H].
        -- intros H. inversion H as [x t0 I0 V| |]; subst; [|contradiction|contradiction]. destruct V as [V|(V & W)]; [|rewrite W; reflexivity]. destruct (dget (s_globals s) (String c e)) eqn:E; [|exact V]. rewrite (S1 (String c e)) in V by congruence. discriminate.
      * rewrite type_of_other; [|exact I|intros e0 E; injection E; auto|intros e0 E; injection E; auto]. split; [|discriminate]. split; [discriminate|]. intros H. inversion H; subst; contradiction.
Qed.

Lemma take_len a b : take (String.length a) (a ++ b) = a.
Proof. unfold take. induction a as [|c a IH]; cbn; [destruct b; reflexivity|]. rewrite IH. reflexivity. Qed.
Lemma inside_sizeof arg inner : Sizeof arg inner -> inside arg = Some inner.
Proof.
  intros (t & -> & C). unfold inside, to_matching_bracket. replace (String.length ("sizeof" ++ t) <? 6) with false by (symmetry; apply Nat.ltb_ge; cbn; lia).
  change (drop 6 ("sizeof" ++ t)) with t. apply bracket_iff in C. rewrite C. cbn [append]. f_equal.
  replace (String.length (inner ++ ")") - 1) with (String.length inner); [apply take_len|]. rewrite length_app_s. cbn. lia.
Qed.
Lemma as_int_iff x z : In_int x z <-> as_int x = z.
Proof.
  unfold In_int, as_int. pose proof (Z.mod_pos_bound x (2 ^ 32) ltac:(lia)) as B. pose proof (Z.div_mod x (2 ^ 32) ltac:(lia)) as D. split.
  - intros (R & k & E). destruct (Z.ltb_spec (x mod 2 ^ 32) (2 ^ 31)) as [L|L]; assert (Q : (x / 2 ^ 32 = k \/ x / 2 ^ 32 = k - 1 \/ x / 2 ^ 32 = k + 1)%Z) by lia; lia.
  - destruct (Z.ltb_spec (x mod 2 ^ 32) (2 ^ 31)) as [L|L]; intros <-; (split; [lia|]); [exists (x / 2 ^ 32)%Z|exists (x / 2 ^ 32 + 1)%Z]; lia.
Qed.
Lemma sizes_nonempty structs z l : dget (struct_sizes structs) z = Some l -> l <> [].
Proof.
  assert (G : forall structs m, (forall z l, dget m z = Some l -> l <> []) -> forall z l, dget (fold_left add_size structs m) z = Some l -> l <> []).
  { clear. induction structs as [|[n s] structs IH]; intros m H; [exact H|]. cbn. apply IH. intros z l E. unfold add_size in E. cbn in E. destruct s as [k|]; [|eapply H; exact E].
    rewrite dget_dset in E. destruct (eqb z k); [|eapply H; exact E]. injection E as <-. destruct (dget m k); [destruct l; discriminate|discriminate]. }
  apply G. intros z0 l0 E. discriminate.
Qed.
Lemma same_set_iff a b : same_set a b = true <-> forall x : string, In x a <-> In x b.
Proof.
  unfold same_set. rewrite andb_true_iff, !forallb_forall. setoid_rewrite mem_In. firstorder.
Qed.
Lemma same_sizes_iff l r x y : same_sizes l r x y = true <-> exists a b, In_int x a /\ In_int y b /\ Same_structures l r a b.
Proof.
  unfold same_sizes. split.
  - intros H. exists (as_int x), (as_int y). split; [apply as_int_iff; reflexivity|]. split; [apply as_int_iff; reflexivity|].
    destruct (dget (struct_sizes (s_structs l)) _) as [n|] eqn:E1; [|discriminate]. destruct (dget (struct_sizes (s_structs r)) _) as [m|] eqn:E2; [|discriminate]. rewrite same_set_iff in H. split.
    + destruct n as [|k n]; [destruct (sizes_nonempty _ _ _ E1 eq_refl)|]. exists k. apply C130_sizes. exists (k :: n). split; [exact E1|left; reflexivity].
    + intros k. rewrite <- !C130_sizes. split; intros (q & E & I).
      * exists m. split; [exact E2|]. apply H. congruence.
      * exists n. split; [exact E1|]. apply H. congruence.
  - intros (a & b & A & B & (k & K) & S). apply as_int_iff in A, B. subst a b.
    pose proof (proj1 (S k) K) as K'. apply C130_sizes in K as (n & E1 & I1). apply C130_sizes in K' as (m & E2 & I2). rewrite E1, E2. apply same_set_iff. intros q. specialize (S q). rewrite <- !C130_sizes in S. split; intros I.
    + destruct (proj1 S) as (m' & E & J); [exists n; auto|]. congruence.
    + destruct (proj2 S) as (n' & E & J); [exists m; auto|]. congruence.
Qed.
Lemma sizeof_starts a inner : Sizeof a inner -> startswith a "sizeof" = true.
Proof. intros (t & -> & _). apply startswith_spec. exists t. reflexivity. Qed.
