(** Proofs about the names that are noted (C118). *)
From Coq Require Import String Ascii ZArith Arith Bool Lia List.
From Verif Require Import PyBase Layout_Model Layout_Spec Layout_Geps.
Import ListNotations.
Open Scope list_scope.
Open Scope Z_scope.

Lemma insert_get d k n k' : dget (insert_name d k n) k' = if eqb k' k then Some (match dget d k with Some x => x | None => n end) else dget d k'.
Proof.
  unfold insert_name, dmem. destruct (eqb_spec k' k) as [->|N].
  - destruct (dget d k) as [x|] eqn:E; [exact E|apply dget_dset_same].
  - destruct (dget d k) as [x|] eqn:E; [reflexivity|apply dget_dset_other, N].
Qed.

Section Noted.
  Variable W : types.
  Variables dfirst dsecond : dinfo.
  Variable by_name : string -> option nat.

  (** What one index does *)
  Lemma note_index_spec s i o st st' c : note_index W dfirst dsecond by_name s i o st = (st', c) ->
    (st' = st /\ ((exists n, i = Var n) \/ exists w v, i = Cst w v /\ dmem (n_maps st) (s, v) = true)) \/
    exists w v, i = Cst w v /\ dmem (n_maps st) (s, v) = false /\
      (forall k, dmem (n_maps st') k = true <-> k = (s, v) \/ dmem (n_maps st) k = true) /\
      ((n_names st' = n_names st /\ forall n j, ~ moved W dfirst dsecond s v n j) \/
       exists n j, moved W dfirst dsecond s v n j /\
         n_names st' = insert_name (insert_name (n_names st) (Some s, v) n) (match o with Some t => Some t | None => by_name (s_name W s) end, j) n).
  Proof.
    unfold note_index. destruct i as [w v|v]; [|intros [= <- <-]; left; split; [reflexivity|left; eauto]].
    destruct (dmem (n_maps st) (s, v)) eqn:D; [intros [= <- <-]; left; split; [reflexivity|right; eauto]|].
    intros H. right. exists w, v. split; [reflexivity|]. split; [exact D|].
    assert (M : forall (d : dict (nat * Z) Z) x, forall k, dmem (dset d (s, v) x) k = true <-> k = (s, v) \/ dmem d k = true).
    { intros d x k. unfold dmem. rewrite dget_dset. destruct (eqb_spec k (s, v)) as [->|N]; [tauto|]. tauto. }
    destruct (String.eqb_spec (s_name W s) "") as [E|E].
    { injection H as <- <-. cbn [n_maps n_names]. split; [apply M|]. left. split; [reflexivity|]. intros n j (C & _). contradiction. }
    destruct (dget dfirst (c_name (s_name W s))) as [d1|] eqn:D1.
    2:{ injection H as <- <-. cbn [n_maps n_names]. split; [apply M|]. left. split; [reflexivity|]. intros n j (_ & x & y & A & _). congruence. }
    destruct (dget dsecond (c_name (s_name W s))) as [d2|] eqn:D2.
    2:{ injection H as <- <-. cbn [n_maps n_names]. split; [apply M|]. left. split; [reflexivity|]. intros n j (_ & x & y & _ & A & _). congruence. }
    destruct (Z.ltb_spec 0 (member_index d2 (name_at d1 v) mod 2 ^ 64)) as [B|B].
    - injection H as <- <-. cbn [n_maps n_names]. split.
      + intros k. match goal with |- context [if ?c then _ else _] => destruct c end; [apply M|]. rewrite M, M. tauto.
      + right. exists (name_at d1 v), (member_index d2 (name_at d1 v) mod 2 ^ 64). split; [|reflexivity].
        split; [exact E|]. exists d1, d2. auto.
    - injection H as <- <-. cbn [n_maps n_names]. split; [apply M|]. left. split; [reflexivity|].
      intros n j (_ & x & y & A & A' & -> & -> & C). replace x with d1 in C by congruence. replace y with d2 in C by congruence. lia.
  Qed.

  (** A property of the noted names that holds for what one index adds holds for all. *)
  Section Keep.
    Variable I : noted -> Prop.
    Variable allowed : nat -> index -> option nat -> Prop.
    Hypothesis step : forall s i o st st' c, allowed s i o -> I st -> note_index W dfirst dsecond by_name s i o st = (st', c) -> I st'.
    Definition other_type (other : option (ty * list index)) (seen : list index) : option nat :=
      match other with
      | Some (ot, _) => match indexed_type W ot seen with Some (Struct u) => Some u | _ => None end
      | None => None
      end.
    Lemma indices_keep t : forall l dn other seen st,
      (forall pre i post s o, l = pre ++ i :: post ->
        indexed_type W t (dn ++ tl pre ++ match pre with [] => [] | _ => [i] end) = Some (Struct s) ->
        (forall ot rest, other = Some (ot, rest) -> exists n, (n <= length pre)%nat /\ o = other_type other (seen ++ firstn n rest)) ->
        (other = None -> o = None) -> allowed s i o) ->
      I st -> I (note_indices W dfirst dsecond by_name t l dn other seen st).
    Proof.
      induction l as [|i l IH]; intros dn other seen st A Is; cbn [note_indices]; [exact Is|].
      assert (NX : forall other' seen' st', I st' ->
        ((other' = other /\ seen' = seen) \/ (exists ot k rest, other = Some (ot, k :: rest) /\ other' = Some (ot, rest) /\ seen' = seen ++ [k])) ->
        I (note_indices W dfirst dsecond by_name t l (match l with [] => dn | k :: _ => dn ++ [k] end) other' seen' st')).
      { intros other' seen' st' Is' OS. apply IH; [|exact Is'].
        intros pre j post s o E T O N. apply (A (i :: pre) j post s o).
        - rewrite E. reflexivity.
        - cbn [tl]. rewrite <- T. f_equal. rewrite E. destruct pre as [|p pre]; cbn [app tl].
          + rewrite app_nil_r. reflexivity.
          + rewrite <- app_assoc. reflexivity.
        - intros ot rest Eo. destruct OS as [(-> & ->)|(ot' & k & rest' & E' & -> & ->)].
          + destruct (O ot rest Eo) as (n & L & ->). exists n. split; [cbn [length]; lia|reflexivity].
          + rewrite E' in Eo. injection Eo as -> <-. destruct (O ot rest' eq_refl) as (n & L & ->). exists (S n).
            split; [cbn [length]; lia|]. cbn [firstn]. rewrite <- app_assoc. rewrite E'. reflexivity.
        - intros E'. apply N. destruct OS as [(-> & _)|(ot' & k & rest' & E'' & _)]; [exact E'|congruence]. }
      destruct (indexed_type W t dn) as [[p|s|n e]|] eqn:T; try (apply NX; [exact Is|left; auto]).
      fold (other_type other seen).
      destruct (note_index W dfirst dsecond by_name s i (other_type other seen) st) as [st' c] eqn:E.
      assert (Al : allowed s i (other_type other seen)).
      { apply (A [] i l); [reflexivity|cbn [tl app]; rewrite app_nil_r; exact T| |].
        - intros ot rest _. exists 0%nat. split; [cbn; lia|]. cbn [firstn]. rewrite app_nil_r. reflexivity.
        - intros ->. reflexivity. }
      pose proof (step _ _ _ _ _ _ Al Is E) as Is'.
      destruct c; [apply NX; [exact Is'|left; auto]|].
      destruct other as [[ot [|k rest]]|]; try (apply NX; [exact Is'|left; split; reflexivity]).
      apply NX; [exact Is'|]. right. exists ot, k, rest. auto.
    Qed.
  End Keep.

  (** What a GEP and that at its place can add *)
  Definition can_add (g : gep) (og : option gep) (s : nat) (i : index) (o : option nat) : Prop :=
    exists pre post, g_idx g = pre ++ i :: post /\
      indexed_type W (g_type g) (tl pre ++ match pre with [] => [] | _ => [i] end) = Some (Struct s) /\
      (og = None -> o = None) /\
      forall x, og = Some x -> exists n, (n <= length pre)%nat /\
        o = match indexed_type W (g_type x) (firstn n (g_idx x)) with Some (Struct u) => Some u | _ => None end.
  Section Whole.
    Variable I : noted -> Prop.
    Lemma gep_keep g og st :
      (forall s i o st st' c, can_add g og s i o -> I st -> note_index W dfirst dsecond by_name s i o st = (st', c) -> I st') ->
      I st -> I (note_gep W dfirst dsecond by_name (Some g) og st).
    Proof.
      intros H Is. cbn [note_gep]. apply (indices_keep I (can_add g og)); [exact H| |exact Is].
      intros pre i post s o E T O N. exists pre, post. split; [exact E|]. cbn [app] in T. split; [exact T|]. split.
      - intros ->. apply N. reflexivity.
      - intros x ->. cbn [option_map] in O. destruct (O (g_type x) (g_idx x) eq_refl) as (n & L & ->). exists n. split; [exact L|reflexivity].
    Qed.
    Lemma block_keep b : forall o st,
      (forall k g, nth_error b k = Some (Some g) -> forall s i p st st' c,
        can_add g (match nth_error o k with Some x => x | None => None end) s i p -> I st ->
        note_index W dfirst dsecond by_name s i p st = (st', c) -> I st') ->
      I st -> I (note_block W dfirst dsecond by_name b o st).
    Proof.
      induction b as [|x b IH]; intros o st H Is; cbn [note_block]; [exact Is|]. apply IH.
      - intros k g K. specialize (H (S k) g K). destruct o as [|y o]; cbn [tl]; [destruct k; exact H|exact H].
      - destruct x as [g|]; [|exact Is]. apply gep_keep; [|exact Is]. specialize (H 0%nat g eq_refl). destruct o; exact H.
    Qed.
    Lemma blocks_keep bs : forall os st,
      (forall b bl k g, nth_error bs b = Some bl -> nth_error bl k = Some (Some g) -> forall s i p st st' c,
        can_add g (match nth_error os b with Some ol => match nth_error ol k with Some x => x | None => None end | None => None end) s i p ->
        I st -> note_index W dfirst dsecond by_name s i p st = (st', c) -> I st') ->
      I st -> I (note_blocks W dfirst dsecond by_name bs os st).
    Proof.
      induction bs as [|x bs IH]; intros os st H Is; cbn [note_blocks]; [exact Is|]. apply IH.
      - intros b bl k g B K. specialize (H (S b) bl k g B K). destruct os as [|y os]; cbn [tl]; [destruct b; exact H|exact H].
      - apply block_keep; [|exact Is]. intros k g K. specialize (H 0%nat x k g eq_refl K). destruct os as [|y os]; cbn [nth_error] in H |- *; [destruct k; exact H|exact H].
    Qed.
    Variables first second : dict string body.
    Variable called : list string.
    Theorem all_keep :
      (forall g og s i p st st' c, in_compared first second called g ->
        (forall o, og = Some o -> paired first second called g o) ->
        can_add g og s i p -> I st -> note_index W dfirst dsecond by_name s i p st = (st', c) -> I st') ->
      I nothing -> I (note_all W dfirst dsecond by_name first second called).
    Proof.
      intros H I0. unfold note_all. destruct dfirst as [|d1 ds1] eqn:D1; [exact I0|]. destruct dsecond as [|d2 ds2] eqn:D2; [exact I0|].
      rewrite <- D1, <- D2 in *. clear D1 D2 d1 ds1 d2 ds2.
      assert (G : forall l st, (forall x, In x l -> In x first) -> I st -> I (fold_left (note_function W dfirst dsecond by_name second called) l st)).
      { induction l as [|[name f] l IH]; intros st Sub Is; cbn [fold_left]; [exact Is|]. apply IH; [intros x Hx; apply Sub; right; exact Hx|].
        unfold note_function. cbn [fst snd]. destruct (dget second name) as [os|] eqn:S2; [|exact Is].
        destruct (mem name called) eqn:M; [|exact Is]. apply mem_In in M. apply blocks_keep; [|exact Is].
        intros b bl k g B K s i p st0 st' c A. pose proof (Sub (name, f) (or_introl eq_refl)) as In1.
        match type of A with can_add _ ?og _ _ _ => apply (H g og s i p st0 st' c) end; [| |exact A].
        - exists name, f, os, b, k. repeat split; try assumption. exists bl. auto.
        - intros o E. exists name, f, os, b, k. repeat split; try assumption; [exists bl; auto|].
          destruct (nth_error os b) as [ol|] eqn:Eo; [|discriminate]. exists ol. split; [exact Eo|].
          destruct (nth_error ol k) as [x|] eqn:Ek; [|discriminate]. congruence. }
      apply G; [auto|exact I0].
    Qed.
  End Whole.

  (** ** Any functions *)
  Section General.
    Variables first second : dict string body.
    Variable called : list string.
    (** The structure type of the second version that an index is noted for: that with the name in
        LLVM, or that in a GEP at the same place. *)
    Definition for_second (s : nat) (u : option nat) : Prop :=
      u = by_name (s_name W s) \/
      exists g o k t, paired first second called g o /\ applied_to W o k (Struct t) /\ u = Some t.
    Theorem noted_general u x n : dget (n_names (note_all W dfirst dsecond by_name first second called)) (u, x) = Some n ->
      (exists s j, u = Some s /\ moved W dfirst dsecond s x n j) \/
      (exists s v, for_second s u /\ moved W dfirst dsecond s v n x).
    Proof.
      apply (all_keep (fun st => forall u x n, dget (n_names st) (u, x) = Some n ->
        (exists s j, u = Some s /\ moved W dfirst dsecond s x n j) \/ (exists s v, for_second s u /\ moved W dfirst dsecond s v n x))
        first second called).
      - intros g og s i p st st' c G P (pre & post & E & T & N & O) Is H u' x' n' D.
        destruct (note_index_spec _ _ _ _ _ _ H) as [(-> & _)|(w & v & -> & _ & _ & [(En & _)|(m & j & M & En)])];
          [apply Is, D|rewrite En in D; apply Is, D|].
        rewrite En in D. rewrite insert_get in D.
        assert (F : dget (insert_name (n_names st) (Some s, v) m) (u', x') = Some n' -> (exists s0 j0, u' = Some s0 /\ moved W dfirst dsecond s0 x' n' j0) \/ (exists s0 v0, for_second s0 u' /\ moved W dfirst dsecond s0 v0 n' x')).
        { rewrite insert_get. destruct (eqb_spec (u', x') (Some s, v)) as [Ek|_]; [|apply Is].
          injection Ek as -> ->. destruct (dget (n_names st) (Some s, v)) as [m'|] eqn:Em; intros [= <-]; [apply Is, Em|].
          left. exists s, j. auto. }
        destruct (eqb_spec (u', x') (match p with Some t => Some t | None => by_name (s_name W s) end, j)) as [Ek|_]; [|apply F, D].
        injection Ek as Eu Ex. rewrite <- Eu, <- Ex in D. destruct (dget (insert_name (n_names st) (Some s, v) m) (u', x')) as [m'|] eqn:Em; injection D as <-; [apply F; reflexivity|].
        right. exists s, v. rewrite Ex. split; [|exact M]. destruct p as [t|]; [|left; exact Eu]. right.
        destruct og as [o|]; [|specialize (N eq_refl); discriminate]. destruct (O o eq_refl) as (k & _ & Ep).
        exists g, o, k, t. split; [apply P; reflexivity|]. split; [|exact Eu]. apply applied_indexed.
        destruct (indexed_type W (g_type o) (firstn k (g_idx o))) as [[a|t'|a b]|]; try discriminate. congruence.
      - intros u' x' n' D. discriminate.
    Qed.
  End General.

  (** ** Plain accesses *)
  Section Plain.
    Variables first second : dict string body.
    Variable called : list string.
    Variable other : nat -> nat.
    Hypothesis PP : plain_program W by_name first second called other.
    Lemma plain_add g og s i p : in_compared first second called g -> (forall o, og = Some o -> paired first second called g o) ->
      can_add g og s i p ->
      g_type g = Struct s /\ In i (g_idx g) /\ match p with Some t => Some t | None => by_name (s_name W s) end = Some (other s).
    Proof.
      destruct PP as (P1 & P2 & P3 & _). intros G P (pre & post & E & T & N & O).
      specialize (P1 g G). unfold plain_access in P1. rewrite E, app_length in P1. cbn [length] in P1.
      assert (Tg : g_type g = Struct s).
      { destruct pre as [|a [|b pre]]; cbn [length] in P1; [| |lia]; cbn in T; congruence. }
      split; [exact Tg|]. split; [rewrite E; apply in_or_app; right; left; reflexivity|].
      destruct og as [o|]; [|rewrite (N eq_refl); apply P3].
      destruct (P2 g o (P o eq_refl)) as (Po & To). specialize (To s Tg). destruct (O o eq_refl) as (n & L & ->).
      assert (L1 : (n <= 1)%nat) by lia. unfold indexed_type. rewrite tl_firstn. replace (n - 1)%nat with 0%nat by lia. cbn [firstn types_down].
      rewrite To. reflexivity.
    Qed.
    Theorem noted_first s v n : accessed first second called s v ->
      (dget (n_names (note_all W dfirst dsecond by_name first second called)) (Some s, v) = Some n
       -> exists j, moved W dfirst dsecond s v n j).
    Proof.
      intros A D. destruct PP as (_ & _ & _ & P4).
      assert (G : forall u x n, dget (n_names (note_all W dfirst dsecond by_name first second called)) (u, x) = Some n ->
        (exists s j, u = Some s /\ moved W dfirst dsecond s x n j) \/ (exists s v, u = Some (other s) /\ moved W dfirst dsecond s v n x)).
      { apply (all_keep (fun st => forall u x n, dget (n_names st) (u, x) = Some n ->
          (exists s j, u = Some s /\ moved W dfirst dsecond s x n j) \/ (exists s v, u = Some (other s) /\ moved W dfirst dsecond s v n x))
          first second called); [|intros ? ? ? C; discriminate].
        intros g og s0 i p st st' c Gc P CA Is H u' x' n' D'. destruct (plain_add _ _ _ _ _ Gc P CA) as (_ & _ & Ep).
        destruct (note_index_spec _ _ _ _ _ _ H) as [(-> & _)|(w & v0 & -> & _ & _ & [(En & _)|(m & j & M & En)])];
          [apply Is, D'|rewrite En in D'; apply Is, D'|].
        rewrite En, Ep in D'. rewrite !insert_get in D'.
        destruct (eqb_spec (u', x') (Some (other s0), j)) as [Ek|_].
        - injection Ek as Eu Ex. rewrite Eu, Ex in *. destruct (eqb_spec (Some (other s0), j) (Some s0, v0)) as [Ek2|_].
          + injection Ek2 as E1 E2. destruct (dget (n_names st) (Some s0, v0)) as [y|] eqn:Ey; injection D' as <-.
            * apply Is. rewrite E1, E2. exact Ey.
            * right. exists s0, v0. auto.
          + destruct (dget (n_names st) (Some (other s0), j)) as [y|] eqn:Ey; injection D' as <-; [apply Is, Ey|].
            right. exists s0, v0. auto.
        - destruct (eqb_spec (u', x') (Some s0, v0)) as [Ek2|_]; [|apply Is, D'].
          injection Ek2 as Eu Ex. rewrite Eu, Ex in *. destruct (dget (n_names st) (Some s0, v0)) as [y|] eqn:Ey; injection D' as <-; [apply Is, Ey|].
          left. exists s0, j. auto. }
      destruct (G _ _ _ D) as [(s0 & j & [= <-] & M)|(s0 & v0 & [= E] & M)]; [eauto|].
      exfalso. apply (P4 s v A s0). exact E.
    Qed.
    Theorem noted_second s' x n : (forall v, ~ accessed first second called s' v) ->
      dget (n_names (note_all W dfirst dsecond by_name first second called)) (Some s', x) = Some n ->
      exists s v, s' = other s /\ accessed first second called s v /\ moved W dfirst dsecond s v n x.
    Proof.
      intros NA D.
      assert (G : forall u x n, dget (n_names (note_all W dfirst dsecond by_name first second called)) (u, x) = Some n ->
        (exists s v, u = Some s /\ accessed first second called s v) \/ (exists s v, u = Some (other s) /\ accessed first second called s v /\ moved W dfirst dsecond s v n x)).
      { apply (all_keep (fun st => forall u x n, dget (n_names st) (u, x) = Some n ->
          (exists s v, u = Some s /\ accessed first second called s v) \/ (exists s v, u = Some (other s) /\ accessed first second called s v /\ moved W dfirst dsecond s v n x))
          first second called); [|intros ? ? ? C; discriminate].
        intros g og s0 i p st st' c Gc P CA Is H u' x' n' D'. destruct (plain_add _ _ _ _ _ Gc P CA) as (Tg & Ii & Ep).
        destruct (note_index_spec _ _ _ _ _ _ H) as [(-> & _)|(w & v0 & -> & _ & _ & [(En & _)|(m & j & M & En)])];
          [apply Is, D'|rewrite En in D'; apply Is, D'|].
        assert (Ac : accessed first second called s0 v0) by (exists g, w; auto).
        rewrite En, Ep in D'. rewrite !insert_get in D'.
        destruct (eqb_spec (u', x') (Some s0, v0)) as [Ek2|_]; [injection Ek2 as -> _; left; eauto|].
        destruct (eqb_spec (u', x') (Some (other s0), j)) as [Ek|_]; [|apply Is, D'].
        injection Ek as Eu Ex. rewrite Eu, Ex in *. destruct (eqb_spec (Some (other s0), j) (Some s0, v0)) as [Ek2|_].
        - injection Ek2 as E1 E2. left. exists s0, v0. split; [congruence|exact Ac].
        - destruct (dget (n_names st) (Some (other s0), j)) as [y|] eqn:Ey; injection D' as <-; [apply Is, Ey|].
          right. exists s0, v0. auto. }
      destruct (G _ _ _ D) as [(s0 & v0 & [= <-] & A)|(s0 & v0 & [= E] & A & M)]; [exfalso; apply (NA v0 A)|].
      exists s0, v0. auto.
    Qed.

    (** What was looked at stays so. *)
    Lemma maps_step key s i o st st' c : dmem (n_maps st) key = true ->
      note_index W dfirst dsecond by_name s i o st = (st', c) -> dmem (n_maps st') key = true.
    Proof.
      intros D H. destruct (note_index_spec _ _ _ _ _ _ H) as [(-> & _)|(w & v & _ & _ & M & _)]; [exact D|]. apply M. right. exact D.
    Qed.
    Lemma looked_index s w v o st st' c : note_index W dfirst dsecond by_name s (Cst w v) o st = (st', c) -> dmem (n_maps st') (s, v) = true.
    Proof.
      intros H. destruct (note_index_spec _ _ _ _ _ _ H) as [(-> & [(n & C)|(w' & v' & [= <- <-] & D)])|(w' & v' & [= <- <-] & _ & M & _)];
        [discriminate|exact D|]. apply M. left. reflexivity.
    Qed.
    Lemma unfold_indices t s i l dn oth seen st : indexed_type W t dn = Some (Struct s) ->
      exists oth' seen' st' o c, note_index W dfirst dsecond by_name s i o st = (st', c) /\
        note_indices W dfirst dsecond by_name t (i :: l) dn oth seen st =
        note_indices W dfirst dsecond by_name t l (match l with [] => dn | k :: _ => dn ++ [k] end) oth' seen' st'.
    Proof.
      intros T. cbn [note_indices]. rewrite T.
      match goal with |- context [note_index _ _ _ _ s i ?o st] => destruct (note_index W dfirst dsecond by_name s i o st) as [st' cc] eqn:E; set (oo := o) in * end.
      destruct cc; [exists oth, seen, st', oo, true; auto|].
      destruct oth as [[ot [|k rest]]|]; [exists (Some (ot, [])), seen, st', oo, false|exists (Some (ot, rest)), (seen ++ [k]), st', oo, false|exists None, seen, st', oo, false]; auto.
    Qed.
    Lemma looked_gep g og st s w v : plain_access g -> g_type g = Struct s -> In (Cst w v) (g_idx g) ->
      dmem (n_maps (note_gep W dfirst dsecond by_name (Some g) og st)) (s, v) = true.
    Proof.
      intros P T I. unfold plain_access in P. cbn [note_gep].
      destruct (g_idx g) as [|i [|j [|k l]]]; cbn [length] in P; [destruct I| | |lia]; rewrite T.
      - destruct I as [->|[]]. destruct (unfold_indices (Struct s) s (Cst w v) [] [] (option_map (fun o => (g_type o, g_idx o)) og) [] st eq_refl) as (oth & seen & st' & o & c & E & ->).
        apply looked_index in E. exact E.
      - destruct (unfold_indices (Struct s) s i [j] [] (option_map (fun o => (g_type o, g_idx o)) og) [] st eq_refl) as (oth & seen & st' & o & c & E & ->).
        destruct (unfold_indices (Struct s) s j [] ([] ++ [j]) oth seen st' eq_refl) as (oth2 & seen2 & st2 & o2 & c2 & E2 & ->).
        cbn [note_indices]. destruct I as [->|[->|[]]]; [|apply looked_index in E2; exact E2]. apply looked_index in E. eapply maps_step; [exact E|exact E2].
    Qed.
    Lemma block_mono key b o st : dmem (n_maps st) key = true -> dmem (n_maps (note_block W dfirst dsecond by_name b o st)) key = true.
    Proof.
      intros D. apply (block_keep (fun st => dmem (n_maps st) key = true)); [|exact D].
      intros k g _ s i p st0 st' c _ D0 H. eapply maps_step; [exact D0|exact H].
    Qed.
    Lemma blocks_mono key bs os st : dmem (n_maps st) key = true -> dmem (n_maps (note_blocks W dfirst dsecond by_name bs os st)) key = true.
    Proof.
      intros D. apply (blocks_keep (fun st => dmem (n_maps st) key = true)); [|exact D].
      intros b bl k g _ _ s i p st0 st' c _ D0 H. eapply maps_step; [exact D0|exact H].
    Qed.
    Lemma looked_block s w v g : plain_access g -> g_type g = Struct s -> In (Cst w v) (g_idx g) -> forall b k o st,
      nth_error b k = Some (Some g) -> dmem (n_maps (note_block W dfirst dsecond by_name b o st)) (s, v) = true.
    Proof.
      intros P T I. induction b as [|x b IH]; intros k o st K; [destruct k; discriminate|]. cbn [note_block].
      destruct k as [|k]; cbn [nth_error] in K; [|apply (IH k), K]. injection K as ->.
      apply block_mono. eapply looked_gep; eassumption.
    Qed.
    Lemma looked_blocks s w v g : plain_access g -> g_type g = Struct s -> In (Cst w v) (g_idx g) -> forall bs b bl k os st,
      nth_error bs b = Some bl -> nth_error bl k = Some (Some g) -> dmem (n_maps (note_blocks W dfirst dsecond by_name bs os st)) (s, v) = true.
    Proof.
      intros P T I. induction bs as [|x bs IH]; intros b bl k os st B K; [destruct b; discriminate|]. cbn [note_blocks].
      destruct b as [|b]; cbn [nth_error] in B; [|apply (IH b bl k); assumption]. injection B as ->.
      apply blocks_mono. eapply looked_block; eassumption.
    Qed.
    Theorem looked_all s v : dfirst <> [] -> dsecond <> [] -> accessed first second called s v ->
      dmem (n_maps (note_all W dfirst dsecond by_name first second called)) (s, v) = true.
    Proof.
      intros N1 N2 (g & w & G & T & I). pose proof (proj1 PP g G) as P. destruct G as (name & f & o & b & k & I1 & S2 & C & (bl & B & K)).
      unfold note_all. destruct dfirst as [|d1 ds1] eqn:D1; [congruence|]. destruct dsecond as [|d2 ds2] eqn:D2; [congruence|].
      rewrite <- D1, <- D2 in *.
      assert (M : forall l st, dmem (n_maps st) (s, v) = true -> dmem (n_maps (fold_left (note_function W dfirst dsecond by_name second called) l st)) (s, v) = true).
      { induction l as [|x l IH]; intros st D; cbn [fold_left]; [exact D|]. apply IH. unfold note_function.
        destruct (dget second (fst x)) as [os|]; [|exact D]. destruct (mem (fst x) called); [apply blocks_mono, D|exact D]. }
      generalize nothing as st. revert I1. generalize first as l. clear PP.
      induction l as [|x l IH]; intros I1 st; [destruct I1|]. cbn [fold_left]. destruct I1 as [->|I1]; [|apply IH, I1].
      apply M. unfold note_function. cbn [fst snd]. rewrite S2. apply mem_In in C. rewrite C. eapply looked_blocks; eassumption.
    Qed.
    Theorem noted_complete s v n j : accessed first second called s v -> moved W dfirst dsecond s v n j ->
      (exists n', dget (n_names (note_all W dfirst dsecond by_name first second called)) (Some s, v) = Some n') /\
      (exists n', dget (n_names (note_all W dfirst dsecond by_name first second called)) (Some (other s), j) = Some n').
    Proof.
      intros A M.
      assert (N1 : dfirst <> []) by (destruct M as (_ & d1 & d2 & D & _); intros E; rewrite E in D; discriminate).
      assert (N2 : dsecond <> []) by (destruct M as (_ & d1 & d2 & _ & D & _); intros E; rewrite E in D; discriminate).
      pose proof (looked_all s v N1 N2 A) as L. revert L M. clear A N1 N2. revert s v n j.
      assert (G : forall s v n j, dmem (n_maps (note_all W dfirst dsecond by_name first second called)) (s, v) = true -> moved W dfirst dsecond s v n j ->
        dmem (n_names (note_all W dfirst dsecond by_name first second called)) (Some s, v) = true /\
        dmem (n_names (note_all W dfirst dsecond by_name first second called)) (Some (other s), j) = true).
      { apply (all_keep (fun st => forall s v n j, dmem (n_maps st) (s, v) = true -> moved W dfirst dsecond s v n j ->
          dmem (n_names st) (Some s, v) = true /\ dmem (n_names st) (Some (other s), j) = true) first second called); [|intros ? ? ? ? C; discriminate].
        intros g og s0 i p st st' c Gc P CA Is H s1 v1 n1 j1 D' M'. destruct (plain_add _ _ _ _ _ Gc P CA) as (Tg & Ii & Ep).
        destruct (note_index_spec _ _ _ _ _ _ H) as [(-> & _)|(w & v0 & -> & _ & Mp & [(En & NM)|(m & j & M & En)])].
        - eapply Is; eassumption.
        - rewrite En. apply Mp in D'. destruct D' as [[= -> ->]|D']; [exfalso; eapply NM; exact M'|]. eapply Is; eassumption.
        - rewrite En, Ep. unfold dmem. rewrite !insert_get. apply Mp in D'. destruct D' as [[= -> ->]|D'].
          + assert (Ej : j1 = j).
            { destruct M as (_ & a1 & a2 & X1 & X2 & -> & -> & _). destruct M' as (_ & b1 & b2 & Y1 & Y2 & -> & -> & _). congruence. }
            subst j1. split.
            * destruct (eqb_spec (Some s0, v0) (Some (other s0), j)); [reflexivity|]. destruct (eqb_spec (Some s0, v0) (Some s0, v0)); [reflexivity|congruence].
            * destruct (eqb_spec (Some (other s0), j) (Some (other s0), j)); [reflexivity|congruence].
          + destruct (Is _ _ _ _ D' M') as (X & Y). unfold dmem in X, Y. split.
            * destruct (eqb_spec (Some s1, v1) (Some (other s0), j)); [reflexivity|]. destruct (eqb_spec (Some s1, v1) (Some s0, v0)); [reflexivity|exact X].
            * destruct (eqb_spec (Some (other s1), j1) (Some (other s0), j)); [reflexivity|]. destruct (eqb_spec (Some (other s1), j1) (Some s0, v0)); [reflexivity|exact Y]. }
      intros s v n j L M. destruct (G _ _ _ _ L M) as (X & Y). unfold dmem in X, Y. split.
      - destruct (dget _ (Some s, v)) as [n'|]; [eauto|discriminate].
      - destruct (dget _ (Some (other s), j)) as [n'|]; [eauto|discriminate].
    Qed.
  End Plain.
End Noted.
