(** * The search for what is stored in local variables *)
From Coq Require Import String Ascii ZArith Arith Bool Lia List.
From Verif Require Import PyBase Funcomp_Model Slice_Model Slice_Spec Slice_Control Slice_Variable Slice_Whole Slice_Result Stores_Spec.
Import ListNotations.
Open Scope list_scope.
Open Scope nat_scope.

Section Stores.
  Variable f : func.
  Hypothesis U : NoDup (map i_reg (insts f)).
  Hypothesis B : NoDup (dkeys (f_blocks f)).

  Lemma follows_In1 i j : follows f i j -> In i (insts f) /\ In j (insts f).
  Proof. intros (b & l1 & l2 & H). split; apply in_flat_map; exists (b, l1 ++ i :: j :: l2); (split; [exact H|]); apply in_or_app; right; cbn; auto. Qed.
  Lemma goes_In i j : goes_on f i j -> In j (insts f).
  Proof. intros [(_ & F)|(_ & t & l & _ & H)]; [apply (follows_In1 i j F)|apply in_flat_map; exists (t, j :: l); split; [exact H|left; reflexivity]]. Qed.
  Lemma way_In u a j : way f u a j -> In j (insts f).
  Proof. intros [x F|i x _ _ G]; [apply (follows_In1 a x F)|apply (goes_In i x G)]. Qed.
  Lemma may_write_In u a x : may_write f u a x -> In x (insts f).
  Proof. induction 1 as [a x W _|a d x _ _ _ _ IH]; [apply (way_In u a x W)|exact IH]. Qed.

  Lemma block_unique b l : In (b, l) (f_blocks f) -> block f b = l.
  Proof. intros H. unfold block. rewrite (dget_In_NoDup _ _ _ B H). reflexivity. Qed.
  Lemma one_block (bs : list (nat * list inst)) kb kb' r : NoDup (map i_reg (flat_map snd bs)) -> In kb bs -> In kb' bs ->
    In r (map i_reg (snd kb)) -> In r (map i_reg (snd kb')) -> kb = kb'.
  Proof.
    induction bs as [|x bs IH]; [intros _ []|]. cbn [flat_map]. rewrite map_app. intros N.
    assert (N2 : NoDup (map i_reg (flat_map snd bs))) by (revert N; generalize (map i_reg (snd x)); intros l; induction l; cbn; [auto|intros M; apply IHl; inversion M; assumption]).
    assert (X : forall k, In k bs -> In r (map i_reg (snd x)) -> In r (map i_reg (snd k)) -> False).
    { intros k K R1 R2. assert (R3 : In r (map i_reg (flat_map snd bs))).
      { apply in_map_iff in R2 as (i & <- & I). apply in_map. apply in_flat_map. exists k. split; assumption. }
      clear - N R1 R3. induction (map i_reg (snd x)) as [|y l IHl]; [destruct R1|]. cbn in N. inversion N; subst. destruct R1 as [->|R1]; [apply H1; apply in_or_app; right; exact R3|auto]. }
    intros [<-|I] [<-|J] R1 R2; [reflexivity|exfalso; apply (X kb' J R1 R2)|exfalso; apply (X kb I R2 R1)|apply IH; assumption].
  Qed.
  Lemma next_of_spec l1 i j l2 : NoDup (map i_reg (l1 ++ i :: j :: l2)) -> next_of (i_reg i) (l1 ++ i :: j :: l2) = Some j.
  Proof.
    induction l1 as [|x l1 IH]; intros N; cbn [app next_of].
    - rewrite Nat.eqb_refl. reflexivity.
    - cbn in N. inversion N; subst. destruct (Nat.eqb_spec (i_reg x) (i_reg i)) as [E|E]; [|apply IH; assumption].
      exfalso. apply H1. rewrite E. apply in_map. apply in_or_app. right. left. reflexivity.
  Qed.
  Lemma next_node_spec i j : follows f i j -> In j (next_node f i).
  Proof.
    intros (b & l1 & l2 & H). unfold next_node, parent.
    assert (R : In (i_reg i) (map i_reg (l1 ++ i :: j :: l2))) by (apply in_map, in_or_app; right; left; reflexivity).
    destruct (find (fun kb => mem (i_reg i) (map i_reg (snd kb))) (f_blocks f)) as [kb|] eqn:F.
    - apply find_some in F as [K M]. apply mem_In in M.
      assert (kb = (b, l1 ++ i :: j :: l2)) as -> by (apply (one_block (f_blocks f) _ _ (i_reg i) U K H M); exact R).
      cbn [fst]. rewrite (block_unique _ _ H). rewrite next_of_spec; [left; reflexivity|].
      clear - U H. unfold insts in U. apply in_split in H as (x & y & E). rewrite E, flat_map_app in U. cbn [flat_map snd] in U. rewrite map_app in U.
      assert (A : forall (p q : list nat), NoDup (p ++ q) -> NoDup q) by (intros p q; induction p; cbn; [auto|intros N; inversion N; auto]).
      apply A in U. rewrite map_app in U. clear - U. revert U. generalize (map i_reg (l1 ++ i :: j :: l2)). intros l. induction l as [|z l IH]; [constructor|]. cbn. intros N. inversion N; subst.
      constructor; [intros Q; apply H1; apply in_or_app; left; exact Q|auto].
    - exfalso. pose proof (find_none _ _ F _ H) as X. cbn [snd] in X. apply mem_In in R. congruence.
  Qed.
  Lemma next_insts_spec i j : goes_on f i j -> In j (next_insts f i).
  Proof.
    intros [(C & F)|(C & t & l & T & H)]; unfold next_insts.
    - pose proof (next_node_spec i j F). destruct (i_code i); try assumption. congruence.
    - rewrite C. apply in_flat_map. exists t. split; [exact T|]. rewrite (block_unique _ _ H). left. reflexivity.
  Qed.
  Lemma next_node_In d j : In j (next_node f d) -> In j (insts f).
  Proof.
    unfold next_node. destruct (parent f (i_reg d)) as [b|]; [|intros []]. destruct (next_of _ _) as [k|] eqn:E; [|intros []]. intros [<-|[]].
    apply (block_insts f b). revert E. generalize (i_reg d). intros r. induction (block f b) as [|x l IH]; [discriminate|]. cbn [next_of]. destruct (Nat.eqb _ _); [|intros E; right; apply IH; exact E].
    destruct l as [|y l]; [discriminate|]. intros E. injection E as <-. right. left. reflexivity.
  Qed.
  Lemma next_insts_In d j : In j (next_insts f d) -> In j (insts f).
  Proof.
    unfold next_insts. destruct (i_code d); try apply next_node_In. intros H. apply in_flat_map in H as (b & _ & H).
    apply (block_insts f b). destruct (block f b) as [|x l]; [destruct H|]. destruct H as [<-|[]]. left. reflexivity.
  Qed.

  (** What may have written to the local variables that [i] uses is kept. *)
  Definition stored (s : sets) (i : inst) : Prop :=
    forall a x, In a (insts f) -> uses i a -> i_code a = Alloca -> may_write f i a x -> x = i \/ kept s (i_reg x).
  Record extends (s s' : sets) : Prop := mkExt {
    ext_kept : forall r, kept s r -> kept s' r;
    ext_stored : forall i, In i (insts f) -> kept s' (i_reg i) -> kept s (i_reg i) \/ stored s' i }.
  Lemma stored_more s s' i : (forall r, kept s r -> kept s' r) -> stored s i -> stored s' i.
  Proof. intros H S a x A Us C M. destruct (S a x A Us C M) as [E|K]; [left; exact E|right; apply H; exact K]. Qed.
  Lemma ext_refl s : extends s s.
  Proof. constructor; auto. Qed.
  Lemma ext_trans a b c : extends a b -> extends b c -> extends a c.
  Proof.
    intros [K1 S1] [K2 S2]. constructor; [auto|]. intros i I K. destruct (S2 i I K) as [K'|S]; [|right; exact S]. destruct (S1 i I K') as [K3|S]; [left; exact K3|].
    right. apply stored_more with b; assumption.
  Qed.
  Lemma ext_one d s new s1 s2 : In d (insts f) -> add_included f (i_reg d) s = (new, s1) ->
    (if new then extends s1 s2 /\ stored s2 d else s2 = s1) -> extends s s2 /\ kept s2 (i_reg d).
  Proof.
    intros D E H. pose proof (add_included_kept f (i_reg d) s) as K. rewrite E in K. cbn [snd] in K. unfold add_included in E.
    destruct (mem _ _ || mem _ _) eqn:M; injection E as <- <-.
    - subst s2. split; [apply ext_refl|exact K].
    - destruct H as [[K1 S1] S]. split; [|apply K1; exact K]. constructor.
      + intros r [R|R]; apply K1; [left; right; exact R|right; exact R].
      + intros i I Ki. destruct (S1 i I Ki) as [[[Er|K2]|K2]|S2]; [|left; left; exact K2|left; right; exact K2|right; exact S2].
        right. rewrite <- (same_reg (insts f) d i U D I Er). exact S.
  Qed.

  (** [v] was looked at in the search from [a]. *)
  Definition done (use a : inst) (s : sets) (v : inst) : Prop :=
    (writes (i_reg a) v -> kept s (i_reg v)) /\
    (part_of (i_reg a) v -> forall x, may_write f use v x -> x = use \/ kept s (i_reg x)).
  Lemma done_more use a s s' v : (forall r, kept s r -> kept s' r) -> done use a s v -> done use a s' v.
  Proof. intros H [W P]. split; [auto|]. intros Q x M. destruct (P Q x M); [left; assumption|right; auto]. Qed.
  Definition is_address (a : inst) : Prop := match i_code a with Alloca | Cast _ | Gep _ => True | _ => False end.

  (** When nothing is left to be looked at. *)
  Lemma all_done use a visited s : is_address a ->
    (forall j, follows f a j -> In (i_reg j) visited) ->
    (forall v, In v (insts f) -> In (i_reg v) visited -> v = a \/ v = use \/ done use a s v /\ (forall j, goes_on f v j -> In (i_reg j) visited)) ->
    forall x, may_write f use a x -> x = use \/ kept s (i_reg x).
  Proof.
    intros A N V.
    assert (W : forall j, way f use a j -> In (i_reg j) visited).
    { induction 1 as [j F|i j Wi IH Ni G]; [apply N; exact F|]. destruct (V i (way_In _ _ _ Wi) IH) as [->|[Q|[_ D]]]; [|congruence|apply D; exact G].
      destruct G as [(_ & F)|(C & _)]; [apply N; exact F|]. unfold is_address in A. rewrite C in A. destruct A. }
    intros x M. remember a as a' eqn:Ea. revert Ea. induction M as [a0 x Wx Wr|a0 d x Wd Nd P M IH]; intros ->.
    - destruct (V x (way_In _ _ _ Wx) (W x Wx)) as [->|[->|[D _]]]; [|left; reflexivity|right; apply D; exact Wr].
      exfalso. unfold is_address in A. destruct Wr as [(C & _)|(C & _)]; rewrite C in A; destruct A.
    - destruct (V d (way_In _ _ _ Wd) (W d Wd)) as [->|[->|[D _]]]; [apply IH; auto|congruence|]. apply D; assumption.
  Qed.

  Lemma search_spec n :
    (forall i s s', In i (insts f) -> add_operands n f i s = Some s' -> extends s s' /\ stored s' i) /\
    (forall a use work visited s s', is_address a -> In use (insts f) -> (forall i, In i work -> In i (insts f)) ->
       (forall j, follows f a j -> In j work \/ In (i_reg j) visited) ->
       (forall v, In v (insts f) -> In (i_reg v) visited -> v = a \/ v = use \/ done use a s v /\ (forall j, goes_on f v j -> In j work \/ In (i_reg j) visited)) ->
       add_stores n f a use work visited s = Some s' -> extends s s' /\ forall x, may_write f use a x -> x = use \/ kept s' (i_reg x)).
  Proof.
    induction n as [|n [IHo IHs]]; [split; [intros i s s' H; discriminate|intros; discriminate]|].
    split.
    - intros i s s' Ii H. cbn [add_operands] in H.
      enough (X : forall l s s', (fix ops (l : list value) (s : sets) : option sets :=
         match l with
         | [] => Some s
         | v :: l' =>
           match inst_of f v with
           | None => ops l' s
           | Some d =>
             let '(new, s1) := add_included f (i_reg d) s in
             match (if new then add_operands n f d s1 else Some s1) with
             | None => None
             | Some s2 =>
               match (match i_code d with Alloca => add_stores n f d i (next_node f d) [i_reg d; i_reg i] s2 | _ => Some s2 end) with
               | None => None
               | Some s3 => ops l' s3
               end
             end
           end
         end) l s = Some s' -> extends s s' /\ (forall a x, In a (insts f) -> In (VReg (i_reg a)) l -> i_code a = Alloca -> may_write f i a x -> x = i \/ kept s' (i_reg x))).
      { destruct (X (i_ops i) s s' H) as [G K]. split; [exact G|]. intros a x A Us C M. apply (K a x A Us C M). }
      clear s s' H. induction l as [|v l IH]; intros s s' H; [injection H as <-; split; [apply ext_refl|intros a x _ []]|].
      destruct (inst_of f v) as [d|] eqn:Ev.
      + destruct (add_included f (i_reg d) s) as [new s1] eqn:Ea.
        destruct (if new then add_operands n f d s1 else Some s1) as [s2|] eqn:E2; [|discriminate].
        pose proof (inst_of_In f v d Ev) as Id.
        assert (G2 : extends s s2 /\ kept s2 (i_reg d)).
        { apply (ext_one d s new s1 s2 Id Ea). destruct new; [apply IHo; [exact Id|exact E2]|congruence]. }
        destruct G2 as [G2 K2].
        destruct (match i_code d with Alloca => add_stores n f d i (next_node f d) [i_reg d; i_reg i] s2 | _ => Some s2 end) as [s3|] eqn:E3; [|discriminate].
        assert (G3 : extends s2 s3 /\ (i_code d = Alloca -> forall x, may_write f i d x -> x = i \/ kept s3 (i_reg x))).
        { destruct (i_code d) eqn:Cd; try (injection E3 as <-; split; [apply ext_refl|discriminate]).
          assert (Ad : is_address d) by (unfold is_address; rewrite Cd; exact I).
          destruct (IHs d i (next_node f d) [i_reg d; i_reg i] s2 s3 Ad Ii) as [G3 M3]; try assumption.
          - intros j. apply next_node_In.
          - intros j F. left. apply next_node_spec. exact F.
          - intros w Iw [R|[R|[]]]; [left; apply (same_reg (insts f)); auto|].
            right. left. apply (same_reg (insts f)); auto.
          - split; [exact G3|intros _; exact M3]. }
        destruct G3 as [G3 M3]. destruct (IH s3 s' H) as [G4 K4]. split; [eapply ext_trans; [exact G2|eapply ext_trans; [exact G3|exact G4]]|].
        intros a x A [Va|V] C M; [|apply (K4 a x A V C M)]. subst v. cbn [inst_of] in Ev. unfold find_inst in Ev. rewrite (nodup_find (insts f) a U A) in Ev. injection Ev as <-.
        destruct (M3 C x M) as [X|X]; [left; exact X|right; apply (ext_kept _ _ G4); exact X].
      + destruct (IH s s' H) as [G4 K4]. split; [exact G4|]. intros a x A [Va|V] C M; [|apply (K4 a x A V C M)].
        subst v. cbn [inst_of] in Ev. unfold find_inst in Ev. rewrite (nodup_find (insts f) a U A) in Ev. discriminate.
    - intros a use work visited s s' A Iu W N V H. cbn [add_stores] in H. destruct work as [|i work].
      { injection H as <-. split; [apply ext_refl|]. apply all_done with visited; [exact A|intros j F; destruct (N j F) as [[]|X]; exact X|].
        intros v Iv R. destruct (V v Iv R) as [X|[X|[X Y]]]; auto. right. right. split; [exact X|]. intros j G. destruct (Y j G) as [[]|Z]; exact Z. }
      set (takes := match i_code i with Store => eqb (op 1 i) (VReg (i_reg a)) | Call => mem (VReg (i_reg a)) (i_ops i) | _ => false end) in H.
      set (derived := match i_code i with Cast true | Gep _ => eqb (op 0 i) (VReg (i_reg a)) | _ => false end) in H.
      destruct (if takes then add_included f (i_reg i) s else (false, s)) as [new s1] eqn:E1.
      destruct (if new then add_operands n f i s1 else Some s1) as [s2|] eqn:E2; [|discriminate].
      assert (Ii : In i (insts f)) by (apply W; left; reflexivity).
      assert (G2 : extends s s2 /\ (takes = true -> kept s2 (i_reg i))).
      { destruct takes.
        - destruct (ext_one i s new s1 s2 Ii E1) as [X Y]; [destruct new; [apply IHo; assumption|congruence]|]. split; [exact X|intros _; exact Y].
        - injection E1 as <- <-. injection E2 as <-. split; [apply ext_refl|discriminate]. }
      destruct G2 as [G2 K2].
      destruct (if derived then add_stores n f i use (next_node f i) [i_reg i; i_reg use] s2 else Some s2) as [s3|] eqn:E3; [|discriminate].
      assert (Dv : derived = true -> is_address i) by (unfold derived, is_address; destruct (i_code i); try discriminate; auto).
      assert (G3 : extends s2 s3 /\ (derived = true -> forall x, may_write f use i x -> x = use \/ kept s3 (i_reg x))).
      { destruct derived; [|injection E3 as <-; split; [apply ext_refl|discriminate]].
        destruct (IHs i use (next_node f i) [i_reg i; i_reg use] s2 s3 (Dv eq_refl) Iu) as [G3 M3]; try assumption.
        - intros j. apply next_node_In.
        - intros j F. left. apply next_node_spec. exact F.
        - intros w Iw [R|[R|[]]]; [left; apply (same_reg (insts f)); auto|right; left; apply (same_reg (insts f)); auto].
        - split; [exact G3|intros _; exact M3]. }
      destruct G3 as [G3 M3].
      assert (Wr : writes (i_reg a) i -> takes = true).
      { unfold takes. intros [(C & v & O)|(C & M)]; rewrite C; [unfold op; rewrite O; cbn [nth]; destruct (eqb_spec (VReg (i_reg a)) (VReg (i_reg a))); congruence|apply mem_In; exact M]. }
      assert (Pt : part_of (i_reg a) i -> derived = true).
      { unfold derived. intros ([C|(k & C)] & l & O); rewrite C; unfold op; rewrite O; cbn [nth]; destruct (eqb_spec (VReg (i_reg a)) (VReg (i_reg a))); congruence. }
      assert (More : forall j, In j (i :: work) \/ In (i_reg j) visited ->
         In j (work ++ filter (fun j => negb (mem (i_reg j) visited)) (next_insts f i)) \/ In (i_reg j) (i_reg i :: visited)).
      { intros j [[->|J]|J]; [right; left; reflexivity|left; apply in_or_app; left; exact J|right; right; exact J]. }
      destruct (IHs a use (work ++ filter (fun j => negb (mem (i_reg j) visited)) (next_insts f i)) (i_reg i :: visited) s3 s' A Iu) as [G4 M4].
      + intros j J. apply in_app_or in J as [J|J]; [apply W; right; exact J|]. apply filter_In in J as [J _]. apply (next_insts_In i j J).
      + intros j F. apply More. apply N. exact F.
      + intros v Iv [R|R].
        * assert (v = i) as -> by (symmetry; apply (same_reg (insts f)); assumption). right. right. split.
          -- split; [intros X; apply (ext_kept _ _ G3), K2, Wr; exact X|]. intros X x M. apply M3; [apply Pt; exact X|exact M].
          -- intros j G. destruct (mem (i_reg j) visited) eqn:M; [right; right; apply mem_In; exact M|]. left. apply in_or_app. right. apply filter_In. split; [apply next_insts_spec; exact G|].
             rewrite M. reflexivity.
        * destruct (V v Iv R) as [X|[X|[X Y]]]; auto. right. right. split; [|intros j G; apply More, Y; exact G].
          apply done_more with s; [intros r K; apply (ext_kept _ _ G3), (ext_kept _ _ G2); exact K|exact X].
      + exact H.
      + split; [|exact M4]. eapply ext_trans; [exact G2|]. eapply ext_trans; eassumption.
  Qed.

  (** After the operands of what depends on the variable. *)
  Lemma dependent_stores n : forall l s s', each (operands_of_dependent n f) l s = Some s' ->
    extends s s' /\ forall i, In i (insts f) -> In (i_reg i) l -> is_phi i = false -> stored s' i.
  Proof.
    induction l as [|r l IH]; intros s s' H; cbn [each] in H; [injection H as <-; split; [apply ext_refl|intros i _ []]|].
    destruct (operands_of_dependent n f s r) as [s1|] eqn:E1; [|discriminate].
    assert (G1 : extends s s1 /\ forall i, In i (insts f) -> i_reg i = r -> is_phi i = false -> stored s1 i).
    { unfold operands_of_dependent in E1. destruct (find_inst f r) as [i|] eqn:F.
      - apply find_inst_In in F as [I R]. destruct (is_phi i) eqn:P.
        + injection E1 as <-. split; [apply ext_refl|]. intros j J Er Pj. rewrite (same_reg (insts f) j i U J I) in Pj by congruence. congruence.
        + destruct (search_spec n) as [So _]. destruct (So i s s1 I E1) as [G S]. split; [exact G|]. intros j J Er _. rewrite (same_reg (insts f) j i U J I) by congruence. exact S.
      - injection E1 as <-. split; [apply ext_refl|]. intros j J Er _. exfalso. pose proof (find_none _ _ F j J) as X. cbn beta in X. rewrite Er, Nat.eqb_refl in X. discriminate. }
    destruct G1 as [G1 S1]. destruct (IH s1 s' H) as [G2 S2].
    split; [eapply ext_trans; eassumption|]. intros i I [R|R] P; [|apply S2; assumption].
    apply stored_more with s1; [apply (ext_kept _ _ G2)|]. apply S1; [exact I|symmetry; exact R|exact P].
  Qed.
End Stores.

Section Required.
  Variable reachable : (nat -> list nat) -> nat -> nat -> bool.
  Variable P : inst -> Prop.
  Variable f : func.
  Hypothesis U : NoDup (map i_reg (insts f)).
  Hypothesis B : NoDup (dkeys (f_blocks f)).
  Hypothesis E : ended f.

  (** Everything that is required is kept, if what is in [P] was found. *)
  Lemma required_kept n s0 g s : included s0 = [] -> (forall i, In i (insts f) -> P i -> In (i_reg i) (dependent s0)) ->
    (forall i, P i -> In i (insts f)) ->
    second_phase reachable n f s0 = Some (g, s) -> forall i, required P f i -> In i (insts f) /\ kept s (i_reg i).
  Proof.
    intros I0 D Di H. unfold second_phase in H. destruct (each (operands_of_dependent n f) (dependent s0) s0) as [s1|] eqn:E1; [|discriminate].
    destruct (dependent_operands f U n _ _ _ (fun r R => R) E1) as [G1 S1]. destruct (dependent_stores f U B n _ _ _ E1) as [X1 T1].
    destruct (each (end_of_block reachable n (return_block f)) (dkeys (f_blocks f)) (f, s1)) as [[g2 s2]|] eqn:E2; [|discriminate].
    destruct (each (phi_operands n g2) (insts g2) s2) as [s3|] eqn:E3; [|discriminate]. injection H as <- <-.
    assert (O1 : state_ok f f s0 s1).
    { constructor; [apply shrunk_refl|apply (grows_dependent _ _ _ G1)|apply (grows_included _ _ _ G1)|apply (grows_blocks _ _ _ G1)| |].
      - intros i I K. destruct (grows_served _ _ _ G1 i I K) as [[K'|K']|S]; [rewrite I0 in K'; destruct K'| |left; exact S].
        destruct (is_phi i) eqn:Ph; [right; reflexivity|left; apply S1; assumption].
      - intros i i' Ii I' Bi _. left. apply (same_reg (insts f)); [exact U|exact I'|exact Ii|apply became_reg; exact Bi]. }
    assert (O0 : state_ok f f s1 s1).
    { constructor; [apply shrunk_refl|reflexivity|apply incl_refl|apply incl_refl|apply (ok_served _ _ _ _ O1)|].
      intros i i' Ii I' Bi _. left. apply (same_reg (insts f)); [exact U|exact I'|exact Ii|apply became_reg; exact Bi]. }
    destruct (ends_ok reachable f U B E n (return_block f) s1 _ _ _ _ _ O0 E2) as (O2 & _).
    destruct (phis_ok n g2 (shrunk_unique f U g2 (ok_shrunk _ _ _ _ O2)) _ _ _ E3) as [G3 _].
    enough (X : forall i, required P f i -> In i (insts f) /\ kept s1 (i_reg i)).
    { intros i R. destruct (X i R) as [I K]. split; [exact I|]. apply (grows_kept g2 s2 s3 _ G3). destruct K as [K|K]; [left; apply (ok_included _ _ _ _ O2); exact K|right; rewrite (ok_dependent _ _ _ _ O2); exact K]. }
    induction 1 as [i Dp|u d _ [Iu Ku] Ph Id Us|u a x _ [Iu Ku] Ph Ia C Us M].
    - pose proof (Di i Dp) as I. split; [exact I|]. right. rewrite (grows_dependent _ _ _ G1). apply D; assumption.
    - split; [exact Id|]. destruct (ok_served _ _ _ _ O1 u Iu Ku) as [S|Q]; [|congruence]. apply (S (VReg (i_reg d)) d Us). apply (nodup_find (insts f) d U Id).
    - split; [apply (may_write_In f u a x M)|]. destruct (ext_stored _ _ _ X1 u Iu Ku) as [[K|K]|S].
      + rewrite I0 in K. destruct K.
      + destruct (T1 u Iu K Ph a x Ia Us C M) as [->|Y]; assumption.
      + destruct (S a x Ia Us C M) as [->|Y]; assumption.
  Qed.

  (** What is kept and is no branch is in the slice as it was. *)
  Lemma slice_kept s0 g s b l i : second_ok f s0 g s -> In (b, l) (f_blocks f) -> In i l -> kept s (i_reg i) -> i_code i <> Br \/ In (i_reg i) (dependent s0) ->
    exists l' i', In (b, l') (f_blocks (remove_others g s)) /\ In i' l' /\ i_reg i' = i_reg i /\ i_rest i' = i_rest i /\
      (is_phi i = false -> i' = i) /\ (is_phi i = true -> is_phi i' = true /\ incl (i_ops i') (i_ops i)).
  Proof.
    intros O H I K [C|D]; [|apply (slice_dependent f s0 g s b l i O H I D)]. destruct O as [Sh Dp Sv Hd Sm]. destruct (Forall2_left _ _ _ _ Sh H) as ([b2 l2] & H2 & Eb & F). cbn [fst snd] in *. subst b2.
    destruct (Forall2_left _ _ _ _ F I) as (j & J & Bi). pose proof (became_reg _ _ Bi) as Er.
    assert (Jg : In j (insts g)) by (apply in_flat_map; exists (b, l2); split; assumption).
    assert (Kj : kept s (i_reg j)) by (rewrite Er; exact K).
    eexists. exists j. split; [apply in_map_iff; exists (b, l2); split; [cbn [fst snd]; reflexivity|exact H2]|].
    split; [apply in_map_iff; exists j; split; [apply erased_same, Sv; assumption|apply filter_In; split; [exact J|apply orb_true_iff; left; apply kept_mem; exact Kj]]|].
    split; [exact Er|]. destruct Bi as [->|[(Ph & Q & R & S & Ic)|(C' & _)]]; [|split; [exact S|]; split; [congruence|auto]|congruence].
    split; [reflexivity|]. split; [reflexivity|]. intros Ph. split; [exact Ph|apply incl_refl].
  Qed.
End Required.

(** ** What uses the variable in any function *)
Section Text.
  Variable reachable : (nat -> list nat) -> nat -> nat -> bool.
  Variable var : string.
  Variable f : func.
  Hypothesis U : NoDup (map i_reg (insts f)).
  Hypothesis B : NoDup (dkeys (f_blocks f)).
  Notation first := (first_inst reachable var f).
  Notation run := (fun bs => fold_left (first_block reachable var f) bs no_sets).

  (** Everything in an affected block is dependent. *)
  Definition whole_blocks (s : sets) : Prop := forall b i, In b (affected s) -> In i (block f b) -> In (i_reg i) (dependent s).
  Lemma add_dependent_whole r s : whole_blocks s -> whole_blocks (add_dependent f r s).
  Proof. intros W b i. rewrite add_dependent_affected. intros A I. apply add_dependent_below. apply (W b i A I). Qed.
  Lemma first_whole b i s : whole_blocks s -> whole_blocks (first b s i).
  Proof.
    intros W. unfold first_inst. destruct (_ && _); [|exact W]. pose proof (add_dependent_whole (i_reg i) s W) as W1.
    destruct (i_code i); try exact W1; [destruct (op 1 i); try exact W1; apply add_dependent_whole; exact W1|].
    intros c j. cbn [add_all affected dependent]. intros A J. apply in_or_app. apply in_app_or in A as [A|A]; [left|right; apply (W1 c j A J)].
    apply in_flat_map. exists c. split; [exact A|apply in_map; exact J].
  Qed.
  Lemma fold_whole b l : forall s, whole_blocks s -> whole_blocks (fold_left (first b) l s).
  Proof. induction l as [|i l IH]; intros s W; [exact W|]. cbn [fold_left]. apply IH, first_whole, W. Qed.
  Lemma run_whole bs : forall s, whole_blocks s -> whole_blocks (fold_left (first_block reachable var f) bs s).
  Proof. induction bs as [|kb bs IH]; intros s W; [exact W|]. cbn [fold_left]. apply IH. unfold first_block. destruct (mem _ _); [exact W|apply fold_whole, W]. Qed.

  (** The sets when the instructions in [l] at the start of block [b] have been looked at. *)
  Definition at_place (bs : list (nat * list inst)) (b : nat) (l : list inst) : sets :=
    if mem b (affected (run bs)) then run bs else fold_left (first b) l (run bs).
  Lemma place_mono bs b l1 l2 : incl (dependent (at_place bs b l1)) (dependent (at_place bs b (l1 ++ l2))).
  Proof. unfold at_place. destruct (mem b _); [apply incl_refl|]. rewrite fold_left_app. apply (fold_below reachable var f b l2). Qed.
  Lemma place_block bs b l1 l2 bs2 : incl (dependent (at_place bs b l1)) (dependent (run (bs ++ (b, l1 ++ l2) :: bs2))).
  Proof.
    intros r R. apply (place_mono bs b l1 l2) in R. rewrite fold_left_app. cbn [fold_left]. apply (run_below reachable var f bs2). unfold first_block at 1. cbn [fst snd]. exact R.
  Qed.
  Lemma place_start bs b l : incl (dependent (run bs)) (dependent (at_place bs b l)).
  Proof. unfold at_place. destruct (mem b _); [apply incl_refl|apply (fold_below reachable var f b l)]. Qed.

  Lemma marked bs b l1 i l2 bs2 : f_blocks f = bs ++ (b, l1 ++ i :: l2) :: bs2 -> i_code i <> Debug ->
    (In (VConst (CGlobal var)) (i_ops i) \/ exists d, uses i d /\ In (i_reg d) (dependent (at_place bs b l1))) -> In (i_reg i) (dependent (at_place bs b (l1 ++ [i]))).
  Proof.
    intros F C H. unfold at_place in *. destruct (mem b (affected (run bs))) eqn:A.
    - apply mem_In in A. apply (run_whole bs no_sets) with b; [intros c j []|exact A|]. unfold block.
      rewrite (dget_In_NoDup _ b (l1 ++ i :: l2) B) by (rewrite F; apply in_or_app; right; left; reflexivity). apply in_or_app. right. left. reflexivity.
    - rewrite fold_left_app. cbn [fold_left]. set (s := fold_left (first b) l1 (run bs)) in *. unfold first_inst.
      assert (X : negb (is_debug i) && (existsb (depends_operand var s) (i_ops i) || is_phi i && phi_dependent reachable f s i) = true).
      { apply andb_true_iff. split; [unfold is_debug; destruct (i_code i); try reflexivity; congruence|]. apply orb_true_iff. left. apply existsb_exists.
        destruct H as [H|(d & Us & D)]; [exists (VConst (CGlobal var)); split; [exact H|apply String.eqb_refl]|exists (VReg (i_reg d)); split; [exact Us|apply mem_In; exact D]]. }
      rewrite X. pose proof (add_dependent_In f (i_reg i) s) as Y. destruct (i_code i); try exact Y; [destruct (op 1 i); try exact Y; apply add_dependent_below; exact Y|].
      apply add_all_below. exact Y.
  Qed.

  Lemma in_place i : In i (insts f) -> exists bs b l1 l2 bs2, f_blocks f = bs ++ (b, l1 ++ i :: l2) :: bs2.
  Proof.
    intros I. apply in_flat_map in I as ([b l] & H & I). cbn [snd] in I. apply in_split in H as (bs & bs2 & H). apply in_split in I as (l1 & l2 & ->). exists bs, b, l1, l2, bs2. exact H.
  Qed.
  Lemma insts_place bs b l1 i l2 bs2 : f_blocks f = bs ++ (b, l1 ++ i :: l2) :: bs2 -> insts f = (flat_map snd bs ++ l1) ++ i :: (l2 ++ flat_map snd bs2).
  Proof. intros F. unfold insts. rewrite F, flat_map_app. cbn [flat_map snd]. rewrite <- !app_assoc. reflexivity. Qed.
  Lemma split_unique (l1 l2 k1 k2 : list inst) i : NoDup (map i_reg (l1 ++ i :: l2)) -> l1 ++ i :: l2 = k1 ++ i :: k2 -> l1 = k1 /\ l2 = k2.
  Proof.
    revert k1. induction l1 as [|x l1 IH]; intros [|y k1] N Q; cbn in *.
    - injection Q as ->. auto.
    - injection Q as <- ->. inversion N; subst. exfalso. apply H1. apply in_map. apply in_or_app. right. left. reflexivity.
    - injection Q as -> <-. inversion N; subst. exfalso. apply H1. apply in_map. apply in_or_app. right. left. reflexivity.
    - injection Q as <- Q. inversion N; subst. destruct (IH k1 H2 Q) as [-> ->]. auto.
  Qed.

  Lemma computed_found i : computed_from var f i -> forall bs b l1 l2 bs2, f_blocks f = bs ++ (b, l1 ++ i :: l2) :: bs2 -> In (i_reg i) (dependent (at_place bs b (l1 ++ [i]))).
  Proof.
    induction 1 as [i I C O|d i D IH I C Us L]; intros bs b l1 l2 bs2 F; (apply (marked bs b l1 i l2 bs2 F C)); [left; exact O|].
    right. exists d. split; [exact Us|]. destruct L as (k1 & k2 & k3 & L). pose proof (insts_place _ _ _ _ _ _ F) as Q.
    assert (N : NoDup (map i_reg ((k1 ++ d :: k2) ++ i :: k3))) by (rewrite <- app_assoc; cbn [app]; rewrite <- L; exact U).
    rewrite L in Q. replace (k1 ++ d :: k2 ++ i :: k3) with ((k1 ++ d :: k2) ++ i :: k3) in Q by (rewrite <- app_assoc; reflexivity).
    destruct (split_unique _ _ _ _ _ N Q) as [Qd _].
    assert (Id : In d (flat_map snd bs ++ l1)) by (rewrite <- Qd; apply in_or_app; right; left; reflexivity).
    apply in_app_or in Id as [Id|Id].
    - apply in_flat_map in Id as ([b' l] & H & Id). cbn [snd] in Id. apply in_split in H as (c1 & c2 & ->). apply in_split in Id as (m1 & m2 & ->).
      rewrite <- app_assoc in F. cbn [app] in F. specialize (IH _ _ _ _ _ F). apply (place_start (c1 ++ (b', m1 ++ d :: m2) :: c2) b l1).
      replace (m1 ++ d :: m2) with ((m1 ++ [d]) ++ m2) by (rewrite <- app_assoc; reflexivity). apply place_block. exact IH.
    - apply in_split in Id as (m1 & m2 & ->). rewrite <- app_assoc in F. cbn [app] in F. specialize (IH _ _ _ _ _ F).
      replace (m1 ++ d :: m2) with ((m1 ++ [d]) ++ m2) by (rewrite <- app_assoc; reflexivity). apply place_mono. exact IH.
  Qed.
  Lemma computed_dependent i : In i (insts f) -> computed_from var f i -> In (i_reg i) (dependent (first_phase reachable var f)).
  Proof.
    intros I D. destruct (in_place i I) as (bs & b & l1 & l2 & bs2 & F). pose proof (computed_found i D _ _ _ _ _ F) as X. unfold first_phase. rewrite F.
    replace (l1 ++ i :: l2) with ((l1 ++ [i]) ++ l2) by (rewrite <- app_assoc; reflexivity). apply place_block. exact X.
  Qed.
End Text.
