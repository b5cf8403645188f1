(** * The second phase of slicing by a variable: nothing that is kept misses an operand *)
From Coq Require Import String Ascii ZArith Arith Bool Lia List.
From Verif Require Import PyBase Funcomp_Model Slice_Model Slice_Spec Slice_Control Slice_Variable.
Import ListNotations.
Open Scope list_scope.
Open Scope nat_scope.

Definition kept (s : sets) (r : nat) : Prop := In r (included s) \/ In r (dependent s).
(** All operands of [i] in [f] are kept. *)
Definition served (f : func) (s : sets) (i : inst) : Prop := forall v d, In v (i_ops i) -> inst_of f v = Some d -> kept s (i_reg d).
(** From [s] to [s'] only instructions all of whose operands are kept are added. *)
Record grows (f : func) (s s' : sets) : Prop := mkGrows {
  grows_dependent : dependent s' = dependent s;
  grows_included : incl (included s) (included s');
  grows_blocks : incl (in_blocks s) (in_blocks s');
  grows_served : forall i, In i (insts f) -> kept s' (i_reg i) -> kept s (i_reg i) \/ served f s' i }.

Lemma grows_kept f s s' r : grows f s s' -> kept s r -> kept s' r.
Proof. intros G [H|H]; [left; apply (grows_included _ _ _ G); exact H|right; rewrite (grows_dependent _ _ _ G); exact H]. Qed.
Lemma served_more f s s' i : (forall r, kept s r -> kept s' r) -> served f s i -> served f s' i.
Proof. intros H S v d V D. apply H. apply (S v d V D). Qed.
Lemma grows_refl f s : grows f s s.
Proof. constructor; try apply incl_refl; try reflexivity. intros i _ K. left. exact K. Qed.
Lemma grows_trans f a b c : grows f a b -> grows f b c -> grows f a c.
Proof.
  intros G H. constructor.
  - rewrite (grows_dependent _ _ _ H). apply (grows_dependent _ _ _ G).
  - eapply incl_tran; [apply (grows_included _ _ _ G)|apply (grows_included _ _ _ H)].
  - eapply incl_tran; [apply (grows_blocks _ _ _ G)|apply (grows_blocks _ _ _ H)].
  - intros i I K. destruct (grows_served _ _ _ H i I K) as [K'|S]; [|right; exact S]. destruct (grows_served _ _ _ G i I K') as [K2|S]; [left; exact K2|].
    right. apply served_more with b; [intros r; apply (grows_kept f); exact H|exact S].
Qed.

Section Operands.
  Variable f : func.
  Hypothesis U : NoDup (map i_reg (insts f)).

  Lemma inst_of_In v d : inst_of f v = Some d -> In d (insts f).
  Proof. destruct v; try discriminate. intros E. apply (find_inst_In f n d E). Qed.
  Lemma add_block_incl r bs : incl bs (add_block f r bs).
  Proof. unfold add_block. destruct (parent f r); [apply incl_tl|]; apply incl_refl. Qed.
  Lemma add_included_kept r s : kept (snd (add_included f r s)) r.
  Proof.
    unfold add_included. destruct (mem r (dependent s) || mem r (included s)) eqn:E; [|left; left; reflexivity].
    apply orb_true_iff in E as [E|E]; apply mem_In in E; [right|left]; exact E.
  Qed.
  (** Adding an instruction and then, if it is new, its operands. *)
  Lemma add_one d s new s1 s2 : In d (insts f) -> add_included f (i_reg d) s = (new, s1) ->
    (if new then grows f s1 s2 /\ served f s2 d else s2 = s1) -> grows f s s2 /\ kept s2 (i_reg d).
  Proof.
    intros D E H. pose proof (add_included_kept (i_reg d) s) as K. rewrite E in K. cbn [snd] in K. unfold add_included in E.
    destruct (mem _ _ || mem _ _) eqn:M; injection E as <- <-.
    - subst s2. split; [apply grows_refl|exact K].
    - destruct H as [G S]. split; [|apply (grows_kept f _ _ _ G K)]. constructor.
      + apply (grows_dependent _ _ _ G).
      + eapply incl_tran; [|apply (grows_included _ _ _ G)]. apply incl_tl, incl_refl.
      + eapply incl_tran; [|apply (grows_blocks _ _ _ G)]. apply add_block_incl.
      + intros i I Ki. destruct (grows_served _ _ _ G i I Ki) as [[[Er|K2]|K2]|S2]; [|left; left; exact K2|left; right; exact K2|right; exact S2].
        right. rewrite <- (same_reg (insts f) d i U D I Er). exact S.
  Qed.

  Lemma add_spec n :
    (forall i s s', add_operands n f i s = Some s' -> grows f s s' /\ served f s' i) /\
    (forall a use work visited s s', (forall i, In i work -> In i (insts f)) -> add_stores n f a use work visited s = Some s' -> grows f s s').
  Proof.
    induction n as [|n [IHo IHs]]; [split; [intros i s s' H; discriminate|intros a use work visited s s' _ H; discriminate]|].
    assert (NN : forall d j, In j (next_node f d) -> In j (insts f)).
    { intros d j. unfold next_node. destruct (parent f (i_reg d)) as [b|]; [|intros []]. destruct (next_of _ _) as [k|] eqn:E; [|intros []]. intros [<-|[]].
      assert (In k (block f b)) as K.
      { revert E. generalize (i_reg d). clear. intros r. induction (block f b) as [|x l IH]; [discriminate|]. cbn [next_of]. destruct (Nat.eqb _ _); [|intros E; right; apply IH; exact E].
        destruct l as [|y l]; [discriminate|]. intros E. injection E as <-. right. left. reflexivity. }
      unfold block in K. destruct (dget (f_blocks f) b) as [l|] eqn:D; [|destruct K]. apply in_flat_map. exists (b, l). split; [apply dget_In; exact D|exact K]. }
    assert (NI : forall d j, In j (next_insts f d) -> In j (insts f)).
    { intros d j. unfold next_insts. destruct (i_code d); try apply NN. intros H. apply in_flat_map in H as (b & _ & H). unfold block in H.
      destruct (dget (f_blocks f) b) as [l|] eqn:D; [|destruct H]. destruct l as [|x l]; [destruct H|]. destruct H as [<-|[]].
      apply in_flat_map. exists (b, x :: l). split; [apply dget_In; exact D|left; reflexivity]. }
    split.
    - intros i s s' H. cbn [add_operands] in H.
      enough (X : forall l s s', (fix ops (l : list value) (s : sets) : option sets :=
         match l with
         | [] => Some s
         | v :: l' =>
           match inst_of f v with
           | None => ops l' s
           | Some d =>
             let '(new, s1) := add_included f (i_reg d) s in
             match (if new then add_operands n f d s1 else Some s1) with
             | None => None
             | Some s2 =>
               match (match i_code d with Alloca => add_stores n f d i (next_node f d) [i_reg d; i_reg i] s2 | _ => Some s2 end) with
               | None => None
               | Some s3 => ops l' s3
               end
             end
           end
         end) l s = Some s' -> grows f s s' /\ (forall v d, In v l -> inst_of f v = Some d -> kept s' (i_reg d))) by (apply (X (i_ops i)); exact H).
      clear s s' H. induction l as [|v l IH]; intros s s' H; [injection H as <-; split; [apply grows_refl|intros v d []]|].
      destruct (inst_of f v) as [d|] eqn:Ev.
      + destruct (add_included f (i_reg d) s) as [new s1] eqn:Ea.
        destruct (if new then add_operands n f d s1 else Some s1) as [s2|] eqn:E2; [|discriminate].
        assert (G2 : grows f s s2 /\ kept s2 (i_reg d)).
        { apply (add_one d s new s1 s2 (inst_of_In v d Ev) Ea). destruct new; [apply IHo; exact E2|congruence]. }
        destruct G2 as [G2 K2].
        destruct (match i_code d with Alloca => add_stores n f d i (next_node f d) [i_reg d; i_reg i] s2 | _ => Some s2 end) as [s3|] eqn:E3; [|discriminate].
        assert (G3 : grows f s2 s3).
        { destruct (i_code d); try (injection E3 as <-; apply grows_refl). apply (IHs d i (next_node f d) [i_reg d; i_reg i]); [apply NN|exact E3]. }
        destruct (IH s3 s' H) as [G4 K4]. split; [eapply grows_trans; [exact G2|eapply grows_trans; [exact G3|exact G4]]|].
        intros w e [<-|W] Ew; [|apply (K4 w e W Ew)]. assert (e = d) as -> by congruence. apply (grows_kept f s3 s' _ G4), (grows_kept f s2 s3 _ G3), K2.
      + destruct (IH s s' H) as [G4 K4]. split; [exact G4|]. intros w e [<-|W] Ew; [congruence|apply (K4 w e W Ew)].
    - intros a use work visited s s' W H. cbn [add_stores] in H. destruct work as [|i work]; [injection H as <-; apply grows_refl|].
      set (takes := match i_code i with Store => eqb (op 1 i) (VReg (i_reg a)) | Call => mem (VReg (i_reg a)) (i_ops i) | _ => false end) in H.
      set (derived := match i_code i with Cast true | Gep _ => eqb (op 0 i) (VReg (i_reg a)) | _ => false end) in H.
      destruct (if takes then add_included f (i_reg i) s else (false, s)) as [new s1] eqn:E1.
      destruct (if new then add_operands n f i s1 else Some s1) as [s2|] eqn:E2; [|discriminate].
      assert (G2 : grows f s s2).
      { destruct takes.
        - apply (add_one i s new s1 s2); [apply W; left; reflexivity|exact E1|]. destruct new; [apply IHo; exact E2|congruence].
        - injection E1 as <- <-. injection E2 as <-. apply grows_refl. }
      destruct (if derived then add_stores n f i use (next_node f i) [i_reg i; i_reg use] s2 else Some s2) as [s3|] eqn:E3; [|discriminate].
      assert (G3 : grows f s2 s3) by (destruct derived; [apply (IHs i use (next_node f i) [i_reg i; i_reg use]); [apply NN|exact E3]|injection E3 as <-; apply grows_refl]).
      eapply grows_trans; [exact G2|]. eapply grows_trans; [exact G3|]. refine (IHs a use _ _ s3 s' _ H).
      intros j J. apply in_app_or in J as [J|J]; [apply W; right; exact J|]. apply filter_In in J as [J _]. apply (NI i j J).
  Qed.
  Lemma operands_spec n i s s' : add_operands n f i s = Some s' -> grows f s s' /\ served f s' i.
  Proof. apply add_spec. Qed.
  (** As where an instruction and its operands are added whether it is new or not. *)
  Lemma added_spec n d s s' : In d (insts f) -> add_operands n f d (snd (add_included f (i_reg d) s)) = Some s' -> grows f s s' /\ kept s' (i_reg d) /\ served f s' d.
  Proof.
    intros D H. destruct (operands_spec _ _ _ _ H) as [G S]. destruct (add_included f (i_reg d) s) as [new s1] eqn:E. cbn [snd] in G.
    assert (K1 : kept s1 (i_reg d)) by (pose proof (add_included_kept (i_reg d) s) as K; rewrite E in K; exact K).
    split; [|split; [apply (grows_kept f s1 s' _ G K1)|exact S]].
    destruct new; [apply (add_one d s true s1 s' D E (conj G S))|].
    assert (s1 = s) as -> by (unfold add_included in E; destruct (_ || _); congruence). exact G.
  Qed.
End Operands.

(** ** The branches that are replaced *)

(** An instruction and what it has become. *)
Definition became (i i' : inst) : Prop :=
  i' = i \/
  is_phi i = true /\ is_phi i' = true /\ i_reg i' = i_reg i /\ i_rest i' = i_rest i /\ incl (i_ops i') (i_ops i) \/
  i_code i = Br /\ exists t, In t (successors i) /\ i' = jump t i.
Definition shrunk (f g : func) : Prop :=
  Forall2 (fun kb kb' => fst kb = fst kb' /\ Forall2 became (snd kb) (snd kb')) (f_blocks f) (f_blocks g).

Lemma jump_successors t i : successors (jump t i) = [t].
Proof. reflexivity. Qed.
Lemma became_reg i i' : became i i' -> i_reg i' = i_reg i.
Proof. intros [->|[(_ & _ & E & _)|(_ & t & _ & ->)]]; [reflexivity|exact E|reflexivity]. Qed.
Lemma became_terminator i i' : became i i' -> is_terminator i' = is_terminator i.
Proof.
  intros [->|[(P & Q & _)|(C & t & _ & ->)]]; [reflexivity| |unfold is_terminator; rewrite C; reflexivity].
  unfold is_phi, is_terminator in *. destruct (i_code i); try discriminate. destruct (i_code i'); try discriminate. reflexivity.
Qed.
Lemma became_ops i i' v : became i i' -> In v (i_ops i') -> In v (i_ops i) \/ exists t, v = VBlock t.
Proof. intros [->|[(_ & _ & _ & _ & H)|(_ & t & _ & ->)]] V; [left; exact V|left; apply H; exact V|right]. destruct V as [<-|[]]. exists t. reflexivity. Qed.
Lemma became_trans a b c : became a b -> became b c -> became a c.
Proof.
  intros [->|[(P & Q & R & S & I)|(C & t & T & ->)]] H; [exact H| |].
  - destruct H as [->|[(P' & Q' & R' & S' & I')|(C' & t & T & ->)]].
    + right. left. repeat split; assumption.
    + right. left. repeat split; try assumption; [congruence|congruence|eapply incl_tran; eassumption].
    + unfold is_phi in Q. rewrite C' in Q. discriminate.
  - destruct H as [->|[(P' & _)|(C' & t' & T' & ->)]].
    + right. right. split; [exact C|]. exists t. split; [exact T|reflexivity].
    + discriminate.
    + right. right. split; [exact C|]. exists t'. rewrite jump_successors in T'. destruct T' as [<-|[]]. split; [exact T|reflexivity].
Qed.
Lemma became_refl l : Forall2 became l l.
Proof. induction l; constructor; [left; reflexivity|assumption]. Qed.
Lemma became_all_trans a b c : Forall2 became a b -> Forall2 became b c -> Forall2 became a c.
Proof.
  intros H. revert c. induction H as [|x y a b X H IH]; intros c K; inversion K; subst; [constructor|]. constructor; [eapply became_trans; eassumption|apply IH; assumption].
Qed.
Lemma shrunk_refl f : shrunk f f.
Proof. unfold shrunk. induction (f_blocks f) as [|kb l IH]; constructor; [split; [reflexivity|apply became_refl]|exact IH]. Qed.
Lemma shrunk_trans f g h : shrunk f g -> shrunk g h -> shrunk f h.
Proof.
  unfold shrunk. generalize (f_blocks f) (f_blocks g) (f_blocks h). clear. intros a b c H. revert c.
  induction H as [|x y a b [X1 X2] H IH]; intros c K; inversion K as [|y' z b' c' [Y1 Y2]]; subst; [constructor|].
  constructor; [split; [congruence|eapply became_all_trans; eassumption]|apply IH; assumption].
Qed.
Lemma became_regs l l' : Forall2 became l l' -> map i_reg l' = map i_reg l.
Proof. induction 1 as [|x y l l' X _ IH]; [reflexivity|]. cbn [map]. rewrite (became_reg _ _ X), IH. reflexivity. Qed.
Lemma shrunk_insts f g : shrunk f g -> Forall2 became (insts f) (insts g).
Proof.
  unfold shrunk, insts. generalize (f_blocks f) (f_blocks g). induction 1 as [|x y a b [_ X] _ IH]; [constructor|]. cbn [flat_map]. apply Forall2_app; assumption.
Qed.
Lemma shrunk_keys f g : shrunk f g -> dkeys (f_blocks g) = dkeys (f_blocks f).
Proof. unfold shrunk. generalize (f_blocks f) (f_blocks g). induction 1 as [|x y a b [X _] _ IH]; [reflexivity|]. unfold dkeys in *. cbn [map]. rewrite IH, X. reflexivity. Qed.
Lemma shrunk_regs f g : shrunk f g -> map i_reg (insts g) = map i_reg (insts f).
Proof. intros H. apply became_regs, shrunk_insts, H. Qed.
Lemma Forall2_left {A B} (P : A -> B -> Prop) l l' x : Forall2 P l l' -> In x l -> exists y, In y l' /\ P x y.
Proof.
  induction 1 as [|a b l l' X _ IH]; [intros []|]. intros [<-|I]; [exists b; split; [left; reflexivity|exact X]|].
  destruct (IH I) as (y & Y & K). exists y. split; [right; exact Y|exact K].
Qed.
Lemma Forall2_right {A B} (P : A -> B -> Prop) l l' y : Forall2 P l l' -> In y l' -> exists x, In x l /\ P x y.
Proof.
  induction 1 as [|a b l l' X _ IH]; [intros []|]. intros [<-|I]; [exists a; split; [left; reflexivity|exact X]|].
  destruct (IH I) as (x & Y & K). exists x. split; [right; exact Y|exact K].
Qed.
(** Registers stand for instructions with the same identity before and after. *)
Lemma shrunk_find f g v d' : NoDup (map i_reg (insts f)) -> shrunk f g -> inst_of g v = Some d' -> exists d, inst_of f v = Some d /\ i_reg d = i_reg d'.
Proof.
  intros U S H. destruct v; try discriminate. cbn [inst_of] in *. apply find_inst_In in H as [I E].
  destruct (Forall2_right _ _ _ _ (shrunk_insts _ _ S) I) as (d & D & B). exists d. pose proof (became_reg _ _ B) as Er. split; [|congruence].
  unfold find_inst. rewrite <- E, Er. apply nodup_find; assumption.
Qed.

Lemma shrunk_ended f g : shrunk f g -> ended f -> ended g.
Proof.
  intros S E b l1 i l2 H T. destruct (Forall2_right _ _ _ _ S H) as ([b' l] & L & Eb & F). cbn [fst snd] in *.
  apply Forall2_app_inv_r in F as (k1 & k2 & F1 & F2 & ->). inversion F2 as [|j i' k3 l3 B F3]; subst.
  rewrite (E b k1 j k3 L) in F3; [inversion F3; reflexivity|]. rewrite <- (became_terminator _ _ B). exact T.
Qed.

Lemma terminator_last l t : terminator l = Some t -> exists k, l = k ++ [t] /\ is_terminator t = true.
Proof.
  unfold terminator. destruct (rev l) as [|x r] eqn:E; [discriminate|]. destruct (is_terminator x) eqn:T; [|discriminate]. intros X. injection X as <-.
  exists (rev r). split; [|exact T]. rewrite <- (rev_involutive l), E. reflexivity.
Qed.
Lemma drop_became b i : became i (drop_incoming b i).
Proof.
  unfold drop_incoming. destruct (i_code i) eqn:C; try (left; reflexivity). right. left. unfold is_phi. rewrite C. cbn [i_code i_reg i_rest i_ops].
  do 4 (split; [reflexivity|]). intros v V. apply in_map_iff in V as ([w c] & <- & V). apply filter_In in V as [V _]. cbn [fst]. unfold incoming in V. rewrite C in V.
  apply in_combine_l in V. exact V.
Qed.
Lemma drop_incoming_phi b i : is_terminator i = true -> drop_incoming b i = i.
Proof. unfold is_terminator, drop_incoming. destruct (i_code i); try discriminate; reflexivity. Qed.
(** What a new end of a block does: [t] is replaced, and PHI nodes have fewer incoming values. *)
Definition replaced (t : inst) (new : nat) (i i' : inst) : Prop := i' = i \/ (exists b, is_phi i = true /\ i' = drop_incoming b i) \/ i = t /\ i' = jump new t.
Lemma redirect_replaced f b t new gone : NoDup (dkeys (f_blocks f)) -> ended f -> terminator (block f b) = Some t ->
  Forall2 (fun kb kb' => fst kb = fst kb' /\ Forall2 (replaced t new) (snd kb) (snd kb')) (f_blocks f) (f_blocks (redirect f b new gone)).
Proof.
  intros U E Tt. unfold redirect. cbn [f_blocks].
  assert (M : forall (h : inst -> inst) l, (forall i, In i l -> replaced t new i (h i)) -> Forall2 (replaced t new) l (map h l)).
  { intros h l. induction l as [|i l IH]; intros H; constructor; [apply H; left; reflexivity|apply IH; intros j J; apply H; right; exact J]. }
  assert (D : forall i, replaced t new i (drop_incoming b i)).
  { intros i. destruct (is_phi i) eqn:P; [right; left; exists b; auto|]. left. unfold drop_incoming, is_phi in *. destruct (i_code i); try reflexivity. discriminate. }
  assert (H : forall kb, In kb (f_blocks f) -> Forall2 (replaced t new) (snd kb)
     (let l := if mem (fst kb) gone then map (drop_incoming b) (snd kb) else snd kb in if Nat.eqb (fst kb) b then map (fun i => if is_terminator i then jump new i else i) l else l)).
  { intros [c l] I. cbn [fst snd]. cbv zeta.
    destruct (Nat.eqb_spec c b) as [->|_].
    - assert (Bl : block f b = l) by (unfold block; rewrite (dget_In_NoDup _ _ _ U I); reflexivity). rewrite Bl in Tt. apply terminator_last in Tt as (k & -> & Tt).
      assert (Nk : forall i, In i (k ++ [t]) -> is_terminator i = true -> i = t).
      { intros i Ik T. apply in_app_or in Ik as [Ik|[<-|[]]]; [|reflexivity]. apply in_split in Ik as (k1 & k2 & ->). exfalso.
        pose proof (E b k1 i (k2 ++ [t])) as X. rewrite <- app_assoc in I. specialize (X I T). destruct k2; discriminate. }
      destruct (mem b gone); [rewrite map_map|]; apply M; intros i Ik.
      + rewrite (became_terminator _ _ (drop_became b i)). destruct (is_terminator i) eqn:T; [|apply D]. rewrite (drop_incoming_phi b i T). right. right. rewrite (Nk i Ik T). auto.
      + destruct (is_terminator i) eqn:T; [|left; reflexivity]. right. right. rewrite (Nk i Ik T). auto.
    - destruct (mem c gone); [apply M; intros i _; apply D|]. rewrite <- (map_id l) at 2. apply M. intros i _. left. reflexivity. }
  revert H. generalize (f_blocks f). clear. intros l. induction l as [|kb l IH]; intros H; constructor.
  - cbn [fst snd]. split; [reflexivity|]. apply H. left. reflexivity.
  - apply IH. intros x X. apply H. right. exact X.
Qed.
Lemma Forall2_weaken {A B} (P Q : A -> B -> Prop) l l' : (forall x y, P x y -> Q x y) -> Forall2 P l l' -> Forall2 Q l l'.
Proof. intros H F. induction F; constructor; auto. Qed.
Lemma redirect_shrunk f b t new gone : NoDup (dkeys (f_blocks f)) -> ended f -> terminator (block f b) = Some t -> i_code t = Br -> In new (successors t) -> shrunk f (redirect f b new gone).
Proof.
  intros U E Tt Ct Ns. eapply Forall2_weaken; [|apply (redirect_replaced f b t new gone U E Tt)]. intros kb kb' [X Y]. split; [exact X|].
  eapply Forall2_weaken; [|exact Y]. intros i i' [->|[(c & _ & ->)|(-> & ->)]]; [left; reflexivity|apply drop_became|].
  right. right. split; [exact Ct|]. exists new. split; [exact Ns|reflexivity].
Qed.

(** ** The whole of the second phase *)

Section Second.
  Variable reachable : (nat -> list nat) -> nat -> nat -> bool.
  Variable f : func.
  Hypothesis U : NoDup (map i_reg (insts f)).
  Hypothesis B : NoDup (dkeys (f_blocks f)).
  Hypothesis E : ended f.

  (** What holds after the operands of dependent instructions: all that is kept is served, but for
      the PHI nodes that depend on the variable. *)
  Definition all_served (g : func) (s : sets) : Prop := forall i, In i (insts g) -> kept s (i_reg i) -> served g s i \/ is_phi i = true.

  Lemma all_served_grows g s s' : grows g s s' -> all_served g s -> all_served g s'.
  Proof.
    intros G A i I K. destruct (grows_served _ _ _ G i I K) as [K'|S]; [|left; exact S]. destruct (A i I K') as [S|P]; [left|right; exact P].
    apply served_more with s; [intros r; apply (grows_kept g); exact G|exact S].
  Qed.
  Lemma all_served_shrunk g h s : NoDup (map i_reg (insts g)) -> shrunk g h -> all_served g s -> all_served h s.
  Proof.
    intros Ug S A i' I K. destruct (Forall2_right _ _ _ _ (shrunk_insts _ _ S) I) as (i & Ii & Bi).
    rewrite (became_reg _ _ Bi) in K. destruct (A i Ii K) as [Si|P].
    - left. intros v d' V D'. destruct (became_ops _ _ _ Bi V) as [V'|(t & ->)]; [|discriminate]. destruct (shrunk_find g h v d' Ug S D') as (d & D & <-). apply (Si v d V' D).
    - right. destruct Bi as [->|[(_ & Q & _)|(C & _)]]; [exact P|exact Q|]. unfold is_phi in P. rewrite C in P. discriminate.
  Qed.

  Lemma dependent_operands n : forall l s s', (forall r, In r l -> In r (dependent s)) -> each (operands_of_dependent n f) l s = Some s' ->
    grows f s s' /\ forall i, In i (insts f) -> In (i_reg i) l -> is_phi i = false -> served f s' i.
  Proof.
    induction l as [|r l IH]; intros s s' D H; cbn [each] in H; [injection H as <-; split; [apply grows_refl|intros i _ []]|].
    destruct (operands_of_dependent n f s r) as [s1|] eqn:E1; [|discriminate].
    assert (G1 : grows f s s1 /\ forall i, In i (insts f) -> i_reg i = r -> is_phi i = false -> served f s1 i).
    { unfold operands_of_dependent in E1. destruct (find_inst f r) as [i|] eqn:F.
      - apply find_inst_In in F as [I R]. destruct (is_phi i) eqn:P.
        + injection E1 as <-. split; [apply grows_refl|]. intros j J Er Pj. rewrite (same_reg (insts f) j i U J I) in Pj by congruence. congruence.
        + destruct (operands_spec f U n i s s1 E1) as [G S]. split; [exact G|]. intros j J Er _. rewrite (same_reg (insts f) j i U J I) by congruence. exact S.
      - injection E1 as <-. split; [apply grows_refl|]. intros j J Er _. exfalso. pose proof (find_none _ _ F j J) as X. cbn beta in X. rewrite Er, Nat.eqb_refl in X. discriminate. }
    destruct G1 as [G1 S1]. destruct (IH s1 s') as [G2 S2]; [intros x X; rewrite (grows_dependent _ _ _ G1); apply D; right; exact X|exact H|].
    split; [eapply grows_trans; eassumption|]. intros i I [R|R] P; [|apply S2; assumption].
    apply served_more with s1; [intros x; apply (grows_kept f); exact G2|]. apply S1; [exact I|symmetry; exact R|exact P].
  Qed.

  (** What holds of function and sets while the ends of blocks are looked at. *)
  Record state_ok (g : func) (s0 s : sets) : Prop := mkOk {
    ok_shrunk : shrunk f g;
    ok_dependent : dependent s = dependent s0;
    ok_included : incl (included s0) (included s);
    ok_blocks : incl (in_blocks s0) (in_blocks s);
    ok_served : all_served g s;
    ok_branches : forall i i', In i (insts f) -> In i' (insts g) -> became i i' -> In (i_reg i) (dependent s0) -> i' = i \/ is_phi i = true }.

  Lemma shrunk_unique g : shrunk f g -> NoDup (map i_reg (insts g)).
  Proof. intros S. rewrite (shrunk_regs _ _ S). exact U. Qed.
  Lemma shrunk_blocks_unique g : shrunk f g -> NoDup (dkeys (f_blocks g)).
  Proof. intros S. rewrite (shrunk_keys _ _ S). exact B. Qed.
  Lemma block_insts g b i : In i (block g b) -> In i (insts g).
  Proof. unfold block. destruct (dget (f_blocks g) b) as [l|] eqn:D; [|intros []]. intros I. apply in_flat_map. exists (b, l). split; [apply dget_In; exact D|exact I]. Qed.
  Lemma terminator_insts g b t : terminator (block g b) = Some t -> In t (insts g).
  Proof. intros T. apply terminator_last in T as (k & T & _). apply (block_insts g b). rewrite T. apply last_In. Qed.

  Lemma included_successors_in g s exit b t x : successors t <> [] -> In x (match included_successors reachable g s exit b t with y :: _ => [y] | [] => match successors t with y :: _ => [y] | [] => [] end end) -> In x (successors t).
  Proof.
    intros Ns. unfold included_successors. destruct (successors t) as [|y [|z [|w ts]]]; [congruence| | |].
    - cbn. auto.
    - set (one := if opt_eqb exit (Some y) then z else y). assert (O : one = y \/ one = z) by (unfold one; destruct (opt_eqb _ _); auto).
      destruct (_ && _).
      + destruct (included_through _ _ _ _ _ _); [intros [<-|[]]; destruct O as [->| ->]; cbn; auto|].
        destruct (negb _); [intros [<-|[]]; cbn; auto|]. destruct (negb _); [intros [<-|[]]; cbn; auto|]. intros [<-|[]]; destruct O as [->| ->]; cbn; auto.
      + destruct (subset _ _); [intros [<-|[]]; cbn; auto|]. destruct (subset _ _); intros [<-|[]]; cbn; auto.
    - intros [<-|[]]. cbn. auto.
  Qed.

  Definition handled (g : func) (s : sets) (b : nat) : Prop :=
    forall t, terminator (block g b) = Some t -> i_code t = Br -> successors t <> [] -> kept s (i_reg t).

  (** The two ways of an end of a block. *)
  Lemma end_spec n exit g s b g' s' : shrunk f g -> end_of_block reachable n exit (g, s) b = Some (g', s') ->
    (g' = g /\ grows g s s' /\ handled g s' b) \/
    exists t new, terminator (block g b) = Some t /\ i_code t = Br /\ ~ In (i_reg t) (dependent s) /\ In new (successors t) /\
      (forall x y l, successors t = x :: y :: l -> included_successors reachable g s exit b t = [new]) /\
      g' = redirect g b new (filter (fun c => negb (Nat.eqb c new)) (successors t)) /\
      s' = mkSets (dependent s) (i_reg t :: included s) (affected s) (in_blocks s).
  Proof.
    intros S H. unfold end_of_block in H. destruct (terminator (block g b)) as [t|] eqn:T.
    2:{ injection H as <- <-. left. split; [reflexivity|]. split; [apply grows_refl|]. intros t X. congruence. }
    destruct (i_code t) eqn:C; try (injection H as <- <-; left; split; [reflexivity|]; split; [apply grows_refl|]; intros t' X C'; congruence).
    destruct (mem (i_reg t) (dependent s)) eqn:M.
    { injection H as <- <-. left. split; [reflexivity|]. split; [apply grows_refl|]. intros t' X _ _. assert (t' = t) as -> by congruence. right. apply mem_In. exact M. }
    destruct (successors t) as [|first ts] eqn:Su.
    { injection H as <- <-. left. split; [reflexivity|]. split; [apply grows_refl|]. intros t' X _ Ns. assert (t' = t) as -> by congruence. congruence. }
    assert (Nd : ~ In (i_reg t) (dependent s)) by (intros K; apply mem_In in K; congruence).
    assert (It : In t (insts g)) by (apply (terminator_insts g b); exact T).
    pose proof (included_successors_in g s exit b t) as IS. rewrite Su in IS.
    destruct (included_successors reachable g s exit b t) as [|x [|y l]] eqn:L.
    - injection H as <- <-. right. exists t, first. split; [reflexivity|]. split; [exact C|]. split; [exact Nd|]. rewrite Su. split; [left; reflexivity|].
      split; [|split; reflexivity]. intros x y l Q. exfalso. unfold included_successors in L. rewrite Q in Su. rewrite Su in L. destruct l; [|discriminate]. clear - L.
      destruct (_ && _); [destruct (included_through _ _ _ _ _ _); [discriminate|destruct (negb _); [discriminate|destruct (negb _); discriminate]]|destruct (subset _ _); [discriminate|destruct (subset _ _); discriminate]].
    - injection H as <- <-. right. exists t, x. split; [reflexivity|]. split; [exact C|]. split; [exact Nd|]. rewrite Su. split; [apply (IS x); [discriminate|left; reflexivity]|].
      split; [|split; reflexivity]. intros; exact L.
    - destruct (add_operands n g t (snd (add_included g (i_reg t) s))) as [s1|] eqn:A; [|discriminate]. injection H as <- <-. left. split; [reflexivity|].
      destruct (added_spec g (shrunk_unique g S) n t s s1 It A) as (G & K & _). split; [exact G|]. intros t' X _ _. assert (t' = t) as -> by congruence. exact K.
  Qed.

  Lemma redirect_of_block g b new gone c : dget (f_blocks (redirect g b new gone)) c =
    match dget (f_blocks g) c with
    | Some l => Some (let l' := if mem c gone then map (drop_incoming b) l else l in if Nat.eqb c b then map (fun i => if is_terminator i then jump new i else i) l' else l')
    | None => None
    end.
  Proof.
    unfold redirect. cbn [f_blocks]. induction (f_blocks g) as [|[k l] bs IH]; [reflexivity|]. cbn [map fst snd dget].
    destruct (eqb_spec c k) as [->|Q]; [reflexivity|exact IH].
  Qed.
  Lemma terminator_map (h : inst -> inst) l : (forall i, is_terminator (h i) = is_terminator i) -> terminator (map h l) = option_map h (terminator l).
  Proof. intros H. unfold terminator. rewrite <- map_rev. destruct (rev l) as [|x r]; [reflexivity|]. cbn [map]. rewrite H. destruct (is_terminator x); reflexivity. Qed.
  Lemma redirect_terminator g b new gone c : terminator (block (redirect g b new gone) c) = option_map (if Nat.eqb c b then jump new else fun i => i) (terminator (block g c)).
  Proof.
    unfold block. rewrite redirect_of_block. destruct (dget (f_blocks g) c) as [l|]; [|destruct (Nat.eqb c b); reflexivity].
    assert (D : terminator (if mem c gone then map (drop_incoming b) l else l) = terminator l).
    { destruct (mem c gone); [|reflexivity]. rewrite terminator_map by (intros i; apply became_terminator, drop_became).
      destruct (terminator l) as [t|] eqn:T; [|reflexivity]. cbn [option_map]. rewrite drop_incoming_phi; [reflexivity|]. apply terminator_last in T as (_ & _ & T). exact T. }
    cbv zeta. destruct (Nat.eqb c b).
    - rewrite terminator_map by (intros i; destruct (is_terminator i) eqn:T; [reflexivity|exact T]). rewrite D.
      destruct (terminator l) as [t|] eqn:T; [|reflexivity]. cbn [option_map]. apply terminator_last in T as (_ & _ & T). rewrite T. reflexivity.
    - rewrite D. destruct (terminator l); reflexivity.
  Qed.

  Lemma end_ok n exit g s0 s b g' s' : state_ok g s0 s -> end_of_block reachable n exit (g, s) b = Some (g', s') ->
    state_ok g' s0 s' /\ handled g' s' b /\ (forall r, kept s r -> kept s' r) /\ (forall c, handled g s c -> handled g' s' c).
  Proof.
    intros [S D I Bl A Br_] H. destruct (end_spec n exit g s b g' s' S H) as [(-> & G & Hd)|(t & new & T & C & Nd & Ns & _ & -> & ->)].
    - assert (K : forall r, kept s r -> kept s' r) by (intros r; apply (grows_kept g); exact G).
      split; [|split; [exact Hd|split; [exact K|]]].
      + constructor; try assumption; [rewrite (grows_dependent _ _ _ G); exact D|eapply incl_tran; [exact I|apply (grows_included _ _ _ G)]|eapply incl_tran; [exact Bl|apply (grows_blocks _ _ _ G)]|].
        apply all_served_grows with s; assumption.
      + intros c Hc t T C Ns. apply K. apply (Hc t T C Ns).
    - set (gone := filter _ _). assert (S' : shrunk g (redirect g b new gone)).
      { apply redirect_shrunk with t; try assumption; [apply shrunk_blocks_unique; exact S|apply (shrunk_ended f g S E)]. }
      assert (It : In t (insts g)) by (apply (terminator_insts g b); exact T).
      set (s' := mkSets (dependent s) (i_reg t :: included s) (affected s) (in_blocks s)).
      assert (K : forall r, kept s r -> kept s' r) by (intros r [Q|Q]; [left; right; exact Q|right; exact Q]).
      assert (Tr : forall c u, terminator (block (redirect g b new gone) c) = Some u -> (c = b /\ u = jump new t) \/ (c <> b /\ terminator (block g c) = Some u)).
      { intros c u. rewrite redirect_terminator. destruct (Nat.eqb_spec c b) as [->|Q]; [rewrite T; cbn [option_map]; intros X; injection X as <-; left; auto|].
        destruct (terminator (block g c)) as [w|]; cbn [option_map]; [|discriminate]. intros X. injection X as <-. right. auto. }
      assert (Et : forall i', In i' (insts (redirect g b new gone)) -> i_reg i' = i_reg t -> i' = jump new t).
      { intros i' I' Er. assert (T' : terminator (block (redirect g b new gone) b) = Some (jump new t)) by (rewrite redirect_terminator, Nat.eqb_refl, T; reflexivity).
        apply (same_reg (insts (redirect g b new gone))); [apply shrunk_unique; eapply shrunk_trans; eassumption|exact I'|apply (terminator_insts _ b); exact T'|exact Er]. }
      split; [|split; [|split; [exact K|]]].
      + constructor.
        * eapply shrunk_trans; eassumption.
        * exact D.
        * apply incl_tl. exact I.
        * exact Bl.
        * pose proof (all_served_shrunk g _ s (shrunk_unique g S) S' A) as A'. intros i' I' K'. destruct (Nat.eq_dec (i_reg i') (i_reg t)) as [Er|Er].
          -- left. rewrite (Et i' I' Er). intros v d [<-|[]] X. discriminate.
          -- destruct K' as [[Q|Q]|Q]; [cbn [i_reg] in Q; congruence| |];
             (destruct (A' i' I') as [Sv|P]; [try (left; exact Q); right; exact Q|left; apply served_more with s; [exact K|exact Sv]|right; exact P]).
        * intros i i' Ii I' Bi Di.
          assert (R : exists j, In j (insts g) /\ replaced t new j i').
          { pose proof (redirect_replaced g b t new gone (shrunk_blocks_unique g S) (shrunk_ended f g S E) T) as X. apply in_flat_map in I' as (kb' & Kb & I').
            destruct (Forall2_right _ _ _ _ X Kb) as (kb & K2 & _ & F). destruct (Forall2_right _ _ _ _ F I') as (j & J & R). exists j. split; [|exact R]. apply in_flat_map. exists kb. auto. }
          destruct R as (j & J & R).
          assert (Er : i_reg i' = i_reg j) by (destruct R as [->|[(c & _ & ->)|(-> & ->)]]; [reflexivity|apply became_reg, drop_became|reflexivity]).
          assert (Bj : became i j).
          { destruct (Forall2_right _ _ _ _ (shrunk_insts _ _ S) J) as (i0 & I0 & B0). replace i with i0; [exact B0|]. apply (same_reg (insts f)); [exact U|exact I0|exact Ii|].
            rewrite <- (became_reg _ _ Bi), Er. symmetry. apply became_reg. exact B0. }
          destruct (Br_ i j Ii J Bj Di) as [->|P]; [|right; exact P]. destruct R as [->|[(c & P & _)|(-> & _)]]; [left; reflexivity|right; exact P|].
          exfalso. apply Nd. rewrite D. exact Di.
      + intros u Tu Cu _. destruct (Tr b u Tu) as [(_ & ->)|(Q & _)]; [|congruence]. left. left. reflexivity.
      + intros c Hc u Tu Cu Nu. destruct (Tr c u Tu) as [(-> & ->)|(_ & Tg)]; [left; left; reflexivity|]. apply K. apply (Hc u Tg Cu Nu).
  Qed.
End Second.
