(** * Proofs about the search for reasons *)
From Coq Require Import String Ascii ZArith Arith Bool Lia List DecimalString DecimalNat.
From Verif Require Import PyBase Source_Model Source_Spec Source_Proofs Reason_Model Reason_Spec.
Import ListNotations.
Open Scope list_scope.

Lemma find_inst_spec f r i : find_inst f r = Some i -> i_id i = r /\ In i (concat (f_blocks f)).
Proof. intros H. apply find_some in H as (I & E). apply Nat.eqb_eq in E. auto. Qed.
(** ** The start of an access *)
Lemma leads_reg f o g : Leads f o g -> exists r, o = Reg r. Proof. destruct 1; eauto. Qed.
Lemma leads_inv f r g i : Leads f (Reg r) g -> find_inst f r = Some i -> ((exists t, i_kind i = Gep t) /\ (g = i \/ Leads f (i_op i) g)) \/ ((exists b, i_kind i = Cast b) /\ Leads f (i_op i) g).
Proof.
  intros H F. inversion H as [r0 j t F' K E1 E2|r0 j t g0 F' K H' E1 E2|r0 j b g0 F' K H' E1 E2]; rewrite F in F'; injection F' as Q; subst; eauto 6.
Qed.
Definition rank_of (rank : nat -> nat) (o : operand) : nat := match o with Reg r => S (rank r) | _ => 0 end.
Lemma op_rank f rank r i : Ordered f rank -> find_inst f r = Some i -> rank_of rank (i_op i) <= rank r.
Proof. intros O F. destruct (i_op i) as [s| |] eqn:E; cbn; try lia. exact (O r i s F E). Qed.
Lemma start_some f rank : Ordered f rank -> forall n o, rank_of rank o < n ->
  (exists g, access_start n f o = Some (Some g) /\ Starts f o g) \/ (access_start n f o = Some None /\ forall g, ~ Leads f o g).
Proof.
  intros O. induction n as [|n IH]; intros o L; [lia|].
  destruct o as [r| |]; [|right; split; [reflexivity|intros g H; destruct (leads_reg _ _ _ H); discriminate]|right; split; [reflexivity|intros g H; destruct (leads_reg _ _ _ H); discriminate]].
  cbn [access_start]. destruct (find_inst f r) as [i|] eqn:F; [|right; split; [reflexivity|intros g H; inversion H; congruence]].
  pose proof (op_rank f rank r i O F) as R. cbn in L.
  destruct (i_kind i) as [t|b|t|c a l|] eqn:K.
  - destruct (IH (i_op i) ltac:(lia)) as [(g & E & S1 & S2)|(E & N)]; rewrite E.
    + left. exists g. split; [reflexivity|]. split; [eapply Leads_gep; eassumption|exact S2].
    + left. exists i. split; [reflexivity|]. split; [eapply Leads_here; eassumption|exact N].
  - destruct (IH (i_op i) ltac:(lia)) as [(g & E & S1 & S2)|(E & N)]; rewrite E.
    + left. exists g. split; [reflexivity|]. split; [eapply Leads_cast; eassumption|exact S2].
    + right. split; [reflexivity|]. intros g H. destruct (leads_inv _ _ _ _ H F) as [((t & Q) & _)|(_ & H')]; [congruence|exact (N _ H')].
  - right. split; [reflexivity|]. intros g H. destruct (leads_inv _ _ _ _ H F) as [((q & Q) & _)|((q & Q) & _)]; congruence.
  - right. split; [reflexivity|]. intros g H. destruct (leads_inv _ _ _ _ H F) as [((q & Q) & _)|((q & Q) & _)]; congruence.
  - right. split; [reflexivity|]. intros g H. destruct (leads_inv _ _ _ _ H F) as [((q & Q) & _)|((q & Q) & _)]; congruence.
Qed.
(** The way is a line: of two GEPs on it, one is on the way from the other. *)
Lemma leads_line f o g : Leads f o g -> forall h, Leads f o h -> h = g \/ Leads f (i_op g) h \/ Leads f (i_op h) g.
Proof.
  induction 1 as [r i t F K|r i t g F K H IH|r i b g F K H IH]; intros h H2; destruct (leads_inv _ _ _ _ H2 F) as [((q & Q) & [->|H'])|((q & Q) & H')]; auto; congruence.
Qed.
Lemma starts_unique f o g h : Starts f o g -> Starts f o h -> g = h.
Proof. intros (A & B) (C & D). destruct (leads_line f o g A h C) as [E|[E|E]]; [auto|destruct (B _ E)|destruct (D _ E)]. Qed.
Lemma start_iff f rank n o : Ordered f rank -> rank_of rank o < n ->
  (forall g, access_start n f o = Some (Some g) <-> Starts f o g) /\ (access_start n f o = Some None <-> forall g, ~ Leads f o g) /\ access_start n f o <> None.
Proof.
  intros O L. destruct (start_some f rank O n o L) as [(g & E & S)|(E & N)]; rewrite E; (split; [|split; [|discriminate]]).
  - intros h. split; [intros Q; injection Q as <-; exact S|intros S'; rewrite (starts_unique _ _ _ _ S S'); reflexivity].
  - split; [discriminate|]. intros N. destruct (N g). apply S.
  - intros h. split; [discriminate|]. intros (S & _). destruct (N _ S).
  - split; auto.
Qed.
Lemma start_sound f : forall n o g, access_start n f o = Some (Some g) -> Leads f o g /\ In g (concat (f_blocks f)).
Proof.
  induction n as [|n IH]; intros o g E; [discriminate|]. cbn in E. destruct o as [r| |]; try discriminate. destruct (find_inst f r) as [i|] eqn:F; [|discriminate].
  destruct (i_kind i) as [t|b|t|c a l|] eqn:K; try discriminate.
  - destruct (access_start n f (i_op i)) as [[h|]|] eqn:Q; [|injection E as <-; split; [eapply Leads_here; eassumption|apply (find_inst_spec _ _ _ F)]|discriminate]. injection E as <-. destruct (IH _ _ Q). split; [eapply Leads_gep; eassumption|assumption].
  - destruct (IH _ _ E). split; [eapply Leads_cast; eassumption|assumption].
Qed.

(** ** The types of an access *)
Lemma follows_iff i r : follows i r = true <-> Continues i r.
Proof.
  unfold follows, Continues. destruct (i_kind i) as [t|[]|t|c a l|]; destruct (i_op i) as [s| |]; rewrite ?Nat.eqb_eq; split; intros H; try discriminate; try (destruct H as ([(u & H)|H] & H'); congruence).
  - subst s. split; [left; eauto|reflexivity].
  - subst s. split; [right; reflexivity|reflexivity].
Qed.
Lemma types_of_iff i t : In t (types_of i) <-> From_type i t.
Proof.
  unfold types_of, From_type. destruct (i_kind i) as [s|b|s|c a l|]; try (split; [intros []|intros [H|(? & H & _)]; discriminate]).
  cbn. split.
  - intros [->|H]; [auto|]. right. exists s. destruct (i_op i) as [x|u|]; [destruct H|destruct H as [->|[]]; auto|destruct H].
  - intros [H|(u & H & H')]; [injection H as ->; auto|]. right. rewrite H'. left. reflexivity.
Qed.
Lemma behind_sub r l x b : behind r l = Some b -> In x b -> In x l.
Proof.
  induction l as [|i l IH]; cbn; [discriminate|]. destruct (Nat.eqb (i_id i) r); [|intros H I; right; auto]. intros H I. injection H as <-. right.
  clear IH. induction l as [|j l IH]; [destruct I|]. cbn in I. destruct l as [|k l]; [destruct I|]. destruct I as [->|I]; [left; reflexivity|right; apply IH; exact I].
Qed.
Lemma behind_in_sub r bs x : In x (behind_in r bs) -> In x (concat bs).
Proof. induction bs as [|b bs IH]; cbn; [auto|]. rewrite in_app_iff. destruct (behind r b) as [l|] eqn:E; [intros I; left; eapply behind_sub; eassumption|auto]. Qed.
Lemma walk_sound f g : forall l r t, (exists i, i_id i = r /\ Part_of f g i) -> (forall x, In x l -> In x (concat (f_blocks f))) -> In t (walk r l) -> exists i, Part_of f g i /\ From_type i t.
Proof.
  induction l as [|j l IH]; intros r t P S I; [destruct I|]. cbn in I. destruct (follows j r) eqn:F; [|apply (IH r); [exact P|intros x H; apply S; right; exact H|exact I]].
  apply follows_iff in F. destruct P as (i & E & P). subst r. assert (Q : Part_of f g j) by (eapply Part_next; [exact P|apply S; left; reflexivity|exact F]).
  apply in_app_iff in I as [I|I]; [exists j; split; [exact Q|apply types_of_iff; exact I]|]. apply (IH (i_id j)); [eauto|intros x H; apply S; right; exact H|exact I].
Qed.
Lemma source_types_sound f g t : In t (source_types f g) -> exists i, Part_of f g i /\ From_type i t.
Proof.
  intros I. apply in_app_iff in I as [I|I]; [exists g; split; [constructor|apply types_of_iff; exact I]|].
  eapply walk_sound; [exists g; split; [reflexivity|constructor]|apply behind_in_sub|exact I].
Qed.
Lemma ahead_continues r l j : Ahead r l j -> exists a i b, l = a ++ i :: b /\ Continues i r.
Proof. induction 1 as [r i l C|r i l j C A IH|r i l j A (a & k & b & -> & C)]; [exists [], i, l; auto|exists [], i, l; auto|exists (i :: a), k, b; auto]. Qed.
Lemma unbranched_tail i l : Unbranched (i :: l) -> Unbranched l.
Proof. intros U a x b y c r E. apply (U (i :: a) x b y c r). cbn. congruence. Qed.
Lemma walk_complete r l j t : Unbranched l -> Ahead r l j -> From_type j t -> In t (walk r l).
Proof.
  intros U A. revert U. induction A as [r i l C|r i l j C A IH|r i l j A IH]; intros U T; cbn.
  - apply follows_iff in C. rewrite C. apply in_app_iff. left. apply types_of_iff. exact T.
  - apply follows_iff in C. rewrite C. apply in_app_iff. right. apply IH; [eapply unbranched_tail; exact U|exact T].
  - destruct (follows i r) eqn:F; [|apply IH; [eapply unbranched_tail; exact U|exact T]]. exfalso. apply follows_iff in F. apply ahead_continues in A as (a & k & b & -> & C). apply (U [] i a k b r eq_refl F C).
Qed.
Lemma nodup_app_r {A} (a b : list A) : NoDup (a ++ b) -> NoDup b.
Proof. induction a as [|x a IH]; [auto|]. cbn. intros N. inversion N; auto. Qed.
Lemma behind_first r a g b : i_id g = r -> (forall x, In x a -> i_id x <> r) -> behind r (a ++ g :: b) = Some (removelast b).
Proof.
  intros E. induction a as [|x a IH]; intros N; cbn; [rewrite E, Nat.eqb_refl; reflexivity|]. destruct (Nat.eqb_spec (i_id x) r) as [Q|_]; [destruct (N x (or_introl eq_refl) Q)|apply IH; intros y H; apply N; right; exact H].
Qed.
Lemma behind_none r l : (forall x, In x l -> i_id x <> r) -> behind r l = None.
Proof. induction l as [|x l IH]; intros N; cbn; [reflexivity|]. destruct (Nat.eqb_spec (i_id x) r) as [Q|_]; [destruct (N x (or_introl eq_refl) Q)|apply IH; intros y H; apply N; right; exact H]. Qed.
Lemma behind_in_found f g a b : NoDup (map i_id (concat (f_blocks f))) -> In (a ++ g :: b) (f_blocks f) -> behind_in (i_id g) (f_blocks f) = removelast b.
Proof.
  intros N I. induction (f_blocks f) as [|c bs IH]; [destruct I|]. cbn [concat] in N. rewrite map_app in N. cbn. destruct I as [->|I].
  - rewrite behind_first; [reflexivity|reflexivity|]. intros x X E. rewrite map_app in N. cbn in N. rewrite <- !app_assoc in N.
    apply in_map with (f := i_id) in X. rewrite E in X. apply in_split in X as (p & q & X). rewrite X in N. rewrite <- app_assoc in N. apply nodup_app_r in N. cbn in N. inversion N as [|? ? H _]; subst. apply H. rewrite !in_app_iff. right. left. reflexivity.
  - rewrite behind_none.
    + apply IH; [|exact I]. apply nodup_app_r in N. exact N.
    + intros x X E. apply in_map with (f := i_id) in X. rewrite E in X. apply in_split in X as (p & q & X). rewrite X in N. rewrite <- app_assoc in N. apply nodup_app_r in N. cbn in N. inversion N as [|? ? H _]; subst. apply H.
      rewrite in_app_iff. right. apply in_map_iff. exists g. split; [reflexivity|]. apply in_concat. exists (a ++ g :: b). split; [exact I|]. rewrite in_app_iff. right. left. reflexivity.
Qed.

(** ** The instruction before *)
Lemma previous_in_sound r : forall l q p, previous_in r q l = Some p -> (exists i b, l = i :: b /\ i_id i = r /\ q = Some p) \/ exists a i b, l = a ++ p :: i :: b /\ i_id i = r.
Proof.
  induction l as [|j l IH]; intros q p E; [discriminate|]. cbn in E. destruct (Nat.eqb_spec (i_id j) r) as [Q|Q]; [left; exists j, l; auto|].
  destruct (IH _ _ E) as [(i & b & -> & I & X)|(a & i & b & -> & I)]; right; [injection X as ->; exists [], i, b; auto|exists (j :: a), i, b; auto].
Qed.
Lemma previous_sound f r p : previous r (f_blocks f) = Some p -> exists i, i_id i = r /\ Before f p i.
Proof.
  unfold Before. induction (f_blocks f) as [|b bs IH]; cbn; [discriminate|]. destruct (previous_in r None b) as [q|] eqn:E.
  - intros H. injection H as ->. destruct (previous_in_sound r b None p E) as [(i & c & _ & _ & X)|(a & i & c & -> & I)]; [discriminate|]. exists i. split; [exact I|]. exists a, c. left. reflexivity.
  - intros H. destruct (IH H) as (i & I & a & c & J). exists i. split; [exact I|]. exists a, c. right. exact J.
Qed.
Lemma unique_id f i j : NoDup (map i_id (concat (f_blocks f))) -> In i (concat (f_blocks f)) -> In j (concat (f_blocks f)) -> i_id i = i_id j -> i = j.
Proof.
  generalize (concat (f_blocks f)) as l. induction l as [|x l IH]; intros N I J E; [destruct I|]. cbn in N. inversion N as [|? ? H N']; subst. destruct I as [->|I], J as [->|J]; auto.
  - exfalso. apply H. rewrite E. apply in_map. exact J.
  - exfalso. apply H. rewrite <- E. apply in_map. exact I.
Qed.
Lemma before_in f p i : Before f p i -> In p (concat (f_blocks f)) /\ In i (concat (f_blocks f)).
Proof. intros (a & b & I). split; apply in_concat; eexists; (split; [exact I|]); rewrite in_app_iff; right; cbn; auto. Qed.

Lemma previous_in_none r : forall l q, (forall x, In x l -> i_id x <> r) -> previous_in r q l = None.
Proof. induction l as [|x l IH]; intros q N; cbn; [reflexivity|]. destruct (Nat.eqb_spec (i_id x) r) as [Q|_]; [destruct (N x (or_introl eq_refl) Q)|apply IH; intros y H; apply N; right; exact H]. Qed.
Lemma previous_in_found r p i b : i_id i = r -> i_id p <> r -> forall a q, (forall x, In x a -> i_id x <> r) -> previous_in r q (a ++ p :: i :: b) = Some p.
Proof.
  intros E P. induction a as [|x a IH]; intros q N; cbn.
  - destruct (Nat.eqb_spec (i_id p) r) as [Q|_]; [contradiction|]. rewrite E, Nat.eqb_refl. reflexivity.
  - destruct (Nat.eqb_spec (i_id x) r) as [Q|_]; [destruct (N x (or_introl eq_refl) Q)|apply IH; intros y H; apply N; right; exact H].
Qed.
Lemma nodup_apart (a b : list inst) x y : NoDup (map i_id (a ++ b)) -> In x a -> In y b -> i_id x <> i_id y.
Proof.
  rewrite map_app. intros N X Y E. apply in_map with (f := i_id) in X, Y. rewrite E in X. apply in_split in X as (p & q & X). rewrite X, <- app_assoc in N. apply nodup_app_r in N. cbn in N. inversion N as [|? ? H _]; subst. apply H. apply in_app_iff. right. exact Y.
Qed.
Lemma previous_found f p i : NoDup (map i_id (concat (f_blocks f))) -> Before f p i -> previous (i_id i) (f_blocks f) = Some p.
Proof.
  intros N (a & b & I). induction (f_blocks f) as [|c bs IH]; [destruct I|]. cbn [concat] in N. cbn. destruct I as [->|I].
  - assert (N2 : NoDup (map i_id ((a ++ [p]) ++ (i :: b) ++ concat bs))) by (rewrite <- app_assoc; cbn; rewrite <- app_assoc in N; exact N).
    rewrite previous_in_found; [reflexivity|reflexivity|apply (nodup_apart _ _ p i N2); [apply in_app_iff; right; left; reflexivity|left; reflexivity]|].
    intros x X. apply (nodup_apart _ _ x i N2); [apply in_app_iff; left; exact X|left; reflexivity].
  - rewrite previous_in_none; [apply IH; [|exact I]; rewrite map_app in N; apply nodup_app_r in N; exact N|].
    intros x X. apply (nodup_apart _ _ x i N); [exact X|]. apply in_concat. exists (a ++ p :: i :: b). split; [exact I|]. rewrite in_app_iff. right. right. left. reflexivity.
Qed.
Lemma before_found f r p : NoDup (map i_id (concat (f_blocks f))) -> forall i, In i (concat (f_blocks f)) -> i_id i = r -> (previous r (f_blocks f) = Some p <-> Before f p i).
Proof.
  intros N i I E. split.
  - intros H. destruct (previous_sound f r p H) as (j & J & B). assert (j = i) by (apply (unique_id f); [exact N|apply (before_in _ _ _ B)|exact I|congruence]). subst j. exact B.
  - intros B. subst r. apply previous_found; assumption.
Qed.
Lemma access_iff f rank n i : NoDup (map i_id (concat (f_blocks f))) -> Ordered f rank -> (forall r, S (rank r) < n) -> In i (concat (f_blocks f)) ->
  (exists x, access_of n f i = Some x) /\ forall g, access_of n f i = Some (Some g) <-> Access_at f i g.
Proof.
  intros N O L I. unfold access_of, Access_at. destruct (start_iff f rank n (Reg (i_id i)) O (L _)) as (A & B & C).
  destruct (access_start n f (Reg (i_id i))) as [[h|]|] eqn:E; [| |contradiction].
  - split; [eauto|]. intros g. split; [intros Q; injection Q as <-; left; apply A; reflexivity|]. intros [S|(Z & _)]; [apply A in S; exact S|]. exfalso. apply (Z h). apply A. reflexivity.
  - assert (NL : forall g, ~ Leads f (Reg (i_id i)) g) by (apply B; reflexivity).
    destruct (previous (i_id i) (f_blocks f)) as [p|] eqn:P.
    + apply (before_found f _ p N i I eq_refl) in P as P'. destruct (start_iff f rank n (Reg (i_id p)) O (L _)) as (A' & B' & C'). split; [destruct (access_start n f (Reg (i_id p))); [eauto|contradiction]|].
      intros g. rewrite A'. split; [intros S; right; split; [exact NL|exists p; auto]|]. intros [(S & _)|(_ & q & Q & S)]; [destruct (NL _ S)|]. apply (before_found f _ q N i I eq_refl) in Q. assert (q = p) by congruence. subst q. exact S.
    + split; [eauto|]. intros g. split; [discriminate|]. intros [(S & _)|(_ & q & Q & S)]; [destruct (NL _ S)|]. apply (before_found f _ q N i I eq_refl) in Q. congruence.
Qed.
(** ** Recorded types *)
Section Types.
  Variable differ : ty -> ty -> bool.
  Variables info_l info_r : dict string (string * string * Z).
  Lemma short_iff n name : Short n name <-> (if startswith n "struct." then drop 7 n else n) = name.
  Proof.
    destruct (startswith n "struct.") eqn:E.
    - apply startswith_spec in E as (a & ->). split; [intros [H|(_ & H)]; [cbn in H; injection H as ->; reflexivity|destruct (H a eq_refl)]|intros <-; left; reflexivity].
    - split; [intros [->|(-> & _)]; [exfalso; revert E; generalize name; clear; intros x; cbn; destruct x; discriminate|reflexivity]|intros <-; right; split; [reflexivity|]]. intros a ->. assert (Q : startswith ("struct." ++ a) "struct." = true) by (apply startswith_spec; eexists; reflexivity). congruence.
  Qed.
  Lemma file_iff d p path : File d p path <-> join_path d p = path.
  Proof.
    unfold File, join_path. destruct (startswith p d) eqn:E.
    - apply startswith_spec in E as (b & ->). split; [intros [(_ & ->)|(H & _)]; [reflexivity|destruct (H b eq_refl)]|intros <-; left; split; [eexists; reflexivity|reflexivity]].
    - assert (N : forall b, p <> (d ++ b)%string) by (intros b ->; assert (Q : startswith (d ++ b) d = true) by (apply startswith_spec; eexists; reflexivity); congruence).
      split; [intros [((b & H) & _)|(_ & ->)]; [destruct (N b H)|reflexivity]|intros <-; right; auto].
  Qed.
  Definition known (fl fr : func) : Prop := f_debug fl <> None /\ f_debug fr <> None.
  Lemma pair_iff fl fr l r os : (match l, r with
             | Struct (Some n) _, Struct (Some m) _ => if String.eqb (base_name n) (base_name m) then type_difference differ info_l info_r fl fr l r n else Some []
             | _, _ => Some []
             end) = Some os -> forall o, In o os <-> Recorded differ info_l info_r fl fr l r o.
  Proof.
    intros E o.
    assert (NO : forall P : Prop, os = [] -> (Recorded differ info_l info_r fl fr l r o -> False) -> (In o os <-> Recorded differ info_l info_r fl fr l r o)) by (intros P -> H; split; [intros []|intros R; destruct (H R)]).
    destruct l as [[n|] idl|idl]; [|apply (NO True); [congruence|intros (? & ? & ? & ? & ? & ? & ? & ? & ? & ? & ? & ? & ? & ? & ? & ? & ? & H & _); discriminate]..].
    destruct r as [[m|] idr|idr]; [|apply (NO True); [congruence|intros (? & ? & ? & ? & ? & ? & ? & ? & ? & ? & ? & ? & ? & ? & ? & ? & ? & _ & H & _); discriminate]..].
    destruct (String.eqb_spec (base_name n) (base_name m)) as [B|B].
    2:{ apply (NO True); [congruence|]. intros (n' & ? & m' & ? & ? & ? & ? & ? & ? & ? & ? & ? & ? & ? & ? & ? & ? & H & H' & (b & X & Y) & _). injection H as <- <-. injection H' as <- <-. apply base_of_iff in X, Y. congruence. }
    unfold type_difference in E. destruct (differ _ _) eqn:D; [|apply (NO True); [congruence|intros (? & ? & ? & ? & ? & ? & ? & ? & ? & ? & ? & ? & ? & ? & ? & ? & ? & H & H' & _ & H2 & _); congruence]].
    cbv zeta in E. remember (if startswith n "struct." then drop 7 n else n) as name eqn:EN. symmetry in EN. apply short_iff in EN.
    assert (SH : forall x, Short n x -> x = name) by (intros x X; apply short_iff in X; apply short_iff in EN; congruence).
    destruct (dget info_l name) as [[[dl pl] ll]|] eqn:I1.
    2:{ apply (NO True); [congruence|]. intros (n' & ? & m' & ? & x & ? & ? & ? & ? & ? & ? & ? & ? & ? & ? & ? & ? & H & H' & _ & _ & S & H1 & _). injection H as <- <-. apply SH in S. congruence. }
    destruct (dget info_r name) as [[[dr pr] lr]|] eqn:I2.
    2:{ apply (NO True); [congruence|]. intros (n' & ? & m' & ? & x & ? & ? & ? & ? & ? & ? & ? & ? & ? & ? & ? & ? & H & H' & _ & _ & S & _ & H1 & _). injection H as <- <-. apply SH in S. congruence. }
    destruct (f_debug fl) as [[sl al]|] eqn:D1; [|discriminate]. destruct (f_debug fr) as [[sr ar]|] eqn:D2; [|discriminate]. injection E as <-. split.
    - intros [<-|[]]. exists n, idl, m, idr, name, dl, pl, ll, dr, pr, lr, sl, al, sr, ar, (join_path dl pl), (join_path dr pr). repeat apply conj; try reflexivity; try assumption; try (apply file_iff; reflexivity).
      exists (base_name n). split; apply base_of_iff; [reflexivity|auto].
    - intros (n' & ? & m' & ? & x & dl' & pl' & ll' & dr' & pr' & lr' & sl' & al' & sr' & ar' & ql & qr & H & H' & _ & _ & S & H1 & H2 & H3 & H4 & F1 & F2 & ->). injection H as <- <-. injection H' as <- <-. apply SH in S. subst x.
      apply file_iff in F1, F2. rewrite I1 in H1. rewrite I2 in H2. injection H1 as <- <- <-. injection H2 as <- <- <-. rewrite D1 in H3. rewrite D2 in H4. injection H3 as <- <-. injection H4 as <- <-. subst. left. reflexivity.
  Qed.
  Lemma types_iff fl fr : forall ls rs os, type_differences differ info_l info_r fl fr ls rs = Some os ->
    forall o, In o os <-> exists k tl tr, nth_error ls k = Some tl /\ nth_error rs k = Some tr /\ Recorded differ info_l info_r fl fr tl tr o.
  Proof.
    induction ls as [|l ls IH]; intros [|r rs] os E o; try (injection E as <-; split; [intros []|intros ([|k] & ? & ? & A & B & _); discriminate]).
    cbn [type_differences] in E. destruct (match l with Struct _ _ => _ | Basic _ => _ end) as [a|] eqn:P in E; [|discriminate]. destruct (type_differences differ info_l info_r fl fr ls rs) as [b|] eqn:Q; [|discriminate]. injection E as <-.
    rewrite in_app_iff, (pair_iff _ _ _ _ _ P), (IH _ _ Q). split.
    - intros [H|(k & tl & tr & H)]; [exists 0, l, r; auto|exists (S k), tl, tr; exact H].
    - intros ([|k] & tl & tr & A & B & H); [cbn in A, B; injection A as <-; injection B as <-; auto|right; exists k, tl, tr; auto].
  Qed.
  Lemma types_known fl fr : known fl fr -> forall ls rs, type_differences differ info_l info_r fl fr ls rs <> None.
  Proof.
    intros (K1 & K2). induction ls as [|l ls IH]; intros [|r rs]; try discriminate. cbn [type_differences]. destruct (match l with Struct _ _ => _ | Basic _ => _ end) as [a|] eqn:P.
    - specialize (IH rs). destruct (type_differences _ _ _ _ _ ls rs); [discriminate|contradiction].
    - exfalso. destruct l as [[n|] ?|?]; try discriminate. destruct r as [[m|] ?|?]; try discriminate. destruct (String.eqb _ _); [|discriminate]. unfold type_difference in P. destruct (differ _ _); [|discriminate]. cbv zeta in P.
      destruct (dget info_l _) as [[[? ?] ?]|]; [|discriminate]. destruct (dget info_r _) as [[[? ?] ?]|]; [|discriminate]. destruct (f_debug fl) as [[? ?]|]; [|contradiction]. destruct (f_debug fr) as [[? ?]|]; [discriminate|contradiction].
  Qed.
End Types.

(** ** Calls *)
Lemma snoc_inj s a t b : (s ++ String a "")%string = (t ++ String b "")%string -> s = t /\ a = b.
Proof.
  revert t. induction s as [|c s IH]; intros [|d t] E; cbn in E.
  - injection E as ->. auto.
  - injection E as -> E. destruct t; discriminate.
  - injection E as -> E. destruct s; discriminate.
  - injection E as -> E. destruct (IH t E) as (-> & ->). auto.
Qed.
Lemma number_fun s n m : Number s n -> Number s m -> n = m.
Proof.
  intros H. revert m. induction H as [|s n a H IH A]; intros m M.
  - remember ""%string as e. destruct M as [|t k b M B]; [reflexivity|]. destruct t; discriminate.
  - remember (s ++ String a "")%string as e. destruct M as [|t k b M B]; [destruct s; discriminate|]. destruct (snoc_inj _ _ _ _ Heqe) as (-> & ->). rewrite (IH k M). reflexivity.
Qed.
Lemma app_s_assoc (a b c : string) : ((a ++ b) ++ c)%string = (a ++ (b ++ c))%string.
Proof. induction a as [|x a IH]; cbn; [reflexivity|]. rewrite IH. reflexivity. Qed.
Lemma app_s_nil (a : string) : (a ++ "")%string = a.
Proof. induction a as [|x a IH]; cbn; [reflexivity|]. rewrite IH. reflexivity. Qed.
Lemma number_digits d : forall s acc, Number s acc -> Number (s ++ NilEmpty.string_of_uint d) (Nat.of_uint_acc d acc).
Proof.
  assert (G : forall s acc a t n, Number s acc -> 48 <= nat_of_ascii a <= 57 -> (forall s' acc', Number s' acc' -> Number (s' ++ t) (n acc')) -> Number (s ++ String a t) (n (10 * acc + digit a))).
  { intros s acc a t n N A H. specialize (H _ _ (Number_digit s acc a N A)). rewrite app_s_assoc in H. exact H. }
  induction d as [|d IH|d IH|d IH|d IH|d IH|d IH|d IH|d IH|d IH|d IH]; intros s acc N; cbn [NilEmpty.string_of_uint Nat.of_uint_acc]; [rewrite app_s_nil; exact N|..];
    rewrite Nat.tail_mul_spec; match goal with |- Number (_ ++ String ?a ?t) ?m => pose proof (G s acc a t (Nat.of_uint_acc d) N) as H; assert (A : 48 <= nat_of_ascii a <= 57) by (vm_compute; split; repeat constructor); specialize (H A IH); let k := eval vm_compute in (digit a) in change (digit a) with k in H end;
    match goal with H : Number ?s (Nat.of_uint_acc d ?x) |- Number ?s (Nat.of_uint_acc d ?y) => replace y with x by lia; exact H end.
Qed.
Lemma decimal_number n : Number (decimal n) n.
Proof.
  pose proof (number_digits (Nat.to_uint n) ""%string 0 Number_none) as H. cbn [append] in H.
  assert (E : Nat.of_uint_acc (Nat.to_uint n) 0 = n) by apply DecimalNat.Unsigned.of_to. rewrite E in H. exact H.
Qed.
Lemma listed args : Listed args (join_names args).
Proof.
  induction args as [|a l IH] using rev_ind; [constructor|]. unfold join_names in *. rewrite fold_left_app. cbn [fold_left].
  destruct (String.eqb_spec (fold_left (fun acc a0 => if String.eqb acc "" then a0 else (acc ++ ", " ++ a0)%string) l ""%string) "") as [E|E].
  - apply Listed_first. rewrite E in IH. exact IH.
  - apply Listed_more; assumption.
Qed.
Lemma asm_iff i t args : Asm i t args <-> exists n, i_kind i = Call (Some n) t args /\ startswith n asm_prefix = true.
Proof.
  split.
  - intros (n & K). eexists. split; [exact K|]. apply startswith_spec. eauto.
  - intros (n & K & P). apply startswith_spec in P as (a & ->). exists a. exact K.
Qed.
Lemma asm_spec fl fr l r c os c' : asm_difference fl fr l r c = Some (os, c') ->
  (Asm_differs l r -> c' = S c /\ exists o, os = [o] /\ Asm_reason fl fr l r c' o) /\ (~ Asm_differs l r -> c' = c /\ os = []).
Proof.
  intros E. assert (N : Some ([], c) = Some (os, c') -> ~ Asm_differs l r -> (Asm_differs l r -> c' = S c /\ exists o, os = [o] /\ Asm_reason fl fr l r c' o) /\ (~ Asm_differs l r -> c' = c /\ os = [])).
  { intros E' D. injection E' as <- <-. split; [contradiction|auto]. }
  unfold asm_difference in E.
  destruct (i_kind l) as [?|?|?|[nl|] al argl|] eqn:Kl; try (apply N; [exact E|intros (? & ? & ? & ? & (? & A) & _); rewrite Kl in A; discriminate]).
  destruct (i_kind r) as [?|?|?|[nr|] ar argr|] eqn:Kr; try (apply N; [exact E|intros (? & ? & ? & ? & _ & (? & A) & _); rewrite Kr in A; discriminate]).
  destruct (startswith nl asm_prefix) eqn:Pl; cbn [andb] in E; [|apply N; [exact E|intros (? & ? & ? & ? & A & _); apply asm_iff in A as (? & A & B); rewrite Kl in A; injection A as <- <- <-; congruence]].
  destruct (startswith nr asm_prefix) eqn:Pr; cbn [andb] in E; [|apply N; [exact E|intros (? & ? & ? & ? & _ & A & _); apply asm_iff in A as (? & A & B); rewrite Kr in A; injection A as <- <- <-; congruence]].
  destruct (String.eqb_spec al ar) as [Q|Q]; cbn [negb] in E; [apply N; [exact E|]; intros (? & ? & ? & ? & A & B & D); apply asm_iff in A as (? & A & _); apply asm_iff in B as (? & B & _); rewrite Kl in A; rewrite Kr in B; congruence|].
  assert (Al : Asm l al argl) by (apply asm_iff; eauto). assert (Ar : Asm r ar argr) by (apply asm_iff; eauto).
  destruct (f_debug fl) as [[file_l line_l]|] eqn:Dl; [|discriminate]. destruct (f_debug fr) as [[file_r line_r]|] eqn:Dr; [|discriminate]. injection E as <- <-.
  split; [intros _; split; [reflexivity|]|intros D; destruct D; exists al, argl, ar, argr; auto].
  eexists. split; [reflexivity|]. exists al, argl, ar, argr, (join_names argl), (join_names argr), (decimal (S c)), [("(generated assembly code)"%string, file_l, line_l)], [("(generated assembly code)"%string, file_r, line_r)].
  split; [exact Al|]. split; [exact Ar|]. split; [exact Q|]. split; [apply listed|]. split; [apply listed|]. split; [apply decimal_number|]. split; [exists file_l, line_l; auto|]. split; [exists file_r, line_r; auto|]. reflexivity.
Qed.
Lemma asm_none fl fr l r c : asm_difference fl fr l r c = None <-> Asm_differs l r /\ (f_debug fl = None \/ f_debug fr = None).
Proof.
  split.
  - intros E. unfold asm_difference in E. destruct (i_kind l) as [?|?|?|[nl|] al argl|] eqn:Kl; try discriminate. destruct (i_kind r) as [?|?|?|[nr|] ar argr|] eqn:Kr; try discriminate.
    destruct (startswith nl asm_prefix) eqn:Pl; cbn [andb] in E; [|discriminate]. destruct (startswith nr asm_prefix) eqn:Pr; cbn [andb] in E; [|discriminate].
    destruct (String.eqb_spec al ar) as [Q|Q]; cbn [negb] in E; [discriminate|]. split; [exists al, argl, ar, argr; split; [|split]; try apply asm_iff; eauto|].
    destruct (f_debug fl) as [[]|]; [|auto]. destruct (f_debug fr) as [[]|]; [discriminate|auto].
  - intros ((tl & al & tr & ar & A & B & D) & F). apply asm_iff in A as (nl & A & Pl). apply asm_iff in B as (nr & B & Pr). unfold asm_difference. rewrite A, B, Pl, Pr. destruct (String.eqb_spec tl tr); [contradiction|]. cbn [negb andb].
    destruct F as [F|F]; rewrite F; [reflexivity|]. destruct (f_debug fl) as [[]|]; reflexivity.
Qed.
Lemma mem_false (x : string) l : mem x l = false <-> ~ In x l.
Proof. split; [intros H I; apply mem_In in I; congruence|]. intros H. destruct (mem x l) eqn:E; [|reflexivity]. destruct H. apply mem_In. exact E. Qed.
Lemma call_name_none i : call_name i = None <-> Unknown i.
Proof.
  unfold call_name, Unknown. split; [destruct (i_kind i) as [?|?|?|[n|] ? ?|]; intros; try discriminate; eauto|intros (? & ? & ->); reflexivity].
Qed.
Lemma call_name_of i n x : ~ In ""%string x -> call_name i = Some n -> In n x -> Calls i n /\ call_id i = Some (i_id i).
Proof. intros X E I. unfold call_name, call_id, Calls in *. destruct (i_kind i) as [?|?|?|[m|] ? ?|]; try discriminate; injection E as <-; try contradiction. split; eauto. Qed.
Lemma calls_name i n : Calls i n -> call_name i = Some n.
Proof. intros (a & b & K). unfold call_name. rewrite K. reflexivity. Qed.
Lemma macro_spec fl l r before os i : ~ In ""%string (i_macros l) -> ~ In ""%string (i_macros r) ->
  macro_function fl l r before = Some (os, i) <-> (~ Unknown l /\ ~ Unknown r /\ Macro_reason fl l r before os i).
Proof.
  intros Xl Xr. unfold macro_function.
  destruct (call_name l) as [nl|] eqn:El; [|split; [discriminate|intros (U & _); destruct U; apply call_name_none; exact El]].
  destruct (call_name r) as [nr|] eqn:Er; [|split; [discriminate|intros (_ & U & _); destruct U; apply call_name_none; exact Er]].
  assert (U : ~ Unknown l /\ ~ Unknown r) by (split; intros U; apply call_name_none in U; congruence).
  assert (F : negb (mem nl (i_macros l)) && mem nl (i_macros r) = true <-> exists m, Macro_in l r m).
  { rewrite andb_true_iff, negb_true_iff, mem_false, mem_In. split.
    - intros (A & B). destruct (call_name_of l nl _ Xr El B) as (C & _). exists nl. split; auto.
    - intros (m & C & A & B). rewrite (calls_name _ _ C) in El. injection El as <-. auto. }
  assert (G : mem nr (i_macros l) && negb (mem nr (i_macros r)) = true <-> exists m, Macro_in r l m).
  { rewrite andb_true_iff, negb_true_iff, mem_false, mem_In. split.
    - intros (A & B). destruct (call_name_of r nr _ Xl Er A) as (C & _). exists nr. split; auto.
    - intros (m & C & A & B). rewrite (calls_name _ _ C) in Er. injection Er as <-. auto. }
  assert (Fn : forall m, Macro_in l r m -> m = nl /\ call_id l = Some (i_id l)).
  { intros m (C & A & B). pose proof (calls_name _ _ C) as Q. rewrite Q in El. injection El as <-. split; [reflexivity|]. apply (call_name_of l m _ Xr Q B). }
  assert (Gn : forall m, Macro_in r l m -> m = nr /\ call_id r = Some (i_id r)).
  { intros m (C & A & B). pose proof (calls_name _ _ C) as Q. rewrite Q in Er. injection Er as <-. split; [reflexivity|]. apply (call_name_of r m _ Xl Q B). }
  assert (L : negb (String.eqb (i_text l) "") && negb (String.eqb (i_text r) "") && String.eqb (i_text l) (i_text r) = true <-> Same_lines l r).
  { unfold Same_lines. rewrite !andb_true_iff, !negb_true_iff, !String.eqb_neq, String.eqb_eq. split; [tauto|]. intros (A & B). repeat split; congruence. }
  destruct (negb (String.eqb (i_text l) "") && negb (String.eqb (i_text r) "") && String.eqb (i_text l) (i_text r)); cbn [andb].
  2: { assert (~ Same_lines l r) by (intros Q; apply L in Q; discriminate). split; [intros Q; injection Q as <- <-; split; [tauto|split; [tauto|]]; apply No_macro; tauto|]. intros (_ & _ & [m S _|m S _ _|_]); try contradiction. reflexivity. }
  assert (S : Same_lines l r) by (apply L; reflexivity).
  destruct (negb (mem nl (i_macros l)) && mem nl (i_macros r)); cbn [orb].
  - destruct (proj1 F eq_refl) as (m & M). pose proof (Fn m M) as (Em & Id). subst m. rewrite Id. split.
    + intros Q. injection Q as <- <-. split; [tauto|]. split; [tauto|]. apply Became_macro; assumption.
    + intros (_ & _ & [m S' M'|m S' N' M'|N']); [destruct (Fn m M') as (-> & _); reflexivity|destruct (N' _ M)|destruct N'; eauto].
  - assert (NF : forall m, ~ Macro_in l r m) by (intros m M; assert (false = true) by (apply F; eauto); discriminate).
    destruct (mem nr (i_macros l) && negb (mem nr (i_macros r))).
    + destruct (proj1 G eq_refl) as (m & M). pose proof (Gn m M) as (Em & Id). subst m. rewrite Id. split.
      * intros Q. injection Q as <- <-. split; [tauto|]. split; [tauto|]. apply Was_macro; assumption.
      * intros (_ & _ & [m S' M'|m S' N' M'|N']); [destruct (NF _ M')|destruct (Gn m M') as (-> & _); reflexivity|destruct N'; eauto].
    + assert (NG : forall m, ~ Macro_in r l m) by (intros m M; assert (false = true) by (apply G; eauto); discriminate). split.
      * intros Q. injection Q as <- <-. split; [tauto|]. split; [tauto|]. apply No_macro. intros (_ & m & [M|M]); [apply (NF m M)|apply (NG m M)].
      * intros (_ & _ & [m S' M'|m S' N' M'|N']); [destruct (NF _ M')|destruct (NG _ M')|reflexivity].
Qed.
Lemma macro_none fl l r before : macro_function fl l r before = None <-> Unknown l \/ Unknown r.
Proof.
  rewrite <- !call_name_none. unfold macro_function. destruct (call_name l) as [nl|]; [|split; auto]. destruct (call_name r) as [nr|]; [|split; auto].
  split; [|intros [H|H]; discriminate]. match goal with |- (if ?b then _ else _) = None -> _ => destruct b end; discriminate.
Qed.
Lemma abstraction_iff n : abstraction n = true <-> Generated_name n.
Proof. unfold abstraction, Generated_name. rewrite orb_true_iff, !startswith_spec. reflexivity. Qed.
