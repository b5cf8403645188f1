(** * Property C129: the log of comparisons *)
From Coq Require Import String Arith Bool Lia List.
From Verif Require Import Log_Model Log_Spec.
Import ListNotations.
Open Scope list_scope.

Section Proofs.
  Variable text : Type.
  Variable extra : bool.
  Notation comparison := (comparison text).
  Notation message := (message text).
  Notation run := (run text extra).

  Lemma comparison_ind' (P : comparison -> Prop) :
    (forall t l d i, Forall P l -> P (Comparison t l d i)) -> forall c, P c.
  Proof.
    intros H. fix F 1. intros [t l d i]. apply H. induction l as [|x l IH]; constructor; [apply F|exact IH].
  Qed.

  Definition hide (keep : bool) (m : message) : message := if negb keep && negb (force_kept m) then mkMessage true (m_level m) None else m.
  (** The messages of a comparison in the buffer, the first one first *)
  Fixpoint entries (lv : nat) (c : comparison) : list message :=
    match c with
    | Comparison t l d i =>
      if d || (i && extra) then
        mkMessage (i && extra) lv (Some t) :: (let kids := flat_map (entries (S lv)) l in if i && extra then map (hide d) kids else kids)
      else []
    end.
  Lemma entries_level : forall c lv m, In m (entries lv c) -> (lv <= m_level m)%nat.
  Proof.
    induction c as [t l d i IH] using comparison_ind'. intros lv m I. cbn [entries] in I.
    assert (K : forall m, In m (flat_map (entries (S lv)) l) -> (lv <= m_level m)%nat).
    { intros x J. apply in_flat_map in J as (c & J & X). rewrite Forall_forall in IH. specialize (IH c J (S lv) x X). lia. }
    destruct (d || (i && extra)); [|destruct I]. destruct I as [<-|I]; [cbn; lia|]. cbv zeta in I. destruct (i && extra); [|auto].
    apply in_map_iff in I as (x & <- & J). unfold hide. destruct (_ && _); cbn; auto.
  Qed.
  Lemma kids_level l lv m : In m (flat_map (entries lv) l) -> (lv <= m_level m)%nat.
  Proof. intros J. apply in_flat_map in J as (c & J & X). eapply entries_level; eassumption. Qed.
  Lemma mark_kids lv keep kids b m : (forall x, In x kids -> (S lv <= m_level x)%nat) -> m_level m = lv ->
    mark text lv keep (kids ++ m :: b) = map (hide keep) kids ++ mkMessage true lv (label m) :: b.
  Proof.
    intros H E. induction kids as [|x kids IH]; cbn [app mark map].
    - rewrite E, Nat.eqb_refl. reflexivity.
    - rewrite IH by (intros y J; apply H; right; exact J). specialize (H x (or_introl eq_refl)).
      destruct (Nat.eqb_spec lv (m_level x)); [lia|]. reflexivity.
  Qed.
  Lemma pop_kids lv kids b m : (forall x, In x kids -> (S lv <= m_level x)%nat) -> m_level m = lv ->
    pop_children text lv (kids ++ m :: b) = m :: b.
  Proof.
    intros H E. induction kids as [|x kids IH]; cbn [app pop_children].
    - rewrite E, Nat.ltb_irrefl. reflexivity.
    - specialize (H x (or_introl eq_refl)) as Hx. destruct (Nat.ltb_spec lv (m_level x)); [|lia]. apply IH. intros y J. apply H. right. exact J.
  Qed.
  Lemma run_app s a b : run s (a ++ b) = run (run s a) b.
  Proof. apply fold_left_app. Qed.

  Definition Inner (c : comparison) : Prop := forall lv b p,
    run (mkLogger (S lv) b p) (told c) = mkLogger (S lv) (rev (entries (S lv) c) ++ b) p.
  Lemma run_parts l : Forall Inner l -> forall lv b p,
    run (mkLogger (S lv) b p) (flat_map told l) = mkLogger (S lv) (rev (flat_map (entries (S lv)) l) ++ b) p.
  Proof.
    induction 1 as [|c l H F IH]; intros lv b p; [reflexivity|]. cbn [flat_map]. rewrite run_app, H, IH, rev_app_distr, app_assoc. reflexivity.
  Qed.
  Lemma rev_kids lv l x : In x (rev (flat_map (entries (S lv)) l)) -> (S lv <= m_level x)%nat.
  Proof. intros J. apply in_rev in J. eapply kids_level. exact J. Qed.
  Lemma run_told t l d i lv b p : Forall Inner l ->
    run (mkLogger lv b p) (told (Comparison t l d i)) =
    if Nat.eqb lv 0 then mkLogger 0 [] (p ++ (if d || (i && extra) then dump text (rev (entries lv (Comparison t l d i)) ++ b) else []))
    else mkLogger lv (rev (entries lv (Comparison t l d i)) ++ b) p.
  Proof.
    intros F. cbn [told]. change (Prepare t :: flat_map told l ++ [Finish d i]) with ([Prepare t] ++ (flat_map told l ++ [Finish d i])).
    rewrite !run_app. change (run (mkLogger lv b p) [Prepare t]) with (mkLogger (S lv) (mkMessage false lv (Some t) :: b) p).
    rewrite (run_parts l F). cbn [Log_Model.run fold_left step]. unfold finish. cbn [level buffer printed pred].
    set (kids := flat_map (entries (S lv)) l).
    assert (M : mark text lv d (rev kids ++ mkMessage false lv (Some t) :: b) = map (hide d) (rev kids) ++ mkMessage true lv (Some t) :: b).
    { apply (mark_kids lv d (rev kids) b (mkMessage false lv (Some t))); [|reflexivity]. intros x J. unfold kids in J. eapply rev_kids. exact J. }
    assert (E : (if d || (i && extra) then (if i && extra then mark text lv d (rev kids ++ mkMessage false lv (Some t) :: b) else rev kids ++ mkMessage false lv (Some t) :: b)
                 else b) = rev (entries lv (Comparison t l d i)) ++ b).
    { cbn [entries]. fold kids. destruct (i && extra) eqn:FE.
      - rewrite orb_true_r, M. cbn [rev]. rewrite map_rev, <- app_assoc. reflexivity.
      - rewrite orb_false_r. destruct d; [|reflexivity]. cbn [rev]. rewrite <- app_assoc. reflexivity. }
    destruct (Nat.eqb lv 0) eqn:L0.
    - apply Nat.eqb_eq in L0. subst lv. destruct (d || (i && extra)); [|reflexivity]. rewrite <- E. reflexivity.
    - f_equal. rewrite <- E. destruct (d || (i && extra)) eqn:K; [reflexivity|].
      apply orb_false_iff in K as [-> FE]. rewrite FE. rewrite pop_kids; [reflexivity| |reflexivity]. intros x J. eapply rev_kids. exact J.
  Qed.
  Lemma inner c : Inner c.
  Proof.
    induction c as [t l d i IH] using comparison_ind'. intros lv b p. rewrite run_told by exact IH. reflexivity.
  Qed.

  (** ** The messages are those of the specification *)
  Definition shown (ms : list message) : list (nat * text) := flat_map (fun m => match label m with Some t => [(m_level m, t)] | None => [] end) ms.
  Lemma shown_app a b : shown (a ++ b) = shown a ++ shown b.
  Proof. apply flat_map_app. Qed.
  Lemma hide_true ms : map (hide true) ms = ms.
  Proof. rewrite <- (map_id ms) at 2. apply map_ext. reflexivity. Qed.
  Lemma hide_hide d ms : map (hide false) (map (hide d) ms) = map (hide false) ms.
  Proof.
    destruct d; [rewrite hide_true; reflexivity|]. rewrite map_map. apply map_ext. intros [[|] lv t]; reflexivity.
  Qed.
  Lemma entries_log : forall (c : comparison) lv,
    shown (entries lv c) = log_of extra false lv c /\ shown (map (hide false) (entries lv c)) = log_of extra true lv c.
  Proof.
    induction c as [t l d i IH] using comparison_ind'. intros lv.
    assert (K : shown (flat_map (entries (S lv)) l) = flat_map (log_of extra false (S lv)) l /\
                shown (map (hide false) (flat_map (entries (S lv)) l)) = flat_map (log_of extra true (S lv)) l).
    { induction IH as [|c l H F IHl]; [split; reflexivity|]. cbn [flat_map]. rewrite map_app, !shown_app.
      destruct (H (S lv)) as [-> ->], IHl as [-> ->]. split; reflexivity. }
    destruct K as [K1 K2]. cbn [entries log_of]. rewrite (andb_comm i extra).
    destruct (extra && i) eqn:FE.
    - rewrite !orb_true_r. cbn [negb andb]. cbv zeta. rewrite !orb_false_l, !orb_true_l. cbn [map]. rewrite hide_hide.
      change (hide false (mkMessage true lv (Some t))) with (mkMessage true lv (Some t)). unfold shown in *. cbn [flat_map label m_level app].
      destruct d; cbn [negb].
      + rewrite hide_true, K1, K2. split; reflexivity.
      + rewrite K2. split; reflexivity.
    - rewrite !orb_false_r. destruct d; [|split; reflexivity]. cbn [negb orb andb]. cbv zeta. cbn [map].
      change (hide false (mkMessage false lv (Some t))) with (@mkMessage text true lv None). unfold shown in *. cbn [flat_map label m_level app].
      rewrite K1, K2. split; reflexivity.
  Qed.

  Theorem told_one c p : run (mkLogger 0 [] p) (told c) = mkLogger 0 [] (p ++ log_of extra false 0 c).
  Proof.
    destruct c as [t l d i]. rewrite run_told by (apply Forall_forall; intros; apply inner). cbn [Nat.eqb]. f_equal. f_equal.
    destruct (d || (i && extra)) eqn:K.
    - unfold dump. rewrite app_nil_r, rev_involutive. apply (proj1 (entries_log (Comparison t l d i) 0)).
    - cbn [log_of]. rewrite (andb_comm extra i), K. reflexivity.
  Qed.

  (** ** Membership *)
  Lemma log_of_In : forall (c : comparison) only lv k (t : text), In (k, t) (log_of extra only lv c) <->
    exists above x, Within c above x /\ about x = t /\ k = (lv + length above)%nat /\ Logged extra above x /\
      (only = true -> extra = true /\ interesting x = true).
  Proof.
    induction c as [t0 l d i IH] using comparison_ind'. intros only lv k t. cbn [log_of].
    assert (B : forall a b : bool, a && b = true <-> a = true /\ b = true) by (intros; apply andb_true_iff).
    split.
    - destruct (d || (extra && i)) eqn:K; [|intros []]. intros I. apply in_app_iff in I as [I|I].
      + destruct (only && negb (extra && i)) eqn:O; [destruct I|]. destruct I as [E|[]]. injection E as <- <-.
        exists [], (Comparison t0 l d i). split; [constructor|]. split; [reflexivity|]. split; [cbn; lia|]. split.
        * split; [|constructor]. cbn. apply orb_true_iff in K. rewrite B in K. tauto.
        * intros ->. apply andb_false_iff in O as [O|O]; [discriminate O|]. apply negb_false_iff in O. cbn. apply B. exact O.
      + apply in_flat_map in I as (c & J & I). rewrite Forall_forall in IH. apply (IH c J) in I as (above & x & W & E & D & [L1 L2] & O).
        exists (Comparison t0 l d i :: above), x. split; [econstructor; [exact J|exact W]|]. split; [exact E|]. split; [cbn; lia|]. split.
        * split; [exact L1|]. constructor; [|exact L2]. cbn. destruct d; [left; reflexivity|right].
          rewrite orb_false_l in K. apply B in K. cbn in O. rewrite orb_true_r in O. specialize (O eq_refl). tauto.
        * intros ->. apply O. reflexivity.
    - intros (above & x & W & E & D & [L1 L2] & O). inversion W as [c|c p above' x' J W']; subst.
      + cbn in L1, O. cbn [about length]. rewrite Nat.add_0_r. rewrite <- B in L1. apply orb_true_iff in L1. rewrite L1. apply in_app_iff. left.
        destruct (only && negb (extra && i)) eqn:X; [|left; reflexivity].
        apply andb_true_iff in X as [-> X]. apply negb_true_iff in X. specialize (O eq_refl). apply B in O. congruence.
      + inversion L2 as [|? ? A L3]; subst. cbn in A, J.
        assert (K : d || (extra && i) = true) by (apply orb_true_iff; rewrite B; tauto). rewrite K. apply in_app_iff. right.
        apply in_flat_map. exists p. split; [exact J|]. rewrite Forall_forall in IH. apply (IH p J).
        exists above', x. split; [exact W'|]. split; [reflexivity|]. split; [cbn; lia|]. split; [split; assumption|].
        intros X. apply orb_true_iff in X as [->|X]; [apply O; reflexivity|]. destruct d; [discriminate X|]. destruct A as [A|A]; [discriminate A|tauto].
  Qed.
End Proofs.

(** ** C129 *)
(** What is printed for a sequence of comparisons that tell the logger their begin and end *)
Theorem C129_log : forall text extra (cs : list (comparison text)),
  run text extra (init text) (flat_map told cs) = mkLogger 0 [] (flat_map (log_of extra false 0) cs).
Proof.
  intros text extra cs. unfold init. change (flat_map (log_of extra false 0) cs) with ([] ++ flat_map (log_of extra false 0) cs).
  generalize (@nil (nat * text)) as p. induction cs as [|c cs IH]; intros p; cbn [flat_map]; [rewrite app_nil_r; reflexivity|].
  rewrite run_app, told_one, IH, app_assoc. reflexivity.
Qed.
(** A message is printed exactly if it is to be logged, indented by the comparisons around it. *)
Theorem C129_messages : forall text extra (cs : list (comparison text)) k t,
  In (k, t) (printed (run text extra (init text) (flat_map told cs))) <->
  exists c above x, In c cs /\ Within c above x /\ about x = t /\ k = length above /\ Logged extra above x.
Proof.
  intros text extra cs k t. rewrite C129_log. cbn [printed]. rewrite in_flat_map. split.
  - intros (c & I & H). apply log_of_In in H as (above & x & W & E & D & L & _). exists c, above, x. auto.
  - intros (c & above & x & I & W & E & D & L). exists c. split; [exact I|]. apply log_of_In. exists above, x. repeat split; auto; try apply L; discriminate.
Qed.
(** Without all debugging output: those that found a difference and are only in such. *)
Theorem C129_differences : forall text (cs : list (comparison text)) k t,
  In (k, t) (printed (run text false (init text) (flat_map told cs))) <->
  exists c above x, In c cs /\ Within c above x /\ about x = t /\ k = length above /\ differs x = true /\ Forall (fun a => differs a = true) above.
Proof.
  intros text cs k t. rewrite C129_messages. split; intros (c & above & x & I & W & E & D & L).
  - destruct L as [[L|[L _]] F]; [|discriminate L]. exists c, above, x. repeat split; auto. eapply Forall_impl; [|exact F].
    intros a [A|[A _]]; [exact A|discriminate A].
  - exists c, above, x. destruct L as [L F]. repeat split; auto. eapply Forall_impl; [|exact F]. auto.
Qed.
Definition ex_comparison : comparison string :=
  Comparison "function"%string
    [Comparison "instruction 1"%string [Comparison "type"%string [] false false] false true;
     Comparison "instruction 2"%string [Comparison "operand 1"%string [] false true; Comparison "operand 2"%string [] true true] true true;
     Comparison "pattern"%string [Comparison "candidate"%string [] true false; Comparison "skipped"%string [] false true] false true] true false.
Example C129_met :
  printed (run string false (init string) (told ex_comparison)) = [(0, "function"); (1, "instruction 2"); (2, "operand 2")]%string /\
  printed (run string true (init string) (told ex_comparison)) =
    [(0, "function"); (1, "instruction 1"); (1, "instruction 2"); (2, "operand 1"); (2, "operand 2"); (1, "pattern"); (2, "skipped")]%string.
Proof. split; reflexivity. Qed.

(** *** Comparisons that do not tell their end *)
(** cmpGEPs without StructAlignment (DifferentialFunctionComparator.cpp:86-90) and cmpGlobalValues of a
    pair that is assumed (1249-1253) return without it.  From then on nothing is printed, whatever follows. *)
Theorem C129_end_refuted : forall text extra t (d i : bool) gep (cs : list (comparison text)),
  printed (run text extra (init text) (Prepare t :: Prepare gep :: Finish d i :: flat_map told cs)) = [].
Proof.
  intros text extra t d i gep cs.
  assert (H : forall es s, (1 <= level s)%nat -> Forall (fun c => In c cs) es -> printed (run text extra s (flat_map told es)) = printed s).
  { induction es as [|c es IH]; intros s L F; [reflexivity|]. cbn [flat_map]. rewrite run_app.
    destruct s as [[|lv] b p]; [cbn in L; lia|]. rewrite inner. rewrite IH; [reflexivity|cbn; lia|inversion F; assumption]. }
  change (Prepare t :: Prepare gep :: Finish d i :: flat_map told cs) with ([Prepare t; Prepare gep; Finish d i] ++ flat_map told cs).
  rewrite run_app. rewrite H.
  - destruct d, i, extra; reflexivity.
  - destruct d, i, extra; cbn; lia.
  - apply Forall_forall. auto.
Qed.

Print Assumptions C129_log.
Print Assumptions C129_messages.
Print Assumptions C129_differences.
Print Assumptions C129_met.
Print Assumptions C129_end_refuted.
