(** * Proofs about the semantic tool *)
From Coq Require Import String ZArith Arith Bool Lia List.
From Verif Require Import PyBase Result_Model Driver_Model Compare_Model Compare_Spec Compare_Proofs Llreve_Model Llreve_Spec.
Import ListNotations.
Open Scope list_scope.

Lemma strip_word line w : In w ["sat"; "unsat"; "unknown"]%string -> strip line = w <-> Word line w.
Proof.
  intros W. split.
  - intros E. destruct (lstrip_spec line) as (a & E1 & B1 & _). destruct (rstrip_spec (lstrip line)) as (b & E2 & B2 & _). exists a, b. split; [|auto]. unfold strip in E. rewrite E in E2. rewrite <- E2. exact E1.
  - intros (a & b & -> & A & B). unfold strip. rewrite (lstrip_blank a _ A).
    destruct W as [<-|[<-|[<-|[]]]]; match goal with |- rstrip (lstrip (?w ++ b)) = _ => change (lstrip (w ++ b)) with (w ++ b)%string end; rewrite (rstrip_app_blank _ b B); reflexivity.
Qed.
Lemma means_line k line : (exists j, Means line j) -> Means line (z3_line k (strip line)).
Proof.
  unfold Means, z3_line. intros (j & H). rewrite <- !(strip_word line) in * by (cbn; auto).
  destruct (String.eqb_spec (strip line) "sat"); [auto|]. destruct (String.eqb_spec (strip line) "unsat"); [auto|]. destruct (String.eqb_spec (strip line) "unknown"); [auto|]. tauto.
Qed.
Lemma means_other k line : ~ (exists j, Means line j) -> z3_line k (strip line) = k.
Proof.
  unfold Means, z3_line. intros H. destruct (String.eqb_spec (strip line) "sat") as [E|]; [destruct H; eexists; left; split; [apply strip_word; cbn; auto|reflexivity]|].
  destruct (String.eqb_spec (strip line) "unsat") as [E|]; [destruct H; eexists; right; left; split; [apply strip_word; cbn; auto|reflexivity]|].
  destruct (String.eqb_spec (strip line) "unknown") as [E|]; [destruct H; eexists; right; right; split; [apply strip_word; cbn; auto|reflexivity]|]. reflexivity.
Qed.
Lemma means_dec line : (exists j, Means line j) \/ ~ (exists j, Means line j).
Proof.
  unfold Means. destruct (string_dec (strip line) "sat") as [E|N1]; [left; eexists; left; split; [apply strip_word; cbn; auto|reflexivity]|].
  destruct (string_dec (strip line) "unsat") as [E|N2]; [left; eexists; right; left; split; [apply strip_word; cbn; auto|reflexivity]|].
  destruct (string_dec (strip line) "unknown") as [E|N3]; [left; eexists; right; right; split; [apply strip_word; cbn; auto|reflexivity]|].
  right. intros (j & H). rewrite <- !(strip_word line) in H by (cbn; auto). tauto.
Qed.
Lemma answer ls : Answer ls (fold_left z3_line (map strip ls) ERROR).
Proof.
  induction ls as [|l ls IH] using rev_ind; [right; split; [reflexivity|intros ? ? []]|]. rewrite map_app, fold_left_app. cbn [map fold_left].
  destruct (means_dec l) as [H|H].
  - left. exists ls, l, []. split; [reflexivity|]. split; [apply means_line; exact H|intros ? ? []].
  - rewrite (means_other _ _ H). destruct IH as [(a & m & b & -> & M & N)|(E & N)].
    + left. exists a, m, (b ++ [l]). split; [rewrite <- app_assoc; reflexivity|]. split; [exact M|]. intros x j I Q. apply in_app_iff in I as [I|[<-|[]]]; [exact (N x j I Q)|apply H; eauto].
    + right. split; [exact E|]. intros x j I Q. apply in_app_iff in I as [I|[<-|[]]]; [exact (N x j I Q)|apply H; eauto].
Qed.
Lemma verdict ls code : Verdict ls code (llreve_verdict (map strip ls) code true).
Proof. unfold Verdict, llreve_verdict. destruct (Z.eqb_spec code 0) as [->|N]; [right; split; [reflexivity|apply answer]|left; auto]. Qed.

(** ** Runs *)
Fixpoint lines (t : list action) : list string := match t with [] => [] | Read :: t' => lines t' | Write l :: t' => l :: lines t' end.
Lemma lines_output t : Output t (lines t).
Proof. induction t as [|[|l] t IH]; cbn; constructor; exact IH. Qed.
Lemma output_lines t ls : Output t ls -> ls = lines t.
Proof. induction 1; cbn; congruence. Qed.
Lemma lines_app a b : lines (a ++ b) = lines a ++ lines b.
Proof. induction a as [|[|l] a IH]; cbn; [reflexivity|exact IH|rewrite IH; reflexivity]. Qed.
Lemma total_app a b : total (a ++ b) = total a + total b.
Proof. unfold total. induction a as [|x a IH]; cbn; [reflexivity|]. rewrite IH. lia. Qed.
Lemma size_app a b : size (a ++ b) = size a + size b.
Proof. unfold size. rewrite map_app. apply total_app. Qed.
Lemma fits_size ls n : Fits ls n -> size ls <= n.
Proof. unfold size. induction 1 as [n|l ls n _ IH]; cbn; [lia|]. unfold total in IH. lia. Qed.
Lemma size_fits ls n : size ls <= n -> Fits ls n.
Proof.
  unfold size. revert n. induction ls as [|l ls IH]; intros n H; cbn in H; [constructor|]. unfold total in IH. replace n with (String.length l + (n - String.length l)) by lia. constructor. apply IH. lia.
Qed.
Section Runs.
  Context (room : nat) (code : Z) (writes : list nat) (todo : list action).
  Definition Finished (k : kind) : Prop := Verdict (lines todo) code k /\ size (lines todo) <= room.
  Definition Inv (s : system) : Prop :=
    match parent s with
    | Done k => (fired s = true /\ k = TIMEOUT) \/ (fired s = false /\ Finished k)
    | Checking k => fired s = false -> Finished k
    | Waiting => fired s = false -> size (out s) <= room /\
        match z3 s with Running rest => exists d, todo = d ++ rest /\ out s = lines d | Exited c => c = code /\ out s = lines todo end
    end.
  Lemma inv_start : Inv (start writes todo).
  Proof. cbn. intros _. split; [apply Nat.le_0_l|]. exists []. auto. Qed.
  Definition ended (s : system) : Prop := parent s <> Waiting -> exists c, z3 s = Exited c.
  Lemma inv_step s s' : step room code s s' -> ended s -> Inv s -> ended s' /\ Inv s'.
  Proof.
    intros H. destruct H as [c rest b z o t p L|b z o t p|l c b r o t p|r o t p|l b line r o t p L|l b o t p|l b z o p N|l b c o t|l b z o t k]; unfold ended, Inv; cbn [parent z3 out fired]; intros E I.
    - auto.
    - auto.
    - split; [intros P; destruct (E P); discriminate|]. destruct p as [|k|k]; [|exact I|exact I]. intros T. destruct (I T) as (S & d & -> & Q). split; [exact S|]. exists (d ++ [Read]). split; [rewrite <- app_assoc; reflexivity|]. rewrite lines_app. cbn. rewrite app_nil_r. exact Q.
    - split; [intros P; destruct (E P); discriminate|]. destruct p as [|k|k]; [|exact I|exact I]. intros T. destruct (I T) as (S & d & -> & Q). split; [exact S|]. exists (d ++ [Read]). split; [rewrite <- app_assoc; reflexivity|]. rewrite lines_app. cbn. rewrite app_nil_r. exact Q.
    - split; [intros P; destruct (E P); discriminate|]. destruct p as [|k|k]; [|exact I|exact I]. intros T. destruct (I T) as (S & d & -> & Q). split; [rewrite size_app; cbn; lia|]. exists (d ++ [Write line]). split; [rewrite <- app_assoc; reflexivity|]. rewrite lines_app, <- Q. reflexivity.
    - split; [eauto|]. destruct p as [|k|k]; [|exact I|exact I]. intros T. destruct (I T) as (S & d & -> & Q). split; [exact S|]. split; [reflexivity|]. rewrite app_nil_r. exact Q.
    - split; [intros P; destruct (E P) as (c & ->); eauto|]. destruct p as [|k|k]; [intros T; discriminate|intros T; discriminate|]. destruct (N k eq_refl).
    - split; [eauto|]. intros T. destruct (I T) as (S & -> & ->). split; [apply verdict|exact S].
    - split; [intros _; apply E; discriminate|]. destruct t; [left; auto|right; auto].
  Qed.
  Lemma inv_steps n s s' : steps room code n s s' -> ended s -> Inv s -> Inv s'.
  Proof. induction 1 as [s|n s s1 s2 H _ IH]; intros E I; [exact I|]. destruct (inv_step _ _ H E I). auto. Qed.
  (** The number of steps is bounded. *)
  Definition measure (s : system) : nat :=
    match llreve s with Some l => S (length l) | None => 0 end + match z3 s with Running t => S (length t) | Exited _ => 0 end +
    (if fired s then 0 else 1) + match parent s with Waiting => 2 | Checking _ => 1 | Done _ => 0 end.
  Lemma measure_step s s' : step room code s s' -> measure s' < measure s.
  Proof. intros H. destruct H as [c rest b z o t p L|b z o t p|l c b r o t p|r o t p|l b line r o t p L|l b o t p|l b z o p N|l b c o t|l b z o t k]; unfold measure; cbn; try lia. destruct z; destruct l; cbn; lia. Qed.
  Lemma measure_steps n s s' : steps room code n s s' -> n + measure s' <= measure s.
  Proof. induction 1 as [s|n s s1 s2 H _ IH]; [lia|]. apply measure_step in H. lia. Qed.
  Lemma stuck_done s : ended s -> (parent s = Waiting -> fired s = true -> exists c, z3 s = Exited c) -> Stuck room code s -> exists k, parent s = Done k.
  Proof.
    intros E F S. destruct s as [l b z o t p]. destruct p as [|k|k]; [|destruct (S _ (Parent_ends room code l b z o t k))|exists k; reflexivity].
    destruct t.
    - destruct (F eq_refl eq_refl) as (c & Q). cbn in Q. subst z. destruct (S _ (Parent_reads room code l b c o true)).
    - exfalso. eapply S. apply Timer_fires. intros k Q. discriminate.
  Qed.
  Lemma fired_step s s' : step room code s s' -> (fired s = true -> exists c, z3 s = Exited c) -> (fired s' = true -> exists c, z3 s' = Exited c).
  Proof.
    intros H. destruct H as [c rest b z o t p L|b z o t p|l c b r o t p|r o t p|l b line r o t p L|l b o t p|l b z o p N|l b c o t|l b z o t k]; cbn; intros F T; try (destruct (F T); discriminate); eauto. destruct z; eauto.
  Qed.
  Lemma fired_steps n s s' : steps room code n s s' -> (fired s = true -> exists c, z3 s = Exited c) -> (fired s' = true -> exists c, z3 s' = Exited c).
  Proof. induction 1 as [s|n s s1 s2 H _ IH]; intros E; [exact E|]. apply IH. eapply fired_step; eassumption. Qed.
  Lemma ended_steps n s s' : steps room code n s s' -> ended s -> Inv s -> ended s'.
  Proof. induction 1 as [s|n s s1 s2 H _ IH]; intros E I; [exact E|]. destruct (inv_step _ _ H E I). auto. Qed.
End Runs.
