(** Proofs about the functions that may be called (for Passes_Props). *)
From Coq Require Import String Ascii ZArith Arith Bool Lia Permutation List.
From Verif Require Import PyBase Source_Model Source_Spec Source_Proofs Funcomp_Model Funcomp_Spec Passes_Model Passes_Spec.
Import ListNotations.
Open Scope list_scope.
Open Scope nat_scope.

Fixpoint cval_ind2 (P : cval -> Prop) (H1 : forall f, P (KFun f)) (H2 : forall g, P (KVar g)) (H3 : forall c, P c -> P (KAlias c)) (H4 : forall c, P c -> P (KCast c))
  (H5 : forall ops, (forall c, In c ops -> P c) -> P (KOther ops)) (H6 : forall n, P (KPlain n)) (v : cval) : P v :=
  match v with
  | KFun f => H1 f | KVar g => H2 g | KAlias c => H3 c (cval_ind2 P H1 H2 H3 H4 H5 H6 c) | KCast c => H4 c (cval_ind2 P H1 H2 H3 H4 H5 H6 c)
  | KOther ops => H5 ops ((fix go l : forall c, In c l -> P c :=
      match l with [] => fun c I => match I with end | x :: l' => fun c I => match I with or_introl E => eq_ind x P (cval_ind2 P H1 H2 H3 H4 H5 H6 x) c E | or_intror J => go l' c J end end) ops)
  | KPlain n => H6 n
  end.
Lemma cval_eqb_iff a : forall b, cval_eqb a b = true <-> a = b.
Proof.
  induction a as [f|g|c IH|c IH|ops IH|n] using cval_ind2; intros [f'|g'|c'|c'|ops'|n']; cbn; try (split; [discriminate|congruence]).
  - rewrite String.eqb_eq. split; congruence.
  - rewrite String.eqb_eq. split; congruence.
  - rewrite IH. split; congruence.
  - rewrite IH. split; congruence.
  - revert ops'. induction ops as [|x l IHl]; intros [|y l']; try (split; [discriminate|congruence]); [split; reflexivity|].
    rewrite andb_true_iff, (IH x) by (left; reflexivity). rewrite IHl by (intros c I; apply IH; right; exact I). split; [intros [-> [= ->]]; reflexivity|intros [= -> ->]; split; reflexivity].
  - rewrite Nat.eqb_eq. split; congruence.
Qed.
Lemma seen_iff l v : seen l v = true <-> In v l.
Proof.
  unfold seen. rewrite existsb_exists. split; [intros (x & I & E); apply cval_eqb_iff in E; subst x; exact I|intros I; exists v; split; [exact I|apply cval_eqb_iff; reflexivity]].
Qed.

Section Called.
  Variable m : kmodule.
  Definition done (s : cstate) (t : task) : Prop := match t with Collect f => In f (fst s) | Process v => In v (snd s) end.
  Definition next (t : task) : list task :=
    match t with Collect f => flat_map instr_tasks (match dget (k_funs m) f with Some l => l | None => [] end) | Process v => value_tasks m v end.
  Definition add (t : task) (s : cstate) : cstate := match t with Collect f => (f :: fst s, snd s) | Process v => (fst s, v :: snd s) end.
  Definition steps (n : nat) (ts : list task) (o : option cstate) : option cstate :=
    fold_left (fun o t' => match o with Some s' => collect m n t' s' | None => None end) ts o.
  Definition is_done (s : cstate) (t : task) : bool := match t with Collect f => mem f (fst s) | Process v => seen (snd s) v end.
  Lemma is_done_iff s t : is_done s t = true <-> done s t.
  Proof. destruct t; cbn; [apply mem_In|apply seen_iff]. Qed.
  Lemma collect_eq n t s : collect m (S n) t s = if is_done s t then Some s else steps n (next t) (Some (add t s)).
  Proof. destruct t; reflexivity. Qed.
  Lemma add_done t s x : done (add t s) x <-> x = t \/ done s x.
  Proof.
    destruct t as [f|v], x as [g|w]; cbn; try (split; [intros H; right; exact H|intros [H|H]; [discriminate|exact H]]);
      (split; [intros [<-|H]; [left; reflexivity|right; exact H]|intros [[= ->]|H]; [left; reflexivity|right; exact H]]).
  Qed.
  Lemma done_dec s t : done s t \/ ~ done s t.
  Proof. destruct (is_done s t) eqn:E; [left; apply is_done_iff; exact E|right; intros H; apply is_done_iff in H; congruence]. Qed.
  Lemma steps_none n ts : steps n ts None = None.
  Proof. induction ts as [|t ts IH]; [reflexivity|exact IH]. Qed.
  Lemma steps_cons n t ts o : steps n (t :: ts) o = steps n ts (match o with Some s => collect m n t s | None => None end).
  Proof. reflexivity. Qed.
  (** What is new is closed under [next]. *)
  Definition grows (s s' : cstate) : Prop :=
    (forall x, done s x -> done s' x) /\ (forall x, done s' x -> ~ done s x -> forall y, In y (next x) -> done s' y).
  Lemma grows_refl s : grows s s. Proof. split; [auto|intros x D N; contradiction]. Qed.
  Lemma grows_trans a b c : grows a b -> grows b c -> grows a c.
  Proof.
    intros [A1 A2] [B1 B2]. split; [auto|]. intros x D N y I. destruct (done_dec b x) as [E|E]; [apply B1; apply (A2 x); assumption|apply (B2 x); assumption].
  Qed.
  Lemma collect_grows n : forall t s s', collect m n t s = Some s' -> grows s s' /\ done s' t.
  Proof.
    induction n as [|n IH]; intros t s s' E; [discriminate|]. rewrite collect_eq in E. destruct (is_done s t) eqn:D; [injection E as <-; split; [apply grows_refl|apply is_done_iff; exact D]|].
    assert (ST : forall ts a b, steps n ts (Some a) = Some b -> grows a b /\ forall x, In x ts -> done b x).
    { induction ts as [|x ts IHt]; intros a b Q; [injection Q as <-; split; [apply grows_refl|intros y []]|]. rewrite steps_cons in Q. destruct (collect m n x a) as [c|] eqn:C; [|rewrite steps_none in Q; discriminate].
      destruct (IH _ _ _ C) as [G1 D1], (IHt _ _ Q) as [G2 D2]. split; [apply (grows_trans _ c); assumption|]. intros y [<-|J]; [apply (proj1 G2); exact D1|apply D2; exact J]. }
    destruct (ST _ _ _ E) as [[G1 G2] H]. split.
    - split; [intros x X; apply G1; apply add_done; right; exact X|]. intros x X N y I. destruct (done_dec (add t s) x) as [W|W]; [|apply (G2 x); assumption]. apply add_done in W. destruct W as [->|W]; [apply H; exact I|contradiction].
    - apply G1. apply add_done. left. reflexivity.
  Qed.
  Inductive from (t : task) : task -> Prop :=
  | from_self : from t t
  | from_next x y : from t x -> In y (next x) -> from t y.
  Lemma from_trans a b c : from a b -> from b c -> from a c.
  Proof. intros F G. induction G; [exact F|]. apply (from_next _ x); assumption. Qed.
  Lemma collect_sound n : forall t s s', collect m n t s = Some s' -> forall x, done s' x -> done s x \/ from t x.
  Proof.
    induction n as [|n IH]; intros t s s' E x D; [discriminate|]. rewrite collect_eq in E. destruct (is_done s t) eqn:Q; [injection E as <-; left; exact D|].
    assert (ST : forall ts a b, steps n ts (Some a) = Some b -> forall y, done b y -> done a y \/ exists z, In z ts /\ from z y).
    { induction ts as [|z ts IHt]; intros a b W y Y; [injection W as <-; left; exact Y|]. rewrite steps_cons in W. destruct (collect m n z a) as [c|] eqn:C; [|rewrite steps_none in W; discriminate].
      destruct (IHt _ _ W y Y) as [K|(z' & I & K)]; [|right; exists z'; split; [right; exact I|exact K]]. destruct (IH _ _ _ C y K) as [K2|K2]; [left; exact K2|right; exists z; split; [left; reflexivity|exact K2]]. }
    destruct (ST _ _ _ E x D) as [K|(z & I & K)].
    - apply add_done in K. destruct K as [->|K]; [right; constructor|left; exact K].
    - right. apply (from_trans _ z); [|exact K]. apply (from_next _ t); [constructor|exact I].
  Qed.
  Lemma called_from n main l : called_functions m n main = Some l -> forall f, In f l <-> from (Collect main) (Collect f).
  Proof.
    unfold called_functions. intros E f. destruct (collect m n (Collect main) ([], [])) as [s|] eqn:C; [|discriminate]. injection E as <-. destruct (collect_grows _ _ _ _ C) as [[_ G] D]. split.
    - intros I. destruct (collect_sound _ _ _ _ C (Collect f) I) as [[]|K]. exact K.
    - intros F. enough (H : forall x, from (Collect main) x -> done s x) by exact (H _ F). intros x X. induction X as [|x y X IH I]; [exact D|]. apply (G x); [exact IH| |exact I]. destruct x; intros [].
  Qed.
  Lemma nodup_step n : forall t s s', collect m n t s = Some s' -> NoDup (fst s) -> NoDup (fst s').
  Proof.
    induction n as [|n IH]; intros t s s' E N; [discriminate|]. rewrite collect_eq in E. destruct (is_done s t) eqn:Q; [injection E as <-; exact N|].
    assert (ST : forall ts a b, steps n ts (Some a) = Some b -> NoDup (fst a) -> NoDup (fst b)).
    { induction ts as [|z ts IHt]; intros a b W A; [injection W as <-; exact A|]. rewrite steps_cons in W. destruct (collect m n z a) as [c|] eqn:C; [|rewrite steps_none in W; discriminate]. apply (IHt _ _ W). apply (IH _ _ _ C A). }
    apply (ST _ _ _ E). destruct t; cbn; [|exact N]. constructor; [|exact N]. intros I. cbn in Q. apply mem_In in I. congruence.
  Qed.

  (** ** What is reached from a value *)
  Lemma value_function_holds v f : value_function v = Some f -> holds m v f.
  Proof.
    induction v as [g|g|c IH|c IH|ops IH|n] using cval_ind2; cbn; try discriminate.
    - intros [= ->]. constructor.
    - intros E. constructor. apply IH. exact E.
    - destruct c; try discriminate. intros [= ->]. constructor. constructor.
  Qed.
  Lemma value_function_only v f : value_function v = Some f -> forall g, holds m v g -> g = f.
  Proof.
    induction v as [x|x|c IH|c IH|ops IH|n] using cval_ind2; cbn; try discriminate; intros E g H.
    - inversion H; congruence.
    - inversion H; subst. apply IH; assumption.
    - destruct c; try discriminate. inversion H; subst. inversion H1; congruence.
  Qed.
  (** From [Process v] exactly the functions in [v] are the first to be collected. *)
  Lemma holds_from v f : holds m v f -> from (Process v) (Collect f).
  Proof.
    intros H. induction H as [f|g c f E H IH|c f H IH|c f H IH|ops c f I H IH].
    - apply (from_next _ (Process (KFun f))); [constructor|left; reflexivity].
    - apply (from_trans _ (Process c)); [|exact IH]. apply (from_next _ (Process (KVar g))); [constructor|]. cbn. unfold value_tasks. cbn. rewrite E. left. reflexivity.
    - cbn. destruct (value_function (KAlias c)) as [f'|] eqn:E.
      + assert (f = f') by (apply (value_function_only _ _ E); constructor; exact H). subst f'. apply (from_next _ (Process (KAlias c))); [constructor|]. cbn [next]. unfold value_tasks. rewrite E. left. reflexivity.
      + apply (from_trans _ (Process c)); [|exact IH]. apply (from_next _ (Process (KAlias c))); [constructor|]. cbn [next]. unfold value_tasks. rewrite E. left. reflexivity.
    - destruct (value_function (KCast c)) as [f'|] eqn:E.
      + assert (f = f') by (apply (value_function_only _ _ E); constructor; exact H). subst f'. apply (from_next _ (Process (KCast c))); [constructor|]. cbn [next]. unfold value_tasks. rewrite E. left. reflexivity.
      + apply (from_trans _ (Process c)); [|exact IH]. apply (from_next _ (Process (KCast c))); [constructor|]. cbn [next]. unfold value_tasks. rewrite E. left. reflexivity.
    - apply (from_trans _ (Process c)); [|exact IH]. apply (from_next _ (Process (KOther ops))); [constructor|]. cbn [next]. unfold value_tasks. cbn. apply in_map. exact I.
  Qed.
  Hypothesis whole : callees_operands m.
  Lemma may_call_from main f : may_call m main f -> from (Collect main) (Collect f).
  Proof.
    intros H. induction H as [|g l i v f H IH E I J K]; [constructor|]. apply (from_trans _ (Process v)); [|apply holds_from; exact K]. apply (from_next _ (Collect g)); [exact IH|]. cbn [next]. rewrite E.
    apply in_flat_map. exists i. split; [exact I|]. unfold instr_tasks. apply in_app_iff. right. apply in_map. exact J.
  Qed.
  (** Values that come from operands of reached functions. *)
  Definition reached (main : string) (t : task) : Prop :=
    match t with
    | Collect f => may_call m main f
    | Process v => exists g l i w, may_call m main g /\ dget (k_funs m) g = Some l /\ In i l /\ In w (snd i) /\ forall f, holds m v f -> holds m w f
    end.
  Lemma from_reached main t : from (Collect main) t -> reached main t.
  Proof.
    intros H. induction H as [|x y H IH I]; [constructor|]. destruct x as [g|v]; cbn [next] in I; cbn [reached] in IH.
    - destruct (dget (k_funs m) g) as [l|] eqn:E; [|contradiction]. apply in_flat_map in I. destruct I as (i & Ii & I). unfold instr_tasks in I. apply in_app_iff in I. destruct I as [I|I].
      + destruct (fst i) as [c|] eqn:C; [|contradiction]. destruct (value_function c) as [f|] eqn:F; [|contradiction]. destruct I as [<-|[]]. cbn. apply (may_call_step m main g l i c); try assumption; [|apply value_function_holds; exact F].
        apply (whole g l); [apply dget_In; exact E|exact Ii|exact C].
      + apply in_map_iff in I. destruct I as (v & <- & J). cbn. exists g, l, i, v. tauto.
    - destruct IH as (g & l & i & w & G & E & J & K & H2). unfold value_tasks in I. destruct (value_function v) as [f|] eqn:F.
      + destruct I as [<-|[]]. cbn. apply (may_call_step m main g l i w); try assumption. apply H2. apply value_function_holds. exact F.
      + destruct v as [f|x|c|c|ops|n]; try contradiction.
        * destruct (dget (k_vars m) x) as [[[] [c|]]|] eqn:Q; try contradiction. destruct I as [<-|[]]. cbn. exists g, l, i, w. repeat (split; [assumption|]). intros f' Z. apply H2. apply (holds_variable m x c); assumption.
        * destruct I as [<-|[]]. cbn. exists g, l, i, w. repeat (split; [assumption|]). intros f' Z. apply H2. constructor. exact Z.
        * destruct I as [<-|[]]. cbn. exists g, l, i, w. repeat (split; [assumption|]). intros f' Z. apply H2. constructor. exact Z.
        * apply in_map_iff in I. destruct I as (c & <- & Ic). cbn. exists g, l, i, w. repeat (split; [assumption|]). intros f' Z. apply H2. apply (holds_other m ops c); assumption.
  Qed.
  Lemma called_iff n main l : called_functions m n main = Some l -> NoDup l /\ forall f, In f l <-> may_call m main f.
  Proof.
    intros E. split.
    - unfold called_functions in E. destruct (collect m n (Collect main) ([], [])) as [s|] eqn:C; [|discriminate]. injection E as <-. apply (nodup_step _ _ _ _ C). constructor.
    - intros f. rewrite (called_from _ _ _ E). split; [apply (from_reached main)|apply may_call_from].
  Qed.
End Called.

(** ** Termination *)
Section Ends.
  Variable m : kmodule.
  Fixpoint parts (v : cval) : list cval :=
    v :: match v with KAlias c => parts c | KCast c => parts c | KOther ops => (fix go l := match l with [] => [] | x :: l' => parts x ++ go l' end) ops | _ => [] end.
  Lemma parts_other ops : parts (KOther ops) = KOther ops :: flat_map parts ops.
  Proof. reflexivity. Qed.
  Lemma parts_self v : In v (parts v). Proof. destruct v; left; reflexivity. Qed.
  Lemma parts_trans v : forall w x, In w (parts v) -> In x (parts w) -> In x (parts v).
  Proof.
    induction v as [f|g|c IH|c IH|ops IH|n] using cval_ind2; intros w x I J.
    1,2,6: destruct I as [<-|[]]; exact J.
    - destruct I as [<-|I]; [exact J|]. right. apply (IH w); assumption.
    - destruct I as [<-|I]; [exact J|]. right. apply (IH w); assumption.
    - rewrite parts_other in *. destruct I as [<-|I]; [exact J|]. right. apply in_flat_map in I. destruct I as (c & Ic & I). apply in_flat_map. exists c. split; [exact Ic|]. apply (IH c Ic w); assumption.
  Qed.
  Definition values : list cval :=
    flat_map parts (flat_map (fun gl => flat_map (fun i : option cval * list cval => match fst i with Some c => [c] | None => [] end ++ snd i) (snd gl)) (k_funs m) ++
                    flat_map (fun gv => match snd (snd gv) with Some c => [c] | None => [] end) (k_vars m)).
  Definition funs_in (v : cval) : list string := match v with KFun f => [f] | _ => [] end.
  Definition universe (main : string) : list task := Collect main :: map Collect (flat_map funs_in values) ++ map Process values.
  Lemma value_function_parts v f : value_function v = Some f -> In (KFun f) (parts v).
  Proof.
    induction v as [g|g|c IH|c IH|ops IH|n] using cval_ind2; cbn [value_function]; try discriminate.
    - intros [= ->]. left. reflexivity.
    - intros E. right. apply IH. exact E.
    - destruct c; try discriminate. intros [= ->]. right. left. reflexivity.
  Qed.
  Lemma values_parts v w : In v values -> In w (parts v) -> In w values.
  Proof. unfold values. intros I J. apply in_flat_map in I. destruct I as (x & Ix & I). apply in_flat_map. exists x. split; [exact Ix|]. apply (parts_trans _ v); assumption. Qed.
  Lemma values_fun main v f : In v values -> value_function v = Some f -> In (Collect f) (universe main).
  Proof.
    intros I E. right. apply in_app_iff. left. apply in_map. apply in_flat_map. exists (KFun f). split; [|left; reflexivity]. apply (values_parts v); [exact I|]. apply value_function_parts. exact E.
  Qed.
  Lemma values_in main v : In v values -> In (Process v) (universe main).
  Proof. intros I. right. apply in_app_iff. right. apply in_map. exact I. Qed.
  Lemma universe_closed main t y : In t (universe main) -> In y (next m t) -> In y (universe main).
  Proof.
    intros I J. destruct t as [g|v]; cbn [next] in J.
    - destruct (dget (k_funs m) g) as [l|] eqn:E; [|contradiction]. apply dget_In in E. apply in_flat_map in J. destruct J as (i & Ii & J).
      assert (OPS : forall c, In c (match fst i with Some c => [c] | None => [] end ++ snd i) -> In c values).
      { intros c Ic. unfold values. apply in_flat_map. exists c. split; [|apply parts_self]. apply in_app_iff. left. apply in_flat_map. exists (g, l). split; [exact E|]. apply in_flat_map. exists i. tauto. }
      unfold instr_tasks in J. apply in_app_iff in J. destruct J as [J|J].
      + destruct (fst i) as [c|]; [|contradiction]. destruct (value_function c) as [f|] eqn:F; [|contradiction]. destruct J as [<-|[]]. apply (values_fun main c); [|exact F]. apply OPS. left. reflexivity.
      + apply in_map_iff in J. destruct J as (v & <- & J). apply values_in. apply OPS. apply in_app_iff. right. exact J.
    - assert (IV : In v values). { destruct I as [I|I]; [discriminate|]. apply in_app_iff in I. destruct I as [I|I]; apply in_map_iff in I; destruct I as (x & Q & I); [discriminate|injection Q as <-; exact I]. }
      unfold value_tasks in J. destruct (value_function v) as [f|] eqn:F; [destruct J as [<-|[]]; apply (values_fun main v); assumption|].
      destruct v as [f|x|c|c|ops|n]; try contradiction.
      + destruct (dget (k_vars m) x) as [[[] [c|]]|] eqn:Q; try contradiction. destruct J as [<-|[]]. apply values_in. unfold values. apply in_flat_map. exists c. split; [|apply parts_self]. apply in_app_iff. right.
        apply in_flat_map. apply dget_In in Q. eexists. split; [exact Q|]. left. reflexivity.
      + destruct J as [<-|[]]. apply values_in. apply (values_parts (KAlias c)); [exact IV|]. right. apply parts_self.
      + destruct J as [<-|[]]. apply values_in. apply (values_parts (KCast c)); [exact IV|]. right. apply parts_self.
      + apply in_map_iff in J. destruct J as (c & <- & J). apply values_in. apply (values_parts (KOther ops)); [exact IV|]. rewrite parts_other. right. apply in_flat_map. exists c. split; [exact J|apply parts_self].
  Qed.
  Definition missing (U : list task) (s : cstate) : nat := length (filter (fun t => negb (is_done s t)) U).
  Lemma missing_le U s s' : (forall x, done s x -> done s' x) -> missing U s' <= missing U s.
  Proof.
    intros H. unfold missing. induction U as [|t U IH]; [apply Nat.le_refl|]. cbn. destruct (is_done s t) eqn:E; cbn.
    - apply is_done_iff, H, is_done_iff in E. rewrite E. exact IH.
    - destruct (is_done s' t); cbn; lia.
  Qed.
  Lemma missing_add U t s : In t U -> is_done s t = false -> missing U (add t s) < missing U s.
  Proof.
    intros I E. unfold missing. induction U as [|x U IH]; [contradiction|].
    assert (A : missing U (add t s) <= missing U s) by (apply missing_le; intros y D; apply add_done; right; exact D). unfold missing in A. cbn. destruct I as [->|I].
    - assert (D : is_done (add t s) t = true) by (apply is_done_iff, add_done; left; reflexivity). rewrite D, E. cbn. lia.
    - specialize (IH I). destruct (is_done s x) eqn:Q; cbn.
      + assert (D : is_done (add t s) x = true) by (apply is_done_iff, add_done; right; apply is_done_iff; exact Q). rewrite D. cbn. exact IH.
      + destruct (is_done (add t s) x); cbn; lia.
  Qed.
  Lemma collect_ends U : (forall t y, In t U -> In y (next m t) -> In y U) -> forall n t s, In t U -> missing U s < n -> exists s', collect m n t s = Some s'.
  Proof.
    intros C. induction n as [|n IH]; intros t s I L; [lia|]. rewrite collect_eq. destruct (is_done s t) eqn:E; [eauto|]. pose proof (missing_add U t s I E) as A.
    enough (ST : forall ts a, (forall x, In x ts -> In x U) -> missing U a < n -> exists b, steps m n ts (Some a) = Some b) by (apply ST; [intros x J; apply (C t); assumption|lia]).
    induction ts as [|x ts IHt]; intros a S Q; [cbn; eauto|]. rewrite steps_cons. destruct (IH x a) as [c W]; [apply S; left; reflexivity|exact Q|]. rewrite W. apply IHt; [intros y J; apply S; right; exact J|].
    apply collect_grows in W. destruct W as [[W _] _]. pose proof (missing_le U a c W). lia.
  Qed.
  Lemma called_ends main : exists n, forall k, n <= k -> exists l, called_functions m k main = Some l.
  Proof.
    exists (S (length (universe main))). intros k L. unfold called_functions.
    destruct (collect_ends (universe main) (fun t y => universe_closed main t y) k (Collect main) ([], [])) as [s ->]; [left; reflexivity| |eauto].
    unfold missing. assert (B : forall p (l : list task), length (filter p l) <= length l) by (intros p l; induction l as [|x l IH]; [apply Nat.le_refl|]; cbn; destruct (p x); cbn; lia).
    specialize (B (fun t => negb (is_done ([], []) t)) (universe main)). lia.
  Qed.
End Ends.
