(** * Proofs about the lifetime of modules behind Python objects *)
From Coq Require Import Arith Bool Lia List.
From Verif Require Import Handles_Model Handles_Spec.
Import ListNotations.
Open Scope list_scope.

Lemma mem_in x l : mem x l = true <-> In x l.
Proof.
  unfold mem. rewrite existsb_exists. split.
  - intros [y [H1 H2]]. apply Nat.eqb_eq in H2. subst; auto.
  - intros H. exists x. split; auto. apply Nat.eqb_refl.
Qed.

Lemma mem_out x l : mem x l = false <-> ~ In x l.
Proof. rewrite <- mem_in. destruct (mem x l); split; congruence. Qed.

Lemma upd_same {A} (f : nat -> A) k v : upd f k v k = v.
Proof. unfold upd. rewrite Nat.eqb_refl. reflexivity. Qed.

Lemma upd_other {A} (f : nat -> A) k v x : x <> k -> upd f k v x = f x.
Proof. intros H. unfold upd. apply Nat.eqb_neq in H. rewrite H. reflexivity. Qed.

Definition good1 (x : item) (t : list item) : Prop :=
  match x with
  | Born o n => (forall n', ~ In (Born o n') t) /\ (forall o', ~ In (Born o' n) t) /\ (forall b, ~ In (Freed n b) t)
  | Access _ m got => exists n, got = Some n /\ stands t m n
  | FunAccess _ m got f p => exists n, got = Some n /\ stands t m n /\ (p = true \/ In (Erase n f) t)
  | Erase _ _ => True
  | Freed n b => b = true /\ (forall b', ~ In (Freed n b') t) /\ exists o, In (Born o n) t
  end.

Fixpoint good (l : list item) : Prop := match l with [] => True | x :: t => good1 x t /\ good t end.

Record Inv (s : state) : Prop := mkInv {
  i_next : forall o x, objs s o = Some x -> o < next s;
  i_vars : forall o, In o (vars s) -> exists x, objs s o = Some x;
  i_null : forall o a, objs s o = Some (PMod a) -> In o (vars s) -> a <> 0;
  i_fun : forall o m n f, objs s o = Some (PFun m n f) ->
      exists a fs, objs s m = Some (PMod a) /\ a <> 0 /\ m < o /\ modules s a = Some n /\ live s n = Some fs /\
                   (In f fs \/ In (Erase n f) (log s));
  i_tab : forall o m p, objs s o = Some (PTab m p) ->
      exists a, objs s m = Some (PMod a) /\ a <> 0 /\ m < o /\ tables s p = Some a;
  i_mod : forall o a, objs s o = Some (PMod a) -> a <> 0 ->
      exists n fs, modules s a = Some n /\ live s n = Some fs /\ contexts s a = true /\ In (Born o n) (log s);
  i_one : forall o o' a, objs s o = Some (PMod a) -> objs s o' = Some (PMod a) -> a <> 0 -> o = o';
  i_onetab : forall o o' m m' p, objs s o = Some (PTab m p) -> objs s o' = Some (PTab m' p) -> o = o';
  i_has : forall a n, modules s a = Some n -> a <> 0 /\ n < loads s /\ exists o, objs s o = Some (PMod a);
  i_tabs : forall p a, tables s p = Some a -> exists o m, objs s o = Some (PTab m p);
  i_ctx : forall a, contexts s a = true -> exists o, objs s o = Some (PMod a);
  i_inj : forall a a' n, modules s a = Some n -> modules s a' = Some n -> a = a';
  i_live : forall n fs, live s n = Some fs -> exists a, modules s a = Some n;
  i_born : forall o n, In (Born o n) (log s) ->
      o < next s /\ n < loads s /\
      ((exists a, objs s o = Some (PMod a) /\ a <> 0 /\ modules s a = Some n) \/ (objs s o = None /\ exists b, In (Freed n b) (log s)));
  i_freed : forall n b, In (Freed n b) (log s) -> live s n = None /\ n < loads s;
  i_good : good (log s) }.

Lemma inv_init : Inv init.
Proof. constructor; simpl; try discriminate; try tauto; intros; try tauto; discriminate. Qed.

Ltac inv_all H := destruct H as [Hnext Hvars Hnull Hfun Htab Hmod Hone Honetab Hhas Htabs Hctx Hinj Hlive Hborn Hfreed Hgood].

Definition is_access (x : item) : Prop :=
  match x with Access _ _ _ | FunAccess _ _ _ _ _ => True | _ => False end.

Lemma inv_note x s : Inv s -> is_access x -> good1 x (log s) -> Inv (note x s).
Proof.
  intros H Hx Hg. inv_all H. constructor; simpl; auto.
  - intros o m n f Ho. destruct (Hfun o m n f Ho) as (a & fs & ? & ? & ? & ? & ? & [?|?]); exists a, fs; auto 10.
  - intros o a Ho Ha. destruct (Hmod o a Ho Ha) as (n & fs & ? & ? & ? & ?). exists n, fs; auto.
  - intros o n [->|Ho]; [destruct Hx|]. destruct (Hborn o n Ho) as (? & ? & [?|[? [b ?]]]); eauto 10.
  - intros n b [->|Ho]; [destruct Hx|]. eauto.
Qed.

Lemma inv_arrays k s : Inv s -> Inv (set_arrays k s).
Proof. intros H. inv_all H. constructor; simpl; auto. Qed.

Lemma inv_vars v s : Inv s ->
  (forall o, In o v -> In o (vars s) \/ exists a, objs s o = Some (PMod a) /\ a <> 0) -> Inv (set_vars v s).
Proof.
  intros H Hv. inv_all H. constructor; simpl; auto.
  - intros o Ho. destruct (Hv o Ho) as [?|(a & ? & ?)]; eauto.
  - intros o a Ho Hi. destruct (Hv o Hi) as [?|(a' & ? & ?)]; [eauto|congruence].
Qed.

Lemma inv_new_fun m n f a fs s : Inv s -> objs s m = Some (PMod a) -> a <> 0 -> modules s a = Some n ->
  live s n = Some fs -> In f fs -> Inv (new_obj (PFun m n f) s).
Proof.
  intros H Hm Ha Hn Hl Hf. inv_all H.
  assert (Hold : forall o x, objs s o = Some x -> upd (objs s) (next s) (Some (PFun m n f)) o = Some x).
  { intros o x Ho. rewrite upd_other; auto. pose proof (Hnext o x Ho). lia. }
  assert (Hback : forall o x, upd (objs s) (next s) (Some (PFun m n f)) o = Some x ->
                  (o = next s /\ x = PFun m n f) \/ objs s o = Some x).
  { intros o x. unfold upd. destruct (Nat.eqb_spec o (next s)); [intros [=]; subst; auto | auto]. }
  constructor; simpl; auto.
  - intros o x Ho. destruct (Hback o x Ho) as [[-> ->]|Ho']; [lia|]. pose proof (Hnext o x Ho'). lia.
  - intros o [<-|Ho]; [exists (PFun m n f); apply upd_same|]. destruct (Hvars o Ho) as [x Hx]. eauto.
  - intros o a' Ho Hi. destruct (Hback _ _ Ho) as [[-> [=]]|Ho']. destruct Hi as [<-|Hi]; eauto.
    pose proof (Hnext _ _ Ho'). lia.
  - intros o m' n' f' Ho. destruct (Hback _ _ Ho) as [[-> [= -> -> ->]]|Ho'].
    + exists a, fs. pose proof (Hnext _ _ Hm). auto 10.
    + destruct (Hfun _ _ _ _ Ho') as (a' & fs' & ? & ? & ? & ? & ? & ?). exists a', fs'. auto 10.
  - intros o m' p Ho. destruct (Hback _ _ Ho) as [[-> [=]]|Ho'].
    destruct (Htab _ _ _ Ho') as (a' & ? & ? & ? & ?). exists a'; auto 10.
  - intros o a' Ho Ha'. destruct (Hback _ _ Ho) as [[-> [=]]|Ho']. eauto.
  - intros o o' a' Ho Ho2 Ha'. destruct (Hback _ _ Ho) as [[-> [=]]|Ho'].
    destruct (Hback _ _ Ho2) as [[-> [=]]|Ho2']. eauto.
  - intros o o' m1 m2 p Ho Ho2. destruct (Hback _ _ Ho) as [[-> [=]]|Ho'].
    destruct (Hback _ _ Ho2) as [[-> [=]]|Ho2']. eauto.
  - intros a' n' Hh. destruct (Hhas _ _ Hh) as (? & ? & o & ?). eauto 6.
  - intros p a' Hp. destruct (Htabs _ _ Hp) as (o & m' & ?). eauto.
  - intros a' Hc. destruct (Hctx _ Hc) as (o & ?). eauto.
  - intros o n' Hb. destruct (Hborn _ _ Hb) as (? & ? & [(a' & ? & ? & ?)|[? ?]]); split; auto; split; auto.
    + left. exists a'. auto.
    + right. split; auto. rewrite upd_other by lia. auto.
Qed.

Lemma inv_give m a n gs s : Inv s -> objs s m = Some (PMod a) -> a <> 0 -> modules s a = Some n ->
  Inv (give m (Some n) gs s).
Proof.
  intros H Hm Ha Hn. unfold give.
  assert (Hl : exists fs, live s n = Some fs).
  { destruct (i_mod s H m a Hm Ha) as (n' & fs & E & ? & _). rewrite Hn in E. injection E as <-. eauto. }
  destruct Hl as [fs Hl]. simpl. rewrite Hl.
  assert (Hall : forall g, In g (filter (fun g => mem g fs) gs) -> In g fs).
  { intros g Hg. apply filter_In in Hg. apply mem_in. tauto. }
  revert s H Hm Hn Hl. induction (filter (fun g => mem g fs) gs) as [|g r IH]; intros s H Hm Hn Hl; simpl; auto.
  apply IH.
  - intros g' Hg'. apply Hall. right; auto.
  - apply (inv_new_fun m n g a fs); auto. apply Hall. left; auto.
  - simpl. rewrite upd_other; auto. pose proof (i_next s H _ _ Hm). lia.
  - auto.
  - auto.
Qed.

Lemma no_born_next s : Inv s -> forall n, ~ In (Born (next s) n) (log s).
Proof. intros H n Hb. destruct (i_born s H _ _ Hb) as (? & _). lia. Qed.

Lemma inv_load a fs s : Inv s -> Inv (load_module a fs s).
Proof.
  intros H. unfold load_module. destruct (Nat.eqb_spec a 0) as [->|Ha].
  - inv_all H.
    assert (Hold : forall o x, objs s o = Some x -> upd (objs s) (next s) (Some (PMod 0)) o = Some x).
    { intros o x Ho. rewrite upd_other; auto. pose proof (Hnext o x Ho). lia. }
    assert (Hback : forall o x, upd (objs s) (next s) (Some (PMod 0)) o = Some x ->
                    (o = next s /\ x = PMod 0) \/ objs s o = Some x).
    { intros o x. unfold upd. destruct (Nat.eqb_spec o (next s)); [intros [=]; subst; auto | auto]. }
    constructor; simpl; auto.
    + intros o x Ho. destruct (Hback o x Ho) as [[-> ->]|Ho']; [lia|]. pose proof (Hnext o x Ho'). lia.
    + intros o Ho. destruct (Hvars o Ho) as [x Hx]. eauto.
    + intros o a' Ho Hi. destruct (Hback _ _ Ho) as [[-> _]|Ho']; eauto.
      destruct (Hvars _ Hi) as [x Hx]. pose proof (Hnext _ _ Hx). lia.
    + intros o m' n' f' Ho. destruct (Hback _ _ Ho) as [[-> [=]]|Ho'].
      destruct (Hfun _ _ _ _ Ho') as (a' & fs' & ? & ? & ? & ? & ? & ?). exists a', fs'. auto 10.
    + intros o m' p Ho. destruct (Hback _ _ Ho) as [[-> [=]]|Ho'].
      destruct (Htab _ _ _ Ho') as (a' & ? & ? & ? & ?). exists a'; auto 10.
    + intros o a' Ho Ha'. destruct (Hback _ _ Ho) as [[-> E]|Ho']; [congruence|].
      rewrite upd_other; auto.
    + intros o o' a' Ho Ho2 Ha'. destruct (Hback _ _ Ho) as [[-> E]|Ho']; [congruence|].
      destruct (Hback _ _ Ho2) as [[-> E]|Ho2']; [congruence|]. eauto.
    + intros o o' m1 m2 p Ho Ho2. destruct (Hback _ _ Ho) as [[-> [=]]|Ho'].
      destruct (Hback _ _ Ho2) as [[-> [=]]|Ho2']. eauto.
    + intros a' n' Hh. destruct (Hhas _ _ Hh) as (? & ? & o & ?). eauto 6.
    + intros p a' Hp. destruct (Htabs _ _ Hp) as (o & m' & ?). eauto.
    + intros a' Hc. destruct (Nat.eq_dec a' 0) as [E|E].
      * subst a'. exists (next s). apply upd_same.
      * rewrite upd_other in Hc by auto. destruct (Hctx _ Hc) as (o & ?). eauto.
    + intros o n' Hb. destruct (Hborn _ _ Hb) as (? & ? & [(a' & ? & ? & ?)|[? ?]]); split; auto; split; auto.
      * left. exists a'. auto.
      * right. split; auto. rewrite upd_other by lia. auto.
  - destruct (modules s a) eqn:Hfree; [exact H|]. pose proof (no_born_next s H) as Hnb. inv_all H.
    assert (Hold : forall o x, objs s o = Some x -> upd (objs s) (next s) (Some (PMod a)) o = Some x).
    { intros o x Ho. rewrite upd_other; auto. pose proof (Hnext o x Ho). lia. }
    assert (Hback : forall o x, upd (objs s) (next s) (Some (PMod a)) o = Some x ->
                    (o = next s /\ x = PMod a) \/ objs s o = Some x).
    { intros o x. unfold upd. destruct (Nat.eqb_spec o (next s)); [intros [=]; subst; auto | auto]. }
    assert (Hna : forall o, objs s o <> Some (PMod a)).
    { intros o Ho. destruct (Hmod _ _ Ho Ha) as (n & _ & E & _). congruence. }
    assert (Hmods : forall a' n, modules s a' = Some n -> upd (modules s) a (Some (loads s)) a' = Some n).
    { intros a' n Hm. rewrite upd_other; auto. congruence. }
    assert (Hlives : forall n fs', n < loads s -> live s n = fs' -> upd (live s) (loads s) (Some fs) n = fs').
    { intros n fs' Hn Hl. rewrite upd_other; auto. lia. }
    assert (Hlt : forall a' n, modules s a' = Some n -> n < loads s) by (intros a' n Hm; apply (Hhas _ _ Hm)).
    constructor; simpl; auto.
    + intros o x Ho. destruct (Hback o x Ho) as [[-> ->]|Ho']; [lia|]. pose proof (Hnext o x Ho'). lia.
    + intros o [<-|Ho]; [exists (PMod a); apply upd_same|]. destruct (Hvars o Ho) as [x Hx]. eauto.
    + intros o a' Ho Hi. destruct (Hback _ _ Ho) as [[-> [= ->]]|Ho']; auto.
      destruct Hi as [<-|Hi]; eauto. pose proof (Hnext _ _ Ho'). lia.
    + intros o m' n' f' Ho. destruct (Hback _ _ Ho) as [[-> [=]]|Ho'].
      destruct (Hfun _ _ _ _ Ho') as (a' & fs' & ? & ? & ? & ? & ? & ?). exists a', fs'.
      repeat split; eauto. tauto.
    + intros o m' p Ho. destruct (Hback _ _ Ho) as [[-> [=]]|Ho'].
      destruct (Htab _ _ _ Ho') as (a' & ? & ? & ? & ?). exists a'; auto 10.
    + intros o a' Ho Ha'. destruct (Hback _ _ Ho) as [[-> [= ->]]|Ho'].
      * exists (loads s), fs. rewrite !upd_same. auto.
      * destruct (Hmod _ _ Ho' Ha') as (n & fs' & ? & ? & ? & ?). exists n, fs'.
        split; [eauto|]. split; [eauto|]. split; auto.
        unfold upd. destruct (a' =? a); auto.
    + intros o o' a' Ho Ho2 Ha'. destruct (Hback _ _ Ho) as [[-> [= ->]]|Ho'].
      * destruct (Hback _ _ Ho2) as [[-> _]|Ho2']; auto. exfalso; eapply Hna; eauto.
      * destruct (Hback _ _ Ho2) as [[-> [= ->]]|Ho2']; eauto. exfalso; eapply Hna; eauto.
    + intros o o' m1 m2 p Ho Ho2. destruct (Hback _ _ Ho) as [[-> [=]]|Ho'].
      destruct (Hback _ _ Ho2) as [[-> [=]]|Ho2']. eauto.
    + intros a' n' Hh. unfold upd in Hh at 1. destruct (Nat.eqb_spec a' a) as [->|].
      * injection Hh as <-. split; auto. split; [lia|]. exists (next s). apply upd_same.
      * destruct (Hhas _ _ Hh) as (? & ? & o & ?). split; auto. split; [lia|]. eauto.
    + intros p a' Hp. destruct (Htabs _ _ Hp) as (o & m' & ?). eauto.
    + intros a' Hc. destruct (Nat.eq_dec a' a) as [E|E].
      * subst a'. exists (next s). apply upd_same.
      * rewrite upd_other in Hc by auto. destruct (Hctx _ Hc) as (o & ?). eauto.
    + intros a1 a2 n H1 H2. unfold upd in H1, H2.
      destruct (Nat.eqb_spec a1 a), (Nat.eqb_spec a2 a); subst; auto.
      * injection H1 as <-. apply Hlt in H2. lia.
      * injection H2 as <-. apply Hlt in H1. lia.
      * eauto.
    + intros n fs' Hl. unfold upd in Hl. destruct (Nat.eqb_spec n (loads s)) as [->|].
      * exists a. apply upd_same.
      * destruct (Hlive _ _ Hl) as (a' & ?). eauto.
    + intros o n [[= <- <-]|Hb].
      * split; [lia|]. split; [lia|]. left. exists a. rewrite !upd_same. auto.
      * destruct (Hborn _ _ Hb) as (? & ? & [(a' & ? & ? & ?)|(? & b & ?)]); split; try lia; split; try lia.
        -- left. exists a'. auto.
        -- right. rewrite upd_other by lia. split; auto. exists b. auto.
    + intros n b [Hx|Hf]; [discriminate|]. destruct (Hfreed _ _ Hf). split; [eauto | lia].
    + split; auto. split; auto. split.
      * intros o' Hb. destruct (Hborn _ _ Hb) as (_ & ? & _). lia.
      * intros b Hf. destruct (Hfreed _ _ Hf). lia.
Qed.

Lemma inv_table m p a s : Inv s -> objs s m = Some (PMod a) -> a <> 0 -> tables s p = None ->
  let s2 := new_obj (PTab m p) s in
  Inv (mkState (objs s2) (vars s2) (next s2) (modules s2) (contexts s2) (live s2) (loads s2)
               (upd (tables s2) p (Some a)) (arrays s2) (log s2)).
Proof.
  intros H Hm Ha Hp s2. subst s2. inv_all H.
  assert (Hold : forall o x, objs s o = Some x -> upd (objs s) (next s) (Some (PTab m p)) o = Some x).
  { intros o x Ho. rewrite upd_other; auto. pose proof (Hnext o x Ho). lia. }
  assert (Hback : forall o x, upd (objs s) (next s) (Some (PTab m p)) o = Some x ->
                  (o = next s /\ x = PTab m p) \/ objs s o = Some x).
  { intros o x. unfold upd. destruct (Nat.eqb_spec o (next s)); [intros [=]; subst; auto | auto]. }
  assert (Hnp : forall o m', objs s o <> Some (PTab m' p)).
  { intros o m' Ho. destruct (Htab _ _ _ Ho) as (a' & _ & _ & _ & E). congruence. }
  constructor; simpl; auto.
  - intros o x Ho. destruct (Hback o x Ho) as [[-> ->]|Ho']; [lia|]. pose proof (Hnext o x Ho'). lia.
  - intros o [<-|Ho]; [exists (PTab m p); apply upd_same|]. destruct (Hvars o Ho) as [x Hx]. eauto.
  - intros o a' Ho Hi. destruct (Hback _ _ Ho) as [[-> [=]]|Ho']. destruct Hi as [<-|Hi]; eauto.
    pose proof (Hnext _ _ Ho'). lia.
  - intros o m' n' f' Ho. destruct (Hback _ _ Ho) as [[-> [=]]|Ho'].
    destruct (Hfun _ _ _ _ Ho') as (a' & fs' & ? & ? & ? & ? & ? & ?). exists a', fs'. auto 10.
  - intros o m' p' Ho. destruct (Hback _ _ Ho) as [[-> [= -> ->]]|Ho'].
    + exists a. rewrite upd_same. pose proof (Hnext _ _ Hm). auto 10.
    + destruct (Htab _ _ _ Ho') as (a' & ? & ? & ? & ?). exists a'. split; auto. split; auto. split; auto.
      rewrite upd_other; auto. congruence.
  - intros o a' Ho Ha'. destruct (Hback _ _ Ho) as [[-> [=]]|Ho']. eauto.
  - intros o o' a' Ho Ho2 Ha'. destruct (Hback _ _ Ho) as [[-> [=]]|Ho'].
    destruct (Hback _ _ Ho2) as [[-> [=]]|Ho2']. eauto.
  - intros o o' m1 m2 p' Ho Ho2. destruct (Hback _ _ Ho) as [[-> [= -> ->]]|Ho'].
    + destruct (Hback _ _ Ho2) as [[-> _]|Ho2']; auto. exfalso; eapply Hnp; eauto.
    + destruct (Hback _ _ Ho2) as [[-> [= -> ->]]|Ho2']; eauto. exfalso; eapply Hnp; eauto.
  - intros a' n' Hh. destruct (Hhas _ _ Hh) as (? & ? & o & ?). eauto 6.
  - intros p' a' Hp'. unfold upd in Hp' at 1. destruct (Nat.eqb_spec p' p) as [->|].
    + exists (next s), m. apply upd_same.
    + destruct (Htabs _ _ Hp') as (o & m' & ?). eauto.
  - intros a' Hc. destruct (Hctx _ Hc) as (o & ?). eauto.
  - intros o n' Hb. destruct (Hborn _ _ Hb) as (? & ? & [(a' & ? & ? & ?)|[? ?]]); split; auto; split; auto.
    + left. exists a'. auto.
    + right. split; auto. rewrite upd_other by lia. auto.
Qed.

Lemma good_erase n l t : good t -> good (map (Erase n) l ++ t).
Proof. intros H. induction l; simpl; auto. Qed.

Lemma inv_erase n gone s : Inv s -> Inv (erase_functions n gone s).
Proof.
  intros H. unfold erase_functions. destruct (live s n) as [fs|] eqn:Hl; [|exact H]. inv_all H.
  assert (Hin : forall x, In x (log s) -> In x (map (Erase n) (filter (fun f => mem f gone) fs) ++ log s)).
  { intros x Hx. apply in_or_app. auto. }
  assert (Hout : forall x, In x (map (Erase n) (filter (fun f => mem f gone) fs) ++ log s) ->
                 (exists f, x = Erase n f) \/ In x (log s)).
  { intros x Hx. apply in_app_or in Hx. destruct Hx as [Hx|]; auto. apply in_map_iff in Hx.
    destruct Hx as (f & <- & _). eauto. }
  constructor; simpl; auto.
  - intros o m n' f Ho. destruct (Hfun _ _ _ _ Ho) as (a & fs' & ? & ? & ? & ? & El & Hf).
    unfold upd. destruct (Nat.eqb_spec n' n) as [->|].
    + exists a, (filter (fun f => negb (mem f gone)) fs). split; auto. split; auto. split; auto. split; auto. split; auto.
      rewrite Hl in El. injection El as <-. destruct Hf as [Hf|Hf]; auto.
      destruct (mem f gone) eqn:E.
      * right. apply in_or_app. left. apply in_map. apply filter_In. auto.
      * left. apply filter_In. rewrite E. auto.
    + exists a, fs'. split; auto. split; auto. split; auto. split; auto. split; auto. destruct Hf; auto.
  - intros o a Ho Ha. destruct (Hmod _ _ Ho Ha) as (n' & fs' & ? & ? & ? & ?).
    unfold upd. exists n'. destruct (n' =? n); eauto 8.
  - intros n' fs' Hl'. unfold upd in Hl'. destruct (Nat.eqb_spec n' n) as [->|]; eauto.
  - intros o n' Hb. destruct (Hout _ Hb) as [[f [=]]|Hb'].
    destruct (Hborn _ _ Hb') as (? & ? & [?|[? [b ?]]]); eauto 10.
  - intros n' b Hb. destruct (Hout _ Hb) as [[f [=]]|Hb']. destruct (Hfreed _ _ Hb') as [Hf ?]. split; auto.
    rewrite upd_other; auto. congruence.
  - apply good_erase. auto.
Qed.

Lemma referred_spec s o : Inv s -> referred s o = false ->
  (forall q n f, objs s q <> Some (PFun o n f)) /\ (forall q p, objs s q <> Some (PTab o p)).
Proof.
  intros H Hr. unfold referred in Hr.
  assert (Hno : forall q x, objs s q = Some x -> refers o x = false).
  { intros q x Hq. destruct (refers o x) eqn:E; auto.
    rewrite <- Hr. symmetry. apply existsb_exists. exists q. rewrite Hq. split; auto.
    apply in_seq. pose proof (i_next s H _ _ Hq). lia. }
  split; [intros q n f Hq | intros q p Hq]; apply Hno in Hq; simpl in Hq; rewrite Nat.eqb_refl in Hq; discriminate.
Qed.

Lemma inv_collect o s : Inv s -> Inv (collect o s).
Proof.
  intros H. unfold collect. destruct (mem o (vars s)) eqn:Hv; [exact H|].
  destruct (referred s o) eqn:Hr; [exact H|]. simpl.
  destruct (referred_spec s o H Hr) as [Hrf Hrt]. apply mem_out in Hv.
  destruct (objs s o) as [x|] eqn:Ho; [|exact H].
  assert (Hback : forall q y, upd (objs s) o None q = Some y -> q <> o /\ objs s q = Some y).
  { intros q y. unfold upd. destruct (Nat.eqb_spec q o); [discriminate | auto]. }
  assert (Hold : forall q y, objs s q = Some y -> q <> o -> upd (objs s) o None q = Some y).
  { intros q y Hq Hn. rewrite upd_other; auto. }
  destruct x as [a|m n f|m p].
  - unfold free_module, forget. simpl. destruct (modules s a) as [n|] eqn:Hm.
    + pose proof H as H0. inv_all H.
      assert (Ha : a <> 0) by (apply (Hhas _ _ Hm)).
      destruct (Hmod _ _ Ho Ha) as (n' & fs & E & Hl & Hc & Hb). rewrite Hm in E. injection E as <-.
      assert (Hne : forall a' n', modules s a' = Some n' -> a' <> a -> n' <> n).
      { intros a' n' Hm' Hn' ->. apply Hn'. eauto. }
      assert (Hoth : forall q a', objs s q = Some (PMod a') -> q <> o -> a' <> 0 -> a' <> a).
      { intros q a' Hq Hn0 Hz ->. apply Hn0. eauto. }
      constructor; simpl.
      * intros q y Hq. destruct (Hback _ _ Hq). eauto.
      * intros q Hq. destruct (Hvars q Hq) as [y Hy]. exists y. apply Hold; auto. intros ->; auto.
      * intros q a' Hq. destruct (Hback _ _ Hq). eauto.
      * intros q m n' f Hq. destruct (Hback _ _ Hq) as [? Hq']. 
        destruct (Hfun _ _ _ _ Hq') as (a' & fs' & Hm' & ? & ? & Hmm & Hll & Hf).
        assert (m <> o) by (intros ->; eapply Hrf; eauto).
        assert (a' <> a) by eauto.
        exists a', fs'. rewrite !upd_other; eauto. split; auto. split; auto. split; auto. split; auto. split; auto.
        destruct Hf; auto.
      * intros q m p Hq. destruct (Hback _ _ Hq) as [? Hq'].
        destruct (Htab _ _ _ Hq') as (a' & Hm' & ? & ? & ?). exists a'. split; auto.
        apply Hold; auto. intros ->. eapply Hrt; eauto.
      * intros q a' Hq Hz. destruct (Hback _ _ Hq) as [? Hq'].
        destruct (Hmod _ _ Hq' Hz) as (n' & fs' & ? & ? & ? & ?). exists n', fs'.
        assert (a' <> a) by eauto. rewrite !upd_other; eauto.
      * intros q q' a' Hq Hq'. destruct (Hback _ _ Hq), (Hback _ _ Hq'). eauto.
      * intros q q' m1 m2 p Hq Hq'. destruct (Hback _ _ Hq), (Hback _ _ Hq'). eauto.
      * intros a' n' Hh. unfold upd in Hh at 1. destruct (Nat.eqb_spec a' a); [discriminate|].
        destruct (Hhas _ _ Hh) as (? & ? & q & Hq). split; auto. split; auto. exists q. apply Hold; auto. congruence.
      * intros p a' Hp. destruct (Htabs _ _ Hp) as (q & m & Hq). exists q, m. apply Hold; auto. congruence.
      * intros a' Hc'. destruct (Nat.eq_dec a' a) as [->|]; [rewrite upd_same in Hc'; discriminate|]. rewrite upd_other in Hc' by auto.
        destruct (Hctx _ Hc') as [q Hq]. exists q. apply Hold; auto. congruence.
      * intros a1 a2 n' H1 H2. unfold upd in H1, H2. destruct (Nat.eqb_spec a1 a), (Nat.eqb_spec a2 a); try discriminate; eauto.
      * intros n' fs' Hl'. unfold upd in Hl'. destruct (Nat.eqb_spec n' n); [discriminate|].
        destruct (Hlive _ _ Hl') as [a' Ha']. exists a'. rewrite upd_other; auto. congruence.
      * intros q n' [Hx|Hq]; [discriminate|]. destruct (Hborn _ _ Hq) as (? & ? & [(a' & Hq' & ? & Hm')|[Hno [b Hf]]]).
        -- split; auto. split; auto. destruct (Nat.eq_dec a' a) as [->|Hd].
           ++ right. rewrite Hm in Hm'. injection Hm' as <-. split; [|eauto].
              rewrite (Hone _ _ _ Hq' Ho Ha). apply upd_same.
           ++ left. exists a'. split; [apply Hold; auto; congruence|]. split; auto. rewrite upd_other; auto.
        -- split; auto. split; auto. right. split; [|eauto]. unfold upd. destruct (q =? o); auto.
      * intros n' b [[= <- <-]|Hf].
        -- split; [apply upd_same|]. apply (Hhas _ _ Hm).
        -- destruct (Hfreed _ _ Hf). split; auto. unfold upd. destruct (n' =? n); auto.
      * split; auto. split; [auto|]. split; [|eauto].
        intros b' Hf. destruct (Hfreed _ _ Hf). congruence.
    + assert (Ha : a = 0).
      { destruct (Nat.eq_dec a 0); auto. destruct (i_mod s H _ _ Ho n) as (n' & _ & E & _). congruence. }
      subst a. inv_all H. constructor; simpl; auto.
      * intros q y Hq. destruct (Hback _ _ Hq). eauto.
      * intros q Hq. destruct (Hvars q Hq) as [y Hy]. exists y. apply Hold; auto. intros ->; auto.
      * intros q a' Hq. destruct (Hback _ _ Hq). eauto.
      * intros q m n' f Hq. destruct (Hback _ _ Hq) as [? Hq']. 
        destruct (Hfun _ _ _ _ Hq') as (a' & fs' & Hm' & ? & ? & Hmm & Hll & Hf).
        exists a', fs'. split; auto. apply Hold; auto. congruence.
      * intros q m p Hq. destruct (Hback _ _ Hq) as [? Hq'].
        destruct (Htab _ _ _ Hq') as (a' & Hm' & ? & ? & ?). exists a'. split; auto.
        apply Hold; auto. congruence.
      * intros q a' Hq Hz. destruct (Hback _ _ Hq) as [? Hq'].
        destruct (Hmod _ _ Hq' Hz) as (n' & fs' & ? & ? & ? & ?). exists n', fs'.
        rewrite !upd_other; auto.
      * intros q q' a' Hq Hq'. destruct (Hback _ _ Hq), (Hback _ _ Hq'). eauto.
      * intros q q' m1 m2 p Hq Hq'. destruct (Hback _ _ Hq), (Hback _ _ Hq'). eauto.
      * intros a' n' Hh. destruct (Hhas _ _ Hh) as (? & ? & q & Hq). split; auto. split; auto. exists q. apply Hold; auto. congruence.
      * intros p a' Hp. destruct (Htabs _ _ Hp) as (q & m & Hq). exists q, m. apply Hold; auto. congruence.
      * intros a' Hc'. destruct (Nat.eq_dec a' 0) as [->|]; [rewrite upd_same in Hc'; discriminate|]. rewrite upd_other in Hc' by auto.
        destruct (Hctx _ Hc') as [q Hq]. exists q. apply Hold; auto. congruence.
      * intros q n' Hq. destruct (Hborn _ _ Hq) as (? & ? & [(a' & Hq' & ? & Hm')|[Hno Hf]]); split; auto; split; auto.
        -- left. exists a'. split; auto. apply Hold; auto. congruence.
        -- right. split; auto. unfold upd. destruct (q =? o); auto.
  - unfold forget. inv_all H. constructor; simpl; auto.
    + intros q y Hq. destruct (Hback _ _ Hq). eauto.
    + intros q Hq. destruct (Hvars q Hq) as [y Hy]. exists y. apply Hold; auto. intros ->; auto.
    + intros q a' Hq. destruct (Hback _ _ Hq). eauto.
    + intros q m' n' f' Hq. destruct (Hback _ _ Hq) as [? Hq'].
      destruct (Hfun _ _ _ _ Hq') as (a' & fs' & Hm' & ? & ? & Hmm & Hll & Hf).
      exists a', fs'. split; auto. apply Hold; auto. congruence.
    + intros q m' p Hq. destruct (Hback _ _ Hq) as [? Hq'].
      destruct (Htab _ _ _ Hq') as (a' & Hm' & ? & ? & ?). exists a'. split; auto.
      apply Hold; auto. congruence.
    + intros q a' Hq Hz. destruct (Hback _ _ Hq) as [? Hq']. eauto.
    + intros q q' a' Hq Hq'. destruct (Hback _ _ Hq), (Hback _ _ Hq'). eauto.
    + intros q q' m1 m2 p Hq Hq'. destruct (Hback _ _ Hq), (Hback _ _ Hq'). eauto.
    + intros a' n' Hh. destruct (Hhas _ _ Hh) as (? & ? & q & Hq). split; auto. split; auto. exists q. apply Hold; auto. congruence.
    + intros p a' Hp. destruct (Htabs _ _ Hp) as (q & m' & Hq). exists q, m'. apply Hold; auto. congruence.
    + intros a' Hc'. destruct (Hctx _ Hc') as [q Hq]. exists q. apply Hold; auto. congruence.
    + intros q n' Hq. destruct (Hborn _ _ Hq) as (? & ? & [(a' & Hq' & ? & Hm')|[Hno Hf]]); split; auto; split; auto.
      * left. exists a'. split; auto. apply Hold; auto. congruence.
      * right. split; auto. unfold upd. destruct (q =? o); auto.
  - unfold free_table, forget. inv_all H. constructor; simpl; auto.
    + intros q y Hq. destruct (Hback _ _ Hq). eauto.
    + intros q Hq. destruct (Hvars q Hq) as [y Hy]. exists y. apply Hold; auto. intros ->; auto.
    + intros q a' Hq. destruct (Hback _ _ Hq). eauto.
    + intros q m' n' f' Hq. destruct (Hback _ _ Hq) as [? Hq'].
      destruct (Hfun _ _ _ _ Hq') as (a' & fs' & Hm' & ? & ? & Hmm & Hll & Hf).
      exists a', fs'. split; auto. apply Hold; auto. congruence.
    + intros q m' p' Hq. destruct (Hback _ _ Hq) as [? Hq'].
      destruct (Htab _ _ _ Hq') as (a' & Hm' & ? & ? & ?). exists a'. split; [apply Hold; auto; congruence|].
      split; auto. split; auto. rewrite upd_other; auto. intros ->. eauto.
    + intros q a' Hq Hz. destruct (Hback _ _ Hq) as [? Hq']. eauto.
    + intros q q' a' Hq Hq'. destruct (Hback _ _ Hq), (Hback _ _ Hq'). eauto.
    + intros q q' m1 m2 p' Hq Hq'. destruct (Hback _ _ Hq), (Hback _ _ Hq'). eauto.
    + intros a' n' Hh. destruct (Hhas _ _ Hh) as (? & ? & q & Hq). split; auto. split; auto. exists q. apply Hold; auto. congruence.
    + intros p' a' Hp. unfold upd in Hp at 1. destruct (Nat.eqb_spec p' p); [discriminate|].
      destruct (Htabs _ _ Hp) as (q & m' & Hq). exists q, m'. apply Hold; auto. congruence.
    + intros a' Hc'. destruct (Hctx _ Hc') as [q Hq]. exists q. apply Hold; auto. congruence.
    + intros q n' Hq. destruct (Hborn _ _ Hq) as (? & ? & [(a' & Hq' & ? & Hm')|[Hno Hf]]); split; auto; split; auto.
      * left. exists a'. split; auto. apply Hold; auto. congruence.
      * right. split; auto. unfold upd. destruct (q =? o); auto.
Qed.

Lemma held_spec s o x : held s o = Some x -> In o (vars s) /\ objs s o = Some x.
Proof. unfold held. destruct (mem o (vars s)) eqn:E; [apply mem_in in E; auto | discriminate]. Qed.

(** Where a pointer of a module object leads to. *)
Lemma mod_stands s m a : Inv s -> objs s m = Some (PMod a) -> a <> 0 ->
  exists n fs, modules s a = Some n /\ live s n = Some fs /\ stands (log s) m n.
Proof.
  intros H Hm Ha. destruct (i_mod s H _ _ Hm Ha) as (n & fs & ? & Hl & ? & ?). exists n, fs. split; auto. split; auto.
  split; auto. intros b Hf. destruct (i_freed s H _ _ Hf). congruence.
Qed.

Lemma inv_access o m a s : Inv s -> objs s m = Some (PMod a) -> a <> 0 -> Inv (note (Access o m (modules s a)) s).
Proof.
  intros H Hm Ha. apply inv_note; simpl; auto. destruct (mod_stands s m a H Hm Ha) as (n & fs & E & _ & ?). eauto.
Qed.

Lemma inv_ask o m n f s : Inv s -> objs s o = Some (PFun m n f) -> Inv (ask_function s o m n f).
Proof.
  intros H Ho. destruct (i_fun s H _ _ _ _ Ho) as (a & fs & Hm & Ha & _ & Hn & Hl & Hf).
  unfold ask_function, at_function. rewrite Hl. simpl. rewrite Hl. apply inv_note; simpl; auto.
  destruct (mod_stands s m a H Hm Ha) as (n' & fs' & E & _ & Hs). rewrite Hn in E. injection E as <-.
  exists n. split; auto. split; auto. destruct Hf as [Hf|Hf]; auto. left. apply mem_in. auto.
Qed.

Lemma step_inv e s : Inv s -> Inv (step s e).
Proof.
  intros H. destruct e; simpl.
  - apply inv_load; auto.
  - destruct (held s m) as [[a| |]|] eqn:E; auto. apply held_spec in E. destruct E as [Hv Hm].
    pose proof (i_null s H _ _ Hm Hv) as Ha. destruct (mod_stands s m a H Hm Ha) as (n & fs & En & _).
    pose proof (inv_access m m a s H Hm Ha) as H1. unfold at_module. rewrite En in *.
    apply (inv_give m a); auto.
  - destruct (held s m) as [[a| |]|] eqn:E; auto. apply held_spec in E. destruct E as [Hv Hm].
    apply inv_arrays. apply inv_access; auto. eapply i_null; eauto.
  - destruct (held s m) as [[a| |]|] eqn:E; auto. apply held_spec in E. destruct E as [Hv Hm].
    pose proof (i_null s H _ _ Hm Hv) as Ha. pose proof (inv_access m m a s H Hm Ha) as H1. unfold at_module.
    destruct (modules s a) as [n|] eqn:En; auto. apply inv_erase; auto.
  - destruct (held s o) as [[|m n f|]|] eqn:E; auto. apply held_spec in E. apply inv_ask; tauto.
  - destruct (held s o) as [[|m n f|]|] eqn:E; auto. apply held_spec in E. destruct E as [_ Ho].
    pose proof (inv_ask o m n f s H Ho) as H1. destruct (i_fun s H _ _ _ _ Ho) as (a & fs & Hm & Ha & _ & Hn & Hl & Hf).
    unfold at_function. rewrite Hl. apply (inv_give m a); auto.
  - destruct (held s m) as [[a| |]|] eqn:E; auto. apply held_spec in E. destruct E as [Hv Hm].
    pose proof (i_null s H _ _ Hm Hv) as Ha. destruct p as [|p]; auto. destruct (tables s (S p)) eqn:Ep; auto.
    apply (inv_table m (S p) a (note (Access m m (at_module s a)) s)); auto. apply inv_access; auto.
  - destruct (held s t) as [[| |m p]|] eqn:E; auto. apply held_spec in E. destruct E as [_ Ho].
    destruct (i_tab s H _ _ _ Ho) as (a & Hm & Ha & _ & Hp). unfold at_table. rewrite Hp.
    apply inv_arrays. apply inv_access; auto.
  - destruct (held s t) as [[| |m p]|] eqn:E; auto. apply held_spec in E. destruct E as [_ Ho].
    destruct (i_tab s H _ _ _ Ho) as (a & Hm & Ha & _ & Hp). unfold at_table. rewrite Hp.
    destruct (mod_stands s m a H Hm Ha) as (n & fs & En & _).
    pose proof (inv_access t m a s H Hm Ha) as H1. rewrite En in *. apply (inv_give m a); auto.
  - destruct (held s t) as [[| |m p]|] eqn:E; auto. apply held_spec in E. destruct E as [_ Ho].
    destruct (i_tab s H _ _ _ Ho) as (a & Hm & Ha & _ & Hp). unfold at_table. rewrite Hp.
    apply inv_arrays. apply inv_access; auto.
  - destruct (held s o) as [[|m n f|m p]|] eqn:E; auto; apply held_spec in E; destruct E as [_ Ho];
      apply inv_vars; auto; intros q [<-|Hq]; auto; right.
    + destruct (i_fun s H _ _ _ _ Ho) as (a & fs & ? & ? & _). eauto.
    + destruct (i_tab s H _ _ _ Ho) as (a & ? & ? & _). eauto.
  - destruct (held s o) as [x|] eqn:E; auto. apply held_spec in E. apply inv_vars; auto.
    intros q [<-|Hq]; [left; tauto | auto].
  - apply inv_vars; auto. intros q Hq. left. revert Hq. induction (vars s) as [|x r IH]; simpl; auto.
    destruct (x =? o); simpl; auto. intros [->|]; auto.
  - apply inv_collect; auto.
Qed.

Lemma run_inv es : Inv (run es).
Proof.
  unfold run. assert (G : forall s, Inv s -> Inv (fold_left step es s)).
  { induction es as [|e r IH]; simpl; auto. intros s H. apply IH, step_inv, H. }
  apply G, inv_init.
Qed.

Lemma good_split l x before later : good l -> l = later ++ x :: before -> good1 x before /\ good before.
Proof.
  intros H ->. induction later as [|y r IH]; simpl in H; [exact H|]. apply IH, H.
Qed.

(** What is left after everything that can be collected was collected. *)
Lemma collect_same o s : vars (collect o s) = vars s /\ next (collect o s) = next s /\
  (forall q, q <> o -> objs (collect o s) q = objs s q) /\
  (forall x, In x (log s) -> In x (log (collect o s))).
Proof.
  unfold collect. destruct (mem o (vars s) || referred s o); auto.
  destruct (objs s o) as [[a|m n f|m p]|]; auto.
  - unfold free_module. destruct (modules (forget o s) a); simpl; repeat split; auto; intros q Hq; apply upd_other; auto.
  - simpl; repeat split; auto; intros q Hq; apply upd_other; auto.
  - simpl; repeat split; auto; intros q Hq; apply upd_other; auto.
Qed.

Lemma collect_gone o s x : objs (collect o s) o = Some x -> In o (vars s) \/ referred s o = true.
Proof.
  unfold collect. destruct (mem o (vars s)) eqn:Ev; [apply mem_in in Ev; auto|]. destruct (referred s o); auto. simpl.
  destruct (objs s o) as [[a|m n f|m p]|] eqn:E; try congruence.
  - unfold free_module. destruct (modules (forget o s) a); simpl; rewrite upd_same; discriminate.
  - simpl. rewrite upd_same. discriminate.
  - simpl. rewrite upd_same. discriminate.
Qed.

Definition settled (k : nat) (s : state) : Prop :=
  forall q x, k <= q -> objs s q = Some x -> In q (vars s) \/ exists r y, objs s r = Some y /\ refers q y = true /\ q < r.

Lemma refers_lt s r q y : Inv s -> objs s r = Some y -> refers q y = true -> q < r.
Proof.
  intros H Hr Hy. destruct y as [a|m n f|m p]; simpl in Hy; try discriminate; apply Nat.eqb_eq in Hy; subst m.
  - destruct (i_fun s H _ _ _ _ Hr) as (? & ? & ? & ? & ? & _). auto.
  - destruct (i_tab s H _ _ _ Hr) as (? & ? & ? & ? & _). auto.
Qed.

Lemma collect_settled k s : Inv s -> settled (S k) s -> settled k (collect k s).
Proof.
  intros H Hs q x Hk Hq. destruct (collect_same k s) as (Ev & En & Eo & _). rewrite Ev.
  destruct (Nat.eq_dec q k) as [->|Hd].
  - destruct (collect_gone _ _ _ Hq) as [?|Hr]; auto. right. unfold referred in Hr. apply existsb_exists in Hr.
    destruct Hr as (r & _ & Hr). destruct (objs s r) as [y|] eqn:Er; [|discriminate].
    pose proof (refers_lt s r k y H Er Hr). exists r, y. rewrite Eo by lia. auto.
  - rewrite Eo in Hq by auto. destruct (Hs q x ltac:(lia) Hq) as [?|(r & y & Hr & Hy & Hl)]; auto.
    right. exists r, y. rewrite Eo by lia. auto.
Qed.

Fixpoint sweep (k : nat) : list event := match k with 0 => [] | S k => Collect k :: sweep k end.

Lemma sweep_collects k : collects (sweep k).
Proof. induction k; simpl; intros e; [intros []|]. intros [<-|H]; eauto. Qed.

Lemma sweep_settled k : forall s, Inv s -> settled k s ->
  let s' := fold_left step (sweep k) s in Inv s' /\ settled 0 s' /\ vars s' = vars s /\
  (forall x, In x (log s) -> In x (log s')).
Proof.
  induction k as [|k IH]; intros s H Hs; simpl; [auto|].
  destruct (IH (collect k s) (inv_collect k s H) (collect_settled k s H Hs)) as (H1 & H2 & H3 & H4).
  destruct (collect_same k s) as (Ev & _ & _ & El). rewrite Ev in H3. auto 10.
Qed.

Lemma settled_reachable s q a : Inv s -> settled 0 s -> objs s q = Some (PMod a) -> reachable s q.
Proof.
  intros H Hs Hq. destruct (Hs q _ (Nat.le_0_l q) Hq) as [?|(r & y & Hr & Hy & _)]; [left; auto|].
  assert (Hv : In r (vars s)).
  { destruct (Hs r _ (Nat.le_0_l r) Hr) as [?|(r' & y' & Hr' & Hy' & _)]; auto. exfalso.
    destruct y' as [a'|m n f|m p]; simpl in Hy'; try discriminate; apply Nat.eqb_eq in Hy'; subst m.
    - destruct (i_fun s H _ _ _ _ Hr') as (a' & ? & E & _). rewrite Hr in E. injection E as ->. discriminate.
    - destruct (i_tab s H _ _ _ Hr') as (a' & E & _). rewrite Hr in E. injection E as ->. discriminate. }
  right. destruct y as [a'|m n f|m p]; simpl in Hy; try discriminate; apply Nat.eqb_eq in Hy; subst m.
  - exists r, n, f, 0. auto.
  - exists r, 0, 0, p. auto.
Qed.

Lemma settled_novars s : Inv s -> settled 0 s -> vars s = [] -> forall q, objs s q = None.
Proof.
  intros H Hs Hv q. destruct (objs s q) as [x|] eqn:Hq; auto. exfalso.
  destruct (Hs q _ (Nat.le_0_l q) Hq) as [Hi|(r & y & Hr & Hy & _)]; [rewrite Hv in Hi; destruct Hi|].
  destruct (Hs r _ (Nat.le_0_l r) Hr) as [Hi|(r' & y' & Hr' & Hy' & _)]; [rewrite Hv in Hi; destruct Hi|].
  destruct y' as [a'|m n f|m p]; simpl in Hy'; try discriminate; apply Nat.eqb_eq in Hy'; subst m.
  - destruct (i_fun s H _ _ _ _ Hr') as (a' & ? & E & _). rewrite Hr in E. injection E as ->. discriminate.
  - destruct (i_tab s H _ _ _ Hr') as (a' & E & _). rewrite Hr in E. injection E as ->. discriminate.
Qed.

Lemma settled_start s : Inv s -> settled (next s) s.
Proof. intros H q x Hk Hq. pose proof (i_next s H _ _ Hq). lia. Qed.

(** Erasing and arrays. *)
Lemma give_log m got gs s : log (give m got gs s) = log s /\ arrays (give m got gs s) = arrays s.
Proof.
  unfold give. destruct got as [n|]; auto. generalize (filter (fun g => mem g (functions_of s (Some n))) gs).
  intros l. revert s. induction l as [|g r IH]; simpl; auto. intros s. destruct (IH (new_obj (PFun m n g) s)) as [-> ->]. auto.
Qed.

Lemma free_log a s n f : In (Erase n f) (log (free_module a s)) -> In (Erase n f) (log s).
Proof. unfold free_module. destruct (modules s a); simpl; auto. intros [[=]|]; auto. Qed.

Lemma step_erase e s n f : ~ preprocesses e -> In (Erase n f) (log (step s e)) -> In (Erase n f) (log s).
Proof.
  intros Hp. destruct e; simpl.
  - unfold load_module. destruct (a =? 0); auto. destruct (modules s a); simpl; auto. intros [[=]|]; auto.
  - destruct (held s m) as [[a| |]|]; auto. rewrite (proj1 (give_log _ _ _ _)). simpl. intros [[=]|]; auto.
  - destruct (held s m) as [[a| |]|]; auto. simpl. intros [[=]|]; auto.
  - exfalso. apply Hp. red. eauto.
  - destruct (held s o) as [[|? ? ?|]|]; auto. simpl. intros [[=]|]; auto.
  - destruct (held s o) as [[|? ? ?|]|]; auto. rewrite (proj1 (give_log _ _ _ _)). simpl. intros [[=]|]; auto.
  - destruct (held s m) as [[a| |]|]; auto. destruct p; auto. destruct (tables s (S p)); auto. simpl. intros [[=]|]; auto.
  - destruct (held s t) as [[| |? ?]|]; auto. simpl. intros [[=]|]; auto.
  - destruct (held s t) as [[| |? ?]|]; auto. rewrite (proj1 (give_log _ _ _ _)). simpl. intros [[=]|]; auto.
  - destruct (held s t) as [[| |? ?]|]; auto. simpl. intros [[=]|]; auto.
  - destruct (held s o) as [[|? ? ?|? ?]|]; auto.
  - destruct (held s o); auto.
  - auto.
  - unfold collect. destruct (mem o (vars s) || referred s o); auto. destruct (objs s o) as [[a|? ? ?|? ?]|]; auto.
    intros H. apply free_log in H. auto.
Qed.

Lemma run_erase es n f : (forall e, In e es -> ~ preprocesses e) -> ~ In (Erase n f) (log (run es)).
Proof.
  unfold run. assert (G : forall s, (forall e, In e es -> ~ preprocesses e) -> ~ In (Erase n f) (log s) ->
    ~ In (Erase n f) (log (fold_left step es s))).
  { induction es as [|e r IH]; simpl; auto. intros s He Hs. apply IH; [auto|]. intros Hi. apply Hs.
    eapply step_erase; eauto. }
  intros He. apply G; simpl; auto.
Qed.

Lemma step_arrays e s : ~ asks_param e -> arrays (step s e) = arrays s.
Proof.
  intros Hp. destruct e; simpl.
  - unfold load_module. destruct (a =? 0); auto. destruct (modules s a); simpl; auto.
  - destruct (held s m) as [[a| |]|]; auto. rewrite (proj2 (give_log _ _ _ _)). auto.
  - destruct (held s m) as [[a| |]|]; auto.
  - destruct (held s m) as [[a| |]|]; auto. destruct (at_module s a); auto. unfold erase_functions. simpl.
    destruct (live s n); auto.
  - destruct (held s o) as [[|? ? ?|]|]; auto.
  - destruct (held s o) as [[|? ? ?|]|]; auto. rewrite (proj2 (give_log _ _ _ _)). auto.
  - destruct (held s m) as [[a| |]|]; auto. destruct p; auto. destruct (tables s (S p)); auto.
  - destruct (held s t) as [[| |? ?]|]; auto.
  - destruct (held s t) as [[| |? ?]|]; auto. rewrite (proj2 (give_log _ _ _ _)). auto.
  - exfalso. apply Hp. red. eauto.
  - destruct (held s o) as [[|? ? ?|? ?]|]; auto.
  - destruct (held s o); auto.
  - auto.
  - unfold collect. destruct (mem o (vars s) || referred s o); auto. destruct (objs s o) as [[a|? ? ?|? ?]|]; auto.
    unfold free_module. destruct (modules (forget o s) a); auto.
Qed.

Lemma run_arrays es : (forall e, In e es -> ~ asks_param e) -> arrays (run es) = 0.
Proof.
  unfold run. assert (G : forall s, (forall e, In e es -> ~ asks_param e) -> arrays (fold_left step es s) = arrays s).
  { induction es as [|e r IH]; simpl; auto. intros s He. rewrite IH by auto. apply step_arrays. auto. }
  intros He. apply G; auto.
Qed.
