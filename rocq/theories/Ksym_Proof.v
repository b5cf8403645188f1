(** * Proofs for Ksym_Props. *)
From Coq Require Import String Ascii ZArith Arith Bool Lia List.
From Verif Require Import PyBase Ksym_Model Ksym_Spec.
Import ListNotations.
Open Scope list_scope.
Open Scope nat_scope.

(** Induction on constants, with the elements of structures and arrays *)
Definition const_induction (P : const -> Prop) (hn : P KNull) (hi : forall n, P (KInt n)) (hg : forall n, P (KGlobal n))
  (hc : forall c r, P c -> P (KCast c r)) (hs : forall l, Forall P l -> P (KStruct l)) (ha : forall l, Forall P l -> P (KArray l)) :
  forall c, P c :=
  fix F (c : const) : P c :=
    let fix G (l : list const) : Forall P l := match l with [] => Forall_nil P | x :: l' => Forall_cons x (F x) (G l') end in
    match c with
    | KNull => hn | KInt n => hi n | KGlobal n => hg n | KCast c r => hc c r (F c)
    | KStruct l => hs l (G l) | KArray l => ha l (G l)
    end.

Lemma symbol_name_spec n : symbol_name n = true <-> symbol n.
Proof. unfold symbol_name, symbol; apply startswith_spec. Qed.

Lemma entry_spec e : symbol_name (entry_name e) = true <-> symbol_entry e.
Proof.
  split.
  - intros H; destruct e as [| |n|c r| |]; try discriminate H; simpl in H.
    + exists n; split; [apply symbol_name_spec; exact H | left; reflexivity].
    + destruct c as [| |n| | |]; try discriminate H.
      exists n; split; [apply symbol_name_spec; exact H | right; exists r; reflexivity].
  - intros (n & Hn & [-> | [r ->]]); simpl; apply symbol_name_spec, Hn.
Qed.

(** ** Parts of lists *)
Lemma part_filter {A} (P : A -> Prop) (p : A -> bool) (l : list A) : (forall x, p x = true <-> P x) -> part P l (filter p l).
Proof.
  intros H; induction l as [|x l IH]; simpl; [constructor|].
  destruct (p x) eqn:E; constructor; try exact IH; [apply H, E|].
  intros K; apply H in K; congruence.
Qed.
Lemma part_is_filter {A} (P : A -> Prop) (p : A -> bool) (l k : list A) : (forall x, p x = true <-> P x) -> part P l k -> k = filter p l.
Proof.
  intros H; induction 1 as [|x l k Hx Hp IH|x l k Hx Hp IH]; simpl; [reflexivity| |].
  - rewrite (proj2 (H x) Hx), IH; reflexivity.
  - destruct (p x) eqn:E; [apply H in E; contradiction | exact IH].
Qed.

(** ** Null pointers in the place of references *)
Definition drops (ns : list string) (c : const) : const := fold_left (fun c n => drop n c) ns c.
Definition drops_var (ns : list string) (v : var) : var := mkVar (v_name v) (option_map (drops ns) (v_init v)).
Definition drops_fun (ns : list string) (f : string * list const) : string * list const := (fst f, map (drops ns) (snd f)).

Lemma Forall2_self {A} (R : A -> A -> Prop) l : Forall (fun x => R x x) l -> Forall2 R l l.
Proof. induction 1; constructor; assumption. Qed.
Lemma without_nothing c : without (fun _ => False) c c.
Proof.
  induction c as [|n|n|c r IH|l IH|l IH] using const_induction; try constructor; auto; apply Forall2_self, IH.
Qed.
Lemma without_more gone gone' c d : (forall n, gone n <-> gone' n) -> without gone c d -> without gone' c d.
Proof.
  intros H; revert d; induction c as [|n|n|c r IH|l IH|l IH] using const_induction; intros d W; inversion W; subst;
    try (constructor; fail).
  - apply without_gone, H; assumption.
  - apply without_kept; intros K; apply H in K; contradiction.
  - constructor; apply IH; assumption.
  - constructor. clear W. match goal with H2 : Forall2 _ l _ |- _ => revert IH; induction H2; intros IH; inversion IH; subst; constructor; auto end.
  - constructor. clear W. match goal with H2 : Forall2 _ l _ |- _ => revert IH; induction H2; intros IH; inversion IH; subst; constructor; auto end.
Qed.
Lemma without_drop gone n c : forall d, without gone c d -> without (fun x => n = x \/ gone x) c (drop n d).
Proof.
  assert (all : forall l l', Forall (fun c => forall d, without gone c d -> without (fun x => n = x \/ gone x) c (drop n d)) l ->
                Forall2 (without gone) l l' -> Forall2 (without (fun x => n = x \/ gone x)) l (map (drop n) l')).
  { intros l l' IH H2; induction H2; inversion IH; subst; simpl; constructor; auto. }
  induction c as [|i|m|c r IH|l IH|l IH] using const_induction; intros d W; inversion W; subst; simpl; try (constructor; fail).
  - apply without_gone; right; assumption.
  - destruct (String.eqb m n) eqn:E.
    + apply String.eqb_eq in E; subst; apply without_gone; left; reflexivity.
    + apply String.eqb_neq in E; apply without_kept; intros [-> | K]; [apply E; reflexivity | contradiction].
  - constructor; apply IH; assumption.
  - constructor; apply all; assumption.
  - constructor; apply all; assumption.
Qed.
Lemma without_drops ns : forall gone c d, without gone c d -> without (fun x => gone x \/ In x ns) c (drops ns d).
Proof.
  induction ns as [|n ns IH]; intros gone c d W; unfold drops; simpl.
  - eapply without_more; [|exact W]; intros x; tauto.
  - eapply without_more; [|apply (IH _ _ _ (without_drop gone n c d W))]; intros x; simpl; tauto.
Qed.
Lemma drops_without ns c : without (fun x => In x ns) c (drops ns c).
Proof. eapply without_more; [|apply without_drops, without_nothing]; intros x; simpl; tauto. Qed.

Lemma without_refers gone n : forall c d, without gone c d -> refers n d -> ~ gone n /\ refers n c.
Proof.
  assert (all : forall l l' d, Forall (fun c => forall d, without gone c d -> refers n d -> ~ gone n /\ refers n c) l ->
                Forall2 (without gone) l l' -> In d l' -> refers n d -> exists c, In c l /\ ~ gone n /\ refers n c).
  { intros l l' d IH H2; induction H2 as [|a b l l' W H2 IH2]; intros [] R; inversion IH; subst.
    - exists a; split; [left; reflexivity | eauto].
    - destruct IH2 as (c & Hc & K); auto. exists c; split; [right; exact Hc | exact K]. }
  intros c; induction c as [|i|m|c r IH|l IH|l IH] using const_induction; intros d W R; inversion W; subst; inversion R; subst.
  - split; [assumption | constructor].
  - edestruct IH as [K1 K2]; eauto. split; [exact K1 | constructor; exact K2].
  - edestruct all as (c' & K1 & K2 & K3); eauto. split; [exact K2 | econstructor; eauto].
  - edestruct all as (c' & K1 & K2 & K3); eauto. split; [exact K2 | econstructor; eauto].
Qed.
Lemma without_unused gone : forall c d, without gone c d -> (forall n, gone n -> ~ refers n c) -> d = c.
Proof.
  assert (all : forall l l', Forall (fun c => forall d, without gone c d -> (forall n, gone n -> ~ refers n c) -> d = c) l ->
                Forall2 (without gone) l l' -> (forall c n, In c l -> gone n -> ~ refers n c) -> l' = l).
  { intros l l' IH H2; induction H2 as [|a b l l' W H2 IH2]; intros H; [reflexivity|]; inversion IH; subst.
    f_equal; [apply H3; [exact W | intros n; apply H; left; reflexivity] | apply IH2; [assumption | intros c n Hc; apply H; right; exact Hc]]. }
  intros c; induction c as [|i|m|c r IH|l IH|l IH] using const_induction; intros d W H; inversion W; subst; try reflexivity.
  - exfalso; eapply H; [eassumption | constructor].
  - f_equal; apply IH; [assumption|]; intros n Hn R; apply (H n Hn); constructor; exact R.
  - f_equal; apply all; try assumption; intros c n Hc Hn R; apply (H n Hn); econstructor; eauto.
  - f_equal; apply all; try assumption; intros c n Hc Hn R; apply (H n Hn); econstructor; eauto.
Qed.

(** ** The removal of symbols *)
Lemma remove_symbol_is n m m' : remove_symbol n m = Some m' ->
  m' = mkModule (map (drop_var n) (erase_var n (m_vars m))) (map (drop_fun n) (m_funs m)).
Proof.
  unfold remove_symbol; destruct (lookup n (m_vars m)) as [[x [i|]]|]; try discriminate.
  destruct i; try (intros [= <-]; reflexivity). destruct (used_in _ _); [discriminate | intros [= <-]; reflexivity].
Qed.

Lemma erase_map n k l : erase_var n (map (drop_var k) l) = map (drop_var k) (erase_var n l).
Proof.
  induction l as [|v l IH]; simpl; [reflexivity|]. destruct (negb (String.eqb (v_name v) n)); simpl; rewrite IH; reflexivity.
Qed.
Lemma drops_nil c : drops [] c = c.
Proof. reflexivity. Qed.
Lemma drops_var_nil l : map (drops_var []) l = l.
Proof. induction l as [|[n [c|]] l IH]; simpl; f_equal; assumption. Qed.
Lemma drops_fun_nil l : map (drops_fun []) l = l.
Proof.
  induction l as [|[n cs] l IH]; simpl; f_equal; try assumption. unfold drops_fun; simpl; f_equal. rewrite <- (map_id cs) at 2. apply map_ext; reflexivity.
Qed.
Lemma drops_var_cons n ns v : drops_var ns (drop_var n v) = drops_var (n :: ns) v.
Proof. destruct v as [x [c|]]; reflexivity. Qed.
Lemma drops_fun_cons n ns f : drops_fun ns (drop_fun n f) = drops_fun (n :: ns) f.
Proof. destruct f as [x cs]; unfold drops_fun, drop_fun; simpl; f_equal. rewrite map_map; reflexivity. Qed.

Definition outside (ns : list string) (v : var) : bool := negb (mem (v_name v) ns).
Lemma outside_cons n ns l : filter (outside ns) (erase_var n l) = filter (outside (n :: ns)) l.
Proof.
  induction l as [|v l IH]; simpl; [reflexivity|]. unfold outside at 2; simpl.
  destruct (String.eqb (v_name v) n) eqn:E; simpl; rewrite ?E; simpl.
  - exact IH.
  - rewrite IH; reflexivity.
Qed.
Lemma outside_map ns n l : filter (outside ns) (map (drop_var n) l) = map (drop_var n) (filter (outside ns) l).
Proof.
  induction l as [|v l IH]; simpl; [reflexivity|]. change (outside ns (drop_var n v)) with (outside ns v).
  destruct (outside ns v); simpl; rewrite IH; reflexivity.
Qed.

Lemma remove_symbols_is ns : forall m m', remove_symbols ns m = Some m' ->
  m' = mkModule (map (drops_var ns) (filter (outside ns) (m_vars m))) (map (drops_fun ns) (m_funs m)).
Proof.
  induction ns as [|n ns IH]; intros m m' H; simpl in H.
  - injection H as <-. rewrite drops_var_nil, drops_fun_nil. destruct m as [vs fs]; simpl; f_equal.
    induction vs as [|v vs IHv]; simpl; [reflexivity | f_equal; exact IHv].
  - destruct (remove_symbol n m) as [m1|] eqn:E; [|discriminate]. apply remove_symbol_is in E.
    apply IH in H. rewrite H, E; simpl. f_equal.
    + rewrite outside_map, outside_cons, map_map. apply map_ext, drops_var_cons.
    + rewrite map_map; apply map_ext, drops_fun_cons.
Qed.

(** ** The whole *)
Definition is_used (v : var) : bool := String.eqb (v_name v) "llvm.used".
Definition plain (v : var) : bool := negb (symbol_name (v_name v)) && negb (is_used v).
Definition used_new (es : list const) : list var := match es with [] => [] | _ => [mkVar "llvm.used" (Some (KArray es))] end.
Definition table (m : kmodule) : list string := filter symbol_name (map v_name (m_vars m)).

Lemma in_table m n : In n (table m) <-> symbol_of m n.
Proof.
  unfold table, symbol_of; rewrite filter_In, symbol_name_spec, in_map_iff. firstorder.
Qed.
Lemma plain_spec v : plain v = true <-> ~ symbol (v_name v) /\ v_name v <> "llvm.used"%string.
Proof.
  unfold plain, is_used; rewrite andb_true_iff, !negb_true_iff, String.eqb_neq, <- symbol_name_spec, not_true_iff_false; reflexivity.
Qed.
Lemma outside_plain m l : incl l (m_vars m) -> filter (outside (table m)) (erase_var "llvm.used" l) = filter plain l.
Proof.
  induction l as [|v l IH]; intros H; [reflexivity|]. assert (Hl : incl l (m_vars m)) by (intros x Hx; apply H; right; exact Hx).
  specialize (IH Hl). simpl. unfold plain at 1, is_used.
  destruct (String.eqb (v_name v) "llvm.used") eqn:E; simpl; rewrite ?andb_false_r, ?andb_true_r; [exact IH|].
  unfold outside at 1. destruct (symbol_name (v_name v)) eqn:S; simpl.
  - rewrite (proj2 (mem_In (v_name v) (table m))); [exact IH|]. apply filter_In; split; [|exact S]. apply in_map, H; left; reflexivity.
  - rewrite (proj2 (mem_not_In (v_name v) (table m))); [simpl; f_equal; exact IH|]. intros K; apply filter_In in K; destruct K; congruence.
Qed.
Lemma outside_new m es : filter (outside (table m)) (used_new es) = used_new es.
Proof.
  destruct es; [reflexivity|]. simpl. unfold outside; simpl.
  rewrite (proj2 (mem_not_In "llvm.used"%string (table m))); [reflexivity|]. intros K; apply filter_In in K; destruct K; discriminate.
Qed.
Lemma erase_absent n l : lookup n l = None -> erase_var n l = l.
Proof.
  unfold lookup, erase_var; induction l as [|v l IH]; simpl; [reflexivity|]. destruct (String.eqb (v_name v) n); simpl; [discriminate|].
  intros H; f_equal; apply IH, H.
Qed.

(** What is left of "llvm.used" *)
Definition left_over (m : kmodule) (es : list const) : Prop :=
  (exists es0, used m es0 /\ es = filter (fun e => negb (symbol_name (entry_name e))) es0)
  \/ (~ In "llvm.used"%string (map v_name (m_vars m)) /\ es = []).

Lemma lookup_some n l v : lookup n l = Some v -> In v l /\ v_name v = n.
Proof. intros H; apply find_some in H; destruct H as [H1 H2]; apply String.eqb_eq in H2; auto. Qed.
Lemma lookup_none n l : lookup n l = None -> ~ In n (map v_name l).
Proof.
  intros H K; apply in_map_iff in K; destruct K as (v & Hv & Hi). apply (find_none _ _ H) in Hi. apply String.eqb_neq in Hi; contradiction.
Qed.
Lemma lookup_here l v : NoDup (map v_name l) -> In v l -> lookup (v_name v) l = Some v.
Proof.
  unfold lookup; induction l as [|w l IH]; intros D []; inversion D; subst; simpl.
  - rewrite String.eqb_refl; reflexivity.
  - destruct (String.eqb (v_name w) (v_name v)) eqn:E; [|apply IH; assumption].
    apply String.eqb_eq in E. exfalso; apply H2; rewrite E; apply in_map; assumption.
Qed.

Lemma table_removed m m' : remove_symbol_table m = Some m' ->
  exists es, left_over m es /\
    m' = mkModule (map (drops_var (table m)) (filter plain (m_vars m)) ++ map (drops_var (table m)) (used_new es)) (map (drops_fun (table m)) (m_funs m)).
Proof.
  unfold remove_symbol_table, clean_used. destruct (lookup "llvm.used" (m_vars m)) as [u|] eqn:E.
  - destruct (v_init u) as [c|] eqn:Eu; [|discriminate]. destruct c as [| | | | |es0]; try discriminate.
    intros H; apply remove_symbols_is in H. exists (filter (fun e => negb (symbol_name (entry_name e))) es0). split.
    + left; exists es0; split; [|reflexivity]. apply lookup_some in E; destruct E as [E1 E2]. unfold used. destruct u as [x i]; simpl in *; subst; exact E1.
    + simpl in H. fold (table m) in H. rewrite filter_app, outside_plain in H by (intros x Hx; exact Hx).
      change (match filter (fun y : const => negb (symbol_name (entry_name y))) es0 with [] => [] | _ :: _ => [mkVar "llvm.used" (Some (KArray (filter (fun z : const => negb (symbol_name (entry_name z))) es0)))] end)
        with (used_new (filter (fun e : const => negb (symbol_name (entry_name e))) es0)) in H.
      rewrite outside_new, map_app in H. exact H.
  - intros H; apply remove_symbols_is in H. exists []. split; [right; split; [apply lookup_none, E | reflexivity]|].
    simpl in *. fold (table m) in H. rewrite app_nil_r, <- (outside_plain m (m_vars m)) by (intros x Hx; exact Hx). rewrite erase_absent by exact E. exact H.
Qed.

Lemma without_drops_var m v : without_var (symbol_of m) v (drops_var (table m) v).
Proof.
  split; [reflexivity|]. destruct v as [n [c|]]; simpl; [|exact I]. eapply without_more; [apply in_table | apply drops_without].
Qed.
Lemma without_drops_list m cs : Forall2 (without (symbol_of m)) cs (map (drops (table m)) cs).
Proof. induction cs as [|c cs IH]; constructor; [|exact IH]. eapply without_more; [apply in_table | apply drops_without]. Qed.
Lemma without_drops_fun m f : without_fun (symbol_of m) f (drops_fun (table m) f).
Proof. split; [reflexivity | apply without_drops_list]. Qed.
Lemma Forall2_map_self {A} (R : A -> A -> Prop) h l : (forall x, R x (h x)) -> Forall2 R l (map h l).
Proof. intros H; induction l; constructor; auto. Qed.

Lemma map_drops_array ns es : drops ns (KArray es) = KArray (map (drops ns) es).
Proof.
  revert es; induction ns as [|n ns IH]; intros es; unfold drops; simpl; [f_equal; symmetry; rewrite <- (map_id es) at 2; apply map_ext; reflexivity|].
  fold (drops ns (KArray (map (drop n) es))). rewrite IH, map_map. reflexivity.
Qed.

(** ** When nothing fails *)
Lemma const_eqb_eq a : forall b, const_eqb a b = true -> a = b.
Proof.
  induction a as [|n|n|c r IH|l IH|l IH] using const_induction; intros [|n'|n'|c' r'|l'|l']; simpl; try discriminate; try reflexivity.
  - intros H; apply Z.eqb_eq in H; congruence.
  - intros H; apply String.eqb_eq in H; congruence.
  - intros H; apply andb_true_iff in H; destruct H as [H1 H2]; apply String.eqb_eq in H2; rewrite (IH _ H1); congruence.
  - intros H; f_equal. revert l' H; induction IH as [|x l Hx Hl IH2]; intros [|y l'] H; try discriminate; [reflexivity|].
    apply andb_true_iff in H; destruct H as [H1 H2]. f_equal; [apply Hx, H1 | apply IH2, H2].
  - intros H; f_equal. revert l' H; induction IH as [|x l Hx Hl IH2]; intros [|y l'] H; try discriminate; [reflexivity|].
    apply andb_true_iff in H; destruct H as [H1 H2]. f_equal; [apply Hx, H1 | apply IH2, H2].
Qed.
Lemma inside_refers n a c : refers n a -> inside a c = true -> refers n c.
Proof.
  intros R; induction c as [|i|m|c r IH|l IH|l IH] using const_induction; simpl; intros H; apply orb_true_iff in H;
    destruct H as [H | H]; try discriminate; try (apply const_eqb_eq in H; subst; assumption).
  - constructor; apply IH, H.
  - apply existsb_exists in H; destruct H as (x & Hx & H). rewrite Forall_forall in IH. econstructor; [exact Hx | apply IH; assumption].
  - apply existsb_exists in H; destruct H as (x & Hx & H). rewrite Forall_forall in IH. econstructor; [exact Hx | apply IH; assumption].
Qed.
Lemma refers_drop n k c : refers n (drop k c) -> refers n c.
Proof. intros R. destruct (without_refers _ n c _ (without_drop _ k c c (without_nothing c)) R) as [_ K]; exact K. Qed.
Lemma drop_refers n k c : n <> k -> refers n c -> refers n (drop k c).
Proof.
  intros N; induction 1 as [|c r R IH|l c Hc R IH|l c Hc R IH]; simpl.
  - apply String.eqb_neq in N; rewrite N; constructor.
  - constructor; exact IH.
  - econstructor; [apply in_map, Hc | exact IH].
  - econstructor; [apply in_map, Hc | exact IH].
Qed.

Lemma drop_names n l : map v_name (map (drop_var n) l) = map v_name l.
Proof. rewrite map_map; reflexivity. Qed.
Lemma erase_In n l v : In v (erase_var n l) <-> In v l /\ v_name v <> n.
Proof. unfold erase_var; rewrite filter_In, negb_true_iff, String.eqb_neq; reflexivity. Qed.
Lemma NoDup_names_filter (p : var -> bool) l : NoDup (map v_name l) -> NoDup (map v_name (filter p l)).
Proof.
  induction l as [|v l IH]; simpl; intros D; inversion D; subst; [constructor|].
  destruct (p v); simpl; [constructor|]; auto. intros K; apply H1. apply in_map_iff in K; destruct K as (w & Hw & Hi).
  apply filter_In in Hi; rewrite <- Hw; apply in_map; tauto.
Qed.

(** The symbols [ns] are in the module, with a value that refers to something of their own that is
    not among them. *)
Definition own_value (ns : list string) (m : kmodule) : Prop :=
  forall n, In n ns -> exists c p, In (mkVar n (Some c)) (m_vars m) /\ ~ In p ns /\ refers p c /\ ~ referred_elsewhere m n p.

Lemma remove_symbols_works ns : forall m, NoDup ns -> named m -> own_value ns m -> exists m', remove_symbols ns m = Some m'.
Proof.
  induction ns as [|n ns IH]; intros m D N O; [eexists; reflexivity|]. inversion D as [|? ? Dn D']; subst.
  simpl. destruct (O n (or_introl eq_refl)) as (c & p & Hv & Hp & R & E).
  set (m1 := mkModule (map (drop_var n) (erase_var n (m_vars m))) (map (drop_fun n) (m_funs m))).
  assert (S : remove_symbol n m = Some m1).
  { unfold remove_symbol. rewrite (lookup_here (m_vars m) (mkVar n (Some c)) N Hv : lookup n (m_vars m) = _).
    fold m1. destruct c as [| | | |l|]; try reflexivity. destruct (used_in (drop n (KStruct l)) m1) eqn:U; [|reflexivity]. exfalso.
    assert (Rn : refers p (drop n (KStruct l))) by (apply drop_refers; [intros ->; apply Hp; left; reflexivity | exact R]).
    unfold used_in in U; apply orb_true_iff in U; destruct U as [U | U].
    - apply existsb_exists in U; destruct U as (w & Hw & U). simpl in Hw; apply in_map_iff in Hw; destruct Hw as (v & <- & Hi).
      apply erase_In in Hi; destruct Hi as [Hi Hn]. destruct v as [x [d|]]; simpl in *; [|discriminate].
      apply E; left; exists (mkVar x (Some d)), d. repeat split; try assumption. apply (refers_drop p n), (inside_refers p _ _ Rn U).
    - apply existsb_exists in U; destruct U as (g & Hg & U). simpl in Hg; apply in_map_iff in Hg; destruct Hg as (f & <- & Hf).
      apply existsb_exists in U; destruct U as (d & Hd & U). simpl in Hd; apply in_map_iff in Hd; destruct Hd as (d0 & <- & Hd0).
      apply E; right; exists f, d0. repeat split; try assumption. apply (refers_drop p n), (inside_refers p _ _ Rn U). }
  rewrite S. apply IH; [exact D'| |].
  - unfold named, m1; simpl. rewrite drop_names. apply NoDup_names_filter, N.
  - intros k Hk. destruct (O k (or_intror Hk)) as (d & q & Hv' & Hq & R' & E').
    assert (Nk : k <> n) by (intros ->; contradiction).
    exists (drop n d), q. split; [|split; [|split]].
    + unfold m1; simpl. change (mkVar k (Some (drop n d))) with (drop_var n (mkVar k (Some d))). apply in_map, erase_In; split; assumption.
    + intros K; apply Hq; right; exact K.
    + apply drop_refers; [intros ->; apply Hq; left; reflexivity | exact R'].
    + intros [(v & e & Hi & Hn & He & Re) | (f & e & Hf & He & Re)]; apply E'.
      * unfold m1 in Hi; simpl in Hi; apply in_map_iff in Hi; destruct Hi as (v0 & <- & Hi). apply erase_In in Hi; destruct Hi as [Hi _].
        destruct v0 as [x [e0|]]; simpl in *; [|discriminate]. injection He as <-.
        left; exists (mkVar x (Some e0)), e0; repeat split; try assumption. apply (refers_drop q n), Re.
      * unfold m1 in Hf; simpl in Hf; apply in_map_iff in Hf; destruct Hf as (f0 & <- & Hf). simpl in He; apply in_map_iff in He; destruct He as (e0 & <- & He).
        right; exists f0, e0; repeat split; try assumption. apply (refers_drop q n), Re.
Qed.

Lemma table_works m :
  named m ->
  (forall v, In v (m_vars m) -> v_name v = "llvm.used"%string -> exists es, v_init v = Some (KArray es)) ->
  (forall v, In v (m_vars m) -> symbol (v_name v) ->
     exists c p, v_init v = Some c /\ ~ symbol p /\ refers p c /\ ~ referred_elsewhere m (v_name v) p) ->
  exists m', remove_symbol_table m = Some m'.
Proof.
  intros N U S. unfold remove_symbol_table, clean_used. fold (table m).
  assert (DT : NoDup (table m)) by (apply NoDup_filter, N).
  assert (base : forall l, named (mkModule l (m_funs m)) ->
            (forall v, In v (m_vars m) -> symbol (v_name v) -> In v l) ->
            (forall v c p, In v l -> v_init v = Some c -> refers p c -> exists w d, In w (m_vars m) /\ v_name w = v_name v /\ v_init w = Some d /\ refers p d) ->
            exists m', remove_symbols (table m) (mkModule l (m_funs m)) = Some m').
  { intros l Nl K B. apply remove_symbols_works; [exact DT | exact Nl|]. intros n Hn. apply in_table in Hn; destruct Hn as [Hs (v & Hv & <-)].
    destruct (S v Hv Hs) as (c & p & Hc & Hp & R & E). exists c, p. split; [|split; [|split]].
    - simpl. specialize (K v Hv Hs). destruct v as [x i]; simpl in *; subst; exact K.
    - intros J; apply in_table in J; destruct J as [J _]; contradiction.
    - exact R.
    - intros [(w & d & Hi & Hn & Hd & Rd) | J]; apply E; [left | right; exact J].
      destruct (B w d p Hi Hd Rd) as (w' & d' & K1 & K2 & K3 & K4). exists w', d'; repeat split; try assumption. rewrite K2; exact Hn. }
  destruct (lookup "llvm.used" (m_vars m)) as [u|] eqn:E.
  - apply lookup_some in E; destruct E as [Eu En]. destruct (U u Eu En) as [es He]. rewrite He.
    set (new := filter (fun e => negb (symbol_name (entry_name e))) es).
    apply base.
    + unfold named; simpl. rewrite map_app. destruct new as [|x new']; simpl; [rewrite app_nil_r; apply NoDup_names_filter, N|].
      apply NoDup_Add with (a := "llvm.used"%string) (l := map v_name (erase_var "llvm.used" (m_vars m))).
      * rewrite <- (app_nil_r (map v_name (erase_var "llvm.used" (m_vars m)))) at 1. apply Add_app.
      * split; [apply NoDup_names_filter, N|]. intros K; apply in_map_iff in K; destruct K as (w & Hw & Hi). apply erase_In in Hi; tauto.
    + intros v Hv Hs. apply in_or_app; left; apply erase_In; split; [exact Hv|]. intros J; rewrite J in Hs; destruct Hs; discriminate.
    + intros v c p Hi Hc R. apply in_app_or in Hi; destruct Hi as [Hi | Hi].
      * apply erase_In in Hi. exists v, c; repeat split; tauto.
      * destruct new as [|x new'] eqn:En'; [destruct Hi|]. destruct Hi as [<- | []]. simpl in Hc; injection Hc as <-.
        exists u, (KArray es); repeat split; try assumption. inversion R; subst. rewrite <- En' in H0. apply filter_In in H0. econstructor; [apply H0 | assumption].
  - apply base; [exact N | auto |]. intros v c p Hi Hc R. exists v, c; auto.
Qed.
