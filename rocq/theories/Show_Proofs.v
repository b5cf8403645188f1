(** * Proofs about the viewer *)
From Coq Require Import String Ascii ZArith Arith Bool Lia List Permutation.
From Verif Require Import PyBase Result_Model Output_Model Output_Spec Output_Proofs Output_Props Show_Model Show_Spec.
Import ListNotations.
Open Scope list_scope.

(** ** Locations *)
Section Locations.
  Variable leb : string -> string -> bool.
  Variable ys : list yresult.
  Hypothesis T : total_order leb.
  Hypothesis D : distinct_report ys.
  Let ix := make_index leb ys.
  Definition Good (p : location) : Prop :=
    match l_comp p, l_diff p with
    | Some c, Some f => exists d, lists_diff ys c f d
    | Some c, None => In c (map yr_function ys)
    | None, Some f => exists c d, lists_diff ys c f d
    | None, None => True
    end.
  Lemma comp_In c : In c (comp_funs ix) <-> In c (map yr_function ys).
  Proof. destruct (C48_lists leb ys T D) as ((P & _) & _). split; intros I; [eapply Permutation_in; [exact P|exact I]|eapply Permutation_in; [symmetry; exact P|exact I]]. Qed.
  Lemma comp_NoDup : NoDup (comp_funs ix).
  Proof. destruct (C48_lists leb ys T D) as ((P & _) & _). destruct D as (N & _). eapply Permutation_NoDup; [symmetry; exact P|exact N]. Qed.
  Lemma diff_of c l : diff_funs_of ix c = Ok l -> NoDup l /\ forall f, In f l <-> exists d, lists_diff ys c f d.
  Proof. destruct (C48_lists leb ys T D) as (_ & _ & H & _). intros E. destruct (H c l E) as (N & _ & I). auto. Qed.
  Lemma diff_known c : In c (map yr_function ys) -> exists l, diff_funs_of ix c = Ok l.
  Proof. destruct (C48_lists leb ys T D) as (_ & _ & _ & H & _). intros I. apply H. apply comp_In. exact I. Qed.
  Lemma comp_of f l : comp_funs_of ix f = Some l -> NoDup l /\ forall c, In c l <-> exists d, lists_diff ys c f d.
  Proof. destruct (C48_lists leb ys T D) as (_ & _ & _ & _ & H & _). intros E. destruct (H f l E) as (N & _ & I). auto. Qed.
  Lemma comp_known c f d : lists_diff ys c f d -> exists l, comp_funs_of ix f = Some l.
  Proof. destruct (C48_lists leb ys T D) as (_ & (_ & _ & I) & _ & _ & _ & H & _). intros L. apply H. apply I. eauto. Qed.
  Lemma diff_is c f d : get_diff ix c f = Ok (Some d) <-> lists_diff ys c f d.
  Proof. destruct (C48_lists leb ys T D) as (_ & _ & _ & _ & _ & _ & H). apply H. Qed.
  Lemma lists_comp c f d : lists_diff ys c f d -> In c (map yr_function ys).
  Proof. intros (y & I & <- & _). apply in_map. exact I. Qed.
  Lemma content_right p : Good p -> Right_page ys p (content ix p).
  Proof.
    destruct p as [[c|] [f|]]; unfold Good, content; cbn [l_comp l_diff].
    - intros (d & L). apply diff_is in L as E. fold ix in E. rewrite E. apply Right_difference. exact L.
    - intros I. destruct (diff_known c I) as (l & E). rewrite E. destruct (diff_of c l E). apply Right_differing; [exact I|split; assumption].
    - intros (c & d & L). destruct (comp_known c f d L) as (l & E). rewrite E. destruct (comp_of f l E). apply Right_compared_of. split; assumption.
    - intros _. apply Right_compared. split; [apply comp_NoDup|apply comp_In].
  Qed.
  Lemma diff_list_In c f : In c (map yr_function ys) -> In f (diff_list ix (Some c)) <-> exists d, lists_diff ys c f d.
  Proof. intros I. cbn. destruct (diff_known c I) as (l & E). rewrite E. apply (diff_of c l E). Qed.
  Lemma diff_list_NoDup c : NoDup (diff_list ix (Some c)).
  Proof. cbn. destruct (diff_funs_of ix c) as [l|] eqn:E; [apply (diff_of c l E)|constructor]. Qed.
  Lemma next_In l x y : next_in l x = Some y -> In y l.
  Proof. apply nth_error_In. Qed.
  Lemma prev_In l x y : prev_in l x = Some y -> In y l.
  Proof. unfold prev_in. destruct (index_of x l) as [[|i]|]; try discriminate. apply nth_error_In. Qed.
  Lemma go_good p c : In c (map yr_function ys) -> Good (go_compared ix p (Some c)).
  Proof.
    intros I. unfold Good, go_compared. cbn [l_comp l_diff]. destruct (l_diff p) as [f|]; [|exact I].
    destruct (nth_error (diff_list ix (Some c)) 0) as [x|] eqn:E; [|exact I]. apply nth_error_In in E. apply (diff_list_In c x I). exact E.
  Qed.
  Lemma not_last l x : NoDup l -> In x l -> is_last_in l x = false -> exists y, next_in l x = Some y.
  Proof.
    intros N I E. destruct (C48_navigation l x N I) as (_ & _ & H & _). destruct (next_in l x) as [y|]; [eauto|]. rewrite (proj2 H eq_refl) in E. discriminate.
  Qed.
  Lemma not_first l x : NoDup l -> In x l -> is_first_in l x = false -> exists y, prev_in l x = Some y.
  Proof.
    intros N I E. destruct (C48_navigation l x N I) as (_ & _ & _ & H). destruct (prev_in l x) as [y|]; [eauto|]. rewrite (proj2 H eq_refl) in E. discriminate.
  Qed.
  Lemma good_comp c f : Good (mkLoc (Some c) f) -> In c (map yr_function ys).
  Proof. unfold Good. cbn. destruct f as [f|]; [|auto]. intros (d & L). eapply lists_comp; eassumption. Qed.
  Lemma follow_good p k : Good p -> possible ix p k = true -> Good (follow ix p k).
  Proof.
    intros G P. destruct k as [x| | | | | | |]; cbn [possible follow] in *.
    - pose proof (content_right p G) as R. remember (content ix p) as g eqn:E. fold ix in E. destruct R as [c f d L|c l I L|f l L|l L]; cbn [l_comp l_diff]; try discriminate P; apply mem_In in P; apply L in P; exact P.
    - destruct (l_comp p) as [c|] eqn:C; [|discriminate]. destruct p as [c0 f]. cbn in C. subst c0. apply good_comp in G as I. apply comp_In in I. apply negb_true_iff in P.
      destruct (not_last _ _ comp_NoDup I P) as (y & E). unfold ix in *. rewrite E. apply go_good. apply comp_In. eapply next_In; exact E.
    - destruct (l_comp p) as [c|] eqn:C; [|discriminate]. destruct p as [c0 f]. cbn in C. subst c0. apply good_comp in G as I. apply comp_In in I. apply negb_true_iff in P.
      destruct (not_first _ _ comp_NoDup I P) as (y & E). unfold ix in *. rewrite E. apply go_good. apply comp_In. eapply prev_In; exact E.
    - destruct p as [[c|] [f|]]; cbn [l_comp l_diff] in *; try discriminate P. apply good_comp in G as I. apply negb_true_iff in P.
      destruct (not_last _ f (diff_list_NoDup c) (proj2 (diff_list_In c f I) G) P) as (y & E). rewrite E. apply (diff_list_In c y I). eapply next_In; exact E.
    - destruct p as [[c|] [f|]]; cbn [l_comp l_diff] in *; try discriminate P. apply good_comp in G as I. apply negb_true_iff in P.
      destruct (not_first _ f (diff_list_NoDup c) (proj2 (diff_list_In c f I) G) P) as (y & E). rewrite E. apply (diff_list_In c y I). eapply prev_In; exact E.
    - exact Logic.I.
    - destruct p as [[c|] f]; cbn [l_comp] in *; [|exact Logic.I]. apply good_comp in G. exact G.
    - destruct p as [[c|] [f|]]; cbn [l_diff] in *; try discriminate P; [|exact G]. destruct G as (d & L). exists c, d. exact L.
  Qed.
  Lemma way_good p ks q : Way ix p ks q -> Good p -> Good q.
  Proof. induction 1 as [p|p k ks q P W IH]; intros G; [exact G|]. apply IH. apply follow_good; assumption. Qed.
End Locations.

(** ** Lists of functions *)
Section Listing.
  Variable letter : string -> string.
  Lemma items_buttons : forall funs last, buttons (items letter last funs) = funs.
  Proof.
    unfold buttons. induction funs as [|f funs IH]; intros last; cbn [items]; [reflexivity|]. rewrite flat_map_app. cbn [flat_map]. rewrite IH.
    destruct last as [l|]; [destruct (String.eqb l (letter f))|]; reflexivity.
  Qed.
  Lemma skipn_twice {A} : forall (a b : nat) (l : list A), skipn b (skipn a l) = skipn (a + b) l.
  Proof. induction a as [|a IH]; intros b l; [reflexivity|]. destruct l as [|x l]; [cbn; apply skipn_nil|]. cbn. apply IH. Qed.
  Lemma slice_app {A} (a b c : nat) (l : list A) : (a <= b <= c)%nat -> slice a b l ++ slice b c l = slice a c l.
  Proof.
    intros L. unfold slice. rewrite <- (firstn_skipn (b - a) (firstn (c - a) (skipn a l))). f_equal.
    - rewrite firstn_firstn. f_equal. lia.
    - rewrite skipn_firstn_comm, skipn_twice. f_equal; [lia|]. f_equal. lia.
  Qed.
  Lemma slice_beyond {A} (a b : nat) (l : list A) : (length l <= b)%nat -> slice a b l = skipn a l.
  Proof. intros L. unfold slice. apply firstn_all2. rewrite skipn_length. lia. Qed.
  Lemma slice_length {A} (a b : nat) (l : list A) : (length (slice a b l) <= b - a)%nat.
  Proof. unfold slice. rewrite firstn_length. lia. Qed.
  Lemma columns_all funs : concat (columns letter funs) = items letter None funs.
  Proof.
    unfold columns. set (r := items letter None funs). set (s := step_size (length r)). cbn [concat]. rewrite app_nil_r.
    assert (X : slice (3 * s) (length r) r = slice (3 * s) (Nat.max (3 * s) (length r)) r).
    { destruct (Nat.le_gt_cases (length r) (3 * s)) as [L|L]; [|f_equal; lia]. rewrite (slice_beyond _ (Nat.max _ _)) by lia. rewrite skipn_all2 by lia.
      unfold slice. rewrite skipn_all2 by lia. apply firstn_nil. }
    rewrite X, (slice_app (2 * s)), (slice_app (1 * s)), (slice_app (0 * s)) by lia. rewrite slice_beyond by lia. reflexivity.
  Qed.
  Lemma step_enough n : (n <= 4 * step_size n)%nat.
  Proof.
    unfold step_size. pose proof (Nat.div_mod (n + 3) 4 ltac:(lia)) as E. pose proof (Nat.mod_upper_bound (n + 3) 4 ltac:(lia)) as U.
    pose proof (Nat.le_max_r 20 ((n + 3) / 4)). lia.
  Qed.
  (** The label of a button *)
  Lemma items_label : forall funs last a f b, items letter last funs = a ++ Button f :: b ->
    exists l a', match last with Some x => [x] | None => [] end ++ labels a = a' ++ [l] /\ l = letter f.
  Proof.
    induction funs as [|g funs IH]; intros last a f b E; cbn [items] in E; [destruct a; discriminate E|].
    assert (M : forall last0 a0, items letter (Some (letter g)) funs = a0 ++ Button f :: b -> exists l a', (last0 ++ [letter g]) ++ labels a0 = a' ++ [l] /\ l = letter f).
    { intros last0 a0 E0. destruct (IH _ _ _ _ E0) as (l & a' & H & ->). cbn [app] in H. rewrite <- app_assoc. cbn [app]. rewrite H. exists (letter f), (last0 ++ a'). rewrite app_assoc. auto. }
    assert (X : forall pre, (pre = [] /\ last = Some (letter g)) \/ pre = [Label (letter g)] -> pre ++ Button g :: items letter (Some (letter g)) funs = a ++ Button f :: b ->
      exists l a', match last with Some x => [x] | None => [] end ++ labels a = a' ++ [l] /\ l = letter f).
    { intros pre [[-> ->]| ->] E'; cbn [app] in E'.
      - destruct a as [|x a]; [injection E' as -> _; exists (letter f), []; auto|]. injection E' as <- E'. cbn [labels flat_map]. apply (M [] a E').
      - destruct a as [|x a]; [discriminate E'|]. injection E' as <- E'. destruct a as [|x a].
        + injection E' as -> _. exists (letter f), (match last with Some x => [x] | None => [] end). auto.
        + injection E' as <- E'. destruct (M (match last with Some x => [x] | None => [] end) a E') as (l & a' & H & K). exists l, a'. split; [|exact K]. rewrite <- H, <- app_assoc. reflexivity. }
    destruct last as [l|]; [destruct (String.eqb_spec l (letter g)) as [->|N]|]; apply (X _) in E; auto.
  Qed.
  (** Labels are not repeated *)
  Lemma items_labels : forall funs last x, In x (labels (items letter last funs)) -> exists f, In f funs /\ letter f = x.
  Proof.
    induction funs as [|g funs IH]; intros last x I; [destruct I|]. cbn [items] in I. unfold labels in *. rewrite flat_map_app in I. apply in_app_iff in I as [I|I].
    - exists g. split; [left; reflexivity|]. destruct last as [l|]; [destruct (String.eqb l (letter g))|]; cbn in I; intuition.
    - cbn in I. destruct (IH _ _ I) as (f & J & E). exists f. split; [right; exact J|exact E].
  Qed.
  Lemma in_groups_tl g funs : In_groups letter (g :: funs) -> In_groups letter funs.
  Proof. intros H a x b y c E. apply (H (g :: a) x b y c). rewrite E. reflexivity. Qed.
  Lemma items_not_last : forall funs last, (forall a f b, funs = a ++ f :: b -> letter f = last -> forall z, In z a -> letter z = last) ->
    ~ In last (labels (items letter (Some last) funs)).
  Proof.
    induction funs as [|g funs IH]; intros last H I; [destruct I|]. cbn [items] in I. unfold labels in I. rewrite flat_map_app in I. apply in_app_iff in I as [I|I].
    - destruct (String.eqb_spec last (letter g)) as [E|N]; [destruct I|]. cbn in I. intuition congruence.
    - cbn [flat_map] in I. change (In last (labels (items letter (Some (letter g)) funs))) in I. destruct (String.eqb_spec last (letter g)) as [E|N].
      + rewrite <- E in I. apply (IH last); [|exact I]. intros a f b E' L z J. apply (H (g :: a) f b); [rewrite E'; reflexivity|exact L|right; exact J].
      + apply items_labels in I as (f & J & L). apply in_split in J as (a & b & J). apply N. symmetry. apply (H (g :: a) f b); [rewrite J; reflexivity|exact L|left; reflexivity].
  Qed.
  Lemma labels_NoDup : forall funs last, In_groups letter funs -> NoDup (labels (items letter last funs)).
  Proof.
    induction funs as [|g funs IH]; intros last G; [constructor|]. cbn [items].
    assert (N : ~ In (letter g) (labels (items letter (Some (letter g)) funs))).
    { apply items_not_last. intros a f b E L z J. apply (G [] g a f b); [cbn; rewrite E; reflexivity|symmetry; exact L|exact J]. }
    specialize (IH (Some (letter g)) (in_groups_tl g funs G)).
    destruct last as [l|]; [destruct (String.eqb l (letter g))|]; cbn; [exact IH|constructor; assumption|constructor; assumption].
  Qed.
End Listing.

(** ** Call stacks *)
Section Stack.
  Variable nn : string -> string.
  Lemma index_of_Some x : forall l i, index_of x l = Some i -> exists a b, l = a ++ x :: b /\ length a = i /\ ~ In x a.
  Proof.
    induction l as [|y l IH]; intros i E; [discriminate|]. cbn in E. destruct (String.eqb_spec y x) as [->|N].
    - injection E as <-. exists [], l. auto.
    - destruct (index_of x l) as [j|]; [|discriminate]. injection E as <-. destruct (IH j eq_refl) as (a & b & -> & <- & I).
      exists (y :: a), b. split; [reflexivity|]. split; [reflexivity|]. intros [J|J]; contradiction.
  Qed.
  Lemma index_of_no x l : index_of x l = None -> ~ In x l.
  Proof. intros E. apply index_of_None. exact E. Qed.
  Lemma find_pair_Some : forall olds news i j, find_pair nn olds news = Some (i, j) ->
    exists a o b a' b', olds = a ++ o :: b /\ news = a' ++ nn o :: b' /\ length a = i /\ length a' = j /\ (forall x, In x a -> ~ In (nn x) news) /\ ~ In (nn o) a'.
  Proof.
    induction olds as [|o olds IH]; intros news i j E; [discriminate|]. cbn in E. destruct (index_of (nn o) news) as [k|] eqn:F.
    - injection E as <- <-. apply index_of_Some in F as (a' & b' & -> & L & N). exists [], o, olds, a', b'. repeat split; auto; try (intros x []).
    - destruct (find_pair nn olds news) as [[i' j']|] eqn:G; [|discriminate]. injection E as <- <-. destruct (IH news i' j' G) as (a & o' & b & a' & b' & -> & -> & <- & <- & N & N').
      exists (o :: a), o', b, a', b'. repeat split; auto. intros x [<-|I]; [apply index_of_no; exact F|apply N; exact I].
  Qed.
  Lemma find_pair_None : forall olds news, find_pair nn olds news = None -> forall x, In x olds -> ~ In (nn x) news.
  Proof.
    induction olds as [|o olds IH]; intros news E x I; [destruct I|]. cbn in E. destruct (index_of (nn o) news) as [k|] eqn:F; [discriminate|].
    destruct (find_pair nn olds news) as [[i j]|] eqn:G; [discriminate|]. destruct I as [<-|I]; [apply index_of_no; exact F|apply IH; assumption].
  Qed.
  (** One step *)
  Lemma skip_at {A} (a b : list A) : skipn (length a) (a ++ b) = b /\ firstn (length a) (a ++ b) = a.
  Proof. rewrite skipn_app, firstn_app, skipn_all, firstn_all, Nat.sub_diag. cbn. rewrite app_nil_r. auto. Qed.
  Lemma last_split {A} (x : A) l : exists a y, x :: l = a ++ [y] /\ length a = length l.
  Proof. destruct (exists_last (l := x :: l)) as (a & y & E); [discriminate|]. exists a, y. split; [exact E|]. apply (f_equal (@length A)) in E. rewrite app_length in E. cbn in E. lia. Qed.
  (** What [corresponding] yields for two calls that do not belong together *)
  Lemma corresponding_spec o olds w news : w <> nn o -> ~ (olds = [] /\ news = []) ->
    exists a b a' b', corresponding nn (o :: olds) (w :: news) = Some (length a, length a') /\ o :: olds = a ++ b /\ w :: news = a' ++ b' /\
      (a <> [] \/ a' <> []) /\
      (forall x y, In x a -> In y a' -> y <> nn x) /\
      exists o' c w' c', b = o' :: c /\ b' = w' :: c' /\ (w' = nn o' \/ (c = [] /\ c' = [])).
  Proof.
    intros N L. unfold corresponding. destruct (find_pair nn (o :: olds) (w :: news)) as [[i j]|] eqn:F.
    - apply find_pair_Some in F as (a & o' & c & a' & c' & E & E' & <- & <- & P & Q). exists a, (o' :: c), a', (nn o' :: c'). split; [reflexivity|]. split; [exact E|]. split; [exact E'|]. split.
      + destruct a as [|x a]; [|left; discriminate]. destruct a' as [|y a']; [|right; discriminate]. exfalso. injection E as -> _. injection E' as -> _. congruence.
      + split.
        * intros x y I J ->. apply (P x I). rewrite E'. apply in_app_iff. left. exact J.
        * exists o', c, (nn o'), c'. auto.
    - pose proof (find_pair_None _ _ F) as P. destruct (last_split o olds) as (a & o' & E & La), (last_split w news) as (a' & w' & E' & La').
      exists a, [o'], a', [w']. split; [rewrite La, La'; reflexivity|]. split; [exact E|]. split; [exact E'|]. split.
      + destruct a; [|left; discriminate]. destruct a'; [|right; discriminate]. exfalso. apply L. destruct olds; [|discriminate La]. destruct news; [|discriminate La']. auto.
      + split; [|exists o', [], w', []; auto].
        intros x y I J ->. apply (P x); [rewrite E; apply in_app_iff; left; exact I|]. rewrite E'. apply in_app_iff. left. exact J.
  Qed.
  Lemma calls_step o olds w news : w <> nn o -> ~ (olds = [] /\ news = []) ->
    exists a b a' b', (forall n acc, calls nn (S n) (o :: olds) (w :: news) acc = calls nn n b b' (acc ++ [Group a a'])) /\ o :: olds = a ++ b /\ w :: news = a' ++ b' /\
      (a <> [] \/ a' <> []) /\ (forall x y, In x a -> In y a' -> y <> nn x) /\ b <> [] /\ b' <> [].
  Proof.
    intros N L. destruct (corresponding_spec o olds w news N L) as (a & b & a' & b' & C & E & E' & P & Q & o' & c & w' & c' & -> & -> & _).
    exists a, (o' :: c), a', (w' :: c'). split; [|split; [exact E|split; [exact E'|split; [exact P|split; [exact Q|split; discriminate]]]]].
    intros n acc. cbn [calls]. apply String.eqb_neq in N. rewrite N. replace (match olds, news with [], [] => true | _, _ => false end) with false by (destruct olds, news; auto; exfalso; apply L; auto).
    cbn [orb]. rewrite C. rewrite E, E'. destruct (skip_at a (o' :: c)) as [-> ->], (skip_at a' (w' :: c')) as [-> ->]. reflexivity.
  Qed.
  Lemma calls_pair n o olds w news acc : w = nn o \/ (olds = [] /\ news = []) -> calls nn (S n) (o :: olds) (w :: news) acc = calls nn n olds news (acc ++ [Pair o w]).
  Proof. intros [->|[-> ->]]; cbn [calls]; [rewrite String.eqb_refl; reflexivity|]. rewrite orb_true_r. reflexivity. Qed.
  Lemma belongs o (olds : list string) w (news : list string) : (w = nn o \/ (olds = [] /\ news = [])) \/ (w <> nn o /\ ~ (olds = [] /\ news = [])).
  Proof.
    destruct (string_dec w (nn o)) as [->|N]; [left; left; reflexivity|]. destruct olds as [|x olds]; [destruct news as [|y news]|].
    - left. right. auto.
    - right. split; [exact N|]. intros [_ E]. discriminate.
    - right. split; [exact N|]. intros [E _]. discriminate.
  Qed.
  (** The loop ends *)
  Lemma calls_end : forall n olds news acc, (length olds + length news < n)%nat -> exists r, forall k, (n <= k)%nat -> calls nn k olds news acc = Some r.
  Proof.
    induction n as [|n IH]; intros olds news acc L; [lia|].
    destruct olds as [|o olds]; [exists (Some acc); intros [|k] K; [lia|reflexivity]|].
    destruct news as [|w news]; [exists None; intros [|k] K; [lia|reflexivity]|].
    destruct (belongs o olds w news) as [B|[N M]].
    - destruct (IH olds news (acc ++ [Pair o w])) as (r & H); [cbn in L; lia|]. exists r. intros [|k] K; [lia|]. rewrite calls_pair by exact B. apply H. lia.
    - destruct (calls_step o olds w news N M) as (a & b & a' & b' & X & E & E' & P & _ & _ & _).
      destruct (IH b b' (acc ++ [Group a a'])) as (r & H).
      + apply (f_equal (@length string)) in E, E'. rewrite app_length in E, E'. cbn in E, E', L. destruct a, a'; cbn in *; try lia. destruct P; congruence.
      + exists r. intros [|k] K; [lia|]. rewrite X. apply H. lia.
  Qed.
  (** What is shown *)
  Inductive Fine (olds news : list string) : row -> Prop :=
  | Fine_pair o w : w = nn o \/ (Last olds o /\ Last news w) -> Fine olds news (Pair o w)
  | Fine_group l l' : (forall x y, In x l -> In y l' -> y <> nn x) -> Fine olds news (Group l l').
  Lemma Last_app a l x : Last l x -> Last (a ++ l) x.
  Proof. intros (b & ->). exists (a ++ b). apply app_assoc. Qed.
  Lemma Last_cons a l x : Last l x -> Last (a :: l) x.
  Proof. apply (Last_app [a]). Qed.
  Lemma Fine_more a b olds news r : Fine olds news r -> Fine (a ++ olds) (b ++ news) r.
  Proof. intros [o w [->|[L M]]|l l' H]; constructor; auto. right. split; apply Last_app; assumption. Qed.
  Lemma calls_shown : forall n olds news acc r, calls nn n olds news acc = Some (Some r) ->
    exists rows rest, r = acc ++ rows /\ flat_map old_of rows = olds /\ flat_map new_of rows ++ rest = news /\ Forall (Fine olds news) rows.
  Proof.
    induction n as [|n IH]; intros olds news acc r E; [discriminate|].
    destruct olds as [|o olds]; [injection E as <-; exists [], news; rewrite app_nil_r; auto|].
    destruct news as [|w news]; [discriminate|].
    destruct (belongs o olds w news) as [B|[N M]].
    - rewrite calls_pair in E by exact B. destruct (IH _ _ _ _ E) as (rows & rest & -> & F & G & H). exists (Pair o w :: rows), rest. rewrite <- app_assoc. cbn. rewrite F, G.
      repeat split. constructor.
      + constructor. destruct B as [->|[-> ->]]; [left; reflexivity|right]. split; exists []; reflexivity.
      + eapply Forall_impl; [|exact H]. intros x. apply (Fine_more [o] [w]).
    - destruct (calls_step o olds w news N M) as (a & b & a' & b' & X & E1 & E2 & P & Q & _). rewrite X in E. destruct (IH _ _ _ _ E) as (rows & rest & -> & F & G & H).
      exists (Group a a' :: rows), rest. rewrite <- app_assoc. cbn. rewrite F, <- app_assoc, G. repeat split; auto. constructor; [constructor; exact Q|].
      rewrite E1, E2. eapply Forall_impl; [|exact H]. intros x. apply Fine_more.
  Qed.
  (** Everything is shown when the last calls are apart. *)
  Lemma app_split_last {A} (a b os : list A) o : b <> [] -> a ++ b = os ++ [o] -> exists c, b = c ++ [o] /\ os = a ++ c.
  Proof.
    intros N E. destruct (exists_last N) as (c & x & ->). rewrite app_assoc in E. apply app_inj_tail in E as [<- <-]. exists c. auto.
  Qed.
  Lemma Ends_tail a b a' b' : b <> [] -> b' <> [] -> Ends_apart nn (a ++ b) (a' ++ b') -> Ends_apart nn b b'.
  Proof.
    intros N N' (os & o & ws & w & E & E' & P & Q). apply app_split_last in E as (c & -> & ->); [|exact N]. apply app_split_last in E' as (c' & -> & ->); [|exact N'].
    exists c, o, c', w. repeat split; auto.
    - intros I. apply P. apply in_app_iff. right. exact I.
    - intros x I. apply Q. apply in_app_iff. right. exact I.
  Qed.
  Lemma calls_apart : forall n olds news acc r, Ends_apart nn olds news -> calls nn n olds news acc = Some r ->
    exists rows, r = Some (acc ++ rows) /\ flat_map old_of rows = olds /\ flat_map new_of rows = news.
  Proof.
    induction n as [|n IH]; intros olds news acc r A E; [discriminate|].
    destruct olds as [|o olds]; [destruct A as ([|] & o & ws & w & X & _); discriminate X|].
    destruct news as [|w news]; [destruct A as (os & o' & [|] & w & _ & X & _); discriminate X|].
    destruct (belongs o olds w news) as [B|[N M]].
    - rewrite calls_pair in E by exact B. destruct olds as [|o' olds], news as [|w' news].
      + destruct n; [discriminate E|]. injection E as <-. exists [Pair o w]. auto.
      + exfalso. destruct B as [->|[_ B]]; [|discriminate B]. destruct A as (os & x & ws & y & X & Y & P & Q). destruct os as [|z os]; [|destruct os; discriminate X]. injection X as ->.
        apply P. destruct ws as [|v ws]; [discriminate Y|]. injection Y as -> _. left. reflexivity.
      + exfalso. destruct B as [->|[B _]]; [|discriminate B]. destruct A as (os & x & ws & y & X & Y & P & Q). destruct ws as [|z ws]; [|destruct ws; discriminate Y]. injection Y as <-.
        destruct os as [|v os]; [discriminate X|]. injection X as -> _. apply (Q v); [left; reflexivity|reflexivity].
      + apply IH in E as (rows & -> & F & G); [|apply (Ends_tail [o] _ [w] _); [discriminate|discriminate|exact A]].
        exists (Pair o w :: rows). rewrite <- app_assoc. cbn. rewrite F, G. auto.
    - destruct (calls_step o olds w news N M) as (a & b & a' & b' & X & E1 & E2 & P & Q & Nb & Nb'). rewrite X in E.
      apply IH in E as (rows & -> & F & G); [|apply (Ends_tail a _ a' _); [exact Nb|exact Nb'|rewrite <- E1, <- E2; exact A]].
      exists (Group a a' :: rows). rewrite <- app_assoc. cbn. rewrite F, G. auto.
  Qed.
End Stack.
