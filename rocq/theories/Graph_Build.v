(** * Proofs about graphs built from SimpLL's output *)
From Coq Require Import String Ascii ZArith Arith Bool Lia List.
From Verif Require Import PyBase Result_Model Graph_Model Graph_Spec Graph_Proofs Graph_Merge Graph_Normalize.
Import ListNotations.
Open Scope list_scope.

(** ** Adding the calls of one side *)
Fixpoint vrefs (v : vid) (s : side) (i : nat) (cs : list ycall) : list eref :=
  match cs with
  | [] => []
  | c :: cs' => (if endswith (yc_fun c) ".void" then [(v, s, i)] else []) ++ vrefs v s (S i) cs'
  end.

Definition ykey (y : yresult) : string := key_of (yi_fun (yr_first y), yi_fun (yr_second y)).
Lemma dotted_spec n : has_char "." n = true <-> dotted n.
Proof.
  unfold dotted. induction n as [|c n IH]; cbn [has_char].
  - split; [discriminate|]. intros (a & b & E). destruct a; discriminate.
  - rewrite orb_true_iff, IH. split.
    + intros [C|(a & b & ->)].
      * apply Ascii.eqb_eq in C. subst c. exists ""%string, n. reflexivity.
      * exists (String c a), b. reflexivity.
    + intros (a & b & E). destruct a as [|d a]; simpl in E; injection E as -> ->.
      * left. apply Ascii.eqb_refl.
      * right. exists a, b. reflexivity.
Qed.
Lemma stored_as_ykey y k : stored_as y k <-> ykey y = k.
Proof.
  unfold stored_as, ykey, key_of. cbn [fst snd]. rewrite <- dotted_spec.
  destruct (has_char "." (yi_fun (yr_first y))); intuition congruence.
Qed.

Definition vclosed (ys : list yresult) : Prop :=
  forall y s c, In y ys -> In c (ycalls y s) -> is_variant (yc_fun c) ->
    exists y', In y' ys /\ ykey y' = yc_fun c.
Definition vdistinct (ys : list yresult) : Prop :=
  forall i j y y', nth_error ys i = Some y -> nth_error ys j = Some y' ->
    is_variant (ykey y) -> ykey y = ykey y' -> i = j.
Lemma vclosed_spec ys : vclosed ys <-> variants_closed ys.
Proof.
  split; intros C y s c I Ic V; destruct (C y s c I Ic V) as (y' & I' & E); exists y'; (split; [exact I'|]);
    apply stored_as_ykey; exact E.
Qed.
Lemma vdistinct_spec ys : vdistinct ys <-> variants_distinct ys.
Proof.
  split.
  - intros D i j y y' k I J V E E'. apply stored_as_ykey in E, E'. apply (D i j y y'); congruence.
  - intros D i j y y' I J V E. apply (D i j y y' (ykey y)); auto; apply stored_as_ykey; congruence.
Qed.

Lemma add_calls_spec s v cs : forall h g,
  exists h', add_calls s v (h, g) cs =
    (h', mkGraph (g_verts g) (g_equal g) (g_ecache g ++ vrefs v s (length (sel s (v_succ (h v)))) cs) (g_wcache g)) /\
  (forall w, w <> v -> h' w = h w) /\
  h' v = with_succ (h v) (upd s (v_succ (h v)) (sel s (v_succ (h v)) ++ map edge_from_yaml cs)).
Proof.
  unfold add_calls. induction cs as [|c cs IH]; intros h g; cbn [fold_left].
  - exists h. cbn [vrefs map]. rewrite !app_nil_r. destruct g. split; [reflexivity|]. split; [auto|].
    destruct (h v) as [a b c [l r] d e f i j k]. destruct s; reflexivity.
  - unfold add_edge at 2. cbn [fst snd].
    set (h1 := hset h v (add_successor (h v) s (edge_from_yaml c))).
    set (g1 := mkGraph (g_verts g) (g_equal g) _ (g_wcache g)).
    destruct (IH h1 g1) as (h' & E & O & V). exists h'. rewrite E.
    assert (SL : sel s (v_succ (h1 v)) = sel s (v_succ (h v)) ++ [edge_from_yaml c]).
    { unfold h1. rewrite hset_same. unfold add_successor. simpl. apply sel_upd_same. }
    split; [|split].
    + f_equal. cbn [g1 g_verts g_equal g_ecache g_wcache]. f_equal. cbn [vrefs].
      rewrite SL, app_length. cbn [length]. rewrite Nat.add_1_r.
      change (e_target (edge_from_yaml c)) with (yc_fun c).
      destruct (endswith (yc_fun c) ".void"); rewrite <- ?app_assoc; reflexivity.
    + intros w N. rewrite O by exact N. unfold h1. apply hset_other. exact N.
    + rewrite V, SL. unfold h1 at 1 2. rewrite hset_same. unfold add_successor. simpl.
      rewrite <- app_assoc. cbn [app]. destruct (h v) as [a b cc [l r] d e f i j k]. destruct s; reflexivity.
Qed.

Lemma vrefs_In v s cs : forall i r,
  In r (vrefs v s i cs) <->
  exists j c, r = (v, s, i + j) /\ nth_error cs j = Some c /\ is_variant (yc_fun c).
Proof.
  induction cs as [|c cs IH]; intros i r; cbn [vrefs].
  - split; [intros []|]. intros (j & c & _ & E & _). destruct j; discriminate.
  - rewrite in_app_iff, IH. split.
    + intros [I|(j & c' & -> & E & V)].
      * destruct (endswith (yc_fun c) ".void") eqn:W; [|destruct I]. destruct I as [<-|[]].
        exists 0, c. rewrite Nat.add_0_r. split; [reflexivity|]. split; [reflexivity|].
        apply is_variant_endswith. exact W.
      * exists (S j), c'. split; [f_equal; lia|auto].
    + intros (j & c' & -> & E & V). destruct j as [|j]; simpl in E.
      * injection E as ->. left. apply is_variant_endswith in V. rewrite V, Nat.add_0_r. left. reflexivity.
      * right. exists j, c'. split; [f_equal; lia|auto].
Qed.
Lemma vrefs_NoDup v s cs : forall i, NoDup (vrefs v s i cs).
Proof.
  induction cs as [|c cs IH]; intros i; cbn [vrefs]; [constructor|].
  destruct (endswith (yc_fun c) ".void"); cbn [app]; [|apply IH]. constructor; [|apply IH].
  intros I. apply vrefs_In in I. destruct I as (j & c' & [= E] & _). lia.
Qed.

(** ** One result *)
Lemma add_result_spec h n g y st :
  add_result (h, n, g) y = Ok st ->
  exists h', (forall w, w <> n -> h' w = h w) /\ represents y (h' n) /\
    st = (h', S n, mkGraph (dset (g_verts g) (ykey y) n)
                           (if kind_eqb (v_result (h' n)) EQUAL then set_add (yi_fun (yr_first y)) (g_equal g) else g_equal g)
                           (g_ecache g ++ vrefs n LEFT 0 (ycalls y LEFT) ++ vrefs n RIGHT 0 (ycalls y RIGHT))
                           (if endswith (ykey y) ".void" then g_wcache g ++ [n] else g_wcache g)).
Proof.
  unfold add_result, vertex_from_yaml.
  destruct (kind_from_string (yr_result y)) as [k|e] eqn:K; [|discriminate].
  set (x := new_vertex _ k _ _ _). set (h0 := hset h n x).
  assert (STEP : forall h1 g1,
    (match yi_calls (yr_first y) with
     | None => Ok (h0, g)
     | Some cl => match yi_calls (yr_second y) with
                  | None => Err KeyError
                  | Some cr => Ok (add_calls RIGHT n (add_calls LEFT n (h0, g) cl) cr)
                  end
     end) = Ok (h1, g1) ->
    (forall w, w <> n -> h1 w = h w) /\
    h1 n = with_succ x (map edge_from_yaml (ycalls y LEFT), map edge_from_yaml (ycalls y RIGHT)) /\
    g1 = mkGraph (g_verts g) (g_equal g) (g_ecache g ++ vrefs n LEFT 0 (ycalls y LEFT) ++ vrefs n RIGHT 0 (ycalls y RIGHT)) (g_wcache g)).
  { intros h1 g1 H. unfold ycalls. destruct (yi_calls (yr_first y)) as [cl|].
    - destruct (yi_calls (yr_second y)) as [cr|]; [|discriminate].
      destruct (add_calls_spec LEFT n cl h0 g) as (ha & Ea & Oa & Va).
      rewrite Ea in H.
      match type of H with Ok (add_calls RIGHT n (ha, ?gg) cr) = _ =>
        destruct (add_calls_spec RIGHT n cr ha gg) as (hb & Eb & Ob & Vb) end.
      rewrite Eb in H. injection H as <- <-. cbn [g_verts g_equal g_ecache g_wcache].
      assert (N0 : h0 n = x) by apply hset_same. rewrite N0 in *.
      split; [|split].
      + intros w N. rewrite Ob, Oa by exact N. apply hset_other. exact N.
      + rewrite Vb, Va. reflexivity.
      + rewrite Va. cbn [calls_list]. simpl. rewrite <- app_assoc. reflexivity.
    - injection H as <- <-. split; [|split].
      + intros w N. apply hset_other. exact N.
      + unfold h0. rewrite hset_same. reflexivity.
      + cbn [vrefs app]. rewrite !app_nil_r. destruct g. reflexivity. }
  destruct (match yi_calls (yr_first y) with None => Ok (h0, g) | Some _ => _ end) as [[h1 g1]|e] eqn:C; [|discriminate].
  destruct (STEP h1 g1 eq_refl) as (O & V & G). clear STEP C.
  destruct (nonfuns_from_yaml None (yr_objects y)) as [ds|e] eqn:D; [|discriminate].
  intros H. injection H as <-.
  exists (hset h1 n (with_nonfun (h1 n) ds)). split; [|split].
  - intros w N. rewrite hset_other by exact N. apply O. exact N.
  - rewrite hset_same, V. unfold represents. simpl. auto 12.
  - rewrite hset_same. rewrite V. unfold setitem. cbn [g_verts]. rewrite G. cbn [g_verts g_equal g_ecache g_wcache].
    rewrite hset_same. reflexivity.
Qed.

(** ** The invariant of the construction *)
Section Built.
  Variables (h0 : heap) (n0 : nat).
  Record binv (ys : list yresult) (h : heap) (n : nat) (g : graph) : Prop := {
    bi_n : n = n0 + length ys;
    bi_old : forall w, w < n0 \/ n <= w -> h w = h0 w;
    bi_rep : forall i y, nth_error ys i = Some y -> represents y (h (n0 + i));
    bi_keys : NoDup (dkeys (g_verts g));
    bi_get : forall k v, dget (g_verts g) k = Some v ->
       exists i y, v = n0 + i /\ nth_error ys i = Some y /\ ykey y = k /\
                   forall j y', i < j -> nth_error ys j = Some y' -> ykey y' <> k;
    bi_none : forall k, dget (g_verts g) k = None -> forall y, In y ys -> ykey y <> k;
    bi_edup : NoDup (g_ecache g);
    bi_ec : forall v s i, In (v, s, i) (g_ecache g) <->
       exists j y c, v = n0 + j /\ nth_error ys j = Some y /\ nth_error (ycalls y s) i = Some c /\ is_variant (yc_fun c);
    bi_wdup : NoDup (g_wcache g);
    bi_wc : forall w, In w (g_wcache g) <->
       exists i y, w = n0 + i /\ nth_error ys i = Some y /\ is_variant (ykey y);
    bi_eq : forall m, In m (g_equal g) <->
       exists y, In y ys /\ kind_from_string (yr_result y) = Ok EQUAL /\ yi_fun (yr_first y) = m }.

  Lemma binv_init : binv [] h0 n0 empty_graph.
  Proof.
    constructor; simpl; auto.
    - intros i y E. destruct i; discriminate.
    - constructor.
    - discriminate.
    - constructor.
    - intros v s i. split; [intros []|]. intros (j & y & c & _ & E & _). destruct j; discriminate.
    - constructor.
    - intros w. split; [intros []|]. intros (i & y & _ & E & _). destruct i; discriminate.
    - intros m. split; [intros []|]. intros (y & [] & _).
  Qed.

  Lemma nth_error_snoc {A} (l : list A) x i y :
    nth_error (l ++ [x]) i = Some y <-> nth_error l i = Some y \/ (i = length l /\ y = x).
  Proof.
    destruct (lt_eq_lt_dec i (length l)) as [[L|L]|L].
    - rewrite nth_error_app1 by exact L. split; [auto|]. intros [H|[E _]]; [auto|lia].
    - subst i. rewrite nth_error_app2, Nat.sub_diag by lia. cbn [nth_error].
      split; [intros [= <-]; auto|]. intros [H|[_ ->]]; [|reflexivity].
      assert (nth_error l (length l) = None) as N by (apply nth_error_None; lia). congruence.
    - assert (nth_error (l ++ [x]) i = None) as -> by (apply nth_error_None; rewrite app_length; simpl; lia).
      split; [discriminate|]. intros [H|[E _]]; [|lia].
      assert (nth_error l i = None) as N by (apply nth_error_None; lia). congruence.
  Qed.

  Lemma binv_step ys h n g y st :
    binv ys h n g -> add_result (h, n, g) y = Ok st ->
    exists h' n' g', st = (h', n', g') /\ binv (ys ++ [y]) h' n' g'.
  Proof.
    intros B H. apply add_result_spec in H. destruct H as (h' & O & R & ->).
    destruct B as [Bn Bo Br Bk Bg Bnn Bed Bec Bwd Bwc Beq].
    eexists _, _, _. split; [reflexivity|].
    constructor; cbn [g_verts g_equal g_ecache g_wcache].
    - rewrite app_length. simpl. lia.
    - intros w L. rewrite O by lia. apply Bo. lia.
    - intros i y' E. apply nth_error_snoc in E. destruct E as [E|[-> ->]].
      + rewrite O; [auto|]. assert (i < length ys) by (apply nth_error_Some; congruence). lia.
      + rewrite <- Bn. exact R.
    - apply dset_NoDup. exact Bk.
    - intros k v D. rewrite dget_dset in D. destruct (eqb_spec k (ykey y)) as [->|N].
      + injection D as <-. exists (length ys), y. split; [lia|]. split; [apply nth_error_snoc; auto|].
        split; [reflexivity|]. intros j y' L E. assert (j < length (ys ++ [y])) by (apply nth_error_Some; congruence).
        rewrite app_length in *. simpl in *. lia.
      + destruct (Bg k v D) as (i & y1 & -> & E & K & L). exists i, y1. split; [reflexivity|].
        split; [apply nth_error_snoc; auto|]. split; [exact K|]. intros j y' Lt E'.
        apply nth_error_snoc in E'. destruct E' as [E'|[-> ->]]; [eauto|congruence].
    - intros k D y' I. rewrite dget_dset in D. destruct (eqb_spec k (ykey y)) as [EK|N]; [discriminate D|].
      apply in_app_iff in I. destruct I as [I|[<-|[]]]; [eauto|congruence].
    - assert (FR : forall v s i, In (v, s, i) (g_ecache g) -> v < n).
      { intros v s i I. apply Bec in I. destruct I as (j & y' & c & -> & E & _).
        assert (j < length ys) by (apply nth_error_Some; congruence). lia. }
      assert (AP : forall (A : Type) (a b : list A), NoDup a -> NoDup b -> (forall x, In x a -> ~ In x b) -> NoDup (a ++ b)).
      { clear. induction a as [|x a IH]; intros b Na Nb D; simpl; [exact Nb|]. inversion Na; subst. constructor.
        - rewrite in_app_iff. intros [I|I]; [auto|]. apply (D x); simpl; auto.
        - apply IH; auto. intros z I. apply D. right. exact I. }
      apply AP; [exact Bed| |].
      + apply AP; try apply vrefs_NoDup. intros x I1 I2. apply vrefs_In in I1, I2.
        destruct I1 as (? & ? & -> & _), I2 as (? & ? & E & _). discriminate.
      + intros [[v s] i] I1 I2. apply FR in I1. apply in_app_iff in I2.
        destruct I2 as [I2|I2]; apply vrefs_In in I2; destruct I2 as (? & ? & [= -> _ _] & _); lia.
    - intros v s i. rewrite !in_app_iff, Bec, !vrefs_In. split.
      + intros [(j & y' & c & -> & E & C & V)|[(j & c & [= -> -> ->] & C & V)|(j & c & [= -> -> ->] & C & V)]].
        * exists j, y', c. rewrite nth_error_snoc. auto.
        * exists (length ys), y, c. rewrite nth_error_snoc. auto.
        * exists (length ys), y, c. rewrite nth_error_snoc. auto.
      + intros (j & y' & c & -> & E & C & V). apply nth_error_snoc in E. destruct E as [E|[-> ->]].
        * left. exists j, y', c. auto.
        * right. rewrite Bn. destruct s; [left|right]; exists i, c; auto.
    - destruct (endswith (ykey y) ".void"); [|exact Bwd].
      assert (NI : ~ In n (g_wcache g)).
      { intros I. apply Bwc in I. destruct I as (i & y' & -> & E & _).
        assert (i < length ys) by (apply nth_error_Some; congruence). lia. }
      clear - Bwd NI. induction (g_wcache g) as [|a l IH]; simpl; [constructor; [intros []|constructor]|].
      inversion Bwd; subst. constructor.
      + rewrite in_app_iff. intros [I|[->|[]]]; [auto|]. apply NI. left. reflexivity.
      + apply IH; auto. intros I. apply NI. right. exact I.
    - intros w. assert (IN : In w (if endswith (ykey y) ".void" then g_wcache g ++ [n] else g_wcache g) <->
                              In w (g_wcache g) \/ (w = n /\ is_variant (ykey y))).
      { rewrite <- is_variant_endswith. destruct (endswith (ykey y) ".void").
        - rewrite in_app_iff. simpl. intuition.
        - intuition discriminate. }
      rewrite IN, Bwc. split.
      + intros [(i & y' & -> & E & V)|[-> V]].
        * exists i, y'. rewrite nth_error_snoc. auto.
        * exists (length ys), y. rewrite nth_error_snoc. auto.
      + intros (i & y' & -> & E & V). apply nth_error_snoc in E. destruct E as [E|[-> ->]].
        * left. exists i, y'. auto.
        * right. auto.
    - intros m. assert (RK : kind_from_string (yr_result y) = Ok (v_result (h' n))) by apply R.
      assert (IN : In m (if kind_eqb (v_result (h' n)) EQUAL then set_add (yi_fun (yr_first y)) (g_equal g) else g_equal g) <->
                   In m (g_equal g) \/ (kind_from_string (yr_result y) = Ok EQUAL /\ yi_fun (yr_first y) = m)).
      { rewrite RK. destruct (kind_eqb_spec (v_result (h' n)) EQUAL) as [->|N].
        - rewrite set_add_In. intuition.
        - intuition congruence. }
      rewrite IN, Beq. split.
      + intros [(y' & I & E)|E].
        * exists y'. rewrite in_app_iff. auto.
        * exists y. rewrite in_app_iff. simpl. auto.
      + intros (y' & I & E). apply in_app_iff in I. destruct I as [I|[<-|[]]]; [left; eauto|auto].
  Qed.

  Lemma binv_fold : forall zs ys h n g st,
    binv ys h n g -> fold_res add_result (h, n, g) zs = Ok st ->
    exists h' n' g', st = (h', n', g') /\ binv (ys ++ zs) h' n' g'.
  Proof.
    induction zs as [|z zs IH]; intros ys h n g st B H; cbn [fold_res] in H.
    - injection H as <-. rewrite app_nil_r. eauto 6.
    - destruct (add_result (h, n, g) z) as [st1|] eqn:S; [|discriminate].
      destruct (binv_step _ _ _ _ _ _ B S) as (h1 & n1 & g1 & -> & B1).
      destruct (IH _ _ _ _ _ B1 H) as (h' & n' & g' & -> & B').
      rewrite <- app_assoc in B'. simpl in B'. eauto 6.
  Qed.

  Lemma built_binv ys h n g : built h0 n0 ys h n g -> binv ys h n g.
  Proof.
    unfold built. intros H. destruct (binv_fold ys [] h0 n0 empty_graph _ binv_init H) as (h' & n' & g' & [= <- <- <-] & B).
    exact B.
  Qed.
End Built.

(** ** Success of the construction *)
Lemma nonfuns_prev d ys : exists ds, nonfuns_from_yaml (Some d) ys = Ok ds.
Proof.
  revert d. induction ys as [|y ys IH]; intros d; cbn [nonfuns_from_yaml]; [eauto|].
  destruct y as [d'|].
  - destruct (IH d') as (ds & ->). eauto.
  - destruct (IH d) as (ds & ->). eauto.
Qed.

Lemma add_result_ok h n g y : yresult_ok y -> exists st, add_result (h, n, g) y = Ok st.
Proof.
  intros ((k & K) & C & D). unfold add_result, vertex_from_yaml. rewrite K.
  assert (N : exists ds, nonfuns_from_yaml None (yr_objects y) = Ok ds).
  { destruct (yr_objects y) as [|o os]; cbn [nonfuns_from_yaml]; [eauto|].
    destruct o as [d|]; [|exfalso; apply (D _ _ eq_refl); reflexivity].
    destruct (nonfuns_prev d os) as (ds & ->). eauto. }
  destruct N as (ds & N).
  destruct (yi_calls (yr_first y)) as [cl|].
  - destruct (yi_calls (yr_second y)) as [cr|]; [|exfalso; apply C; [discriminate|reflexivity]].
    destruct (add_calls RIGHT n _ cr) as [h1 g1]. rewrite N. eauto.
  - rewrite N. eauto.
Qed.

Lemma built_exists h0 n0 ys : Forall yresult_ok ys -> exists h n g, built h0 n0 ys h n g.
Proof.
  intros F. unfold built. generalize (@empty_graph) as g. revert h0 n0.
  induction F as [|y ys Y F IH]; intros h n g; cbn [fold_res]; [eauto|].
  destruct (add_result_ok h n g y Y) as (((h1 & n1) & g1) & ->). apply IH.
Qed.

(** ** Normalising a built graph *)
Section NormBuilt.
  Variables (h0 : heap) (n0 : nat) (ys : list yresult) (h : heap) (n : nat) (g : graph).
  Hypothesis B : binv h0 n0 ys h n g.
  Hypothesis ND : no_double_variants ys.

  Lemma ycalls_names y s c : In c (ycalls y s) -> In (yc_fun c) (names_in y).
  Proof.
    unfold ycalls, names_in. destruct (yi_calls (yr_first y)) as [cl|]; [|intros []].
    intros I. simpl. right. right. destruct s.
    - apply in_app_iff. left. apply in_map. exact I.
    - apply in_app_iff. right. unfold calls_list in I. destruct (yi_calls (yr_second y)); [|destruct I].
      apply in_map. exact I.
  Qed.
  Lemma ykey_names y : In (ykey y) (names_in y).
  Proof. unfold ykey, key_of, names_in. simpl. destruct (has_char _ _); auto. Qed.

  Lemma has_dot_variant m : has_char "." (variant m) = true.
  Proof. unfold variant. rewrite has_char_app. cbn. apply orb_true_r. Qed.

  Lemma key_pointed x : is_variant (key_of (v_names x)) -> pointed_name x = key_of (v_names x).
  Proof.
    unfold key_of, pointed_name. destruct (has_char "." (fst (v_names x))) eqn:E; intros V.
    - apply is_variant_endswith in V. rewrite V. reflexivity.
    - destruct (endswith (fst (v_names x)) ".void") eqn:W; [|reflexivity].
      apply is_variant_endswith in W. destruct W as (m & W). rewrite W, has_dot_variant in E. discriminate.
  Qed.

  Lemma key_rep i y : nth_error ys i = Some y -> key_of (v_names (h (n0 + i))) = ykey y.
  Proof. intros E. destruct (bi_rep _ _ _ _ _ _ B i y E) as (N & _). rewrite N. reflexivity. Qed.

  Lemma edge0_built v s i e : n0 <= v -> v < n -> edge0 h (v, s, i) = Some e ->
    exists y c, nth_error ys (v - n0) = Some y /\ nth_error (ycalls y s) i = Some c /\ e = edge_from_yaml c.
  Proof.
    intros L1 L2 E. unfold edge0 in E. cbn [fst snd] in E.
    assert (LT : v - n0 < length ys) by (pose proof (bi_n _ _ _ _ _ _ B); lia).
    destruct (nth_error ys (v - n0)) as [y|] eqn:Y; [|apply nth_error_None in Y; lia].
    destruct (bi_rep _ _ _ _ _ _ B _ y Y) as (_ & _ & _ & S & _).
    replace (n0 + (v - n0)) with v in S by lia. rewrite S in E.
    assert (E' : nth_error (map edge_from_yaml (ycalls y s)) i = Some e) by (destruct s; exact E).
    rewrite nth_error_map in E'. destruct (nth_error (ycalls y s) i) as [c|] eqn:C; [|discriminate].
    simpl in E'. injection E' as <-. eauto.
  Qed.
  Lemma refs_range v s i : In (v, s, i) (g_ecache g) -> n0 <= v < n.
  Proof.
    intros I. apply (bi_ec _ _ _ _ _ _ B) in I. destruct I as (j & y & c & -> & E & _).
    assert (j < length ys) by (apply nth_error_Some; congruence). pose proof (bi_n _ _ _ _ _ _ B). lia.
  Qed.
  Lemma refs_variant_built r : In r (g_ecache g) -> exists e, edge0 h r = Some e /\ is_variant (e_target e).
  Proof.
    destruct r as [[v s] i]. intros I. apply (bi_ec _ _ _ _ _ _ B) in I.
    destruct I as (j & y & c & -> & E & C & V). exists (edge_from_yaml c). split; [|exact V].
    unfold edge0. cbn [fst snd]. destruct (bi_rep _ _ _ _ _ _ B _ _ E) as (_ & _ & _ & S & _). rewrite S.
    assert (nth_error (map edge_from_yaml (ycalls y s)) i = Some (edge_from_yaml c)).
    { rewrite nth_error_map, C. reflexivity. }
    destruct s; exact H.
  Qed.
  Lemma no_double_built r e : In r (g_ecache g) -> edge0 h r = Some e -> ~ is_double_variant (e_target e).
  Proof.
    destruct r as [[v s] i]. intros I E. pose proof (refs_range _ _ _ I) as [L1 L2].
    destruct (edge0_built v s i e) as (y & c & Y & C & ->); auto.
    apply (ND y); [eapply nth_error_In; exact Y|]. apply ycalls_names with (s := s). eapply nth_error_In. exact C.
  Qed.

  Lemma in_ys_vertex y : In y ys -> exists i, nth_error ys i = Some y.
  Proof. apply In_nth_error. Qed.

  Lemma edge_fold_ok : vclosed ys -> exists h', fold_res (norm_edge g) h (g_ecache g) = Ok h'.
  Proof.
    intros C. apply edge_loop_ok.
    - apply refs_variant_built.
    - apply no_double_built.
    - apply (bi_edup _ _ _ _ _ _ B).
    - intros [[v s] i] e I E N. pose proof (refs_range _ _ _ I) as [L1 L2].
      destruct (edge0_built v s i e) as (y & c & Y & Cc & ->); auto.
      destruct (refs_variant_built _ I) as (e' & E' & V). rewrite E in E'. injection E' as <-.
      destruct (C y s c) as (y' & I' & K'); [eapply nth_error_In; eauto|eapply nth_error_In; eauto|exact V|].
      apply (bi_none _ _ _ _ _ _ B _ N y' I'). exact K'.
  Qed.

  Lemma edge_fold_closed h' : fold_res (norm_edge g) h (g_ecache g) = Ok h' -> vclosed ys.
  Proof.
    intros F y s c Iy Ic V. apply In_nth_error in Iy. destruct Iy as (i & Y).
    apply In_nth_error in Ic. destruct Ic as (j & C).
    assert (IE : In (n0 + i, s, j) (g_ecache g)) by (apply (bi_ec _ _ _ _ _ _ B); eauto 8).
    destruct (dget (g_verts g) (yc_fun c)) as [v|] eqn:D.
    - destruct (bi_get _ _ _ _ _ _ B _ _ D) as (k & y' & _ & Y' & K & _). exists y'. split; [eapply nth_error_In; eauto|exact K].
    - exfalso.
      assert (G : forall rs P hh, NoDup (P ++ rs) -> incl rs (g_ecache g) -> einv h g P hh -> In (n0 + i, s, j) rs ->
                  fold_res (norm_edge g) hh rs = Ok h' -> False).
      { clear F. induction rs as [|r rs IH]; intros P hh Np I E Ir F; [destruct Ir|]. cbn [fold_res] in F.
        destruct (norm_edge g hh r) as [h1|] eqn:S; [|discriminate].
        assert (NR : ~ In r P).
        { intros X. apply in_split in X. destruct X as (a & b & ->).
          rewrite <- app_assoc in Np. simpl in Np. apply NoDup_remove_2 in Np. apply Np.
          rewrite !in_app_iff. simpl. auto. }
        destruct Ir as [->|Ir].
        - unfold norm_edge in S.
          assert (E0 : edge0 h (n0 + i, s, j) = Some (edge_from_yaml c)).
          { unfold edge0. cbn [fst snd]. destruct (bi_rep _ _ _ _ _ _ B _ _ Y) as (_ & _ & _ & SS & _). rewrite SS.
            assert (X : nth_error (map edge_from_yaml (ycalls y s)) j = Some (edge_from_yaml c)).
            { rewrite nth_error_map, C. reflexivity. }
            destruct s; exact X. }
          destruct (ei_edge _ _ _ _ E _ _ _ _ E0) as (e & En & _ & _ & _ & T & _). specialize (T NR).
          rewrite En, T in S. unfold getitem in S. cbn [edge_from_yaml e_target] in S. rewrite D in S. discriminate.
        - apply (IH (r :: P) h1); auto.
          + simpl. constructor; [apply NoDup_remove_2 in Np; exact Np|apply NoDup_remove_1 in Np; exact Np].
          + intros z Iz. apply I. right. exact Iz.
          + eapply einv_step; eauto using refs_variant_built, no_double_built. apply I. left. reflexivity. }
      apply (G _ [] h (bi_edup _ _ _ _ _ _ B)) in F; auto; [intros z; auto|apply einv_init].
  Qed.

  Section AfterEdges.
    Variable h1 : heap.
    Hypothesis F : fold_res (norm_edge g) h (g_ecache g) = Ok h1.

    Lemma edges_done : succ_eq h1 h /\
      forall v, n0 <= v < n -> forall s, Forall2 (edge_normalized h g v) (sel s (v_succ (h v))) (sel s (v_succ (h1 v))).
    Proof.
      destruct (edge_loop_result h g refs_variant_built no_double_built h1 (bi_edup _ _ _ _ _ _ B) F) as (SE & R).
      split; [exact SE|]. intros v [L1 L2] s. apply R. intros s' i e E V.
      destruct (edge0_built v s' i e L1 L2 E) as (y & c & Y & C & ->).
      apply (bi_ec _ _ _ _ _ _ B). exists (v - n0), y, c. split; [lia|auto].
    Qed.

    Lemma pk_weak w i y : w = n0 + i -> nth_error ys i = Some y -> is_variant (ykey y) -> pk h1 w = ykey y.
    Proof.
      intros -> Y V. unfold pk. destruct edges_done as (SE & _).
      destruct (with_succ_inj _ _ _ (SE (n0 + i))) as (N & _).
      assert (PE : pointed_name (h1 (n0 + i)) = pointed_name (h (n0 + i))) by (unfold pointed_name; rewrite N; reflexivity).
      rewrite PE, key_pointed; rewrite (key_rep i y Y); auto.
    Qed.

    Lemma Kvar_built w : In w (g_wcache g) -> is_variant (pk h1 w) /\ ~ is_double_variant (pk h1 w).
    Proof.
      intros I. apply (bi_wc _ _ _ _ _ _ B) in I. destruct I as (i & y & E & Y & V).
      rewrite (pk_weak w i y E Y V). split; [exact V|]. apply (ND y).
      - eapply nth_error_In; eauto.
      - apply ykey_names.
    Qed.

    (** Every variant key belongs to a vertex of the cache with that pointed name. *)
    Lemma variant_key k v : is_variant k -> dget (g_verts g) k = Some v -> In v (g_wcache g) /\ pk h1 v = k.
    Proof.
      intros V D. destruct (bi_get _ _ _ _ _ _ B _ _ D) as (i & y & E & Y & K & _).
      assert (V' : is_variant (ykey y)) by (rewrite K; exact V).
      split; [|rewrite (pk_weak v i y E Y V'); exact K].
      apply (bi_wc _ _ _ _ _ _ B). eauto.
    Qed.

    Lemma weak_fold_ok : vdistinct ys -> exists st, fold_res norm_weak (h1, g) (g_wcache g) = Ok st.
    Proof.
      intros D. apply (weak_loop_ok h1 g Kvar_built (g_wcache g) []); auto.
      - apply (bi_wdup _ _ _ _ _ _ B).
      - intros x; auto.
      - apply winv_init. apply (bi_keys _ _ _ _ _ _ B).
      - simpl.
        assert (INJ : forall a b, In a (g_wcache g) -> In b (g_wcache g) -> pk h1 a = pk h1 b -> a = b).
        { intros a b Ia Ib E. apply (bi_wc _ _ _ _ _ _ B) in Ia, Ib.
          destruct Ia as (i & y & -> & Y & V), Ib as (j & y' & -> & Y' & V').
          rewrite (pk_weak _ i y eq_refl Y V), (pk_weak _ j y' eq_refl Y' V') in E.
          f_equal. eapply D; eauto. }
        pose proof (bi_wdup _ _ _ _ _ _ B) as N. revert N INJ. generalize (g_wcache g).
        induction l as [|a l IH]; intros N INJ; simpl; [constructor|]. inversion N; subst. constructor.
        + intros I. apply in_map_iff in I. destruct I as (b & Eb & Ib).
          assert (b = a) by (apply INJ; [right; exact Ib|left; reflexivity|exact Eb]). subst b. contradiction.
        + apply IH; auto. intros x z Ix Iz. apply INJ; right; assumption.
      - intros w I. apply (bi_wc _ _ _ _ _ _ B) in I. destruct I as (i & y & E & Y & V).
        rewrite (pk_weak w i y E Y V). intros N. apply (bi_none _ _ _ _ _ _ B _ N y); [eapply nth_error_In; eauto|reflexivity].
    Qed.

    Lemma weak_fold_result st : fold_res norm_weak (h1, g) (g_wcache g) = Ok st ->
      vdistinct ys /\ winv h1 g (g_wcache g) st.
    Proof.
      intros H.
      destruct (weak_loop_inv h1 g Kvar_built (g_wcache g) [] (h1, g) st) as (P & EP & W); auto.
      - apply (bi_wdup _ _ _ _ _ _ B).
      - intros x; auto.
      - apply winv_init. apply (bi_keys _ _ _ _ _ _ B).
      - assert (PI : forall w, In w P <-> In w (g_wcache g)) by (intros w; rewrite EP; simpl; tauto). clear EP.
        assert (INJ : forall a b, In a P -> In b P -> pk h1 a = pk h1 b -> a = b).
        { pose proof (wi_dist _ _ _ _ W) as N. clear - N. induction P as [|x P IH]; simpl in *; [tauto|].
          inversion N as [|? ? X N']; subst. intros a b [->|Ia] [->|Ib] E; auto.
          - exfalso. apply X. rewrite E. apply in_map. exact Ib.
          - exfalso. apply X. rewrite <- E. apply in_map. exact Ia. }
        split.
        + intros i j y y' Y Y' V E.
          assert (V' : is_variant (ykey y')) by (rewrite <- E; exact V).
          assert (n0 + i = n0 + j); [|lia]. apply INJ.
          * apply PI, (bi_wc _ _ _ _ _ _ B). eauto.
          * apply PI, (bi_wc _ _ _ _ _ _ B). eauto.
          * rewrite (pk_weak _ i y eq_refl Y V), (pk_weak _ j y' eq_refl Y' V'). exact E.
        + destruct W as [Wo Wi Wk Wv Wpo Wpn Wc We Wd]. constructor; auto.
          * intros w N. apply Wo. rewrite PI. exact N.
          * intros w I. apply Wi, PI, I.
          * intros k V. rewrite Wv by exact V.
            assert (M : mem k (map (pk h1) P) = mem k (map (pk h1) (g_wcache g))).
            { destruct (mem k (map (pk h1) P)) eqn:M1; symmetry.
              - apply mem_In in M1. apply in_map_iff in M1. destruct M1 as (a & Ea & Ia). apply mem_In, in_map_iff.
                exists a. split; [exact Ea|apply PI, Ia].
              - apply mem_not_In in M1. apply mem_not_In. intros C. apply M1. apply in_map_iff in C.
                destruct C as (a & Ea & Ia). apply in_map_iff. exists a. split; [exact Ea|apply PI, Ia]. }
            rewrite M. reflexivity.
          * intros k w N D. rewrite (Wpn k w N D), PI. tauto.
          * pose proof (bi_wdup _ _ _ _ _ _ B) as N.
            assert (INJ' : forall a b, In a (g_wcache g) -> In b (g_wcache g) -> pk h1 a = pk h1 b -> a = b).
            { intros a b Ia Ib. apply INJ; apply PI; assumption. }
            revert N INJ'. clear. generalize (g_wcache g).
            induction l as [|a l IH]; intros N INJ; simpl; [constructor|]. inversion N; subst. constructor.
            -- intros I. apply in_map_iff in I. destruct I as (b & Eb & Ib).
               assert (b = a) by (apply INJ; [right; exact Ib|left; reflexivity|exact Eb]). subst b. contradiction.
            -- apply IH; auto. intros x z Ix Iz. apply INJ; right; assumption.
    Qed.

    Lemma rounds_one st m : fold_res norm_weak (h1, g) (g_wcache g) = Ok st ->
      norm_rounds (S m) (h1, g) (g_wcache g) = Some (Ok st).
    Proof.
      intros H. destruct (weak_fold_result st H) as (_ & W). cbn [norm_rounds].
      destruct (g_wcache g) as [|w ws] eqn:E; [cbn [fold_res] in H; injection H as <-; reflexivity|].
      rewrite H. cbn [snd]. rewrite (wi_cache _ _ _ _ W), E. rewrite skipn_all. destruct m; reflexivity.
    Qed.
  End AfterEdges.

  Lemma normalize_built_ok h' g' fuel : normalize fuel h g = Some (Ok (h', g')) ->
    vclosed ys /\ vdistinct ys /\
    exists h1, fold_res (norm_edge g) h (g_ecache g) = Ok h1 /\ succ_eq h1 h /\
      (forall v, n0 <= v < n -> forall s, Forall2 (edge_normalized h g v) (sel s (v_succ (h v))) (sel s (v_succ (h1 v)))) /\
      winv h1 g (g_wcache g) (h', g') /\
      (forall k v, is_variant k -> dget (g_verts g) k = Some v -> In v (g_wcache g) /\ pk h1 v = k) /\
      (forall w i y, w = n0 + i -> nth_error ys i = Some y -> is_variant (ykey y) -> pk h1 w = ykey y).
  Proof.
    unfold normalize. destruct (fold_res (norm_edge g) h (g_ecache g)) as [h1|] eqn:F; [|discriminate].
    intros H. split; [eapply edge_fold_closed; eauto|].
    assert (ST : fold_res norm_weak (h1, g) (g_wcache g) = Ok (h', g')).
    { destruct fuel as [|fuel].
      - cbn [norm_rounds] in H. destruct (g_wcache g); [|discriminate]. injection H as <- <-. reflexivity.
      - destruct (fold_res norm_weak (h1, g) (g_wcache g)) as [st|e] eqn:W.
        + rewrite (rounds_one h1 F st fuel W) in H. congruence.
        + cbn [norm_rounds] in H. destruct (g_wcache g); [discriminate W|]. rewrite W in H. discriminate. }
    destruct (weak_fold_result h1 F _ ST) as (D & W). split; [exact D|].
    exists h1. split; [reflexivity|]. destruct (edges_done h1 F) as (SE & R). split; [exact SE|]. split; [exact R|]. split; [exact W|].
    split; [intros k v; apply variant_key; exact F|apply pk_weak; exact F].
  Qed.

  Lemma normalize_built_succeeds : vclosed ys -> vdistinct ys ->
    exists h' g', forall m, 1 <= m -> normalize m h g = Some (Ok (h', g')).
  Proof.
    intros C D. destruct (edge_fold_ok C) as (h1 & F). destruct (weak_fold_ok h1 F D) as ([h' g'] & W).
    exists h', g'. intros m L. destruct m as [|m]; [lia|]. unfold normalize. rewrite F. apply rounds_one; assumption.
  Qed.

  Lemma normalize_built_err fuel e : normalize fuel h g = Some (Err e) -> e = KeyError.
  Proof.
    unfold normalize. destruct (fold_res (norm_edge g) h (g_ecache g)) as [h1|x] eqn:F.
    - intros H. destruct (fold_res norm_weak (h1, g) (g_wcache g)) as [st|x] eqn:W.
      + exfalso. destruct fuel as [|fuel].
        * cbn [norm_rounds] in H. destruct (g_wcache g); discriminate.
        * rewrite (rounds_one h1 F st fuel W) in H. discriminate.
      + assert (x = KeyError).
        { apply (weak_loop_err h1 g (Kvar_built h1 F) (g_wcache g) [] (h1, g) x); auto.
          - apply (bi_wdup _ _ _ _ _ _ B).
          - intros z; auto.
          - apply winv_init. apply (bi_keys _ _ _ _ _ _ B). }
        destruct fuel as [|fuel]; cbn [norm_rounds] in H.
        * destruct (g_wcache g); discriminate.
        * destruct (g_wcache g); [discriminate|]. rewrite W in H. congruence.
    - intros [= ->]. apply (edge_loop_err h g e refs_variant_built no_double_built (bi_edup _ _ _ _ _ _ B) F).
  Qed.
End NormBuilt.

Lemma renamed_rest x n : v_names (renamed x n) = (n, n) /\
  v_result (renamed x n) = (if kind_eqb (v_result x) EQUAL then ASSUMED_EQUAL else v_result x) /\
  v_succ (renamed x n) = v_succ x /\ same_rest (renamed x n) x.
Proof.
  unfold renamed. cbv zeta. change (v_result (with_names x (n, n))) with (v_result x).
  destruct (kind_eqb (v_result x) EQUAL); cbn; repeat split.
Qed.

Lemma normalize_built_final h0 n0 ys h n g fuel h' g' :
  binv h0 n0 ys h n g -> no_double_variants ys -> normalize fuel h g = Some (Ok (h', g')) ->
  NoDup (dkeys (g_verts g')) /\
  (forall k, is_variant k -> dget (g_verts g') k = None) /\
  (forall k, ~ is_variant k ->
     dget (g_verts g') k = match dget (g_verts g) k with Some v => Some v | None => dget (g_verts g) (variant k) end) /\
  (forall v s, n0 <= v < n -> Forall2 (edge_normalized h g v) (sel s (v_succ (h v))) (sel s (v_succ (h' v)))) /\
  (forall k v, ~ is_variant k -> dget (g_verts g) k = Some v ->
     v_names (h' v) = v_names (h v) /\ v_result (h' v) = v_result (h v) /\ same_rest (h' v) (h v)) /\
  (forall k v, ~ is_variant k -> dget (g_verts g) k = None -> dget (g_verts g) (variant k) = Some v ->
     v_names (h' v) = (k, k) /\
     v_result (h' v) = (if kind_eqb (v_result (h v)) EQUAL then ASSUMED_EQUAL else v_result (h v)) /\
     same_rest (h' v) (h v)) /\
  (forall v, same_rest (h' v) (h v)) /\
  (forall v, v < n0 \/ n <= v -> h' v = h v).
Proof.
  intros B ND H.
  destruct (normalize_built_ok h0 n0 ys h n g B ND h' g' fuel H) as (C & D & h1 & F & SE & R & W & VK & PK).
  destruct W as [Wo Wi Wk Wv Wpo Wpn Wc We Wd]. cbn [fst snd] in *.
  assert (REST : forall v, same_rest (h1 v) (h v) /\ v_names (h1 v) = v_names (h v) /\ v_result (h1 v) = v_result (h v)).
  { intros v. destruct (with_succ_inj _ _ _ (SE v)) as (E1 & E2 & E3 & E4 & E5 & E6 & E7 & E8 & E9).
    unfold same_rest. rewrite E1, E2, E3, E4, E5, E6, E7, E8, E9. repeat split. }
  assert (CASE : forall v, h' v = h1 v \/ exists m, h' v = renamed (h1 v) m).
  { intros v. destruct (in_dec Nat.eq_dec v (g_wcache g)) as [I|I].
    - rewrite (Wi v I). destruct (dmem _ _); eauto.
    - left. apply Wo. exact I. }
  assert (PL : forall k v, ~ is_variant k -> dget (g_verts g) k = Some v -> ~ In v (g_wcache g)).
  { intros k v NV G I. destruct (bi_get _ _ _ _ _ _ B _ _ G) as (i & y & E & Y & K & _).
    apply (bi_wc _ _ _ _ _ _ B) in I. destruct I as (j & y' & E' & Y' & V').
    assert (i = j) by lia. subst j. rewrite Y in Y'. injection Y' as <-. rewrite K in V'. contradiction. }
  assert (INJ : forall a b, In a (g_wcache g) -> In b (g_wcache g) -> pk h1 a = pk h1 b -> a = b).
  { clear - Wd. induction (g_wcache g) as [|x P IH]; simpl in *; [tauto|].
    inversion Wd as [|? ? X N']; subst. intros a b [->|Ia] [->|Ib] E; auto.
    - exfalso. apply X. rewrite E. apply in_map. exact Ib.
    - exfalso. apply X. rewrite <- E. apply in_map. exact Ia. }
  assert (KEY : forall w k, In w (g_wcache g) -> pk h1 w = k -> dget (g_verts g) k = Some w).
  { intros w k I E. pose proof I as I'. apply (bi_wc _ _ _ _ _ _ B) in I'. destruct I' as (i & y & Ew & Y & V).
    pose proof (PK w i y Ew Y V) as P. destruct (dget (g_verts g) k) as [v|] eqn:G.
    - destruct (VK k v) as [Iv Ev]; [rewrite <- E, P; exact V|exact G|]. f_equal. apply INJ; auto. congruence.
    - exfalso. apply (bi_none _ _ _ _ _ _ B _ G y); [eapply nth_error_In; eauto|congruence]. }
  split; [exact Wk|]. split; [|split; [|split; [|split; [|split; [|split]]]]].
  - intros k V. rewrite Wv by exact V. destruct (mem k (map (pk h1) (g_wcache g))) eqn:M; [reflexivity|].
    destruct (dget (g_verts g) k) as [v|] eqn:G; [|reflexivity]. exfalso. apply mem_not_In in M. apply M.
    destruct (VK k v V G) as [I E]. rewrite <- E. apply in_map. exact I.
  - intros k NV. destruct (dget (g_verts g) k) as [v|] eqn:G; [eapply Wpo; eauto|].
    destruct (dget (g_verts g) (variant k)) as [w|] eqn:GV.
    + apply Wpn; auto. apply (VK (variant k) w); [exists k; reflexivity|exact GV].
    + destruct (dget (g_verts g') k) as [w|] eqn:G'; [|reflexivity]. exfalso.
      apply Wpn in G'; auto. destruct G' as [I E]. rewrite (KEY w _ I E) in GV. discriminate.
  - intros v s L. specialize (R v L s).
    assert (SS : v_succ (h' v) = v_succ (h1 v)).
    { destruct (CASE v) as [->|(m & ->)]; [reflexivity|apply (renamed_rest (h1 v) m)]. }
    rewrite SS. exact R.
  - intros k v NV G. rewrite (Wo v (PL k v NV G)). destruct (REST v) as (A & -> & ->). auto.
  - intros k v NV G GV. destruct (VK (variant k) v) as [I E]; [exists k; reflexivity|exact GV|].
    rewrite (Wi v I), E, chop_variant. unfold dmem. rewrite G.
    destruct (renamed_rest (h1 v) k) as (-> & -> & _ & (F1 & F2 & F3 & F4 & F5 & F6 & F7)).
    destruct (REST v) as ((A1 & A2 & A3 & A4 & A5 & A6 & A7) & _ & ->).
    unfold same_rest. rewrite F1, F2, F3, F4, F5, F6, F7. auto 12.
  - intros v. destruct (REST v) as ((A1 & A2 & A3 & A4 & A5 & A6 & A7) & _ & _).
    destruct (CASE v) as [->|(m & ->)]; [unfold same_rest; auto 12|].
    destruct (renamed_rest (h1 v) m) as (_ & _ & _ & (F1 & F2 & F3 & F4 & F5 & F6 & F7)).
    unfold same_rest. rewrite F1, F2, F3, F4, F5, F6, F7. auto 12.
  - intros v L. rewrite (Wo v).
    + (* outside the built range the first loop does nothing *)
      assert (NR : forall s i, ~ In (v, s, i) (g_ecache g)).
      { intros s i I. pose proof (refs_range h0 n0 ys h n g B v s i I). lia. }
      assert (FO : forall rs hh hh', (forall s i, ~ In (v, s, i) rs) -> fold_res (norm_edge g) hh rs = Ok hh' -> hh' v = hh v).
      { clear. induction rs as [|[[u s] i] rs IH]; intros hh hh' N F; cbn [fold_res] in F; [congruence|].
        destruct (norm_edge g hh (u, s, i)) as [h2|] eqn:S; [|discriminate].
        rewrite (IH h2 hh'); auto; [|intros s' i' X; apply (N s' i'); right; exact X].
        unfold norm_edge in S. destruct (nth_error _ i); [|discriminate]. destruct (getitem _ _); [|discriminate].
        injection S as <-. apply hset_other. intros ->. apply (N s i). left. reflexivity. }
      exact (FO _ _ _ NR F).
    + intros I. apply (bi_wc _ _ _ _ _ _ B) in I. destruct I as (i & y & -> & Y & _).
      assert (i < length ys) by (apply nth_error_Some; congruence). pose proof (bi_n _ _ _ _ _ _ B). lia.
Qed.

(** ** The whole construction *)
Lemma dvals_dget {V} (d : dict string V) v : NoDup (dkeys d) -> In v (dvals d) -> exists k, dget d k = Some v.
Proof.
  intros N I. unfold dvals in I. apply in_map_iff in I. destruct I as ([k v'] & <- & I). exists k.
  apply dget_In_NoDup; assumption.
Qed.

Lemma normalized_range h0 n0 ys h n g fuel h' g' k v :
  binv h0 n0 ys h n g -> no_double_variants ys -> normalize fuel h g = Some (Ok (h', g')) ->
  dget (g_verts g') k = Some v -> n0 <= v < n.
Proof.
  intros B ND H D. destruct (normalize_built_final _ _ _ _ _ _ _ _ _ B ND H) as (_ & V & P & _).
  destruct (is_variant_dec k) as [Y|N]; [rewrite V in D by exact Y; discriminate|].
  rewrite P in D by exact N.
  assert (exists k', dget (g_verts g) k' = Some v) as (k' & D').
  { destruct (dget (g_verts g) k) as [w|] eqn:E; [injection D as ->|]; eauto. }
  destruct (bi_get _ _ _ _ _ _ B _ _ D') as (i & y & -> & Y & _).
  assert (i < length ys) by (apply nth_error_Some; congruence). pose proof (bi_n _ _ _ _ _ _ B). lia.
Qed.

Lemma build_graph_ok h0 n0 ys :
  preds_below h0 n0 -> (forall u p, In p (fst (v_pred (h0 u))) -> fst (v_files (h0 p)) <> None) ->
  Forall yresult_ok ys -> no_double_variants ys ->
  vclosed ys -> vdistinct ys ->
  (forall y, In y ys -> yi_file (yr_first y) <> None) ->
  exists h n g h2 g2 h4,
    built h0 n0 ys h n g /\
    (exists fuel, normalize fuel h g = Some (Ok (h2, g2))) /\
    (exists fuel, mark_uncachable fuel (populate_predecessor_lists h2 g2) g2 = Some (Ok h4)) /\
    preds_below (populate_predecessor_lists h2 g2) n /\
    terminates_with (fun fuel => build_graph fuel h0 n0 ys) (Ok (h4, n, g2)).
Proof.
  intros PB PF OK ND C D FI.
  destruct (built_exists h0 n0 ys OK) as (h & n & g & BU). pose proof (built_binv _ _ _ _ _ _ BU) as B.
  destruct (normalize_built_succeeds h0 n0 ys h n g B ND C D) as (h2 & g2 & N).
  pose proof (normalize_built_final _ _ _ _ _ _ 1 _ _ B ND (N 1 (le_n _))) as (NK & _ & _ & _ & _ & _ & SR & OUT).
  set (h3 := populate_predecessor_lists h2 g2).
  assert (PP : preds_below h3 n).
  { intros u p I. destruct (populate_spec h2 g2) as (_ & PS). specialize (PS p u LEFT).
    change (sel LEFT (v_pred (populate_predecessor_lists h2 g2 u))) with (fst (v_pred (h3 u))) in PS.
    apply PS in I. destruct I as [I|[I _]].
    - destruct (SR u) as (_ & _ & _ & _ & _ & _ & E). simpl in I. rewrite E in I.
      destruct (le_lt_dec n0 u) as [L|L].
      + destruct (le_lt_dec n u) as [L2|L2].
        * rewrite (bi_old _ _ _ _ _ _ B) in I by lia. apply PB in I. pose proof (bi_n _ _ _ _ _ _ B). lia.
        * exfalso. assert (LT : u - n0 < length ys) by (pose proof (bi_n _ _ _ _ _ _ B); lia).
          destruct (nth_error ys (u - n0)) as [y|] eqn:Y; [|apply nth_error_None in Y; lia].
          destruct (bi_rep _ _ _ _ _ _ B _ y Y) as (_ & _ & _ & _ & _ & _ & _ & _ & _ & P).
          replace (n0 + (u - n0)) with u in P by lia. rewrite P in I. destruct I.
      + rewrite (bi_old _ _ _ _ _ _ B) in I by lia. apply PB in I. pose proof (bi_n _ _ _ _ _ _ B). lia.
    - apply dvals_dget in I; [|exact NK]. destruct I as (k & Dk).
      apply (normalized_range _ _ _ _ _ _ _ _ _ _ _ B ND (N 1 (le_n _)) Dk). }
  destruct (mark_all_terminates (dvals (g_verts g2)) h3 n PP) as ([h4|e] & km & TM).
  - exists h, n, g, h2, g2, h4. split; [exact BU|]. split; [exists 1; apply N; lia|].
    split; [exists km; apply TM; lia|]. split; [exact PP|].
    exists (S km). intros m L. unfold build_graph. unfold built in BU. rewrite BU. rewrite N by lia. cbn [obind].
    fold h3. unfold mark_uncachable. rewrite TM by lia. reflexivity.
  - exfalso. pose proof (TM km (le_n _)) as M. apply mark_all_succeeds in M. destruct M as (_ & M).
    assert (FF : forall v, n0 <= v < n -> fst (v_files (h3 v)) <> None).
    { intros v L. destruct (populate_spec h2 g2) as (PE & _). pose proof (with_pred_inj _ _ _ (PE v)) as A.
      fold h3 in A.
      assert (FE : v_files (h3 v) = v_files (h2 v)) by tauto. rewrite FE.
      destruct (SR v) as (_ & -> & _).
      assert (LT : v - n0 < length ys) by (pose proof (bi_n _ _ _ _ _ _ B); lia).
      destruct (nth_error ys (v - n0)) as [y|] eqn:Y; [|apply nth_error_None in Y; lia].
      destruct (bi_rep _ _ _ _ _ _ B _ y Y) as (_ & _ & _ & _ & F & _).
      replace (n0 + (v - n0)) with v in F by lia. rewrite F. apply FI. eapply nth_error_In; eauto. }
    assert (RG : forall v, In v (dvals (g_verts g2)) -> n0 <= v < n).
    { intros v I. apply dvals_dget in I; [|exact NK]. destruct I as (k & Dk).
      apply (normalized_range _ _ _ _ _ _ _ _ _ _ _ B ND (N 1 (le_n _)) Dk). }
    destruct M as [(v & I & F)|(u & p & I & F)].
    + apply (FF v); auto.
    + destruct (populate_spec h2 g2) as (PE & PS). specialize (PS p u LEFT).
      change (sel LEFT (v_pred (populate_predecessor_lists h2 g2 u))) with (fst (v_pred (h3 u))) in PS.
      apply PS in I. destruct I as [I|[I _]]; [|apply (FF p); auto].
      destruct (SR u) as (_ & _ & _ & _ & _ & _ & E). simpl in I. rewrite E in I.
      assert (OLD : u < n0 \/ n <= u).
      { destruct (le_lt_dec n0 u) as [L|L]; [|auto]. destruct (le_lt_dec n u) as [L2|L2]; [auto|]. exfalso.
        assert (LT : u - n0 < length ys) by (pose proof (bi_n _ _ _ _ _ _ B); lia).
        destruct (nth_error ys (u - n0)) as [y|] eqn:Y; [|apply nth_error_None in Y; lia].
        destruct (bi_rep _ _ _ _ _ _ B _ y Y) as (_ & _ & _ & _ & _ & _ & _ & _ & _ & P).
        replace (n0 + (u - n0)) with u in P by lia. rewrite P in I. destruct I. }
      rewrite (bi_old _ _ _ _ _ _ B u OLD) in I. pose proof (PB u p I) as LP.
      apply (PF u p I). pose proof (with_pred_inj _ _ _ (PE p)) as A. fold h3 in A.
      assert (FE : v_files (h3 p) = v_files (h2 p)) by tauto. rewrite FE in F.
      rewrite (OUT p) in F by lia. rewrite (bi_old _ _ _ _ _ _ B p) in F by lia. exact F.
Qed.
