(** * Properties of the viewer: call stacks, lists, navigation, code (C132-C135) *)
From Coq Require Import String Ascii ZArith Arith Bool Lia List.
From Verif Require Import PyBase Result_Model Output_Model Output_Spec Output_Proofs Output_Props Show_Model Show_Spec Show_Proofs.
From Verif Require Kernel_Proofs.
Import ListNotations.
Open Scope list_scope.

(** ** C132 Call stacks *)
(** The arrangement of two call stacks always ends, and it does not depend on how long one waits. *)
Theorem C132_ends : forall new_name comp olds news,
  exists r, forall n, (length olds + length news < n)%nat -> stack_rows new_name n comp olds news = Some r.
Proof.
  intros nn comp olds news. unfold stack_rows. destruct (calls_end nn (S (length olds + length news)) olds news [Pair comp comp] ltac:(lia)) as (r & H).
  exists r. intros n L. apply H. lia.
Qed.
Print Assumptions C132_ends.
Lemma calls_more nn : forall n olds news acc r k, calls nn n olds news acc = Some r -> (n <= k)%nat -> calls nn k olds news acc = Some r.
Proof.
  induction n as [|n IH]; intros olds news acc r k E L; [discriminate|]. destruct k as [|k]; [lia|]. cbn [calls] in *. destruct olds as [|o olds]; [exact E|]. destruct news as [|w news]; [exact E|].
  destruct (_ || _); [apply IH; [exact E|lia]|]. destruct (corresponding _ _ _) as [[i j]|]; [|exact E]. apply IH; [exact E|lia].
Qed.
(** If call stacks are shown, the compared function and all old calls are shown on the left in their order, and on the
    right the compared function and the first new calls in their order. Calls that share a row correspond to each other
    or are the last ones; of calls that are grouped none corresponds to another. *)
Theorem C132_shown : forall new_name n comp olds news rows, stack_rows new_name n comp olds news = Some (Some rows) ->
  flat_map old_of rows = comp :: olds /\ (exists rest, flat_map new_of rows ++ rest = comp :: news) /\ hd_error rows = Some (Pair comp comp) /\
  forall r, In r (tl rows) ->
    match r with
    | Pair o w => w = new_name o \/ (Last olds o /\ Last news w)
    | Group l l' => forall x y, In x l -> In y l' -> y <> new_name x
    end.
Proof.
  intros nn n comp olds news rows E. unfold stack_rows in E. apply calls_shown in E as (rs & rest & -> & F & G & H). cbn. rewrite F. split; [reflexivity|]. split; [exists rest; rewrite G; reflexivity|].
  split; [reflexivity|]. intros r I. rewrite Forall_forall in H. destruct (H r I); assumption.
Qed.
Print Assumptions C132_shown.
(** If the last calls correspond to no other calls, both call stacks are shown, and shown completely. *)
Theorem C132_complete : forall new_name n comp olds news, (length olds + length news < n)%nat -> Ends_apart new_name olds news ->
  exists rows, stack_rows new_name n comp olds news = Some (Some rows) /\ flat_map old_of rows = comp :: olds /\ flat_map new_of rows = comp :: news.
Proof.
  intros nn n comp olds news L A. destruct (C132_ends nn comp olds news) as (r & H). specialize (H n L). pose proof H as E. unfold stack_rows in E.
  apply calls_apart in E as (rs & -> & F & G); [|exact A]. eexists. split; [exact H|]. cbn. rewrite F, G. auto.
Qed.
Print Assumptions C132_complete.
(** Equal call stacks are shown call by call. *)
Theorem C132_same : forall new_name n comp olds, (length olds < n)%nat ->
  stack_rows new_name n comp olds (map new_name olds) = Some (Some (Pair comp comp :: map (fun o => Pair o (new_name o)) olds)).
Proof.
  intros nn n comp olds L. unfold stack_rows.
  assert (X : forall olds n acc, (length olds < n)%nat -> calls nn n olds (map nn olds) acc = Some (Some (acc ++ map (fun o => Pair o (nn o)) olds))).
  { induction olds0 as [|o os IH]; intros m acc M; (destruct m as [|m]; [lia|]); [cbn; rewrite app_nil_r; reflexivity|]. cbn [map]. rewrite calls_pair by (left; reflexivity). rewrite IH by (cbn in M; lia). rewrite <- app_assoc. reflexivity. }
  rewrite X by exact L. reflexivity.
Qed.
Print Assumptions C132_same.
(** In the viewer the calls correspond by the names in the definitions. *)
Theorem C132_names : forall defs n comp d rows, shown_stack n defs comp d = Some (Some rows) ->
  flat_map old_of rows = comp :: map c_name (yd_old d) /\ (exists rest, flat_map new_of rows ++ rest = comp :: map c_name (yd_new d)) /\
  forall r, In r (tl rows) ->
    match r with
    | Pair o w => Renamed defs o w \/ (Last (map c_name (yd_old d)) o /\ Last (map c_name (yd_new d)) w)
    | Group l l' => forall x y, In x l -> In y l' -> ~ Renamed defs x y
    end.
Proof.
  assert (X : forall defs o w, Renamed defs o w <-> w = get_new_name defs o).
  { intros defs o w. unfold Renamed, get_new_name. destruct (dget defs o) as [y|].
    - destruct (yi_name (yf_new y)) as [m|] eqn:M.
      + destruct (String.eqb_spec m "") as [->|N].
        * split; [intros [(y' & E & F & G)|[-> _]]; [injection E as <-; congruence|reflexivity]|]. intros ->. right. split; [reflexivity|]. intros y' m' E F. injection E as <-. congruence.
        * split; [intros [(y' & E & F & G)|[-> H]]; [injection E as <-; congruence|exfalso; apply N; eapply H; [reflexivity|exact M]]|]. intros ->. left. exists y. auto.
      + split; [intros [(y' & E & F & G)|[-> _]]; [injection E as <-; congruence|reflexivity]|]. intros ->. right. split; [reflexivity|]. intros y' m' E F. injection E as <-. congruence.
    - split; [intros [(y' & E & _)|[-> _]]; [discriminate|reflexivity]|]. intros ->. right. split; [reflexivity|]. intros; discriminate. }
  intros defs n comp d rows E. apply C132_shown in E as (F & G & _ & H). split; [exact F|]. split; [exact G|]. intros r I. specialize (H r I). destruct r as [o w|l l'].
  - rewrite X. exact H.
  - intros x y J K R. apply X in R. apply (H x y J K R).
Qed.
Print Assumptions C132_names.
(** A new call after the one that corresponds to the last old one is not shown. *)
Theorem C132_missing_refuted : exists comp olds news rows, forall n, (length olds + length news < n)%nat ->
  stack_rows (fun x => x) n comp olds news = Some (Some rows) /\ exists w, In w news /\ ~ In w (flat_map new_of rows).
Proof.
  exists "a"%string, ["f"%string], ["f"%string; "g"%string], [Pair "a" "a"; Pair "f" "f"]. intros n L. cbn in L. split.
  - do 2 (destruct n as [|n]; [lia|]). reflexivity.
  - exists "g"%string. split; [right; left; reflexivity|]. cbn. intros [E|[E|[]]]; discriminate E.
Qed.
Print Assumptions C132_missing_refuted.
(** When the last new call corresponds to an old one that is not the last, nothing is shown at all. *)
Theorem C132_crash_refuted : exists comp olds news, forall n, (length olds + length news < n)%nat ->
  stack_rows (fun x => x) n comp olds news = Some None.
Proof. exists "a"%string, ["f"%string; "g"%string], ["f"%string]. intros n L. cbn in L. do 2 (destruct n as [|n]; [lia|]). reflexivity. Qed.
Print Assumptions C132_crash_refuted.
Example C132_example : let nn x := if String.eqb x "f" then "f2"%string else x in
  Ends_apart nn ["f"; "g"; "h"]%string ["f2"; "k"; "l"; "h"]%string /\
  stack_rows nn 8 "a" ["f"; "g"; "h"]%string ["f2"; "k"; "l"; "h"]%string = Some (Some [Pair "a" "a"; Pair "f" "f2"; Group ["g"] ["k"; "l"]; Pair "h" "h"])%string.
Proof.
  split; [|reflexivity]. exists ["f"; "g"]%string, "h"%string, ["f2"; "k"; "l"]%string, "h"%string. split; [reflexivity|]. split; [reflexivity|]. split.
  - cbn. intros [E|[E|[E|[]]]]; discriminate E.
  - cbn. intros x [<-|[<-|[]]]; discriminate.
Qed.

(** ** C133 Lists of functions *)
(** The columns together are one list of buttons and labels; the buttons are the functions in their order, each
    as often as in the list, and the last label before a button is the letter of the function. *)
Theorem C133_buttons : forall letter funs, buttons (concat (columns letter funs)) = funs.
Proof. intros letter funs. rewrite columns_all. apply items_buttons. Qed.
Print Assumptions C133_buttons.
Theorem C133_labels : forall letter funs,
  (forall a f b, concat (columns letter funs) = a ++ Button f :: b -> Last (labels a) (letter f)) /\
  (forall l, In l (labels (concat (columns letter funs))) <-> exists f, In f funs /\ letter f = l) /\
  (In_groups letter funs -> NoDup (labels (concat (columns letter funs)))).
Proof.
  intros letter funs. rewrite columns_all. split; [|split].
  - intros a f b E. apply items_label in E as (l & a' & H & ->). exists a'. exact H.
  - intros l. split; [apply items_labels|]. intros (f & I & <-). rewrite <- (items_buttons letter funs None) in I. unfold buttons in I. apply in_flat_map in I as (i & I & J). destruct i as [|g]; [destruct J|]. destruct J as [->|[]].
    apply in_split in I as (a & b & E). pose proof E as E'. apply items_label in E as (l & a' & H & ->). cbn in H. rewrite E'. unfold labels. rewrite flat_map_app. apply in_app_iff. left. fold (labels a). rewrite H. apply in_app_iff. right. left. reflexivity.
  - apply labels_NoDup.
Qed.
Print Assumptions C133_labels.
(** There are four columns; none has more than the greater of 20 and a quarter (rounded up) of all buttons and labels,
    and a column is begun only when the one before it has that many. *)
Theorem C133_columns : forall letter funs cols, columns letter funs = cols -> let n := length (concat cols) in
  length cols = 4 /\ exists s, (20 <= s /\ n <= 4 * s /\ (20 < s -> 4 * s < n + 4))%nat /\ (forall c, In c cols -> length c <= s)%nat /\
  forall a c c' b, cols = a ++ c :: c' :: b -> c' <> [] -> length c = s.
Proof.
  intros letter funs cols <- n. assert (En : n = length (items letter None funs)) by (unfold n; rewrite columns_all; reflexivity). clearbody n.
  split; [reflexivity|]. exists (step_size n). split; [|].
  - split; [apply Nat.le_max_l|]. split; [apply step_enough|]. unfold step_size. intros L. pose proof (Nat.div_mod (n + 3) 4 ltac:(lia)) as E. lia.
  - unfold columns. rewrite <- En. set (r := items letter None funs) in *. set (s := step_size n) in *. pose proof (step_enough n) as U. fold s in U. split.
    + intros c I. destruct I as [<-|[<-|[<-|[<-|[]]]]]; eapply Nat.le_trans; try apply slice_length; lia.
    + assert (X : forall k e, slice (S k * s) e r <> [] -> length (slice (k * s) (S k * s) r) = s).
      { intros k e N. unfold slice in *. rewrite firstn_length, skipn_length. assert (length r > S k * s)%nat; [|lia].
        destruct (Nat.le_gt_cases (length r) (S k * s)) as [L|L]; [|exact L]. exfalso. apply N. rewrite skipn_all2 by exact L. apply firstn_nil. }
      intros a c c' b E N.
      destruct a as [|x0 a]; [injection E as <- <- <-; apply (X 0 _ N)|]. injection E as <- E.
      destruct a as [|x1 a]; [injection E as <- <- <-; apply (X 1 _ N)|]. injection E as <- E.
      destruct a as [|x2 a]; [injection E as <- <- <-; apply (X 2 _ N)|]. injection E as <- E.
      destruct a as [|x3 a]; [discriminate E|]. injection E as _ E. destruct a; discriminate E.
Qed.
Print Assumptions C133_columns.
(** A label appears again when the functions with its letter do not follow each other. *)
Theorem C133_label_again_refuted : exists letter funs, NoDup funs /\ ~ NoDup (labels (concat (columns letter funs))).
Proof.
  exists (fun f => match f with String c _ => String c EmptyString | EmptyString => EmptyString end), ["a"; "b"; "ac"]%string. split.
  - repeat constructor; cbn; intuition discriminate.
  - cbn. intros N. inversion N as [|? ? H _]; subst. apply H. right. left. reflexivity.
Qed.
Print Assumptions C133_label_again_refuted.
Example C133_example : let letter f := match f with String c _ => String c EmptyString | EmptyString => EmptyString end in
  In_groups letter ["aa"; "ab"; "b"]%string /\ concat (columns letter ["aa"; "ab"; "b"]%string) = [Label "a"; Button "aa"; Button "ab"; Label "b"; Button "b"]%string.
Proof.
  split; [|reflexivity]. intros a x b y c E L z I. destruct b as [|v b]; [destruct I|]. destruct a as [|u a].
  - destruct b as [|w b]; cbn in E; [injection E as <- <- <- _; discriminate L|]. injection E as _ _ _ E. destruct b; discriminate E.
  - apply (f_equal (@length string)) in E. cbn in E. rewrite app_length in E. cbn in E. rewrite app_length in E. cbn in E. lia.
Qed.

(** ** C134 Navigation *)
Theorem C134_pages : forall leb ys ks q, total_order leb -> distinct_report ys -> Way (make_index leb ys) start ks q ->
  Right_page ys q (content (make_index leb ys) q).
Proof. intros leb ys ks q T D W. apply content_right; [exact T|exact D|]. eapply way_good; [exact T|exact D|exact W|exact Logic.I]. Qed.
Print Assumptions C134_pages.
(** Every difference is reached by choosing the compared function and then the differing one. *)
Theorem C134_reach : forall leb ys c f d, total_order leb -> distinct_report ys -> lists_diff ys c f d ->
  exists q, Way (make_index leb ys) start [Select c; Select f] q /\ content (make_index leb ys) q = Show_difference c d.
Proof.
  intros leb ys c f d T D L. exists (mkLoc (Some c) (Some f)). split.
  - pose proof (lists_comp ys c f d L) as I. apply Way_click; [cbn; apply mem_In; apply comp_In; assumption|]. apply Way_click; [|apply Way_here].
    cbn. destruct (diff_known leb ys T D c I) as (l & E). rewrite E. apply mem_In. apply (diff_of leb ys T D c l E). exists d. exact L.
  - cbn. rewrite (proj2 (diff_is leb ys T D c f d) L). reflexivity.
Qed.
Print Assumptions C134_reach.
(** The arrows between the differences of a compared function lead back, and by them each difference is reached
    from each other one. *)
Theorem C134_arrows : forall leb ys ks q, total_order leb -> distinct_report ys -> let ix := make_index leb ys in Way ix start ks q ->
  (possible ix q Next_differing = true -> Way ix q [Next_differing; Prev_differing] q) /\
  (possible ix q Prev_differing = true -> Way ix q [Prev_differing; Next_differing] q).
Proof.
  intros leb ys ks q T D ix W. assert (G : Good ys q) by (eapply way_good; [exact T|exact D|exact W|exact Logic.I]).
  destruct q as [[c|] [f|]]; try (split; intros P; discriminate P).
  pose proof (good_comp ys c (Some f) G) as I. pose proof (diff_list_NoDup leb ys T D c) as N. pose proof (proj2 (diff_list_In leb ys T D c f I) G) as J. fold ix in N, J.
  destruct (C48_navigation _ f N J) as (_ & A & _ & _). split; intros P.
  - pose proof P as P'. cbn in P'. apply negb_true_iff in P'. destruct (not_last _ f N J P') as (y & E). pose proof (nth_error_In _ _ E) as K.
    assert (E' : prev_in (diff_list ix (Some c)) y = Some f) by (apply A; assumption).
    destruct (C48_navigation _ y N K) as (_ & _ & _ & F).
    apply Way_click; [exact P|]. cbn [follow l_diff l_comp]. rewrite E. apply Way_click.
    + cbn [possible l_comp l_diff]. apply negb_true_iff. destruct (is_first_in (diff_list ix (Some c)) y) eqn:X; [|reflexivity]. rewrite (proj1 F eq_refl) in E'. discriminate.
    + cbn [follow l_diff l_comp]. rewrite E'. apply Way_here.
  - pose proof P as P'. cbn in P'. apply negb_true_iff in P'. destruct (not_first _ f N J P') as (y & E). pose proof (prev_In _ _ _ E) as K.
    destruct (C48_navigation _ y N K) as (_ & A' & F & _).
    assert (E' : next_in (diff_list ix (Some c)) y = Some f) by (apply A'; assumption).
    apply Way_click; [exact P|]. cbn [follow l_diff l_comp]. rewrite E. apply Way_click.
    + cbn [possible l_comp l_diff]. apply negb_true_iff. destruct (is_last_in (diff_list ix (Some c)) y) eqn:X; [|reflexivity]. rewrite (proj1 F eq_refl) in E'. discriminate.
    + cbn [follow l_diff l_comp]. rewrite E'. apply Way_here.
Qed.
Print Assumptions C134_arrows.
Lemma way_next leb ys c : total_order leb -> distinct_report ys -> In c (map yr_function ys) ->
  forall b a f g e, diff_list (make_index leb ys) (Some c) = a ++ f :: b ++ g :: e ->
  Way (make_index leb ys) (mkLoc (Some c) (Some f)) (repeat Next_differing (S (length b))) (mkLoc (Some c) (Some g)).
Proof.
  intros T D I. set (ix := make_index leb ys). pose proof (diff_list_NoDup leb ys T D c) as N. fold ix in N.
  assert (X : forall a f y r, diff_list ix (Some c) = a ++ f :: y :: r -> forall ks q, Way ix (mkLoc (Some c) (Some y)) ks q -> Way ix (mkLoc (Some c) (Some f)) (Next_differing :: ks) q).
  { intros a f y r E ks q W. assert (J : In f (diff_list ix (Some c))) by (rewrite E; apply in_app_iff; right; left; reflexivity).
    destruct (C48_navigation _ f N J) as (A & _ & F & _). assert (M : next_in (diff_list ix (Some c)) f = Some y) by (apply A; exists a, r; exact E).
    apply Way_click.
    - cbn [possible l_comp l_diff]. apply negb_true_iff. destruct (is_last_in (diff_list ix (Some c)) f) eqn:Z; [|reflexivity]. rewrite (proj1 F eq_refl) in M. discriminate.
    - cbn [follow l_diff l_comp]. rewrite M. exact W. }
  induction b as [|y b IH]; intros a f g e E.
  - cbn. eapply X; [exact E|apply Way_here].
  - cbn [length repeat]. eapply X; [exact E|]. apply (IH (a ++ [f]) y g e). rewrite E, <- app_assoc. reflexivity.
Qed.
Theorem C134_along : forall leb ys c l, total_order leb -> distinct_report ys -> content (make_index leb ys) (mkLoc (Some c) None) = List_differing c l -> In c (map yr_function ys) ->
  forall a f b g e, l = a ++ f :: b ++ g :: e -> Way (make_index leb ys) (mkLoc (Some c) (Some f)) (repeat Next_differing (S (length b))) (mkLoc (Some c) (Some g)).
Proof.
  intros leb ys c l T D C I a f b g e E. apply (way_next leb ys c T D I b a f g e). cbn in C |- *. destruct (diff_funs_of (make_index leb ys) c) as [l'|]; [|discriminate C]. injection C as ->. exact E.
Qed.
Print Assumptions C134_along.
(** The items of the path: from everywhere to all compared functions, from a difference to the list of its compared
    function and to the list of its differing function. *)
Theorem C134_path : forall leb ys p, let ix := make_index leb ys in
  Way ix p [To_results] (mkLoc None None) /\
  (forall c f, p = mkLoc (Some c) (Some f) -> Way ix p [To_compared] (mkLoc (Some c) None) /\ Way ix p [To_differing] (mkLoc None (Some f))).
Proof.
  intros leb ys p ix. split; [apply Way_click; [reflexivity|apply Way_here]|]. intros c f ->. split; (apply Way_click; [reflexivity|apply Way_here]).
Qed.
Print Assumptions C134_path.
(** The arrows between compared functions change the compared function to the next one, and a shown difference to
    the first of that function. *)
Theorem C134_compared : forall leb ys ks q c c', total_order leb -> distinct_report ys -> let ix := make_index leb ys in Way ix start ks q -> l_comp q = Some c ->
  (exists a b, comp_funs ix = a ++ c :: c' :: b) ->
  possible ix q Next_compared = true /\ l_comp (follow ix q Next_compared) = Some c' /\
  (l_diff q = None -> l_diff (follow ix q Next_compared) = None) /\
  (l_diff q <> None -> forall l, content ix (mkLoc (Some c') None) = List_differing c' l -> l_diff (follow ix q Next_compared) = hd_error l) /\
  possible ix (follow ix q Next_compared) Prev_compared = true /\ l_comp (follow ix (follow ix q Next_compared) Prev_compared) = Some c.
Proof.
  intros leb ys ks q c c' T D ix W C (a & b & E). pose proof (comp_NoDup leb ys T D) as N. fold ix in N.
  assert (I : In c (comp_funs ix)) by (rewrite E; apply in_app_iff; right; left; reflexivity).
  assert (I' : In c' (comp_funs ix)) by (rewrite E; apply in_app_iff; right; right; left; reflexivity).
  destruct (C48_navigation _ c N I) as (A & B & F & _). assert (M : next_in (comp_funs ix) c = Some c') by (apply A; exists a, b; exact E).
  assert (M' : prev_in (comp_funs ix) c' = Some c) by (apply B; assumption). destruct (C48_navigation _ c' N I') as (_ & _ & _ & F').
  cbn [possible follow]. rewrite C, M. split.
  { apply negb_true_iff. destruct (is_last_in (comp_funs ix) c) eqn:Z; [|reflexivity]. rewrite (proj1 F eq_refl) in M. discriminate. }
  cbn [go_compared l_comp l_diff]. split; [reflexivity|]. split; [intros ->; reflexivity|]. split.
  { intros L l X. cbn in X. destruct (l_diff q) as [f|]; [|congruence]. cbn [diff_list]. destruct (diff_funs_of ix c') as [l'|]; [|discriminate X]. injection X as ->. destruct l; reflexivity. }
  split.
  { apply negb_true_iff. destruct (is_first_in (comp_funs ix) c') eqn:Z; [|reflexivity]. rewrite (proj1 F' eq_refl) in M'. discriminate. }
  rewrite M'. reflexivity.
Qed.
Print Assumptions C134_compared.
Definition d0 (f : string) : ydiff := mkYdiff f [] [].
Definition report0 : list yresult := [mkYresult "a" [d0 "f"; d0 "g"]; mkYresult "b" [d0 "h"]].
Lemma report0_distinct : distinct_report report0.
Proof. split; [|repeat constructor; cbn; intuition discriminate]. repeat constructor; cbn; intuition discriminate. Qed.
(** Going to the next compared function and back loses the differing function. *)
Theorem C134_compared_back_refuted : exists leb ys ks q, total_order leb /\ distinct_report ys /\ Way (make_index leb ys) start ks q /\
  exists q', Way (make_index leb ys) q [Next_compared; Prev_compared] q' /\ q' <> q.
Proof.
  exists String.leb, report0, [Select "a"; Select "g"]%string, (mkLoc (Some "a") (Some "g"))%string. split; [exact Kernel_Proofs.leb_total|]. split; [exact report0_distinct|]. split.
  - apply Way_click; [reflexivity|]. apply Way_click; [reflexivity|]. apply Way_here.
  - exists (mkLoc (Some "a") (Some "f"))%string. split; [|discriminate]. apply Way_click; [reflexivity|]. apply Way_click; [reflexivity|]. apply Way_here.
Qed.
Print Assumptions C134_compared_back_refuted.
Example C134_example : lists_diff report0 "a" "g" (d0 "g") /\ possible (make_index String.leb report0) (mkLoc (Some "a") (Some "f"))%string Next_differing = true.
Proof. split; [|reflexivity]. exists (mkYresult "a" [d0 "f"; d0 "g"]). repeat split; [left; reflexivity|right; left; reflexivity]. Qed.

(** ** C135 The code of a difference *)
(** The last function of the old call stack is shown first, the compared one if there is none. *)
Theorem C135_first : forall comp d, (forall l x, yd_old d = l ++ [x] -> first_shown comp d = c_name x) /\ (yd_old d = [] -> first_shown comp d = comp).
Proof. intros comp d. unfold first_shown. split; [intros l x ->; rewrite rev_app_distr; reflexivity|intros ->; reflexivity]. Qed.
Print Assumptions C135_first.
Lemma after_called f : forall l n, Called_after l f n -> exists i, after f l = Some i /\ nth_error l i = n.
Proof.
  intros l n (a & c & b & -> & E & A & ->). exists (S (length a)). split.
  - induction a as [|x a IH]; cbn; [rewrite E, String.eqb_refl; reflexivity|]. destruct (String.eqb_spec (c_name x) f) as [F|F]; [exfalso; apply (A x); [left; reflexivity|exact F]|].
    rewrite IH; [reflexivity|]. intros y I. apply A. right. exact I.
  - rewrite nth_error_app2 by lia. replace (S (length a) - length a) with 1 by lia. destruct b; reflexivity.
Qed.
(** In the compared function the lines of the first calls are highlighted; in a function of both call stacks the lines
    of the calls after its first occurrences; if one of the call stacks ends there, no line; and in a function of one call stack only (a
    renamed one) the line of the first call of the other. *)
Theorem C135_lines : forall comp d f,
  (f = comp -> calling_lines comp d f = match yd_old d, yd_new d with c :: _, c' :: _ => Some (c_line c, c_line c') | _, _ => None end) /\
  (forall n n', f <> comp -> Called_after (yd_old d) f n -> Called_after (yd_new d) f n' ->
    calling_lines comp d f = match n, n' with Some c, Some c' => Some (c_line c, c_line c') | _, _ => None end) /\
  (f <> comp -> Called_after (yd_old d) f None -> calling_lines comp d f = None) /\
  (forall n, f <> comp -> Called_after (yd_old d) f n -> (forall c, In c (yd_new d) -> c_name c <> f) ->
    calling_lines comp d f = match n, yd_new d with Some c, c' :: _ => Some (c_line c, c_line c') | _, _ => None end) /\
  (forall n, f <> comp -> Called_after (yd_new d) f n -> (forall c, In c (yd_old d) -> c_name c <> f) ->
    calling_lines comp d f = match yd_old d, n with c :: _, Some c' => Some (c_line c, c_line c') | _, _ => None end).
Proof.
  intros comp d f. unfold calling_lines.
  assert (NA : forall l, (forall c, In c l -> c_name c <> f) -> after f l = None).
  { induction l as [|c l IH]; intros H; [reflexivity|]. cbn. destruct (String.eqb_spec (c_name c) f) as [E|]; [destruct (H c (or_introl eq_refl) E)|]. rewrite IH; [reflexivity|]. intros x I. apply H. right. exact I. }
  split; [|split; [|split; [|split]]].
  - intros ->. rewrite String.eqb_refl. destruct (yd_old d), (yd_new d); reflexivity.
  - intros n n' N A B. apply String.eqb_neq in N. rewrite N. unfold index_after. apply after_called in A as (i & -> & ->). apply after_called in B as (j & -> & ->). reflexivity.
  - intros N A. apply String.eqb_neq in N. rewrite N. unfold index_after at 1. apply after_called in A as (i & -> & ->). reflexivity.
  - intros n N A B. apply String.eqb_neq in N. rewrite N. unfold index_after. rewrite (NA _ B). apply after_called in A as (i & -> & ->). destruct n, (yd_new d); reflexivity.
  - intros n N A B. apply String.eqb_neq in N. rewrite N. unfold index_after. rewrite (NA _ B). apply after_called in A as (i & -> & ->). destruct n, (yd_old d); reflexivity.
Qed.
Print Assumptions C135_lines.
Lemma plain_symbol f n : Names_symbol f n -> plain_name f = n.
Proof.
  intros (N & H). assert (X : forall c m, (forall x, has_char x (String c m) = true -> x <> " "%char) -> Ascii.eqb c " " = false /\ forall x, has_char x m = true -> x <> " "%char).
  { intros c m M. split.
    - apply Ascii.eqb_neq. apply M. cbn. rewrite Ascii.eqb_refl. reflexivity.
    - intros x I. apply M. cbn. rewrite I. apply orb_true_r. }
  destruct H as [H|(k & H)]; subst f; induction n as [|c n IH]; try reflexivity; apply X in N as (E & N); specialize (IH N); cbn [append plain_name]; rewrite E, IH; reflexivity.
Qed.
(** The code is that of the definition of the symbol, without its kind: both files, both first lines and the last
    old line, and the highlighted lines. Without a definition, or without a last line, a message is shown. *)
Theorem C135_code : forall defs comp d f n, Names_symbol f n ->
  (forall y e e', dget defs n = Some y -> yi_end (yf_old y) = Some e -> yi_end (yf_new y) = Some e' ->
    shown_code defs comp d f = Code (yi_file (yf_old y)) (yi_file (yf_new y)) (yi_line (yf_old y)) (yi_line (yf_new y)) e (calling_lines comp d f)) /\
  (dget defs n = None -> shown_code defs comp d f = Missing_definition) /\
  (forall y, dget defs n = Some y -> yi_end (yf_old y) = None \/ yi_end (yf_new y) = None -> shown_code defs comp d f = Missing_end).
Proof.
  intros defs comp d f n S. unfold shown_code. rewrite (plain_symbol f n S). split; [|split].
  - intros y e e' -> -> ->. reflexivity.
  - intros ->. reflexivity.
  - intros y -> [->| ->]; [reflexivity|]. destruct (yi_end (yf_old y)); reflexivity.
Qed.
Print Assumptions C135_code.
Lemma choose_key k : forall chosen s, exists s', fold_left choose chosen (Some (k, s)) = Some (k, s').
Proof. induction chosen as [|x l IHl]; intros s; [exists s; reflexivity|]. cbn. apply IHl. Qed.
(** Going to a difference shows its differing function, unless the page before showed a difference whose names, one after
    the other, read the same; then the function chosen there stays. Going to a list forgets the choice. *)
Theorem C135_visit : forall leb ys v c f d, total_order leb -> distinct_report ys -> let ix := make_index leb ys in lists_diff ys c f d ->
  (v = None -> exists k, visit ix v (mkLoc (Some c) (Some f)) = Some (k, first_shown c d)) /\
  (forall c0 f0 d0 v0 chosen, lists_diff ys c0 f0 d0 -> (c0 ++ f0)%string <> (c ++ f)%string ->
    v = fold_left choose chosen (visit ix v0 (mkLoc (Some c0) (Some f0))) ->
    exists k, visit ix v (mkLoc (Some c) (Some f)) = Some (k, first_shown c d)) /\
  (forall p, l_comp p = None \/ l_diff p = None -> visit ix v p = None) /\
  (** on the page the function chosen last is shown *)
  (forall chosen g, exists k, fold_left choose (chosen ++ [g]) (visit ix v (mkLoc (Some c) (Some f))) = Some (k, g)).
Proof.
  intros leb ys v c f d T D ix L. pose proof (proj2 (diff_is leb ys T D c f d) L) as E. fold ix in E. split; [|split; [|split]].
  - intros ->. unfold visit. cbn. rewrite E. eauto.
  - intros c0 f0 d' v0 chosen L0 N V. pose proof (proj2 (diff_is leb ys T D c0 f0 d') L0) as E0. fold ix in E0.
    assert (K : exists s, v = Some (key c0 f0, s)).
    { rewrite V. clear V. assert (X : exists s, visit ix v0 (mkLoc (Some c0) (Some f0)) = Some (key c0 f0, s)).
      { unfold visit. cbn. rewrite E0. destruct v0 as [[k s]|]; [|eauto]. destruct (String.eqb_spec k (key c0 f0)) as [->|]; eauto. }
      destruct X as (s & ->). apply choose_key. }
    destruct K as (s & ->). unfold visit. cbn. rewrite E. unfold key. apply String.eqb_neq in N. rewrite N. eauto.
  - intros [[c1|] [f1|]] [X|X]; try discriminate X; reflexivity.
  - intros chosen g. assert (X : exists k s, visit ix v (mkLoc (Some c) (Some f)) = Some (k, s)).
    { unfold visit. cbn. rewrite E. destruct v as [[k s]|]; [|eauto]. destruct (String.eqb k (key c f)); eauto. }
    destruct X as (k & s & ->). rewrite fold_left_app. destruct (choose_key k chosen s) as (s' & ->). cbn. eauto.
Qed.
Print Assumptions C135_visit.
(** Two differences may read the same: then the function of the other difference stays. *)
Definition report1 : list yresult :=
  [mkYresult "a" [mkYdiff "bc" [mkCall "bc" "" 1] [mkCall "bc" "" 1]]; mkYresult "ab" [mkYdiff "c" [mkCall "c" "" 1] [mkCall "c" "" 1]]].
Theorem C135_stale_refuted : exists leb ys ks q v, total_order leb /\ distinct_report ys /\ let ix := make_index leb ys in
  Way ix start ks q /\ v = visit ix None q /\ possible ix q Next_compared = true /\
  exists c d k s, content ix (follow ix q Next_compared) = Show_difference c d /\ visit ix v (follow ix q Next_compared) = Some (k, s) /\
    s <> c /\ ~ In s (map c_name (yd_old d)) /\ ~ In s (map c_name (yd_new d)).
Proof.
  exists String.leb, report1, [Select "a"; Select "bc"]%string, (mkLoc (Some "a") (Some "bc"))%string, (Some ("abc", "bc"))%string. split; [exact Kernel_Proofs.leb_total|]. split.
  { split; [|repeat constructor; cbn; intuition discriminate]. repeat constructor; cbn; intuition discriminate. }
  cbv zeta. split; [apply Way_click; [reflexivity|]; apply Way_click; [reflexivity|]; apply Way_here|]. split; [reflexivity|]. split; [reflexivity|].
  exists "ab"%string, (mkYdiff "c" [mkCall "c" "" 1] [mkCall "c" "" 1]), "abc"%string, "bc"%string. split; [reflexivity|]. split; [reflexivity|]. split; [discriminate|].
  split; cbn; intros [E|[]]; discriminate E.
Qed.
Print Assumptions C135_stale_refuted.
(** A function with another name in the new version: the new line that is highlighted is the one of the first call of the
    new call stack, which need not be in the function. *)
Theorem C135_renamed_refuted : exists comp d f w defs next next', Renamed defs f w /\ f <> comp /\
  Called_after (yd_old d) f (Some next) /\ Called_after (yd_new d) w (Some next') /\ calling_lines comp d f <> Some (c_line next, c_line next').
Proof.
  exists "a"%string, (mkYdiff "g" [mkCall "f" "" 10; mkCall "g" "" 20] [mkCall "f2" "" 11; mkCall "g" "" 21]), "f"%string, "f2"%string,
    [("f"%string, mkYdef "function" (mkYinfo (Some 15%Z) "f.c" (Some 25%Z) None) (mkYinfo (Some 16%Z) "f.c" (Some 26%Z) (Some "f2"%string)))], (mkCall "g" "" 20), (mkCall "g" "" 21).
  split; [left; eexists; split; [reflexivity|split; [reflexivity|discriminate]]|]. split; [discriminate|].
  split; [exists [], (mkCall "f" "" 10), [mkCall "g" "" 20]; repeat split; intros x []|]. split; [exists [], (mkCall "f2" "" 11), [mkCall "g" "" 21]; repeat split; intros x []|].
  cbn. discriminate.
Qed.
Print Assumptions C135_renamed_refuted.
(** The new name of a function has no definition of its own. *)
Theorem C135_new_name_refuted : exists defs comp d f w, Renamed defs f w /\ In w (map c_name (yd_new d)) /\ dget defs f <> None /\ shown_code defs comp d w = Missing_definition.
Proof.
  exists [("f"%string, mkYdef "function" (mkYinfo (Some 15%Z) "f.c" (Some 25%Z) None) (mkYinfo (Some 16%Z) "f.c" (Some 26%Z) (Some "f2"%string)))], "a"%string,
    (mkYdiff "g" [mkCall "f" "" 10; mkCall "g" "" 20] [mkCall "f2" "" 11; mkCall "g" "" 21]), "f"%string, "f2"%string.
  split; [left; eexists; split; [reflexivity|split; [reflexivity|discriminate]]|]. split; [left; reflexivity|]. split; [discriminate|reflexivity].
Qed.
Print Assumptions C135_new_name_refuted.
(** A differing function that is also earlier on the old call stack is shown with the lines of its first call, not with
    its differences. *)
Theorem C135_recursive_refuted : exists comp d l x c, yd_old d = l ++ [x] /\ first_shown comp d = c_name x /\ calling_lines comp d (c_name x) = Some c.
Proof.
  exists "a"%string, (mkYdiff "f" [mkCall "f" "" 1; mkCall "g" "" 2; mkCall "f" "" 3] [mkCall "f" "" 1; mkCall "g" "" 2; mkCall "f" "" 3]), [mkCall "f" "" 1; mkCall "g" "" 2], (mkCall "f" "" 3), (2, 2)%Z.
  repeat split.
Qed.
Print Assumptions C135_recursive_refuted.
Example C135_example : let d := mkYdiff "g" [mkCall "f" "" 10; mkCall "g" "" 20] [mkCall "f" "" 11; mkCall "g" "" 21] in
  Called_after (yd_old d) "f" (Some (mkCall "g" "" 20)) /\ Called_after (yd_old d) "g" None /\ calling_lines "a" d "f" = Some (20, 21)%Z /\
  Names_symbol "M (macro)" "M" /\ lists_diff report1 "a" "bc" (mkYdiff "bc" [mkCall "bc" "" 1] [mkCall "bc" "" 1]).
Proof.
  split; [exists [], (mkCall "f" "" 10), [mkCall "g" "" 20]; repeat split; intros x []|]. split.
  - exists [mkCall "f" "" 10], (mkCall "g" "" 20), []. repeat split. intros x [<-|[]]. discriminate.
  - split; [reflexivity|]. split.
    + split; [|right; exists "(macro)"%string; reflexivity]. intros c H E. subst c. discriminate H.
    + eexists. split; [left; reflexivity|]. repeat split. left. reflexivity.
Qed.
