(** * C150-C152: the code of a function in the result viewer *)
From Coq Require Import String Ascii ZArith Arith Bool Lia List.
From Verif Require Import PyBase Show_Model Codeview_Model Codeview_Spec Codeview_Proofs.
Import ListNotations.
Open Scope list_scope.

(** C150: in whatever order files come and functions are chosen, code that is shown is the code and the difference of the
    function asked for last. *)
Theorem C150_right src has_diff file es s c d :
  plain_names es -> shown (run src has_diff file es) = Some (s, c, d) ->
  exists f, wanted es = Some f /\ s_fun s = f /\ s_src s = src (plain_name f) /\
            c = right_code src file f /\ d = right_diff has_diff file f.
Proof.
  intros P. pose proof (inv_all src has_diff file es P) as [_ I]. unfold shown.
  destruct (p_code (run src has_diff file es)) as [k|]; [|discriminate].
  destruct (c_old k) as [o|] eqn:O; [|discriminate]. destruct (c_diff k) as [x|] eqn:D; [|discriminate].
  intros [= <- <- <-]. destruct (wanted es) as [f|]; [|destruct I].
  destruct I as ((S & _ & GO & GD) & _). exists f. rewrite S. repeat split; auto.
Qed.
Print Assumptions C150_right.

(** C150: when all files have come, the function asked for last is shown. *)
Theorem C150_shown src has_diff file es f :
  plain_names es -> (forall i, ~ In (Lose i) es) ->
  p_fetches (run src has_diff file es) = [] -> wanted es = Some f ->
  exists s, shown (run src has_diff file es) = Some (s, right_code src file f, right_diff has_diff file f) /\ s_fun s = f.
Proof.
  intros P N E W.
  assert (A : Asked (run src has_diff file es)) by (apply run_asked; [exact N|exact I]).
  pose proof (inv_all src has_diff file es P) as [_ I]. rewrite W in I. unfold Asked in A. unfold shown.
  destruct (p_code (run src has_diff file es)) as [k|]; [|destruct I]. rewrite E in A.
  destruct A as [A1 A2]. destruct I as ((S & _ & GO & GD) & _).
  destruct (c_old k) as [o|]; [|destruct (A1 eq_refl) as (x & [] & _)].
  destruct (c_diff k) as [d|]; [|destruct (A2 eq_refl) as (x & [] & _)].
  exists (c_spec k). rewrite (GO o eq_refl), (GD d eq_refl), S. auto.
Qed.
Print Assumptions C150_shown.

(** C150: without the condition on names, code of one function can be shown as that of another one. *)
Theorem C150_hyphen_refuted :
  exists src has_diff file es s c d f,
    shown (run src has_diff file es) = Some (s, c, d) /\ wanted es = Some f /\ s_fun s = f /\ c <> right_code src file f.
Proof.
  exists (fun f => f), (fun _ => false), (fun p => p), [Render "a" "b-c"; Arrive 0; Render "a-b" "c"]%string.
  do 4 eexists. split; [reflexivity|]. split; [reflexivity|]. split; [reflexivity|]. discriminate.
Qed.
Print Assumptions C150_hyphen_refuted.

(** Late files of another function are ignored; the code is shown when its own files have come. *)
Example C150_example :
  let es := [Render "f" "g"; Render "f" "h (macro)"; Arrive 0; Arrive 0; Arrive 1; Arrive 0]%string in
  plain_names es /\ p_fetches (run (fun f => f) (fun _ => true) (fun p => p) es) = [] /\ wanted es = Some "h (macro)"%string /\
  shown (run (fun f => f) (fun _ => true) (fun p => p) (firstn 5 es)) = None.
Proof.
  cbv zeta. split; [|repeat split; reflexivity].
  intros comp f H. repeat (destruct H as [H|H]; [try discriminate; injection H as <- _; repeat split; discriminate|]). destruct H.
Qed.

(** C151: which lines of a file are shown for a function on lines [s] to [e]. *)
Theorem C151_lines n hunks s e calls x :
  1 <= s <= e -> e <= n -> (forall y, hunks y = true -> 1 <= y <= n) ->
  (first_lines n hunks s e calls x = true <->
   (s <= x <= e /\ of_function hunks s e calls x) \/ around hunks s e x).
Proof. apply first_lines_spec. Qed.
Print Assumptions C151_lines.

(** C151: the line of a call in the function is shown, and the whole function if it has at most 25 lines. *)
Theorem C151_call n hunks s e c c' :
  1 <= s <= e -> e <= n -> (forall y, hunks y = true -> 1 <= y <= n) ->
  (s <= c <= e -> first_lines n hunks s e (Some (Z.of_nat c, c')) c = true) /\
  (s <= c <= e -> first_lines n hunks s e (Some (c', Z.of_nat c)) c = true) /\
  (e - s < 25 -> forall x k, s <= x <= e -> first_lines n hunks s e (Some k) x = true).
Proof.
  intros R N B. split; [|split].
  - intros H. apply first_lines_spec; auto. left. split; [exact H|]. unfold of_function. right. right. right. right. left. lia.
  - intros H. apply first_lines_spec; auto. left. split; [exact H|]. unfold of_function. right. right. right. right. right. lia.
  - intros L x [k k'] H. apply first_lines_spec; auto. left. split; [exact H|]. unfold of_function. right. right. right. left. lia.
Qed.
Print Assumptions C151_call.

Example C151_example :
  let hunks x := Nat.leb 38 x && Nat.leb x 41 || Nat.leb 10 x && Nat.leb x 12 in
  filter (first_lines 200 hunks 40 90 (Some (70, -1)%Z)) (seq 1 200) = [38; 39; 40; 41] ++ seq 60 21 ++ [90].
Proof. reflexivity. Qed.

(** C152: after any buttons to show more lines, lines shown before are still shown, and other ones are between those. *)
Theorem C152_expand n l is x :
  (l x = true -> presses n l is x = true) /\
  (presses n l is x = true -> l x = true \/ exists a b, a < x < b /\ l a = true /\ l b = true).
Proof. split; [apply presses_grow|apply presses_between]. Qed.
Print Assumptions C152_expand.

(** C152: each line hidden between two shown ones has a button that shows it, and when no button is left, no line
    between shown ones is hidden; this can always be reached. *)
Theorem C152_reach n l a x b :
  1 <= a <= x -> x <= b <= n -> l a = true -> l b = true ->
  (l x = false -> exists i, press n l i x = true) /\
  (buttons n l = [] -> l x = true) /\
  (exists is, buttons n (presses n l is) = [] /\ presses n l is x = true).
Proof.
  intros A B La Lb. split; [|split].
  - intros Lx. assert (a <> x) by congruence. assert (b <> x) by congruence. apply (press_shows n l a x b); auto; lia.
  - apply (no_buttons n l a x b); auto.
  - destruct (all_shown n (S (hidden n l)) l) as (is & H); [lia|]. exists is. split; [exact H|].
    apply (no_buttons n (presses n l is) a x b); auto; apply presses_grow; assumption.
Qed.
Print Assumptions C152_reach.

Example C152_example :
  let l x := Nat.eqb x 3 || Nat.eqb x 6 || Nat.eqb x 7 || Nat.eqb x 20 in
  buttons 30 l = [(4, 5); (8, 19)] /\ buttons 30 (presses 30 l [1]) = [(4, 5)] /\ buttons 30 (presses 30 l [1; 0]) = [].
Proof. repeat split; reflexivity. Qed.
