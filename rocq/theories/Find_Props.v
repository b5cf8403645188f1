(** * Properties of the search for definitions (C138) *)
From Coq Require Import String Ascii Arith Bool Lia List.
From Verif Require Import PyBase Find_Model Find_Spec Find_Proofs.
Import ListNotations.
Open Scope list_scope.

Lemma begin_define x b r : (("define" ++ x) ++ b = "define" ++ r)%string -> r = (x ++ b)%string.
Proof. cbn. congruence. Qed.
(** A function whose name has only letters, digits, underscores and hyphens is found in a module iff the module defines it. *)
Theorem C138_function ls name : Forall Line_ok ls -> Plain name ->
  (has_function (text_of ls) name = true <-> exists pre post, In (Definition_of pre name post) ls).
Proof.
  intros OK P. assert (NL : Forall (fun l => ~ Has newline (line_text l)) ls) by (eapply Forall_impl; [|exact OK]; intros l (N & _); exact N).
  unfold has_function. rewrite pattern_plain by exact P. rewrite lines_iff; [|reflexivity|exact NL]. rewrite Forall_forall in OK. split.
  - intros (l & t & I & H & _). destruct (OK l I) as (N & L).
    destruct (after_items (lits "define") _) as [s|] eqn:E; [|discriminate]. apply after_lits in E. apply somewhere_iff in H as (a & b & S & NA).
    destruct l as [pre n post|n post|s']; cbn [line_text] in *.
    + destruct L as (L1 & L2 & L3). rewrite app_assoc_s in E. injection E as E.
      assert (NX : ~ Has newline (pre ++ "@" ++ n ++ "(" ++ post)%string) by (intros HX; apply N; apply has_app; right; exact HX).
      rewrite S, <- app_assoc_s in E. apply prefix_in_line in E as (b' & E).
      2:{ rewrite has_app. intros [Q|Q]; [exact (NA Q)|]. cbn in Q. apply has_cons in Q as [Q|Q]; [discriminate|]. apply has_app in Q as [Q|Q]; [exact (no_newline_name _ (plain_name _ P) Q)|]. apply has_cons in Q as [Q|Q]; [discriminate|exact (has_nil _ Q)]. }
      rewrite ?app_assoc_s in E. cbn [append] in E.
      rewrite ?app_assoc_s in E. cbn [append] in E.
      destruct (split_at _ _ _ _ _ _ L1 E) as [(_ & -> & Q)|(a' & -> & Q)].
      * apply split_at in Q; [|apply name_not; [exact L2|reflexivity|discriminate|discriminate]]. destruct Q as [(_ & -> & _)|(a' & -> & Q)]; [exists pre, post; exact I|].
        exfalso. apply (name_not _ "(" (plain_name _ P)); [reflexivity|discriminate|discriminate|]. apply has_app. right. apply has_cons. left. reflexivity.
      * apply split_at in Q; [|apply name_not; [exact L2|reflexivity|discriminate|discriminate]]. destruct Q as [(Q & _)|(a2 & -> & Q)]; [discriminate|].
        exfalso. apply (L3 a2 name b'); [exact Q|apply plain_name; exact P].
    + discriminate E.
    + exfalso. destruct L as (L & _). apply L. apply prefix_in_line in E; [exact E|]. intros Q. repeat (apply has_cons in Q as [Q|Q]; [discriminate|]). exact (has_nil _ Q).
  - intros (pre & post & I). destruct (in_split _ _ I) as (b & a & ->). exists (Definition_of pre name post), (text_of a). split; [exact I|]. split; [|exists b, a; auto].
    destruct (OK _ I) as (N & L1 & _). cbn [line_text].
    destruct (after_items (lits "define") _) as [s|] eqn:E.
    + apply after_lits in E. apply begin_define in E. subst s. apply somewhere_iff. exists pre, (post ++ String newline (text_of a))%string. split; [cbn; rewrite !app_assoc_s; cbn; rewrite !app_assoc_s; reflexivity|].
      intros Q. apply N. cbn [line_text]. apply has_app. right. apply has_app. left. exact Q.
    + exfalso. assert (Q : after_items (lits "define") (("define" ++ pre ++ "@" ++ name ++ "(" ++ post) ++ String newline (text_of a))%string = Some ((pre ++ "@" ++ name ++ "(" ++ post) ++ String newline (text_of a))%string) by (apply after_lits; reflexivity). congruence.
Qed.
Print Assumptions C138_function.

Lemma sign_name c s : letter c = true \/ c = "."%char \/ c = "$"%char -> equals_sign (String c s) = false.
Proof.
  intros L. cbn [equals_sign]. destruct (white c) eqn:W.
  - exfalso. destruct L as [L|[->| ->]]; [|discriminate W|discriminate W]. unfold letter, white in *. destruct (nat_of_ascii c) as [|n]; [discriminate|].
    rewrite !orb_true_iff, !andb_true_iff, !Nat.eqb_eq, !Nat.leb_le in *. lia.
  - destruct (Ascii.eqb_spec c "=") as [->|_]; [|reflexivity]. destruct L as [L|[L|L]]; discriminate.
Qed.
Lemma two_names : forall n m x r, Name n -> Plain m -> (n ++ String " " x = m ++ r)%string -> equals_sign r = true -> n = m.
Proof.
  induction n as [|c n IH]; intros m x r N P E S.
  - destruct m as [|d m]; [reflexivity|]. injection E as <- _. exfalso. assert (Q : letter " " = true) by (apply P; apply has_cons; auto). discriminate Q.
  - destruct m as [|d m]; cbn in E.
    + subst r. rewrite sign_name in S; [discriminate|]. apply N. apply has_cons. auto.
    + injection E as <- E. f_equal. apply (IH m x r); [intros e H; apply N; apply has_cons; auto|intros e H; apply P; apply has_cons; auto|exact E|exact S].
Qed.
(** The same for global variables and aliases. *)
Theorem C138_global ls name : Forall Line_ok ls -> Plain name ->
  (has_global (text_of ls) name = true <-> exists post, In (Global name post) ls).
Proof.
  intros OK P. assert (NL : Forall (fun l => ~ Has newline (line_text l)) ls) by (eapply Forall_impl; [|exact OK]; intros l (N & _); exact N).
  unfold has_global. rewrite (items_plain name P). change (Lit "@" :: lits name) with (lits ("@" ++ name)). rewrite lines_iff; [|reflexivity|exact NL]. rewrite Forall_forall in OK. split.
  - intros (l & t & I & H & _). destruct (OK l I) as (N & L). destruct (after_items _ _) as [s|] eqn:E; [|discriminate]. apply after_lits in E.
    destruct l as [pre n post|n post|s']; cbn [line_text] in *.
    + discriminate E.
    + cbn [append] in E. rewrite app_assoc_s in E. injection E as E. cbn [append] in E. apply two_names in E; [|exact L|exact P|exact H]. subst n. exists post. exact I.
    + exfalso. destruct L as (_ & L). apply L. rewrite app_assoc_s in E. apply prefix_in_line in E; [exact E|]. intros Q. apply has_cons in Q as [Q|Q]; [discriminate|exact (has_nil _ Q)].
  - intros (post & I). destruct (in_split _ _ I) as (b & a & ->). exists (Global name post), (text_of a). split; [exact I|]. split; [|exists b, a; auto].
    cbn [line_text]. assert (Q : after_items (lits ("@" ++ name)) (("@" ++ name ++ " = " ++ post) ++ String newline (text_of a))%string = Some ((" = " ++ post) ++ String newline (text_of a))%string).
    { apply after_lits. cbn. rewrite !app_assoc_s. reflexivity. }
    rewrite Q. reflexivity.
Qed.
Print Assumptions C138_global.

(** A name with dots (but no dollars) is found if it or a name that differs only at its dots is defined. *)
Theorem C138_dots ls name other : Forall Line_ok ls -> ~ Has "$" name -> Dots name other ->
  ((exists pre post, In (Definition_of pre other post) ls) -> has_function (text_of ls) name = true) /\
  ((exists post, In (Global other post) ls) -> has_global (text_of ls) name = true).
Proof.
  intros OK D DO. assert (NL : Forall (fun l => ~ Has newline (line_text l)) ls) by (eapply Forall_impl; [|exact OK]; intros l (N & _); exact N). rewrite Forall_forall in OK. split.
  - intros (pre & post & I). unfold has_function. rewrite lines_iff; [|reflexivity|exact NL]. destruct (in_split _ _ I) as (b & a & ->). exists (Definition_of pre other post), (text_of a). split; [exact I|]. split; [|exists b, a; auto].
    destruct (OK _ I) as (N & _ & L & _). cbn [line_text] in *.
    assert (Q : after_items (lits "define") (("define" ++ pre ++ "@" ++ other ++ "(" ++ post) ++ String newline (text_of a))%string = Some ((pre ++ "@" ++ other ++ "(" ++ post) ++ String newline (text_of a))%string) by (apply after_lits; reflexivity).
    rewrite Q. rewrite app_assoc_s. apply somewhere_later with (r := (post ++ String newline (text_of a))%string); [intros H; apply N; apply has_app; right; apply has_app; auto|].
    cbn [append after_items app]. rewrite Ascii.eqb_refl. rewrite app_assoc_s. rewrite dots_after; [reflexivity|exact DO|exact D|apply no_newline_name; exact L].
  - intros (post & I). unfold has_global. rewrite lines_iff; [|destruct name; reflexivity|exact NL]. destruct (in_split _ _ I) as (b & a & ->). exists (Global other post), (text_of a). split; [exact I|]. split; [|exists b, a; auto].
    destruct (OK _ I) as (N & L). cbn [line_text] in *. cbn [append after_items]. rewrite Ascii.eqb_refl. rewrite app_assoc_s. rewrite <- (app_nil_r (items name)). rewrite dots_after; [reflexivity|exact DO|exact D|apply no_newline_name; exact L].
Qed.
Print Assumptions C138_dots.
(** A function with a dollar in its name is found in no text. *)
Theorem C138_dollar text name : Name name -> Has "$" name -> has_function text name = false.
Proof.
  intros N D. unfold has_function. apply never_line. intros s. destruct (after_items (lits "define") s); [|reflexivity]. apply never_somewhere. intros t. cbn [after_items].
  destruct t as [|c t]; [reflexivity|]. destruct (Ascii.eqb "@" c); [|reflexivity]. apply dollar_never; assumption.
Qed.
Print Assumptions C138_dollar.

Definition module_lines := [Other "; ModuleID"; Global "counter" "global i32 0"; Global "x$y" "global i32 1"; Other ""; Definition_of " i32 " "fxc" "i32) #0 {"; Other "  ret i32 %0"; Other "}"; Definition_of " void " "a$b" ") {"; Other "  call i32 @f.c(i32 1)"; Other "}"; Other "declare i32 @f.c(i32)"]%string.
Lemma has_check c s : has_char c s = false -> ~ Has c s.
Proof.
  intros F (a & b & E). subst s. induction a as [|d a IH]; cbn [append has_char] in F; [rewrite Ascii.eqb_refl in F; discriminate|]. apply orb_false_iff in F as (_ & F). auto.
Qed.
Definition name_chars (s : string) : bool := forallb (fun c => letter c || Ascii.eqb c "." || Ascii.eqb c "$") (list_ascii_of_string s).
Lemma name_check s : name_chars s = true -> Name s.
Proof.
  unfold name_chars. induction s as [|c s IH]; cbn; intros F d H; [destruct (has_nil _ H)|]. apply andb_true_iff in F as (F & G). apply has_cons in H as [->|H]; [|apply IH; assumption].
  apply orb_true_iff in F as [F|F]; [apply orb_true_iff in F as [F|F]|]; [auto|apply Ascii.eqb_eq in F; auto|apply Ascii.eqb_eq in F; auto].
Qed.
Lemma module_lines_ok : Forall Line_ok module_lines.
Proof.
  assert (NA : forall post, has_char "@" post = false -> forall a n b, post = (a ++ "@" ++ n ++ "(" ++ b)%string -> ~ Name n).
  { intros post F a n b E _. apply (has_check _ _ F). exists a, (n ++ "(" ++ b)%string. exact E. }
  assert (B : forall p s, String.prefix p s = false -> ~ Begins p s).
  { intros p s F (b & ->). revert F. clear. induction p as [|c p IH]; cbn; [destruct b; discriminate|]. destruct (ascii_dec c c); [exact IH|congruence]. }
  unfold module_lines. repeat (apply Forall_cons; [unfold Line_ok; repeat apply conj|]); [..|apply Forall_nil]; try (apply has_check; reflexivity); try (apply name_check; reflexivity); try (apply NA; reflexivity); try (apply B; reflexivity).
Qed.
(** So names with dots or dollars are not told apart or not found. *)
Theorem C138_exact_refuted : Forall Line_ok module_lines /\
  (has_function (text_of module_lines) "f.c" = true /\ forall pre post, ~ In (Definition_of pre "f.c" post) module_lines) /\
  (has_function (text_of module_lines) "a$b" = false /\ exists pre post, In (Definition_of pre "a$b" post) module_lines) /\
  (has_global (text_of module_lines) "x$y" = false /\ exists post, In (Global "x$y" post) module_lines).
Proof.
  split; [exact module_lines_ok|]. split; [split; [vm_compute; reflexivity|]|split; (split; [vm_compute; reflexivity|])].
  - intros pre post I. unfold module_lines in I. cbn [In] in I. decompose [or] I; try discriminate; assumption.
  - eexists _, _. cbn. do 7 right. left. reflexivity.
  - eexists. cbn. do 2 right. left. reflexivity.
Qed.
Print Assumptions C138_exact_refuted.
Example C138_example : Forall Line_ok module_lines /\ Plain "fxc" /\ has_function (text_of module_lines) "fxc" = true /\ has_function (text_of module_lines) "xc" = false /\
  has_function (text_of module_lines) "counter" = false /\ has_global (text_of module_lines) "counter" = true /\ Dots "f.c" "fxc".
Proof.
  split; [exact module_lines_ok|]. split; [intros c H; repeat (apply has_cons in H as [->|H]; [reflexivity|]); destruct (has_nil _ H)|]. split; [vm_compute; reflexivity|]. split; [vm_compute; reflexivity|]. split; [vm_compute; reflexivity|]. split; [vm_compute; reflexivity|].
  repeat constructor.
Qed.
