(** * Properties of the text utilities of SimpLL (C49-C52, C82-C87) *)
From Coq Require Import String Ascii ZArith Arith Bool Lia List.
From Verif Require Import PyBase Source_Model Source_Spec Source_Proofs.
Import ListNotations.
Open Scope list_scope.
Open Scope nat_scope.

(** ** C49: suffixes of names *)

(** A suffix is .void, or a dot and digits after a name with a character that is neither digit
    nor dot; dropping it leaves what is before it. *)
Theorem C49_has_suffix : forall name, has_suffix name = true <-> exists base, numbered name base \/ voided name base.
Proof.
  intros name. split; [intros H; apply has_suffix_iff in H; eauto|]. intros (b & H). apply (suffix_fun name b H).
Qed.
Print Assumptions C49_has_suffix.
Theorem C49_drop_suffix : forall name base, numbered name base \/ voided name base -> drop_suffix name = base.
Proof. intros name base H. apply (suffix_fun name base H). Qed.
Print Assumptions C49_drop_suffix.
Theorem C49_unique : forall name a b, numbered name a \/ voided name a -> numbered name b \/ voided name b -> a = b.
Proof. intros name a b A B. rewrite <- (C49_drop_suffix name a A). apply (C49_drop_suffix name b B). Qed.
Print Assumptions C49_unique.
(** Names of functions in custom patterns: equal without suffixes, or the name in the pattern
    has the prefix diffkemp. or diffkemp.old. (on the right side diffkemp.new.). *)
Theorem C49_names_match : forall l r left_side bl br, base_of l bl -> base_of r br ->
  let side := if left_side : bool then "old."%string else "new."%string in
  (names_match l r left_side = true <->
   bl = br \/ br = ("diffkemp." ++ side ++ bl)%string \/ (br = ("diffkemp." ++ bl)%string /\ forall t, bl <> (side ++ t)%string)).
Proof. exact names_match_iff. Qed.
Print Assumptions C49_names_match.
Theorem C49_base_exists : forall name, exists base, base_of name base /\ forall b, base_of name b -> b = base.
Proof.
  intros name. exists (base_name name). split; [apply base_of_iff; reflexivity|]. intros b B. apply base_of_iff in B. congruence.
Qed.
Print Assumptions C49_base_exists.
(** Only one suffix is dropped, an empty number is one, and a name of digits has none. *)
Theorem C49_idempotent_refuted : exists name, has_suffix name = true /\ has_suffix (drop_suffix name) = true /\ drop_suffix (drop_suffix name) <> drop_suffix name.
Proof. exists "f.1.2"%string. repeat split; discriminate. Qed.
Print Assumptions C49_idempotent_refuted.
Theorem C49_number_refuted : has_suffix "f." = true /\ drop_suffix "f." = "f"%string /\ has_suffix "123.45" = false.
Proof. repeat split. Qed.
Print Assumptions C49_number_refuted.
Example C49_example : numbered "foo.12" "foo" /\ voided "foo.void" "foo" /\ base_of "foo.part" "foo.part" /\ names_match "foo.3" "diffkemp.new.foo" false = true /\ names_match "foo" "diffkemp.new.foo" true = false.
Proof.
  split; [|split; [reflexivity|split; [apply base_of_iff; reflexivity|split; reflexivity]]]. exists "12"%string. split; [reflexivity|]. split; [repeat (constructor; [split; vm_compute; lia|]); constructor|].
  exists "f"%char. split; [exists ""%string, "oo"%string; reflexivity|]. split; [intros [_ H]; vm_compute in H; lia|discriminate].
Qed.

(** ** C50: replacing *)

Theorem C50_terminates : forall input find repl fuel, String.length input < fuel -> exists r, find_and_replace fuel input find repl = Some r.
Proof.
  intros input find repl fuel L. destruct (String.eqb_spec find "") as [->|N]; [exists input; reflexivity|]. destruct (find_and_replace_ok input find repl fuel N L) as (r & E & _). eauto.
Qed.
Print Assumptions C50_terminates.
(** The result has all occurrences replaced, from the left, without overlap; replaced text is
    not looked at again. *)
Theorem C50_replaces_all : forall input find repl, find <> ""%string -> Replaced find repl input (replace_all input find repl).
Proof. intros input find repl N. rewrite replace_all_replace by exact N. apply replace_Replaced. exact N. Qed.
Print Assumptions C50_replaces_all.
Theorem C50_unique : forall input find repl fuel r, find <> ""%string -> String.length input < fuel -> find_and_replace fuel input find repl = Some r ->
  forall r2, Replaced find repl input r2 <-> r2 = r.
Proof.
  intros input find repl fuel r N L E r2. destruct (find_and_replace_ok input find repl fuel N L) as (r3 & E3 & R). assert (r3 = r) by congruence. subst r3.
  split; [intros R2; exact (Replaced_fun find repl input _ _ N R2 R)|intros ->; exact R].
Qed.
Print Assumptions C50_unique.
(** Nothing is done for an empty pattern. *)
Theorem C50_empty_pattern : forall input repl fuel, find_and_replace fuel input "" repl = Some input.
Proof. reflexivity. Qed.
Print Assumptions C50_empty_pattern.
Example C50_example : replace_all "aaa.a" "aa" "a" = "aa.a"%string /\ replace_all "x.*.y.*" ".*" "" = "x.y"%string.
Proof. split; reflexivity. Qed.

(** ** C51: matching brackets *)

(** From an opening bracket on: the text up to the bracket that closes it. *)
Theorem C51_closed : forall pre rest r, closes ("(" ++ rest) r ->
  to_matching_bracket (pre ++ "(" ++ rest) (Some (String.length pre)) = Some r /\ exists inside, r = ("(" ++ inside ++ ")")%string.
Proof.
  intros pre rest r C. unfold to_matching_bracket. destruct (Nat.ltb_spec (String.length (pre ++ "(" ++ rest)) (String.length pre)) as [LT|_]; [rewrite length_app_s in LT; lia|].
  rewrite drop_app, (bracket_iff _ _ C). split; [reflexivity|]. destruct (closed_form ("(" ++ rest) r ltac:(exists rest; reflexivity) C) as (args & _ & -> & _). eauto.
Qed.
Print Assumptions C51_closed.
(** If it is never closed, the rest of the text. *)
Theorem C51_never_closed : forall pre rest, never_closes rest -> to_matching_bracket (pre ++ rest) (Some (String.length pre)) = Some rest.
Proof.
  intros pre rest N. unfold to_matching_bracket. destruct (Nat.ltb_spec (String.length (pre ++ rest)) (String.length pre)) as [LT|_]; [rewrite length_app_s in LT; lia|].
  rewrite drop_app, (bracket_whole _ N). reflexivity.
Qed.
Print Assumptions C51_never_closed.
Theorem C51_either : forall c rest, (exists r, closes (String c rest) r) \/ never_closes (String c rest).
Proof. intros c rest. destruct (bracket_spec (String c rest) ltac:(discriminate)) as [H|[_ H]]; eauto. Qed.
Print Assumptions C51_either.
(** Another character than a bracket is returned alone; nothing at the end or for npos; a
    position after the end is undefined. *)
Theorem C51_elsewhere : forall pre c rest, c <> "("%char -> c <> ")"%char ->
  to_matching_bracket (pre ++ String c rest) (Some (String.length pre)) = Some (String c "") /\
  to_matching_bracket pre (Some (String.length pre)) = Some ""%string /\ to_matching_bracket pre None = Some ""%string /\
  forall n, String.length pre < n <-> to_matching_bracket pre (Some n) = None.
Proof.
  intros pre c rest N1 N2. unfold to_matching_bracket. split; [|split; [|split; [reflexivity|]]].
  - destruct (Nat.ltb_spec (String.length (pre ++ String c rest)) (String.length pre)) as [LT|_]; [rewrite length_app_s in LT; lia|]. rewrite drop_app. cbn [bracket_loop].
    destruct (Ascii.eqb_spec c "("); [contradiction|]. destruct (Ascii.eqb_spec c ")"); [contradiction|]. reflexivity.
  - rewrite Nat.ltb_irrefl. rewrite <- (app_nil_r_s pre) at 2. rewrite drop_app. reflexivity.
  - intros n. destruct (Nat.ltb_spec (String.length pre) n); split; intros H2; try reflexivity; try lia; discriminate.
Qed.
Print Assumptions C51_elsewhere.
(** An unclosed bracket is not reported. *)
Theorem C51_unclosed_refuted : exists s, never_closes s /\ s <> ""%string /\ to_matching_bracket s (Some 0) = Some s.
Proof.
  exists "(a"%string. split; [|split; [discriminate|reflexivity]]. intros r t E N L. destruct r as [|a [|b r]]; [contradiction| |].
  - cbn in E. assert (a = "("%char) by congruence. subst a. discriminate.
  - assert (a = "("%char) by (cbn in E; congruence). assert (b = "a"%char) by (cbn in E; congruence). assert (r = ""%string) by (cbn in E; destruct r; [reflexivity|discriminate]). subst. discriminate.
Qed.
Print Assumptions C51_unclosed_refuted.
Example C51_example : to_matching_bracket "f(a, (b), c) + g(d)" (Some 1) = Some "(a, (b), c)"%string.
Proof. reflexivity. Qed.

(** ** C52: composite macro names *)

(** The expansion of a parameter ends, with the result [r], exactly if every occurrence of
    parameter## met is at the start of a word. *)
Theorem C52_result : forall param arg body r, Composed param arg None body r <-> exists fuel, composite_loop fuel param arg body 0 = Some r.
Proof. intros param arg body r. apply (composite_iff param arg body). Qed.
Print Assumptions C52_result.
Theorem C52_diverges_iff : forall param arg body, Stuck param None body <-> forall fuel, composite_loop fuel param arg body 0 = None.
Proof. intros param arg body. apply (composite_iff param arg body). Qed.
Print Assumptions C52_diverges_iff.
Theorem C52_either : forall param arg body, (exists r, Composed param arg None body r) \/ Stuck param None body.
Proof. intros param arg body. apply composed_or_stuck. Qed.
Print Assumptions C52_either.
(** It ends within as many rounds as the body has characters if no occurrence continues a word. *)
Theorem C52_terminates : forall param arg body fuel, String.length body < fuel ->
  (forall a c b, body = (a ++ String c (param ++ "##" ++ b))%string -> ~ word_char c) -> exists r, composite_loop fuel param arg body 0 = Some r.
Proof.
  intros param arg body fuel L H. destruct (composed_or_stuck param arg body None) as [(r & C)|S].
  - exists r. apply (composed_some param arg None body r C fuel ""%string L). constructor.
  - exfalso. assert (G : forall prev s, Stuck param prev s -> forall done, preceded None done prev -> (forall a c b, (done ++ s)%string = (a ++ String c (param ++ "##" ++ b))%string -> ~ word_char c) -> False).
    { induction 1 as [prev s pre post c F P (x & -> & W)|prev s pre x y post c F P W ST IH]; intros done D HH.
      - assert (P2 : preceded None (done ++ pre) (Some x)) by (eapply preceded_app; eassumption). destruct F as [E _]. assert (Q : exists q, (done ++ pre)%string = (q ++ String x "")%string) by (inversion P2; eauto). destruct Q as (q & E0). apply (HH q x post); [|exact W].
        rewrite E, <- app_assoc_s, E0, !app_assoc_s. reflexivity.
      - apply (IH (done ++ pre ++ (param ++ "##") ++ String x (String y ""))%string).
        + replace (done ++ pre ++ (param ++ "##") ++ String x (String y ""))%string with ((done ++ pre ++ (param ++ "##") ++ String x "") ++ String y "")%string by (rewrite !app_assoc_s; reflexivity). constructor.
        + intros a d b E. apply (HH a d b). rewrite <- E. destruct F as [-> _]. rewrite !app_assoc_s. reflexivity. }
    apply (G None body S ""%string); [constructor|exact H].
Qed.
Print Assumptions C52_terminates.
(** Realistic macros for which it does not end: a parameter that is also the end of another
    word, and a macro without parameters. *)
Theorem C52_termination_refuted :
  (forall fuel, expand_composite fuel ["e"]%string ["x"]%string "fname##e" = None) /\
  (forall fuel, expand_composite fuel (d_params (macro_def "f.h" "F()" "a##b" 1)) [""]%string "a##b" = None).
Proof.
  assert (G : forall p a body fuel, (forall fuel, composite_loop fuel p a body 0 = None) -> expand_composite fuel [p] [a] body = None) by (intros p a body fuel H; cbn; rewrite H; reflexivity).
  split; intros fuel.
  - apply G. apply (proj1 (C52_diverges_iff "e" "x" "fname##e")). eapply sk_here with (pre := "fnam"%string) (post := "e"%string) (c := Some "m"%char).
    + split; [reflexivity|]. intros a b E. pose proof (f_equal String.length E) as L. rewrite !length_app_s in L. cbn in L. do 4 (destruct a as [|? a]; [cbn in E; try discriminate|]); cbn; lia.
    + change "fnam"%string with ("fna" ++ String "m" "")%string. constructor.
    + exists "m"%char. split; [reflexivity|]. left. right. vm_compute. lia.
  - apply (G ""%string ""%string). apply (proj1 (C52_diverges_iff "" "" "a##b")). eapply sk_here with (pre := "a"%string) (post := "b"%string) (c := Some "a"%char).
    + split; [reflexivity|]. intros a b E. destruct a as [|? a]; [cbn in E; discriminate|cbn; lia].
    + change "a"%string with ("" ++ String "a" "")%string. constructor.
    + exists "a"%char. split; [reflexivity|]. left. right. vm_compute. lia.
Qed.
Print Assumptions C52_termination_refuted.
(** The two characters after a replaced occurrence are skipped, so a neighbour can be missed. *)
Theorem C52_neighbour_refuted : composite_loop 10 "a" "x" "a##a##b" 0 = Some "xa##b"%string /\ composite_loop 10 "a" "x" "a##b a##c" 0 = Some "xb xc"%string.
Proof. split; reflexivity. Qed.
Print Assumptions C52_neighbour_refuted.
Example C52_example : Composed "n" "irq" None "n##_handler(n)" "irq_handler(n)".
Proof. apply C52_result. exists 20. reflexivity. Qed.

(** ** C82: splitting arguments *)

Theorem C82_split : forall args, args <> [] -> Forall argument args ->
  exists bs, split_arguments ("(" ++ join "," args ++ ")") = bs /\ Forall2 stripped args bs.
Proof. exact split_arguments_ok. Qed.
Print Assumptions C82_split.
(** Every closed bracket is of that form, so the arguments of every bracket are found. *)
Theorem C82_every_bracket : forall rest r, closes ("(" ++ rest) r -> exists args bs, args <> [] /\ Forall argument args /\ r = ("(" ++ join "," args ++ ")")%string /\
  Forall2 stripped args bs /\ split_arguments r = bs.
Proof.
  intros rest r C. destruct (closed_form ("(" ++ rest) r ltac:(exists rest; reflexivity) C) as (args & N & -> & F). destruct (split_arguments_ok args N F) as (bs & E & S). exists args, bs. auto.
Qed.
Print Assumptions C82_every_bracket.
(** No bracket, no argument; an unclosed bracket loses its last argument. *)
Theorem C82_nothing : split_arguments "" = [] /\ split_arguments "(a, b" = ["a"]%string /\ split_arguments "()" = [""]%string.
Proof. repeat split. Qed.
Print Assumptions C82_nothing.
(** Quotation marks are not respected. *)
Theorem C82_quotes_refuted : split_arguments (String "(" (String quote "a,b" ++ String quote ", c)")) = [String quote "a"; ("b" ++ String quote "")%string; "c"%string].
Proof. reflexivity. Qed.
Print Assumptions C82_quotes_refuted.
Example C82_example : split_arguments "(a, f(b, c) , (d))" = ["a"; "f(b, c)"; "(d)"]%string.
Proof. reflexivity. Qed.

(** ** C83: macro definitions *)

(** The collection ends; a macro is found exactly if a file has a definition with its name, and
    the first one in the order of the search counts: the files of the unit from the last, the
    definitions of a file before those of the files it includes. *)
Theorem C83_definitions : forall nodes, exists l defs n, Listed (rev nodes) l /\
  (forall fuel, n <= fuel -> collect_defs fuel nodes = Some defs) /\
  (forall f full value line, In (f, full, value, line) l <-> Defined nodes f full value line) /\
  forall k d, dget defs k = Some d <-> exists l1 f full value line l2, l = l1 ++ (f, full, value, line) :: l2 /\ macro_name full k /\
    Forall (fun x => ~ macro_name (snd (fst (fst x))) k) l1 /\
    d_name d = k /\ d_body d = value /\ d_line d = line /\ d_file d = f /\ d_params d = d_params (macro_def f full value line).
Proof.
  intros nodes. destruct (listed_total (rev nodes)) as (l & L). destruct (collect_defs_ok nodes l L) as (n & H). exists l, (fold_left add_entry l []), n. split; [exact L|]. split; [exact H|]. split.
  - intros f full v ln. rewrite (listed_in _ _ L). split; intros D; inversion D as [n0 f0 e0 f1 v1 l1 I1 I2|n0 f0 e0 g0 f1 v1 l1 I1 I2]; subst; [eapply df_here|eapply df_file|eapply df_here|eapply df_file]; try eassumption;
      [apply in_rev; exact I1|apply in_rev; exact I1|apply (proj1 (in_rev _ _)); exact I1|apply (proj1 (in_rev _ _)); exact I1].
  - intros k d. rewrite add_entries. split.
    + intros [E|(_ & l1 & [[[f full] v] ln] & l2 & E & N & D & F)]; [discriminate|]. exists l1, f, full, v, ln, l2. split; [exact E|]. apply entry_name_iff in N as N2. split; [exact N2|]. split.
      * eapply Forall_impl; [|exact F]. intros [[[f2 full2] v2] ln2] NE M. apply NE. apply entry_name_iff. exact M.
      * subst d. cbn [entry_def entry_name] in *. split; [exact N|]. unfold macro_def. destruct (find_at "(" full); cbn; auto.
    + intros (l1 & f & full & v & ln & l2 & E & M & F & N & B & LN & FI & PA). right. split; [reflexivity|]. exists l1, (f, full, v, ln), l2. split; [exact E|]. split; [apply entry_name_iff; exact M|]. split.
      * cbn [entry_def]. assert (NM : d_name (macro_def f full v ln) = k) by (apply macro_name_iff; exact M).
        destruct d as [a b c e g]. cbn in N, B, LN, FI, PA. subst a b c e g. unfold macro_def in *. destruct (find_at "(" full); cbn in *; congruence.
      * eapply Forall_impl; [|exact F]. intros [[[f2 full2] v2] ln2] NE M2. apply NE. apply entry_name_iff in M2. exact M2.
Qed.
Print Assumptions C83_definitions.
(** The parameters are those between the brackets after the name. *)
Theorem C83_parameters : forall f full value line ps, parameters full ps -> d_params (macro_def f full value line) = ps.
Proof. exact parameters_def. Qed.
Print Assumptions C83_parameters.
Theorem C83_keyed : forall fuel nodes defs, collect_defs fuel nodes = Some defs -> keyed defs.
Proof.
  intros fuel nodes defs E k d G. destruct (listed_total (rev nodes)) as (l & L). rewrite (collect_defs_unique nodes l fuel defs L E) in G. apply add_entries in G as [G|(_ & l1 & e & l2 & _ & N & -> & _)]; [discriminate|].
  destruct e as [[[f full] v] ln]. exact N.
Qed.
Print Assumptions C83_keyed.
(** A later definition in the same file does not count, nor does #undef end a definition. *)
Theorem C83_redefinition_refuted : exists defs, collect_defs 5 [MFile "a.c" [MDef "X" "1" 1; MDef "X" "" 5; MDef "X" "2" 6]] = Some defs /\
  option_map d_body (dget defs "X"%string) = Some "1"%string /\ option_map d_line (dget defs "X"%string) = Some 1%Z.
Proof. eexists. repeat split. Qed.
Print Assumptions C83_redefinition_refuted.
Example C83_example : exists defs, collect_defs 9 [MFile "a.c" [MFile "b.h" [MDef "ADD(x, y)" "x + y" 3]; MDef "N" "4" 7]; MFile "c.h" []] = Some defs /\
  dget defs "ADD"%string = Some (mkMdef "ADD" "x + y" 3 "b.h" ["x"; "y"]%string) /\ dget defs "N"%string = Some (mkMdef "N" "4" 7 "a.c" []).
Proof. eexists. repeat split. Qed.
Example C83_parameters_example : parameters "ADD(x, y)" ["x"; "y"]%string.
Proof.
  apply (pa_list "ADD" ["x"; " y"]%string ["x"; "y"]%string ""%string).
  - intros [|? [|? [|? x]]] y E; cbn in E; try discriminate. destruct x; discriminate.
  - discriminate.
  - assert (A : forall a, (forall x y, a = (x ++ y)%string -> level x = 0%Z) -> (forall x y, a <> (x ++ "," ++ y)%string) -> argument a).
    { intros a H1 H2. split; [apply (H1 a ""%string); rewrite app_nil_r_s; reflexivity|]. split; [intros x y E; rewrite (H1 x y E); lia|intros x y E; destruct (H2 x y E)]. }
    constructor; [|constructor; [|constructor]]; apply A.
    + intros [|a [|b x]] y E; cbn in E; try discriminate; [reflexivity|]. assert (a = "x"%char) by congruence. subst. reflexivity.
    + intros [|a [|b x]] y E; cbn in E; discriminate.
    + intros [|a [|b [|c x]]] y E; cbn in E; try discriminate; [reflexivity| |].
      * assert (a = " "%char) by congruence. subst. reflexivity.
      * assert (a = " "%char) by congruence. assert (b = "y"%char) by congruence. subst. reflexivity.
    + intros [|a [|b [|c x]]] y E; cbn in E; discriminate.
  - constructor; [|constructor; [|constructor]].
    + apply (st_text "" "x" ""); try constructor; try discriminate. intros [|? t] E; cbn in E; [discriminate|]. destruct t; discriminate.
    + apply (st_text " " "y" ""); try (constructor; [reflexivity|constructor]); try constructor; try discriminate. intros [|? t] E; cbn in E; [discriminate|]. destruct t; discriminate.
Qed.

(** ** C84: macro uses and their differences *)

(** The uses found for a location: every macro seen on the line or in the body of a macro found,
    each once, with the macro it was found in, and nothing else.  [u0] is what was found for the
    location before. *)
Theorem C84_uses : forall fuelc defs loc line u0 uses, keyed defs -> uses_of fuelc defs u0 -> collect_uses fuelc defs loc line u0 = Some uses ->
  uses_of fuelc defs uses /\ (forall k u, dget u0 k = Some u -> dget uses k = Some u) /\
  (forall k i, sees line k i -> dget defs k <> None -> dget uses k <> None) /\
  (forall k u, dget uses k = Some u -> dget u0 k = Some u \/ justified fuelc defs loc line uses k u) /\
  NoDup (dkeys uses) /\ forall k u, dget uses k = Some u -> exists l, Path_to uses k l.
Proof.
  intros fuelc defs loc line u0 uses K U E. destruct (collect_uses_ok fuelc defs loc line u0 uses K U E) as (A & B & C & D). split; [exact A|]. split; [exact B|]. split; [exact C|]. split; [exact D|].
  destruct A as (O & _). split; [apply ordered_nodup, O|]. intros k u G. destruct (ordered_path uses O k u G) as (l & P & _). eauto.
Qed.
Print Assumptions C84_uses.
Theorem C84_nothing_found_yet : forall fuelc defs, uses_of fuelc defs [].
Proof. intros fuelc defs. split; [constructor|]. split; discriminate. Qed.
Print Assumptions C84_nothing_found_yet.
(** The search ends, also for macros that use each other, unless the expansion of composite
    names does not; it does if no body has ##. *)
Theorem C84_terminates : forall fuelc defs loc line u0, keyed defs -> uses_of fuelc defs u0 ->
  (forall k d args, dget defs k = Some d -> expand_composite fuelc (d_params d) args (d_body d) <> None) -> exists uses, collect_uses fuelc defs loc line u0 = Some uses.
Proof. exact collect_uses_total. Qed.
Print Assumptions C84_terminates.
Theorem C84_terminates_without_composites : forall fuelc defs loc line, keyed defs -> (forall k d, dget defs k = Some d -> ~ within "##" (d_body d)) ->
  exists uses, collect_uses (S fuelc) defs loc line [] = Some uses.
Proof.
  intros fuelc defs loc line K H. apply collect_uses_total; [exact K|apply C84_nothing_found_yet|]. intros k d args G. rewrite expand_without by (exact (H k d G)). discriminate.
Qed.
Print Assumptions C84_terminates_without_composites.
(** The differences: one for every macro used on both sides with different bodies, with the
    macros that lead to it. *)
Theorem C84_differences : forall fl fr dl dr l r m, keyed dl -> uses_of fl dl l -> uses_of fr dr r ->
  (In m (differences l r) <-> exists k ul ur sl sr, dget l k = Some ul /\ dget r k = Some ur /\ d_body (u_def ul) <> d_body (u_def ur) /\ Path_to l k sl /\ Path_to r k sr /\
    m = mkMdiff k (d_body (u_def ul)) (d_body (u_def ur)) sl sr).
Proof. exact differences_ok. Qed.
Print Assumptions C84_differences.
(** Over a comparison: everything reported is a macro with different bodies on both sides,
    whatever was looked at before. *)
Definition cache_ok (fuelc : nat) (defsl defsr : dict string mdef) (left : nat -> bool) (st : dict nat (dict string muse)) : Prop :=
  forall id u, dget st id = Some u -> uses_of fuelc (if left id then defsl else defsr) u.
Lemma get_uses_ok fuelc defs line_at loc offset st u st' : keyed defs -> (forall u, dget st (l_id loc) = Some u -> uses_of fuelc defs u) -> get_uses fuelc defs line_at loc offset st = Some (u, st') ->
  uses_of fuelc defs u /\ dget st' (l_id loc) = Some u /\ (forall id, id <> l_id loc -> dget st' id = dget st id) /\
  (dget st (l_id loc) = None -> offset = 0%Z -> forall k i, sees (line_at loc 0%Z) k i -> dget defs k <> None -> dget u k <> None).
Proof.
  intros K G E. unfold get_uses in E.
  assert (STEP : forall u0, uses_of fuelc defs u0 -> match collect_uses fuelc defs (l_line loc, l_file loc) (line_at loc offset) u0 with Some u => Some (u, dset st (l_id loc) u) | None => None end = Some (u, st') ->
    uses_of fuelc defs u /\ dget st' (l_id loc) = Some u /\ (forall id, id <> l_id loc -> dget st' id = dget st id) /\
    (dget st (l_id loc) = None -> offset = 0%Z -> forall k i, sees (line_at loc 0%Z) k i -> dget defs k <> None -> dget u k <> None)).
  { intros u0 U H. destruct (collect_uses fuelc defs (l_line loc, l_file loc) (line_at loc offset) u0) as [uses|] eqn:C; [|discriminate]. injection H as <- <-. destruct (collect_uses_ok _ _ _ _ _ _ K U C) as (A & _ & B & _).
    split; [exact A|]. split; [apply dget_dset_same|]. split; [intros id N; apply dget_dset_other; exact N|]. intros _ ->. exact B. }
  destruct (dget st (l_id loc)) as [v|] eqn:D.
  - destruct (offset =? 0)%Z eqn:O; [|apply (STEP v); [apply G; reflexivity|exact E]]. injection E as <- <-. split; [apply G; reflexivity|]. split; [exact D|]. split; [reflexivity|discriminate].
  - apply (STEP []); [apply C84_nothing_found_yet|exact E].
Qed.
Lemma differences_at_ok fuelc defsl defsr line_at left l r offset st ds st' : keyed defsl -> keyed defsr -> left (l_id l) = true -> left (l_id r) = false ->
  cache_ok fuelc defsl defsr left st -> differences_at fuelc defsl defsr line_at l r offset st = Some (ds, st') ->
  cache_ok fuelc defsl defsr left st' /\ (forall m, In m ds -> exists dl dr, dget defsl (m_name m) = Some dl /\ dget defsr (m_name m) = Some dr /\ d_body dl <> d_body dr /\ m_left m = d_body dl /\ m_right m = d_body dr) /\
  (dget st (l_id l) = None -> dget st (l_id r) = None -> offset = 0%Z ->
   forall k i j dl dr, sees (line_at l 0%Z) k i -> sees (line_at r 0%Z) k j -> dget defsl k = Some dl -> dget defsr k = Some dr -> d_body dl <> d_body dr -> exists m, In m ds /\ m_name m = k).
Proof.
  intros KL KR SL SR C E. assert (NE : l_id r <> l_id l) by congruence. unfold differences_at in E. destruct (get_uses fuelc defsl line_at l offset st) as [[ul st1]|] eqn:E1; [|discriminate].
  destruct (get_uses fuelc defsr line_at r offset st1) as [[ur st2]|] eqn:E2; [|discriminate]. injection E as <- <-.
  apply get_uses_ok in E1 as (UL & D1 & O1 & S1); [|exact KL|intros u G; specialize (C _ _ G); rewrite SL in C; exact C].
  apply get_uses_ok in E2 as (UR & D2 & O2 & S2); [|exact KR|intros u G; rewrite O1 in G by exact NE; specialize (C _ _ G); rewrite SR in C; exact C].
  split; [|split].
  - intros id u G. destruct (Nat.eq_dec id (l_id r)) as [->|N2]; [rewrite D2 in G; injection G as <-; rewrite SR; exact UR|]. rewrite O2 in G by exact N2.
    destruct (Nat.eq_dec id (l_id l)) as [->|N1]; [rewrite D1 in G; injection G as <-; rewrite SL; exact UL|]. rewrite O1 in G by exact N1. apply C, G.
  - intros m I. apply (differences_ok fuelc fuelc defsl defsr ul ur m KL UL UR) in I as (k & vl & vr & sl & sr & G1 & G2 & N & _ & _ & ->). exists (u_def vl), (u_def vr). cbn.
    destruct UL as (_ & UL & _). destruct UR as (_ & UR & _). repeat split; auto.
  - intros F1 F2 EO k i j dl dr SE1 SE2 G1 G2 N. specialize (S1 F1 EO k i SE1 ltac:(congruence)). specialize (S2 ltac:(rewrite O1 by exact NE; exact F2) EO k j SE2 ltac:(congruence)).
    destruct (dget ul k) as [vl|] eqn:H1; [|contradiction]. destruct (dget ur k) as [vr|] eqn:H2; [|contradiction].
    assert (VL : u_def vl = dl) by (destruct UL as (_ & UL & _); specialize (UL k vl H1); congruence). assert (VR : u_def vr = dr) by (destruct UR as (_ & UR & _); specialize (UR k vr H2); congruence).
    assert (OL : Ordered ul) by apply UL. assert (OR : Ordered ur) by apply UR. destruct (ordered_path ul OL k vl H1) as (sl & PL & _). destruct (ordered_path ur OR k vr H2) as (sr & PR & _).
    eexists. split; [apply (differences_ok fuelc fuelc defsl defsr ul ur _ KL UL UR); exists k, vl, vr, sl, sr; repeat split; try eassumption; congruence|reflexivity].
Qed.
Theorem C84_reported : forall fuelc defsl defsr line_at left l r st ds st', keyed defsl -> keyed defsr -> left (l_id l) = true -> left (l_id r) = false ->
  cache_ok fuelc defsl defsr left st -> find_differences fuelc defsl defsr line_at l r st = Some (ds, st') ->
  cache_ok fuelc defsl defsr left st' /\
  forall m, In m ds -> exists dl dr, dget defsl (m_name m) = Some dl /\ dget defsr (m_name m) = Some dr /\ d_body dl <> d_body dr /\ m_left m = d_body dl /\ m_right m = d_body dr.
Proof.
  intros fuelc defsl defsr line_at left l r st ds st' KL KR SL SR C E. unfold find_differences in E. destruct (differences_at fuelc defsl defsr line_at l r 0 st) as [[d1 st1]|] eqn:E1; [|discriminate].
  destruct (differences_at_ok _ _ _ _ left _ _ _ _ _ _ KL KR SL SR C E1) as (C1 & M1 & _). destruct d1 as [|m1 d1]; [|injection E as <- <-; auto].
  destruct (differences_at_ok _ _ _ _ left _ _ _ _ _ _ KL KR SL SR C1 E) as (C2 & M2 & _). auto.
Qed.
Print Assumptions C84_reported.
(** Nothing is missed at locations looked at for the first time: a macro seen on both lines whose
    bodies differ is reported. *)
Theorem C84_none_missed : forall fuelc defsl defsr line_at l r ds st', keyed defsl -> keyed defsr -> l_id l <> l_id r ->
  find_differences fuelc defsl defsr line_at l r [] = Some (ds, st') ->
  forall k i j dl dr, sees (line_at l 0%Z) k i -> sees (line_at r 0%Z) k j -> dget defsl k = Some dl -> dget defsr k = Some dr -> d_body dl <> d_body dr -> exists m, In m ds /\ m_name m = k.
Proof.
  intros fuelc defsl defsr line_at l r ds st' KL KR NE E k i j dl dr S1 S2 G1 G2 N. unfold find_differences in E. destruct (differences_at fuelc defsl defsr line_at l r 0 []) as [[d1 st1]|] eqn:E1; [|discriminate].
  destruct (differences_at_ok fuelc defsl defsr line_at (fun id => id =? l_id l) l r 0%Z [] d1 st1 KL KR) as (_ & _ & M).
  - apply Nat.eqb_refl.
  - apply Nat.eqb_neq. congruence.
  - intros id u G. discriminate.
  - exact E1.
  - destruct (M eq_refl eq_refl eq_refl k i j dl dr S1 S2 G1 G2 N) as (m & I & EN). destruct d1 as [|m1 d1]; [destruct I|]. injection E as <- <-. eauto.
Qed.
Print Assumptions C84_none_missed.
(** What is seen: identifiers; also the end of a number with letters, and not an identifier of
    one character at the very end. *)
Theorem C84_sees_refuted : sees "x = 10UL;" "UL" 8 /\ (forall i, ~ sees "return N" "N" i) /\ sees "return NN" "NN" 8.
Proof.
  split; [apply scan_sees; vm_compute; tauto|]. split; [intros i S; apply scan_sees in S; vm_compute in S; repeat (destruct S as [S|S]; [discriminate|]); destruct S|apply scan_sees; vm_compute; tauto].
Qed.
Print Assumptions C84_sees_refuted.
(** After the line before was looked at as well, its macros count as used on the line. *)
Theorem C84_previous_line_refuted : exists defsl defsr line_at l r st ds ds2 st2,
  ~ (exists i, sees (line_at l 0%Z) "OLD"%string i) /\
  find_differences 9 defsl defsr line_at l r [] = Some (ds, st) /\
  differences_at 9 defsl defsr line_at l r 0 st = Some (ds2, st2) /\ map m_name ds2 = ["OLD"]%string.
Proof.
  exists [("OLD"%string, mkMdef "OLD" "1" 1 "a.h" [])], [("OLD"%string, mkMdef "OLD" "2" 1 "a.h" [])], (fun _ o => if (o =? 0)%Z then "x = y;"%string else "OLD;"%string), (mkLocation 0 5 "a.c"), (mkLocation 1 5 "a.c").
  do 4 eexists. split; [|split; [reflexivity|split; reflexivity]]. intros (i & S). apply scan_sees in S. vm_compute in S. repeat (destruct S as [S|S]; [discriminate|]); destruct S.
Qed.
Print Assumptions C84_previous_line_refuted.
(** Macros that use each other. *)
Example C84_example : exists uses, collect_uses 9 [("A"%string, mkMdef "A" "B(x) + 1" 1 "a.h" ["x"]%string); ("B"%string, mkMdef "B" "A(y)" 2 "b.h" ["y"]%string)] (7%Z, "a.c"%string) "v = A(3);" [] = Some uses /\
  Path_to uses "B" [("A (macro)"%string, "a.c"%string, 7%Z); ("B (macro)"%string, "a.h"%string, 1%Z)] /\ option_map u_args (dget uses "B"%string) = Some ["3"]%string.
Proof.
  set (a := mkMuse (mkMdef "A" "B(x) + 1" 1 "a.h" ["x"]%string) None 7 "a.c" ["3"]%string). set (b := mkMuse (mkMdef "B" "A(y)" 2 "b.h" ["y"]%string) (Some "A"%string) 1 "a.h" ["3"]%string).
  exists [("A"%string, a); ("B"%string, b)]. split; [reflexivity|]. split; [|reflexivity].
  apply (pt_macro _ "B"%string b "A"%string [("A (macro)"%string, "a.c"%string, 7%Z)]); [reflexivity|reflexivity|]. apply (pt_line _ "A"%string a); reflexivity.
Qed.

(** ** C85: the text of a source location *)

(** The text is that of the line of the location with the lines it continues, completed by
    following lines while brackets are open or a return statement is not finished. *)
Theorem C85_text : forall first before target x rest, fst first <> target -> Forall (fun y => fst y <> target) before ->
  exists skipped seg, before ++ [(target, x)] = skipped ++ seg /\ seg <> [] /\ beginning skipped seg /\ Completed seg rest (extract_line (first :: before ++ (target, x) :: rest) target).
Proof. exact extract_present. Qed.
Print Assumptions C85_text.
(** It is a part of the file that contains the line. *)
Theorem C85_contiguous : forall first before target x rest t, fst first <> target -> Forall (fun y => fst y <> target) before ->
  extract_line (first :: before ++ (target, x) :: rest) target = Some t ->
  exists skipped shown left, before ++ (target, x) :: rest = skipped ++ shown ++ left /\ In (target, x) shown /\ t = texts shown.
Proof.
  intros first before target x rest t N F E. destruct (extract_present first before target x rest N F) as (sk & seg & E1 & NE & _ & C). rewrite E in C.
  assert (I : In (target, x) seg).
  { destruct (exists_last NE) as (s0 & [n y] & ->). rewrite app_assoc in E1. apply app_inj_tail in E1 as [_ <-]. apply in_or_app. right. left. reflexivity. }
  assert (L : before ++ (target, x) :: rest = sk ++ seg ++ rest) by (rewrite app_assoc, <- E1, <- app_assoc; reflexivity).
  assert (T : forall P t0 r tk lf, Taken P t0 r tk lf -> r = tk ++ lf) by (induction 1; cbn; [reflexivity|reflexivity|f_equal; assumption]).
  inversion C as [A B EQ|tk lf A B TK EQ|tk lf A TK B EQ|tk lf tk2 lf2 A TK B CL TK2 EQ|]; subst.
  - exists sk, seg, rest. auto.
  - apply T in TK. subst rest. exists sk, (seg ++ tk), lf. rewrite <- app_assoc. split; [exact L|]. split; [apply in_or_app; auto|reflexivity].
  - apply T in TK. subst rest. exists sk, (seg ++ tk), lf. rewrite <- app_assoc. split; [exact L|]. split; [apply in_or_app; auto|reflexivity].
  - apply T in TK2. subst lf. apply T in TK. subst rest. exists sk, (seg ++ tk ++ tk2), lf2. rewrite <- !app_assoc. split; [exact L|]. split; [apply in_or_app; auto|reflexivity].
Qed.
Print Assumptions C85_contiguous.
(** Nothing is found for the first line that is not empty, nor for an empty line. *)
Theorem C85_first_line_refuted : forall target x rest, extract_line ((target, x) :: rest) target = Some ""%string.
Proof. exact extract_first. Qed.
Print Assumptions C85_first_line_refuted.
Theorem C85_empty_line : forall lines target, Forall (fun y => fst y <> target) lines -> extract_line lines target = Some ""%string.
Proof. intros lines target. apply extract_absent. Qed.
Print Assumptions C85_empty_line.
Theorem C85_lines : forall text n x, In (n, x) (source_lines text) <-> (1 <= n)%Z /\ nth_error (split_char newline text) (Z.to_nat (n - 1)) = Some x /\ x <> ""%string.
Proof.
  intros text n x. unfold source_lines. generalize (split_char newline text). intros l.
  assert (G : forall l m, In (n, x) (number_lines m l) <-> (m <= n)%Z /\ nth_error l (Z.to_nat (n - m)) = Some x /\ x <> ""%string).
  { induction l0 as [|y l0 IH]; intros m; cbn [number_lines].
    - split; [intros []|]. intros (_ & H & _). destruct (Z.to_nat (n - m)); discriminate.
    - rewrite in_app_iff, IH. split.
      + intros [H|(L & H & N)].
        * destruct (String.eqb_spec y "") as [|NY]; [destruct H|]. destruct H as [H|[]]. injection H as <- <-. rewrite Z.sub_diag. cbn. auto with zarith.
        * split; [lia|]. split; [|exact N]. replace (Z.to_nat (n - m)) with (S (Z.to_nat (n - (m + 1)))) by lia. exact H.
      + intros (L & H & N). destruct (Z.eq_dec n m) as [->|NE].
        * left. rewrite Z.sub_diag in H. cbn in H. injection H as ->. destruct (String.eqb_spec x ""); [contradiction|]. left. reflexivity.
        * right. split; [lia|]. split; [|exact N]. replace (Z.to_nat (n - m)) with (S (Z.to_nat (n - (m + 1)))) in H by lia. exact H. }
  apply G.
Qed.
Print Assumptions C85_lines.
(** The end of the file is passed for an unfinished return statement with open brackets. *)
Theorem C85_past_the_end_refuted : extract_line [(1, "int f()"); (2, "return g(a")]%Z%string 2 = None.
Proof. reflexivity. Qed.
Print Assumptions C85_past_the_end_refuted.
Example C85_example : extract_line [(1, "{"); (2, "f(a,"); (3, "b);"); (5, "return"); (6, "x"); (7, ";")]%Z%string 2 = Some "f(a,b);"%string /\
  extract_line [(1, "{"); (2, "f(a,"); (3, "b);"); (5, "return"); (6, "x"); (7, ";")]%Z%string 3 = Some "f(a,b);"%string /\
  extract_line [(1, "{"); (2, "f(a,"); (3, "b);"); (5, "return"); (6, "x"); (7, ";")]%Z%string 5 = Some "returnx;"%string.
Proof. repeat split. Qed.

(** ** C86: inline assembly *)

(** The assembly is the quoted sections before the first colon outside of them, with operands
    and escapes replaced; the operands are what follows from that colon on. *)
Theorem C86_conversion : forall pre mid ext post body rest ops,
  first_occurrence "asm" (pre ++ "asm" ++ mid ++ "(" ++ ext ++ ")" ++ post) pre (mid ++ "(" ++ ext ++ ")" ++ post) -> (forall x y, mid <> (x ++ "(" ++ y)%string) ->
  closes ("(" ++ ext ++ ")") ("(" ++ ext ++ ")") -> Nat.even (count quote ext) = true -> Sections ext body rest -> operand_part rest ops ->
  exists text, convert_asm (pre ++ "asm" ++ mid ++ "(" ++ ext ++ ")" ++ post) = (text, ops) /\ Rewritten asm_rules body text.
Proof.
  intros pre mid ext post body rest ops A B C D S O. destruct (convert_asm_ok pre mid ext post A B C D) as (b & r & o & S2 & O2 & ->). destruct (sections_fun _ _ _ S _ _ S2) as [-> ->]. rewrite (operand_fun _ _ _ O O2).
  exists (asm_text b). split; [reflexivity|]. assert (G : forall l s, Forall (fun x => fst x <> ""%string) l -> Rewritten l s (fold_left (fun b x => replace_all b (fst x) (snd x)) l s)).
  { induction l as [|[f t] l IH]; intros s F; [constructor|]. inversion F as [|? ? N F2]; subst. cbn [fold_left]. econstructor; [apply C50_replaces_all; exact N|apply IH, F2]. }
  assert (EQ : asm_rules = operands ++ [("\t"%string, String (ascii_of_nat 9) ""); ("\n"%string, String (ascii_of_nat 10) "")]) by reflexivity.
  assert (T : asm_text b = fold_left (fun b x => replace_all b (fst x) (snd x)) asm_rules b).
  { rewrite EQ, fold_left_app. unfold asm_text. generalize (fold_left (fun b x => replace_all b (fst x) (snd x)) operands b). intros u. cbn [fold_left fst snd]. reflexivity. }
  rewrite T. apply G. repeat (constructor; [discriminate|]). constructor.
Qed.
Print Assumptions C86_conversion.
Theorem C86_sections_exist : forall ext, Nat.even (count quote ext) = true -> exists body rest ops, Sections ext body rest /\ operand_part rest ops.
Proof.
  intros ext E. destruct (sections_ok (String.length ext) ext ""%string (le_n _) E) as (b & r & _ & S). exists b, r. eexists. split; [exact S|apply operand_part_ok].
Qed.
Print Assumptions C86_sections_exist.
(** The candidate is chosen by agreement with the compiled assembly: of several candidates, the
    one left after the shortest beginning that fewer than two agree with. *)
Theorem C86_choice : forall asm l, no_zero asm ->
  match choose (String.length asm + 2) asm 0 l with
  | Some q => length q <= 1 /\ exists n, Kept n asm l q /\ n <= S (String.length asm) /\ forall m p, m < n -> Kept m asm l p -> 2 <= length p
  | None => exists q, Kept (S (String.length asm)) asm l q /\ 2 <= length q
  end.
Proof. intros asm l NZ. apply choose_ok; [exact NZ|apply kept_all|lia|lia|lia]. Qed.
Print Assumptions C86_choice.
(** Memory behind a string is read exactly if two candidates are equal to the assembly. *)
Theorem C86_undefined_iff_refuted : forall asm l, no_zero asm -> asm <> ""%string -> Forall (fun c => no_zero (fst c)) l ->
  (choose (String.length asm + 2) asm 0 l = None <-> 2 <= length (filter (fun c => String.eqb (fst c) asm) l)).
Proof.
  intros asm l NZ NA F. pose proof (C86_choice asm l NZ) as H.
  assert (K : Kept (S (String.length asm)) asm l (filter (fun c => String.eqb (fst c) asm) l)).
  { clear H. induction F as [|c l NC F IH]; [constructor|]. cbn [filter]. destruct (String.eqb_spec (fst c) asm) as [E|E]; constructor; try exact IH; [apply fits_all; assumption|]. intros X. apply E. apply fits_all; assumption. }
  destruct (choose _ asm 0 l) as [q|].
  - split; [discriminate|]. intros L. exfalso. destruct H as (LQ & n & KN & LN & M). destruct (Nat.eq_dec n (S (String.length asm))) as [->|NE]; [rewrite (kept_fun _ _ _ _ KN _ K) in LQ; lia|].
    assert (MONO : forall l q p, Kept n asm l q -> Kept (S (String.length asm)) asm l p -> length p <= length q).
    { clear - LN. induction l as [|c l IH]; intros q p A B; inversion A; inversion B; subst; cbn; try lia.
      - match goal with H1 : Kept n asm l ?x, H2 : Kept _ asm l ?y |- _ => specialize (IH x y H1 H2) end. lia.
      - match goal with H1 : Kept n asm l ?x, H2 : Kept _ asm l ?y |- _ => specialize (IH x y H1 H2) end. lia.
      - exfalso. match goal with H1 : ~ fits n asm c, H2 : fits _ asm c |- _ => apply H1; destruct H2 as [A1 A2]; split; [intros i L; apply A1; lia|intros _; apply A2; lia] end.
      - match goal with H1 : Kept n asm l ?x, H2 : Kept _ asm l ?y |- _ => specialize (IH x y H1 H2) end. lia. }
    specialize (MONO l q _ KN K). lia.
  - split; [|reflexivity]. intros _. destruct H as (q & KQ & L). rewrite (kept_fun _ _ _ _ KQ _ K) in L. exact L.
Qed.
Print Assumptions C86_undefined_iff_refuted.
(** The arguments are the bracketed groups of the operands of the chosen candidate. *)
Theorem C86_arguments : forall asm line bodies q l, asm <> ""%string -> line <> ""%string ->
  choose (String.length asm + 2) asm 0 (filter is_candidate (map convert_asm (line :: bodies))) = Some [q] -> Groups (snd q) l ->
  find_asm_arguments asm line bodies = Some l.
Proof.
  intros asm line bodies q l NA NL C G. unfold find_asm_arguments. destruct (String.eqb_spec asm ""); [contradiction|]. destruct (String.eqb_spec line ""); [contradiction|]. cbn [orb]. rewrite C. f_equal. apply groups_ok; [exact G|lia].
Qed.
Print Assumptions C86_arguments.
Theorem C86_groups_exist : forall s, exists l, Groups s l /\ forall l2, Groups s l2 -> l2 = l.
Proof. intros s. destruct (groups_total s) as (l & G). exists l. split; [exact G|]. intros l2 G2. exact (groups_fun s l2 l G2 G). Qed.
Print Assumptions C86_groups_exist.
Theorem C86_no_arguments : forall asm line bodies, asm = ""%string \/ line = ""%string \/ choose (String.length asm + 2) asm 0 (filter is_candidate (map convert_asm (line :: bodies))) = Some [] ->
  find_asm_arguments asm line bodies = Some [].
Proof.
  intros asm line bodies H. unfold find_asm_arguments. destruct (String.eqb_spec asm "") as [|NA]; [reflexivity|]. destruct (String.eqb_spec line "") as [|NL]; [reflexivity|]. cbn [orb]. destruct H as [H|[H|H]]; [contradiction|contradiction|rewrite H; reflexivity].
Qed.
Print Assumptions C86_no_arguments.
(** A single candidate is taken without comparison; operands with two digits are misread; a
    group directly after another is passed over. *)
Theorem C86_accuracy_refuted :
  find_asm_arguments "nop" (String.append "asm(" (String quote (String.append "mov" (String quote " : (x))")))) [] = Some ["x"]%string /\
  asm_text "%c12" = "${1:c}2"%string /\ asm_arguments 9 "(a)(b)" = ["a"]%string.
Proof. repeat split. Qed.
Print Assumptions C86_accuracy_refuted.
Example C86_example : let input := ("asm volatile(" ++ String quote ("mov %c0\n" ++ String quote (" : (x) : " ++ String quote ("r" ++ String quote " (f(y)));"))))%string in
  convert_asm input = (("mov ${0:c}" ++ String newline "")%string, (": (x) : " ++ String quote ("r" ++ String quote " (f(y))"))%string) /\
  find_asm_arguments ("mov ${0:c}" ++ String newline "") input [] = Some ["x"; "f(y)"]%string.
Proof. split; reflexivity. Qed.

(** ** C87: arguments of a call *)

(** The arguments are those of the first bracket from the first occurrence of the name on, in
    the last text with the name: the line, then the bodies of its macros. *)
Theorem C87_arguments : forall name line bodies before x after pre a args rest, line <> ""%string -> line :: bodies = before ++ x :: after ->
  Forall (fun y => ~ within name y) after -> first_occurrence name x pre (a ++ "(" ++ join "," args ++ ")" ++ rest) -> (forall u v, (name ++ a)%string <> (u ++ "(" ++ v)%string) ->
  args <> [] -> Forall argument args -> exists bs, find_call_arguments name line bodies = bs /\ Forall2 stripped args bs.
Proof.
  intros name line bodies before x after pre a args rest NL E F FO N NA FA. unfold find_call_arguments. destruct (String.eqb_spec line ""); [contradiction|]. rewrite E, call_last by exact F.
  rewrite (call_closed name x pre a args rest _ FO N NA FA). apply split_arguments_ok; assumption.
Qed.
Print Assumptions C87_arguments.
Theorem C87_none : forall name line bodies, Forall (fun y => ~ within name y) (line :: bodies) -> find_call_arguments name line bodies = [].
Proof.
  intros name line bodies F. unfold find_call_arguments. destruct (String.eqb line ""); [reflexivity|]. rewrite call_skip by exact F. reflexivity.
Qed.
Print Assumptions C87_none.
(** A mention without brackets hides the call found before. *)
Theorem C87_mention_refuted : forall name line bodies before x after pre post, line <> ""%string -> line :: bodies = before ++ x :: after ->
  Forall (fun y => ~ within name y) after -> first_occurrence name x pre post -> (forall u v, (name ++ post)%string <> (u ++ "(" ++ v)%string) -> find_call_arguments name line bodies = [].
Proof.
  intros name line bodies before x after pre post NL E F FO N. unfold find_call_arguments. destruct (String.eqb_spec line ""); [contradiction|]. rewrite E, call_last by exact F. rewrite (call_open name x pre post _ FO N). reflexivity.
Qed.
Print Assumptions C87_mention_refuted.
(** The name is found inside of other names. *)
Theorem C87_other_function_refuted : find_call_arguments "free" "kfree(p); free(q);" [] = ["p"]%string.
Proof. reflexivity. Qed.
Print Assumptions C87_other_function_refuted.
Example C87_example : find_call_arguments "kmalloc" "p = ALLOC(n);" ["kmalloc(sizeof(int), GFP)"]%string = ["sizeof(int)"; "GFP"]%string.
Proof. reflexivity. Qed.
