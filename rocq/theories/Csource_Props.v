(** * Properties of the comparison of arguments by their source text (C140) *)
From Coq Require Import String Ascii ZArith Arith Bool Lia List.
From Verif Require Import PyBase Source_Model Source_Spec Source_Proofs Funcomp_Model Csource_Model Csource_Spec Csource_Proofs.
Import ListNotations.
Open Scope list_scope.

Definition Begins (p s : string) : Prop := exists r, s = (p ++ r)%string.
(** The types found are those of C, for names with stars and ampersands before them. *)
Theorem C140_type s e t : Simple s -> (type_of s e = Some t <-> C_type s e t).
Proof. intros S. apply type_of_iff. exact S. Qed.
Print Assumptions C140_type.

(** When arguments of calls that differ are taken for equal: if both are the same one of five macros in the source, or if both begin
    with sizeof and are constant numbers, and these are the sizes of the structures of the same names, or what is in the brackets has
    types of the same name.  The source of the second argument is that of a call of the function that the first call calls. *)
Theorem C140_equal l r cl cr i : Simple l -> Simple r ->
  ~ Begins "simpll__inlineasm." (s_called l) -> ~ Begins "simpll__inlineasm." (s_called r) ->
  (forall s a, s = l \/ s = r -> In a (find_call_arguments (s_called l) (s_line s) (s_bodies s)) -> Begins "sizeof" a -> exists inner, Sizeof a inner) ->
  (argument_equal l r cl cr i = Some true <->
   exists a b, nth_error (find_call_arguments (s_called l) (s_line l) (s_bodies l)) i = Some a /\
     nth_error (find_call_arguments (s_called l) (s_line r) (s_bodies r)) i = Some b /\
     ((a = b /\ In a ["__COUNTER__"; "__FILE__"; "__LINE__"; "__DATE__"; "__TIME__"]%string) \/
      exists x y inner_a inner_b, cl = Some x /\ cr = Some y /\ Sizeof a inner_a /\ Sizeof b inner_b /\
        ((exists z z', In_int x z /\ In_int y z' /\ Same_structures l r z z') \/
         (exists t u, C_type l inner_a t /\ C_type r inner_b u /\ dname t = dname u)))) /\
  argument_equal l r cl cr i <> None.
Proof.
  intros Sl Sr Al Ar W.
  assert (E : argument_equal l r cl cr i =
    match nth_error (find_call_arguments (s_called l) (s_line l) (s_bodies l)) i, nth_error (find_call_arguments (s_called l) (s_line r) (s_bodies r)) i with
    | Some a, Some b =>
      if may_ignore a && may_ignore b && String.eqb a b then Some true
      else if startswith a "sizeof" && startswith b "sizeof"
      then match cl, cr with Some x, Some y => if same_sizes l r x y then Some true else same_types l r a b | _, _ => Some false end
      else Some false
    | _, _ => Some false
    end).
  { unfold argument_equal, source_arguments. destruct (startswith (s_called l) _) eqn:E1; [exfalso; apply Al; apply startswith_spec; exact E1|]. destruct (startswith (s_called r) _) eqn:E2; [exfalso; apply Ar; apply startswith_spec; exact E2|]. reflexivity. }
  rewrite E. clear E.
  destruct (nth_error (find_call_arguments (s_called l) (s_line l) (s_bodies l)) i) as [a|] eqn:N1; [|split; [split; [discriminate|intros (? & ? & H & _); discriminate]|discriminate]].
  destruct (nth_error (find_call_arguments (s_called l) (s_line r) (s_bodies r)) i) as [b|] eqn:N2; [|split; [split; [discriminate|intros (? & ? & _ & H & _); discriminate]|discriminate]].
  assert (Wa : startswith a "sizeof" = true -> exists inner, Sizeof a inner) by (intros H; apply (W l a); [auto|eapply nth_error_In; exact N1|apply startswith_spec; exact H]).
  assert (Wb : startswith b "sizeof" = true -> exists inner, Sizeof b inner) by (intros H; apply (W r b); [auto|eapply nth_error_In; exact N2|apply startswith_spec; exact H]).
  destruct (may_ignore a && may_ignore b && String.eqb a b) eqn:M.
  { split; [|discriminate]. split; [|reflexivity]. intros _. exists a, b. split; [reflexivity|]. split; [reflexivity|]. left. apply andb_true_iff in M as (M & Q). apply andb_true_iff in M as (M & _). apply String.eqb_eq in Q. split; [exact Q|apply mem_In; exact M]. }
  assert (NM : ~ (a = b /\ In a ["__COUNTER__"; "__FILE__"; "__LINE__"; "__DATE__"; "__TIME__"]%string)).
  { intros (-> & I). assert (Q : may_ignore b = true) by (apply mem_In; exact I). rewrite Q, String.eqb_refl in M. discriminate. }
  destruct (startswith a "sizeof" && startswith b "sizeof") eqn:Z.
  2:{ split; [|discriminate]. split; [discriminate|]. intros (a' & b' & H1 & H2 & [H|(x & y & ia & ib & _ & _ & H3 & H4 & _)]); injection H1 as <-; injection H2 as <-; [contradiction|]. apply sizeof_starts in H3, H4. rewrite H3, H4 in Z. discriminate. }
  apply andb_true_iff in Z as (Za & Zb). destruct (Wa Za) as (ia & Ia). destruct (Wb Zb) as (ib & Ib).
  destruct cl as [x|]; [|split; [split; [discriminate|intros (? & ? & H1 & H2 & [H|(? & ? & ? & ? & H & _)]); [injection H1 as <-; injection H2 as <-; contradiction|discriminate]]|discriminate]].
  destruct cr as [y|]; [|split; [split; [discriminate|intros (? & ? & H1 & H2 & [H|(? & ? & ? & ? & _ & H & _)]); [injection H1 as <-; injection H2 as <-; contradiction|discriminate]]|discriminate]].
  destruct (same_sizes l r x y) eqn:SZ.
  { split; [|discriminate]. split; [|reflexivity]. intros _. exists a, b. split; [reflexivity|]. split; [reflexivity|]. right. exists x, y, ia, ib. apply same_sizes_iff in SZ. auto 8. }
  unfold same_types. rewrite (inside_sizeof a ia Ia), (inside_sizeof b ib Ib). split; [|discriminate]. split.
  - intros H. injection H as H. destruct (type_of l ia) as [t|] eqn:T; [|discriminate]. destruct (type_of r ib) as [u|] eqn:U; [|discriminate]. apply String.eqb_eq in H. exists a, b. split; [reflexivity|]. split; [reflexivity|]. right.
    exists x, y, ia, ib. do 4 (split; [assumption || reflexivity|]). right. exists t, u. split; [apply C140_type; assumption|]. split; [apply C140_type; assumption|exact H].
  - intros (a' & b' & H1 & H2 & [H|(x' & y' & ja & jb & Hx & Hy & Ja & Jb & H)]); injection H1 as <-; injection H2 as <-; [contradiction|]. injection Hx as <-. injection Hy as <-.
    destruct H as [H|(t & u & T & U & Q)]; [apply same_sizes_iff in H; congruence|]. apply inside_sizeof in Ja, Jb, Ia, Ib. assert (ja = ia) by congruence. assert (jb = ib) by congruence. subst ja jb.
    apply C140_type in T; [|exact Sl]. apply C140_type in U; [|exact Sr]. rewrite T, U. f_equal. apply String.eqb_eq. exact Q.
Qed.
Print Assumptions C140_equal.

(** Once an argument is taken for equal by its source, the arguments behind it and the called function are not compared. *)
Inductive Values_equal (cv : comparer) : list value -> list value -> state -> state -> Prop :=
| Values_none s : Values_equal cv [] [] s s
| Values_next x y s s1 a b s2 : cv x y s = Some (true, s1) -> Values_equal cv a b s1 s2 -> Values_equal cv (x :: a) (y :: b) s s2.
Theorem C140_rest w (cv : comparer) i j a b x y s s1 s2 : is_call i = true -> is_call j = true -> Values_equal cv a b s s1 -> cv x y s1 = Some (false, s2) ->
  csource w i j (length a) = true ->
  forall ls rs, cmp_operands w cv i j 0 (a ++ x :: ls) (b ++ y :: rs) s = Some (true, note Source_argument s2).
Proof.
  intros Ci Cj V X CS ls rs. assert (G : forall k, csource w i j (k + length a)%nat = true -> cmp_operands w cv i j k (a ++ x :: ls) (b ++ y :: rs) s = Some (true, note Source_argument s2)); [|apply G; exact CS].
  clear CS. induction V as [s|p q s s' a b s1 P V IH]; intros k CS.
  - cbn. rewrite X, Ci, Cj. cbn. cbn in CS. rewrite Nat.add_0_r in CS. rewrite CS. reflexivity.
  - cbn [app cmp_operands]. rewrite P. apply IH; [exact X|]. replace (S k + length a)%nat with (k + length (p :: a))%nat by (cbn; lia). exact CS.
Qed.
Print Assumptions C140_rest.

(** Two versions of a function [f] with a call of [g] in a line *)
Definition version (line : string) (locals globals : dict string dtype) (structs : list (string * option Z)) : side := mkSide "g" "" line [] "f" globals locals structs.
Lemma simple_version line locals globals structs : (forall x, In x (dkeys globals) -> ~ In ("f::" ++ x)%string (dkeys locals)) -> Forall (fun p => Only_pointers (snd p)) globals -> Forall (fun p => Only_pointers (snd p)) locals ->
  Simple (version line locals globals structs).
Proof.
  intros D G L. rewrite Forall_forall in G, L. split; [|split].
  - cbn [s_globals s_locals s_fun version]. intros x H. apply dget_None. intros I. apply (D x); [|exact I]. destruct (in_dec string_dec x (dkeys globals)) as [J|J]; [exact J|]. apply dget_None in J. contradiction.
  - intros x t E. apply dget_In in E. exact (G _ E).
  - intros x t E. apply dget_In in E. exact (L _ E).
Qed.
Definition call_line (arg : string) : string := ("g(x, " ++ arg ++ ");")%string.
Definition number : dtype := Opaque "int".
(** It is so for a structure that changed its size, and for the line number; other constants are compared. *)
Example C140_example :
  argument_equal (version (call_line "sizeof(struct s)") [] [] [("struct.s", Some 8%Z)]%string) (version (call_line "sizeof(struct s)") [] [] [("struct.s", Some 16%Z)]%string) (Some 8%Z) (Some 16%Z) 1 = Some true /\
  argument_equal (version (call_line "sizeof(*p)") [("f::p", Derived Pointer "" (Some (Opaque "s")))]%string [] []) (version (call_line "sizeof(*p)") [("f::p", Derived Pointer "" (Some (Opaque "s")))]%string [] []) (Some 8%Z) (Some 16%Z) 1 = Some true /\
  argument_equal (version (call_line "__LINE__") [] [] []) (version (call_line "__LINE__") [] [] []) (Some 8%Z) (Some 16%Z) 1 = Some true /\
  argument_equal (version (call_line "8") [] [] []) (version (call_line "16") [] [] []) (Some 8%Z) (Some 16%Z) 1 = Some false /\
  Simple (version (call_line "sizeof(*p)") [("f::p", Derived Pointer "" (Some (Opaque "s")))]%string [] []) /\ Sizeof "sizeof(*p)" "*p".
Proof.
  split; [vm_compute; reflexivity|]. split; [vm_compute; reflexivity|]. split; [vm_compute; reflexivity|]. split; [vm_compute; reflexivity|]. split.
  - apply simple_version; [intros x []|constructor|repeat constructor].
  - exists "(*p)"%string. split; [reflexivity|]. split; [discriminate|]. split; [reflexivity|]. split; [exists ""%string; reflexivity|].
    intros [|c1 [|c2 [|c3 [|c4 a]]]] b E; cbn in E; try (intros; contradiction); injection E; intros; subst; try discriminate; try contradiction.
    destruct a; [|discriminate]. cbn in *. subst. contradiction.
Qed.
(** Only what is in the brackets counts: twice and thrice the size are taken for equal. *)
Theorem C140_factor_refuted : let l := version (call_line "sizeof(x) * 2") [("f::x", number)]%string [] [] in let r := version (call_line "sizeof(x) * 3") [("f::x", number)]%string [] [] in
  Simple l /\ Simple r /\ argument_equal l r (Some 8%Z) (Some 12%Z) 1 = Some true.
Proof. split; [apply simple_version; [intros x []|constructor|repeat constructor]|]. split; [apply simple_version; [intros x []|constructor|repeat constructor]|]. vm_compute. reflexivity. Qed.
Print Assumptions C140_factor_refuted.
(** Types without names (arrays, pointers) count as types of the same name: a changed array is not seen. *)
Theorem C140_array_refuted : forall (array10 array20 : dtype), array10 = Opaque "" -> array20 = Opaque "" ->
  let l := version (call_line "sizeof(buf)") [("f::buf", array10)]%string [] [] in let r := version (call_line "sizeof(buf)") [("f::buf", array20)]%string [] [] in
  Simple l /\ Simple r /\ argument_equal l r (Some 10%Z) (Some 20%Z) 1 = Some true.
Proof. intros ? ? -> ->. split; [apply simple_version; [intros x []|constructor|repeat constructor]|]. split; [apply simple_version; [intros x []|constructor|repeat constructor]|]. vm_compute. reflexivity. Qed.
Print Assumptions C140_array_refuted.
(** Other structures of the same sizes, and even sizes that are no sizes of structures in the source, are taken for equal. *)
Theorem C140_structure_refuted : let structs a b := [("struct.a", Some a); ("struct.b", Some b)]%string in
  let l := version (call_line "sizeof(struct a)") [] [] (structs 8%Z 8%Z) in let r := version (call_line "sizeof(struct b)") [] [] (structs 16%Z 16%Z) in
  argument_equal l r (Some 8%Z) (Some 16%Z) 1 = Some true /\
  argument_equal (version (call_line "sizeof(long)") [] [] (structs 8%Z 8%Z)) (version (call_line "sizeof(long double)") [] [] (structs 16%Z 16%Z)) (Some 8%Z) (Some 16%Z) 1 = Some true.
Proof. split; vm_compute; reflexivity. Qed.
Print Assumptions C140_structure_refuted.
(** A local variable with the name of a global one gets the type of that, and the type behind a star is that behind the name of a type
    of pointers. *)
Theorem C140_type_refuted : let named := Derived Typedef "str" (Some (Derived Pointer "" (Some (Opaque "char")))) in
  let s := version "" [("f::x", Opaque "s"); ("f::p", named)]%string [("x", number)]%string [] in
  (C_type s "x" (Opaque "s") /\ type_of s "x" = Some number) /\ (C_type s "*p" (Opaque "char") /\ type_of s "*p" = Some (Derived Pointer "" (Some (Opaque "char")))).
Proof.
  assert (I : forall c, ident_char c = true -> Identifier (String c "")) by (intros c H; constructor; [apply ident_char_iff; exact H|constructor]).
  split; (split; [|reflexivity]).
  - apply C_name; [apply I; reflexivity|left; reflexivity].
  - apply C_deref with (t := Derived Typedef "str" (Some (Derived Pointer "" (Some (Opaque "char"))))); [apply C_name; [apply I; reflexivity|left; reflexivity]|]. apply Points_as; [discriminate|apply Points_to].
Qed.
Print Assumptions C140_type_refuted.
(** A blank between sizeof and the bracket: the type is not found. An argument that is sizeof alone ends the program. *)
Theorem C140_blank_refuted : let l := version (call_line "sizeof (x)") [("f::x", number)]%string [] [] in
  argument_equal l l (Some 8%Z) (Some 12%Z) 1 = Some false /\
  argument_equal (version (call_line "sizeof") [] [] []) (version (call_line "sizeof") [] [] []) (Some 8%Z) (Some 12%Z) 1 = None.
Proof. split; vm_compute; reflexivity. Qed.
Print Assumptions C140_blank_refuted.
(** So calls that differ in an argument behind one of these are found equal: here [g(sizeof( struct s ), 1)] and [g(sizeof( struct s ), 2)], with
    a structure that changed its size. *)
Definition argument_number (i : inst) (k : nat) : option Z := match op k i with VConst (CInt z) => Some z | _ => None end.
Definition sized : world :=
  mkWorld String.eqb const_eqb
    (fun i j k => match argument_equal (version "g(sizeof(struct s), 1);" [] [] [("struct.s", Some 8%Z)]%string) (version "g(sizeof(struct s), 2);" [] [] [("struct.s", Some 16%Z)]%string) (argument_number i k) (argument_number j k) k with Some b => b | None => false end)
    (fun _ => false) (fun _ => false) (fun x => x) false false false false false.
Definition call_of (size flag : Z) : inst := mkInst 0 Call "call" [VConst (CInt size); VConst (CInt flag); VConst (CGlobal "g")].
Definition calling (size flag : Z) : func := mkFunc "f" 0 [(0%nat, [call_of size flag])].
Theorem C140_rest_refuted : exists s s',
  cmp_insts sized (calling 8 1) (calling 16 2) (cmp_values sized (calling 8 1) (calling 16 2) 5) (call_of 8 1) (call_of 16 2) start = Some (true, s) /\
  cmp_insts sized (calling 8 1) (calling 8 2) (cmp_values sized (calling 8 1) (calling 8 2) 5) (call_of 8 1) (call_of 8 2) start = Some (false, s').
Proof. eexists _, _. split; vm_compute; reflexivity. Qed.
Print Assumptions C140_rest_refuted.
