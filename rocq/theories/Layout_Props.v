(** Fields of structures and constants of macros: C116 to C119. *)
From Coq Require Import String Ascii ZArith Arith Bool Lia List.
From Verif Require Import PyBase Layout_Model Layout_Spec Layout_Fields Layout_Geps Layout_Noted Layout_Macros.
Import ListNotations.
Open Scope list_scope.
Open Scope Z_scope.

(** * C116: indices and names of members *)
(** The index of a member is that of its slot: bit-fields share one, and padding before members
    with an alignment of their own counts.  The name is that of no member before. *)
Theorem C116_index l pre m more post a x b n :
  laid 0 l -> l = pre ++ Slot m more :: post -> m :: more = a ++ x :: b -> named n x ->
  (forall y, In y (members pre ++ a) -> ~ named n y) ->
  member_index (members l) n = Z.of_nat (length pre).
Proof. intros L E1 E2 X N. unfold member_index. rewrite (index_of 0 l L 0 pre m more post a x b n E1 E2 X N). lia. Qed.
Print Assumptions C116_index.

Theorem C116_index_missing els n : (forall y, In y els -> ~ named n y) -> member_index els n = -1.
Proof. apply index_missing. Qed.
Print Assumptions C116_index_missing.

(** Without padding, the name at an index is that of the first member in the slot. *)
Theorem C116_name l k m more : laid 0 l -> no_padding l -> offsets l -> nth_error l k = Some (Slot m more) ->
  exists n, named n m /\ name_at (members l) (Z.of_nat k) = n.
Proof.
  intros L P O K. exists (the_name m). split; [|eapply name_of_slot; eassumption].
  assert (S : starts m).
  { clear -L P K. revert k K. induction L as [|next m0 more0 rest St J A Sz L IH|next m0 more0 rest St J A Sz L IH]; intros k K.
    - destruct k; discriminate.
    - destruct k as [|k]; cbn [nth_error] in K; [injection K as <- <-; exact St|]. apply (IH (fun H => P (or_intror H)) k K).
    - exfalso. apply P. left. reflexivity. }
  destruct m as [n off size align bits|]; [reflexivity|destruct S].
Qed.
Print Assumptions C116_name.

Lemma name_beyond l k : laid 0 l -> no_padding l -> offsets l -> ~ (0 <= k < Z.of_nat (length l)) -> name_at (members l) k = ""%string.
Proof.
  intros L P O B. unfold name_at. destruct (Z.lt_ge_cases k 0) as [N|N].
  - assert (G : forall els cur, k < cur -> name_at_from els cur k = ""%string).
    { induction els as [|[n off size align bits|] els IH]; intros cur C; cbn [name_at_from]; [reflexivity| |apply IH, C].
      destruct ((0 <? off) && negb (same_index off bits)).
      - destruct (Z.eqb_spec (cur + 1) k) as [E|_]; [lia|]. apply IH. lia.
      - destruct (Z.eqb_spec cur k) as [E|_]; [lia|]. apply IH. lia. }
    apply G. exact N.
  - inversion L as [next|next m0 more0 rest St J A S L' E1 E2|next m0 more0 rest St J A S L' E1 E2]; subst.
    + reflexivity.
    + change (members (Slot m0 more0 :: rest)) with ((m0 :: more0) ++ members rest).
      pose proof (O 0%nat m0 more0 eq_refl) as (O0 & _). specialize (O0 eq_refl).
      destruct (starts_same m0 St) as (n & off & size & align & bits & -> & E). cbn [offset_of] in O0. subst off.
      cbn [app name_at_from]. cbn [Z.ltb Z.compare andb]. cbn [length] in B.
      destruct (Z.eqb_spec 0 k) as [C|C]; [lia|]. rewrite name_join by (exact J || exact C).
      apply (name_past _ rest L'); [intros H; apply P; right; exact H|lia].
    + exfalso. apply P. left. reflexivity.
Qed.
(** At other indices there is no name. *)
Theorem C116_name_beyond l k : laid 0 l -> no_padding l -> offsets l -> ~ (0 <= k < Z.of_nat (length l)) ->
  name_at (members l) k = ""%string.
Proof. apply name_beyond. Qed.
Print Assumptions C116_name_beyond.

(** The name of a structure in C, with and without the number that LLVM adds *)
Theorem C116_type_name n t : has_char "."%char n = false -> has_char "."%char t = false ->
  c_name ("struct." ++ n)%string = n /\ c_name ("struct." ++ n ++ "." ++ t)%string = n.
Proof.
  intros N T. unfold c_name.
  change (drop 7 ("struct." ++ n)%string) with n. change (drop 7 ("struct." ++ n ++ "." ++ t)%string) with (n ++ "." ++ t)%string. split.
  - rewrite no_dot by exact N. reflexivity.
  - rewrite (last_dot n t T). reflexivity.
Qed.
Print Assumptions C116_type_name.

(** struct { int a; unsigned b : 3, c : 5; int d __attribute__((aligned(16))); int e[]; } *)
Definition sample : list slot :=
  [Slot (Member "a" 0 32 0 None) []; Slot (Member "b" 32 3 0 (Some 32)) [Member "c" 35 5 0 (Some 32)];
   Padding; Slot (Member "d" 128 32 128 None) []; Slot (Member "e" 160 0 0 None) []].
Example C116_met : laid 0 sample /\ map (member_index (members sample)) ["a"; "b"; "c"; "d"; "e"; "f"]%string = [0; 1; 1; 3; 4; -1]
  /\ c_name "struct.foo.12" = "foo"%string.
Proof.
  repeat split.
  repeat (first [apply laid_nil | apply laid_slot | apply laid_padding]); cbn; try tauto; try (left; repeat constructor; cbn; lia); try (repeat constructor; fail).
  - constructor; [|constructor]. split; [reflexivity|]. exists 32. split; [reflexivity|discriminate].
  - intros [C|C]; [discriminate|vm_compute in C; discriminate].
Qed.
(** With padding, the names are those of other members. *)
Theorem C116_padding_refuted :
  laid 0 sample /\ nth_error sample 3 = Some (Slot (Member "d" 128 32 128 None) []) /\ name_at (members sample) 3 = "e"%string
  /\ name_at (members sample) 2 = "d"%string.
Proof. split; [apply C116_met|]. repeat split. Qed.
(** A member without a size has no slot for the one function and one for the other. *)
Theorem C116_empty_refuted :
  let els := [Member "a" 0 32 0 None; Member "none" 32 0 0 None; Member "b" 32 32 0 None] in
  member_index els "b" = 1 /\ name_at els 1 = "none"%string /\ name_at els 2 = "b"%string.
Proof. repeat split. Qed.
(** Names of unions lose a letter, and may become those of structures. *)
Theorem C116_union_refuted : c_name "union.foo" = "oo"%string /\ c_name "union.foo" = c_name "struct.oo".
Proof. split; reflexivity. Qed.

(** * C117: equal accesses *)
Theorem C117_access W names same_value same_type offset enum_index l r : valid W l -> valid W r ->
  (cmp_geps W names same_value same_type offset enum_index true l r = true <->
   same_access W names same_value same_type offset enum_index l r).
Proof. apply geps_spec. Qed.
Print Assumptions C117_access.
Theorem C117_off W names same_value same_type offset enum_index l r :
  cmp_geps W names same_value same_type offset enum_index false l r = true <-> same_address same_value same_type offset l r.
Proof. apply geps_off. Qed.
Print Assumptions C117_off.

(** struct s { int a; int b; }, then struct s { int a; long n; int b; } *)
Definition two : types :=
  mkTypes (fun s => if Nat.eqb s 1 || Nat.eqb s 11 then "struct.s" else "")%string
          (fun s => if Nat.eqb s 1 then [Plain "i32"; Plain "i32"] else if Nat.eqb s 11 then [Plain "i32"; Plain "i64"; Plain "i32"] else [])%string.
Definition old_s : dinfo := [("s", [Member "a" 0 32 0 None; Member "b" 32 32 0 None])]%string.
Definition new_s : dinfo := [("s", [Member "a" 0 32 0 None; Member "n" 64 64 0 None; Member "b" 128 32 0 None])]%string.
Definition same_cst (i j : index) : bool :=
  match i, j with Cst w x, Cst w' y => Z.eqb w w' && Z.eqb x y | Var x, Var y => Nat.eqb x y | _, _ => false end.
Definition bytes (g : gep) : option Z :=
  match g_type g, g_idx g with
  | Struct 1, [Cst _ p] => Some (8 * p)
  | Struct 11, [Cst _ p] => Some (24 * p)
  | Struct 1, [Cst _ p; Cst _ f] => Some (8 * p + 4 * f)
  | Struct 11, [Cst _ p; Cst _ f] => Some (24 * p + 8 * f)
  | _, _ => None
  end.
Definition access (s : nat) (l : list index) : gep := mkGep true 0 (Struct s) (Var 0) l.
Definition old_b : gep := access 1 [Cst 64 0; Cst 32 1].
Definition new_b : gep := access 11 [Cst 64 0; Cst 32 2].
Definition names_s : dict (option nat * Z) string :=
  n_names (note_all two old_s new_s (fun n => if String.eqb n "struct.s" then Some 11%nat else None)
             [("f", [[Some old_b]])] [("f", [[Some new_b]])] ["f"])%string.
Definition equal_s : gep -> gep -> bool := cmp_geps two names_s same_cst (fun _ _ => false) bytes (fun _ => None) true.
Lemma valid_plain W g s : g_type g = Struct s -> (length (g_idx g) <= 2)%nat -> valid W g.
Proof.
  intros T L k K. exists (Struct s). unfold applied_to. rewrite T. assert (E : (k - 1)%nat = 0%nat) by lia. rewrite E.
  cbn [firstn]. constructor.
Qed.
(** The member b is the same although its index and its offset changed; a is another one. *)
Example C117_met : valid two old_b /\ valid two new_b /\ equal_s old_b new_b = true /\ bytes old_b <> bytes new_b
  /\ equal_s (access 1 [Cst 64 0; Cst 32 0]) (access 11 [Cst 64 0; Cst 32 2]) = false
  /\ equal_s (access 1 [Cst 64 0; Var 3]) (access 11 [Cst 64 0; Var 3]) = false.
Proof.
  split; [apply (valid_plain _ _ 1); [reflexivity|cbn; lia]|]. split; [apply (valid_plain _ _ 11); [reflexivity|cbn; lia]|].
  repeat split; try reflexivity. vm_compute. discriminate.
Qed.
(** Members at the same index are equal whatever their names and offsets are: b, then n. *)
Theorem C117_index_refuted :
  let l := access 1 [Cst 64 0; Cst 32 1] in let r := access 11 [Cst 64 0; Cst 32 1] in
  valid two l /\ valid two r /\ bytes l <> bytes r /\
  field [Member "a" 0 32 0 None; Member "b" 32 32 0 None] 1 "b" /\
  field [Member "a" 0 32 0 None; Member "n" 64 64 0 None; Member "b" 128 32 0 None] 1 "n" /\
  equal_s l r = true.
Proof.
  split; [apply (valid_plain _ _ 1); [reflexivity|cbn; lia]|]. split; [apply (valid_plain _ _ 11); [reflexivity|cbn; lia]|].
  split; [discriminate|]. split; [|split; [|reflexivity]].
  - exists [Slot (Member "a" 0 32 0 None) []; Slot (Member "b" 32 32 0 None) []], 1%nat, (Member "b" 32 32 0 None), [], (Member "b" 32 32 0 None).
    repeat split; [|left; reflexivity].
    repeat (first [apply laid_nil | apply laid_slot]); cbn; try tauto; try (repeat constructor; fail); left; repeat constructor; cbn; lia.
  - exists [Slot (Member "a" 0 32 0 None) []; Slot (Member "n" 64 64 0 None) []; Slot (Member "b" 128 32 0 None) []], 1%nat, (Member "n" 64 64 0 None), [], (Member "n" 64 64 0 None).
    repeat split; [|left; reflexivity].
    repeat (first [apply laid_nil | apply laid_slot]); cbn; try tauto; try (repeat constructor; fail); left; repeat constructor; cbn; lia.
Qed.
(** The first index is taken for one of a member as well: p + 1 and p + 2 are equal. *)
Theorem C117_pointer_refuted :
  let l := access 1 [Cst 64 1] in let r := access 11 [Cst 64 2] in
  valid two l /\ valid two r /\ equal_s l r = true.
Proof.
  split; [apply (valid_plain _ _ 1); [reflexivity|cbn; lia]|]. split; [apply (valid_plain _ _ 11); [reflexivity|cbn; lia]|]. reflexivity.
Qed.

(** * C118: which names are noted *)
(** Any name is that at an index of a structure of the first version, as its debug info has it, noted for
    this index, or for the index of that name in the second version. *)
Theorem C118_noted W df ds by_name first second called u x n :
  dget (n_names (note_all W df ds by_name first second called)) (u, x) = Some n ->
  (exists s j, u = Some s /\ moved W df ds s x n j) \/
  (exists s v, moved W df ds s v n x /\
     (u = by_name (s_name W s) \/ exists g o k t, paired first second called g o /\ applied_to W o k (Struct t) /\ u = Some t)).
Proof.
  intros H. destruct (noted_general W df ds by_name first second called u x n H) as [H1|(s & v & F & M)]; [auto|].
  right. exists s, v. split; [exact M|exact F].
Qed.
Print Assumptions C118_noted.

(** In programs of plain accesses to corresponding structures: the names noted for indices of the first version *)
Theorem C118_first W df ds by_name first second called other s v n :
  plain_program W by_name first second called other -> accessed first second called s v ->
  dget (n_names (note_all W df ds by_name first second called)) (Some s, v) = Some n ->
  exists j, moved W df ds s v n j.
Proof. intros P A. apply (noted_first W df ds by_name first second called other P s v n A). Qed.
Print Assumptions C118_first.
(** and for those of the second one *)
Theorem C118_second W df ds by_name first second called other s' x n :
  plain_program W by_name first second called other -> (forall v, ~ accessed first second called s' v) ->
  dget (n_names (note_all W df ds by_name first second called)) (Some s', x) = Some n ->
  exists s v, s' = other s /\ accessed first second called s v /\ moved W df ds s v n x.
Proof.
  intros P A D. apply (noted_second W df ds by_name first second called other P s' x n A D).
Qed.
Print Assumptions C118_second.
(** All that are accessed and moved to another place than the first are noted. *)
Theorem C118_complete W df ds by_name first second called other s v n j :
  plain_program W by_name first second called other -> accessed first second called s v -> moved W df ds s v n j ->
  (exists n', dget (n_names (note_all W df ds by_name first second called)) (Some s, v) = Some n') /\
  (exists n', dget (n_names (note_all W df ds by_name first second called)) (Some (other s), j) = Some n').
Proof. intros P. apply (noted_complete W df ds by_name first second called other P s v n j). Qed.
Print Assumptions C118_complete.

(** With structures laid out without padding: a name that is noted is that of a member in the slot, in either version.
    A member that is not in the second version is noted for the index 2^64 - 1. *)
Definition well_laid (d : dinfo) : Prop :=
  forall c els, dget d c = Some els -> (Z.of_nat (length els) < 2^31) /\ exists l, members l = els /\ laid 0 l /\ no_padding l /\ offsets l.
Lemma moved_fields W df ds s v n j : well_laid df -> well_laid ds -> moved W df ds s v n j -> n <> ""%string ->
  exists d1 d2, dget df (c_name (s_name W s)) = Some d1 /\ dget ds (c_name (s_name W s)) = Some d2 /\
    field d1 v n /\ (field d2 j n \/ (j = 2^64 - 1 /\ forall y, In y d2 -> ~ named n y)).
Proof.
  intros W1 W2 (_ & d1 & d2 & D1 & D2 & En & Ej & B) N. exists d1, d2. split; [exact D1|]. split; [exact D2|].
  destruct (W1 _ _ D1) as (_ & l1 & E1 & L1 & P1 & O1). destruct (W2 _ _ D2) as (S2 & l2 & E2 & L2 & P2 & O2). split.
  - destruct (Z_lt_dec v 0) as [Vn|Vn]; [exfalso; apply N; rewrite En, <- E1; apply C116_name_beyond; auto; lia|].
    destruct (Z_lt_dec v (Z.of_nat (length l1))) as [Vl|Vl]; [|exfalso; apply N; rewrite En, <- E1; apply C116_name_beyond; auto; lia].
    assert (K : (Z.to_nat v < length l1)%nat) by lia. apply nth_error_Some in K.
    destruct (nth_error l1 (Z.to_nat v)) as [[|m more]|] eqn:E; [|clear K|congruence].
    { exfalso. apply P1. eapply nth_error_In; exact E. }
    destruct (C116_name l1 _ m more L1 P1 O1 E) as (n' & Nm & En'). rewrite Z2Nat.id in En' by lia. rewrite E1, <- En in En'. subst n'.
    exists l1, (Z.to_nat v), m, more, m. repeat split; auto; [lia|left; reflexivity].
  - destruct (find (fun y => match y with Member n' _ _ _ _ => String.eqb n' n | Nonmember => false end) d2) as [y|] eqn:F.
    2:{ right. assert (X : forall y, In y d2 -> ~ named n y).
        { intros y Iy C. pose proof (find_none _ _ F y Iy) as H. destruct y as [n' o z a b|]; [|destruct C]. cbn in C, H. subst n'. rewrite String.eqb_refl in H. discriminate. }
        split; [|exact X]. rewrite Ej, (C116_index_missing d2 n X). reflexivity. }
    left.
    assert (G : exists pre m more post a x b, l2 = pre ++ Slot m more :: post /\ m :: more = a ++ x :: b /\ named n x /\ forall y, In y (members pre ++ a) -> ~ named n y).
    { apply find_some in F. destruct F as (Iy & Hy). assert (Ny : named n y) by (destruct y; [apply String.eqb_eq, Hy|discriminate]).
      rewrite <- E2 in Iy. clear -Iy Ny P2. induction l2 as [|sl l IH]; [destruct Iy|].
      destruct sl as [|m more]; [exfalso; apply P2; left; reflexivity|].
      assert (D : (exists a x b, m :: more = a ++ x :: b /\ named n x /\ forall y, In y a -> ~ named n y) \/ (forall y, In y (m :: more) -> ~ named n y)).
      { clear. induction (m :: more) as [|z q IH]; [right; intros ? []|].
        assert (Dz : named n z \/ ~ named n z) by (destruct z as [n' o s a b|]; cbn; [destruct (String.string_dec n' n); auto|auto]).
        destruct Dz as [Dz|Dz]; [left; exists [], z, q; repeat split; auto|].
        destruct IH as [(a & x & b & E & X & A)|A].
        - left. exists (z :: a), x, b. rewrite E. repeat split; auto. intros y0 [->|I0]; auto.
        - right. intros y0 [->|I0]; auto. }
      destruct D as [(a & x & b & E & X & A)|A]; [exists [], m, more, l, a, x, b; repeat split; auto|].
      change (members (Slot m more :: l)) with ((m :: more) ++ members l) in Iy. apply in_app_or in Iy. destruct Iy as [Iy|Iy]; [exfalso; exact (A y Iy Ny)|].
      destruct (IH (fun H => P2 (or_intror H)) Iy) as (pre & m' & more' & post & a & x & b & E & E' & X & Q).
      exists (Slot m more :: pre), m', more', post, a, x, b. split; [rewrite E; reflexivity|]. repeat split; auto.
      intros y0 I0. change (members (Slot m more :: pre)) with ((m :: more) ++ members pre) in I0. rewrite <- app_assoc in I0.
      apply in_app_or in I0. destruct I0 as [I0|I0]; auto. }
    destruct G as (pre & m & more & post & a & x & b & E & E' & X & Q).
    pose proof (C116_index l2 pre m more post a x b n L2 E E' X Q) as Ix. rewrite E2 in Ix.
    assert (Len : (length pre < length d2)%nat).
    { rewrite <- E2, E. unfold members. rewrite flat_map_app, app_length. cbn [flat_map held length app]. 
      assert (LP : (length pre <= length (flat_map held pre))%nat).
      { assert (NP : forall z, In z pre -> z <> Padding) by (intros z Iz C; apply P2; rewrite E, <- C; apply in_or_app; left; exact Iz).
        clear -NP. induction pre as [|z pre IH]; [cbn; lia|]. cbn [flat_map length]. rewrite app_length.
        specialize (IH (fun y Iy => NP y (or_intror Iy))). destruct z as [|m0 more0]; [exfalso; apply (NP Padding); [left; reflexivity|reflexivity]|]. cbn [held length]. lia. }
      lia. }
    assert (Ej' : j = Z.of_nat (length pre)) by (rewrite Ej, Ix; apply Z.mod_small; lia).
    exists l2, (length pre), m, more, x. repeat split; auto.
    + rewrite E, nth_error_app2 by lia. rewrite Nat.sub_diag. reflexivity.
    + rewrite E'. apply in_or_app. right. left. reflexivity.
Qed.
Theorem C118_fields W df ds by_name first second called other :
  plain_program W by_name first second called other -> well_laid df -> well_laid ds ->
  (forall s v n, accessed first second called s v ->
     dget (n_names (note_all W df ds by_name first second called)) (Some s, v) = Some n -> n <> ""%string ->
     exists d1, dget df (c_name (s_name W s)) = Some d1 /\ field d1 v n) /\
  (forall t j n, (forall v, ~ accessed first second called t v) ->
     dget (n_names (note_all W df ds by_name first second called)) (Some t, j) = Some n -> n <> ""%string ->
     exists s d2, t = other s /\ dget ds (c_name (s_name W s)) = Some d2 /\ (field d2 j n \/ (j = 2^64 - 1 /\ forall y, In y d2 -> ~ named n y))).
Proof.
  intros P W1 W2. split.
  - intros s v n A D N. destruct (C118_first _ _ _ _ _ _ _ _ _ _ _ P A D) as (j & M).
    destruct (moved_fields _ _ _ _ _ _ _ W1 W2 M N) as (d1 & d2 & D1 & _ & F & _). eauto.
  - intros t j n A D N. destruct (C118_second _ _ _ _ _ _ _ _ _ _ _ P A D) as (s & v & E & _ & M).
    destruct (moved_fields _ _ _ _ _ _ _ W1 W2 M N) as (d1 & d2 & _ & D2 & _ & F). eauto 6.
Qed.
Print Assumptions C118_fields.

Definition by_s (n : string) : option nat := Some 11%nat.
Example C118_met : plain_program two by_s [("f", [[Some old_b]])]%string [("f", [[Some new_b]])]%string ["f"]%string (fun _ => 11%nat)
  /\ accessed [("f", [[Some old_b]])]%string [("f", [[Some new_b]])]%string ["f"]%string 1 1 /\ moved two old_s new_s 1 1 "b" 2
  /\ dget names_s (Some 1%nat, 1) = Some "b"%string /\ dget names_s (Some 11%nat, 2) = Some "b"%string.
Proof.
  assert (C : forall g, in_compared [("f", [[Some old_b]])]%string [("f", [[Some new_b]])]%string ["f"]%string g -> g = old_b).
  { intros g (name & f & o & b & k & [[= <- <-]|[]] & _ & _ & (bl & B & K)).
    destruct b as [|[|b]]; cbn in B; try discriminate. injection B as <-. destruct k as [|[|k]]; cbn in K; congruence. }
  assert (A : accessed [("f", [[Some old_b]])]%string [("f", [[Some new_b]])]%string ["f"]%string 1 1).
  { exists old_b, 32. repeat split; [|right; left; reflexivity]. exists "f"%string, [[Some old_b]], [[Some new_b]], 0%nat, 0%nat.
    repeat split; [left; reflexivity|left; reflexivity|]. exists [Some old_b]. split; reflexivity. }
  repeat split; auto.
  - intros g G. apply C in G. subst g. unfold plain_access. cbn. lia.
  - destruct H as (name & f & fo & b & k & _ & S & _ & _ & (bl & B & K)). cbn in S.
    destruct (String.eqb_spec name "f"); [|discriminate]. injection S as <-. destruct b as [|[|b]]; cbn in B; try discriminate. injection B as <-.
    destruct k as [|[|k]]; cbn in K; [|discriminate|destruct k; discriminate]. injection K as <-. unfold plain_access. cbn. lia.
  - intros s _. destruct H as (name & f & fo & b & k & _ & S & _ & _ & (bl & B & K)). cbn in S.
    destruct (String.eqb_spec name "f"); [|discriminate]. injection S as <-. destruct b as [|[|b]]; cbn in B; try discriminate. injection B as <-.
    destruct k as [|[|k]]; cbn in K; [|discriminate|destruct k; discriminate]. injection K as <-. reflexivity.
  - intros s t (g & w & G & T & _) u E. apply C in G. subst g. cbn in T. congruence.
  - discriminate.
  - exists [Member "a" 0 32 0 None; Member "b" 32 32 0 None], [Member "a" 0 32 0 None; Member "n" 64 64 0 None; Member "b" 128 32 0 None]. repeat split.
Qed.

(** Nested accesses: p->b.x at the same place in both versions; a name of a member of the structure after b is then noted for b.
    Accesses to members z and w are equal. *)
Definition nest : types :=
  mkTypes (fun s => match s with 1 | 11 => "struct.T" | 2 | 12 => "struct.A" | 3 | 13 => "struct.B" | 4 | 14 => "struct.C" | _ => "" end)%nat%string
          (fun s => match s with
                    | 1 => [Struct 2; Struct 3; Struct 4] | 11 => [Struct 12; Struct 13; Struct 14]
                    | 3 => [Plain "i32"; Plain "i32"; Plain "i32"] | 13 => [Plain "i32"; Plain "i32"; Plain "i32"; Plain "i32"; Plain "i32"]
                    | 4 => [Plain "i32"; Plain "i32"; Plain "i32"] | 14 => [Plain "i32"; Plain "i32"; Plain "i32"; Plain "i32"]
                    | _ => [] end)%nat%string.
Definition ints (l : list string) : list dmember :=
  map (fun k => Member (nth k l ""%string) (32 * Z.of_nat k) 32 0 None) (seq 0 (length l)).
Definition old_n : dinfo := [("T", [Member "a" 0 0 0 None; Member "b" 32 96 0 None; Member "c" 128 96 0 None]); ("B", ints ["x"; "z"; "y"]); ("C", ints ["k"; "l"; "z"])]%string.
Definition new_n : dinfo := [("T", [Member "a" 0 0 0 None; Member "b" 32 160 0 None; Member "c" 192 128 0 None]); ("B", ints ["x"; "u"; "y"; "w"; "z"]); ("C", ints ["k"; "l"; "m"; "z"])]%string.
Definition nest_names : dict (option nat * Z) string :=
  let byn := fun n => if String.eqb n "struct.B" then Some 13%nat else if String.eqb n "struct.C" then Some 14%nat else Some 11%nat in
  n_names (note_all nest old_n new_n byn
    [("f", [[Some (access 1 [Cst 64 0; Cst 32 1; Cst 32 2]); Some (access 3 [Cst 64 0; Cst 32 1])]])]
    [("f", [[Some (access 11 [Cst 64 0; Cst 32 1; Cst 32 2]); Some (access 13 [Cst 64 0; Cst 32 4])]])] ["f"])%string.
Theorem C118_nested_refuted :
  dget nest_names (Some 13%nat, 3) = Some "z"%string /\ name_at (ints ["x"; "u"; "y"; "w"; "z"]%string) 3 = "w"%string /\
  cmp_geps nest nest_names same_cst (fun _ _ => false) (fun g => if Nat.eqb (length (g_idx g)) 2 then match g_idx g with [_; Cst _ x] => Some x | _ => None end else None)
    (fun _ => None) true (access 3 [Cst 64 0; Cst 32 1]) (access 13 [Cst 64 0; Cst 32 3]) = true.
Proof. vm_compute. auto. Qed.

(** A member that moved to the front is not noted: accesses to it differ. *)
Theorem C118_front_refuted :
  let d1 := [("s", ints ["a"; "b"])]%string in let d2 := [("s", ints ["b"; "a"])]%string in
  let l := access 1 [Cst 64 0; Cst 32 1] in let r := access 11 [Cst 64 0; Cst 32 0] in
  let names := n_names (note_all two d1 d2 by_s [("f", [[Some l]])] [("f", [[Some r]])] ["f"])%string in
  name_at (ints ["a"; "b"]%string) 1 = name_at (ints ["b"; "a"]%string) 0 /\ dget names (Some 1%nat, 1) = None /\
  cmp_geps two names same_cst (fun _ _ => false) (fun g => match g_idx g with [_; Cst _ x] => Some x | _ => None end) (fun _ => None) true l r = false.
Proof. vm_compute. auto. Qed.
(** A member that was removed is noted for the index -1: p + 1 and p - 1 are equal. *)
Theorem C118_removed_refuted :
  let d1 := [("s", ints ["a"; "b"])]%string in let d2 := [("s", ints ["a"])]%string in
  let l := access 1 [Cst 64 1] in let r := access 11 [Cst 64 (2^64 - 1)] in
  let names := n_names (note_all two d1 d2 by_s [("f", [[Some old_b]])] [("f", [[None]])] ["f"])%string in
  cmp_geps two names same_cst (fun _ _ => false) (fun g => match g_idx g with [Cst _ x] => Some x | _ => None end) (fun _ => None) true l r = true.
Proof. vm_compute. reflexivity. Qed.

(** * C119: constants from macros and enumerations *)
(** [begin]: any way to choose a constant from a set that is not empty *)
Definition choice (begin : list constant_of -> option constant_of) : Prop :=
  forall l, (l = [] /\ begin l = None) \/ exists c, begin l = Some c /\ In c l.
(** Constants that differ are taken as equal only if a macro has in the first version the value of
    the first one, which a compared function uses, and in the second version that of the second one. *)
Theorem C119_sound show uf us begin types first second called l r : choice begin ->
  by_macro show (macro_map show uf us begin types first second called) l r = true ->
  exists name, defines uf name (written show l) /\ defines us name (written show r) /\ constant_used first second called l /\ written show l <> ""%string.
Proof.
  intros B H. unfold by_macro in H. destruct (dget _ l) as [v|] eqn:D; [|discriminate]. apply String.eqb_eq in H. subst v.
  destruct types; [|discriminate].
  destruct (macro_sound show uf us begin B first second called l _ D) as (name & c0 & D2 & U & N & D1 & _). exists name. auto.
Qed.
Print Assumptions C119_sound.
(** A constant used with the value of a macro whose value changed is mapped to the new one, if no other
    macro has this value with another new one. *)
Theorem C119_complete show uf us begin first second called name l r : choice begin ->
  constant_used first second called l -> written show l <> ""%string ->
  defines uf name (written show l) -> defines us name (written show r) -> written show l <> written show r ->
  (forall n v, defines uf n (written show l) -> defines uf n v -> v = written show l) ->
  (forall n v, defines uf n (written show l) -> defines us n v -> v = written show l \/ v = written show r) ->
  by_macro show (macro_map show uf us begin true first second called) l r = true.
Proof.
  intros B U N D1 D2 NE Un On. unfold by_macro.
  destruct (macro_complete show uf us begin B first second called l name (as_string show r) U N D1 (fun x => Un name x D1) D2 (not_eq_sym NE)) as (v & D).
  rewrite D. apply String.eqb_eq.
  destruct (macro_sound show uf us begin B first second called l v D) as (n & c0 & E2 & _ & _ & E1 & _ & E0 & Nv).
  destruct (On n v E1 E2) as [->| ->]; [|reflexivity]. exfalso. apply Nv. apply (Un n _ E1 E0).
Qed.
Print Assumptions C119_complete.

Definition digit (z : Z) : string := if z =? 5 then "5"%string else if z =? 6 then "6"%string else if z =? 7 then "7"%string else "?"%string.
Definition i32 (z : Z) : constant_of := mkConst "i32" (Some z).
Definition pick (l : list constant_of) : option constant_of := match l with c :: _ => Some c | [] => None end.
Lemma pick_choice : choice pick.
Proof. intros [|c l]; [left; auto|right; exists c; split; [reflexivity|left; reflexivity]]. Qed.
Definition map_of (uf us : list (string * string)) (cs : list constant_of) : dict constant_of string :=
  macro_map digit [uf] [us] pick true [("f", cs)]%string ["f"]%string ["f"]%string.
(** MAX is 5 and then 6: the same constant; but also one that has nothing to do with it. *)
Example C119_met : by_macro digit (map_of [("MAX", "5")] [("MAX", "6")] [i32 5; i32 7])%string (i32 5) (i32 6) = true
  /\ by_macro digit (map_of [("MAX", "5")] [("MAX", "6")] [i32 5; i32 7])%string (i32 5) (i32 7) = false
  /\ by_macro digit (map_of [("MAX", "5")] [("MAX", "6")] [i32 5; i32 7])%string (i32 7) (i32 6) = false.
Proof. repeat split. Qed.
(** Two macros with the value 5 that change to 6 and 7: only one of the changes is known. *)
Theorem C119_two_refuted :
  let d := (map_of [("A", "5"); ("B", "5")] [("A", "6"); ("B", "7")] [i32 5])%string in
  by_macro digit d (i32 5) (i32 6) = true /\ by_macro digit d (i32 5) (i32 7) = false.
Proof. repeat split. Qed.
(** A macro that becomes empty makes its constant equal to any constant that is no integer. *)
Theorem C119_empty_refuted :
  let d := (map_of [("A", "5")] [("A", "")] [i32 5])%string in
  forall t, by_macro digit d (i32 5) (mkConst t None) = true.
Proof. intros d t. reflexivity. Qed.
