(** * C130–C131: structures of a module *)
From Coq Require Import String Ascii ZArith Arith Bool Lia List.
From Verif Require Import PyBase Info_Model Info_Spec Info_Proofs.
Import ListNotations.
Open Scope list_scope.

(** ** C130: structures found in debug info, and sizes *)
Lemma structs_sound g : forall n units res out, debug_structs n g units res = Some out ->
  (forall name id, dget out name = Some id -> dget res name = Some id \/ (In_units g units id /\ Structure g id name)) /\
  (forall name, dget res name <> None -> dget out name <> None) /\
  (forall id name, In_units g units id -> Structure g id name -> dget out name <> None).
Proof.
  intros n. induction units as [|u units IH]; intros res out E; cbn [debug_structs] in E.
  - injection E as <-. split; [auto|]. split; [auto|]. intros id name (u & [] & _).
  - destruct (search n g _ [] res) as [mid|] eqn:S; [|discriminate E].
    destruct (search_unit g n u res mid S) as (A & B & C), (IH mid out E) as (A' & B' & C').
    split; [|split].
    + intros name id G. destruct (A' name id G) as [G'|[(u' & I & R) T]].
      * destruct (A name id G') as [G''|[R T]]; [left; exact G''|right]. split; [|exact T]. exists u. split; [left; reflexivity|exact R].
      * right. split; [|exact T]. exists u'. split; [right; exact I|exact R].
    + auto.
    + intros id name (u' & [<-|I] & R) T; [apply B'; eapply C; eassumption|]. apply (C' id name); [exists u'; auto|exact T].
Qed.
(** Exactly the names of named structures made use of by some unit are found ... *)
Theorem C130_names g units n out : debug_structs n g units [] = Some out ->
  forall name, dget out name <> None <-> exists id, In_units g units id /\ Structure g id name.
Proof.
  intros E name. destruct (structs_sound g n units [] out E) as (A & _ & C). split.
  - intros H. destruct (dget out name) as [id|] eqn:G; [|congruence]. exists id. destruct (A name id G) as [G'|H']; [discriminate G'|exact H'].
  - intros (id & I & S). apply (C id name I S).
Qed.
Print Assumptions C130_names.
(** ... each with such a structure of that name; *)
Theorem C130_structures g units n out name id : debug_structs n g units [] = Some out -> dget out name = Some id -> In_units g units id /\ Structure g id name.
Proof. intros E G. destruct (structs_sound g n units [] out E) as (A & _ & _). destruct (A name id G) as [G'|H']; [discriminate G'|exact H']. Qed.
Print Assumptions C130_structures.
(** the search always ends, also for structures made of themselves. *)
Theorem C130_ends g units : exists n out, forall k, (n <= k)%nat -> debug_structs k g units [] = Some out.
Proof.
  generalize (@nil (string * nat)) as res. induction units as [|u units IH]; intros res.
  - exists 0%nat, res. reflexivity.
  - destruct (search_ends g (S (weight [] g + length (rev (u_retained u ++ u_globals u)))) (rev (u_retained u ++ u_globals u)) [] res) as (mid & M); [lia|].
    destruct (IH mid) as (n & out & H). exists (Nat.max n (S (weight [] g + length (rev (u_retained u ++ u_globals u))))), out. intros k L. cbn [debug_structs].
    rewrite (search_more g _ _ _ _ _ M k) by lia. apply H. lia.
Qed.
Print Assumptions C130_ends.
(** The structures of a size are those with it. *)
Theorem C130_sizes structs z n : (exists l, dget (struct_sizes structs) z = Some l /\ In n l) <-> In (n, Some z) structs.
Proof. unfold struct_sizes. rewrite sizes_get. split; [intros [(l & E & _)|H]; [discriminate E|exact H]|auto]. Qed.
Print Assumptions C130_sizes.
(** A list whose nodes point to themselves, held by a global variable *)
Definition ex_info : dinfo := [(1%nat, Derived (Some 2%nat)); (2%nat, Composite true "list" [3%nat; 4%nat]); (3%nat, Derived (Some 1%nat)); (4%nat, Plain);
  (5%nat, Composite true "other" []); (6%nat, Subroutine [5%nat]); (7%nat, Composite true "list" [])].
Example C130_met : debug_structs 20 ex_info [{| u_retained := []; u_globals := [1%nat] |}] [] = Some [("list"%string, 2%nat)] /\ In_units ex_info [{| u_retained := []; u_globals := [1%nat] |}] 2 /\
  struct_sizes [("a"%string, Some 8%Z); ("b"%string, None); ("c"%string, Some 8%Z)] = [(8%Z, ["a"%string; "c"%string])].
Proof.
  split; [reflexivity|]. split; [|reflexivity]. eexists. split; [left; reflexivity|]. eapply Reached_part; [apply Reached_root; left; reflexivity|]. apply Part_base. reflexivity.
Qed.
(** Wish: of two structures of a name the one with members is found. A later declaration takes its place. *)
Theorem C130_declaration_refuted : ~ (forall g units n out name id, debug_structs n g units [] = Some out ->
  In_units g units id -> (exists x l, dget g id = Some (Composite true name (x :: l))) -> name <> ""%string ->
  exists id' x l, dget out name = Some id' /\ dget g id' = Some (Composite true name (x :: l))).
Proof.
  intros H. destruct (H ex_info [{| u_retained := []; u_globals := [1%nat] |}; {| u_retained := [7%nat]; u_globals := [] |}] 20%nat [("list"%string, 7%nat)] "list"%string 2%nat) as (id' & x & l & E & G).
  - reflexivity.
  - eexists. split; [left; reflexivity|]. eapply Reached_part; [apply Reached_root; left; reflexivity|]. apply Part_base. reflexivity.
  - eexists _, _. reflexivity.
  - discriminate.
  - cbn in E. injection E as <-. cbn in G. discriminate G.
Qed.
(** Wish: the structures a function takes are found when the function's type is. *)
Theorem C130_functions_refuted : ~ (forall g u n out id types t name, debug_structs n g [u] [] = Some out ->
  In id (u_retained u) -> dget g id = Some (Subroutine types) -> In t types -> Structure g t name -> dget out name <> None).
Proof.
  intros H. apply (H ex_info {| u_retained := [6%nat]; u_globals := [] |} 20%nat [] 6%nat [5%nat] 5%nat "other"%string); try reflexivity.
  - left. reflexivity.
  - left. reflexivity.
  - split; [discriminate|]. eexists. reflexivity.
Qed.

(** ** C131: names of anonymous structures *)
Section C131.
  Variable hash : string -> string.
  Variable fresh : list string -> string -> string.
  Hypothesis FR : Renamer fresh.
  (** Other structures, and those that are only declared, keep their names. *)
  Theorem C131_others structs ns k : ~ Anonymous (called ns k) \/ (forall s, In s structs -> s_id s = k -> s_opaque s = true) -> called (hash_structs hash fresh structs ns) k = called ns k.
  Proof. intros [H|H]; [apply structs_other; left; exact H|apply structs_opaque; exact H]. Qed.
  (** All names stay different. *)
  Theorem C131_distinct structs ns : NoDup (dkeys ns) -> NoDup (dvals ns) -> (forall s, In s structs -> In (s_id s) (dkeys ns)) -> NoDup (dvals (hash_structs hash fresh structs ns)).
  Proof. intros K N I. apply structs_distinct; assumption. Qed.
  (** The name of an anonymous structure is made from its kind and declaration. *)
  Theorem C131_named structs ns s : NoDup (map s_id structs) -> In s structs -> s_opaque s = false -> Anonymous (called ns (s_id s)) -> Simple ns s ->
    Named (called (hash_structs hash fresh structs ns) (s_id s)) (kind_of (called ns (s_id s)) ++ hash (declared ns s)).
  Proof. intros ND I O A P. rewrite <- declaration_declared. apply (structs_name hash fresh FR); assumption. Qed.
  (** Structures of the two modules with different declarations have different names ... *)
  Theorem C131_apart structs ns s structs' ns' s' : (forall a b, hash a = hash b -> a = b) -> (forall a, Dotless (hash a)) ->
    NoDup (map s_id structs) -> In s structs -> s_opaque s = false -> Anonymous (called ns (s_id s)) -> Simple ns s ->
    NoDup (map s_id structs') -> In s' structs' -> s_opaque s' = false -> Anonymous (called ns' (s_id s')) -> Simple ns' s' ->
    called (hash_structs hash fresh structs ns) (s_id s) = called (hash_structs hash fresh structs' ns') (s_id s') ->
    kind_of (called ns (s_id s)) = kind_of (called ns' (s_id s')) /\ declared ns s = declared ns' s'.
  Proof.
    intros HI HD ND I O A P ND' I' O' A' P' E.
    pose proof (structs_name hash fresh FR structs ns s ND I O A P) as N. pose proof (structs_name hash fresh FR structs' ns' s' ND' I' O' A' P') as N'. change (name_of ?x ?y) with (called x y) in *. rewrite <- E in N'.
    destruct (named_inj _ _ _ _ _ (kind_of_cases _) (kind_of_cases _) (HD _) (HD _) N N') as [K D]. split; [exact K|]. rewrite <- !declaration_declared. apply HI. exact D.
  Qed.
  (** ... and those of the same kind and declaration the same one, when no structure of their modules is
      declared like them or has that name already. *)
  Definition Alone (structs : list struct) (ns : names) : Prop :=
    NoDup (map s_id structs) /\
    (forall s, In s structs -> s_opaque s = false -> Anonymous (called ns (s_id s)) -> Simple ns s /\ ~ In (kind_of (called ns (s_id s)) ++ hash (declared ns s))%string (dvals ns)) /\
    (forall a b, In a structs -> In b structs -> s_opaque a = false -> s_opaque b = false -> Anonymous (called ns (s_id a)) -> Anonymous (called ns (s_id b)) ->
       kind_of (called ns (s_id a)) = kind_of (called ns (s_id b)) -> declared ns a = declared ns b -> a = b).
  Theorem C131_same structs ns s structs' ns' s' : (forall a b, hash a = hash b -> a = b) -> (forall a, Dotless (hash a)) ->
    Alone structs ns -> In s structs -> s_opaque s = false -> Anonymous (called ns (s_id s)) ->
    Alone structs' ns' -> In s' structs' -> s_opaque s' = false -> Anonymous (called ns' (s_id s')) ->
    kind_of (called ns (s_id s)) = kind_of (called ns' (s_id s')) -> declared ns s = declared ns' s' ->
    called (hash_structs hash fresh structs ns) (s_id s) = called (hash_structs hash fresh structs' ns') (s_id s').
  Proof.
    intros HI HD (ND & L1 & L2) I O A (ND' & L1' & L2') I' O' A' K D.
    assert (X : forall n m a b, (kind_of n ++ hash a = kind_of m ++ hash b)%string -> kind_of n = kind_of m /\ a = b).
    { intros n m a b E. destruct (named_inj (kind_of n ++ hash a) (kind_of n) (kind_of m) (hash a) (hash b) (kind_of_cases _) (kind_of_cases _) (HD _) (HD _)) as [K' D']; [left; reflexivity|left; exact E|].
      split; [exact K'|]. apply HI. exact D'. }
    assert (Y : forall structs0 ns0 s0, Alone structs0 ns0 -> In s0 structs0 -> s_opaque s0 = false -> Anonymous (called ns0 (s_id s0)) ->
      called (hash_structs hash fresh structs0 ns0) (s_id s0) = (kind_of (called ns0 (s_id s0)) ++ hash (declared ns0 s0))%string).
    { intros structs0 ns0 s0 (N & M1 & M2) J P Q.
      assert (S : forall s1, base hash ns0 s1 = (kind_of (called ns0 (s_id s1)) ++ hash (declared ns0 s1))%string) by (intros s1; unfold base; rewrite declaration_declared; reflexivity).
      rewrite <- S. apply structs_exact; auto.
      - intros s1. rewrite S. apply M1.
      - intros a b Ja Jb Oa Ob Aa Ab E. rewrite !S in E. destruct (X _ _ _ _ E). apply M2; auto. }
    rewrite (Y structs ns s), (Y structs' ns' s'); auto; [|exact (conj ND' (conj L1' L2'))|exact (conj ND (conj L1 L2))].
    rewrite D. f_equal. exact K.
  Qed.
End C131.
Print Assumptions C131_others.
Print Assumptions C131_distinct.
Print Assumptions C131_named.
Print Assumptions C131_apart.
Print Assumptions C131_same.

(** A fresh name as LLVM makes them: the name, a dot and something no taken name is as long as *)
Fixpoint ex_ticks (n : nat) : string := match n with O => "" | S n => String "1" (ex_ticks n) end.
Definition ex_fresh (taken : list string) (n : string) : string := (n ++ "." ++ ex_ticks (list_sum (map String.length taken)))%string.
Lemma ex_ticks_length n : String.length (ex_ticks n) = n.
Proof. induction n as [|n IH]; cbn; [reflexivity|rewrite IH; reflexivity]. Qed.
Lemma sapp_length (a b : string) : String.length (a ++ b) = (String.length a + String.length b)%nat.
Proof. induction a as [|x a IH]; cbn; [reflexivity|rewrite IH; reflexivity]. Qed.
Lemma ex_renamer : Renamer ex_fresh.
Proof.
  intros taken n. split; [|eexists; reflexivity]. intros I.
  assert (L : forall x, In x taken -> (String.length x <= list_sum (map String.length taken))%nat).
  { clear I. induction taken as [|y taken IH]; intros x J; [destruct J|]. cbn. change (fold_right Nat.add 0%nat ?l) with (list_sum l). destruct J as [->|J]; [lia|]. specialize (IH x J). lia. }
  specialize (L _ I). unfold ex_fresh in L. rewrite !sapp_length, ex_ticks_length in L. cbn in L. lia.
Qed.
(** A hash that tells all texts from each other and has no dot *)
Fixpoint ex_hash (s : string) : string := match s with EmptyString => "" | String c s => if Ascii.eqb c "." then String "," (String "," (ex_hash s)) else if Ascii.eqb c "," then String "," (String ";" (ex_hash s)) else String c (ex_hash s) end.
Lemma ex_hash_dotless s : Dotless (ex_hash s).
Proof.
  unfold Dotless. induction s as [|c s IH]; [reflexivity|]. cbn [ex_hash]. destruct (Ascii.eqb_spec c ".") as [->|N]; [exact IH|]. destruct (Ascii.eqb_spec c ",") as [->|N']; [exact IH|].
  cbn [has_char]. rewrite IH, orb_false_r. destruct (Ascii.eqb_spec "." c) as [<-|_]; [congruence|reflexivity] || (apply Ascii.eqb_neq; congruence).
Qed.
Lemma ex_hash_inj : forall a b, ex_hash a = ex_hash b -> a = b.
Proof.
  induction a as [|c a IH]; intros [|d b] E; auto; cbn [ex_hash] in E.
  - destruct (Ascii.eqb d "."); [discriminate|]. destruct (Ascii.eqb d ","); discriminate.
  - destruct (Ascii.eqb c "."); [discriminate|]. destruct (Ascii.eqb c ","); discriminate.
  - destruct (Ascii.eqb_spec c ".") as [->|N], (Ascii.eqb_spec d ".") as [->|M].
    + f_equal. apply IH. congruence.
    + destruct (Ascii.eqb_spec d ",") as [->|M']; [discriminate E|]. injection E as E' _. congruence.
    + destruct (Ascii.eqb_spec c ",") as [->|N']; [discriminate E|]. injection E as E' _. congruence.
    + destruct (Ascii.eqb_spec c ",") as [->|N'], (Ascii.eqb_spec d ",") as [->|M'].
      * f_equal. apply IH. congruence.
      * injection E as E' _. congruence.
      * injection E as E' _. congruence.
      * injection E as -> E. f_equal. apply IH. exact E.
Qed.
Definition ex_names : names := [(0%nat, "struct.anon"); (1%nat, "union.anon.3"); (2%nat, "struct.page")]%string.
Definition ex_names' : names := [(5%nat, "struct.page"); (6%nat, "struct.anon.7")]%string.
Definition ex_structs : list struct := [{| s_id := 0; s_opaque := false; s_pieces := [Text "{ i32, "; Ref 2; Text " }"] |}; {| s_id := 1; s_opaque := false; s_pieces := [Text "{ i64 }"] |}; {| s_id := 2; s_opaque := false; s_pieces := [Text "{ i8 }"] |}]%string.
Definition ex_structs' : list struct := [{| s_id := 5; s_opaque := false; s_pieces := [Text "{ i8 }"] |}; {| s_id := 6; s_opaque := false; s_pieces := [Text "{ i32, "; Ref 5; Text " }"] |}]%string.
Lemma ex_anon n : anonymous n = false -> ~ Anonymous n.
Proof. intros E A. apply anonymous_spec in A. congruence. Qed.
Lemma ex_alone : Alone ex_hash ex_structs ex_names.
Proof.
  split; [|split].
  - cbn. repeat constructor; cbn; intuition discriminate.
  - intros s [<-|[<-|[<-|[]]]] O A.
    + split; [intros id [E|[E|[E|[]]]]; inversion E; subst; apply ex_anon; reflexivity|]. cbn. intuition discriminate.
    + split; [intros id [E|[]]; inversion E|]. cbn. intuition discriminate.
    + exfalso. revert A. apply ex_anon. reflexivity.
  - intros a b [<-|[<-|[<-|[]]]] [<-|[<-|[<-|[]]]] _ _ A B K D; try reflexivity; try discriminate K; exfalso; first [revert A; apply ex_anon; reflexivity | revert B; apply ex_anon; reflexivity].
Qed.
Lemma ex_alone' : Alone ex_hash ex_structs' ex_names'.
Proof.
  split; [|split].
  - cbn. repeat constructor; cbn; intuition discriminate.
  - intros s [<-|[<-|[]]] O A.
    + exfalso. revert A. apply ex_anon. reflexivity.
    + split; [intros id [E|[E|[E|[]]]]; inversion E; subst; apply ex_anon; reflexivity|]. cbn. intuition discriminate.
  - intros a b [<-|[<-|[]]] [<-|[<-|[]]] _ _ A B K D; try reflexivity; exfalso; first [revert A; apply ex_anon; reflexivity | revert B; apply ex_anon; reflexivity].
Qed.
(** The hypotheses are met, by structures with other numbers in the two modules, and both get one name. *)
Example C131_met : Renamer ex_fresh /\ (forall a b, ex_hash a = ex_hash b -> a = b) /\ (forall a, Dotless (ex_hash a)) /\ Alone ex_hash ex_structs ex_names /\ Alone ex_hash ex_structs' ex_names' /\
  NoDup (dkeys ex_names) /\ NoDup (dvals ex_names) /\
  called (hash_structs ex_hash ex_fresh ex_structs ex_names) 0 = "struct.anon.{ i32,; %struct,,page }"%string /\ called (hash_structs ex_hash ex_fresh ex_structs' ex_names') 6 = "struct.anon.{ i32,; %struct,,page }"%string /\
  called (hash_structs ex_hash ex_fresh ex_structs ex_names) 1 = "union.anon.{ i64 }"%string.
Proof.
  split; [exact ex_renamer|]. split; [exact ex_hash_inj|]. split; [exact ex_hash_dotless|]. split; [exact ex_alone|]. split; [exact ex_alone'|].
  split; [repeat constructor; cbn; intuition discriminate|]. split; [repeat constructor; cbn; intuition discriminate|]. split; [reflexivity|]. split; reflexivity.
Qed.
(** Wish: structures the program gave a name keep it. The kernel's [struct anon_vma] does not. *)
Theorem C131_names_refuted : ~ (forall hash fresh structs ns k rest, Renamer fresh -> called ns k = ("struct.anon" ++ rest)%string -> rest <> ""%string -> Begins rest "_" ->
  called (hash_structs hash fresh structs ns) k = called ns k).
Proof.
  intros H. specialize (H ex_hash ex_fresh [{| s_id := 0; s_opaque := false; s_pieces := [Text "{ i8 }"] |}] [(0%nat, "struct.anon_vma"%string)] 0%nat "_vma"%string ex_renamer eq_refl).
  assert (X : "_vma"%string <> ""%string) by discriminate. specialize (H X (ex_intro _ "vma"%string eq_refl)). vm_compute in H. discriminate H.
Qed.
(** Wish: anonymous structures made of anonymous structures declared alike get the same name in both modules, too.
    The outer one gets its name while the inner one still has its number. *)
Theorem C131_nested_refuted : ~ (forall hash fresh structs ns ns', Renamer fresh -> NoDup (map s_id structs) -> (forall k, kind_of (called ns k) = kind_of (called ns' k)) ->
  (forall k, Anonymous (called ns k) <-> Anonymous (called ns' k)) -> (forall k, ~ Anonymous (called ns k) -> called ns k = called ns' k) ->
  forall s, In s structs -> called (hash_structs hash fresh structs ns) (s_id s) = called (hash_structs hash fresh structs ns') (s_id s)).
Proof.
  intros H. specialize (H ex_hash ex_fresh [{| s_id := 0; s_opaque := false; s_pieces := [Text "{ i8, "; Ref 1; Text " }"] |}; {| s_id := 1; s_opaque := false; s_pieces := [Text "{ i8 }"] |}]%string
    [(0%nat, "struct.anon.0"); (1%nat, "struct.anon.1")]%string [(0%nat, "struct.anon.4"); (1%nat, "struct.anon.5")]%string ex_renamer).
  specialize (H ltac:(cbn; repeat constructor; cbn; intuition discriminate)).
  assert (A : forall k, kind_of (called [(0%nat, "struct.anon.0"); (1%nat, "struct.anon.1")]%string k) = kind_of (called [(0%nat, "struct.anon.4"); (1%nat, "struct.anon.5")]%string k)) by (intros [|[|k]]; reflexivity).
  assert (E2 : forall k, called [(0%nat, "struct.anon.0"); (1%nat, "struct.anon.1")]%string (S (S k)) = ""%string) by reflexivity.
  assert (E3 : forall k, called [(0%nat, "struct.anon.4"); (1%nat, "struct.anon.5")]%string (S (S k)) = ""%string) by reflexivity.
  assert (B : forall k, Anonymous (called [(0%nat, "struct.anon.0"); (1%nat, "struct.anon.1")]%string k) <-> Anonymous (called [(0%nat, "struct.anon.4"); (1%nat, "struct.anon.5")]%string k)).
  { intros [|[|k]]; [split; intros _; right; eexists; reflexivity|split; intros _; right; eexists; reflexivity|rewrite E2, E3; tauto]. }
  specialize (H A B). assert (C : forall k, ~ Anonymous (called [(0%nat, "struct.anon.0"); (1%nat, "struct.anon.1")]%string k) -> called [(0%nat, "struct.anon.0"); (1%nat, "struct.anon.1")]%string k = called [(0%nat, "struct.anon.4"); (1%nat, "struct.anon.5")]%string k).
  { intros [|[|k]] N; [exfalso; apply N; right; eexists; reflexivity|exfalso; apply N; right; eexists; reflexivity|rewrite E2, E3; reflexivity]. }
  specialize (H C _ (or_introl eq_refl)). vm_compute in H. discriminate H.
Qed.
(** Wish: of two structures of a module declared alike, both get the name. *)
Theorem C131_twice_refuted : ~ (forall hash fresh structs ns s s', Renamer fresh -> NoDup (map s_id structs) -> NoDup (dvals ns) -> In s structs -> In s' structs ->
  s_pieces s = s_pieces s' -> s_opaque s = false -> s_opaque s' = false -> Begins (called ns (s_id s)) "struct.anon" -> Begins (called ns (s_id s')) "struct.anon" ->
  called (hash_structs hash fresh structs ns) (s_id s) = called (hash_structs hash fresh structs ns) (s_id s')).
Proof.
  intros H. specialize (H ex_hash ex_fresh [{| s_id := 0; s_opaque := false; s_pieces := [Text "{ i8 }"] |}; {| s_id := 1; s_opaque := false; s_pieces := [Text "{ i8 }"] |}]%string
    [(0%nat, "struct.anon.0"); (1%nat, "struct.anon.1")]%string _ _ ex_renamer ltac:(cbn; repeat constructor; cbn; intuition discriminate) ltac:(cbn; repeat constructor; cbn; intuition discriminate)
    (or_introl eq_refl) (or_intror (or_introl eq_refl)) eq_refl eq_refl eq_refl (ex_intro _ ".0"%string eq_refl) (ex_intro _ ".1"%string eq_refl)).
  vm_compute in H. discriminate H.
Qed.
