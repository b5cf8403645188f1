(** Accesses to fields and calls for changed structures: C120 and C121. *)
From Coq Require Import String Ascii ZArith Arith Bool Lia List.
From Verif Require Import PyBase Funcomp_Model Funcomp_Spec Access_Model Access_Spec Access_Chain Access_Numbers Access_Calls.
Import ListNotations.
Open Scope list_scope.
Open Scope Z_scope.

(** * C120: accesses to fields *)
(** Accesses are found equal exactly if they start from pointers found equal, are unbroken and go
    on as far as they can, and add the same number of bytes, each offset truncated to an int. *)
Theorem C120_access w fl fr to_int n ls rs s ls' rs' s' : field_access w fl fr to_int n ls rs s = Some (Some (ls', rs'), s') <->
  exists i j cl cr zl zr p q s1 b,
    ls = i :: cl ++ ls' /\ rs = j :: cr ++ rs' /\ (exists z, i_code i = Gep (Some z)) /\ (exists z, i_code j = Gep (Some z)) /\
    cmp_values w fl fr n (op 0 i) (op 0 j) s = Some (true, s1) /\ cmp_values w fl fr n p q s1 = Some (b, s') /\
    unbroken to_int (op 0 i) (i :: cl) zl p /\ unbroken to_int (op 0 j) (j :: cr) zr q /\ ends to_int p ls' /\ ends to_int q rs' /\ same_bytes zl zr.
Proof.
  split; [apply field_access_sound|]. intros (i & j & cl & cr & zl & zr & p & q & s1 & b & -> & -> & GI & GJ & V & F & U1 & U2 & N1 & N2 & B).
  eapply field_access_complete; eassumption.
Qed.
Print Assumptions C120_access.

(** If no offset is too large for an int, the pointers the accesses yield are equal whenever those
    they start from are, whatever computes the addresses. *)
Theorem C120_address w fl fr to_int n ls rs s ls' rs' s' al ar :
  field_access w fl fr to_int n ls rs s = Some (Some (ls', rs'), s') ->
  computed to_int al ls -> computed to_int ar rs ->
  (forall i z, In i ls \/ In i rs -> moves to_int i z -> small z) ->
  exists i j cl cr zl zr p q,
    ls = i :: cl ++ ls' /\ rs = j :: cr ++ rs' /\ unbroken to_int (op 0 i) (i :: cl) zl p /\ unbroken to_int (op 0 j) (j :: cr) zr q /\
    (al (op 0 i) mod 2 ^ 64 = ar (op 0 j) mod 2 ^ 64 -> al p mod 2 ^ 64 = ar q mod 2 ^ 64).
Proof.
  intros H AL AR SM. apply field_access_sound in H. destruct H as (i & j & cl & cr & zl & zr & p & q & s1 & b & EL & ER & _ & _ & _ & _ & U1 & U2 & _ & _ & (tl & tr & F1 & F2 & E)).
  exists i, j, cl, cr, zl, zr, p, q. repeat (split; [assumption|]). intros B.
  assert (IL : forall x, In x (i :: cl) -> In x ls) by (intros x X; rewrite EL; change (In x ((i :: cl) ++ ls')); apply in_or_app; left; exact X).
  assert (IR : forall x, In x (j :: cr) -> In x rs) by (intros x X; rewrite ER; change (In x ((j :: cr) ++ rs')); apply in_or_app; left; exact X).
  assert (S : forall c p0 zs q0, (forall x, In x c -> In x ls \/ In x rs) -> unbroken to_int p0 c zs q0 -> Forall small zs).
  { induction c as [|x c IH]; intros p0 zs q0 I U; inversion U; subst; constructor; [eapply SM; [apply I; left; reflexivity|eassumption]|eapply IH; [intros y Y; apply I; right; exact Y|eassumption]]. }
  assert (T1 : zl = tl) by (apply (truncated_all zl); [apply small_all, (S _ _ _ _ (fun x X => or_introl (IL x X)) U1)|exact F1]).
  assert (T2 : zr = tr) by (apply (truncated_all zr); [apply small_all, (S _ _ _ _ (fun x X => or_intror (IR x X)) U2)|exact F2]).
  subst tl tr.
  rewrite (unbroken_address to_int al _ _ _ _ (fun x z X => AL x z (IL x X)) U1), (unbroken_address to_int ar _ _ _ _ (fun x z X => AR x z (IR x X)) U2).
  rewrite Z.add_mod, B, E, <- Z.add_mod by lia. reflexivity.
Qed.
Print Assumptions C120_address.

(** The pointers that accesses yield get the same number, and the functions stay in step, if both
    accesses have a further instruction, or if one is a single GEP and the other one begins with
    a GEP by zeros. *)
Theorem C120_longer w fl fr to_int n i j cl cr ls' rs' zl zr p q za zb s :
  i_code i = Gep (Some za) -> i_code j = Gep (Some zb) -> za <> zb -> ~ In (i_reg j) (swapped s) ->
  unbroken to_int (op 0 i) (i :: cl) zl p -> unbroken to_int (op 0 j) (j :: cr) zr q -> ends to_int p ls' -> ends to_int q rs' -> same_bytes zl zr ->
  simple_l fl s (op 0 i) -> simple_r fr s (op 0 j) -> same_number s (op 0 i) (op 0 j) ->
  simple_l fl s (VReg (i_reg i)) -> simple_r fr s (VReg (i_reg j)) -> new_l s (VReg (i_reg i)) -> new_r s (VReg (i_reg j)) ->
  simple_l fl s p -> simple_r fr s q -> new_l s p -> new_r s q ->
  p <> VReg (i_reg i) -> q <> VReg (i_reg j) -> in_step s ->
  exists s', step w fl fr to_int (S n) (i :: cl ++ ls') (j :: cr ++ rs') s = Some (Some (ls', rs'), s') /\ same_number s' p q /\ in_step s'.
Proof.
  intros CI CJ D N. apply longer with (za := za) (zb := zb); try assumption. unfold now. rewrite (mem_false _ _ N). reflexivity.
Qed.
Print Assumptions C120_longer.

Theorem C120_unpacked w fl fr to_int n i j cr ls' rs' zr q za zb s :
  i_code i = Gep (Some za) -> i_code j = Gep (Some zb) -> ~ In (i_reg j) (swapped s) ->
  by_zeros j -> inst_of fr (VReg (i_reg j)) = Some j -> ~ In (VReg (i_reg j)) (skipR s) -> ~ In (VReg (i_reg j)) (ignR s) -> dget (replR s) (VReg (i_reg j)) = None ->
  ends to_int (VReg (i_reg i)) ls' -> unbroken to_int (op 0 j) (j :: cr) zr q -> ends to_int q rs' -> same_bytes [za] zr ->
  simple_l fl s (op 0 i) -> simple_r fr s (op 0 j) -> same_number s (op 0 i) (op 0 j) ->
  simple_l fl s (VReg (i_reg i)) -> new_l s (VReg (i_reg i)) ->
  simple_r fr s q -> new_r s q -> (forall v k, dget (snL s) v = Some k -> (k < length (snL s))%nat) -> in_step s ->
  exists s', step w fl fr to_int (S (S n)) (i :: ls') (j :: cr ++ rs') s = Some (Some (ls', rs'), s') /\ same_number s' (VReg (i_reg i)) q /\ in_step s'.
Proof.
  intros CI CJ N. apply unpacked with (za := za) (zb := zb); try assumption. unfold now. rewrite (mem_false _ _ N). reflexivity.
Qed.
Print Assumptions C120_unpacked.

(** ** Examples *)
Open Scope nat_scope.
Definition plain_world : world := mkWorld String.eqb const_eqb (fun _ _ _ => false) (fun _ => true) (fun _ => false) (fun p => p) false false false false false.
Definition gep (r : nat) (p : value) (z : Z) : inst := mkInst r (Gep (Some z)) "" [p; VConst (CInt z)].
Definition load (r : nat) (p : value) : inst := mkInst r Load "" [p].
Definition ret (r : nat) (v : value) : inst := mkInst r Ret "" [v].
Definition fun_of (l : list inst) : func := mkFunc "" 1 [(0, l)].
(** The arguments have been compared. *)
Definition begun : state := mkState [(VArg 0, 0)] [(VArg 0, 0)] [(0, (VArg 0, VArg 0))] [] [] [] [] [] [] [] [] [] no_reloc [].
Definition no_int (i : inst) : bool := false.
Definition try (l r : list inst) := step plain_world (fun_of l) (fun_of r) no_int 10 l r begun.

(** [p->a.b] with [a] at 8 and [b] at 4, and [b] moved: the accesses are equal, and so are the
    loads behind them. *)
Definition nested := [gep 1 (VArg 0) 8; gep 2 (VReg 1) 4; load 3 (VReg 2); ret 4 (VReg 3)].
Definition moved := [gep 11 (VArg 0) 4; gep 12 (VReg 11) 8; load 13 (VReg 12); ret 14 (VReg 13)].
Ltac not_in := cbn; intros X; intuition congruence.
Ltac simple := split; [not_in|split; [not_in|split; [reflexivity|split; [reflexivity|split; [intros c; discriminate|]]]]];
  intros x X; vm_compute in X; first [discriminate X|injection X as <-; split; [intros [_ Z]; specialize (Z _ (or_introl eq_refl)); discriminate|split; intros; discriminate]].
Example C120_met :
  exists s', try nested moved = Some (Some ([load 3 (VReg 2); ret 4 (VReg 3)], [load 13 (VReg 12); ret 14 (VReg 13)]), s') /\
    same_number s' (VReg 2) (VReg 12) /\ in_step s' /\
    exists s'', cmp_insts plain_world (fun_of nested) (fun_of moved) (cmp_values plain_world (fun_of nested) (fun_of moved) 10) (load 3 (VReg 2)) (load 13 (VReg 12)) s' = Some (true, s'').
Proof.
  destruct (C120_longer plain_world (fun_of nested) (fun_of moved) no_int 9 (gep 1 (VArg 0) 8) (gep 11 (VArg 0) 4) [gep 2 (VReg 1) 4] [gep 12 (VReg 11) 8]
    [load 3 (VReg 2); ret 4 (VReg 3)] [load 13 (VReg 12); ret 14 (VReg 13)] [8; 4]%Z [4; 8]%Z (VReg 2) (VReg 12) 8 4 begun) as (s' & E & N & I).
  - reflexivity.
  - reflexivity.
  - discriminate.
  - not_in.
  - repeat (constructor; [apply moves_gep; reflexivity|reflexivity|]). constructor.
  - repeat (constructor; [apply moves_gep; reflexivity|reflexivity|]). constructor.
  - intros i r z X M. injection X as <- <-. inversion M as [? ? Q|? ? Q]; discriminate.
  - intros i r z X M. injection X as <- <-. inversion M as [? ? Q|? ? Q]; discriminate.
  - exists [8; 4]%Z, [4; 8]%Z. split; [|split; [|reflexivity]]; apply small_all; repeat constructor; unfold small; cbn; discriminate.
  - simple.
  - simple.
  - exists 0. split; reflexivity.
  - simple.
  - simple.
  - reflexivity.
  - reflexivity.
  - simple.
  - simple.
  - reflexivity.
  - reflexivity.
  - discriminate.
  - discriminate.
  - reflexivity.
  - exists s'. split; [exact E|]. split; [exact N|]. split; [exact I|]. vm_compute in E. injection E as <-. eexists. vm_compute. reflexivity.
Qed.

(** A field of an anonymous union: the new access begins with a GEP by zeros. *)
Definition direct := [gep 1 (VArg 0) 8; load 3 (VReg 1); ret 4 (VReg 3)].
Definition through := [gep 11 (VArg 0) 0; gep 12 (VReg 11) 8; load 13 (VReg 12); ret 14 (VReg 13)].
Example C120_unpacked_met :
  exists s', try direct through = Some (Some ([load 3 (VReg 1); ret 4 (VReg 3)], [load 13 (VReg 12); ret 14 (VReg 13)]), s') /\ same_number s' (VReg 1) (VReg 12) /\ in_step s'.
Proof.
  apply (C120_unpacked plain_world (fun_of direct) (fun_of through) no_int 8 (gep 1 (VArg 0) 8) (gep 11 (VArg 0) 0) [gep 12 (VReg 11) 8]
    [load 3 (VReg 1); ret 4 (VReg 3)] [load 13 (VReg 12); ret 14 (VReg 13)] [0; 8]%Z (VReg 12) 8 0 begun).
  - reflexivity.
  - reflexivity.
  - not_in.
  - split; [eexists; reflexivity|]. intros v [<-|[]]. reflexivity.
  - reflexivity.
  - not_in.
  - not_in.
  - reflexivity.
  - intros i r z X M. injection X as <- <-. inversion M as [? ? Q|? ? Q]; discriminate.
  - repeat (constructor; [apply moves_gep; reflexivity|reflexivity|]). constructor.
  - intros i r z X M. injection X as <- <-. inversion M as [? ? Q|? ? Q]; discriminate.
  - exists [8]%Z, [0; 8]%Z. split; [|split; [|reflexivity]]; apply small_all; repeat constructor; unfold small; cbn; discriminate.
  - simple.
  - simple.
  - exists 0. split; reflexivity.
  - simple.
  - reflexivity.
  - simple.
  - reflexivity.
  - intros v k. cbn. destruct (value_eqb v (VArg 0)); intros X; [injection X as <-; lia|discriminate].
  - reflexivity.
Qed.

(** An offset that is too large for an int is truncated: the addresses are not the same. *)
Theorem C120_large_refuted :
  exists l r s', try l r = Some (Some ([load 3 (VReg 1)], [load 13 (VReg 11)]), s') /\
    l = [gep 1 (VArg 0) 8; load 3 (VReg 1)] /\ r = [gep 11 (VArg 0) (8 + 2 ^ 32); load 13 (VReg 11)].
Proof. eexists. eexists. eexists. split; [|split; reflexivity]. vm_compute. reflexivity. Qed.
Print Assumptions C120_large_refuted.

(** The pointers in between get the same number although they have different offsets: a load
    from the one is found equal to a load from the other. *)
Theorem C120_between_refuted :
  exists s', try nested moved = Some (Some ([load 3 (VReg 2); ret 4 (VReg 3)], [load 13 (VReg 12); ret 14 (VReg 13)]), s') /\
    same_number s' (VReg 1) (VReg 11) /\
    exists s'', cmp_insts plain_world (fun_of nested) (fun_of moved) (cmp_values plain_world (fun_of nested) (fun_of moved) 10) (load 5 (VReg 1)) (load 15 (VReg 11)) s' = Some (true, s'').
Proof. eexists. split; [vm_compute; reflexivity|]. split; [exists 1; split; reflexivity|]. eexists. vm_compute. reflexivity. Qed.
Print Assumptions C120_between_refuted.

(** If one access is a single GEP and the other one has more instructions, none of them by zeros,
    the pointers they yield do not get the same number, and the functions get out of step: what
    follows is found different, although the same is done. *)
Theorem C120_single_refuted :
  exists r s', try direct r = Some (Some ([load 3 (VReg 1); ret 4 (VReg 3)], [load 13 (VReg 12); ret 14 (VReg 13)]), s') /\
    r = [gep 11 (VArg 0) 4; gep 12 (VReg 11) 4; load 13 (VReg 12); ret 14 (VReg 13)] /\
    ~ same_number s' (VReg 1) (VReg 12) /\ ~ in_step s' /\
    exists s'', cmp_insts plain_world (fun_of direct) (fun_of r) (cmp_values plain_world (fun_of direct) (fun_of r) 10) (load 3 (VReg 1)) (load 13 (VReg 12)) s' = Some (false, s'').
Proof.
  eexists. eexists. split; [|split; [reflexivity|]]; [vm_compute; reflexivity|]. split; [|split].
  - intros (k & A & B). vm_compute in A, B. congruence.
  - discriminate.
  - eexists. vm_compute. reflexivity.
Qed.
Print Assumptions C120_single_refuted.

(** * C121: calls for changed structures *)
(** Calls are found equal for these reasons only: the same allocator with equal sizes, or with
    the sizes of structures of one name; settings of memory that are equal but for such sizes;
    and an additional last argument that is zero. *)
Theorem C121_sound p_structs p_control cv called memset following bit_cast pointee is_zero same_types i j result need need' s s' :
  (forall a, memset a = true -> (called true i = Some a -> length (i_ops i) = 5) /\ (called false j = Some a -> length (i_ops j) = 5)) ->
  1 <= length (i_ops i) -> 1 <= length (i_ops j) ->
  cmp_calls p_structs p_control cv called memset following bit_cast pointee is_zero same_types i j result need s = Some (true, need', s') ->
  let equal a b := exists s s', cv a b s = Some (true, s') in
  (result = true /\ need' = need) \/
  (i_code i = Call /\ i_code j = Call /\ need' = false /\ exists a, called true i = Some a /\ called false j = Some a /\
    ((p_structs = true /\ In a allocators /\ same_allocation equal pointee following bit_cast i j) \/
     (p_structs = true /\ memset a = true /\ same_setting equal pointee bit_cast i j) \/
     (result = false /\ p_control = true /\ (one_more is_zero same_types equal i j \/ one_more is_zero same_types equal j i)))).
Proof. intros M PI PJ H. exact (calls_sound p_structs p_control cv called memset following bit_cast pointee is_zero same_types i j result need need' s s' M PI PJ H). Qed.
Print Assumptions C121_sound.

(** If the comparison of values is one of the values alone, they are found equal for each of
    these reasons. *)
Theorem C121_complete p_structs p_control cv called memset following bit_cast pointee is_zero same_types same i j need s a :
  (forall x y s, cv x y s = Some (same x y, s)) ->
  i_code i = Call -> i_code j = Call -> called true i = Some a -> called false j = Some a ->
  let equal x y := same x y = true in
  (p_structs = true /\ In a allocators /\ same_allocation equal pointee following bit_cast i j) \/
  (p_structs = true /\ memset a = true /\ same_setting equal pointee bit_cast i j) \/
  (p_control = true /\ (one_more is_zero same_types equal i j \/ one_more is_zero same_types equal j i)) ->
  cmp_calls p_structs p_control cv called memset following bit_cast pointee is_zero same_types i j false need s = Some (true, false, s).
Proof.
  intros P CI CJ A B equal H.
  destruct (calls_complete p_structs p_control cv called memset following bit_cast pointee is_zero same_types same P i j false need s a CI CJ A B H) as [X|X]; [discriminate|exact X].
Qed.
Print Assumptions C121_complete.

(** Without these settings, nothing changes. *)
Theorem C121_off cv called memset following bit_cast pointee is_zero same_types i j result need s :
  cmp_calls false false cv called memset following bit_cast pointee is_zero same_types i j result need s = Some (result, need, s).
Proof.
  unfold cmp_calls. destruct (i_code i); try reflexivity. destruct (i_code j); try reflexivity. destruct (called true i) as [a|]; [|reflexivity]. destruct (called false j) as [b|]; [|reflexivity].
  rewrite !andb_false_r. cbn [andb]. destruct (String.eqb a b); reflexivity.
Qed.
Print Assumptions C121_off.

Definition callee (left : bool) (i : inst) : option string := match last (i_ops i) (VConst (CInt 0)) with VConst (CGlobal g) => Some g | _ => None end.
Definition call (r : nat) (g : string) (args : list value) : inst := mkInst r Call "" (args ++ [VConst (CGlobal g)]).
Definition int (z : Z) : value := VConst (CInt z).
Definition same_value (x y : value) (s : state) : option (bool * state) := Some (value_eqb x y, s).
Definition zero (c : const) : bool := match c with CInt z => Z.eqb z 0 | _ => false end.
Definition point (left : bool) (v : value) : string * Z := match v with VReg 2 | VReg 7 => ("device"%string, if left then 16%Z else 24%Z) | _ => (""%string, 0%Z) end.
Definition try_calls (structs control : bool) (i j : inst) :=
  cmp_calls structs control same_value callee (String.eqb "llvm.memset.p0.i64") (fun _ i => Some (mkInst (S (i_reg i)) (Cast true) "" [VReg (i_reg i)]))
    (fun _ v => match v with VReg 2 => Some (VReg 1) | _ => None end) point zero (fun _ _ => true) i j false true begun.
(** A structure that has grown is allocated. *)
Example C121_met :
  try_calls true false (call 1 "kzalloc" [int 16; int 0]) (call 1 "kzalloc" [int 24; int 0]) = Some (true, false, begun) /\
  try_calls true false (call 1 "kzalloc" [int 16; int 0]) (call 1 "kzalloc" [int 32; int 0]) = Some (false, true, begun) /\
  try_calls true false (call 3 "llvm.memset.p0.i64" [VReg 2; int 0; int 16; int 0]) (call 3 "llvm.memset.p0.i64" [VReg 2; int 0; int 24; int 0]) = Some (false, true, begun) /\
  try_calls true false (call 3 "llvm.memset.p0.i64" [VReg 7; int 0; int 16; int 0]) (call 3 "llvm.memset.p0.i64" [VReg 7; int 0; int 24; int 0]) = Some (true, false, begun) /\
  try_calls false true (call 1 "f" [VReg 7]) (call 1 "f" [VReg 7; int 0]) = Some (true, false, begun) /\
  try_calls false true (call 1 "f" [VReg 7]) (call 1 "f" [VReg 7; int 1]) = Some (false, false, begun).
Proof. repeat split. Qed.
Example C121_complete_met :
  In "kzalloc"%string allocators /\
  same_allocation (fun x y => value_eqb x y = true) point (fun _ i => Some (mkInst (S (i_reg i)) (Cast true) "" [VReg (i_reg i)])) (fun _ v => match v with VReg 2 => Some (VReg 1) | _ => None end)
    (call 1 "kzalloc" [int 16; int 0]) (call 1 "kzalloc" [int 24; int 0]).
Proof.
  split; [left; reflexivity|]. right. exists (VReg 2), (VReg 2). split; [|split].
  - left. eexists. eexists. repeat split.
  - left. eexists. eexists. repeat split.
  - exists "device"%string, 16%Z, 24%Z, 16%Z, 24%Z. repeat split. discriminate.
Qed.

(** The flags of allocations are not compared. *)
Theorem C121_flags_refuted a b size g : In g allocators ->
  try_calls true false (call 1 g [size; a]) (call 1 g [size; b]) = Some (true, false, begun).
Proof.
  intros [<-|[<-|[<-|[]]]]; unfold try_calls, cmp_calls, cmp_allocs, same_value; cbn; destruct (value_eqb_spec size size); congruence.
Qed.
Print Assumptions C121_flags_refuted.

(** If the second function has the additional argument, the other arguments are given to the
    comparison of values with the sides exchanged: any two values with numbers in the first and
    the second function are found equal, as neither has one on the other side. *)
Theorem C121_exchanged_refuted w fl fr n s l r :
  simple_l fl s r -> simple_r fr s l -> new_l s r -> new_r s l -> in_step s ->
  exists s', cmp_values w fl fr (S n) r l s = Some (true, s').
Proof. intros V U NV NU E. eexists. apply (cmp_new w fl fr n s r l V U NV NU E). Qed.
Print Assumptions C121_exchanged_refuted.

(** So [f(x)] is found equal to [f(y, 0)] for different [x] and [y]; [f(x, 0)] is not found equal to
    [f(y)]. *)
Definition two_l := [call 1 "first" []; call 2 "second" []; call 3 "f" [VReg 1]].
Definition two_r := [call 11 "first" []; call 12 "second" []; call 13 "f" [VReg 12; int 0]].
Definition values := cmp_values plain_world (fun_of two_l) (fun_of two_r) 10.
Definition both : state := mkState [(VReg 1, 0); (VReg 2, 1)] [(VReg 11, 0); (VReg 12, 1)] [(0, (VReg 1, VReg 11)); (1, (VReg 2, VReg 12))] [] [] [] [] [] [] [] [] [] no_reloc [].
Definition control_flow i j := cmp_calls false true values callee (fun _ => false) (fun _ _ => None) (fun _ _ => None) point zero (fun _ _ => true) i j false true both.
Theorem C121_extra_refuted :
  (exists s', values (VReg 1) (VReg 12) both = Some (false, s')) /\
  (exists s', control_flow (call 3 "f" [VReg 1]) (call 13 "f" [VReg 12; int 0]) = Some (true, false, s')) /\
  (exists s', control_flow (call 3 "f" [VReg 1; int 0]) (call 13 "f" [VReg 12]) = Some (false, false, s')).
Proof. split; [|split]; eexists; vm_compute; reflexivity. Qed.
Print Assumptions C121_extra_refuted.
