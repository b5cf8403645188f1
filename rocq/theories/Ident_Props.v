(** * Properties of the names shown for values (C144) *)
From Coq Require Import String Ascii ZArith Arith Bool Lia List.
From Verif Require Import PyBase Source_Model Source_Proofs Reason_Model Reason_Spec Reason_Proofs Ident_Model Ident_Spec Ident_Proofs.
Import ListNotations.
Open Scope list_scope.

(** ** C144 *)
(** Values that are expressions of names, arguments, constants, casts, loads, fields and elements of arrays are shown as in C. *)
Theorem C144_expressions f v e : Simple e -> (Is f v e -> ident (Some f) v = Some (print e)) /\ (Place f v e -> ident (Some f) v = Some ("&(" ++ print e ++ ")")%string).
Proof. intros S. split; intros H; [apply (proj1 (shown f) v e H S)|apply (proj2 (shown f) v e H S)]. Qed.
Print Assumptions C144_expressions.
(** p->next->data[i], with p the first argument *)
Definition fun_p : parent := mkParent 2 (Some [Some "p"; Some "i"; Some "sum"]%string).
Definition node : itype := Structure "struct.node" [Some "next"; Some "data"]%string.
Definition zero : value := Ident_Model.Number 0 "0".
Definition of_p : value := Load_of (Gep_of (Gep_of (Load_of (Gep_of (Plain "%struct.node* %0") node [zero; Ident_Model.Number 0 "0"])) node [zero; Ident_Model.Number 1 "1"]) (Array (Integer 32)) [zero; Plain "i32 %1"]).
Lemma reg_text before d rest r : d <> ""%string -> Reason_Spec.Number d r -> rest = ""%string -> Register_text (before ++ "%" ++ d ++ rest) r.
Proof. intros D N ->. exists before, d, ""%string. split; [reflexivity|]. split; [exact D|]. split; [exact N|]. split; [intros [|? ?] b; discriminate|]. intros; discriminate. Qed.
Example C144_example : Is fun_p of_p (Index (Arrow (Arrow (Var "p") "next") "data") (Var "i")) /\ ident (Some fun_p) of_p = Some "p->next->data[i]"%string.
Proof.
  assert (P : forall x, x = "p"%string \/ x = "i"%string -> Proper x) by (intros x [->| ->]; split; [discriminate|intros r; discriminate|discriminate|intros r; discriminate]).
  split; [|vm_compute; reflexivity]. apply Is_load. apply Place_element; [apply Place_field; [apply Is_load; apply Place_field; [|reflexivity]|reflexivity]| |intros; discriminate].
  - eapply (Is_argument _ _ 0); [|cbn; lia|reflexivity|reflexivity|auto]. apply (reg_text "%struct.node* "%string "0"%string ""%string 0); [discriminate| |reflexivity]. exact (Number_digit ""%string 0 "0"%char Number_none ltac:(vm_compute; lia)).
  - eapply (Is_argument _ _ 1); [|cbn; lia|reflexivity|reflexivity|auto]. apply (reg_text "i32 "%string "1"%string ""%string 1); [discriminate| |reflexivity]. exact (Number_digit ""%string 0 "1"%char Number_none ltac:(vm_compute; lia)).
Qed.
(** A value without a name gets the name of the last register in the text LLVM prints for it, if this is an argument: for an
    instruction, one of its operands. *)
Theorem C144_unnamed f printed r x nodes : Register_text printed r -> retained f = Some nodes -> nth_error nodes r = Some (Some x) ->
  ident (Some f) (Plain printed) = Some (if Nat.leb (arguments f) r then "<unknown>"%string else x).
Proof. intros R Re N. cbn. rewrite (register_iff _ _ R). destruct (arguments f <=? r); [reflexivity|]. rewrite Re, N. reflexivity. Qed.
Print Assumptions C144_unnamed.
Theorem C144_instruction_refuted : ident (Some fun_p) (Plain "  %5 = mul nsw i32 %3, %1") = Some "i"%string.
Proof. vm_compute. reflexivity. Qed.
Print Assumptions C144_instruction_refuted.
(** A value whose text has no number behind its last percent sign, or that is in no function, is not known. *)
Theorem C144_no_register p before c rest : ~ 48 <= nat_of_ascii c <= 57 -> c <> " "%char -> c <> "%"%char -> (forall a b, rest <> (a ++ "%" ++ b)%string) ->
  ident p (Plain (before ++ "%" ++ String c rest)) = Some "<unknown>"%string /\ forall v, ident None (Plain v) = Some "<unknown>"%string.
Proof.
  intros D Sp P N. split; [|reflexivity]. cbn [ident]. unfold unnamed. destruct p as [f|]; [|reflexivity]. unfold register. rewrite last_index_app. cbn [append last_index].
  assert (E : last_index (Ascii.eqb "%") rest = None). { apply last_index_none. intros x y b E. destruct (Ascii.eqb_spec "%" y) as [<-|]; [|reflexivity]. destruct (N x b E). }
  rewrite E. destruct (Ascii.eqb_spec "%" c) as [Q|_]; [congruence|]. change (Ascii.eqb "%" "%") with true. cbn match. rewrite Nat.add_0_r.
  assert (Dr : drop (S (String.length before)) (before ++ String "%" (String c rest)) = String c rest).
  { clear. induction before as [|x a IH]; [reflexivity|]. cbn [append String.length drop]. exact IH. }
  rewrite Dr. cbn [skip_space]. destruct (Ascii.eqb_spec c " ") as [Q|_]; [congruence|]. cbn [read_digits]. destruct (is_digit c) eqn:X; [apply is_digit_iff in X; contradiction|reflexivity].
Qed.
Print Assumptions C144_no_register.
Example C144_no_register_met : ident (Some fun_p) (Plain "%struct.node* %x") = Some "<unknown>"%string.
Proof. refine (proj1 (C144_no_register (Some fun_p) "%struct.node* " "x" "" _ _ _ _)); [vm_compute; lia|discriminate|discriminate|intros [|? ?] b; discriminate]. Qed.
(** A field that has no name in the debug info is shown by its number. *)
Theorem C144_unnamed_field f v e s fields k text z : Is f v e -> Simple e -> nth_error fields k = None \/ nth_error fields k = Some None ->
  ident (Some f) (Gep_of v (Structure s fields) [Ident_Model.Number 0 z; Ident_Model.Number k text]) = Some ("&(" ++ print e ++ "->" ++ Reason_Model.decimal k ++ ")")%string.
Proof. intros H S N. cbn [ident]. rewrite (proj1 (shown f) v e H S). cbn [andb]. rewrite !andb_false_r. destruct N as [-> | ->]; reflexivity. Qed.
Print Assumptions C144_unnamed_field.
(** Without debug info of the function an argument crashes. *)
Theorem C144_debug_refuted f printed r : Register_text printed r -> r < arguments f -> retained f = None -> ident (Some f) (Plain printed) = None.
Proof. intros R L Re. cbn. rewrite (register_iff _ _ R). destruct (Nat.leb_spec (arguments f) r); [lia|]. rewrite Re. reflexivity. Qed.
Print Assumptions C144_debug_refuted.
(** An element of what a named pointer points to: the first two and the last letters of the name are lost; a name of one letter throws. *)
Definition Not_zero (i : value) : Prop := forall t, i <> Ident_Model.Number 0 t.
Lemma gep_one p base from i s : ident p base = Some s -> Not_zero i -> (forall n fs, from <> Structure n fs) ->
  ident p (Gep_of base from [i]) = match ident p i, unwrap s with Some idx, Some s' => Some ("&(" ++ s' ++ "[" ++ (if String.eqb idx "" then "<unknown>" else idx) ++ "]" ++ ")")%string | _, _ => None end.
Proof.
  intros B Z N. cbn [ident]. rewrite B. assert (Q : (match i with Ident_Model.Number 0 _ => true | _ => false end) = false) by (destruct i as [| | | | |[|n] t| |]; try reflexivity; destruct (Z t eq_refl)).
  rewrite Q. cbn [andb]. destruct from; [destruct (N _ _ eq_refl)|reflexivity..].
Qed.
Theorem C144_index_refuted p a b m c from i idx : Not_zero i -> (forall n fs, from <> Structure n fs) -> ident p i = Some idx -> idx <> ""%string ->
  ident p (Gep_of (Named (String a (String b (m ++ String c "")))) from [i]) = Some ("&(" ++ m ++ "[" ++ idx ++ "])")%string /\ ident p (Gep_of (Named (String a "")) from [i]) = None.
Proof.
  intros Z N I E. split.
  - rewrite (gep_one p (Named (String a (String b (m ++ String c "")))) from i _ eq_refl Z N), I. assert (U : unwrap (String a (String b (m ++ String c ""))) = Some m).
    { unfold unwrap. cbn [String.length]. destruct (Nat.ltb_spec (S (S (String.length (m ++ String c "")))) 2); [lia|]. cbn [substring]. f_equal.
      assert (L : String.length (m ++ String c "") = S (String.length m)) by (rewrite length_app_s; cbn; lia). rewrite L. replace (S (S (S (String.length m))) - 3) with (String.length m) by lia. apply substring_all. }
    rewrite U. apply String.eqb_neq in E. rewrite E. reflexivity.
  - rewrite (gep_one p (Named (String a "")) from i _ eq_refl Z N), I. reflexivity.
Qed.
Print Assumptions C144_index_refuted.
(** Different pointers shown the same *)
Theorem C144_distinct_refuted : ident (Some fun_p) (Gep_of (Named "read_buf") (Integer 8) [Plain "i32 %1"]) = Some "&(ad_bu[i])"%string /\
  ident (Some fun_p) (Gep_of (Named "load_bus") (Integer 8) [Plain "i32 %1"]) = Some "&(ad_bu[i])"%string.
Proof. split; vm_compute; reflexivity. Qed.
Print Assumptions C144_distinct_refuted.
(** A field of a structure in a structure is shown with the name of a field of the outer one; an index that is no constant crashes. *)
Theorem C144_nested_refuted f v e s fields k j x y i : Is f v e -> Simple e -> nth_error fields k = Some (Some x) -> nth_error fields j = Some (Some y) ->
  ident (Some f) (Gep_of v (Structure s fields) [zero; Ident_Model.Number k "k"; Ident_Model.Number j "j"]) = Some ("&(&(" ++ print e ++ "->" ++ x ++ ")->" ++ y ++ ")")%string /\
  ((forall n t, i <> Ident_Model.Number n t) -> ident (Some f) (Gep_of v (Structure s fields) [zero; Ident_Model.Number k "k"; i]) = None).
Proof.
  intros H S N M. unfold zero. cbn [ident]. rewrite (proj1 (shown f) v e H S). cbn [andb]. rewrite !andb_false_r, N. split.
  - rewrite M. cbn [append]. rewrite ?Reason_Proofs.app_s_assoc. cbn [append]. rewrite ?Reason_Proofs.app_s_assoc. reflexivity.
  - intros Q. destruct i as [| | | | |n t| |]; try reflexivity. destruct (Q n t eq_refl).
Qed.
Print Assumptions C144_nested_refuted.
(** The second of several structures is shown as a field of the first. *)
Theorem C144_element_refuted f v e s fields k x : Is f v e -> Simple e -> nth_error fields (S k) = Some (Some x) ->
  ident (Some f) (Gep_of v (Structure s fields) [Ident_Model.Number (S k) "k"]) = Some ("&(" ++ print e ++ "->" ++ x ++ ")")%string.
Proof. intros H S N. cbn [ident andb]. rewrite (proj1 (shown f) v e H S), N. reflexivity. Qed.
Print Assumptions C144_element_refuted.
(** The field of what a pointer to a pointer points to is not shown as in C, where the field would be taken first. *)
Theorem C144_pointer_refuted : let v := Load_of (Gep_of (Load_of (Named "pp")) node [zero; Ident_Model.Number 0 "0"]) in
  Is fun_p v (Arrow (Deref (Var "pp")) "next") /\ ident (Some fun_p) v = Some "*(pp)->next"%string /\ print (Arrow (Deref (Var "pp")) "next") = "(*(pp))->next"%string.
Proof.
  cbn zeta. split; [|split; vm_compute; reflexivity]. apply Is_load. apply Place_field; [|reflexivity]. apply Is_deref. apply Is_named. split; [discriminate|intros r; discriminate].
Qed.
Print Assumptions C144_pointer_refuted.
