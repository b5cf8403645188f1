(** * Properties of copying the properties of calls and functions (C165) *)
From Coq Require Import String Arith Bool Lia List.
From Verif Require Import Attrs_Model.
Import ListNotations.
Open Scope list_scope.

(** The calling convention and the location are those of the copied call. *)
Theorem C165_call src dest :
  c_conv (copy_call src dest) = c_conv src /\ c_loc (copy_call src dest) = c_loc src /\
  c_void (copy_call src dest) = c_void dest.
Proof. repeat split. Qed.

(** A call that does not become void has all attributes of the copied one, at all places. *)
Theorem C165_same src dest p :
  c_void src = true \/ c_void dest = false -> c_attrs (copy_call src dest) p = c_attrs src p.
Proof. unfold copy_call. simpl. intros [->| ->]; simpl; auto. rewrite andb_false_r. auto. Qed.

Lemma place_eqb_eq a b : place_eqb a b = true <-> a = b.
Proof.
  destruct a, b; simpl; split; try discriminate; auto; try congruence.
  - intros H. apply Nat.eqb_eq in H. congruence.
  - intros [= ->]. apply Nat.eqb_refl.
Qed.

Lemma clean_at l p :
  clean l p = match p with Ret => l Ret | Fun => l Fun | Arg 0 => l (Arg 0) | Arg _ => [] end.
Proof.
  unfold clean. simpl. destruct (l (Arg 0)) eqn:E0, (l Fun) eqn:E1, (l Ret) eqn:E2; unfold add_at, no_attrs;
    destruct p as [| |[|n]]; simpl; auto.
Qed.

Lemma remove_in ks l p a :
  In a (fold_left (fun l k => remove_at Fun k (remove_at Ret k l)) ks l p) <->
  In a (l p) /\ (p = Ret \/ p = Fun -> ~ In (a_kind a) ks).
Proof.
  revert l. induction ks as [|k ks IH]; intros l; simpl; [tauto|].
  rewrite IH. unfold remove_at. destruct p as [| |n]; simpl.
  - rewrite filter_In. rewrite negb_true_iff, String.eqb_neq. split.
    + intros [[H1 H2] H3]. split; auto. intros _ [E|Hi]; [congruence|]. apply H3; auto.
    + intros [H1 H2]. split; [split; [auto | intros E; apply H2; auto] | intros H Hi; apply (H2 H); auto].
  - rewrite filter_In. rewrite negb_true_iff, String.eqb_neq. split.
    + intros [[H1 H2] H3]. split; auto. intros _ [E|Hi]; [congruence|]. apply H3; auto.
    + intros [H1 H2]. split; [split; [auto | intros E; apply H2; auto] | intros H Hi; apply (H2 H); auto].
  - split; intros [H1 H2]; (split; [auto|intros [?|?]; discriminate]).
Qed.

(** A call that becomes void keeps, of the call and of its value, exactly the attributes a void call can have, those of
    its first argument, and none of other arguments. *)
Theorem C165_void src dest p a :
  c_void src = false -> c_void dest = true ->
  (In a (c_attrs (copy_call src dest) p) <->
   In a (c_attrs src p) /\
   match p with Ret | Fun => ~ In (a_kind a) bad_void | Arg n => n = 0 end).
Proof.
  intros Hs Hd. unfold copy_call. simpl. rewrite Hs, Hd. cbn [negb andb]. unfold for_void. rewrite clean_at.
  destruct p as [| |[|n]]; rewrite ?remove_in.
  - split; intros [H1 H2]; split; auto.
  - split; intros [H1 H2]; split; auto.
  - split; intros [H1 H2]; split; auto. intros [?|?]; discriminate.
  - simpl. split; [intros []|]. intros [_ ?]. discriminate.
Qed.

(** Wish refuted: attributes of all arguments are kept when a call becomes void. *)
Theorem C165_arguments_refuted :
  exists src dest a, c_void src = false /\ c_void dest = true /\ In a (c_attrs src (Arg 1)) /\
    ~ In a (c_attrs (copy_call src dest) (Arg 1)).
Proof.
  exists (mkCall (fun p => match p with Arg _ => [mkAttr "noundef" ""] | _ => [] end) 0 None TailNone false),
         (mkCall no_attrs 0 None TailNone true), (mkAttr "noundef" "").
  split; [reflexivity|]. split; [reflexivity|]. split; [left; reflexivity|]. vm_compute. auto.
Qed.

(** A new call is a tail call exactly if the copied one may or must be; that it must (or must not) be is lost. *)
Theorem C165_tail src dest :
  c_tail dest = TailNone ->
  (c_tail (copy_call src dest) = Tail <-> c_tail src = Tail \/ c_tail src = MustTail) /\
  (c_tail (copy_call src dest) = TailNone <-> c_tail src = TailNone \/ c_tail src = NoTail).
Proof.
  intros Hd. unfold copy_call. simpl. rewrite Hd. destruct (c_tail src); simpl; intuition congruence.
Qed.

Lemma take_names_ok src : forall dest, length src <= length dest ->
  take_names src dest = Some (src ++ skipn (length src) dest).
Proof.
  induction src as [|s r IH]; intros [|d dest] H; simpl in *; auto; try lia. rewrite IH by lia. auto.
Qed.

(** A function with as many arguments gets all attributes, the debug information and the names of arguments of the copied
    one, whose arguments then have no names. *)
Theorem C165_function src dest :
  length (f_args dest) = length (f_args src) ->
  exists src' dest', copy_function src dest = Some (src', dest') /\
    (forall p, f_attrs dest' p = f_attrs src p) /\ f_sub dest' = f_sub src /\ f_args dest' = f_args src /\
    f_ret_void dest' = f_ret_void dest /\ (forall p, f_attrs src' p = f_attrs src p) /\
    (forall n, In n (f_args src') -> n = ""%string) /\ length (f_args src') = length (f_args src).
Proof.
  intros H. unfold copy_function. rewrite take_names_ok by lia. rewrite <- H, skipn_all, app_nil_r. simpl.
  eexists. eexists. split; [reflexivity|]. simpl. repeat split; auto.
  - intros n Hn. apply in_map_iff in Hn. destruct Hn as (x & <- & _). auto.
  - rewrite map_length. lia.
Qed.

(** Wish refuted: the void variant of a function has no attributes a void function cannot have.  The test asks for the type
    of the function as a value, which is a pointer. *)
Theorem C165_function_refuted :
  exists src dest src' dest' a, f_ret_void src = false /\ f_ret_void dest = true /\
    copy_function src dest = Some (src', dest') /\ In a (f_attrs dest' Ret) /\ In (a_kind a) bad_void.
Proof.
  exists (mkFunction (fun p => match p with Ret => [mkAttr "zeroext" ""] | _ => [] end) None false ["x"%string]),
         (mkFunction no_attrs None true [""%string]).
  eexists. eexists. exists (mkAttr "zeroext" "").
  split; [reflexivity|]. split; [reflexivity|]. split; [reflexivity|]. simpl. tauto.
Qed.

Definition ex_src : call :=
  mkCall (fun p => match p with
                   | Ret => [mkAttr "zeroext" ""; mkAttr "noundef" ""] | Fun => [mkAttr "readonly" ""; mkAttr "cold" ""]
                   | Arg _ => [mkAttr "nonnull" ""] end) 8 (Some 3) MustTail false.
Example C165_example :
  let c := copy_call ex_src (mkCall no_attrs 0 None TailNone true) in
  (c_attrs c Ret, c_attrs c Fun, c_attrs c (Arg 0), c_attrs c (Arg 1), c_tail c)
  = ([mkAttr "noundef" ""], [mkAttr "cold" ""], [mkAttr "nonnull" ""], [], Tail).
Proof. vm_compute. reflexivity. Qed.

Print Assumptions C165_call.
Print Assumptions C165_same.
Print Assumptions C165_void.
Print Assumptions C165_arguments_refuted.
Print Assumptions C165_tail.
Print Assumptions C165_function.
Print Assumptions C165_function_refuted.
