(** * What modules do, and what the passes should leave (for Passes_Props).
    Only the IR, its meaning (Funcomp_Spec), the names without suffixes (Source_Spec) and the
    modules of Passes_Model are used. *)
From Coq Require Import String Ascii ZArith Arith Bool List.
From Verif Require Import PyBase Source_Spec Funcomp_Model Funcomp_Spec Passes_Model.
Import ListNotations.
Open Scope list_scope.
Open Scope nat_scope.

(** ** Running a module *)

Fixpoint body_of (m : gmodule) (id : string) : option func :=
  match m with [] => None | g :: m' => if String.eqb (g_id g) id then g_body g else body_of m' id end.
Section Modules.
  Variable S : semantics.
  (** The values of constants and globals, and the function whose address a value is. *)
  Variable consts : const -> V S.
  Variable target : V S -> option string.
  Variable m : gmodule.
  Definition sem_with (e : code -> string -> list (V S) -> M S -> option (V S * M S)) : semantics :=
    mkSem (V S) (M S) (undef S) (constL S) (constR S) e (choose S).
  (** A call of a function that has a body runs the body, for at most [n] blocks; other calls mean
      what [S] says.  The callee is the last operand. *)
  Fixpoint exec_in (n : nat) (c : code) (rest : string) (vs : list (V S)) (mem : M S) : option (V S * M S) :=
    match c with
    | Call =>
      match match target (last vs (undef S)) with Some id => body_of m id | None => None end with
      | None => exec S c rest vs mem
      | Some f =>
        match n with
        | O => None
        | Datatypes.S n' =>
          match result (sem_with (exec_in n')) consts (fun k => nth k (removelast vs) (undef S)) f n' mem with
          | Returned rs mem' => Some (hd (undef S) rs, mem')
          | _ => None
          end
        end
      end
    | _ => exec S c rest vs mem
    end.
  (** What the function [id] of the module does with [args]; calls are at most [n] deep. *)
  Definition does (n : nat) (id : string) (args : nat -> V S) (mem : M S) : option (outcome (V S) (M S)) :=
    match body_of m id with Some f => Some (result (sem_with (exec_in n)) consts args f n mem) | None => None end.
End Modules.

(** The same, up to relations of what is returned and of memories. *)
Definition outcomes {A B C D : Type} (RR : list A -> list B -> Prop) (RM : C -> D -> Prop) (a : outcome A C) (b : outcome B D) : Prop :=
  match a, b with
  | Returned vs m, Returned vs' m' => RR vs vs' /\ RM m m'
  | Stuck, Stuck => True
  | Running m, Running m' => RM m m'
  | _, _ => False
  end.
(** The same of two functions of two modules. *)
Definition both {A B : Type} (R : A -> B -> Prop) (a : option A) (b : option B) : Prop :=
  match a, b with Some x, Some y => R x y | None, None => True | _, _ => False end.

(** ** Merging *)

Definition exempt (name : string) : Prop :=
  exists p rest, In p ["simpll__indirect."; "simpll__inlineasm."; "llvm."]%string /\ name = (p ++ rest)%string.
(** [g] is the first function of the module whose name without suffix is [base]. *)
Definition first_named (m : gmodule) (base : string) (g : gfun) : Prop :=
  exists m1 m2, m = m1 ++ g :: m2 /\ ~ exempt (g_name g) /\ base_of (g_name g) base /\ forall h, In h m1 -> ~ exempt (g_name h) -> ~ base_of (g_name h) base.
(** [b] is to be merged into [a]. *)
Definition merged (m : gmodule) (b a : gfun) : Prop :=
  In b m /\ g_id b <> g_id a /\ ~ exempt (g_name b) /\ exists base, base_of (g_name b) base /\ first_named m base a /\ g_type a = g_type b.
Definition refer (sub : string -> string) (v : value) : value := match v with VConst (CGlobal g) => VConst (CGlobal (sub g)) | v => v end.
Definition referring (sub : string -> string) (f : func) : func :=
  mkFunc (f_sig f) (f_args f) (map (fun kb => (fst kb, map (fun i => mkInst (i_reg i) (i_code i) (i_rest i) (map (refer sub) (i_ops i))) (snd kb))) (f_blocks f)).
(** [sub] takes the functions that are merged to those into which they are merged. *)
Definition merging (m : gmodule) (sub : string -> string) : Prop :=
  (forall b a, merged m b a -> sub (g_id b) = g_id a) /\ (forall x, (forall b a, merged m b a -> g_id b <> x) -> sub x = x).
(** [g'] is [g], maybe with another name, with other functions referred to. *)
Definition but_name (sub : string -> string) (g g' : gfun) : Prop :=
  g_id g' = g_id g /\ g_type g' = g_type g /\ g_asm g' = g_asm g /\ g_body g' = option_map (referring sub) (g_body g).
(** If a function is called as others would be without suffix, it is one of them and of their type. *)
Definition names_agree (m : gmodule) : Prop :=
  forall g h, In g m -> In h m -> ~ exempt (g_name g) -> base_of (g_name g) (g_name h) -> ~ exempt (g_name h) /\ base_of (g_name h) (g_name h) /\ g_type h = g_type g.
(** [g] is the first of at least two functions with the name [base] without suffix. *)
Definition shares (m : gmodule) (base : string) (g : gfun) : Prop :=
  first_named m base g /\ exists h, In h m /\ g_id h <> g_id g /\ ~ exempt (g_name h) /\ base_of (g_name h) base.
(** Nobody can tell the functions that are merged from those into which they are merged by their
    addresses: [RV] relates values that differ in such addresses only, [RM] memories; and they are
    copies of them. *)
Definition sub_const (sub : string -> string) (c : const) : const := match c with CGlobal g => CGlobal (sub g) | c => c end.
Record copies_only (S : semantics) (consts : const -> V S) (target : V S -> option string) (m : gmodule) (sub : string -> string)
    (RV : V S -> V S -> Prop) (RM : M S -> M S -> Prop) : Prop := mkCopies {
  rel_undef : RV (undef S) (undef S);
  rel_const : forall c, RV (consts c) (consts (sub_const sub c));
  rel_target : forall v v', RV v v' -> target v' = option_map sub (target v);
  rel_choose : forall c rest vs vs', Forall2 RV vs vs' -> choose S c rest vs = choose S c rest vs';
  rel_exec : forall c rest vs vs' mem mem', Forall2 RV vs vs' -> RM mem mem' ->
    (c = Call -> forall id, target (last vs (undef S)) = Some id -> body_of m id = None) ->
    both (fun x y => RV (fst x) (fst y) /\ RM (snd x) (snd y)) (exec S c rest vs mem) (exec S c rest vs' mem');
  rel_copies : forall b a, merged m b a ->
    both (fun f g => forall (T : semantics) cs args n mem, result T cs args (referring sub f) n mem = result T cs args (referring sub g) n mem) (body_of m (g_id b)) (body_of m (g_id a)) }.

(** ** Functions that may be called *)

(** The function [f] is found in the value [v]: in a constant, or in the value a constant global
    variable has at the start. *)
Inductive holds (m : kmodule) : cval -> string -> Prop :=
| holds_function f : holds m (KFun f) f
| holds_variable g c f : dget (k_vars m) g = Some (true, Some c) -> holds m c f -> holds m (KVar g) f
| holds_alias c f : holds m c f -> holds m (KAlias c) f
| holds_cast c f : holds m c f -> holds m (KCast c) f
| holds_other ops c f : In c ops -> holds m c f -> holds m (KOther ops) f.
Inductive may_call (m : kmodule) (main : string) : string -> Prop :=
| may_call_self : may_call m main main
| may_call_step g l i v f : may_call m main g -> dget (k_funs m) g = Some l -> In i l -> In v (snd i) -> holds m v f -> may_call m main f.
(** What is called is one of the operands. *)
Definition callees_operands (m : kmodule) : Prop := forall g l i c, In (g, l) (k_funs m) -> In i l -> fst i = Some c -> In c (snd i).

(** ** Abstractions *)

Section Abstractions.
  Variable call_type : inst -> ftype.
  Variable assembly : string -> option (string * string).
  Variable known : string -> bool.
  (** [i] calls no function of the module by its name; [asm]: the assembly it calls, if any. *)
  Definition indirect (i : inst) : Prop := i_code i = Call /\ forall ops g, i_ops i = ops ++ [VConst (CGlobal g)] -> known g = false.
  Definition calls_asm (i : inst) (asm : option (string * string)) : Prop :=
    (exists ops g, i_ops i = ops ++ [VConst (CGlobal g)] /\ assembly g = asm /\ asm <> None) \/
    asm = None /\ forall ops g, i_ops i = ops ++ [VConst (CGlobal g)] -> assembly g = None.
  (** [i'] calls the function [f] with what [i] had; the function that was called comes last. *)
  Definition abstracted (f : string) (i i' : inst) : Prop :=
    i_reg i' = i_reg i /\ i_code i' = Call /\ i_rest i' = i_rest i /\
    ((exists ops v, calls_asm i None /\ i_ops i = ops ++ [v] /\ i_ops i' = ops ++ [v; VConst (CGlobal f)]) \/
     (exists a ops v, calls_asm i (Some a) /\ i_ops i = ops ++ [v] /\ i_ops i' = ops ++ [VConst (CGlobal f)]) \/
     (i_ops i = [] /\ i_ops i' = [VConst (CGlobal f)])).
  (** The same function in all but the calls, which are replaced by [abs]. *)
  Definition abstracted_func (abs : inst -> string) (f f' : func) : Prop :=
    f_sig f' = f_sig f /\ f_args f' = f_args f /\
    Forall2 (fun kb kb' => fst kb' = fst kb /\ Forall2 (fun i i' => indirect i /\ abstracted (abs i) i i' \/ ~ indirect i /\ i' = i) (snd kb) (snd kb')) (f_blocks f) (f_blocks f').
  Definition occurs (m : gmodule) (called : list string) (i : inst) : Prop :=
    exists g f, In g m /\ In (g_id g) called /\ g_body g = Some f /\ In i (insts f).
  (** The declaration of the abstraction of [i]. *)
  Definition declares (pointer : string) (i : inst) (d : gfun) : Prop :=
    exists asm, calls_asm i asm /\ g_body d = None /\ g_asm d = asm /\
      g_type d = mkType (t_ret (call_type i)) (t_params (call_type i) ++ match asm with Some _ => [] | None => [pointer] end) false /\
      exists n, g_name d = (match asm with Some _ => "simpll__inlineasm." | None => "simpll__indirect." end ++ n)%string /\ n <> ""%string.
  (** Two calls that have the same types and the same assembly, if any. *)
  Definition same_call (i j : inst) : Prop := call_type i = call_type j /\ forall a, calls_asm i a <-> calls_asm j a.
  Definition no_dollar (s : string) : Prop := forall a b, s <> (a ++ "$" ++ b)%string.
  (** The types of calls are told apart by their names; neither these nor constraints have dollar
      signs. *)
  Definition plain_types (type_name : ftype -> string) : Prop :=
    (forall i j, type_name (call_type i) = type_name (call_type j) -> call_type i = call_type j) /\ (forall i, no_dollar (type_name (call_type i))) /\ (forall g c k, assembly g = Some (c, k) -> no_dollar k).
End Abstractions.

(** ** Unused results *)

Definition calls_function (id : string) (i : inst) : Prop := i_code i = Call /\ exists ops, i_ops i = ops ++ [VConst (CGlobal id)].
Definition unused (f : func) (i : inst) : Prop := forall u, In u (insts f) -> ~ In (VReg (i_reg i)) (i_ops u).
(** [i'] calls [vid] as [i] calls [id], for one of the pairs in [l]; its result is not used by what
    the instructions become by [end_of]. *)
Definition calls_void (void_rest : string -> string) (l : list (string * string)) (end_of : inst -> inst) (f : func) (i i' : inst) : Prop :=
  exists id vid ops, In (id, vid) l /\ (forall u, In u (insts f) -> ~ In (VReg (i_reg i)) (i_ops (end_of u))) /\ i_code i = Call /\ i_ops i = ops ++ [VConst (CGlobal id)] /\
    i' = mkInst (i_reg i) Call (void_rest (i_rest i)) (ops ++ [VConst (CGlobal vid)]).
Definition voids (void_rest : string -> string) (l : list (string * string)) (end_of : inst -> inst) (f f' : func) : Prop :=
  f_sig f' = f_sig f /\ f_args f' = f_args f /\
  Forall2 (fun kb kb' => fst kb' = fst kb /\ Forall2 (fun i i' => i' = end_of i \/ calls_void void_rest l end_of f i i') (snd kb) (snd kb')) (f_blocks f) (f_blocks f').
Definition no_result (i : inst) : inst := match i_code i with Ret => mkInst (i_reg i) Ret "void" [] | _ => i end.
(** [g'] is [g] but for such calls; only those in [l] may have another name. *)
Definition still (void_rest : string -> string) (l : list (string * string)) (g g' : gfun) : Prop :=
  g_id g' = g_id g /\ g_type g' = g_type g /\ g_asm g' = g_asm g /\ (~ In (g_id g) (map fst l) -> g_name g' = g_name g) /\
  both (voids void_rest l (fun i => i)) (g_body g) (g_body g').
(** [b] is [g] without a result. *)
Definition without_result (void_rest : string -> string) (l : list (string * string)) (g b : gfun) : Prop :=
  g_type b = mkType "void" (t_params (g_type g)) (t_variadic (g_type g)) /\ g_asm b = g_asm g /\
  both (voids void_rest l no_result) (g_body g) (g_body b).
(** [id] is a function of the module with a result, which the function of the same name in the other
    module does not have; or it is an abstraction. *)
Definition void_elsewhere (other : gmodule) (called : list string) (g : gfun) : Prop :=
  t_ret (g_type g) <> "void"%string /\ (forall rest, g_name g <> "llvm." ++ rest)%string /\
  ((exists p rest, In p ["simpll__indirect."; "simpll__inlineasm."]%string /\ g_name g = p ++ rest)%string \/
   In (g_id g) called /\ exists o, In o other /\ g_name o = g_name g /\ t_ret (g_type o) = "void"%string).
(** Nothing but the new functions is new: [made] are the new identities.  No value is a pointer to
    one before it is made, nor is there one in memory ([clean]); the new function does what the
    function does if that has no body. *)
Record nothing_new (S : semantics) (consts : const -> V S) (target : V S -> option string) (void_rest : string -> string)
    (fresh : list string -> string -> string) (clean : string -> M S -> Prop) : Prop := mkNothing {
  new_fresh : forall ids id, ~ In (fresh ids id) ids;
  new_undef : target (undef S) = None;
  new_int : forall z, target (consts (CInt z)) = None;
  new_address : forall g, target (consts (CGlobal g)) = Some g;
  new_exec : forall x ids id c rest vs mem v mem', x = fresh ids id -> (forall y, In y vs -> target y <> Some x) -> clean x mem ->
    exec S c rest vs mem = Some (v, mem') -> target v <> Some x /\ clean x mem';
  new_void : forall ids id rest vs mem,
    option_map snd (exec S Call (void_rest rest) (vs ++ [consts (CGlobal (fresh ids id))]) mem) = option_map snd (exec S Call rest (vs ++ [consts (CGlobal id)]) mem) }.
(** The new identities that are referred to are those of functions of the module. *)
Definition no_stray (fresh : list string -> string -> string) (m : gmodule) : Prop :=
  forall ids id g f i, In g m -> g_body g = Some f -> In i (insts f) -> In (VConst (CGlobal (fresh ids id))) (i_ops i) -> In (fresh ids id) (map g_id m).

(** ** Calls that are rewritten *)

Section Named.
  (** The names of functions, and the code of inline assembly. *)
  Variable name_of : string -> option string.
  Variable assembly : string -> option string.
  Definition calls_by_name (n : string) (i : inst) : Prop :=
    i_code i = Call /\ exists ops g, i_ops i = ops ++ [VConst (CGlobal g)] /\ name_of g = Some n.
  Definition calls_code (code : string) (i : inst) : Prop :=
    i_code i = Call /\ exists ops g, i_ops i = ops ++ [VConst (CGlobal g)] /\ name_of g = None /\ assembly g = Some code.
  Definition has_text (s text : string) : Prop := exists a b, s = (a ++ text ++ b)%string.

  Definition printing (i : inst) : Prop := exists n, In n ["_dev_info"; "dev_warn"; "dev_err"; "sprintf"; "printk"]%string /\ calls_by_name n i.
  (** The first argument says where, the second one the number of a line. *)
  Definition warning (i : inst) : Prop :=
    (exists n, In n ["warn_slowpath_null"; "warn_slowpath_fmt"; "__might_sleep"; "__might_fault"; "acpi_ut_predefined_warning"]%string /\ calls_by_name n i) \/
    exists code, calls_code code i /\ has_text code "__bug_table".
  (** The first argument is a counter. *)
  Definition counting (i : inst) : Prop := exists code, calls_code code i /\ (has_text code ".discard.reachable" \/ has_text code ".discard.unreachable").

  (** [v'] is 0 instead of a number. *)
  Definition zeroed (v v' : value) : Prop := match v with VConst (CInt _) => v' = VConst (CInt 0) | _ => v' = v end.
  Definition nulled (pointer : bool) (v v' : value) : Prop := v' = if pointer then VConst (CGlobal "null") else v.
  (** [i'] is [i] with the arguments [l'] instead of [l]. *)
  Definition with_args (i i' : inst) (l l' : list value) : Prop :=
    i_reg i' = i_reg i /\ i_code i' = i_code i /\ i_rest i' = i_rest i /\ exists v, i_ops i = l ++ [v] /\ i_ops i' = l' ++ [v].
  (** What becomes of the arguments of a call that warns; [k] is the place of the first one. *)
  Inductive places (R : nat -> value -> value -> Prop) : nat -> list value -> list value -> Prop :=
  | places_nil k : places R k [] []
  | places_cons k v v' l l' : R k v v' -> places R (S k) l l' -> places R k (v :: l) (v' :: l').
  Definition simplified (is_pointer : inst -> nat -> bool) (i i' : inst) : Prop :=
    (printing i -> exists l, with_args i i' l [VConst (CGlobal "null"); VConst (CGlobal "null")]) /\
    (warning i -> ~ printing i -> exists l l', with_args i i' l l' /\
       places (fun k v v' => match k with O => (counting i -> exists w, nulled (is_pointer i 0) v w /\ zeroed w v') /\ (~ counting i -> nulled (is_pointer i 0) v v') | 1 => zeroed v v' | _ => v' = v end) 0 l l') /\
    (counting i -> ~ warning i -> exists l l', with_args i i' l l' /\ places (fun k v v' => match k with O => zeroed v v' | _ => v' = v end) 0 l l') /\
    (~ printing i -> ~ warning i -> ~ counting i -> i' = i).
  (** What such calls do is not up to those arguments; [w] is the called function. *)
  Definition called_by (S : semantics) (cs : const -> V S) (i : inst) (w : V S) : Prop := exists ops g, i_ops i = ops ++ [VConst (CGlobal g)] /\ w = cs (CGlobal g).
  Definition no_matter (S : semantics) (cs : const -> V S) (f : func) : Prop :=
    (forall i vs vs' w mem, In i (insts f) -> called_by S cs i w -> printing i -> exec S Call (i_rest i) (vs ++ [w]) mem = exec S Call (i_rest i) (vs' ++ [w]) mem) /\
    (forall i a a' b b' vs w mem, In i (insts f) -> called_by S cs i w -> warning i -> exec S Call (i_rest i) (a :: b :: vs ++ [w]) mem = exec S Call (i_rest i) (a' :: b' :: vs ++ [w]) mem) /\
    (forall i a a' vs w mem, In i (insts f) -> called_by S cs i w -> counting i \/ warning i -> exec S Call (i_rest i) (a :: vs ++ [w]) mem = exec S Call (i_rest i) (a' :: vs ++ [w]) mem).

  (** Copying memory by the function and by the intrinsic is the same. *)
  Definition same_copy (S : semantics) (cs : const -> V S) (f : func) (memcpy : string) : Prop :=
    forall i ops g a b c mem, In i (insts f) -> calls_by_name "__memcpy" i -> i_ops i = ops ++ [VConst (CGlobal g)] ->
      option_map snd (exec S Call "" [a; b; c; cs (CInt 0); cs (CGlobal memcpy)] mem) = option_map snd (exec S Call (i_rest i) [a; b; c; cs (CGlobal g)] mem).
  Definition lives (i : inst) : Prop := exists n, calls_by_name n i /\ (has_text n "llvm.lifetime.start" \/ has_text n "llvm.lifetime.end").
End Named.

(** ** Assertions at compile time *)

Definition asserting (g : gfun) : Prop := has_text (g_name g) "__compiletime_assert".
(** [o] is the function with that very name, or else the first one with it in its name. *)
Definition the_assert (m : gmodule) (o : gfun) : Prop :=
  In o m /\ g_name o = "__compiletime_assert"%string \/
  (forall g, In g m -> g_name g <> "__compiletime_assert"%string) /\ exists m1 m2, m = m1 ++ o :: m2 /\ asserting o /\ forall g, In g m1 -> ~ asserting g.
