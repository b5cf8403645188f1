(** * Accesses to fields, and what is to be recorded as the reason of a difference *)
From Coq Require Import String Ascii ZArith Arith Bool List.
From Verif Require Import PyBase Source_Spec Reason_Model.
Import ListNotations.
Open Scope list_scope.

(** ** Accesses *)
(** A GEP that is reached from an operand through GEPs and casts *)
Inductive Leads (f : func) : operand -> inst -> Prop :=
| Leads_here r i t : find_inst f r = Some i -> i_kind i = Gep t -> Leads f (Reg r) i
| Leads_gep r i t g : find_inst f r = Some i -> i_kind i = Gep t -> Leads f (i_op i) g -> Leads f (Reg r) g
| Leads_cast r i b g : find_inst f r = Some i -> i_kind i = Cast b -> Leads f (i_op i) g -> Leads f (Reg r) g.
(** It starts the access if no other is reached from it. *)
Definition Starts (f : func) (o : operand) (g : inst) : Prop := Leads f o g /\ forall h, ~ Leads f (i_op g) h.
(** No instruction uses itself through others. *)
Definition Ordered (f : func) (rank : nat -> nat) : Prop := forall r i s, find_inst f r = Some i -> i_op i = Reg s -> rank s < rank r.
(** The instruction continues the access to the result of another one: a GEP, or a cast but to numbers. *)
Definition Continues (j : inst) (r : nat) : Prop := ((exists t, i_kind j = Gep t) \/ i_kind j = Cast false) /\ i_op j = Reg r.
Inductive Part_of (f : func) (g : inst) : inst -> Prop :=
| Part_self : Part_of f g g
| Part_next i j : Part_of f g i -> In j (concat (f_blocks f)) -> Continues j (i_id i) -> Part_of f g j.
(** The type a GEP starts from, or that of a constant GEP in it *)
Definition From_type (i : inst) (t : ty) : Prop := i_kind i = Gep t \/ exists s, i_kind i = Gep s /\ i_op i = Const_gep t.
(** An instruction of a list that belongs to the access to a result, with all between in the list and in this order *)
Inductive Ahead (r : nat) : list inst -> inst -> Prop :=
| Ahead_here i l : Continues i r -> Ahead r (i :: l) i
| Ahead_on i l j : Continues i r -> Ahead (i_id i) l j -> Ahead r (i :: l) j
| Ahead_skip i l j : Ahead r l j -> Ahead r (i :: l) j.
(** No result is continued twice. *)
Definition Unbranched (l : list inst) : Prop := forall a i b j c r, l = a ++ i :: b ++ j :: c -> Continues i r -> ~ Continues j r.
(** The instruction before another one in a block *)
Definition Before (f : func) (p i : inst) : Prop := exists a b, In (a ++ p :: i :: b) (f_blocks f).
(** Where an access is looked for: at the instruction, or at the one before if there is none *)
Definition Access_at (f : func) (i g : inst) : Prop :=
  Starts f (Reg (i_id i)) g \/ ((forall h, ~ Leads f (Reg (i_id i)) h) /\ exists p, Before f p i /\ Starts f (Reg (i_id p)) g).

(** ** Names *)
(** Names are the same but for a number or .void at the end ([base_of], as for C49). *)
Definition Same_name (n m : string) : Prop := exists b, base_of n b /\ base_of m b.
(** The name of a structure without struct. before it *)
Definition Short (n name : string) : Prop := n = ("struct." ++ name)%string \/ (name = n /\ forall a, n <> ("struct." ++ a)%string).
Definition File (dir file path : string) : Prop :=
  ((exists b, file = (dir ++ b)%string) /\ path = file) \/ ((forall b, file <> (dir ++ b)%string) /\ path = (dir ++ "/" ++ file)%string).

(** What is recorded for two types: they are structures of the same name that differ, with debug info in both modules.  The structures
    are found by the name of the first; the line is the one before that of the debug info. *)
Definition Recorded (differ : ty -> ty -> bool) (info_l info_r : dict string (string * string * Z)) (fl fr : func) (tl tr : ty) (o : object) : Prop :=
  exists n idl m idr name dl pl ll dr pr lr sl al sr ar path_l path_r,
    tl = Struct (Some n) idl /\ tr = Struct (Some m) idr /\ Same_name n m /\ differ tl tr = true /\ Short n name /\
    dget info_l name = Some (dl, pl, ll) /\ dget info_r name = Some (dr, pr, lr) /\ f_debug fl = Some (sl, al) /\ f_debug fr = Some (sr, ar) /\
    File dl pl path_l /\ File dr pr path_r /\
    o = Type_differs name (f_name fl) path_l path_r (ll - 1) (lr - 1) [((name ++ " (type)")%string, sl, al)] [((name ++ " (type)")%string, sr, ar)].

(** ** Calls *)
Definition Calls (i : inst) (name : string) : Prop := exists asm args, i_kind i = Call (Some name) asm args.
(** A call of a function that is not known *)
Definition Unknown (i : inst) : Prop := exists asm args, i_kind i = Call None asm args.
(** The function called by the first is a macro in the line of the second only. *)
Definition Macro_in (i j : inst) (name : string) : Prop := Calls i name /\ ~ In name (i_macros i) /\ In name (i_macros j).
Definition Same_lines (l r : inst) : Prop := i_text l <> ""%string /\ i_text l = i_text r.
Definition body : string := "[macro function difference]".
(** What is recorded about a function that became a macro or came from one, and the call that is to be inlined *)
Inductive Macro_reason (fl : func) (l r : inst) (before : inlining) : list object -> inlining -> Prop :=
| Became_macro name : Same_lines l r -> Macro_in l r name ->
    Macro_reason fl l r before [Syntax name (f_name fl) body body [(name, i_file l, i_line l)] [((name ++ " (macro)")%string, i_file r, i_line r)]] (Some (Some (i_id l), None))
| Was_macro name : Same_lines l r -> (forall m, ~ Macro_in l r m) -> Macro_in r l name ->
    Macro_reason fl l r before [Syntax name (f_name fl) body body [((name ++ " (macro)")%string, i_file l, i_line l)] [(name, i_file r, i_line r)]] (Some (None, Some (i_id r)))
| No_macro : ~ (Same_lines l r /\ exists m, Macro_in l r m \/ Macro_in r l m) -> Macro_reason fl l r before [] before.
(** Calls of assembly code *)
Definition Asm (i : inst) (text : string) (args : list string) : Prop := exists n, i_kind i = Call (Some ("simpll__inlineasm." ++ n)%string) text args.
(** Arguments in a list; names that are empty are not shown at its start. *)
Inductive Listed : list string -> string -> Prop :=
| Listed_none : Listed [] ""
| Listed_first l a : Listed l "" -> Listed (l ++ [a]) a
| Listed_more l a s : s <> ""%string -> Listed l s -> Listed (l ++ [a]) (s ++ ", " ++ a).
(** The number of a text of digits, read from the left *)
Definition digit (a : ascii) : nat := nat_of_ascii a - 48.
Inductive Number : string -> nat -> Prop :=
| Number_none : Number "" 0
| Number_digit s n a : Number s n -> 48 <= nat_of_ascii a <= 57 -> Number (s ++ String a "") (10 * n + digit a).
Definition Asm_differs (l r : inst) : Prop := exists tl al tr ar, Asm l tl al /\ Asm r tr ar /\ tl <> tr.
Definition generated (f : func) (stack : list (string * string * Z)) : Prop := exists file line, f_debug f = Some (file, line) /\ stack = [("(generated assembly code)"%string, file, line)].
Definition Asm_reason (fl fr : func) (l r : inst) (number : nat) (o : object) : Prop :=
  exists tl al tr ar nl nr digits sl sr, Asm l tl al /\ Asm r tr ar /\ tl <> tr /\ Listed al nl /\ Listed ar nr /\ Number digits number /\ generated fl sl /\ generated fr sr /\
    o = Syntax ("assembly code " ++ digits) (f_name fl) (tl ++ " (args: " ++ nl ++ ")") (tr ++ " (args: " ++ nr ++ ")") sl sr.
(** Calls of functions (but indirect calls and assembly code, which are called through generated functions) are to be inlined. *)
Definition Generated_name (n : string) : Prop := (exists a, n = ("simpll__indirect." ++ a)%string) \/ exists a, n = ("simpll__inlineasm." ++ a)%string.
Definition Proposed (l r : inst) (now before : inlining) : Prop :=
  ((exists n m, Calls l n /\ Calls r m /\ ~ Generated_name n /\ ~ Generated_name m) -> before = Some (Some (i_id l), Some (i_id r))) /\
  (~ (exists n m, Calls l n /\ Calls r m /\ ~ Generated_name n /\ ~ Generated_name m) -> before = now).
Definition Name_of (o : object) (n : string) : Prop := match o with Syntax m _ _ _ _ _ => n = m | Type_differs m _ _ _ _ _ _ _ => n = m end.
Definition In_function (o : object) (n : string) : Prop := match o with Syntax _ f _ _ _ _ => n = f | Type_differs _ f _ _ _ _ _ _ => n = f end.
(** What the comparison of other instructions, also of other functions, makes of a state; what was recorded for one pair of functions is
    not kept for the next. *)
Inductive Later : state -> state -> Prop :=
| Later_same s : Later s s
| Later_step n differ info_l info_r print_asm fl fr l r macros s s1 s2 :
    find_difference n differ info_l info_r print_asm fl fr l r macros s = Some s1 -> Later s1 s2 -> Later s s2
| Later_pair s objects s2 : Later (mkState objects (inline s) (counter s)) s2 -> Later s s2.
