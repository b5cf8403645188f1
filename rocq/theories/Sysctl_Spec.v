(** * What the sysctl tables are expected to give (C53, C88, C89) *)
From Coq Require Import String Ascii ZArith Arith Bool List.
From Verif Require Import PyBase Source_Spec Sysctl_Model.
Import ListNotations.
Open Scope list_scope.

(** The names a pattern accepts: "*" everything, {a|b|c} its members, any other only itself. *)
Inductive Matches : string -> string -> Prop :=
| Matches_any n : Matches "*" n
| Matches_member l n : Forall (fun w => has_char "|" w = false) l -> In n l ->
    Matches ("{" ++ join "|" l ++ "}") n
| Matches_same n : braces n = false -> Matches n n.

(** A part of a dotted name and what is before it: nothing or a text ended by a dot. *)
Definition prefix_ok (a : string) : Prop := a = ""%string \/ exists b, a = (b ++ ".")%string.
Definition part_ok (p : string) : Prop := p <> ""%string /\ has_char "." p = false.
(** Patterns of this form denote sets of names. *)
Definition special (p : string) : Prop := p = "*"%string \/ braces p = true.
Definition pattern_ok (a p : string) : Prop :=
  prefix_ok a /\ part_ok p /\ (special p -> ~ within p a).

(** Natural numbers in decimal. *)
Inductive Numeral : string -> nat -> Prop :=
| Numeral_digit c : digit c -> Numeral (String c "") (nat_of_ascii c - 48)
| Numeral_more s n c : Numeral s n -> digit c -> Numeral (s ++ String c "") (10 * n + (nat_of_ascii c - 48)).
(** The constant a table is: a global variable, or a part of one: "variable.index.index". *)
Inductive Table (m : globals) : string -> const -> Prop :=
| Table_root g c : part_ok g -> dget m g = Some (Some c) -> Table m g c
| Table_part t c i n c' : Table m t c -> Numeral i n -> nth_error (operands c) n = Some c' -> Table m (t ++ "." ++ i) c'.

(** Zero bytes at the end of a string are not a part of the name. *)
Inductive zeros : string -> Prop := zeros_nil : zeros "" | zeros_more s : zeros s -> zeros (String zero s).
Definition Trimmed (s n : string) : Prop := exists z, zeros z /\ s = (n ++ z)%string /\ forall a, n <> (a ++ String zero "")%string.
(** The constant an entry names itself by: from LLVM 15 on the variable itself, before an address
    computed from it. *)
Definition names_by (opaque : bool) (c : const) (g : string) : Prop :=
  exists o ops, c = Aggregate true (o :: ops) /\
    (if opaque then o = GlobalVar g else exists idx, o = Gep (GlobalVar g) idx).
Definition Named (opaque : bool) (m : globals) (c : const) (n : string) : Prop :=
  exists g s, names_by opaque c g /\ dget m g = Some (Some (Text s)) /\ Trimmed s n.
(** The entry names itself by a variable that is not defined in the module. *)
Definition Dangling (opaque : bool) (m : globals) (c : const) : Prop :=
  exists g, names_by opaque c g /\ (dget m g = None \/ dget m g = Some None).

(** The named entries of a table accepted by a test, in order. *)
Inductive Selected (opaque : bool) (m : globals) (P : string -> Prop) : list const -> list (string * const) -> Prop :=
| Selected_nil : Selected opaque m P [] []
| Selected_take c n ops l : Named opaque m c n -> P n -> Selected opaque m P ops l ->
    Selected opaque m P (c :: ops) ((n, c) :: l)
| Selected_skip c ops l : ~ Dangling opaque m c -> (forall n, Named opaque m c n -> ~ P n) -> Selected opaque m P ops l ->
    Selected opaque m P (c :: ops) l.

(** The last of the pairs with a key. *)
Definition LastOf {A} (l : list (string * A)) (k : string) (v : A) : Prop :=
  exists a b, l = a ++ (k, v) :: b /\ forall w, ~ In (k, w) b.
(** The last entry of a table with a name. *)
Definition LastNamed (opaque : bool) (m : globals) (ops : list const) (n : string) (c : const) : Prop :=
  exists a b, ops = a ++ c :: b /\ Named opaque m c n /\ forall d, In d b -> ~ Named opaque m d n.

(** Names of options are parts of dotted names. *)
Definition WellNamed (opaque : bool) (m : globals) (ops : list const) : Prop :=
  forall c n, In c ops -> Named opaque m c n -> part_ok n.

(** The variable and the constant indices an address is made of. *)
Inductive Base : const -> string -> Prop :=
| Base_var g : Base (GlobalVar g) g
| Base_cast g : Base (BitCast (GlobalVar g)) g.
Inductive Address : const -> string -> list Z -> Prop :=
| Address_plain c g : Base c g -> Address c g []
| Address_gep c g l : Base c g -> Address (Gep c (map Number l)) g l.

(** What happens to the map of a table when patterns are looked up one after another. *)
Inductive History (opaque : bool) (m : globals) (t : string) : dict string const -> Prop :=
| History_nil : History opaque m t []
| History_parse a p smap l smap' : History opaque m t smap -> pattern_ok a p ->
    parse_sysctls opaque m t (a ++ p) smap = Some (l, smap') -> History opaque m t smap'
| History_get a p smap r smap' : History opaque m t smap -> pattern_ok a p ->
    get_sysctl opaque m t (a ++ p) smap = Some (r, smap') -> History opaque m t smap'.

(** The table that holds the last of the entries of an option: each entry before it leads to a
    table of its own, held by a variable. *)
Inductive Leads (opaque : bool) (module_for : string -> res globals) : string -> list string -> globals -> string -> Prop :=
| Leads_here t root e m : part_ok root -> (t = root \/ exists i, t = (root ++ "." ++ i)%string) ->
    module_for root = Ok m -> Leads opaque module_for t [e] m t
| Leads_below t root e f rest m c entry o g idx m' t' :
    part_ok root -> (t = root \/ exists i, t = (root ++ "." ++ i)%string) -> part_ok e -> ~ special e ->
    module_for root = Ok m -> Table m t c -> (forall d, In d (operands c) -> ~ Dangling opaque m d) ->
    LastNamed opaque m (operands c) e entry -> nth_error (operands entry) 4 = Some o -> Address o g idx ->
    Leads opaque module_for g (f :: rest) m' t' ->
    Leads opaque module_for t (e :: f :: rest) m' t'.
(** The first table of an option, by its first entries, and the entries left to follow. *)
Inductive Starts : list string -> string -> list string -> Prop :=
| Starts_base e l : In e ["kernel"; "vm"; "fs"; "debug"; "dev"]%string -> Starts (e :: l) "sysctl_base_table" (e :: l)
| Starts_conf a l : Starts ("net" :: "ipv4" :: "conf" :: a :: l)%string "devinet_sysctl.1" l
| Starts_ipv4 e l : e <> "conf"%string -> Starts ("net" :: "ipv4" :: e :: l)%string "ipv4_table" (e :: l)
| Starts_core l : Starts ("net" :: "core" :: l)%string "net_core_table" l.

(** The variables that hold child tables have names without dots. *)
Definition plain_children (module_for : string -> res globals) : Prop :=
  forall root m t c entry o g idx, module_for root = Ok m -> Table m t c -> In entry (operands c) ->
    nth_error (operands entry) 4 = Some o -> Address o g idx -> part_ok g.
