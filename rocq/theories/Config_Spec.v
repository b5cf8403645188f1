(** * Specification vocabulary for the configuration *)
From Coq Require Import String Ascii Arith Bool List.
From Verif Require Import PyBase Config_Model.
Import ListNotations.
Open Scope list_scope.

(** The value [b] a user asks for pattern [p] with the options [l], given its default:
    naming it wins over the options for all patterns, disabling wins over enabling. *)
Definition wanted (l : list popt) (p : string) (default b : bool) : Prop :=
  (In (DisablePattern p) l /\ b = false) \/
  (~ In (DisablePattern p) l /\ In (EnablePattern p) l /\ b = true) \/
  (~ In (DisablePattern p) l /\ ~ In (EnablePattern p) l /\
    ((In DisableAll l /\ b = false) \/
     (~ In DisableAll l /\ In EnableAll l /\ b = true) \/
     (~ In DisableAll l /\ ~ In EnableAll l /\ b = default))).

(** The patterns of the documentation with their defaults (docs: type-casts and
    control-flow-only are off by default). *)
Definition default_of (p : string) : bool :=
  negb (String.eqb p "type-casts" || String.eqb p "control-flow-only").

Definition names_of (o : popt) : list string :=
  match o with EnablePattern p | DisablePattern p => [p] | _ => [] end.
Definition about_unused_returns (o : popt) : bool :=
  match o with
  | EnablePattern p | DisablePattern p => String.eqb p "unused-returns"
  | _ => false
  end.

(** The two SimpLL configurations mean the same comparison; the names of the output files
    only matter if LLVM IR is to be written. *)
Definition same_comparison (a b : sconfig) : Prop :=
  s_fun1 a = s_fun1 b /\ s_fun2 a = s_fun2 b /\ s_file1 a = s_file1 b /\ s_file2 a = s_file2 b /\
  s_cache a = s_cache b /\ s_custom a = s_custom b /\ s_patterns a = s_patterns b /\ s_var a = s_var b /\
  s_ir a = s_ir b /\ s_asm a = s_asm b /\ s_stacks a = s_stacks b /\ s_ext a = s_ext b /\ s_verb a = s_verb b.

Definition opt_ascii (x : option string) : Prop := match x with Some s => is_ascii s = true | None => True end.
Definition all_ascii (q : request) : Prop :=
  is_ascii (q_file1 q) = true /\ is_ascii (q_file2 q) = true /\ is_ascii (q_fun1 q) = true /\
  is_ascii (q_fun2 q) = true /\ opt_ascii (q_var q) /\ opt_ascii (q_suffix q) /\ opt_ascii (q_cache q) /\ opt_ascii (q_custom q).
(** Names the command line can transport: files not looking like options, function names
    without a comma. *)
Definition transportable (q : request) : Prop :=
  startswith (q_file1 q) "-" = false /\ startswith (q_file2 q) "-" = false /\
  has_char "," (q_fun1 q) = false /\ has_char "," (q_fun2 q) = false.

(** A usable pattern file. *)
Definition good_pattern (fl : cfiles) (f : string) : Prop :=
  f_readable fl f = true /\ get_extension f = "ll"%string /\ f_valid fl f = true.

(** The file a listed pattern stands for: relative to the pattern directory, if there is one. *)
Inductive pattern_file : option string -> string -> string -> Prop :=
| pf_plain p : pattern_file None p p
| pf_empty p : pattern_file (Some ""%string) p p
| pf_absolute d r : pattern_file (Some d) ("/" ++ r) ("/" ++ r)
| pf_slash d p : (forall r, p <> ("/" ++ r)%string) -> pattern_file (Some (d ++ "/")%string) p (d ++ "/" ++ p)
| pf_inside d p : (forall r, p <> ("/" ++ r)%string) -> d <> ""%string -> (forall e, d <> (e ++ "/")%string) -> pattern_file (Some d) p (d ++ "/" ++ p).
