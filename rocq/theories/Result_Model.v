(** * Model of diffkemp/semdiff/result.py *)
From Coq Require Import String Ascii ZArith DecimalString Arith Bool Lia List.
From Verif Require Import PyBase.
Import ListNotations.
Open Scope list_scope.

(** result.py:12-23 [Result.Kind] (an IntEnum). *)
Inductive kind : Type :=
| NONE | EQUAL | ASSUMED_EQUAL | NOT_EQUAL | UNKNOWN | TIMEOUT | ERROR.

(** result.py:17-23 the integer values. *)
Definition kind_int (k : kind) : nat :=
  match k with
  | NONE => 0 | EQUAL => 1 | ASSUMED_EQUAL => 2 | NOT_EQUAL => 3
  | UNKNOWN => 4 | TIMEOUT => 5 | ERROR => 6
  end.

(** [Result.Kind(n)] (result.py:165): the enum constructor, ValueError outside 0..6. *)
Definition kind_of_int (n : nat) : res kind :=
  match n with
  | 0 => Ok NONE | 1 => Ok EQUAL | 2 => Ok ASSUMED_EQUAL | 3 => Ok NOT_EQUAL
  | 4 => Ok UNKNOWN | 5 => Ok TIMEOUT | 6 => Ok ERROR
  | _ => Err ValueError
  end.

Definition kind_eqb (a b : kind) : bool := Nat.eqb (kind_int a) (kind_int b).

Lemma kind_eqb_spec a b : reflect (a = b) (kind_eqb a b).
Proof. destruct a, b; simpl; constructor; congruence. Qed.
#[export] Instance EqB_kind : EqB kind := {| eqb := kind_eqb; eqb_spec := kind_eqb_spec |}.

Local Open Scope string_scope.

(** result.py:25-36 [Kind.from_string] (a dict lookup: KeyError on other strings). *)
Definition kind_from_string (s : string) : res kind :=
  match dget [("none", NONE); ("equal", EQUAL); ("assumed-equal", ASSUMED_EQUAL);
              ("not-equal", NOT_EQUAL); ("unknown", UNKNOWN); ("timeout", TIMEOUT);
              ("error", ERROR)] s with
  | Some k => Ok k
  | None => Err KeyError
  end.

(** Names of the enum members (result.py:17-23). *)
Definition kind_name (k : kind) : string :=
  match k with
  | NONE => "NONE" | EQUAL => "EQUAL" | ASSUMED_EQUAL => "ASSUMED_EQUAL"
  | NOT_EQUAL => "NOT_EQUAL" | UNKNOWN => "UNKNOWN" | TIMEOUT => "TIMEOUT" | ERROR => "ERROR"
  end.

(** [str.lower] on one ASCII character. *)
Definition lower_char (c : ascii) : ascii :=
  let n := nat_of_ascii c in
  if (65 <=? n)%nat && (n <=? 90)%nat then ascii_of_nat (n + 32) else c.
Fixpoint lower (s : string) : string :=
  match s with EmptyString => EmptyString | String c s' => String (lower_char c) (lower s') end.

(** result.py:38-39 [Kind.__str__]. *)
Definition kind_str (k : kind) : string := replace_char "_" " " (lower (kind_name k)).

(** Decimal rendering of an integer, as done by [str.format]. *)
Definition str_of_Z (z : Z) : string := NilZero.string_of_int (Z.to_int z).

(** result.py:41-48 one entry of [Callstack.calls]. *)
Record call := mkCall { c_name : string; c_file : string; c_line : Z }.

(** [Callstack] is its list of calls (the code constructs it from lists only; the
    [calls is None] branches at 77 and 120 are unreachable from its constructors). *)
Definition callstack := list call.

(** result.py:50-51 [Callstack.__add__] *)
Definition callstack_add (a b : callstack) : callstack := (a ++ b)%list.

(** result.py:118-125 [Callstack.__str__] *)
Definition callstack_str (cs : callstack) : string :=
  join (String "010" "")
       (map (fun c => c_name c ++ " at " ++ c_file c ++ ":" ++ str_of_Z (c_line c)) cs).

(** result.py:69-72 [Callstack.as_str_with_rel_paths] *)
Definition callstack_rel_str (prefix : string) (cs : callstack) : string :=
  replace prefix "" (callstack_str cs).

(** result.py:74-82 [Callstack.to_output_yaml_with_rel_path] *)
Definition callstack_rel_yaml (prefix : string) (cs : callstack) : list call :=
  map (fun c => mkCall (c_name c) (replace prefix "" (c_file c)) (c_line c)) cs.

(** result.py:84-116 [Callstack.get_symbol_names]: function, macro and type names.
    [name, kind = name.split(" ")] raises ValueError unless there are two parts.
    [prev] is the name of the previous call, or [compared_fun] at index 0. *)
Record symbol_names := mkSym {
  s_funs : list string; s_macros : list string; s_types : list (string * string) }.

Definition add_symbol (acc : symbol_names) (prev : string) (name kindname : string) : symbol_names :=
  if String.eqb kindname "function"
  then mkSym (set_add name (s_funs acc)) (s_macros acc) (s_types acc)
  else if String.eqb kindname "(macro)"
  then mkSym (s_funs acc) (set_add name (s_macros acc)) (s_types acc)
  else if String.eqb kindname "(type)"
  then mkSym (s_funs acc) (s_macros acc) (set_add (name, prev) (s_types acc))
  else acc.

Fixpoint get_symbol_names_from (prev : string) (cs : callstack) (acc : symbol_names)
  : res symbol_names :=
  match cs with
  | [] => Ok acc
  | c :: cs' =>
      if has_char " " (c_name c) then
        match split_char " " (c_name c) with
        | [n; k] => get_symbol_names_from (c_name c) cs' (add_symbol acc prev n k)
        | _ => Err ValueError
        end
      else get_symbol_names_from (c_name c) cs' (add_symbol acc prev (c_name c) "function")
  end.
Definition get_symbol_names (compared_fun : string) (cs : callstack) : res symbol_names :=
  get_symbol_names_from compared_fun cs (mkSym [] [] []).

(** result.py:127-140 [Entity]; [diff_kind] is one of the three strings used. *)
Inductive diff_kind := DFunction | DType | DSyntactic.
Record entity := mkEntity {
  en_name : string; en_file : option string; en_line : option Z;
  en_callstack : option callstack; en_kind : diff_kind; en_covered : bool }.
Definition plain_entity (name : string) : entity := mkEntity name None None None DFunction false.

(** result.py:142-152 [Result].  [G] is the type of comparison graphs.  Simplifications:
    start/stop times are not modelled; [macro_diff] is never assigned anywhere in the code
    base and is left out. *)
Inductive result (G : Type) : Type :=
  mkResult (k : kind) (first second : entity) (diff : option string)
           (graph : option G) (inner : list (string * result G)).
Arguments mkResult {G}.

Section ResultOps.
  Context {G : Type}.
  Definition r_kind (r : result G) := let 'mkResult k _ _ _ _ _ := r in k.
  Definition r_first (r : result G) := let 'mkResult _ f _ _ _ _ := r in f.
  Definition r_second (r : result G) := let 'mkResult _ _ s _ _ _ := r in s.
  Definition r_diff (r : result G) := let 'mkResult _ _ _ d _ _ := r in d.
  Definition r_graph (r : result G) := let 'mkResult _ _ _ _ g _ := r in g.
  Definition r_inner (r : result G) : dict string (result G) := let 'mkResult _ _ _ _ _ i := r in i.

  (** result.py:142-152 the constructor *)
  Definition new_result (k : kind) (first second : string) : result G :=
    mkResult k (plain_entity first) (plain_entity second) None None [].

  (** result.py:157-169 [add_inner].  [Result.Kind(max(...))] cannot fail as both
      operands are enum values; the model keeps the call. *)
  Definition add_inner (o i : result G) : res (result G) :=
    match kind_of_int (Nat.max (kind_int (r_kind o)) (kind_int (r_kind i))) with
    | Ok k => Ok (mkResult k (r_first o) (r_second o) (r_diff o) (r_graph i)
                           (dset (r_inner o) (en_name (r_first i)) i))
    | Err e => Err e
    end.
  Definition add_inners (o : result G) (is : list (result G)) : res (result G) :=
    fold_res add_inner o is.

  (** result.py:177-188 the counts printed by [report_symbol_stat]. *)
  Record symbol_stat := mkStat {
    st_total : nat; st_eq : nat; st_neq : nat; st_unknown : nat; st_errs : nat;
    st_empty : nat }.
  Definition count {A} (f : A -> bool) (l : list A) : nat := length (filter f l).
  Definition diff_is_empty (r : result G) : bool := opt_eqb (r_diff r) (Some "").
  Definition symbol_stats (r : result G) : symbol_stat :=
    let rs := dvals (r_inner r) in
    mkStat (length (r_inner r))
           (count (fun x => kind_eqb (r_kind x) EQUAL) rs)
           (count (fun x => kind_eqb (r_kind x) NOT_EQUAL) rs)
           (count (fun x => kind_eqb (r_kind x) UNKNOWN) rs)
           (count (fun x => kind_eqb (r_kind x) ERROR || kind_eqb (r_kind x) TIMEOUT) rs)
           (count (fun x => forallb diff_is_empty (dvals (r_inner x)) &&
                            kind_eqb (r_kind x) NOT_EQUAL) rs).

  (** result.py:200-212 names listed with [--show-errors] (before sorting; Python sorts the
      dictionary items, whose keys are distinct, i.e. by name). *)
  Definition listed_unknown (r : result G) : list string :=
    if (0 <? st_unknown (symbol_stats r))%nat then
      map fst (filter (fun p => kind_eqb (r_kind (snd p)) UNKNOWN) (r_inner r)) else [].
  Definition listed_errors (r : result G) : list string :=
    if (0 <? st_errs (symbol_stats r))%nat then
      map fst (filter (fun p => kind_eqb (r_kind (snd p)) ERROR) (r_inner r)) else [].

  (** result.py:222-240 the set of unique differences of [report_object_stat]: the first
      occurrence of a name stays in the set ([set.add] keeps the old element). *)
  Definition add_unique (acc : dict string (result G)) (r : result G) : dict string (result G) :=
    if diff_is_empty r && en_covered (r_first r) then acc
    else if dmem acc (en_name (r_first r)) then acc else (acc ++ [(en_name (r_first r), r)])%list.
  Definition unique_diffs (r : result G) : dict string (result G) :=
    fold_left (fun acc o => fold_left add_unique (dvals (r_inner o)) acc) (dvals (r_inner r)) [].

  Definition is_asm (r : result G) : bool := startswith (en_name (r_first r)) "assembly code".
  Definition dk_eqb (a b : diff_kind) : bool :=
    match a, b with
    | DFunction, DFunction | DType, DType | DSyntactic, DSyntactic => true
    | _, _ => false
    end.

  (** result.py:254-265 counts of [report_object_stat]. *)
  Record object_stat := mkObj {
    os_total : nat; os_funs : nat; os_types : nat; os_macros : nat; os_asm : nat; os_empty : nat }.
  Definition object_stats (r : result G) : object_stat :=
    let u := dvals (unique_diffs r) in
    mkObj (length u)
          (count (fun x => dk_eqb (en_kind (r_first x)) DFunction) u)
          (count (fun x => dk_eqb (en_kind (r_first x)) DType) u)
          (count (fun x => dk_eqb (en_kind (r_first x)) DSyntactic && negb (is_asm x)) u)
          (count (fun x => dk_eqb (en_kind (r_first x)) DSyntactic && is_asm x) u)
          (count diff_is_empty u).
End ResultOps.
Arguments mkStat : clear implicits.
