(** * Model of the tables of sysctl options (diffkemp/simpll/library/SysctlTable.cpp,
    diffkemp/llvm_ir/llvm_sysctl_module.py, diffkemp/llvm_ir/kernel_source_tree.py) *)
From Coq Require Import String Ascii ZArith Arith Bool List.
From Verif Require Import PyBase Source_Model.
Import ListNotations.
Open Scope list_scope.
Open Scope nat_scope.
Open Scope string_scope.
Open Scope list_scope.

(** ** Patterns *)

Definition braces (p : string) : bool := startswith p "{" && endswith p "}".
(** llvm_sysctl_module.py:10-16 [matches] *)
Definition py_matches (name pattern : string) : bool :=
  if String.eqb pattern "*" then true
  else if braces pattern then mem name (split_char "|" (inner pattern))
  else String.eqb name pattern.
(** A loop with std::getline: nothing is read after the last delimiter if nothing is there. *)
Definition getlines (c : ascii) (s : string) : list string :=
  match rev (split_char c s) with
  | EmptyString :: l => rev l
  | l => rev l
  end.
(** SysctlTable.cpp:19-37 [matches] *)
Definition cpp_matches (name pattern : string) : bool :=
  if String.eqb pattern "*" then true
  else if braces pattern then mem name (getlines "|" (inner pattern))
  else String.eqb name pattern.

(** ** Tables in LLVM IR *)

(** Constants: structures and arrays with their elements, global variables, functions, constant
    strings, integers (their unsigned values), addresses computed by getelementptr, casts of addresses, others. *)
Inductive const :=
| Aggregate (struct : bool) (ops : list const)
| GlobalVar (name : string)
| Func (name : string)
| Text (s : string)
| Number (n : Z)
| Gep (base : const) (idx : list const)
| BitCast (c : const)
| Other.
(** getOperand, getNumOperands.  Simplification: the initializer of a global variable is no
    operand here. *)
Definition operands (c : const) : list const :=
  match c with Aggregate _ l => l | Gep b i => b :: i | BitCast c => [c] | _ => [] end.
(** The global variables of a module with their initializers ([None]: only declared). *)
Definition globals := dict string (option const).

(** std::stoi; it reads the digits at the start.  Simplification: blanks and signs before them
    are left out (they are an error here). *)
Fixpoint digits (acc : nat) (s : string) : nat :=
  match s with
  | String c r => if is_digit c then digits (10 * acc + (nat_of_ascii c - 48)) r else acc
  | EmptyString => acc
  end.
Definition stoi (s : string) : option nat :=
  match s with String c _ => if is_digit c then Some (digits 0 s) else None | EmptyString => None end.

(** SysctlTable.cpp:63-87: the table; the outer [None] is undefined behaviour or an exception of
    the C++ library (the process ends), the inner one a missing variable. *)
Fixpoint follow (c : const) (idx : list string) : option const :=
  match idx with
  | [] => Some c
  | i :: idx =>
      match stoi i with
      | None => None
      | Some n => match nth_error (operands c) n with Some c => follow c idx | None => None end
      end
  end.
Definition find_table (m : globals) (table : string) : option (option const) :=
  match getlines "." table with
  | [] => None
  | root :: idx =>
      match dget m root with
      | None => Some None
      | Some None => None
      | Some (Some c) => option_map Some (follow c idx)
      end
  end.

Definition zero : ascii := ascii_of_nat 0.
(** rtrim of zero bytes *)
Fixpoint rtrim (s : string) : string :=
  match s with
  | EmptyString => EmptyString
  | String c r => match rtrim r with
                  | EmptyString => if Ascii.eqb c zero then EmptyString else String c EmptyString
                  | t => String c t
                  end
  end.
(** SysctlTable.cpp:91-115: the name of an entry, if it has one; [opaque] is LLVM 15 or newer.
    A variable without initializer is undefined behaviour. *)
Definition entry_name (opaque : bool) (m : globals) (c : const) : option (option string) :=
  match c with
  | Aggregate true (o :: _) =>
      match (if opaque then o else match o with Gep b _ => b | _ => Other end) with
      | GlobalVar g =>
          match dget m g with
          | Some (Some (Text s)) => Some (Some (rtrim s))
          | Some (Some _) => Some None
          | _ => None
          end
      | _ => Some None
      end
  | _ => Some None
  end.
(** SysctlTable.cpp:90-135: the loop over the entries. *)
Fixpoint parse_entries (opaque : bool) (m : globals) (pattern : string) (ops : list const) (smap : dict string const)
  : option (list string * dict string const) :=
  match ops with
  | [] => Some ([], smap)
  | c :: ops =>
      match entry_name opaque m c with
      | None => None
      | Some None => parse_entries opaque m pattern ops smap
      | Some (Some name) =>
          match rev (getlines "." pattern) with
          | [] => None
          | last :: _ =>
              if cpp_matches name last then
                let key := replace_all pattern last name in
                match parse_entries opaque m pattern ops (dset smap key c) with
                | Some (l, smap) => Some (key :: l, smap)
                | None => None
                end
              else parse_entries opaque m pattern ops smap
          end
      end
  end.
(** SysctlTable.cpp:57-138 [parseSysctls] *)
Definition parse_sysctls (opaque : bool) (m : globals) (table pattern : string) (smap : dict string const)
  : option (list string * dict string const) :=
  match find_table m table with
  | None => None
  | Some None => Some ([], smap)
  | Some (Some c) => parse_entries opaque m pattern (operands c) smap
  end.
(** SysctlTable.cpp:41-50 [getSysctl] *)
Definition get_sysctl (opaque : bool) (m : globals) (table name : string) (smap : dict string const)
  : option (option const * dict string const) :=
  match dget smap name with
  | Some c => Some (Some c, smap)
  | None => match parse_sysctls opaque m table name smap with
            | Some (_, smap) => Some (dget smap name, smap)
            | None => None
            end
  end.

(** SysctlTable.cpp:141-186 [getGlobalVariableAtIndex] from the entry on. *)
Fixpoint numbers (l : list const) : option (list Z) :=
  match l with
  | [] => Some []
  | Number n :: l => match numbers l with Some r => Some (n :: r) | None => None end
  | _ => None
  end.
Definition variable_at (sysctl : option const) (index : nat) : option (string * list Z) :=
  match sysctl with
  | None => None
  | Some s =>
      match nth_error (operands s) index with
      | None => None
      | Some data =>
          match (match data with Gep b idx => match numbers idx with Some l => Some (b, l) | None => None end | _ => Some (data, []) end) with
          | None => None
          | Some (data, idx) =>
              match (match data with BitCast c => c | _ => data end) with
              | GlobalVar g => Some (g, idx)
              | _ => None
              end
          end
      end
  end.
(** SysctlTable.cpp:189-207 [getProcFun], [getChild], [getData] from the entry on. *)
Definition proc_fun (sysctl : option const) : option string :=
  match sysctl with
  | Some s => match nth_error (operands s) 5 with Some (Func f) => Some f | _ => None end
  | None => None
  end.
Definition child_of (sysctl : option const) : option (string * list Z) := variable_at sysctl 4.
Definition data_of (sysctl : option const) : option (string * list Z) := variable_at sysctl 1.

(** ** Finding the table of an option *)

(** kernel_source_tree.py:32-51: the first table and the entries to follow. *)
Definition start_table (entries : list string) : res (string * list string) :=
  match entries with
  | [] => Err IndexError
  | e :: _ =>
      if mem e ["kernel"; "vm"; "fs"; "debug"; "dev"]%string then Ok ("sysctl_base_table"%string, entries)
      else if String.eqb e "net" then
        match nth_error entries 1 with
        | None => Err IndexError
        | Some f =>
            if String.eqb f "ipv4" then
              match nth_error entries 2 with
              | None => Err IndexError
              | Some g => if String.eqb g "conf" then Ok ("devinet_sysctl.1"%string, skipn 4 entries)
                          else Ok ("ipv4_table"%string, skipn 2 entries)
              end
            else if String.eqb f "core" then Ok ("net_core_table"%string, skipn 2 entries)
            else Err SourceNotFoundException
        end
      else Err SourceNotFoundException
  end.
(** kernel_source_tree.py:53-63: following the children.  [module_for] is get_module_for_symbol;
    every table has its own object, so its map is empty at first.  [None]: the process ends. *)
Fixpoint walk (opaque : bool) (module_for : string -> res globals) (table : string) (entries : list string) : option (res (globals * string)) :=
  match entries with
  | [] => Some (Err SourceNotFoundException)
  | e :: rest =>
      match module_for (hd ""%string (split_char "." table)) with
      | Err x => Some (Err x)
      | Ok m =>
          match rest with
          | [] => Some (Ok (m, table))
          | _ => match get_sysctl opaque m table e [] with
                 | None => None
                 | Some (s, _) => match child_of s with
                                  | None => Some (Err AttributeError)
                                  | Some (g, _) => walk opaque module_for g rest
                                  end
                 end
          end
      end
  end.
(** kernel_source_tree.py:20-63 [get_sysctl_module] *)
Definition get_sysctl_module (opaque : bool) (module_for : string -> res globals) (sysctl : string) : option (res (globals * string)) :=
  match start_table (split_char "." sysctl) with
  | Err e => Some (Err e)
  | Ok (table, entries) => walk opaque module_for table entries
  end.
