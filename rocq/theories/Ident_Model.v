(** * Names shown for the arguments of assembly code (diffkemp/simpll/Utils.cpp:458-611 getIdentifierForType, getIdentifierForValue) *)
From Coq Require Import String Ascii ZArith Arith Bool List.
From Verif Require Import PyBase Source_Model Reason_Model.
Import ListNotations.
Open Scope list_scope.

(** Types.  A structure has its name and the names of its fields ([StructFieldNames]); [None] if the debug info has none. *)
Inductive itype := Structure (name : string) (fields : list (option string)) | Integer (bits : nat) | Array (elem : itype) | Void | Pointer | Unknown_type.
(** Values.  Constant expressions are the same as the instructions they are converted to (Utils.cpp:532-535).  [Number z text]: a constant
    number; [Plain printed]: any value without a name, with the text LLVM prints for it. *)
Inductive value :=
| Gep_of (base : value) (from : itype) (indices : list value)
| Cast_to (t : itype) (v : value)
| Zext (v : value)
| Load_of (v : value)
| Named (name : string)
| Number (n : nat) (text : string)
| Constant_of (text : string)
| Plain (printed : string).
(** The function: how many arguments it has, and the local variables of its debug info ([Some None]: another node; [None]: no debug info) *)
Record parent := mkParent { arguments : nat; retained : option (list (option string)) }.

(** Utils.cpp:459-482 getIdentifierForType; substr with a position behind the end throws ([None]). *)
Definition substr (pos : nat) (s : string) : option string := if String.length s <? pos then None else Some (drop pos s).
Fixpoint type_name (t : itype) : option string :=
  match t with
  | Structure n _ =>
    if startswith n "union" then option_map (append "union ") (substr 6 n)
    else if startswith n "struct" then option_map (append "struct ") (substr 7 n)
    else Some "<unknown>"%string
  | Integer b => Some (if Nat.eqb b 1 then "bool" else ("int" ++ decimal b ++ "_t")%string)%string
  | Array e => option_map (fun s => (s ++ "[]")%string) (type_name e)
  | Void => Some "void"%string
  | Pointer => Some "void*"%string
  | Unknown_type => Some "<unknown>"%string
  end.
(** Utils.cpp:521-522, 547: name.substr(2, name.size() - 3); for two bytes the length wraps, less than two throw *)
Definition unwrap (s : string) : option string :=
  if String.length s <? 2 then None else Some (substring 2 (String.length s - 3) s).
(** Utils.cpp:575-581: the number read behind the last percent sign.  Simplified: no sign before it, and it does not overflow. *)
Fixpoint skip_space (s : string) : string :=
  match s with String c r => if Ascii.eqb c " " then skip_space r else s | EmptyString => s end.
Fixpoint read_digits (acc : option nat) (s : string) : option nat :=
  match s with
  | String c r => if is_digit c then read_digits (Some (10 * match acc with Some n => n | None => 0 end + (nat_of_ascii c - 48))) r else acc
  | EmptyString => acc
  end.
Definition register (printed : string) : option nat :=
  read_digits None (skip_space (match last_index (Ascii.eqb "%") printed with Some n => drop (S n) printed | None => printed end)).
(** Utils.cpp:560-609 *)
Definition unnamed (p : option parent) (printed : string) : option string :=
  match p with
  | None => Some "<unknown>"%string
  | Some f =>
    match register printed with
    | None => Some "<unknown>"%string
    | Some r =>
      if arguments f <=? r then Some "<unknown>"%string
      else match retained f with
           | None => None
           | Some nodes => Some (match nth_error nodes r with Some (Some n) => n | _ => "<unknown>"%string end)
           end
    end
  end.
(** Utils.cpp:485-611 getIdentifierForValue; [None]: an exception or a null pointer that is followed *)
Fixpoint ident (p : option parent) (v : value) : option string :=
  match v with
  | Gep_of base from indices =>
    (* Utils.cpp:496-530.  The list of indices passed to getIndexedType stays empty, so the type is always the one the GEP starts from. *)
    match ident p base with None => None | Some s =>
    (fix loop (first : bool) (is : list value) (name : string) : option string :=
       match is with
       | [] => Some name
       | i :: is' =>
         if (match i with Number 0 _ => true | _ => false end) && first then loop false is' name
         else
           match from with
           | Structure _ fields =>
             match i with
             | Number k _ =>
               let field := match nth_error fields k with Some (Some f) => f | _ => decimal k end in
               loop false is' ("&(" ++ name ++ "->" ++ field ++ ")")%string
             | _ => None
             end
           | _ =>
             match ident p i, unwrap name with
             | Some idx, Some name' => loop false is' ("&(" ++ name' ++ "[" ++ (if String.eqb idx "" then "<unknown>" else idx) ++ "]" ++ ")")%string
             | _, _ => None
             end
           end
       end) true indices s end
  | Cast_to t v' => match type_name t, ident p v' with Some n, Some s => Some ("((" ++ n ++ ") " ++ s ++ ")")%string | _, _ => None end
  | Zext v' => ident p v'
  | Load_of v' =>
    match ident p v' with
    | Some s => match s with String "&" _ => unwrap s | _ => Some ("*(" ++ s ++ ")")%string end
    | None => None
    end
  | Named n => Some n
  | Number _ text => Some text
  | Constant_of text => Some text
  | Plain printed => unnamed p printed
  end.
