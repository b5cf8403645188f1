(** * Model of the comparison of arguments of calls by their source text
    (diffkemp/simpll/DifferentialFunctionComparator.cpp: cmpCallArgumentUsingCSource, mayIgnoreMacro; diffkemp/simpll/Utils.cpp:
    getCSourceIdentifierType).  What is found as the source text of arguments is that of Source_Model, the structures of a size are those
    of Info_Model. *)
From Coq Require Import String Ascii ZArith Arith Bool List.
From Verif Require Import PyBase Source_Model Info_Model Access_Model.
Import ListNotations.
Open Scope list_scope.

(** Types of debug info: a derived type has a base (none for void); all others are opaque here.  Simplified: the kind of a derived type
    (DW_TAG_pointer_type, DW_TAG_typedef, ...) is of no concern for the code, it is there for the specification. *)
Inductive derived := Pointer | Typedef | Qualified.
Inductive dtype := Derived (kind : derived) (name : string) (base : option dtype) | Opaque (name : string).
(** DIType::getName *)
Definition dname (t : dtype) : string := match t with Derived _ n _ => n | Opaque n => n end.

(** One of the calls: the name of the called function, the text of the assembly if it is an abstraction of one, the source line and the
    bodies of the macros used there, the function it is in, the types of the global variables that can be seen from other modules, those
    of the local variables (named function::variable) and the structures of the module with their sizes *)
Record side := mkSide { s_called : string; s_asm : string; s_line : string; s_bodies : list string; s_fun : string;
                        s_globals : dict string dtype; s_locals : dict string dtype; s_structs : list (string * option Z) }.

(** Utils.cpp:660-718 getCSourceIdentifierType *)
Fixpoint all_ident (s : string) : bool := match s with EmptyString => true | String c r => ident_char c && all_ident r end.
Fixpoint type_of (s : side) (expr : string) : option dtype :=
  match expr with
  | String "*" e => match type_of s e with Some (Derived _ _ b) => b | _ => None end
  | String "&" e => match type_of s e with Some t => Some (Derived Pointer "" (Some t)) | None => None end
  | _ =>
    if all_ident expr
    then match dget (s_globals s) expr with Some t => Some t | None => dget (s_locals s) (s_fun s ++ "::" ++ expr)%string end
    else None
  end.

(** DifferentialFunctionComparator.cpp:36-37, 753-755 *)
Definition may_ignore (macro : string) : bool := mem macro ["__COUNTER__"; "__FILE__"; "__LINE__"; "__DATE__"; "__TIME__"]%string.
(** DifferentialFunctionComparator.cpp:839-858: the arguments in the source, for a call of the given name *)
Definition source_arguments (s : side) (name : string) : option (list string) :=
  if startswith (s_called s) "simpll__inlineasm." then find_asm_arguments (s_asm s) (s_line s) (s_bodies s)
  else Some (find_call_arguments name (s_line s) (s_bodies s)).
(** operator== of the sets of names *)
Definition same_set (a b : list string) : bool := forallb (fun x => mem x b) a && forallb (fun x => mem x a) b.
(** DifferentialFunctionComparator.cpp:875-887 *)
Definition same_sizes (l r : side) (x y : Z) : bool :=
  match dget (struct_sizes (s_structs l)) (as_int x), dget (struct_sizes (s_structs r)) (as_int y) with
  | Some n, Some m => same_set n m
  | _, _ => false
  end.
(** DifferentialFunctionComparator.cpp:890-893; [None] if substr throws an exception *)
Definition inside (arg : string) : option string :=
  match to_matching_bracket arg (Some 6) with
  | Some EmptyString | None => None
  | Some (String _ t) => Some (take (String.length t - 1) t)
  end.
(** DifferentialFunctionComparator.cpp:895-905 *)
Definition same_types (l r : side) (a b : string) : option bool :=
  match inside a, inside b with
  | Some x, Some y =>
    Some (match type_of l x, type_of r y with Some t, Some u => String.eqb (dname t) (dname u) | _, _ => false end)
  | _, _ => None
  end.
(** DifferentialFunctionComparator.cpp:824-909 cmpCallArgumentUsingCSource; [cl] and [cr] are the values if they are constant numbers *)
Definition argument_equal (l r : side) (cl cr : option Z) (i : nat) : option bool :=
  match source_arguments l (s_called l), source_arguments r (s_called l) with
  | Some al, Some ar =>
    match nth_error al i, nth_error ar i with
    | Some a, Some b =>
      if may_ignore a && may_ignore b && String.eqb a b then Some true
      else if startswith a "sizeof" && startswith b "sizeof"
      then match cl, cr with
           | Some x, Some y => if same_sizes l r x y then Some true else same_types l r a b
           | _, _ => Some false
           end
      else Some false
    | _, _ => Some false
    end
  | _, _ => None
  end.
