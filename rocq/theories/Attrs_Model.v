(** * Model of copying the properties of calls and functions (diffkemp/simpll/Utils.cpp) *)
From Coq Require Import String Arith Bool List.
Import ListNotations.
Open Scope list_scope.

(** Where attributes are: of the returned value, of the function, of an argument (from 0). *)
Inductive place := Ret | Fun | Arg (n : nat).
Definition place_eqb (a b : place) : bool :=
  match a, b with Ret, Ret => true | Fun, Fun => true | Arg n, Arg m => n =? m | _, _ => false end.

(** An attribute is its kind and its text (the value, the number of bytes). *)
Record attr := mkAttr { a_kind : string; a_text : string }.
Definition attrs := place -> list attr.
Definition no_attrs : attrs := fun _ => [].

(** Utils.cpp:43-57 [badVoidAttributes] *)
Definition bad_void : list string :=
  ["byval"; "inalloca"; "nest"; "noalias"; "nocapture"; "nonnull"; "readnone"; "readonly"; "signext"; "sret"; "zeroext";
   "dereferenceable"; "dereferenceable_or_null"]%string.

(** removeAttributeAtIndex *)
Definition remove_at (p : place) (k : string) (l : attrs) : attrs :=
  fun q => if place_eqb q p then filter (fun a => negb (String.eqb (a_kind a) k)) (l q) else l q.

(** addAttributesAtIndex: here the new list has no attributes at the place. *)
Definition add_at (p : place) (x : list attr) (l : attrs) : attrs :=
  fun q => if place_eqb q p then l q ++ x else l q.

(** Utils.cpp:304-328 [cleanAttributeList] *)
Definition clean (l : attrs) : attrs :=
  fold_left (fun new p => match l p with [] => new | x => add_at p x new end) [Arg 0; Fun; Ret] no_attrs.

(** Utils.cpp:732-745 and 754-765: removal of the attributes a void call or function cannot have. *)
Definition for_void (l : attrs) : attrs :=
  clean (fold_left (fun l k => remove_at Fun k (remove_at Ret k l)) bad_void l).

(** CallInst::TailCallKind *)
Inductive tail := TailNone | Tail | MustTail | NoTail.
Definition is_tail (t : tail) : bool := match t with Tail | MustTail => true | _ => false end.

(** The properties of a call: [c_void]: its type is void. *)
Record call := mkCall { c_attrs : attrs; c_conv : nat; c_loc : option nat; c_tail : tail; c_void : bool }.

(** Utils.cpp:722-746 [copyCallInstProperties] *)
Definition copy_call (src dest : call) : call :=
  let a := c_attrs src in
  let t := if is_tail (c_tail src) then Tail else c_tail dest in
  mkCall (if negb (c_void src) && c_void dest then for_void a else a) (c_conv src) (c_loc src) t (c_void dest).

(** The properties of a function: [f_ret_void]: it returns void; the type of a function as a value is a pointer type
    (Value::getType).  [f_args]: the names of arguments. *)
Inductive type := TVoid | TPtr | TOther.
Record function := mkFunction { f_attrs : attrs; f_sub : option nat; f_ret_void : bool; f_args : list string }.
Definition get_type (f : function) : type := TPtr.
Definition is_void (t : type) : bool := match t with TVoid => true | _ => false end.

(** takeName for all arguments of the source; [None]: the destination has fewer arguments (undefined behaviour). *)
Fixpoint take_names (src dest : list string) : option (list string) :=
  match src, dest with
  | [], d => Some d
  | s :: r, _ :: d => match take_names r d with Some x => Some (s :: x) | None => None end
  | _ :: _, [] => None
  end.

(** Utils.cpp:749-775 [copyFunctionProperties]: the source (its arguments have no names afterwards) and the destination. *)
Definition copy_function (src dest : function) : option (function * function) :=
  let a := f_attrs src in
  let a' := if negb (is_void (get_type src)) && is_void (get_type dest) then for_void a else a in
  match take_names (f_args src) (f_args dest) with
  | None => None
  | Some names =>
    Some (mkFunction (f_attrs src) (f_sub src) (f_ret_void src) (map (fun _ => ""%string) (f_args src)),
          mkFunction a' (f_sub src) (f_ret_void dest) names)
  end.
