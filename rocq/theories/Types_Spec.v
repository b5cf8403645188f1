(** * What it means that two types, or two constants, are equal *)
From Coq Require Import String Ascii ZArith Arith Bool List.
From Verif Require Import PyBase Types_Model.
Import ListNotations.
Open Scope list_scope.
Open Scope Z_scope.

(** ** Types *)
Section Types.
  Variables p_structs p_casts : bool.        (* the patterns StructAlignment and TypeCasts are on *)
  Variable pointer_bits : Z.
  Variables size_l size_r : ty -> Z.

  Definition structure (t : ty) : Prop := exists name packed elems, t = TStruct name packed elems.
  (** A structure whose name begins with "union". *)
  Definition union (t : ty) : Prop := exists rest packed elems, t = TStruct ("union" ++ rest)%string packed elems.

  (** Structure by structure the same, but for the names of structures, and a pointer may be an
      integer.  With StructAlignment a union is equal to all that is not larger, with TypeCasts the
      widths of integers (but for i1) and the lengths of arrays do not matter. *)
  Inductive alike : ty -> ty -> Prop :=
  | alike_int n : alike (TInt n) (TInt n)
  | alike_ptr s : alike (TPtr s) (TPtr s)
  | alike_address_l : alike (TPtr 0) (TInt pointer_bits)
  | alike_address_r : alike (TInt pointer_bits) (TPtr 0)
  | alike_prim k : alike (TPrim k) (TPrim k)
  | alike_struct n m p xs ys : Forall2 alike xs ys -> alike (TStruct n p xs) (TStruct m p ys)
  | alike_func v x y xs ys : alike x y -> Forall2 alike xs ys -> alike (TFunc v x xs) (TFunc v y ys)
  | alike_array n x y : alike x y -> alike (TArray n x) (TArray n y)
  | alike_vector s n x y : alike x y -> alike (TVector s n x) (TVector s n y)
  | alike_widths a b : p_casts = true -> a <> 1 -> b <> 1 -> alike (TInt a) (TInt b)
  | alike_lengths a b x y : p_casts = true -> alike x y -> alike (TArray a x) (TArray b y)
  | alike_union_l u t : p_structs = true -> union u -> size_r t <= size_l u -> alike u t
  | alike_union_r u t : p_structs = true -> ~ structure t -> union u -> size_l t <= size_r u -> alike t u.
End Types.

(** What is told of a type by its structure alone: sizes, alignments, offsets of fields, ...; the
    names of structures do not matter to it, and pointers are as the integers of their width. *)
Record structural {A : Type} (w : Z) (f : ty -> A) : Prop := {
  of_ptr : f (TPtr 0) = f (TInt w);
  of_struct : forall n m p xs ys, map f xs = map f ys -> f (TStruct n p xs) = f (TStruct m p ys);
  of_func : forall v x y xs ys, f x = f y -> map f xs = map f ys -> f (TFunc v x xs) = f (TFunc v y ys);
  of_array : forall n x y, f x = f y -> f (TArray n x) = f (TArray n y);
  of_vector : forall s n x y, f x = f y -> f (TVector s n x) = f (TVector s n y) }.

(** ** Constants *)
Section Constants.
  Variable p_casts : bool.
  Variables same_type : ty -> ty -> Prop.
  Variables gl gr : dict string global.
  Variable same_named : string -> string -> bool.
  Variable vector_bits : ty -> Z.
  Variable is_cast : string -> bool.

  (** All bits of the constant are zero by what it is. *)
  Inductive null : constant -> Prop :=
  | null_int b : null (KInt b 0) | null_fp k : null (KFp k 0) | null_zero t : null (KZero t).
  Inductive has_type : constant -> ty -> Prop :=
  | type_int b v : has_type (KInt b v) (TInt b) | type_fp k v : has_type (KFp k v) (TPrim k)
  | type_zero t : has_type (KZero t) t | type_undef t : has_type (KUndef t) t | type_poison t : has_type (KPoison t) t
  | type_data t bs : has_type (KData t bs) t | type_agg t xs : has_type (KAgg t xs) t
  | type_expr o t xs : has_type (KExpr o t xs) t | type_global g : has_type (KGlobal g) (TPtr 0).
  Definition vector (t : ty) : Prop := exists s n x, t = TVector s n x.
  Inductive kind := Arrays | Vectors | Others.
  Inductive of_kind : ty -> kind -> Prop :=
  | kind_array n x : of_kind (TArray n x) Arrays
  | kind_vector s n x : of_kind (TVector s n x) Vectors
  | kind_other t : (forall n x, t <> TArray n x) -> ~ vector t -> of_kind t Others.
  Definition same_kind (t u : ty) : Prop := exists k, of_kind t k /\ of_kind u k.
  (** Equal types, or vectors of as many bits (more than none). *)
  Definition fitting (t u : ty) : Prop :=
    same_type t u \/ vector t /\ vector u /\ vector_bits t = vector_bits u /\ vector_bits t <> 0.
  Definition fit (l r : constant) : Prop := exists t u, has_type l t /\ has_type r u /\ fitting t u.
  (** The constant is a conversion of another. *)
  Definition converts (c x : constant) : Prop := exists o t xs, c = KExpr o t (x :: xs) /\ is_cast o = true.
  Definition no_cast (c : constant) : Prop := forall x, ~ converts c x.

  (** Constants are equal, given which global variables and functions are ([G]). *)
  Section Like.
    Variable G : string -> string -> Prop.
    Inductive like : constant -> constant -> Prop :=
    | like_null l r t u : null l -> null r -> has_type l t -> has_type r u -> same_type t u -> like l r
    | like_int a x b y : (a = b \/ p_casts = true) -> x = y -> x <> 0 -> same_type (TInt a) (TInt b) -> like (KInt a x) (KInt b y)
    | like_fp k x : x <> 0 -> same_type (TPrim k) (TPrim k) -> like (KFp k x) (KFp k x)
    | like_undef t u : same_type t u -> like (KUndef t) (KUndef u)
    | like_poison t u : same_type t u -> like (KPoison t) (KPoison u)
    | like_data t u bs : fitting t u -> same_kind t u -> like (KData t bs) (KData u bs)
    | like_agg t u xs ys : fitting t u -> same_kind t u -> Forall2 like xs ys -> like (KAgg t xs) (KAgg u ys)
    | like_expr o o' t u xs ys : fitting t u -> Forall2 like xs ys -> like (KExpr o t xs) (KExpr o' u ys)
    | like_global a b : same_type (TPtr 0) (TPtr 0) -> G a b -> like (KGlobal a) (KGlobal b)
    | like_casts l r x y : p_casts = true -> converts l x -> converts r y -> like x y -> like l r
    | like_cast_l l r x : p_casts = true -> converts l x -> no_cast r -> like x r -> like l r
    | like_cast_r l r y : p_casts = true -> no_cast l -> converts r y -> like l y -> like l r.
  End Like.

  (** Both are constant variables with these initialisers. *)
  Definition initialised (a b : string) (c d : constant) : Prop :=
    exists x y, dget gl a = Some x /\ dget gr b = Some y /\ g_constant x = true /\ g_constant y = true
                /\ g_init x = Some c /\ g_init y = Some d.
  (** The relation agrees with the modules: related constant variables have initialisers that are
      equal by the relation, others have the same name. *)
  Definition consistent (G : string -> string -> Prop) : Prop :=
    forall a b, G a b ->
      (exists c d, initialised a b c d /\ like G c d) \/ ((forall c d, ~ initialised a b c d) /\ same_named a b = true).
  (** The constants are equal by some relation like that. *)
  Definition equal_constants (l r : constant) : Prop := exists G, consistent G /\ like G l r.
End Constants.

(** ** What is read through constants: the element with a number, or what a pointer points to *)
Inductive way := Element (i : nat) | Deref.
Inductive reads (g : dict string global) : constant -> list way -> constant -> Prop :=
| reads_here c : reads g c [] c
| reads_element t xs i x ws c : nth_error xs i = Some x -> reads g x ws c -> reads g (KAgg t xs) (Element i :: ws) c
| reads_deref a v x ws c : dget g a = Some v -> g_constant v = true -> g_init v = Some x -> reads g x ws c ->
                           reads g (KGlobal a) (Deref :: ws) c.
