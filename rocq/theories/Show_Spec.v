(** * What the viewer is to show *)
From Coq Require Import String Ascii ZArith Arith Bool List.
From Verif Require Import PyBase Result_Model Output_Model Output_Spec Show_Model.
Import ListNotations.
Open Scope list_scope.

(** ** Ways of the user *)
(** Clicks that are possible one after the other, from one location to another *)
Inductive Way (ix : index) : location -> list click -> location -> Prop :=
| Way_here p : Way ix p [] p
| Way_click p k ks q : possible ix p k = true -> Way ix (follow ix p k) ks q -> Way ix p (k :: ks) q.
(** The page belongs to the report: it shows a difference of it, or the right functions, each once. *)
Definition Lists (l : list string) (P : string -> Prop) : Prop := NoDup l /\ forall x, In x l <-> P x.
Inductive Right_page (ys : list yresult) : location -> page -> Prop :=
| Right_difference c f d : lists_diff ys c f d -> Right_page ys (mkLoc (Some c) (Some f)) (Show_difference c d)
| Right_differing c l : In c (map yr_function ys) -> Lists l (fun f => exists d, lists_diff ys c f d) -> Right_page ys (mkLoc (Some c) None) (List_differing c l)
| Right_compared_of f l : Lists l (fun c => exists d, lists_diff ys c f d) -> Right_page ys (mkLoc None (Some f)) (List_compared_of f l)
| Right_compared l : Lists l (fun c => In c (map yr_function ys)) -> Right_page ys (mkLoc None None) (List_compared l).

(** ** Lists of functions *)
Definition buttons (l : list item) : list string := flat_map (fun i => match i with Button f => [f] | Label _ => [] end) l.
Definition labels (l : list item) : list string := flat_map (fun i => match i with Label t => [t] | Button _ => [] end) l.
(** The functions with one letter follow each other. *)
Definition In_groups (letter : string -> string) (l : list string) : Prop :=
  forall a x b y c, l = a ++ x :: b ++ y :: c -> letter x = letter y -> forall z, In z b -> letter z = letter x.

(** ** Call stacks *)
Definition old_of (r : row) : list string := match r with Pair o _ => [o] | Group l _ => l end.
Definition new_of (r : row) : list string := match r with Pair _ w => [w] | Group _ l => l end.
(** The last calls correspond to no other ones: neither the last old call to a new one that is not the last, nor the
    last new call to an old one that is not the last. *)
Definition Ends_apart (new_name : string -> string) (olds news : list string) : Prop :=
  exists os o ws w, olds = os ++ [o] /\ news = ws ++ [w] /\ ~ In (new_name o) ws /\ (forall x, In x os -> new_name x <> w).
Definition Last (l : list string) (x : string) : Prop := exists a, l = a ++ [x].

(** ** Lines *)
(** The call with the name for the first time, and the next one *)
Definition Called_after (l : list call) (f : string) (next : option call) : Prop :=
  exists a c b, l = a ++ c :: b /\ c_name c = f /\ (forall x, In x a -> c_name x <> f) /\ next = hd_error b.
(** The function has the new name in the definitions, or keeps its own. *)
Definition Renamed (defs : dict string ydef) (o w : string) : Prop :=
  (exists y, dget defs o = Some y /\ yi_name (yf_new y) = Some w /\ w <> ""%string) \/
  (w = o /\ forall y n, dget defs o = Some y -> yi_name (yf_new y) = Some n -> n = ""%string).
(** The name of a symbol, without or with its kind *)
Definition Names_symbol (f n : string) : Prop := (forall c, has_char c n = true -> c <> " "%char) /\ (f = n \/ exists kind, f = (n ++ String " " kind)%string).
