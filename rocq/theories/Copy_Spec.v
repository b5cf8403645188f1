(** * What it means that source files are copied into a snapshot *)
From Coq Require Import String Ascii ZArith Arith Bool List.
From Verif Require Import PyBase Path_Model Cache_Spec Text_Spec Copy_Model.
Import ListNotations.
Open Scope list_scope.

Definition line_end : ascii := ascii_of_nat 10.
Definition mark : ascii := ascii_of_nat 34.     (* the quotation mark *)
(** The lines of a text, with their ends; only the last may have none. *)
Inductive Lines : string -> list string -> Prop :=
| Lines_none : Lines "" []
| Lines_last s : No line_end s -> s <> ""%string -> Lines s [s]
| Lines_more l s ls : No line_end l -> Lines s ls -> Lines (l ++ String line_end s) ((l ++ String line_end "")%string :: ls).

(** ** The files that debug information names *)
(** From here on the line reads: filename: "f", directory: "d", and more. *)
Definition Named_here (s f d : string) : Prop :=
  exists w v rest, s = ("filename:" ++ w ++ String mark (f ++ String mark (", directory:" ++ v ++ String mark (d ++ String mark rest))))%string
    /\ All White w /\ All White v /\ No mark f /\ No mark d.
(** The first place of the line that reads so. *)
Definition Named (line f d : string) : Prop :=
  exists a b, line = (a ++ b)%string /\ Named_here b f d /\
    forall a' b' f' d', line = (a' ++ b')%string -> Named_here b' f' d' -> (String.length a <= String.length a')%nat.
Definition C_file (f : string) : Prop := exists n, f = (n ++ ".h")%string \/ f = (n ++ ".c")%string.
Definition Included (text p : string) : Prop :=
  exists ls line f d, Lines text ls /\ In line ls /\ Named line f d /\ C_file f /\ p = path_join d f.

(** ** The text of a moved module *)
Definition Occurs (x s : string) : Prop := exists a b, s = (a ++ x ++ b)%string.
Definition Moved_line (old new a b : string) : Prop :=
  (Occurs "constant" a /\ b = a) \/ (~ Occurs "constant" a /\ Replaced old new a b).
Definition Moved (old new text text' : string) : Prop :=
  exists ls ls', Lines text ls /\ Forall2 (Moved_line old new) ls ls' /\ text' = String.concat "" ls'.

(** ** The copied files *)
Section Copied.
  Variable cwd : string.
  Variables dir target : string.
  Variables D T : list string.     (* the components of the directories *)
  Variable f : files.
  Variable modules : list string.
  (** Files are looked up by the place of their path. *)
  Definition content (p : string) : option string := dget f (abs_comps cwd p).
  (** A source that is named in one of the modules, with a path that begins with that of the directory. *)
  Definition wanted (src : string) : Prop :=
    startswith src dir = true /\ exists m text, In m modules /\ content m = Some text /\ Included text src.
  Definition at_place (p : string) (r : list string) : Prop := abs_comps cwd p = D ++ r.
  (** The modules and the sources that are wanted are in the directory, none of them is in the
      target, and no file is read for two reasons. *)
  Record usual : Prop := {
    usual_dir : normal_path dir D;
    usual_target : normal_path target T;
    usual_modules : forall m, In m modules -> startswith m dir = true /\ exists r, at_place m r;
    usual_sources : forall s, wanted s -> exists r, at_place s r;
    usual_apart : forall p, In p modules \/ wanted p -> forall r, abs_comps cwd p <> T ++ r;
    usual_once : NoDup (map (abs_comps cwd) modules);
    usual_kinds : forall m s, In m modules -> wanted s -> abs_comps cwd m <> abs_comps cwd s }.
  (** The files g and the new paths of the modules after the copying: a wanted source is in the target at the
      same relative place (a file that was there is kept), a module is there with a moved text, all
      other files are as before. *)
  Record copied (g : files) (out : list string) : Prop := {
    c_sources : forall s r, wanted s -> at_place s r ->
      dget g (T ++ r) = match dget f (T ++ r) with Some c => Some c | None => content s end /\ dget g (T ++ r) <> None;
    c_modules : forall m r text, In m modules -> at_place m r -> content m = Some text ->
      exists text', dget g (T ++ r) = Some text' /\ Moved (join "/" D) (join "/" T) text text';
    c_others : forall p, ~ (exists s r, (wanted s \/ In s modules) /\ at_place s r /\ p = T ++ r) -> dget g p = dget f p;
    c_out : Forall2 (fun m m' => (exists r, at_place m r /\ abs_comps cwd m' = T ++ r) /\ relpath cwd m' target = relpath cwd m dir) modules out }.
End Copied.

(** A place in or below a directory *)
Definition Below (d p : list string) : Prop := exists r, p = d ++ r.
