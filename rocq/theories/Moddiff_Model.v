(** * Model of the comparison of all modules that use a global variable (diffkemp/semdiff/module_diff.py) *)
From Coq Require Import String Arith Bool List.
From Verif Require Import PyBase Result_Model.
Import ListNotations.
Open Scope list_scope.

Section Moddiff.
  (** Modules and comparison graphs are left open. *)
  Context {G M : Type}.

  (** What the functions called by module_diff.py answer: the sources that use a symbol in both versions
      (find_srcs_using_symbol, sets), the module of a source (get_module_from_source and parse_module, with
      the exception they raise), has_global, get_functions_using_param (a set), has_function and
      functions_diff (with the exception it raises). *)
  Record world := mkWorld {
    srcs1 : string -> list string; srcs2 : string -> list string;
    build1 : string -> res M; build2 : string -> res M;
    has_global : M -> string -> bool; users : M -> string -> list string; has_function : M -> string -> bool;
    fdiff : M -> M -> string -> res (result G); mod_name : M -> string }.

  Definition set_kind (k : kind) (r : result G) : result G :=
    mkResult k (r_first r) (r_second r) (r_diff r) (r_graph r) (r_inner r).

  (** module_diff.py:75-89: the loop of [modules_diff]. *)
  Fixpoint modules_loop (w : world) (m1 m2 : M) (fs funs2 : list string) (r : result G) : res (result G) :=
    match fs with
    | [] => Ok r
    | f :: rest =>
      if negb (mem f funs2) then modules_loop w m1 m2 rest funs2 r
      else if negb (has_function w m1 f) || negb (has_function w m2 f) then Ok (set_kind ERROR r)
      else do fr <- fdiff w m1 m2 f; do r1 <- add_inner r fr; modules_loop w m1 m2 rest funs2 r1
    end.

  (** [if x:] on a string or None *)
  Definition given (x : option string) : option string :=
    match x with Some ""%string => None | _ => x end.

  (** module_diff.py:53-89 [modules_diff]; a parameter without indices is its name (an object is never
      false). *)
  Definition modules_diff (w : world) (m1 m2 : M) (glob_var fun_ : option string) : res (result G) :=
    let r := new_result NONE (mod_name w m1) (mod_name w m2) in
    match given fun_, glob_var with
    | Some f, _ => modules_loop w m1 m2 [f] [f] r
    | None, Some g => modules_loop w m1 m2 (users w m1 g) (users w m2 g) r
    | None, None => Ok r
    end.

  (** module_diff.py:34-45: the body of [try] for a source that uses the variable in both versions. *)
  Definition diff_source (w : world) (g src : string) (r : result G) : res (result G) :=
    do m1 <- build1 w src;
    do m2 <- build2 w src;
    if has_global w m1 g && has_global w m2 g then
      do sr <- modules_diff w m1 m2 (Some g) None;
      add_inners r (dvals (r_inner sr))
    else Ok r.

  (** module_diff.py:29-49: one turn of the loop. *)
  Definition diff_one (w : world) (g : string) (sources2 : list string) (r : result G) (src : string) : res (result G) :=
    if negb (mem src sources2) then add_inner r (new_result NOT_EQUAL src src)
    else match diff_source w g src r with
         | Err BuildException => add_inner r (new_result ERROR src src)
         | x => x
         end.

  (** module_diff.py:12-50 [diff_all_modules_using_global] *)
  Definition diff_all (w : world) (g1 g2 : string) : res (result G) :=
    let r := new_result NONE g1 g2 in
    if negb (String.eqb g1 g2) then Ok (set_kind NOT_EQUAL r)
    else fold_res (diff_one w g1 (srcs2 w g2)) r (srcs1 w g1).
End Moddiff.
Arguments world : clear implicits.
