(** * Python run-time pieces shared by all models

    Exceptions as values, insertion-ordered dictionaries and the string methods
    used by diffkemp.  Strings are sequences of characters ([Coq.Strings.String]);
    simplification: one [ascii] per character (Python uses Unicode code points; no
    modelled function looks at the numeric value of a non-ASCII character). *)
From Coq Require Import String Ascii ZArith Arith Bool Lia List.
Import ListNotations.
Open Scope list_scope.

(** Exceptions the modelled Python code can raise. *)
Inductive exn : Type :=
| KeyError | ValueError | AttributeError | TypeError | IndexError
| NameError | SimpLLException | SourceNotFoundException | BuildException
| FileNotFoundError | FileExistsError | EndLineNotFound | UnicodeDecodeError
| UnsupportedCustomPatternError | CalledProcessError | OSError
| UnicodeEncodeError | SystemExit.

(** Outcome of a Python call: a value or a raised exception. *)
Inductive res (A : Type) : Type :=
| Ok (a : A)
| Err (e : exn).
Arguments Ok {A} a.
Arguments Err {A} e.

Definition bind {A B} (x : res A) (f : A -> res B) : res B :=
  match x with Ok a => f a | Err e => Err e end.
Notation "'do' x <- m ; k" := (bind m (fun x => k))
  (at level 200, x pattern, m at level 100, k at level 200).

(** Python's [for x in l: ...] whose body may raise. *)
Fixpoint fold_res {A S} (f : S -> A -> res S) (s : S) (l : list A) : res S :=
  match l with
  | [] => Ok s
  | x :: l' => match f s x with Ok s' => fold_res f s' l' | Err e => Err e end
  end.

(** Python list comprehension whose body may raise. *)
Fixpoint map_res {A B} (f : A -> res B) (l : list A) : res (list B) :=
  match l with
  | [] => Ok []
  | x :: l' => match f x with
               | Ok y => match map_res f l' with Ok ys => Ok (y :: ys) | Err e => Err e end
               | Err e => Err e
               end
  end.

(** Decidable equality, as needed for dictionary keys. *)
Class EqB (K : Type) := {
  eqb : K -> K -> bool;
  eqb_spec : forall x y, reflect (x = y) (eqb x y)
}.

#[export] Instance EqB_string : EqB string := {| eqb := String.eqb; eqb_spec := String.eqb_spec |}.
#[export] Instance EqB_nat : EqB nat := {| eqb := Nat.eqb; eqb_spec := Nat.eqb_spec |}.
#[export] Instance EqB_ascii : EqB ascii := {| eqb := Ascii.eqb; eqb_spec := Ascii.eqb_spec |}.
#[export] Instance EqB_Z : EqB Z := {| eqb := Z.eqb; eqb_spec := Z.eqb_spec |}.

Definition opt_eqb {K} `{EqB K} (a b : option K) : bool :=
  match a, b with
  | None, None => true
  | Some x, Some y => eqb x y
  | _, _ => false
  end.
Lemma opt_eqb_spec {K} `{EqB K} (a b : option K) : reflect (a = b) (opt_eqb a b).
Proof.
  destruct a as [x|], b as [y|]; simpl; try (constructor; congruence).
  destruct (eqb_spec x y); constructor; congruence.
Qed.
#[export] Instance EqB_option {K} `{EqB K} : EqB (option K) :=
  {| eqb := opt_eqb; eqb_spec := opt_eqb_spec |}.

Definition pair_eqb {K L} `{EqB K} `{EqB L} (a b : K * L) : bool :=
  eqb (fst a) (fst b) && eqb (snd a) (snd b).
Lemma pair_eqb_spec {K L} `{EqB K} `{EqB L} (a b : K * L) : reflect (a = b) (pair_eqb a b).
Proof.
  destruct a as [a1 a2], b as [b1 b2]; unfold pair_eqb; simpl.
  destruct (eqb_spec a1 b1), (eqb_spec a2 b2); simpl; constructor; congruence.
Qed.
#[export] Instance EqB_pair {K L} `{EqB K} `{EqB L} : EqB (K * L) :=
  {| eqb := pair_eqb; eqb_spec := pair_eqb_spec |}.

Section Mem.
  Context {K : Type} `{EqB K}.
  (** Python [x in l] for lists and sets. *)
  Fixpoint mem (x : K) (l : list K) : bool :=
    match l with [] => false | y :: l' => eqb x y || mem x l' end.

  Lemma mem_In x l : mem x l = true <-> In x l.
  Proof.
    induction l as [|y l IH]; simpl.
    - split; [discriminate|tauto].
    - rewrite orb_true_iff, IH. destruct (eqb_spec x y) as [E|E].
      + subst. split; auto.
      + split; [intros [C|C]; [discriminate|auto] | intros [C|C]; [congruence|auto]].
  Qed.
  Lemma mem_not_In x l : mem x l = false <-> ~ In x l.
  Proof. rewrite <- mem_In. destruct (mem x l); split; congruence. Qed.

  (** Python [s.add(x)] on a set kept as a duplicate-free list. *)
  Definition set_add (x : K) (l : list K) : list K := if mem x l then l else l ++ [x].
  Lemma set_add_In x y l : In y (set_add x l) <-> y = x \/ In y l.
  Proof.
    unfold set_add. destruct (mem x l) eqn:E.
    - apply mem_In in E. split; [auto|intros [->|]; auto].
    - rewrite in_app_iff; simpl. intuition.
  Qed.
  Lemma set_add_NoDup x l : NoDup l -> NoDup (set_add x l).
  Proof.
    unfold set_add. destruct (mem x l) eqn:E; [auto|].
    apply mem_not_In in E. intros N.
    apply NoDup_rev in N. rewrite <- (rev_involutive (l ++ [x])). apply NoDup_rev.
    rewrite rev_app_distr. simpl. constructor; [rewrite <- in_rev; exact E|exact N].
  Qed.

  (** Duplicate-free version of a list, keeping first occurrences (what a set built
      from a list contains). *)
  Definition dedup (l : list K) : list K := fold_left (fun acc x => set_add x acc) l [].
  Lemma dedup_acc l : forall acc, NoDup acc ->
    NoDup (fold_left (fun a x => set_add x a) l acc) /\
    (forall y, In y (fold_left (fun a x => set_add x a) l acc) <-> In y acc \/ In y l).
  Proof.
    induction l as [|x l IH]; intros acc N; simpl.
    - split; [exact N|intuition].
    - destruct (IH (set_add x acc) (set_add_NoDup x acc N)) as [N' E]. split; [exact N'|].
      intros y. rewrite E, set_add_In. intuition.
  Qed.
  Lemma dedup_NoDup l : NoDup (dedup l).
  Proof. apply (dedup_acc l []). constructor. Qed.
  Lemma dedup_In l y : In y (dedup l) <-> In y l.
  Proof. unfold dedup. destruct (dedup_acc l [] (NoDup_nil _)) as [_ E]. rewrite E. simpl. intuition. Qed.
End Mem.

(** ** Insertion-ordered dictionaries (Python [dict]) *)
Definition dict (K V : Type) := list (K * V).

Section Dict.
  Context {K V : Type} `{EqB K}.

  Fixpoint dget (d : dict K V) (k : K) : option V :=
    match d with
    | [] => None
    | (k', v) :: d' => if eqb k k' then Some v else dget d' k
    end.

  Definition dmem (d : dict K V) (k : K) : bool :=
    match dget d k with Some _ => true | None => false end.

  (** [d[k] = v]: keeps the position of an existing key, otherwise appends. *)
  Fixpoint dset (d : dict K V) (k : K) (v : V) : dict K V :=
    match d with
    | [] => [(k, v)]
    | (k', v') :: d' => if eqb k k' then (k', v) :: d' else (k', v') :: dset d' k v
    end.

  (** [del d[k]] on a present key. *)
  Fixpoint ddel (d : dict K V) (k : K) : dict K V :=
    match d with
    | [] => []
    | (k', v') :: d' => if eqb k k' then d' else (k', v') :: ddel d' k
    end.

  Definition dkeys (d : dict K V) : list K := map fst d.
  Definition dvals (d : dict K V) : list V := map snd d.

  Lemma dget_dset_same d k v : dget (dset d k v) k = Some v.
  Proof.
    induction d as [|[k' v'] d IH]; simpl.
    - destruct (eqb_spec k k); congruence.
    - destruct (eqb k k') eqn:E; simpl; rewrite E; auto.
  Qed.
  Lemma dget_dset_other d k v k2 : k2 <> k -> dget (dset d k v) k2 = dget d k2.
  Proof.
    intros N. induction d as [|[k' v'] d IH]; simpl.
    - destruct (eqb_spec k2 k); congruence.
    - destruct (eqb_spec k k') as [E|E]; simpl.
      + subst. destruct (eqb_spec k2 k'); congruence.
      + destruct (eqb_spec k2 k'); auto.
  Qed.
  Lemma dget_dset d k v k2 :
    dget (dset d k v) k2 = if eqb k2 k then Some v else dget d k2.
  Proof.
    destruct (eqb_spec k2 k) as [->|N]; [apply dget_dset_same|apply dget_dset_other; exact N].
  Qed.
  Lemma dget_In d k v : dget d k = Some v -> In (k, v) d.
  Proof.
    induction d as [|[k' v'] d IH]; simpl; [discriminate|].
    destruct (eqb_spec k k') as [->|N]; [intros [= ->]; auto|auto].
  Qed.
  Lemma dget_In_NoDup d k v : NoDup (dkeys d) -> In (k, v) d -> dget d k = Some v.
  Proof.
    induction d as [|[k' v'] d IH]; simpl; [tauto|].
    intros N [E|I].
    - injection E as -> ->. destruct (eqb_spec k k); congruence.
    - inversion N as [|? ? Nk Nd]; subst. destruct (eqb_spec k k') as [->|]; [|auto].
      exfalso. apply Nk. change (In k' (map fst d)). apply in_map_iff. exists (k', v). auto.
  Qed.
  Lemma dget_None d k : dget d k = None <-> ~ In k (dkeys d).
  Proof.
    induction d as [|[k' v'] d IH]; simpl; [tauto|].
    destruct (eqb_spec k k') as [->|N].
    - split; [discriminate|intros C; exfalso; apply C; auto].
    - rewrite IH. split; [intros C [E|E]; [congruence|auto]|intros C E; apply C; auto].
  Qed.
  Lemma dget_Some_key d k v : dget d k = Some v -> In k (dkeys d).
  Proof.
    intros E. apply dget_In in E. unfold dkeys. apply in_map_iff. exists (k, v). auto.
  Qed.
  Lemma dkeys_dget d k : In k (dkeys d) -> exists v, dget d k = Some v.
  Proof.
    intros I. destruct (dget d k) as [v|] eqn:E; [eauto|].
    apply dget_None in E. contradiction.
  Qed.
  Lemma dmem_spec d k : dmem d k = true <-> In k (dkeys d).
  Proof.
    unfold dmem. destruct (dget d k) as [v|] eqn:E.
    - split; [intros _; eapply dget_Some_key; eauto|auto].
    - apply dget_None in E. split; [discriminate|contradiction].
  Qed.
  Lemma dget_dvals d k v : dget d k = Some v -> In v (dvals d).
  Proof. intros E. apply dget_In in E. apply in_map_iff. exists (k, v). auto. Qed.

  Lemma dkeys_dset d k v : dkeys (dset d k v) = if mem k (dkeys d) then dkeys d else dkeys d ++ [k].
  Proof.
    induction d as [|[k' v'] d IH]; simpl; [reflexivity|].
    destruct (eqb_spec k k') as [->|N]; simpl; [reflexivity|].
    change (map fst (dset d k v)) with (dkeys (dset d k v)). rewrite IH.
    change (map fst d) with (dkeys d).
    destruct (mem k (dkeys d)); reflexivity.
  Qed.
  Lemma dkeys_dset_In d k v x : In x (dkeys (dset d k v)) <-> x = k \/ In x (dkeys d).
  Proof.
    rewrite dkeys_dset. destruct (mem k (dkeys d)) eqn:E.
    - apply mem_In in E. split; [auto|intros [->|]; auto].
    - rewrite in_app_iff; simpl. intuition.
  Qed.
  Lemma dset_NoDup d k v : NoDup (dkeys d) -> NoDup (dkeys (dset d k v)).
  Proof. rewrite dkeys_dset. apply (set_add_NoDup k (dkeys d)). Qed.

  Lemma dset_In d k v p : In p (dset d k v) -> p = (k, v) \/ In p d.
  Proof.
    induction d as [|[k' v'] d IH]; simpl.
    - intros [<-|[]]; auto.
    - destruct (eqb_spec k k') as [->|N]; simpl.
      + intros [<-|I]; auto.
      + intros [<-|I]; [auto|]. destruct (IH I); auto.
  Qed.

  Lemma dget_ddel_same d k : NoDup (dkeys d) -> dget (ddel d k) k = None.
  Proof.
    induction d as [|[k' v'] d IH]; simpl; [reflexivity|].
    intros N. inversion N as [|? ? Nk Nd]; subst.
    destruct (eqb_spec k k') as [->|E]; simpl.
    - apply dget_None. exact Nk.
    - destruct (eqb_spec k k'); [congruence|auto].
  Qed.
  Lemma dget_ddel_other d k k2 : k2 <> k -> dget (ddel d k) k2 = dget d k2.
  Proof.
    intros N. induction d as [|[k' v'] d IH]; simpl; [reflexivity|].
    destruct (eqb_spec k k') as [->|E]; simpl.
    - destruct (eqb_spec k2 k'); [congruence|reflexivity].
    - destruct (eqb_spec k2 k'); auto.
  Qed.
  Lemma ddel_In d k p : In p (ddel d k) -> In p d.
  Proof.
    induction d as [|[k' v'] d IH]; simpl; [tauto|].
    destruct (eqb k k'); simpl; [auto|intros [<-|I]; auto].
  Qed.
  Lemma ddel_keys_In d k x : In x (dkeys (ddel d k)) -> In x (dkeys d).
  Proof.
    unfold dkeys. rewrite !in_map_iff. intros (p & E & I). exists p. split; [exact E|].
    eapply ddel_In; eauto.
  Qed.
  Lemma ddel_NoDup d k : NoDup (dkeys d) -> NoDup (dkeys (ddel d k)).
  Proof.
    induction d as [|[k' v'] d IH]; simpl; [auto|].
    intros N. inversion N as [|? ? Nk Nd]; subst.
    destruct (eqb_spec k k') as [->|E]; simpl; [exact Nd|].
    constructor; [|auto]. intros C. apply Nk. eapply (ddel_keys_In d k). exact C.
  Qed.
End Dict.

(** ** String methods *)
Open Scope string_scope.

(** [s.startswith(p)] *)
Fixpoint startswith (s p : string) {struct p} : bool :=
  match p, s with
  | EmptyString, _ => true
  | String c p', String d s' => Ascii.eqb c d && startswith s' p'
  | String _ _, EmptyString => false
  end.

(** [s.endswith(p)] *)
Definition endswith (s p : string) : bool :=
  (String.length p <=? String.length s)%nat &&
  String.eqb (substring (String.length s - String.length p) (String.length p) s) p.

(** [s[:-n]] for n > 0 (Python clamps at the empty string). *)
Definition chop (n : nat) (s : string) : string := substring 0 (String.length s - n) s.

(** [c in s] for a one-character string [c]. *)
Fixpoint has_char (c : ascii) (s : string) : bool :=
  match s with
  | EmptyString => false
  | String d s' => Ascii.eqb c d || has_char c s'
  end.

(** [s.replace(c, d)] for one-character strings. *)
Fixpoint replace_char (c d : ascii) (s : string) : string :=
  match s with
  | EmptyString => EmptyString
  | String x s' => String (if Ascii.eqb x c then d else x) (replace_char c d s')
  end.

(** [s.replace(old, new)] for a non-empty [old]: left to right, non-overlapping.
    [skip] counts the characters of the current occurrence still to be dropped. *)
Fixpoint replace_aux (old new s : string) (skip : nat) : string :=
  match s with
  | EmptyString => EmptyString
  | String c s' =>
      match skip with
      | S k => replace_aux old new s' k
      | O => if startswith s old
             then new ++ replace_aux old new s' (String.length old - 1)
             else String c (replace_aux old new s' 0)
      end
  end.
(** [s.replace("", new)] puts [new] before every character and at the end. *)
Fixpoint replace_empty (new s : string) : string :=
  match s with
  | EmptyString => new
  | String c s' => new ++ String c (replace_empty new s')
  end.
Definition replace (old new s : string) : string :=
  match old with
  | EmptyString => replace_empty new s
  | _ => replace_aux old new s 0
  end.

(** [old in s] (substring test). *)
Fixpoint contains (s old : string) : bool :=
  startswith s old || match s with EmptyString => false | String _ s' => contains s' old end.

(** Number of leading characters to drop: [s[n:]]. *)
Fixpoint drop (n : nat) (s : string) : string :=
  match n, s with
  | O, _ => s
  | S n', String _ s' => drop n' s'
  | S _, EmptyString => EmptyString
  end.

(** [s.split(c)] for a one-character separator. *)
Fixpoint split_char (c : ascii) (s : string) : list string :=
  match s with
  | EmptyString => [""]
  | String x s' =>
      if Ascii.eqb x c then "" :: split_char c s'
      else match split_char c s' with
           | [] => [String x ""] (* unreachable: split_char is never empty *)
           | w :: ws => String x w :: ws
           end
  end.

(** [sep.join(l)] *)
Definition join (sep : string) (l : list string) : string := String.concat sep l.

Lemma app_nil_r_s (s : string) : s ++ "" = s.
Proof. induction s as [|c s IH]; simpl; congruence. Qed.
Lemma app_assoc_s (a b c : string) : (a ++ b) ++ c = a ++ (b ++ c).
Proof. induction a as [|x a IH]; simpl; congruence. Qed.
Lemma length_app_s (a b : string) : String.length (a ++ b) = (String.length a + String.length b)%nat.
Proof. induction a as [|x a IH]; simpl; congruence. Qed.

Lemma substring_0_all s : substring 0 (String.length s) s = s.
Proof. induction s as [|c s IH]; simpl; congruence. Qed.
Lemma substring_app_l a b : substring 0 (String.length a) (a ++ b) = a.
Proof. induction a as [|c a IH]; simpl; [destruct b; reflexivity|congruence]. Qed.
Lemma substring_app_r a b n : substring (String.length a) n (a ++ b) = substring 0 n b.
Proof. induction a as [|c a IH]; simpl; auto. Qed.

Lemma substring_split n s : (n <= String.length s)%nat ->
  s = substring 0 n s ++ substring n (String.length s - n) s.
Proof.
  revert s. induction n as [|n IH]; intros s L.
  - rewrite Nat.sub_0_r, substring_0_all. destruct s; reflexivity.
  - destruct s as [|c s]; simpl in *; [lia|]. f_equal. apply IH. lia.
Qed.

Lemma endswith_spec s p : endswith s p = true <-> exists a, s = a ++ p.
Proof.
  unfold endswith. rewrite andb_true_iff, Nat.leb_le, String.eqb_eq. split.
  - intros [L E]. exists (substring 0 (String.length s - String.length p) s).
    rewrite <- E at 2.
    transitivity (substring 0 (String.length s - String.length p) s ++
                  substring (String.length s - String.length p)
                            (String.length s - (String.length s - String.length p)) s).
    + apply substring_split. lia.
    + do 2 f_equal. lia.
  - intros [a ->]. rewrite length_app_s. split; [lia|].
    replace (String.length a + String.length p - String.length p)%nat with (String.length a) by lia.
    rewrite substring_app_r. apply substring_0_all.
Qed.

Lemma startswith_spec s p : startswith s p = true <-> exists a, s = p ++ a.
Proof.
  revert s. induction p as [|c p IH]; intros s; simpl.
  - split; [intros _; exists s; reflexivity|reflexivity].
  - destruct s as [|d s]; [split; [discriminate|intros [a E]; discriminate]|].
    destruct (Ascii.eqb_spec c d) as [->|N]; simpl.
    + rewrite IH. split; intros [a E]; exists a; congruence.
    + split; [discriminate|intros [a E]; injection E; congruence].
Qed.

Lemma chop_app a b : chop (String.length b) (a ++ b) = a.
Proof.
  unfold chop. rewrite length_app_s.
  replace (String.length a + String.length b - String.length b)%nat with (String.length a) by lia.
  apply substring_app_l.
Qed.

Lemma has_char_app c a b : has_char c (a ++ b) = has_char c a || has_char c b.
Proof. induction a as [|x a IH]; simpl; [reflexivity|]. rewrite IH, orb_assoc. reflexivity. Qed.

Lemma replace_char_app c d a b : replace_char c d (a ++ b) = replace_char c d a ++ replace_char c d b.
Proof. induction a as [|x a IH]; simpl; congruence. Qed.

Lemma split_char_nonempty c s : split_char c s <> [].
Proof.
  destruct s as [|x s]; simpl; [discriminate|].
  destruct (Ascii.eqb x c); [discriminate|]. destruct (split_char c s); discriminate.
Qed.

Lemma split_char_no c s : has_char c s = false -> split_char c s = [s].
Proof.
  induction s as [|x s IH]; simpl; [reflexivity|].
  rewrite orb_false_iff. intros [E H]. rewrite Ascii.eqb_sym in E. rewrite E, (IH H). reflexivity.
Qed.

Lemma split_char_app c a b : has_char c a = false ->
  split_char c (a ++ String c b) = a :: split_char c b.
Proof.
  induction a as [|x a IH]; simpl.
  - intros _. rewrite Ascii.eqb_refl. reflexivity.
  - rewrite orb_false_iff. intros [E H]. rewrite Ascii.eqb_sym in E. rewrite E, (IH H). reflexivity.
Qed.

(** [split] followed by [join] is the identity. *)
Lemma join_split_char c s : join (String c "") (split_char c s) = s.
Proof.
  unfold join. induction s as [|x s IH]; [reflexivity|].
  cbn [split_char].
  destruct (split_char c s) as [|w ws] eqn:E; [destruct (split_char_nonempty c s E)|].
  destruct (Ascii.eqb_spec x c) as [->|N].
  - change (String.concat (String c "") ("" :: w :: ws))
      with (String c (String.concat (String c "") (w :: ws))). congruence.
  - destruct ws as [|w2 ws].
    + simpl in *. congruence.
    + change (String.concat (String c "") (String x w :: w2 :: ws))
        with (String x (String.concat (String c "") (w :: w2 :: ws))). congruence.
Qed.

(** Specification of replacement: [s] is cut left to right into occurrences of [old] and
    characters at which [old] does not start. *)
Inductive Replaced (old new : string) : string -> string -> Prop :=
| Replaced_nil : Replaced old new "" ""
| Replaced_hit s r : Replaced old new s r -> Replaced old new (old ++ s) (new ++ r)
| Replaced_miss c s r : (forall t, String c s <> old ++ t) ->
    Replaced old new s r -> Replaced old new (String c s) (String c r).

Lemma replace_aux_skip old new a s : replace_aux old new (a ++ s) (String.length a) = replace_aux old new s 0.
Proof. induction a as [|c a IH]; simpl; auto. Qed.

Lemma replace_Replaced old new s : old <> "" -> Replaced old new s (replace old new s).
Proof.
  intros Ho. destruct old as [|o os]; [congruence|]. unfold replace.
  remember (String.length s) as n eqn:En. revert s En.
  induction n as [n IH] using lt_wf_ind. intros s ->.
  destruct s as [|c s]; [constructor|].
  cbn [replace_aux].
  destruct (startswith (String c s) (String o os)) eqn:E.
  - apply startswith_spec in E. destruct E as [a E]. rewrite E.
    simpl in E. injection E as Ec Es. subst c s.
    apply Replaced_hit. replace (String.length (String o os) - 1)%nat with (String.length os)
      by (simpl; lia).
    rewrite replace_aux_skip. apply (IH (String.length a)); [|reflexivity].
    simpl. rewrite length_app_s. lia.
  - apply Replaced_miss.
    + intros t C. assert (startswith (String c s) (String o os) = true) as T
        by (apply startswith_spec; exists t; exact C). congruence.
    + apply (IH (String.length s)); [simpl; lia|reflexivity].
Qed.

Lemma Replaced_fun old new s r1 r2 : old <> "" ->
  Replaced old new s r1 -> Replaced old new s r2 -> r1 = r2.
Proof.
  intros Ho R1. revert r2.
  induction R1 as [|s r R IH|c s r M R IH]; intros r2 R2.
  - inversion R2 as [|s' r' R' E|]; [reflexivity|]. destruct old; [congruence|discriminate].
  - inversion R2 as [E|s' r' R' E|c s' r' M R' E]; subst.
    + destruct old; [congruence|discriminate].
    + f_equal. apply IH.
      assert (s' = s) as ->; [|exact R'].
      clear - E. induction old as [|o old IHo]; simpl in E; [congruence|]. injection E as E. auto.
    + exfalso. apply (M s). exact E.
  - inversion R2 as [E|s' r' R' E|c' s' r' M' R' E]; subst.
    + exfalso. apply (M s'). congruence.
    + f_equal. apply IH. exact R'.
Qed.

Lemma contains_spec s old : contains s old = true <-> exists a b, s = a ++ old ++ b.
Proof.
  split.
  - induction s as [|c s IH]; simpl.
    + rewrite orb_false_r. intros E. apply startswith_spec in E. destruct E as [b E]. exists "", b. exact E.
    + rewrite orb_true_iff. intros [E|E].
      * apply startswith_spec in E. destruct E as [b E]. exists "", b. exact E.
      * destruct (IH E) as (a & b & ->). exists (String c a), b. reflexivity.
  - intros (a & b & ->). induction a as [|c a IH]; simpl.
    + assert (startswith (old ++ b) old = true) as E by (apply startswith_spec; eauto).
      destruct (old ++ b); cbn [contains]; rewrite E; reflexivity.
    + rewrite IH. apply orb_true_r.
Qed.

Lemma replace_no_occurrence old new s : old <> "" -> contains s old = false -> replace old new s = s.
Proof.
  intros Ho C. apply (Replaced_fun old new s); [exact Ho|apply replace_Replaced; exact Ho|].
  induction s as [|c s IH]; [constructor|].
  simpl in C. apply orb_false_iff in C. destruct C as [C1 C2].
  apply Replaced_miss; [|auto].
  intros t E. assert (startswith (String c s) old = true) by (apply startswith_spec; eauto). congruence.
Qed.

Lemma drop_app a b : drop (String.length a) (a ++ b) = b.
Proof. induction a as [|c a IH]; simpl; auto. Qed.

Close Scope string_scope.
