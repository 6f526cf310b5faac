(** What the command-line applications have to leave in the file system.
    Independent of the models of the applications. *)
From Coq Require Import String Ascii List Arith.
From Verif Require Import SSubst.
Import ListNotations.

Section Writes.
Context {P T : Type}.
(** [fs'] is [fs] after the writes [ws] in this order: a later write to the same path
    replaces an earlier one. *)
Definition after_writes (fs : P -> option T) (ws : list (P * T)) (fs' : P -> option T) : Prop :=
  (forall p, ~ In p (map fst ws) -> fs' p = fs p) /\
  (forall l1 p t l2, ws = l1 ++ (p, t) :: l2 -> ~ In p (map fst l2) -> fs' p = Some t).

(** Each of [ws] has its own file holding its text; nothing else changed. *)
Definition each_has_its_file (fs : P -> option T) (ws : list (P * T)) (fs' : P -> option T) : Prop :=
  NoDup (map fst ws) /\ (forall p t, In (p, t) ws -> fs' p = Some t) /\
  (forall p, ~ In p (map fst ws) -> fs' p = fs p).

(** Every write created a file that did not exist before. *)
Definition all_new (fs : P -> option T) (ws : list (P * T)) (fs' : P -> option T) : Prop :=
  each_has_its_file fs ws fs' /\ forall p, In p (map fst ws) -> fs p = None.
End Writes.

(** [kept] are the elements of [l] with the property, in order. *)
Inductive selected {A} (W : A -> Prop) : list A -> list A -> Prop :=
| sel_nil : selected W [] []
| sel_keep x l k : W x -> selected W l k -> selected W (x :: l) (x :: k)
| sel_drop x l k : ~ W x -> selected W l k -> selected W (x :: l) k.

(** Pairs related position by position, with the position. *)
Definition indexed {A B} (R : nat -> A -> B -> Prop) (l : list A) (m : list B) : Prop :=
  length l = length m /\ forall k x y, nth_error l k = Some x -> nth_error m k = Some y -> R k x y.

(** Strings *)
Definition has_dot (s : string) : Prop := exists a b, s = (a ++ "." ++ b)%string.
Definition has_slash (s : string) : Prop := exists a b, s = (a ++ "/" ++ b)%string.
(** [b] is the last component of the path [s]; [st] is [b] up to its first dot. *)
Definition last_component (s b : string) : Prop := ~ has_slash b /\ (s = b \/ exists d, s = (d ++ "/" ++ b)%string).
Definition stem (b st : string) : Prop := ~ has_dot st /\ (b = st \/ exists e, b = (st ++ "." ++ e)%string).

(** The characters of the random suffixes, and words over them. *)
Definition upper_digits : list ascii := list_ascii_of_string "ABCDEFGHIJKLMNOPQRSTUVWXYZ0123456789".
Definition suffix_word (n : nat) (s : string) : Prop :=
  String.length s = n /\ forall c, In c (list_ascii_of_string s) -> In c upper_digits.

From Verif Require Import Base BaseQ MGeneralCell MRestrict MIO MElement.
Section Vocabulary.
(** spglib: number of atoms of the primitive cell, refined cell; the YAML library *)
Context (psize : mat Qc * list (vec Qc) * list Z -> nat) (refine : gcell -> res gcell) (dump : ydoc -> string).

(** The structures the user asked for: primitive (if demanded), atoms of the given species
    further apart than the given distance (if demanded; see C37 for what the test means). *)
Definition wanted (mpr : bool) (tr : option (Z * Qc)) (c : gcell) : Prop :=
  (mpr = true -> psize (spg_cell c) = List.length (snd (spg_cell c))) /\
  (forall z d, tr = Some (z, d) -> min_distance_satisfied (Some z) d c = Ok true).

(** The cell that is written for [c]. *)
Definition written_cell (refined : bool) (c c' : gcell) : Prop :=
  if refined then refine c = Ok c' else c' = c.

(** The file written for [c]: dir/STRUCTURE_<formula>_<suffix>.<mode>. *)
Definition structure_file (refined : bool) (mode dir suffix : string) (c : gcell) (pt : string * string) : Prop :=
  exists c' com f, written_cell refined c c' /\ comment c' = Ok com /\
    fst pt = (dir ++ "/STRUCTURE_" ++ com ++ "_" ++ suffix ++ "." ++ mode)%string /\
    choose (fst pt) None = Some f /\ render dump f c' = Ok (snd pt).

(** What the two ternary applications write: the text of the requested format, in a file of
    that directory whose name starts with the given counts. *)
Definition ternary_text (mode : string) (c : gcell) (t : string) : Prop :=
  if String.eqb mode "vasp" then render dump Fvasp c = Ok t
  else exists names, mapM to_name (numbers c) = Ok names /\
         t = dump (mkY (comment_of (ordered_atoms names)) (lattice c) (positions c) (numbers c) 1%Qc).
Definition ternary_file (refined : bool) (mode dir : string) (n0 n1 n2 : Z) (c : gcell) (pt : string * string) : Prop :=
  exists c' x, written_cell refined c c' /\ ternary_text mode c' (snd pt) /\
    fst pt = (dir ++ "/" ++ (if String.eqb mode "vasp" then "POSCAR" else "STRUCTURE") ++
              "_A" ++ str_int n0 ++ "B" ++ str_int n1 ++ "C" ++ str_int n2 ++ "_" ++ x ++
              (if String.eqb mode "vasp" then ".vasp" else ".yaml"))%string.
End Vocabulary.

(** At most [n] files. *)
Definition files_at_most {P T} (fs : P -> option T) (n : nat) : Prop :=
  exists L : list P, (List.length L <= n)%nat /\ forall p, fs p <> None -> In p L.
(** What [tempfile] guarantees: a path with the given start and end, which is not in use as
    long as there are fewer than [N] files. *)
Definition fresh_names (N : nat) (tmp : files -> string -> string -> string) : Prop :=
  forall fs a b, (exists x, tmp fs a b = (a ++ x ++ b)%string) /\
    forall n, (n < N)%nat -> files_at_most fs n -> fs (tmp fs a b) = None.
(** [ws] are written to new files as long as there is room for them. *)
Definition new_if_room {P T} (N : nat) (fs : P -> option T) (ws : list (P * T)) (fs' : P -> option T) : Prop :=
  forall n, files_at_most fs n -> (n + List.length ws <= N)%nat -> all_new fs ws fs'.

(** The cell [c0] with other numbers. *)
Definition decorated (c0 : gcell) (x : list Z) : gcell :=
  mkG (lattice c0) (positions c0) x (lattice c0, positions c0, x) (num_count c0).

(** Structures written under the same formula drew different suffixes. *)
Definition suffixes_distinct (refine : gcell -> res gcell) (refined : bool) (suffix : nat -> string) (kept : list gcell) : Prop :=
  forall (i j : nat) c d c' d', (i < j)%nat -> nth_error kept i = Some c -> nth_error kept j = Some d ->
    written_cell refine refined c c' -> written_cell refine refined d d' -> comment c' = comment d' -> suffix i <> suffix j.
