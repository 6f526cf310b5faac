(** Model of numpy's [lexsort] / Python's [sorted] (external, documented to be a
    stable sort): insertion sort. *)
From Verif Require Import Base BaseQ.
Set Implicit Arguments.

Section Sort.
Context (A : Type) (leb : A -> A -> bool).
(** Stable insertion. *)
Fixpoint insert (x : A) (l : list A) : list A :=
  match l with
  | [] => [x]
  | y :: t => if leb x y then x :: y :: t else y :: insert x t
  end.
(** Stable sorting: the result of [sorted] and, on indices, of [np.lexsort]. *)
Fixpoint isort (l : list A) : list A :=
  match l with [] => [] | x :: t => insert x (isort t) end.
End Sort.

(** Lexicographic order on coordinate triples: x first, then y, then z. *)
Definition vleb (a b : vec Qc) : bool :=
  if Qcltb (vx a) (vx b) then true else
  if Qcltb (vx b) (vx a) then false else
  if Qcltb (vy a) (vy b) then true else
  if Qcltb (vy b) (vy a) then false else
  Qcleb (vz a) (vz b).

(** [np.lexsort((z, y, x))]: indices sorted by (x, y, z), stable. *)
Definition key_at (ks : list (vec Qc)) (i : nat) : vec Qc := nth i ks v0.
(** [np.lexsort((z, y, x))]: indices sorted by x, then y, then z *)
Definition lexsort (ks : list (vec Qc)) : list nat :=
  isort (fun i j => vleb (key_at ks i) (key_at ks j)) (seq 0 (length ks)).
