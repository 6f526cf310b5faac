(** How many superlattices there are. *)
From Verif Require Import Base BaseQ SLattice SBurn.
Set Implicit Arguments.
Unset Strict Implicit.
Open Scope Z_scope.

Definition divisors (n : Z) : list Z := filter (fun d => n mod d =? 0) (map Z.of_nat (seq 1 (Z.to_nat n))).
Definition zsum (l : list Z) : Z := fold_right Z.add 0 l.
(** Sum of the divisors. *)
Definition sigma (n : Z) : Z := zsum (divisors n).

(** (rotation, superlattice it carries onto itself); superlattices are given by the members of [D]. *)
Definition fixed_lattice (rots : list (mat Z)) (D : mat Z -> Prop) (f : mat Z * mat Z) : Prop :=
  In (fst f) rots /\ D (snd f) /\ rot_carries (fst f) (snd f) (snd f).
(** The order of the point group times [k] is the number of these pairs. *)
Definition lattice_count (rots : list (mat Z)) (D : mat Z -> Prop) (k : nat) : Prop :=
  exists Gs Fs, lists_once (fun r => In r rots) Gs /\ lists_once (fixed_lattice rots D) Fs /\ (length Gs * k = length Fs)%nat.

(** A rotation that keeps the plane of the first two directions and the third one. *)
Definition plane_rot (r : mat Z) : Prop := exists p q s t e, r = V3 (V3 p q 0) (V3 s t 0) (V3 0 0 e).
