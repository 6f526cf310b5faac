(** Vocabulary about cells used in the statements on OccupyGenerator. *)
From Verif Require Import Base BaseQ SGeneralCell MGeneralCell.

(** [c] was built by the constructor from arrays of equal length. *)
Definition from_constructor (c : gcell) : Prop :=
  exists lat pos nums, length pos = length nums /\ GeneralCell_new lat pos nums = Ok c.

(** [c] differs from [c0] at most in its numbers. *)
Definition same_frame (c0 c : gcell) : Prop :=
  lattice c = lattice c0 /\ positions c = positions c0 /\ num_count c = num_count c0 /\
  length (numbers c) = length (numbers c0) /\
  views_agree (lattice c) (positions c) (numbers c) (spg_cell c).
