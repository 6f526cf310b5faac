(** The conventional standardised cell. *)
From Verif Require Import Base BaseQ MGeneralCell.
Set Implicit Arguments.
Unset Strict Implicit.

(** scaffold.py:376-388 [get_refined_cell]: [spg_standardize] is spglib's standardize_cell with
    to_primitive=False. *)
Definition get_refined_cell (spg_standardize : mat Qc * list (vec Qc) * list Z -> mat Qc * list (vec Qc) * list Z) (c : gcell) : res gcell :=
  let '(lat, pos, nums) := spg_standardize (lattice c, positions c, numbers c) in GeneralCell_new lat pos nums.
