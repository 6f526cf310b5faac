(** The infinite crystal a grid structure stands for: at the point i a + j b + k c sits the
    species of the grid entry (i mod depth, j mod width, k mod length). *)
From Verif Require Import Base BaseQ MElement MGrid SGrid.

Definition grid_atom (hp : heap) (s : cstru) (z : Z) (v : vec Qc) : Prop :=
  let g := c_grid s in
  exists i j k : Z, v = vec_mat (vecZ (V3 i j k)) (c_m s) /\
    exists sp, grid_get hp g (i mod Z.of_nat (g_depth g), j mod Z.of_nat (g_width g), k mod Z.of_nat (g_length g))%Z = Ok sp /\ z = sp_Z sp.

(** The grids have the same sizes and hold the same atomic numbers everywhere. *)
Definition same_entries (hp : heap) (g g' : sgrid) : Prop :=
  g_depth g = g_depth g' /\ g_width g = g_width g' /\ g_length g = g_length g' /\
  forall i j k, (i < g_depth g)%nat -> (j < g_width g)%nat -> (k < g_length g)%nat -> exists sp sp',
    grid_get hp g (Z.of_nat i, Z.of_nat j, Z.of_nat k) = Ok sp /\ grid_get hp g' (Z.of_nat i, Z.of_nat j, Z.of_nat k) = Ok sp' /\ sp_Z sp = sp_Z sp'.
