(** Specification vocabulary for the grid-based generator. *)
From Coq Require Import String Ascii.
From Verif Require Import Base BaseQ SGrid SSym.
Open Scope Z_scope.

(** Fractional position of grid site (i, j, k) in a d x w x l grid. *)
Definition site (d w l i j k : nat) : vec Qc :=
  (V3 (Zc (Z.of_nat i) / Zc (Z.of_nat d)) (Zc (Z.of_nat j) / Zc (Z.of_nat w)) (Zc (Z.of_nat k) / Zc (Z.of_nat l)))%Qc.
Definition in_grid (d w l i j k : nat) : Prop := (i < d /\ j < w /\ k < l)%nat.
(** All sites, row-major. *)
Definition all_sites (d w l : nat) : list (vec Qc) :=
  flat_map (fun i => flat_map (fun j => List.map (fun k => site d w l i j k) (seq 0 l)) (seq 0 w)) (seq 0 d).

(** Operation [o] turns the decoration [a] of the grid into [b]: what sits on a site in [a]
    sits on the image of that site in [b]. *)
Definition moved_by (o : mat Z * vec Qc) (d w l : nat) (a b : list (list (list Z))) : Prop :=
  forall i j k i' j' k', in_grid d w l i j k -> in_grid d w l i' j' k' ->
    carries_exactly o (site d w l i j k) (site d w l i' j' k') -> entry b i' j' k' = entry a i j k.
Definition grid_equiv (ops : list (mat Z * vec Qc)) (d w l : nat) (a b : list (list (list Z))) : Prop :=
  exists o, In o ops /\ moved_by o d w l a b.

(** White space. *)
Definition white (c : ascii) : Prop := c = " "%char \/ c = "010"%char.
Fixpoint all_white (s : string) : Prop :=
  match s with EmptyString => True | String c r => white c /\ all_white r end.
(** A layout separates any two words: white space only, and something before every word but
    the first. *)
Definition layout (pad : list string -> nat -> string) : Prop :=
  forall ws i, all_white (pad ws i) /\ (i <> 0%nat -> pad ws i <> EmptyString).

(** The operation permutes the sites (modulo lattice translations). *)
Definition permutes_sites (o : mat Z * vec Qc) (pos : list (vec Qc)) : Prop :=
  (forall p, In p pos -> exists q, In q pos /\ carries_exactly o p q) /\
  (forall q, In q pos -> exists p, In p pos /\ carries_exactly o p q).

(** Squared length of the lattice vector with integer components [u] (basis rows of [m]). *)
Definition grid_len2 (m : mat Qc) (u : vec Z) : Qc :=
  let v := vec_mat (vecZ u) m in (vx v * vx v + vy v * vy v + vz v * vz v)%Qc.
(** The length exceeds 1.01. *)
Definition over_101 (m : mat Qc) (u : vec Z) : Prop := (Q2Qc (10201 # 10000) < grid_len2 m u)%Qc.
(** What sits on point (i, j, k) of the grid repeated periodically. *)
Definition tiled (a : list (list (list Z))) (d w l : nat) (i j k : Z) : option Z :=
  entry a (Z.to_nat (i mod Z.of_nat d)) (Z.to_nat (j mod Z.of_nat w)) (Z.to_nat (k mod Z.of_nat l)).
(** Point of the box 0..d, 0..w, 0..l (both ends included). *)
Definition in_box (d w l : nat) (i j k : Z) : Prop :=
  0 <= i <= Z.of_nat d /\ 0 <= j <= Z.of_nat w /\ 0 <= k <= Z.of_nat l.
