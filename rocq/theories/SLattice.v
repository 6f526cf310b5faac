(** Specification vocabulary for integer lattices (superlattices), independent of the
    code: integer 3x3 matrices, the lattice spanned by the rows, determinants. *)
From Verif Require Import Base BaseQ.
Set Implicit Arguments.
Open Scope Z_scope.

Definition zvadd (a b : vec Z) : vec Z := V3 (vx a + vx b) (vy a + vy b) (vz a + vz b).
Definition zvsub (a b : vec Z) : vec Z := V3 (vx a - vx b) (vy a - vy b) (vz a - vz b).
Definition zvscale (k : Z) (a : vec Z) : vec Z := V3 (k * vx a) (k * vy a) (k * vz a).

(** [x * vx m + y * vy m + z * vz m]: integer combination of the rows. *)
Definition zcomb (v : vec Z) (m : mat Z) : vec Z :=
  zvadd (zvadd (zvscale (vx v) (vx m)) (zvscale (vy v) (vy m))) (zvscale (vz v) (vz m)).

(** [v] belongs to the lattice spanned by the rows of [m]. *)
Definition in_span (m : mat Z) (v : vec Z) : Prop := exists k, v = zcomb k m.

Definition same_lattice (m n : mat Z) : Prop := forall v, in_span m v <-> in_span n v.

Definition zdet (m : mat Z) : Z :=
  vx (vx m) * (vy (vy m) * vz (vz m) - vz (vy m) * vy (vz m))
  - vy (vx m) * (vx (vy m) * vz (vz m) - vz (vy m) * vx (vz m))
  + vz (vx m) * (vx (vy m) * vy (vz m) - vy (vy m) * vx (vz m)).

(** Upper triangular Hermite normal form of determinant [n]. *)
Definition is_hnf (n : Z) (h : mat Z) : Prop :=
  exists a b c d e f,
    h = V3 (V3 a b d) (V3 0 c e) (V3 0 0 f) /\
    1 <= a /\ 1 <= c /\ 1 <= f /\ a * c * f = n /\ 0 <= b < c /\ 0 <= d < f /\ 0 <= e < f.

(** The same in the plane. *)
Definition is_hnf2 (n : Z) (h : mat Z) : Prop :=
  exists a b c, h = V3 (V3 a b 0) (V3 0 c 0) (V3 0 0 1) /\
    1 <= a /\ 1 <= c /\ a * c = n /\ 0 <= b < c.

(** A matrix that changes only the first two directions. *)
Definition in_plane (m : mat Z) : Prop :=
  exists p q r s, m = V3 (V3 p q 0) (V3 r s 0) (V3 0 0 1).

(** A rotation acts on column vectors of fractional coordinates. *)
Definition zdot (a b : vec Z) : Z := vx a * vx b + vy a * vy b + vz a * vz b.
Definition zrot (r : mat Z) (v : vec Z) : vec Z := V3 (zdot (vx r) v) (zdot (vy r) v) (zdot (vz r) v).
Definition zid : mat Z := V3 (V3 1 0 0) (V3 0 1 0) (V3 0 0 1).

(** [r] carries the lattice of [m] onto the lattice of [n]. *)
Definition rot_carries (r m n : mat Z) : Prop :=
  (forall v, in_span m v -> in_span n (zrot r v)) /\
  (forall w, in_span n w -> exists v, in_span m v /\ w = zrot r v).

(** Invertible integer rotations. *)
Definition unimodular (r : mat Z) : Prop := zdet r = 1 \/ zdet r = -1.

(** The listed rotations form a group (of invertible integer matrices), stated through
    their action. *)
Definition rot_group (rots : list (mat Z)) : Prop :=
  (forall r, In r rots -> unimodular r) /\
  In zid rots /\
  (forall r s, In r rots -> In s rots -> exists t, In t rots /\ forall v, zrot t v = zrot r (zrot s v)) /\
  (forall r, In r rots -> exists s, In s rots /\ forall v, zrot s (zrot r v) = v).

(** Equivalence of superlattices under the point group. *)
Definition lat_equiv (rots : list (mat Z)) (m n : mat Z) : Prop :=
  exists r, In r rots /\ rot_carries r m n.

(** An infinite crystal described by a cell: an atom of species [z] sits at the Cartesian
    point [v].  Atom [i] of the cell has fractional position [p] and occurs at every
    lattice translate of [p]. *)
Definition crystal_atom (lat : mat Qc) (pos : list (vec Qc)) (nums : list Z) (z : Z) (v : vec Qc) : Prop :=
  exists i p (s : vec Z),
    nth_error pos i = Some p /\ nth_error nums i = Some z /\ v = vec_mat (vadd p (vecZ s)) lat.

(** [list(set(l))] in an arbitrary order. *)
Definition set_order (sl : list Z -> list Z) : Prop :=
  forall l, NoDup (sl l) /\ forall x, In x (sl l) <-> In x l.

(** Matrices with non-negative entries. *)
Definition nonneg_mat (m : mat Z) : Prop :=
  (0 <= vx (vx m) /\ 0 <= vy (vx m) /\ 0 <= vz (vx m)) /\
  (0 <= vx (vy m) /\ 0 <= vy (vy m) /\ 0 <= vz (vy m)) /\
  (0 <= vx (vz m) /\ 0 <= vy (vz m) /\ 0 <= vz (vz m)).

(** Triangular matrices. *)
Definition upper (m : mat Z) : Prop := vx (vy m) = 0 /\ vx (vz m) = 0 /\ vy (vz m) = 0.
Definition lower (m : mat Z) : Prop := vy (vx m) = 0 /\ vz (vx m) = 0 /\ vz (vy m) = 0.

(** The half-open unit interval. *)
Definition in01 (x : Qc) : Prop := (0 <= x /\ x < 1)%Qc.
