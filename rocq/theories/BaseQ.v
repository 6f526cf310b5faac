(** Exact rational arithmetic used for coordinates.  Python floats are idealised as
    exact rationals in canonical form ([Qc], so Leibniz equality is numeric
    equality). *)
From Coq Require Export QArith Qcanon Qround Lqa.
From Verif Require Import Base.
Set Implicit Arguments.
Open Scope Z_scope.

Definition Qcleb (x y : Qc) : bool := Qle_bool (this x) (this y).
Definition Qcltb (x y : Qc) : bool := negb (Qle_bool (this y) (this x)).
Definition Qceqb (x y : Qc) : bool := Qeq_bool (this x) (this y).

Definition Zc (z : Z) : Qc := Q2Qc (inject_Z z).

(** floor *)
Definition Qcfloor (x : Qc) : Z := Qfloor (this x).

(** Python [x % 1] (result in [0,1)). *)
Definition mod1 (x : Qc) : Qc := (x - Zc (Qcfloor x))%Qc.

(** Round to the nearest integer, ties to even (IEEE / numpy / Python [round]). *)
Definition round_even (x : Qc) : Z :=
  let f := Qcfloor x in
  let d := (x - Zc f)%Qc in
  let half := Q2Qc (1 # 2) in
  if Qcltb d half then f
  else if Qceqb d half then (if Z.even f then f else f + 1)
  else f + 1.

Fixpoint pow10 (n : nat) : positive :=
  match n with O => 1%positive | S k => (10 * pow10 k)%positive end.

(** [np.around(x, decimals=d)] / [round(x, d)] *)
Definition around (d : nat) (x : Qc) : Qc :=
  Q2Qc (round_even (x * Zc (Zpos (pow10 d)))%Qc # pow10 d).

(** 3-vectors and 3x3 matrices (three rows). *)
Record vec (A : Type) := V3 { vx : A; vy : A; vz : A }.
Arguments V3 {A}.
Definition mat (A : Type) := vec (vec A).

Definition vmap A B (f : A -> B) (v : vec A) : vec B := V3 (f (vx v)) (f (vy v)) (f (vz v)).

Definition vadd (a b : vec Qc) : vec Qc := (V3 (vx a + vx b) (vy a + vy b) (vz a + vz b))%Qc.
Definition vsub (a b : vec Qc) : vec Qc := (V3 (vx a - vx b) (vy a - vy b) (vz a - vz b))%Qc.
Definition vscale (c : Qc) (a : vec Qc) : vec Qc := (V3 (c * vx a) (c * vy a) (c * vz a))%Qc.
Definition vdot (a b : vec Qc) : Qc := (vx a * vx b + vy a * vy b + vz a * vz b)%Qc.
Definition v0 : vec Qc := (V3 0 0 0)%Qc.

(** matrix times column vector; row vector times matrix *)
Definition mat_vec (m : mat Qc) (v : vec Qc) : vec Qc := V3 (vdot (vx m) v) (vdot (vy m) v) (vdot (vz m) v).
Definition vec_mat (v : vec Qc) (m : mat Qc) : vec Qc :=
  vadd (vadd (vscale (vx v) (vx m)) (vscale (vy v) (vy m))) (vscale (vz v) (vz m)).
Definition mat_mul (a b : mat Qc) : mat Qc := vmap (fun r => vec_mat r b) a.
Definition matZ (m : mat Z) : mat Qc := vmap (vmap Zc) m.
Definition vecZ (v : vec Z) : vec Qc := vmap Zc v.
