(** Specification vocabulary for restrictions. *)
From Coq Require Import String Ascii.
From Verif Require Import Base BaseQ MGeneralCell SLattice.
Open Scope Z_scope.

(** Site [i] of the cell is an atom the restriction looks at, at fractional position [p]. *)
Definition target_atom (ele : option Z) (c : gcell) (i : nat) (p : vec Qc) : Prop :=
  nth_error (positions c) i = Some p /\
  exists z, nth_error (numbers c) i = Some z /\ (ele = None \/ ele = Some z).

(** Squared length of the Cartesian vector from [q] to the image of [p] shifted by the
    cell offset [o]. *)
Definition image_dist2 (L : mat Qc) (p : vec Qc) (o : vec Z) (q : vec Qc) : Qc :=
  let w := vec_mat (vsub (vadd p (vecZ o)) q) L in (vx w * vx w + vy w * vy w + vz w * vz w)%Qc.

(** A length whose square is [d2] exceeds [t]. *)
Definition exceeds (d2 t : Qc) : Prop := (t < 0 \/ t * t < d2)%Qc.

Definition near_offset (o : vec Z) : Prop := -1 <= vx o <= 1 /\ -1 <= vy o <= 1 /\ -1 <= vz o <= 1.

(** All pairs of distinct target atoms with cell offsets allowed by [P] are farther apart
    than [t]. *)
Definition all_far (P : vec Z -> Prop) (ele : option Z) (t : Qc) (c : gcell) : Prop :=
  forall i j p q o, target_atom ele c i p -> target_atom ele c j q -> P o ->
    i <> j \/ o <> V3 0 0 0 -> exceeds (image_dist2 (lattice c) p o q) t.

(** The three lattice vectors are mutually orthogonal. *)
Definition orthogonal (L : mat Qc) : Prop :=
  vdot (vx L) (vy L) = 0%Qc /\ vdot (vx L) (vz L) = 0%Qc /\ vdot (vy L) (vz L) = 0%Qc.
Definition wrapped (p : vec Qc) : Prop := in01 (vx p) /\ in01 (vy p) /\ in01 (vz p).

(** Characters '0'..'9'. *)
Definition digits10 : list ascii := ["0"; "1"; "2"; "3"; "4"; "5"; "6"; "7"; "8"; "9"]%char.
Fixpoint no_digit (s : string) : Prop :=
  match s with EmptyString => True | String c r => ~ In c digits10 /\ no_digit r end.
(** The text does not begin with a digit. *)
Definition no_digit_first (s : string) : Prop :=
  match s with EmptyString => True | String c _ => ~ In c digits10 end.
(** What spglib prints: symbol and number in parentheses, e.g. 'P4/mmm (123)'. *)
Definition spg_text (symbol number : string) : string := (symbol ++ (" (" ++ (number ++ ")")))%string.
