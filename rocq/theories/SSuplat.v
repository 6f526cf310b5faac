(** Exactly which supercell is built, and which files suplat leaves behind. *)
From Coq Require Import String List ZArith Sorted Permutation.
From Verif Require Import Base BaseQ SElement SLattice SGeneralCell SIO SExact MGeneralCell MIO SOcc SCli MCli SListing.
Import ListNotations.
Open Scope nat_scope.

(** The lattice points in the half-open supercell, in its coordinates. *)
Definition inner_point (H : mat Z) (t : vec Qc) : Prop :=
  (in01 (vx t) /\ in01 (vy t) /\ in01 (vz t)) /\ exists v, vec_mat t (matZ H) = vecZ v.
(** The supercell [c] of [u] spanned by the rows of [H]: one image of every atom of [u] per
    inner point, in the order of the constructor. *)
Definition exact_supercell (u : gcell) (H : mat Z) (c : gcell) : Prop :=
  from_constructor c /\ lattice c = mat_mul (matZ H) (lattice u) /\
  exists ts blocks, NoDup ts /\ (forall t, In t ts <-> inner_point H t) /\
    Forall2 (fun (a : vec Qc * Z) block => Forall2 (fun t (b : vec Qc * Z) => snd b = snd a /\ vec_mat (fst b) (matZ H) = vadd (fst a) (vec_mat t (matZ H))) ts block)
      (combine (positions u) (numbers u)) blocks /\
    Permutation (combine (positions c) (numbers c)) (List.concat blocks).

(** The cell handed to spglib with the atoms numbered, and the species looked up again. *)
Definition exact_shape (std : mat Qc * list (vec Qc) * list Z -> mat Qc * list (vec Qc) * list Z) (c g : gcell) : Prop :=
  exists lat pos idx nums, std (lattice c, positions c, map Z.of_nat (seq 0 (length (numbers c)))) = (lat, pos, idx) /\
    Forall2 (fun i z => nth_error (numbers c) (Z.to_nat i) = Some z) idx nums /\ GeneralCell_new lat pos nums = Ok g.

(** The file of the superlattice [h] of [u]: its path and, character by character, its text. *)
Definition exact_suplat std (dump : ydoc -> string) (mode dir : string) (v : Z) (u : gcell) (suffix : string) (h : mat Z) (pt : string * string) : Prop :=
  exists c g sv com, exact_supercell u h c /\ exact_shape std c g /\ int_text v sv /\ formula (numbers g) com /\
    fst pt = (dir ++ "/SUPLAT_" ++ sv ++ "_" ++ suffix ++ "." ++ mode)%string /\
    (yaml_named (fst pt) None -> exists d, six_doc g com d /\ snd pt = dump d) /\
    (~ yaml_named (fst pt) None -> poscar_exact (lattice g) (positions g) (numbers g) 1 "direct" (snd pt)).
