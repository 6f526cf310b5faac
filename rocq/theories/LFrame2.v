(** Superlattices listed in two bases of one lattice. *)
From Verif Require Import Base LBase BaseQ LMat3 SLattice MHnf LHnf SSubst LSuper LSuper2 SOcc SEnum SSym SChoice LChoice PHnf.
Set Implicit Arguments.
Unset Strict Implicit.
Open Scope Z_scope.

Lemma rot_carries_rows r m : rot_carries r m (zmul m (transpose r)).
Proof.
  split.
  - intros v (k & ->). exists k. rewrite zrot_comb. apply zcomb_zmul.
  - intros w (k & ->). exists (zcomb k m). split; [now exists k|]. rewrite zrot_comb. symmetry. apply zcomb_zmul.
Qed.

Lemma zmscale_one m : zmscale 1 m = m.
Proof. mring. Qed.
Lemma zmscale_mul k l m : zmscale k (zmscale l m) = zmscale (k * l) m.
Proof. mring. Qed.

Section Bases.
Variables (A : mat Z) (rots rots' : list (mat Z)).
Hypothesis UA : unimodular A.
Hypothesis H1 : forall r, In r rots -> exists r', In r' rots' /\ forall v, zrot r' (zrot A v) = zrot A (zrot r v).
Hypothesis H2 : forall r', In r' rots' -> exists r, In r rots /\ forall v, zrot r' (zrot A v) = zrot A (zrot r v).
Let B : mat Z := zmscale (zdet A) (zadj (transpose A)).
Let f (m : mat Z) : mat Z := zmul m (transpose A).

Lemma det_sq : zdet A * zdet A = 1.
Proof. destruct UA as [-> | ->]; reflexivity. Qed.
Lemma back_left : zmul B (transpose A) = zid.
Proof. unfold B. rewrite zmul_scale_l, zmul_adj_l, zmscale_mul, zdet_transpose, det_sq. apply zmscale_one. Qed.
Lemma back_right : zmul (transpose A) B = zid.
Proof. unfold B. rewrite zmul_scale_r, zmul_adj_r, zmscale_mul, zdet_transpose, det_sq. apply zmscale_one. Qed.
Lemma zrot_inj v w : zrot A v = zrot A w -> v = w.
Proof.
  rewrite !zrot_comb. intros E. apply (zcomb_inj (h := transpose A)); [|exact E]. rewrite zdet_transpose. destruct UA as [-> | ->]; discriminate.
Qed.
Lemma basis_equiv m n : lat_equiv rots m n <-> lat_equiv rots' (f m) (f n).
Proof.
  destruct (rot_carries_rows A m) as [M1 M2]. destruct (rot_carries_rows A n) as [N1 N2]. fold (f m) in M1, M2. fold (f n) in N1, N2. split.
  - intros (r & Hr & C1 & C2). destruct (H1 Hr) as (r' & Hr' & K). exists r'. split; [exact Hr'|]. split.
    + intros v Hv. destruct (M2 v Hv) as (u & Hu & ->). rewrite K. apply N1, C1, Hu.
    + intros w Hw. destruct (N2 w Hw) as (u & Hu & ->). destruct (C2 u Hu) as (x & Hx & ->). exists (zrot A x). split; [now apply M1|]. symmetry. apply K.
  - intros (r' & Hr' & C1 & C2). destruct (H2 Hr') as (r & Hr & K). exists r. split; [exact Hr|]. split.
    + intros v Hv. specialize (C1 _ (M1 _ Hv)). rewrite K in C1. destruct (N2 _ C1) as (u & Hu & E). apply zrot_inj in E. now rewrite E.
    + intros w Hw. destruct (C2 _ (N1 _ Hw)) as (x & Hx & E). destruct (M2 _ Hx) as (v & Hv & ->). rewrite K in E. apply zrot_inj in E. now exists v.
Qed.
Lemma basis_det m : Z.abs (zdet (f m)) = Z.abs (zdet m).
Proof. unfold f. rewrite zdet_mul, zdet_transpose, Z.abs_mul. destruct UA as [-> | ->]; cbn [Z.abs]; now rewrite Z.mul_1_r. Qed.
Lemma basis_onto m : f (zmul m B) = m.
Proof. unfold f. now rewrite zmul_assoc, back_left, zmul_id_r. Qed.

Lemma classes_to_basis l l' : same_classes (lat_equiv rots') (map f l) l' -> same_classes (same_superlattice_in A rots') l l'.
Proof.
  intros (l2 & P & F). exists l2. split; [exact P|]. clear P. revert l2 F. induction l as [|m l IH]; intros l2 F; inversion F as [|? m' ? ? E F']; subst; constructor; [|auto].
  exists (f m). split; [apply rot_carries_rows|exact E].
Qed.
Lemma bases_match n l l' : rot_group rots' ->
  transversal (lat_equiv rots) (fun m => Z.abs (zdet m) = n) l -> transversal (lat_equiv rots') (fun m => Z.abs (zdet m) = n) l' -> same_classes (same_superlattice_in A rots') l l'.
Proof.
  intros G T T'. apply classes_to_basis. apply (transversal_match (E := lat_equiv rots') (D := fun m => Z.abs (zdet m) = n)); [| | |exact T'].
  - intros x y _. now apply lat_equiv_sym.
  - intros x y z _. now apply lat_equiv_trans.
  - apply (transversal_map (E := lat_equiv rots) (D := fun m => Z.abs (zdet m) = n)); [| | |exact T].
    + intros x Dx. now rewrite basis_det.
    + intros y Dy. exists (zmul y B). split; [|apply basis_onto]. now rewrite <- basis_det, basis_onto.
    + intros x y _ _. apply basis_equiv.
Qed.
Lemma plane_fwd m : in_plane A -> in_plane m -> in_plane (f m).
Proof.
  intros (p & q & r & s & EA) (a & b & c & d & ->). unfold f. rewrite EA. unfold in_plane. mcbv.
  exists (a * p + b * q), (a * r + b * s), (c * p + d * q), (c * r + d * s). repeat apply vec_eq; cbv [BaseQ.vx BaseQ.vy BaseQ.vz]; ring.
Qed.
Lemma plane_back m : in_plane A -> in_plane m -> in_plane (zmul m B).
Proof.
  intros (p & q & r & s & EA) (a & b & c & d & ->). assert (D := det_sq). unfold B. rewrite EA in *. 
  assert (E : zdet (V3 (V3 p q 0) (V3 r s 0) (V3 0 0 1)) = p * s - q * r) by (mcbv; ring). rewrite E in *.
  unfold in_plane. mcbv.
  set (k := p * s - q * r) in *.
  exists (k * (a * s - b * q)), (k * (b * p - a * r)), (k * (c * s - d * q)), (k * (d * p - c * r)). repeat apply vec_eq; cbv [BaseQ.vx BaseQ.vy BaseQ.vz]; try ring.
  transitivity (k * k); [unfold k; ring|exact D].
Qed.
Lemma plane_match n l l' : in_plane A -> rot_group rots' ->
  transversal (lat_equiv rots) (fun m => in_plane m /\ Z.abs (zdet m) = n) l ->
  transversal (lat_equiv rots') (fun m => in_plane m /\ Z.abs (zdet m) = n) l' -> same_classes (same_superlattice_in A rots') l l'.
Proof.
  intros PA G T T'. apply classes_to_basis. apply (transversal_match (E := lat_equiv rots') (D := fun m => in_plane m /\ Z.abs (zdet m) = n)); [| | |exact T'].
  - intros x y _. now apply lat_equiv_sym.
  - intros x y z _. now apply lat_equiv_trans.
  - apply (transversal_map (E := lat_equiv rots) (D := fun m => in_plane m /\ Z.abs (zdet m) = n)); [| | |exact T].
    + intros x (Px & Dx). split; [now apply plane_fwd|]. now rewrite basis_det.
    + intros y (Py & Dy). exists (zmul y B). split; [|apply basis_onto]. split; [now apply plane_back|]. now rewrite <- basis_det, basis_onto.
    + intros x y _ _. apply basis_equiv.
Qed.
End Bases.
