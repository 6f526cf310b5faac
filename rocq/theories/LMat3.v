(** Integer 3x3 matrices: products, adjugates, lattices spanned by rows. *)
From Verif Require Import Base BaseQ LQ SLattice MHnf.
Set Implicit Arguments.
Unset Strict Implicit.
Open Scope Z_scope.

Definition zmul (a b : mat Z) : mat Z := vmap (fun r => zcomb r b) a.
Definition zadj (m : mat Z) : mat Z :=
  let '(V3 (V3 a b c) (V3 p q r) (V3 x y z)) := m in
  V3 (V3 (q*z - r*y) (c*y - b*z) (b*r - c*q))
     (V3 (r*x - p*z) (a*z - c*x) (c*p - a*r))
     (V3 (p*y - q*x) (b*x - a*y) (a*q - b*p)).
Definition zmscale (k : Z) (m : mat Z) : mat Z := vmap (zvscale k) m.

Lemma vec_eq A (v w : vec A) : vx v = vx w -> vy v = vy w -> vz v = vz w -> v = w.
Proof. destruct v, w; cbn; congruence. Qed.

Ltac dmat :=
  repeat match goal with
  | m : mat _ |- _ => destruct m as [[? ? ?] [? ? ?] [? ? ?]]
  | v : vec _ |- _ => destruct v as [? ? ?]
  end.
Ltac mcbv := cbv [zmul zcomb zvadd zvsub zvscale vmap zadj zdet zid vx vy vz transpose zrot zdot zmscale].
Ltac mring := intros; dmat; mcbv; repeat apply vec_eq; cbv [vx vy vz]; try ring.

Lemma zmul_assoc a b c : zmul (zmul a b) c = zmul a (zmul b c).
Proof. mring. Qed.
Lemma zcomb_zmul v a b : zcomb (zcomb v a) b = zcomb v (zmul a b).
Proof. mring. Qed.
Lemma zmul_id_r a : zmul a zid = a.
Proof. mring. Qed.
Lemma zmul_id_l a : zmul zid a = a.
Proof. mring. Qed.
Lemma zcomb_id v : zcomb v zid = v.
Proof. mring. Qed.
Lemma zmul_adj_r m : zmul m (zadj m) = zmscale (zdet m) zid.
Proof. mring. Qed.
Lemma zmul_adj_l m : zmul (zadj m) m = zmscale (zdet m) zid.
Proof. mring. Qed.
Lemma zdet_mul a b : zdet (zmul a b) = zdet a * zdet b.
Proof. mring. Qed.
Lemma zmul_scale_r a k b : zmul a (zmscale k b) = zmscale k (zmul a b).
Proof. mring. Qed.
Lemma zmul_scale_l a k b : zmul (zmscale k a) b = zmscale k (zmul a b).
Proof. mring. Qed.
Lemma zcomb_scale k v m : zcomb (zvscale k v) m = zvscale k (zcomb v m).
Proof. mring. Qed.
Lemma zcomb_mscale k v m : zcomb v (zmscale k m) = zvscale k (zcomb v m).
Proof. mring. Qed.
Lemma zcomb_add a b m : zcomb (zvadd a b) m = zvadd (zcomb a m) (zcomb b m).
Proof. mring. Qed.
Lemma zcomb_sub a b m : zcomb (zvsub a b) m = zvsub (zcomb a m) (zcomb b m).
Proof. mring. Qed.
Lemma zdet_transpose m : zdet (transpose m) = zdet m.
Proof. mring. Qed.
Lemma zmul_transpose a b : transpose (zmul a b) = zmul (transpose b) (transpose a).
Proof. mring. Qed.
Lemma transpose_invol A (m : mat A) : transpose (transpose m) = m.
Proof. now dmat. Qed.
Lemma zrot_comb r v : zrot r v = zcomb v (transpose r).
Proof. mring. Qed.
Lemma zdet_id : zdet zid = 1.
Proof. reflexivity. Qed.

Lemma zvscale_inj k v w : k <> 0 -> zvscale k v = zvscale k w -> v = w.
Proof.
  intros K H. dmat. cbn in H. injection H as A B C.
  apply Z.mul_reg_l in A, B, C; trivial. now subst.
Qed.
Lemma zmscale_inj k v w : k <> 0 -> zmscale k v = zmscale k w -> v = w.
Proof.
  intros K H. destruct v, w. cbn in H. injection H as A B C.
  f_equal; eapply zvscale_inj; eauto; unfold zvscale; congruence.
Qed.
Lemma zmul_inj_r a b h : zdet h <> 0 -> zmul a h = zmul b h -> a = b.
Proof.
  intros D H. apply (zmscale_inj D).
  rewrite <- (zmul_id_r a), <- (zmul_id_r b), <- !zmul_scale_r, <- !zmul_adj_r, <- !zmul_assoc. congruence.
Qed.
Lemma zcomb_inj a b h : zdet h <> 0 -> zcomb a h = zcomb b h -> a = b.
Proof.
  intros D H. apply (zvscale_inj D).
  rewrite <- (zcomb_id a), <- (zcomb_id b), <- !zcomb_mscale, <- !zmul_adj_r, <- !zcomb_zmul. congruence.
Qed.

(** Lattices *)
Lemma span_add m v w : in_span m v -> in_span m w -> in_span m (zvadd v w).
Proof. intros [a ->] [b ->]. exists (zvadd a b). now rewrite zcomb_add. Qed.
Lemma span_sub m v w : in_span m v -> in_span m w -> in_span m (zvsub v w).
Proof. intros [a ->] [b ->]. exists (zvsub a b). now rewrite zcomb_sub. Qed.
Lemma span_scale m k v : in_span m v -> in_span m (zvscale k v).
Proof. intros [a ->]. exists (zvscale k a). now rewrite zcomb_scale. Qed.
Lemma span_comb m k n : in_span m (vx n) -> in_span m (vy n) -> in_span m (vz n) -> in_span m (zcomb k n).
Proof. intros A B C. unfold zcomb. repeat apply span_add; apply span_scale; trivial. Qed.
Lemma span_row1 m : in_span m (vx m).
Proof. exists (V3 1 0 0). mring. Qed.
Lemma span_row2 m : in_span m (vy m).
Proof. exists (V3 0 1 0). mring. Qed.
Lemma span_row3 m : in_span m (vz m).
Proof. exists (V3 0 0 1). mring. Qed.
Lemma span_incl m n : in_span m (vx n) -> in_span m (vy n) -> in_span m (vz n) ->
  forall v, in_span n v -> in_span m v.
Proof. intros A B C v [k ->]. now apply span_comb. Qed.

Lemma same_lattice_rows m n :
  in_span m (vx n) -> in_span m (vy n) -> in_span m (vz n) ->
  in_span n (vx m) -> in_span n (vy m) -> in_span n (vz m) -> same_lattice m n.
Proof. intros. split; now apply span_incl. Qed.
Lemma same_lattice_refl m : same_lattice m m.
Proof. intros v; tauto. Qed.
Lemma same_lattice_sym m n : same_lattice m n -> same_lattice n m.
Proof. intros H v. now rewrite (H v). Qed.
Lemma same_lattice_trans m n o : same_lattice m n -> same_lattice n o -> same_lattice m o.
Proof. intros H K v. now rewrite (H v). Qed.

Lemma span_incl_factor m n : (forall v, in_span n v -> in_span m v) <-> exists u, n = zmul u m.
Proof.
  split.
  - intros H. destruct (H _ (span_row1 n)) as [a A], (H _ (span_row2 n)) as [b B], (H _ (span_row3 n)) as [c C].
    exists (V3 a b c). unfold zmul, vmap; cbn. rewrite <- A, <- B, <- C. now destruct n.
  - intros [u ->] v [k ->]. exists (zcomb k u). now rewrite zcomb_zmul.
Qed.

Lemma same_lattice_det m n : same_lattice m n -> Z.abs (zdet m) = Z.abs (zdet n).
Proof.
  intros H.
  destruct (proj1 (span_incl_factor m n)) as [u U]; [intros v; apply H|].
  destruct (proj1 (span_incl_factor n m)) as [w W]; [intros v; apply H|].
  assert (D1 : zdet n = zdet u * zdet m) by (rewrite U at 1; apply zdet_mul).
  assert (D2 : zdet m = zdet w * zdet n) by (rewrite W at 1; apply zdet_mul).
  destruct (Z.eq_dec (zdet m) 0) as [E|E]; [rewrite E in *; lia|].
  assert (E' : zdet n <> 0) by (intros E'; rewrite E' in *; lia).
  assert (zdet u * zdet w = 1).
  { apply (Z.mul_reg_r _ _ (zdet n)); [exact E'|]. rewrite D1 at 2. rewrite D2. ring. }
  assert (Z.abs (zdet u) = 1) by (destruct (Z.mul_eq_1 _ _ H0) as [->| ->]; reflexivity).
  rewrite D1, Z.abs_mul. nia.
Qed.

(** Inclusion between lattices of equal index is equality. *)
Lemma span_incl_same m n : Z.abs (zdet m) = Z.abs (zdet n) -> zdet m <> 0 ->
  (forall v, in_span n v -> in_span m v) -> same_lattice m n.
Proof.
  intros E D H. apply span_incl_factor in H. destruct H as [u U].
  assert (Du : zdet n = zdet u * zdet m) by (rewrite U; apply zdet_mul).
  assert (A : Z.abs (zdet u) = 1) by (rewrite Du, Z.abs_mul in E; apply (Z.mul_reg_r _ _ (Z.abs (zdet m))); lia).
  intros v; split; intros [k ->].
  - (* m = u^-1 n *)
    exists (zvscale (zdet u) (zcomb k (zadj u))). rewrite U, <- zcomb_zmul, zcomb_scale, (zcomb_zmul k), zmul_adj_l.
    rewrite zcomb_mscale, zcomb_id.
    assert (Q : zdet u * zdet u = 1) by nia.
    rewrite zcomb_scale, zcomb_scale.
    destruct (zcomb k m) as [p q r]. unfold zvscale; cbn. rewrite !Z.mul_assoc, Q, !Z.mul_1_l. reflexivity.
  - rewrite U. exists (zcomb k u). now rewrite zcomb_zmul.
Qed.

Lemma span_neg m v w : in_span m (zvsub v w) -> in_span m (zvsub w v).
Proof. intros K. apply (span_scale (-1)) in K. replace (zvsub w v) with (zvscale (-1) (zvsub v w)); [exact K|]. mring. Qed.
Lemma span_chain m u v w : in_span m (zvsub u v) -> in_span m (zvsub v w) -> in_span m (zvsub u w).
Proof.
  intros A B. replace (zvsub u w) with (zvadd (zvsub u v) (zvsub v w)); [now apply span_add|]. mring.
Qed.
