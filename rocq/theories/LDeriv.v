(** Every derivative structure is found: operations as rigid motions of crystals. *)
From Verif Require Import Base LBase BaseQ LQ SLattice SGeneralCell LGeneralCell MGeneralCell SSym LSym SShape MHnf LMat3 LHnf LSuper LSuper2 LFrac LCrystal
  LGrid LShape LShape2 SDeriv.
Set Implicit Arguments.
Unset Strict Implicit.
Open Scope nat_scope.

Lemma op_image_add r t p s : op_image r t (vadd p (vecZ s)) = vadd (op_image r t p) (vecZ (zrot r s)).
Proof.
  destruct r as [[a b c] [d e f] [g h i]], t as [t1 t2 t3], p as [p1 p2 p3], s as [s1 s2 s3].
  unfold op_image, vadd, vecZ, vmap, zrot, zdot. cbn [vx vy vz]. rewrite !Zc_plus, !Zc_mult. f_equal; ring.
Qed.
Lemma int_shift_vec p q : int_shift p q <-> exists a, q = vadd p (vecZ a).
Proof.
  split.
  - intros (a & b & c & ->). exists (V3 a b c). reflexivity.
  - intros ([a b c] & ->). exists a, b, c. reflexivity.
Qed.
Lemma op_comp_fst a b : fst (op_comp a b) = zmul (fst a) (fst b).
Proof. destruct a as [[[? ? ?] [? ? ?] [? ? ?]] ?], b as [[[? ? ?] [? ? ?] [? ? ?]] ?]. reflexivity. Qed.

Lemma zrot_zid v : zrot zid v = v.
Proof. rewrite zrot_comb. change (transpose zid) with zid. apply zcomb_id. Qed.

Section Inverse.
Context (ops : list (mat Z * vec Qc)) (pos : list (vec Qc)).
Hypothesis X : exact_space_group ops pos.
Lemma op_inverse o : In o ops -> exists b, In b ops /\ zmul (fst b) (fst o) = zid.
Proof.
  intros H. destruct X as (_ & _ & I & _). destruct (I o H) as (b & Hb & [E _]). exists b. split; [exact Hb|].
  rewrite op_comp_fst in E. exact E.
Qed.
Lemma op_unimodular o : In o ops -> unimodular (fst o).
Proof.
  intros H. destruct (op_inverse H) as (b & _ & E). apply (f_equal zdet) in E. rewrite zdet_mul, zdet_id in E.
  apply Z.mul_eq_1 in E as E'. unfold unimodular. destruct E' as [E'|E']; rewrite E' in E; lia.
Qed.
Lemma op_back o s : In o ops -> exists s', zrot (fst o) s' = s.
Proof.
  intros H. destruct (op_inverse H) as (b & Hb & E). destruct (op_inverse Hb) as (c & Hc & E').
  assert (K : zmul (fst o) (fst b) = zid).
  { assert (fst o = fst c) as ->; [|exact E']. rewrite <- (zmul_id_l (fst o)), <- E', zmul_assoc, E. apply zmul_id_r. }
  exists (zrot (fst b) s). rewrite <- zrot_mul, K. apply zrot_zid.
Qed.
Lemma ops_rot_group : rot_group (List.map fst ops).
Proof.
  split; [|split; [|split]].
  - intros r R. apply in_map_iff in R as (o & <- & O). now apply op_unimodular.
  - destruct X as ((o & O & [E _]) & _). apply in_map_iff. exists o. split; [rewrite <- E; reflexivity|exact O].
  - intros r s R S. apply in_map_iff in R as (a & <- & A). apply in_map_iff in S as (b & <- & B).
    destruct X as (_ & C & _). destruct (C a b A B) as (c & Hc & [E _]). exists (fst c). split; [now apply in_map|].
    intros v. rewrite <- E, op_comp_fst. apply zrot_mul.
  - intros r R. apply in_map_iff in R as (a & <- & A). destruct (op_inverse A) as (b & B & E). exists (fst b).
    split; [now apply in_map|]. intros v. rewrite <- zrot_mul, E. apply zrot_zid.
Qed.
End Inverse.

(** Motions *)
Definition move (q : mat Qc) (w v : vec Qc) : vec Qc := vadd (vec_mat v q) w.
Definition unmove (q : mat Qc) (w v : vec Qc) : vec Qc := vec_mat (vsub v w) (flip q).
Lemma move_unmove q w v : orthogonal q -> move q w (unmove q w v) = v.
Proof. intros [_ E]. unfold move, unmove. rewrite vec_mat_mul, E, vec_mat_one. apply vadd_sub. Qed.
Lemma unmove_move q w v : orthogonal q -> unmove q w (move q w v) = v.
Proof. intros [E _]. unfold move, unmove. rewrite vsub_add, vec_mat_mul, E. apply vec_mat_one. Qed.
Lemma flip_mul a b : flip (mat_mul a b) = mat_mul (flip b) (flip a).
Proof. qm. Qed.
Lemma mat_mul_assoc a b c : mat_mul (mat_mul a b) c = mat_mul a (mat_mul b c).
Proof. qm. Qed.
Lemma mat_mul_one_r a : mat_mul a one = a.
Proof. qm. Qed.
Lemma mat_mul_one_l a : mat_mul one a = a.
Proof. qm. Qed.
Lemma orthogonal_mul a b : orthogonal a -> orthogonal b -> orthogonal (mat_mul a b).
Proof.
  intros [A A'] [B B']. split; rewrite flip_mul.
  - rewrite mat_mul_assoc, <- (mat_mul_assoc b), B, mat_mul_one_l. exact A.
  - rewrite mat_mul_assoc, <- (mat_mul_assoc (flip a)), A', mat_mul_one_l. exact B'.
Qed.
Lemma move_move a w b x v : move b x (move a w v) = move (mat_mul a b) (vadd (vec_mat w b) x) v.
Proof. unfold move. rewrite vec_mat_add, vec_mat_mul, vadd_assoc. reflexivity. Qed.

(** A symmetry operation permutes the crystal. *)
Section Op.
Context (L : mat Qc) (pos : list (vec Qc)) (ops : list (mat Z * vec Qc)) (o : mat Z * vec Qc) (q : mat Qc) (w : vec Qc).
Hypothesis ND : NoDup (List.map tofrac pos).
Hypothesis X : exact_space_group ops pos.
Hypothesis Ho : In o ops.
Hypothesis OQ : orthogonal q.
Hypothesis E : forall p, vec_mat (op_image (fst o) (snd o) p) L = move q w (vec_mat p L).

Lemma lin_lattice s : vec_mat (vec_mat (vecZ s) L) q = vec_mat (vecZ (zrot (fst o) s)) L.
Proof.
  pose proof (E v0) as E0. pose proof (E (vadd v0 (vecZ s))) as E1. rewrite op_image_add, vec_mat_add, E0 in E1.
  unfold move in E1. rewrite vec_mat_add, vec_mat_add in E1.
  generalize dependent (vec_mat (vec_mat (vecZ s) L) q).
  generalize (vec_mat (vecZ (zrot (fst o) s)) L) (vec_mat (vec_mat v0 L) q). intros b a k E1.
  rewrite vadd_swap in E1. apply (f_equal (fun u => vsub (vsub u w) a)) in E1.
  rewrite !vsub_add, !vsub_front in E1. symmetry. exact E1.
Qed.
Lemma move_lattice v s : move q w (vadd v (vec_mat (vecZ s) L)) = vadd (move q w v) (vec_mat (vecZ (zrot (fst o) s)) L).
Proof. unfold move. rewrite vec_mat_add, lin_lattice. apply vadd_swap. Qed.

Lemma op_crystal (x y : list Z) : length x = length pos -> length y = length pos ->
  (forall i j p p', nth_error pos j = Some p -> nth_error pos i = Some p' -> carries_exactly o p p' -> nth_error x j = nth_error y i) ->
  forall z v, crystal_atom L pos x z v <-> crystal_atom L pos y z (move q w v).
Proof.
  intros Lx Ly H z v. split.
  - intros (j & p & s & P & Z & ->). destruct X as (_ & _ & _ & M).
    destruct (M o p Ho (nth_error_In _ _ P)) as (p' & I & C). apply In_nth_error in I as (i & I).
    assert (Y : nth_error y i = Some z) by (rewrite <- (H i j p p' P I C); exact Z).
    unfold carries_exactly in C. apply int_shift_sym, int_shift_vec in C as (a & C).
    exists i, p', (zvadd a (zrot (fst o) s)). split; [exact I|]. split; [exact Y|].
    rewrite <- E, op_image_add, C, vecZ_add, vadd_assoc. reflexivity.
  - intros (i & p' & s & P & Z & EV). destruct (exact_maps_sites ND X Ho) as [_ M].
    destruct (M p' (nth_error_In _ _ P)) as (p & I & C). apply (carries_to_exact ND X Ho I (nth_error_In _ _ P)) in C.
    apply In_nth_error in I as (j & I).
    assert (Y : nth_error x j = Some z) by (rewrite (H i j p p' I P C); exact Z).
    unfold carries_exactly in C. apply int_shift_vec in C as (a & C). subst p'.
    destruct (op_back X (zvadd a s) Ho) as (s' & S).
    exists j, p, s'. split; [exact I|]. split; [exact Y|].
    rewrite <- (unmove_move w v OQ), EV, <- (unmove_move w (vec_mat (vadd p (vecZ s')) L) OQ). f_equal.
    rewrite <- E, op_image_add, S, vecZ_add, vadd_assoc. reflexivity.
Qed.
End Op.
