(** C88: derivative structures without a shorter period are listed exactly once. *)
From Coq Require Import String.
From Verif Require Import Base LBase BaseQ LQ SLattice SGeneralCell MGeneralCell SSym SSubst SOcc SEnum SModCell SShape MHnf LHnf LMat3 LCrystal LShape LSuper
  MComb MSogen LDup LSogen LFilter LComb SDeriv SOnce LDeriv LDeriv2 LDeriv3 LOnce LPrim LCli8 PHnf PSuper PDeriv LMisc LSymDec.
Open Scope nat_scope.
Notation length := List.length.

(** Take what any of the generators lists for all superlattices of one index, in space or in the
    plane.  A structure whose cell is smallest is not listed again: neither for the same superlattice
    nor for another one, not even moved by a symmetry of the parent.  The parent cell has to be
    smallest itself (which suplat checks) and the symmetry groups have to be complete. *)
Theorem C88_once : forall sl il u ops n spg wy hash dup out a1 b1 g1 a2 b2 g2,
  set_order sl -> from_constructor u -> volume (lattice u) <> 0%Qc -> smallest (cell_of u) ->
  symmetries_of ops u -> all_symmetries ops (cell_of u) -> (0 < n < 2000)%Z ->
  hnfs_from_n sl il (map fst ops) u n = Ok out \/ hnfs_from_n_2d sl il (map fst ops) u n = Ok out ->
  (forall s c, In s out -> to_general_cell s = Ok c -> symmetries_of (spg c) c /\ all_symmetries (spg c) (cell_of c)) ->
  (forall o, from_constructor (init_cell o) -> Forall (same_frame (init_cell o)) (items (dup o))) ->
  listed_at spg wy hash dup out a1 b1 g1 -> listed_at spg wy hash dup out a2 b2 g2 -> smallest (cell_of g1) ->
  same_structure (cell_of u) (atom_at (cell_of g1)) (atom_at (cell_of g2)) -> a1 = a2 /\ b1 = b2.
Proof.
  intros sl il u ops n spg wy hash dup out a1 b1 g1 a2 b2 g2 SL FU VU SM SU AU N Eo SP FR H1 H2 S1 SS.
  assert (N0 : (0 < n)%Z) by lia. pose proof (ops_rot_group (proj1 (proj2 SU))) as RG.
  refine (@once_core ops u n FU VU SM SU AU _ spg wy hash dup out _ _ SP FR a1 b1 g1 a2 b2 g2 H1 H2 S1 SS).
  - lia.
  - destruct Eo as [Eo|Eo]; [exact (gen3_made SL N0 Eo)|exact (gen2_made SL N0 Eo)].
  - destruct Eo as [Eo|Eo].
    + destruct (proj1 (C34_one_per_class sl il (map fst ops) u n SL RG) N) as (all & out' & _ & Eo' & _ & (_ & _ & T)). congruence.
    + destruct (C35_plane_classes sl il (map fst ops) u n SL RG N) as (all & out' & _ & Eo' & _ & (_ & _ & T)). congruence.
Qed.
Print Assumptions C88_once.

(** If the parent has one species only, no motion whatever makes two of them equal. *)
Theorem C88_once_any_motion : forall sl il u ops n spg wy hash dup out a1 b1 g1 a2 b2 g2 z0,
  set_order sl -> from_constructor u -> volume (lattice u) <> 0%Qc -> smallest (cell_of u) ->
  symmetries_of ops u -> all_symmetries ops (cell_of u) -> (0 < n < 2000)%Z ->
  hnfs_from_n sl il (map fst ops) u n = Ok out \/ hnfs_from_n_2d sl il (map fst ops) u n = Ok out ->
  (forall s c, In s out -> to_general_cell s = Ok c -> symmetries_of (spg c) c /\ all_symmetries (spg c) (cell_of c)) ->
  (forall o, from_constructor (init_cell o) -> Forall (same_frame (init_cell o)) (items (dup o))) ->
  listed_at spg wy hash dup out a1 b1 g1 -> listed_at spg wy hash dup out a2 b2 g2 -> smallest (cell_of g1) ->
  Forall (eq z0) (numbers u) -> same_up_to_motion (cell_of g2) (cell_of g1) -> a1 = a2 /\ b1 = b2.
Proof.
  intros sl il u ops n spg wy hash dup out a1 b1 g1 a2 b2 g2 z0 SL FU VU SM SU AU N Eo SP FR H1 H2 S1 Z0 (q & t & O & M).
  refine (C88_once sl il u ops n spg wy hash dup out a1 b1 g1 a2 b2 g2 SL FU VU SM SU AU N Eo SP FR H1 H2 S1 _).
  exists q, t. split; [exact O|]. split; [|exact M].
  assert (N0 : (0 < n)%Z) by lia. assert (N1 : (0 < n < 100000)%Z) by lia.
  assert (SI : forall a b g, listed_at spg wy hash dup out a b g -> forall v, (exists z, atom_at (cell_of g) z v) <-> atom_at (cell_of u) z0 v).
  { intros a b g L v. assert (MO : Forall (made_of (map fst ops) u n) out) by (destruct Eo as [Eo|Eo]; [exact (gen3_made SL N0 Eo)|exact (gen2_made SL N0 Eo)]).
    destruct (@listed_same ops u n FU N1 spg wy hash dup out MO SP FR a b g L) as (c & FC & CR & G).
    rewrite <- (CR z0 v). destruct G as (GL & GP & _ & GN & _). destruct (from_constructor_facts FC) as (_ & _ & Lc & _). unfold atom_at, cell_of. rewrite GL, GP. split.
    - intros (z & i & p & s & P & _ & ->). destruct (nth_pair (x := numbers c) (eq_sym Lc) P) as (y & Y). exists i, p, s. split; [exact P|]. split; [|reflexivity].
      rewrite Y. f_equal. assert (A : atom_at (cell_of u) y (vec_mat (vadd p (vecZ s)) (lattice c))) by (apply CR; exists i, p, s; auto).
      destruct A as (j & p' & s' & _ & Y' & _). rewrite Forall_forall in Z0. symmetry. apply Z0. eapply nth_error_In; exact Y'.
    - intros (i & p & s & P & _ & ->). destruct (nth_pair (x := numbers g) (eq_trans GN (eq_sym Lc)) P) as (y & Y). exists y, i, p, s. auto. }
  intros z v. assert (Z : forall y x, atom_at (cell_of u) y x -> y = z0).
  { intros y x (j & p' & s' & _ & Y' & _). rewrite Forall_forall in Z0. symmetry. apply Z0. eapply nth_error_In; exact Y'. }
  split; intros A; pose proof (Z _ _ A) as ->.
  - apply (SI _ _ _ H2). apply (SI _ _ _ H1) in A as (y & A). exists y. now apply M.
  - apply (SI _ _ _ H1). apply (SI _ _ _ H2) in A as (y & A). exists y. now apply M.
Qed.
Print Assumptions C88_once_any_motion.

Lemma dup_frames o P n sp t : dup_statement o P n sp t -> Forall (same_frame (init_cell o)) (items t).
Proof. intros (Ss & _ & _ & F). revert F. generalize (items t). induction Ss as [|S Ss IH]; intros l F; inversion F; subst; constructor; [tauto|auto]. Qed.
Lemma trinary_frames o n1 n2 v1 v2 : from_constructor (init_cell o) -> Forall (same_frame (init_cell o)) (items (gen_dup_trinary_alloy o v1 (Z.of_nat n1) v2 (Z.of_nat n2))).
Proof.
  intros FC. rewrite (trinary_items n1 n2 v1 v2 FC). cbn [items]. apply Forall_forall. intros c I. apply in_flat_map in I as (c1 & _ & I).
  apply in_map_iff in I as (c2 & <- & _). apply cellof_frame; [assumption|apply two_put_length].
Qed.

(** With C83: every derivative structure without a shorter period than the given superlattice is
    listed exactly once, up to the symmetries of the parent. *)
Theorem C88_exactly_once : forall sl il u ops n spg wy hash sp m (C : crystal) subs,
  set_order sl -> from_constructor u -> volume (lattice u) <> 0%Qc -> smallest (cell_of u) ->
  symmetries_of ops u -> all_symmetries ops (cell_of u) -> (0 < n < 2000)%Z ->
  (forall h c, is_hnf n h -> to_general_cell (SuperLatticeCell_new (map fst ops) u h) = Ok c ->
     symmetries_of (spg c) c /\ all_symmetries (spg c) (cell_of c) /\ collision_free hash (k_fold (numbers c) (any_site (numbers c)) (length subs) sp)) ->
  Z.abs (zdet m) = n -> derivative (cell_of u) m [sp] C -> replaced_per_period (cell_of u) m sp C subs -> primitive_along (lattice u) m C ->
  exists out a b g, hnfs_from_n sl il (map fst ops) u n = Ok out /\
    let listed := listed_at spg wy hash (fun o => gen_dup_unitary o (Z.of_nat (length subs)) sp) out in
    listed a b g /\ same_structure (cell_of u) C (atom_at (cell_of g)) /\
    forall a' b' g', listed a' b' g' -> same_structure (cell_of u) C (atom_at (cell_of g')) -> a' = a /\ b' = b.
Proof.
  intros sl il u ops n spg wy hash sp m C subs SL FU VU SM SU AU N SP M D PP PA. assert (N0 : (0 < n)%Z) by lia.
  destruct (C83_complete sl il u ops n spg wy hash sp m C subs SL FU VU SU N) as (out & s & c & o & g & Eo & Is & Ec & Oc & Ig & SS); auto.
  { intros h c H E. destruct (SP h c H E) as (A & _ & B). auto. }
  apply In_nth_error in Is as (a & A). apply In_nth_error in Ig as (b & B). exists out, a, b, g. split; [exact Eo|]. cbv zeta.
  assert (L : listed_at spg wy hash (fun o => gen_dup_unitary o (Z.of_nat (length subs)) sp) out a b g) by (exists s, c, o; auto).
  split; [exact L|]. split; [exact SS|]. intros a' b' g' L' S'.
  refine (@once_crystal ops u n FU VU SM SU AU _ spg wy hash _ out _ _ _ _ m C a' b' g' a b g M PA L' L S' SS); [lia|exact (gen3_made SL N0 Eo)| | |].
  - destruct (proj1 (C34_one_per_class sl il (map fst ops) u n SL (ops_rot_group (proj1 (proj2 SU)))) N) as (all & out' & _ & Eo' & _ & (_ & _ & T)). congruence.
  - intros s' c' I E. pose proof (gen3_made SL N0 Eo) as MO. rewrite Forall_forall in MO. destruct (MO s' I) as [Es Hs]. rewrite Es in E.
    destruct (SP _ _ Hs E) as (X & Y & _). auto.
  - intros o' FO. exact (dup_frames _ _ _ _ _ (C17_unitary FO (length subs) sp)).
Qed.
Print Assumptions C88_exactly_once.

Theorem C88_exactly_once_element : forall sl il u ops n spg wy hash ele sp m (C : crystal) subs,
  set_order sl -> from_constructor u -> volume (lattice u) <> 0%Qc -> smallest (cell_of u) ->
  symmetries_of ops u -> all_symmetries ops (cell_of u) -> (0 < n < 2000)%Z ->
  (forall h c, is_hnf n h -> to_general_cell (SuperLatticeCell_new (map fst ops) u h) = Ok c ->
     symmetries_of (spg c) c /\ all_symmetries (spg c) (cell_of c) /\ collision_free hash (k_fold (numbers c) (site_holds (numbers c) ele) (length subs) sp)) ->
  Z.abs (zdet m) = n -> derivative (cell_of u) m [sp] C -> replaced_per_period (cell_of u) m sp C subs ->
  (forall v, replaced (cell_of u) sp C v -> atom_at (cell_of u) ele v) -> primitive_along (lattice u) m C ->
  exists out a b g, hnfs_from_n sl il (map fst ops) u n = Ok out /\
    let listed := listed_at spg wy hash (fun o => gen_dup_of_ele o ele (Z.of_nat (length subs)) sp) out in
    listed a b g /\ same_structure (cell_of u) C (atom_at (cell_of g)) /\
    forall a' b' g', listed a' b' g' -> same_structure (cell_of u) C (atom_at (cell_of g')) -> a' = a /\ b' = b.
Proof.
  intros sl il u ops n spg wy hash ele sp m C subs SL FU VU SM SU AU N SP M D PP HE PA. assert (N0 : (0 < n)%Z) by lia.
  destruct (C83_complete_element sl il u ops n spg wy hash ele sp m C subs SL FU VU SU N) as (out & s & c & o & g & Eo & Is & Ec & Oc & Ig & SS); auto.
  { intros h c H E. destruct (SP h c H E) as (A & _ & B). auto. }
  apply In_nth_error in Is as (a & A). apply In_nth_error in Ig as (b & B). exists out, a, b, g. split; [exact Eo|]. cbv zeta.
  assert (L : listed_at spg wy hash (fun o => gen_dup_of_ele o ele (Z.of_nat (length subs)) sp) out a b g) by (exists s, c, o; auto).
  split; [exact L|]. split; [exact SS|]. intros a' b' g' L' S'.
  refine (@once_crystal ops u n FU VU SM SU AU _ spg wy hash _ out _ _ _ _ m C a' b' g' a b g M PA L' L S' SS); [lia|exact (gen3_made SL N0 Eo)| | |].
  - destruct (proj1 (C34_one_per_class sl il (map fst ops) u n SL (ops_rot_group (proj1 (proj2 SU)))) N) as (all & out' & _ & Eo' & _ & (_ & _ & T)). congruence.
  - intros s' c' I E. pose proof (gen3_made SL N0 Eo) as MO. rewrite Forall_forall in MO. destruct (MO s' I) as [Es Hs]. rewrite Es in E.
    destruct (SP _ _ Hs E) as (X & Y & _). auto.
  - intros o' FO. exact (dup_frames _ _ _ _ _ (C17_ele FO ele (length subs) sp)).
Qed.
Print Assumptions C88_exactly_once_element.

Theorem C88_exactly_once_ternary : forall sl il u ops n spg wy hash v1 v2 m (C : crystal) subs1 subs2,
  set_order sl -> from_constructor u -> volume (lattice u) <> 0%Qc -> smallest (cell_of u) ->
  symmetries_of ops u -> all_symmetries ops (cell_of u) -> (0 < n < 2000)%Z -> v1 <> v2 ->
  (forall h c, is_hnf n h -> to_general_cell (SuperLatticeCell_new (map fst ops) u h) = Ok c ->
     symmetries_of (spg c) c /\ all_symmetries (spg c) (cell_of c) /\ collision_free hash (two_fold (numbers c) (length subs1) v1 (length subs2) v2)) ->
  Z.abs (zdet m) = n -> derivative (cell_of u) m [v1; v2] C -> replaced_per_period (cell_of u) m v1 C subs1 -> replaced_per_period (cell_of u) m v2 C subs2 ->
  primitive_along (lattice u) m C ->
  exists out a b g, hnfs_from_n sl il (map fst ops) u n = Ok out /\
    let listed := listed_at spg wy hash (fun o => gen_dup_trinary_alloy o v1 (Z.of_nat (length subs1)) v2 (Z.of_nat (length subs2))) out in
    listed a b g /\ same_structure (cell_of u) C (atom_at (cell_of g)) /\
    forall a' b' g', listed a' b' g' -> same_structure (cell_of u) C (atom_at (cell_of g')) -> a' = a /\ b' = b.
Proof.
  intros sl il u ops n spg wy hash v1 v2 m C subs1 subs2 SL FU VU SM SU AU N V12 SP M D P1 P2 PA. assert (N0 : (0 < n)%Z) by lia.
  destruct (C83_complete_ternary sl il u ops n spg wy hash v1 v2 m C subs1 subs2 SL FU VU SU N V12) as (out & s & c & o & g & Eo & Is & Ec & Oc & Ig & SS); auto.
  { intros h c H E. destruct (SP h c H E) as (A & _ & B). auto. }
  apply In_nth_error in Is as (a & A). apply In_nth_error in Ig as (b & B). exists out, a, b, g. split; [exact Eo|]. cbv zeta.
  assert (L : listed_at spg wy hash (fun o => gen_dup_trinary_alloy o v1 (Z.of_nat (length subs1)) v2 (Z.of_nat (length subs2))) out a b g) by (exists s, c, o; auto).
  split; [exact L|]. split; [exact SS|]. intros a' b' g' L' S'.
  refine (@once_crystal ops u n FU VU SM SU AU _ spg wy hash _ out _ _ _ _ m C a' b' g' a b g M PA L' L S' SS); [lia|exact (gen3_made SL N0 Eo)| | |].
  - destruct (proj1 (C34_one_per_class sl il (map fst ops) u n SL (ops_rot_group (proj1 (proj2 SU)))) N) as (all & out' & _ & Eo' & _ & (_ & _ & T)). congruence.
  - intros s' c' I E. pose proof (gen3_made SL N0 Eo) as MO. rewrite Forall_forall in MO. destruct (MO s' I) as [Es Hs]. rewrite Es in E.
    destruct (SP _ _ Hs E) as (X & Y & _). auto.
  - intros o' FO. now apply trinary_frames.
Qed.
Print Assumptions C88_exactly_once_ternary.

(** ** Example: a parent with one boron atom in a lattice whose only isometries are +1 and -1. *)
Definition lopz : mat Z := (V3 (V3 3 0 0) (V3 1 4 0) (V3 1 1 5))%Z.
Definition lop : gcell := mkG (matZ lopz) [v0] [5%Z] (matZ lopz, [v0], [5%Z]) 1.
Definition zneg : mat Z := (V3 (V3 (-1) 0 0) (V3 0 (-1) 0) (V3 0 0 (-1)))%Z.
Definition both (c : gcell) : list (mat Z * vec Qc) := map (fun p => (zid, p)) (positions c) ++ map (fun p => (zneg, p)) (positions c).
Definition slabs (a b : Z) : crystal := fun z v => exists s, v = vec_mat (vecZ s) (matZ lopz) /\ z = (if Z.even (vz s) then a else b).

Lemma vec_mat_0 L : vec_mat v0 L = v0.
Proof. destruct L as [[? ? ?] [? ? ?] [? ? ?]]. unfold vec_mat, vadd, vscale, v0. cbn [BaseQ.vx BaseQ.vy BaseQ.vz]. f_equal; ring. Qed.
Lemma vadd_0_l v : vadd v0 v = v.
Proof. destruct v. unfold vadd, v0. cbn [BaseQ.vx BaseQ.vy BaseQ.vz]. f_equal; ring. Qed.
Lemma vec_mat_scale x v L : vec_mat (vscale x v) L = vscale x (vec_mat v L).
Proof. destruct v, L as [[? ? ?] [? ? ?] [? ? ?]]. unfold vec_mat, vadd, vscale, v0. cbn [BaseQ.vx BaseQ.vy BaseQ.vz]. f_equal; ring. Qed.
Lemma op_image_zid t p : op_image zid t p = vadd p t.
Proof. destruct t, p. unfold op_image, zid, vadd. cbn. change (Zc 0) with 0%Qc. change (Zc 1) with 1%Qc. f_equal; ring. Qed.
Lemma op_image_zneg t p : op_image zneg t p = vsub t p.
Proof. destruct t, p. unfold op_image, zneg, vsub. cbn. change (Zc 0) with 0%Qc. change (Zc (-1)) with (- (1))%Qc. f_equal; ring. Qed.
Lemma vdot_orth q a b : orthogonal q -> vdot (vec_mat a q) (vec_mat b q) = vdot a b.
Proof.
  intros [O _]. rewrite <- (vec_mat_one b) at 2. rewrite <- O. clear O. destruct q as [[? ? ?] [? ? ?] [? ? ?]], a, b.
  unfold vdot, vec_mat, mat_mul, flip, vadd, vscale. cbn. unfold vec_mat, vadd, vscale. cbn. ring.
Qed.
Definition zdot (a b : vec Z) : Z := (vx a * vx b + vy a * vy b + vz a * vz b)%Z.
Lemma vdot_Z a b : vdot (vecZ a) (vecZ b) = Zc (zdot a b).
Proof. destruct a, b. unfold vdot, zdot, vecZ, vmap. cbn. now rewrite !Zc_plus, !Zc_mult. Qed.

Lemma lop_atoms z v : atom_at (cell_of lop) z v <-> (exists s, v = vec_mat (vecZ s) (matZ lopz)) /\ z = 5%Z.
Proof.
  assert (K : forall s, vec_mat (vadd v0 (vecZ s)) (lattice lop) = vec_mat (vecZ s) (matZ lopz)).
  { intros s. change v0 with (vecZ (V3 0 0 0)%Z). rewrite <- vecZ_add. now destruct s. }
  split.
  - intros ([|i] & p & s & P & Z & ->); [|destruct i; discriminate]. cbn in P, Z. injection P as <-. injection Z as <-.
    split; [exists s; apply K|reflexivity].
  - intros ((s & ->) & ->). exists 0, v0, s. split; [reflexivity|]. split; [reflexivity|]. symmetry. apply K.
Qed.

(** The images of the three lattice vectors have their lengths and angles. *)
Lemma lop_short k : (zdot (zcomb k lopz) (zcomb k lopz) < 28)%Z -> In k (flat_map (fun x => flat_map (fun y => map (V3 x y) [-1; 0; 1]) [-1; 0; 1]) [-2; -1; 0; 1; 2])%Z.
Proof.
  destruct k as [x y z]. unfold zdot, zcomb, zvadd, zvscale, lopz. cbn [vx vy vz]. intros E.
  assert (SQ : forall a, (0 <= a * a)%Z) by (intros; apply Z.square_nonneg).
  assert (R : forall a, (a * a < 36 -> -6 < a < 6)%Z) by (intros; nia).
  remember (x * 3 + (y * 1 + z * 1))%Z as A eqn:EA. remember (x * 0 + (y * 4 + z * 1))%Z as B eqn:EB. remember (x * 0 + (y * 0 + z * 5))%Z as D eqn:ED.
  pose proof (SQ A). pose proof (SQ B). pose proof (SQ D). assert (-6 < A < 6)%Z by (apply R; lia). assert (-6 < B < 6)%Z by (apply R; lia). assert (-6 < D < 6)%Z by (apply R; lia).
  assert (Z : (z = -1 \/ z = 0 \/ z = 1)%Z) by lia. assert (Y : (y = -1 \/ y = 0 \/ y = 1)%Z) by lia.
  assert (X : (x = -2 \/ x = -1 \/ x = 0 \/ x = 1 \/ x = 2)%Z) by lia. clear - X Y Z.
  destruct X as [-> | [-> | [-> | [-> | ->]]]], Y as [-> | [-> | ->]], Z as [-> | [-> | ->]]; cbn; tauto.
Qed.
Lemma short9 k : zdot (zcomb k lopz) (zcomb k lopz) = 9%Z -> exists e, (e = 1 \/ e = -1)%Z /\ k = V3 e 0%Z 0%Z.
Proof.
  intros E. assert (HI := lop_short k ltac:(rewrite E; lia)). cbn [flat_map map app In] in HI.
  repeat (destruct HI as [<-|HI]; [vm_compute in E; try discriminate E; eauto|]). contradiction.
Qed.
Lemma short17 k : zdot (zcomb k lopz) (zcomb k lopz) = 17%Z -> exists e, (e = 1 \/ e = -1)%Z /\ k = V3 0%Z e 0%Z.
Proof.
  intros E. assert (HI := lop_short k ltac:(rewrite E; lia)). cbn [flat_map map app In] in HI.
  repeat (destruct HI as [<-|HI]; [vm_compute in E; try discriminate E; eauto|]). contradiction.
Qed.
Lemma short27 k : zdot (zcomb k lopz) (zcomb k lopz) = 27%Z -> exists e, (e = 1 \/ e = -1)%Z /\ k = V3 0%Z 0%Z e.
Proof.
  intros E. assert (HI := lop_short k ltac:(rewrite E; lia)). cbn [flat_map map app In] in HI.
  repeat (destruct HI as [<-|HI]; [vm_compute in E; try discriminate E; eauto|]). contradiction.
Qed.

Lemma lop_isometry q w : orthogonal q -> keeps_crystal (cell_of lop) q w ->
  (exists s, w = vec_mat (vecZ s) (matZ lopz)) /\
  exists r, (r = zid \/ r = zneg) /\ forall p, vec_mat (vec_mat p (matZ lopz)) q = vec_mat (op_image r v0 p) (matZ lopz).
Proof.
  intros O K.
  assert (W : exists s, w = vec_mat (vecZ s) (matZ lopz)).
  { assert (A : atom_at (cell_of lop) 5%Z (vadd (vec_mat v0 q) w)).
    { apply (proj1 (K _ _)). apply lop_atoms. split; [|reflexivity]. exists (V3 0 0 0)%Z. symmetry. apply vec_mat_0. }
    apply lop_atoms in A as ((s & A) & _). exists s. now rewrite vec_mat_0, vadd_0_l in A. }
  split; [exact W|]. destruct W as (sw & ->).
  assert (IM : forall k, exists k', vec_mat (vec_mat (vecZ k) (matZ lopz)) q = vec_mat (vecZ k') (matZ lopz)).
  { intros k. assert (A : atom_at (cell_of lop) 5%Z (vadd (vec_mat (vec_mat (vecZ k) (matZ lopz)) q) (vec_mat (vecZ sw) (matZ lopz)))).
    { apply (proj1 (K _ _)). apply lop_atoms. eauto. }
    apply lop_atoms in A as ((s & A) & _). exists (zvsub s sw). rewrite vecZ_sub, <- LModCell4.vec_mat_sub, <- A. symmetry. apply vsub_add. }
  assert (DO : forall k k' l l', vec_mat (vec_mat (vecZ k) (matZ lopz)) q = vec_mat (vecZ k') (matZ lopz) ->
    vec_mat (vec_mat (vecZ l) (matZ lopz)) q = vec_mat (vecZ l') (matZ lopz) -> zdot (zcomb k' lopz) (zcomb l' lopz) = zdot (zcomb k lopz) (zcomb l lopz)).
  { intros k k' l l' E F. apply Zc_inj. rewrite <- !vdot_Z, !vecZ_comb, <- E, <- F. now apply vdot_orth. }
  destruct (IM (V3 1 0 0)%Z) as (k1 & E1). destruct (IM (V3 0 1 0)%Z) as (k2 & E2). destruct (IM (V3 0 0 1)%Z) as (k3 & E3).
  destruct (short9 k1 (DO _ _ _ _ E1 E1)) as (e1 & H1 & ->). destruct (short17 k2 (DO _ _ _ _ E2 E2)) as (e2 & H2 & ->).
  destruct (short27 k3 (DO _ _ _ _ E3 E3)) as (e3 & H3 & ->).
  pose proof (DO _ _ _ _ E1 E2) as D12. pose proof (DO _ _ _ _ E1 E3) as D13.
  assert (S : (e2 = e1 /\ e3 = e1)%Z).
  { destruct H1 as [-> | ->], H2 as [-> | ->], H3 as [-> | ->]; cbn in D12, D13; try discriminate; auto. }
  destruct S as [-> ->]. exists (V3 (V3 e1 0 0) (V3 0 e1 0) (V3 0 0 e1))%Z. split; [destruct H1 as [-> | ->]; [left|right]; reflexivity|].
  intros p. assert (P : p = vadd (vscale (vx p) (vecZ (V3 1 0 0)%Z)) (vadd (vscale (vy p) (vecZ (V3 0 1 0)%Z)) (vscale (vz p) (vecZ (V3 0 0 1)%Z)))).
  { destruct p. unfold vecZ, vmap, vscale, vadd. cbn [BaseQ.vx BaseQ.vy BaseQ.vz]. change (Zc 0) with 0%Qc. change (Zc 1) with 1%Qc. f_equal; ring. }
  rewrite P at 1. rewrite !vec_mat_add, !vec_mat_scale, E1, E2, E3, <- !vec_mat_scale, <- !vec_mat_add. f_equal.
  destruct p. unfold op_image, vecZ, vmap, vscale, vadd, v0, vec_mat. cbn. unfold vadd, vscale. cbn. change (Zc 0) with 0%Qc. f_equal; ring.
Qed.

(** In every supercell: the boron atoms are the lattice points, and [both] are all symmetries. *)
Lemma both_complete c : (exists h, lattice c = mat_mul (matZ h) (matZ lopz)) -> (forall z v, atom_at (cell_of c) z v <-> atom_at (cell_of lop) z v) -> all_symmetries (both c) (cell_of c).
Proof.
  intros (h & Lc) CR q w O K _.
  assert (K' : keeps_crystal (cell_of lop) q w) by (intros z v; rewrite <- !CR; apply K).
  destruct (lop_isometry q w O K') as ((sw & W) & r & R & Q).
  assert (A : atom_at (cell_of c) 5%Z w) by (apply CR; apply lop_atoms; eauto).
  destruct A as (i & p0 & s & P & _ & E). exists (r, p0), s. split.
  - apply in_or_app. apply nth_error_In in P. destruct R as [-> | ->]; [left|right]; exact (in_map _ _ _ P).
  - intros p. cbn [cell_of fst snd]. rewrite E. rewrite Lc, <- !vec_mat_mul. rewrite Q, <- vec_mat_add. f_equal.
    destruct R as [-> | ->].
    + rewrite !op_image_zid, !vec_mat_add. generalize (vec_mat p (matZ h)), (vec_mat p0 (matZ h)), (vec_mat (vecZ s) (matZ h)).
      clear. intros [? ? ?] [? ? ?] [? ? ?]. unfold vadd, vsub, v0. cbn [BaseQ.vx BaseQ.vy BaseQ.vz]. f_equal; ring.
    + rewrite !op_image_zneg, vec_mat_add, vec_mat_add, <- LModCell4.vec_mat_sub. generalize (vec_mat p (matZ h)), (vec_mat p0 (matZ h)), (vec_mat (vecZ s) (matZ h)).
      clear. intros [? ? ?] [? ? ?] [? ? ?]. unfold vadd, vsub, v0. cbn [BaseQ.vx BaseQ.vy BaseQ.vz]. f_equal; ring.
Qed.
Definition all_boron2 (c : gcell) : bool :=
  distinctb (positions c) && exact_space_groupb (both c) (positions c) && forallb (Z.eqb 5) (numbers c) && (length (numbers c) =? length (positions c)).
Lemma both_ok c : all_boron2 c = true -> symmetries_of (both c) c.
Proof.
  unfold all_boron2. rewrite !andb_true_iff. intros [[[A B] E] F]. apply Nat.eqb_eq in F.
  split; [now apply distinctb_ok|]. split; [now apply exact_space_groupb_ok|]. split.
  - intros o i j p q _ P Q _. destruct (nth_pair (x := numbers c) F P) as (a & HA). destruct (nth_pair (x := numbers c) F Q) as (b & HB).
    rewrite forallb_forall in E. rewrite HA, HB. pose proof (E a (nth_error_In _ _ HA)). pose proof (E b (nth_error_In _ _ HB)). f_equal. lia.
  - intros o I. apply in_app_or in I as [I|I]; apply in_map_iff in I as (p & <- & _).
    + exists one, (vec_mat p (lattice c)). split; [split; apply mat_eq_dec_ok; vm_compute; reflexivity|].
      intros x. cbn [fst snd]. now rewrite op_image_zid, vec_mat_add, vec_mat_one.
    + exists (matZ zneg), (vec_mat p (lattice c)). split; [split; apply mat_eq_dec_ok; vm_compute; reflexivity|].
      intros x. cbn [fst snd]. rewrite op_image_zneg, <- LModCell4.vec_mat_sub. generalize (vec_mat p (lattice c)), (vec_mat x (lattice c)).
      clear. intros [? ? ?] [? ? ?]. unfold vadd, vsub, vec_mat, vscale, matZ, zneg. cbn. unfold vadd, vscale. cbn. change (Zc 0) with 0%Qc. change (Zc (-1)) with (- (1))%Qc. f_equal; ring.
Qed.
Lemma lop_made : from_constructor lop.
Proof. exists (matZ lopz), [v0], [5%Z]. split; [reflexivity|]. vm_compute. reflexivity. Qed.
Lemma lop_volume : volume (lattice lop) <> 0%Qc.
Proof. intros E; apply (f_equal this) in E; vm_compute in E; discriminate. Qed.
Lemma lop_smallest : smallest (cell_of lop).
Proof.
  intros t T. assert (A : atom_at (cell_of lop) 5%Z (vadd v0 t)).
  { apply T. apply lop_atoms. split; [|reflexivity]. exists (V3 0 0 0)%Z. symmetry. apply vec_mat_0. }
  rewrite vadd_0_l in A. apply lop_atoms in A as ((s & ->) & _). now exists s.
Qed.
Lemma lop_symmetries : symmetries_of (both lop) lop.
Proof. apply both_ok. vm_compute. reflexivity. Qed.
Lemma lop_complete : all_symmetries (both lop) (cell_of lop).
Proof. apply both_complete; [|reflexivity]. exists zid. cbn [lattice lop]. vm_compute. reflexivity. Qed.
Lemma lop_forms h : is_hnf 2 h -> In h (match hnfs_from_n_dups first_order (map fst (both lop)) lop 2 with Ok l => map sl_H l | Raise _ => [] end).
Proof.
  intros H. destruct (proj1 (C31_hermite_forms first_order (map fst (both lop)) lop 2 first_order_ok)) as (l & E & _ & X & _); [lia|].
  rewrite E. now apply X.
Qed.
Lemma lop_cells h c : is_hnf 2 h -> to_general_cell (SuperLatticeCell_new (map fst (both lop)) lop h) = Ok c -> all_boron2 c = true.
Proof.
  intros H E. apply lop_forms in H.
  assert (A : forallb (fun h => match to_general_cell (SuperLatticeCell_new (map fst (both lop)) lop h) with Ok c => all_boron2 c | Raise _ => true end)
    (match hnfs_from_n_dups first_order (map fst (both lop)) lop 2 with Ok l => map sl_H l | Raise _ => [] end) = true) by (vm_compute; reflexivity).
  rewrite forallb_forall in A. specialize (A h H). now rewrite E in A.
Qed.
Lemma boron2_bounds c : all_boron2 c = true -> Forall (fun z => 0 <= z < 1000)%Z (numbers c).
Proof.
  unfold all_boron2. rewrite !andb_true_iff. intros [[_ A] _]. rewrite forallb_forall in A. apply Forall_forall. intros x I. specialize (A x I). lia.
Qed.

(** Every second layer replaced. *)
Lemma slabs_period k : period (fst (fst (cell_of lop))) layers_m k = vec_mat (vecZ (V3 (vy k) (vz k) (2 * vx k)%Z)) (matZ lopz).
Proof.
  destruct k as [a b d]. unfold period, layers_m, zcomb, zvadd, zvscale. cbn [vx vy vz].
  replace (V3 _ _ _) with (V3 b d (2 * a)%Z) by (f_equal; lia). reflexivity.
Qed.
Lemma slabs_site a b s : slabs a b (if Z.even (vz s) then a else b) (vec_mat (vecZ s) (matZ lopz)).
Proof. exists s. split; reflexivity. Qed.
Lemma slabs_inv a b z s : slabs a b z (vec_mat (vecZ s) (matZ lopz)) -> z = (if Z.even (vz s) then a else b).
Proof. intros (s' & E & ->). apply (vec_mat_inj lop_volume) in E. apply vecZ_inj in E. now subst. Qed.
Lemma slabs_derivative a b news : In a news -> b = 5%Z \/ In b news -> derivative (cell_of lop) layers_m news (slabs a b).
Proof.
  intros A B. split.
  - intros v. split.
    + intros (z & s & -> & _). exists 5%Z. apply lop_atoms. eauto.
    + intros (z & H). apply lop_atoms in H as ((s & ->) & _). eexists. apply slabs_site.
  - intros v z z' (s & -> & ->) H. symmetry. exact (slabs_inv _ _ _ _ H).
  - intros v z (s & -> & ->). destruct (Z.even (vz s)); [now left|]. destruct B as [-> | B]; [right|now left]. apply lop_atoms. eauto.
  - intros k z v (s & -> & ->). rewrite slabs_period, <- vec_mat_add, <- vecZ_add. eexists. split; [reflexivity|].
    unfold zvadd. cbn [vz]. rewrite Z.even_add, Z.even_mul. cbn. now destruct (Z.even (vz s)).
Qed.
Lemma slabs_even a b : a <> 5%Z -> a <> b -> replaced_per_period (cell_of lop) layers_m a (slabs a b) [v0].
Proof.
  intros A AB. split; [|split].
  - constructor; [|constructor]. split; [exists (V3 0 0 0)%Z; split; [symmetry; apply vec_mat_0|reflexivity]|]. intros H. apply lop_atoms in H as (_ & ?). congruence.
  - intros v [(s & -> & E) _]. destruct (Z.even (vz s)) eqn:V; [|congruence]. apply Z.even_spec in V as (e & V).
    exists v0, (V3 e (vx s) (vy s)). split; [now left|]. rewrite slabs_period, vadd_0_l. cbn [vx vy vz]. rewrite <- V. now destruct s.
  - repeat constructor.
Qed.
Lemma slabs_odd a b : b <> 5%Z -> a <> b -> replaced_per_period (cell_of lop) layers_m b (slabs a b) [vec_mat (vecZ (V3 0 0 1)%Z) (matZ lopz)].
Proof.
  intros A AB. split; [|split].
  - constructor; [|constructor]. split; [exact (slabs_site a b (V3 0 0 1)%Z)|]. intros H. apply lop_atoms in H as (_ & ?). congruence.
  - intros v [(s & -> & E) _]. destruct (Z.even (vz s)) eqn:V; [congruence|]. rewrite <- Z.negb_odd in V. apply negb_false_iff, Z.odd_spec in V as (e & V).
    eexists. exists (V3 e (vx s) (vy s)). split; [now left|]. rewrite slabs_period, <- vec_mat_add, <- vecZ_add. cbn [vx vy vz].
    do 2 f_equal. destruct s as [s1 s2 s3]. cbn [vz] in V. subst s3. unfold zvadd. cbn [vx vy vz]. f_equal. lia.
  - repeat constructor.
Qed.
Lemma slabs_primitive a b : a <> b -> primitive_along (lattice lop) layers_m (slabs a b).
Proof.
  intros AB t T. pose proof (T _ _ (slabs_site a b (V3 0 0 0)%Z)) as H. change (vecZ (V3 0 0 0)%Z) with v0 in H. rewrite vec_mat_0, vadd_0_l in H.
  destruct H as (s & -> & E). cbn in E. destruct (Z.even (vz s)) eqn:V; [|congruence]. apply Z.even_spec in V as (e & V).
  exists (V3 e (vx s) (vy s)). change (lattice lop) with (fst (fst (cell_of lop))). rewrite slabs_period. cbn [vx vy vz]. rewrite <- V. now destruct s.
Qed.

Example C88_ex : set_order first_order /\ from_constructor lop /\ volume (lattice lop) <> 0%Qc /\ smallest (cell_of lop) /\
  symmetries_of (both lop) lop /\ all_symmetries (both lop) (cell_of lop) /\
  (forall h c, is_hnf 2 h -> to_general_cell (SuperLatticeCell_new (map fst (both lop)) lop h) = Ok c ->
     symmetries_of (both c) c /\ all_symmetries (both c) (cell_of c) /\ collision_free poly (k_fold (numbers c) (any_site (numbers c)) 1 6%Z) /\
     collision_free poly (k_fold (numbers c) (site_holds (numbers c) 5%Z) 1 6%Z) /\
     collision_free poly (two_fold (numbers c) 1 6%Z 1 7%Z)) /\
  Z.abs (zdet layers_m) = 2%Z /\ Forall (eq 5%Z) (numbers lop) /\
  (derivative (cell_of lop) layers_m [6%Z] (slabs 6 5) /\ replaced_per_period (cell_of lop) layers_m 6 (slabs 6 5) [v0] /\
   (forall v, replaced (cell_of lop) 6 (slabs 6 5) v -> atom_at (cell_of lop) 5 v) /\ primitive_along (lattice lop) layers_m (slabs 6 5)) /\
  (derivative (cell_of lop) layers_m [6; 7]%Z (slabs 6 7) /\ replaced_per_period (cell_of lop) layers_m 6 (slabs 6 7) [v0] /\
   replaced_per_period (cell_of lop) layers_m 7 (slabs 6 7) [vec_mat (vecZ (V3 0 0 1)%Z) (matZ lopz)] /\ primitive_along (lattice lop) layers_m (slabs 6 7)).
Proof.
  split; [exact first_order_ok|]. split; [exact lop_made|]. split; [exact lop_volume|]. split; [exact lop_smallest|]. split; [exact lop_symmetries|].
  split; [exact lop_complete|]. split; [|split; [reflexivity|]].
  { intros h c H E. pose proof (lop_cells h c H E) as A. pose proof (boron2_bounds c A) as B. split; [now apply both_ok|]. split.
    { destruct (@listed_frame (both lop) lop 2 lop_made ltac:(lia) (SuperLatticeCell_new (map fst (both lop)) lop h) c) as (_ & L & CR & _); [split; [reflexivity|exact H]|exact E|].
      apply both_complete; [|exact CR]. eexists. exact L. }
    split; [apply kfold_poly; constructor; [lia|exact B]|]. split; [apply kfold_poly; constructor; [lia|exact B]|].
    apply two_fold_poly. constructor; [lia|]. constructor; [lia|exact B]. }
  split; [repeat constructor|]. split; [split; [|split; [|split]]|split; [|split; [|split]]].
  - apply slabs_derivative; cbn; auto.
  - apply slabs_even; lia.
  - intros v [(s & -> & _) _]. apply lop_atoms. eauto.
  - apply slabs_primitive; lia.
  - apply slabs_derivative; cbn; auto.
  - apply slabs_even; lia.
  - apply slabs_odd; lia.
  - apply slabs_primitive; lia.
Qed.
(** What the generator lists for the layers is a smallest cell, as [C88_once] asks. *)
Example C88_ex_once : exists out a b g, hnfs_from_n first_order true (map fst (both lop)) lop 2 = Ok out /\
  listed_at both (fun _ => ["a"; "a"]%string) poly (fun o => gen_dup_unitary o 1 6) out a b g /\ smallest (cell_of g) /\
  same_structure (cell_of lop) (slabs 6 5) (atom_at (cell_of g)).
Proof.
  destruct C88_ex as (A1 & A2 & A3 & A4 & A5 & A6 & A7 & A8 & A9 & (D1 & D2 & D3 & D4) & _).
  destruct (C88_exactly_once first_order true lop (both lop) 2 both (fun _ => ["a"; "a"]%string) poly 6 layers_m (slabs 6 5) [v0]) as (out & a & b & g & Eo & L & S & _); auto; [lia|intros h c H E; destruct (A7 h c H E) as (X & Y & Z & _); auto|].
  exists out, a, b, g. split; [exact Eo|]. split; [exact L|]. split; [|exact S].
  assert (N2 : (0 < 2)%Z) by lia. pose proof (gen3_made A1 N2 Eo) as MO.
  refine (@listed_smallest (both lop) lop 2 A2 A3 A4 A5 A6 _ both (fun _ => ["a"; "a"]%string) poly (fun o => gen_dup_unitary o 1 6) out MO _ _ layers_m (slabs 6 5) a b g A8 D4 L S); [lia| |].
  - intros s c I E. rewrite Forall_forall in MO. destruct (MO s I) as [Es Hs]. rewrite Es in E. destruct (A7 _ _ Hs E) as (X & Y & _). auto.
  - intros o' FO. exact (dup_frames _ _ _ _ _ (C17_unitary FO 1 6%Z)).
Qed.
