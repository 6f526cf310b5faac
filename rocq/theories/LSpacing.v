(** The distance check is exact up to the distance of the lattice planes. *)
From Verif Require Import Base LBase BaseQ LQ SLattice MGeneralCell MRestrict SRestrict LRestrict SModCell SSpacing.
Set Implicit Arguments.
Unset Strict Implicit.

Lemma length2_nonneg v : (0 <= length2 v)%Qc.
Proof.
  unfold length2. replace 0%Qc with (0 + 0 + 0)%Qc by ring. apply Qcplus_le_compat; [apply Qcplus_le_compat|]; apply Qcsq_nonneg.
Qed.
Lemma cauchy w n : (vdot w n * vdot w n <= length2 w * length2 n)%Qc.
Proof.
  apply Qcle_minus_iff. replace (length2 w * length2 n + - (vdot w n * vdot w n))%Qc with (length2 (cross w n)) by (unfold length2, cross, vdot; cbn [vx vy vz]; ring).
  apply length2_nonneg.
Qed.
Lemma Qcmult_lt_l (x y z : Qc) : (0 < x)%Qc -> (y < z)%Qc -> (x * y < x * z)%Qc.
Proof. intros X H. rewrite !(Qcmult_comm x). now apply Qcmult_lt_compat_r. Qed.
Lemma Qcsq_pos (x : Qc) : x <> 0%Qc -> (0 < x * x)%Qc.
Proof.
  intros N. destruct (Qcle_lt_or_eq _ _ (@Qcsq_nonneg x)) as [H|H]; [exact H|]. exfalso. symmetry in H. apply Qcmult_integral in H. tauto.
Qed.
Lemma beyond_one x : (x < -(1) \/ 1 < x)%Qc -> (1 < x * x)%Qc.
Proof.
  assert (P : forall y, (1 < y)%Qc -> (1 < y * y)%Qc).
  { intros y H. assert (0 < y)%Qc by (eapply Qclt_trans; [|exact H]; reflexivity). apply (Qclt_trans _ y); [exact H|].
    rewrite <- (Qcmult_1_r y) at 1. now apply Qcmult_lt_l. }
  intros [H|H]; [|now apply P]. replace (x * x)%Qc with (- x * - x)%Qc by ring. apply P. apply Qclt_minus_iff in H. apply Qclt_minus_iff.
  now replace (- x + - (1))%Qc with (- (1) + - x)%Qc by ring.
Qed.
(** A vector with a component above 1 along a face normal is longer than the spacing. *)
Lemma along_normal (t x V : Qc) w n : V <> 0%Qc -> (t * t * length2 n <= V * V)%Qc -> vdot w n = (x * V)%Qc -> (1 < x * x)%Qc ->
  (t * t < length2 w)%Qc.
Proof.
  intros NV S D X. assert (VV := Qcsq_pos NV).
  assert (K : (V * V < length2 w * length2 n)%Qc).
  { eapply Qclt_le_trans; [|apply (@cauchy w n)]. rewrite D. replace (x * V * (x * V))%Qc with ((V * V) * (x * x))%Qc by ring.
    rewrite <- (Qcmult_1_r (V * V)) at 1. now apply Qcmult_lt_l. }
  destruct (Qcle_lt_or_eq _ _ (@length2_nonneg n)) as [P|E].
  - destruct (Qclt_le_dec (t * t) (length2 w)) as [L|L]; [exact L|]. exfalso.
    apply (Qclt_not_le _ _ (Qcle_lt_trans _ _ _ S K)). now apply Qcmult_le_compat_r; [|apply Qclt_le_weak].
  - exfalso. rewrite <- E in K. replace (length2 w * 0)%Qc with 0%Qc in K by ring. exact (Qclt_not_le _ _ (Qclt_trans _ _ _ VV K) (Qcle_refl 0)).
Qed.
Lemma far_component p q k : in01 p -> in01 q -> (k < -1 \/ 1 < k)%Z -> (1 < (p + Zc k - q) * (p + Zc k - q))%Qc.
Proof.
  intros (P0 & P1) (Q0 & Q1) K. apply beyond_one.
  destruct K as [K|K].
  - left. assert (Z2 : (Zc k <= Zc (-2))%Qc) by (apply (proj2 (Zc_le _ _)); lia).
    replace (Zc (-2)) with (- (1) - 1)%Qc in Z2 by (apply Qc_is_canon; reflexivity). generalize dependent (Zc k). intros z Z2. qclra.
  - right. assert (Z2 : (Zc 2 <= Zc k)%Qc) by (apply (proj2 (Zc_le _ _)); lia).
    replace (Zc 2) with (1 + 1)%Qc in Z2 by (apply Qc_is_canon; reflexivity). generalize dependent (Zc k). intros z Z2. qclra.
Qed.

Lemma spaced_far ele t c : spaced t (lattice c) -> (forall p, In p (positions c) -> wrapped p) ->
  all_far near_offset ele t c -> all_far (fun _ => True) ele t c.
Proof.
  intros (NV & S1 & S2 & S3) W H i j p q o P Q _ N.
  assert (Wp : wrapped p) by (apply W; eapply nth_error_In; apply P). assert (Wq : wrapped q) by (apply W; eapply nth_error_In; apply Q).
  destruct Wp as (A1 & A2 & A3), Wq as (B1 & B2 & B3).
  assert (C : near_offset o \/ (vx o < -1 \/ 1 < vx o)%Z \/ (vy o < -1 \/ 1 < vy o)%Z \/ (vz o < -1 \/ 1 < vz o)%Z) by (unfold near_offset; lia).
  destruct C as [C|[C|[C|C]]]; [now apply (H i j)|right..]; unfold image_dist2; set (w := vec_mat _ _).
  - apply (along_normal NV S1 (x := (vx p + Zc (vx o) - vx q)%Qc) (w := w)); [|now apply far_component].
    unfold w, vec_mat, volume, vdot, cross, vsub, vadd, vscale, vecZ, vmap. cbn [vx vy vz]. ring.
  - apply (along_normal NV S2 (x := (vy p + Zc (vy o) - vy q)%Qc) (w := w)); [|now apply far_component].
    unfold w, vec_mat, volume, vdot, cross, vsub, vadd, vscale, vecZ, vmap. cbn [vx vy vz]. ring.
  - apply (along_normal NV S3 (x := (vz p + Zc (vz o) - vz q)%Qc) (w := w)); [|now apply far_component].
    unfold w, vec_mat, volume, vdot, cross, vsub, vadd, vscale, vecZ, vmap. cbn [vx vy vz]. ring.
Qed.
