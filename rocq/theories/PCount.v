(** C89: how many superlattices and classes of superlattices there are. *)
From Verif Require Import Base LBase BaseQ SLattice SSubst SGeneralCell MGeneralCell MHnf LHnf LMat3 LSuper SBurn LBurn SSym SCount LCount LComb PHnf.
Open Scope Z_scope.

(** The number of superlattices of index n in space is the sum of d times the sum of the divisors of d,
    over the divisors d of n; in the plane it is the sum of the divisors of n. *)
Theorem C89_number : forall sl rots u n, set_order sl -> 0 < n ->
  exists l, hnfs_from_n_dups sl rots u n = Ok l /\ Z.of_nat (length l) = zsum (map (fun d => d * sigma d) (divisors n)).
Proof.
  intros sl rots u n SL N. destruct (proj1 (C31_hermite_forms sl rots u n SL) N) as (l & E & ND & I & _). exists l. split; [exact E|].
  rewrite <- (forms_length N), <- (map_length sl_H). f_equal. apply (lists_once_length (D := is_hnf n)); [split; assumption|now apply forms_spec].
Qed.
Print Assumptions C89_number.
Theorem C89_number_plane : forall sl rots u n, set_order sl -> 0 < n ->
  exists l, hnfs_from_n_dups_2d sl rots u n = Ok l /\ Z.of_nat (length l) = sigma n.
Proof.
  intros sl rots u n SL N. destruct (proj1 (C35_plane_forms sl rots u n SL) N) as (l & E & ND & I & _). exists l. split; [exact E|].
  rewrite <- (forms2_length N), <- (map_length sl_H). f_equal. apply (lists_once_length (D := is_hnf2 n)); [split; assumption|now apply forms2_spec].
Qed.
Print Assumptions C89_number_plane.

(** The number of superlattices that hnfs_from_n lists, one per class, is Burnside's count for the
    action of the point group. *)
Theorem C89_classes : forall sl il rots u n, set_order sl -> rot_group rots -> 0 < n < 2000 ->
  exists out, hnfs_from_n sl il rots u n = Ok out /\ lattice_count rots (is_hnf n) (length out).
Proof.
  intros sl il rots u n SL RG N. destruct (proj1 (C34_one_per_class sl il rots u n SL RG) N) as (all & out & Ea & Eo & SB & (T1 & T2 & T3)).
  assert (N0 : 0 < n) by lia. destruct (proj1 (C31_hermite_forms sl rots u n SL) N0) as (l & E & ND & I & _). assert (l = all) by congruence. subst l.
  exists out. split; [exact Eo|]. rewrite <- (map_length sl_H).
  apply (@lattices_burnside rots n (is_hnf n) (map sl_H all) (map sl_H out) RG); auto.
  - split; assumption.
  - intros r h m Hr Hh K Dm. destruct (hnf_exists Dm) as (h' & Hh' & S). exists h'. split; [|exact S].
    replace n with (Z.abs (zdet m)); [exact Hh'|]. apply carries_same in K. apply same_lattice_det in K.
    rewrite zdet_mul, zdet_transpose, (hnf_det Hh) in K. destruct (proj1 RG r Hr); nia.
  - apply Forall_forall. intros h Hh. apply I. eapply subseq_incl; eauto.
  - intros x Hx. apply T2. rewrite (hnf_det Hx). lia.
Qed.
Print Assumptions C89_classes.
Theorem C89_classes_plane : forall sl il rots u n, set_order sl -> rot_group rots -> Forall plane_rot rots -> 0 < n < 2000 ->
  exists out, hnfs_from_n_2d sl il rots u n = Ok out /\ lattice_count rots (is_hnf2 n) (length out).
Proof.
  intros sl il rots u n SL RG PR N. destruct (C35_plane_classes sl il rots u n SL RG N) as (all & out & Ea & Eo & SB & (T1 & T2 & T3)).
  assert (N0 : 0 < n) by lia. destruct (proj1 (C35_plane_forms sl rots u n SL) N0) as (l & E & ND & I & _). assert (l = all) by congruence. subst l.
  exists out. split; [exact Eo|]. rewrite <- (map_length sl_H).
  apply (@lattices_burnside rots n (is_hnf2 n) (map sl_H all) (map sl_H out) RG); auto.
  - split; assumption.
  - intros h Hh. now apply hnf2_hnf.
  - intros r h m Hr Hh K Dm. apply carries_same in K. pose proof (hnf_det (hnf2_hnf Hh)) as DT. pose proof (proj1 RG r Hr) as UM.
    rewrite Forall_forall in PR. destruct (PR r Hr) as (p & q & s & t & e & ->). destruct Hh as (a & b & c & -> & A & C & AC & B).
    assert (EE : e = 1 \/ e = -1) by (destruct UM as [U|U]; unfold zdet in U; cbn in U; [apply (Z.mul_eq_1 e (p * t - q * s)); nia|apply (Z.mul_eq_1 e (q * s - p * t)); nia]).
    set (m' := V3 (V3 (a * p + b * q) (a * s + b * t) 0) (V3 (c * q) (c * t) 0) (V3 0 0 1)).
    assert (S : same_lattice (zmul (V3 (V3 a b 0) (V3 0 c 0) (V3 0 0 1)) (transpose (V3 (V3 p q 0) (V3 s t 0) (V3 0 0 e)))) m').
    { intros v. split.
      - intros ([x y z] & ->). exists (V3 x y (z * e)). unfold zmul, transpose, vmap, zcomb, zvadd, zvscale, m'. cbn [vx vy vz]. f_equal; ring.
      - intros ([x y z] & ->). exists (V3 x y (z * e)). unfold zmul, transpose, vmap, zcomb, zvadd, zvscale, m'. cbn [vx vy vz]. f_equal; destruct EE as [-> | ->]; ring. }
    destruct (@hnf2_exists m') as (h' & Hh' & S').
    { unfold m'. eexists _, _, _, _. reflexivity. }
    { unfold m', zdet. cbn. destruct UM as [U|U]; unfold zdet in U; cbn in U; nia. }
    exists h'. split; [|intros v; rewrite <- (K v), (S v); apply S']. replace n with (Z.abs (zdet m')); [exact Hh'|].
    unfold m', zdet. cbn. assert (Z.abs (p * t - q * s) = 1) by (destruct UM as [U|U]; unfold zdet in U; cbn in U; destruct EE as [-> | ->]; nia).
    replace (_ - _ + _) with ((a * c) * (p * t - q * s)) by ring. rewrite Z.abs_mul. nia.
  - apply Forall_forall. intros h Hh. apply I. eapply subseq_incl; eauto.
  - intros x Hx. apply T2. pose proof (hnf_det (hnf2_hnf Hx)). split; [|lia]. destruct Hx as (a & b & c & -> & _). now exists a, b, 0, c.
Qed.
Print Assumptions C89_classes_plane.

(** A point group of +1 and -1 only merges nothing; in general at most its order. *)
Lemma subseq_full A (l m : list A) : subseq l m -> NoDup m -> incl m l -> l = m.
Proof.
  intros S. induction S as [l|x l m S IH|x l m S IH]; intros N I.
  - destruct l as [|x l]; [reflexivity|]. destruct (I x (or_introl eq_refl)).
  - f_equal. inversion N; subst. apply IH; [assumption|]. intros y Y. destruct (I y (or_intror Y)) as [->|?]; [contradiction|assumption].
  - inversion N; subst. exfalso. apply H1. eapply subseq_incl; [exact S|]. apply I. now left.
Qed.
Lemma subseq_length A (l m : list A) : subseq l m -> (length l <= length m)%nat.
Proof. induction 1; cbn; lia. Qed.
Theorem C89_no_symmetry : forall sl il rots u n, set_order sl -> rot_group rots -> (forall r, In r rots -> forall v, zrot r v = v \/ zrot r v = zvscale (-1) v) -> 0 < n < 2000 ->
  exists all out, hnfs_from_n_dups sl rots u n = Ok all /\ hnfs_from_n sl il rots u n = Ok out /\ map sl_H out = map sl_H all.
Proof.
  intros sl il rots u n SL RG PM N. destruct (proj1 (C34_one_per_class sl il rots u n SL RG) N) as (all & out & Ea & Eo & SB & (T1 & T2 & T3)).
  assert (N0 : 0 < n) by lia. destruct (proj1 (C31_hermite_forms sl rots u n SL) N0) as (l & E & ND & I & _). assert (l = all) by congruence. subst l.
  exists all, out. split; [exact Ea|]. split; [exact Eo|]. apply subseq_full; [exact SB|exact ND|].
  intros h Hh. pose proof (proj1 (I h) Hh) as HN. destruct (T2 h) as (y & Hy & r & Hr & K1 & K2); [rewrite (hnf_det HN); lia|].
  assert (Yn : is_hnf n y) by (apply I; eapply subseq_incl; eauto).
  assert (NEG : forall m v, in_span m v -> in_span m (zvscale (-1) v)).
  { intros m v ([a b c] & ->). exists (V3 (-a) (-b) (-c)). unfold zcomb, zvadd, zvscale. destruct m as [[? ? ?] [? ? ?] [? ? ?]]. cbn [BaseQ.vx BaseQ.vy BaseQ.vz]. f_equal; ring. }
  assert (NN : forall v, zvscale (-1) (zvscale (-1) v) = v) by (intros [a b c]; unfold zvscale; cbn [vx vy vz]; f_equal; ring).
  assert (S : same_lattice h y).
  { intros v. split.
    - intros V. destruct (PM r Hr v) as [Z|Z]; pose proof (K1 v V) as W; rewrite Z in W; [exact W|]. rewrite <- (NN v). now apply NEG.
    - intros V. destruct (K2 v V) as (w & W & ->). destruct (PM r Hr w) as [Z|Z]; rewrite Z; auto. }
  rewrite (hnf_unique HN Yn S). exact Hy.
Qed.
Print Assumptions C89_no_symmetry.
Theorem C89_bound : forall sl il rots u n, set_order sl -> rot_group rots -> 0 < n < 2000 ->
  exists all out, hnfs_from_n_dups sl rots u n = Ok all /\ hnfs_from_n sl il rots u n = Ok out /\
    (length out <= length all <= length rots * length out)%nat.
Proof.
  intros sl il rots u n SL RG N. destruct (proj1 (C34_one_per_class sl il rots u n SL RG) N) as (all & out & Ea & Eo & SB & _).
  assert (N0 : 0 < n) by lia. destruct (proj1 (C31_hermite_forms sl rots u n SL) N0) as (l & E & ND & I & _). assert (l = all) by congruence. subst l.
  destruct (C89_classes sl il rots u n SL RG N) as (out' & Eo' & Gs & Fs & [NG IG] & [NF IF] & L). assert (out' = out) by congruence. subst out'.
  exists all, out. split; [exact Ea|]. split; [exact Eo|]. rewrite <- !(map_length sl_H). split; [exact (subseq_length _ _ _ SB)|].
  assert (L1 : (length (map sl_H all) <= length Fs)%nat).
  { rewrite <- (map_length (fun h => (zid, h)) (map sl_H all)). apply NoDup_incl_length.
    - apply FinFun.Injective_map_NoDup; [intros a b Q; now injection Q|exact ND].
    - intros f Hf. apply in_map_iff in Hf as (h & <- & Hh). apply IF. split; [apply RG|]. split; [now apply I|].
      assert (Q : forall v, zrot zid v = v) by (intros [a b c]; unfold zrot, zdot, zid; cbn [vx vy vz]; f_equal; ring).
      split; [intros v V; cbn [fst]; now rewrite Q|]. intros w W. exists w. split; [exact W|cbn [fst]; now rewrite Q]. }
  assert (L2 : (length Gs <= length rots)%nat) by (apply NoDup_incl_length; [exact NG|intros r Hr; now apply IG]).
  rewrite !map_length in *. rewrite <- L in L1. etransitivity; [exact L1|]. now apply Nat.mul_le_mono_r.
Qed.
Print Assumptions C89_bound.
(** The numbers for index 1 to 8, in space and in the plane; the fourfold rotations keep 5 of the 7 lattices
    of index 2: 4 * 5 = 7 + 3 + 7 + 3. *)
Example C89_ex : map (fun n => zsum (map (fun d => d * sigma d) (divisors n))) [1; 2; 3; 4; 5; 6; 7; 8] = [1; 7; 13; 35; 31; 91; 57; 155] /\
  map sigma [1; 2; 3; 4; 5; 6; 7; 8] = [1; 3; 4; 7; 6; 12; 8; 15] /\ set_order first_order /\ rot_group c4 /\ Forall plane_rot c4 /\
  exists out, hnfs_from_n first_order true c4 unit1 2 = Ok out /\ length out = 5%nat.
Proof.
  split; [vm_compute; reflexivity|]. split; [vm_compute; reflexivity|]. split; [exact first_order_ok|]. split; [exact c4_group|]. split.
  - repeat constructor; eexists _, _, _, _, _; reflexivity.
  - eexists. split; [vm_compute; reflexivity|reflexivity].
Qed.
