(** Derivative structures as decorations of a cell given in another frame and basis. *)
From Verif Require Import SIO SCliRead Base LBase BaseQ LQ SLattice SGeneralCell LGeneralCell MGeneralCell SSym LSym SSubst SModCell SShape MHnf LMat3 LHnf LSuper LSuper2 LFrac LCrystal
  LGrid LModCell4 LShape LShape2 SBurn LBurn SDeriv LDeriv LDeriv2.
Set Implicit Arguments.
Unset Strict Implicit.
Open Scope nat_scope.
Notation length := List.length.

(** *** moving back is a motion *)
Lemma orthogonal_flip q : orthogonal q -> orthogonal (flip q).
Proof. assert (F : flip (flip q) = q) by qm. intros [A B]. split; rewrite F; assumption. Qed.
Lemma unmove_as_move q t v : unmove q t v = move (flip q) (vec_mat (vsub v0 t) (flip q)) v.
Proof.
  unfold unmove, move. rewrite <- vec_mat_add. f_equal. destruct v, t. unfold v0, vsub, vadd. cbn. f_equal; ring.
Qed.
Lemma unmove_add q t a b : unmove q t (vadd a b) = vadd (unmove q t a) (vec_mat b (flip q)).
Proof. rewrite !unmove_as_move. unfold move. rewrite vec_mat_add. generalize (vec_mat a (flip q)) (vec_mat b (flip q)) (vec_mat (vsub v0 t) (flip q)). clear. qm. Qed.
Lemma there_and_back q a : orthogonal q -> vec_mat (vec_mat a q) (flip q) = a.
Proof. intros [E _]. rewrite vec_mat_mul, E. apply vec_mat_one. Qed.
Lemma back_and_there q a : orthogonal q -> vec_mat (vec_mat a (flip q)) q = a.
Proof. intros [_ E]. rewrite vec_mat_mul, E. apply vec_mat_one. Qed.

(** *** the frame of [g]: the motion [move q w] carries the parent's crystal to that of [g] and
    the superlattice [m] to its lattice *)
Record carries_frame (u g : gcell) (m : mat Z) (q : mat Qc) (w : vec Qc) : Prop := {
  cf_orth : orthogonal q;
  cf_atoms : forall z v, atom_at (cell_of u) z v <-> atom_at (cell_of g) z (move q w v);
  cf_forth : forall k, exists s, forall v, move q w (vadd v (period (lattice u) m k)) = vadd (move q w v) (vec_mat (vecZ s) (lattice g));
  cf_back : forall s, exists k, forall v, unmove q w (vadd v (vec_mat (vecZ s) (lattice g))) = vadd (unmove q w v) (period (lattice u) m k) }.

Lemma frame_found u ops o h m g : length (numbers u) = length (positions u) -> symmetries_of ops u -> In o ops -> rot_carries (fst o) m h ->
  stands_for u h g -> exists q w, carries_frame u g m q w.
Proof.
  intros Lu SU Io RC (c & LC & CR & q1 & t1 & O1 & A1 & V1).
  pose proof SU as (_ & _ & _ & RG). destruct (RG o Io) as (q0 & w0 & O0 & EQ).
  assert (LV : forall s, vec_mat (vecZ s) (lattice c) = period (lattice u) h s).
  { intros s. rewrite LC. unfold period. now rewrite vecZ_comb, vec_mat_mul. }
  assert (FM : forall v, unmove q1 t1 (move q0 w0 v) = move (mat_mul q0 (flip q1)) (vadd (vec_mat w0 (flip q1)) (vec_mat (vsub v0 t1) (flip q1))) v).
  { intros v. rewrite unmove_as_move. apply move_move. }
  set (q := mat_mul q0 (flip q1)) in *. set (w := vadd _ _) in FM. exists q, w.
  assert (OQ : orthogonal q) by (apply orthogonal_mul; [exact O0|now apply orthogonal_flip]).
  assert (SH : forall s, exists k, forall v, move q w (vadd v (period (lattice u) m k)) = vadd (move q w v) (vec_mat (vecZ s) (lattice g))).
  { intros s. assert (LG : lattice_vector (cell_of g) (vec_mat (vecZ s) (lattice g))) by (exists s; reflexivity).
    destruct (proj1 (V1 _) LG) as (k & Ek). cbn [cell_of fst] in Ek. rewrite LV in Ek.
    destruct (@back_period u o m h RC q0 w0 O0 EQ k) as (k' & Bk). exists k'. intros v. rewrite <- !FM.
    assert (E : move q0 w0 (vadd v (period (lattice u) m k')) = vadd (move q0 w0 v) (period (lattice u) h k)).
    { rewrite <- (move_unmove w0 (vadd (move q0 w0 v) (period (lattice u) h k)) O0), Bk, unmove_move by exact O0. reflexivity. }
    rewrite E, unmove_add, <- Ek, there_and_back by exact O1. reflexivity. }
  constructor; [exact OQ| | |].
  - intros z v. rewrite <- FM. rewrite (A1 z). cbn [atom_at cell_of].
    change (vadd (vec_mat (unmove q1 t1 (move q0 w0 v)) q1) t1) with (move q1 t1 (unmove q1 t1 (move q0 w0 v))).
    rewrite move_unmove, CR by exact O1. exact (@parent_moved u ops o Lu SU Io q0 w0 O0 EQ z v).
  - intros k. destruct (@forth_period u o m h RC q0 w0 EQ k) as (k' & Fk).
    assert (LG : lattice_vector (cell_of c) (vec_mat (vec_mat (period (lattice u) h k') (flip q1)) q1)).
    { rewrite back_and_there by exact O1. exists k'. cbn [cell_of fst]. now rewrite LV. }
    destruct (proj2 (V1 _) LG) as (s & Es). cbn [cell_of fst] in Es. exists s. intros v.
    rewrite <- !FM, Fk, unmove_add, Es. reflexivity.
  - intros s. destruct (SH s) as (k & K). exists k. intros v.
    rewrite <- (unmove_move w (vadd (unmove q w v) (period (lattice u) m k)) OQ), K, move_unmove by exact OQ. reflexivity.
Qed.

(** The lattice of such a cell is not flat. *)
Lemma rows_of_vectors L K : (forall s, exists k, vec_mat (vecZ s) L = vec_mat (vecZ k) K) -> exists H, L = mat_mul (matZ H) K.
Proof.
  intros A. destruct (A (V3 1 0 0)%Z) as (k1 & E1), (A (V3 0 1 0)%Z) as (k2 & E2), (A (V3 0 0 1)%Z) as (k3 & E3). exists (V3 k1 k2 k3).
  assert (R1 : vec_mat (vecZ (V3 1 0 0)%Z) L = vx L) by (destruct L as [[a1 a2 a3] [b1 b2 b3] [c1 c2 c3]]; unfold vecZ, vmap, vec_mat, vadd, vscale; cbn [vx vy vz]; change (Zc 1) with 1%Qc; change (Zc 0) with 0%Qc; f_equal; ring).
  assert (R2 : vec_mat (vecZ (V3 0 1 0)%Z) L = vy L) by (destruct L as [[a1 a2 a3] [b1 b2 b3] [c1 c2 c3]]; unfold vecZ, vmap, vec_mat, vadd, vscale; cbn [vx vy vz]; change (Zc 1) with 1%Qc; change (Zc 0) with 0%Qc; f_equal; ring).
  assert (R3 : vec_mat (vecZ (V3 0 0 1)%Z) L = vz L) by (destruct L as [[a1 a2 a3] [b1 b2 b3] [c1 c2 c3]]; unfold vecZ, vmap, vec_mat, vadd, vscale; cbn [vx vy vz]; change (Zc 1) with 1%Qc; change (Zc 0) with 0%Qc; f_equal; ring).
  rewrite R1 in E1. rewrite R2 in E2. rewrite R3 in E3. destruct L as [l1 l2 l3]. cbn [vx vy vz] in *. subst. reflexivity.
Qed.
Lemma volume_mat_mul a b : volume (mat_mul a b) = (volume a * volume b)%Qc.
Proof.
  rewrite <- !volume_qdet. destruct a as [[a1 a2 a3] [p1 p2 p3] [x1 x2 x3]], b as [[b1 b2 b3] [q1 q2 q3] [y1 y2 y3]].
  cbv [qdet mat_mul vec_mat vadd vscale vmap vx vy vz]. ring.
Qed.
Lemma frame_volume u h g : stands_for u h g -> volume (lattice u) <> 0%Qc -> zdet h <> 0%Z -> volume (lattice g) <> 0%Qc.
Proof.
  intros (c & LC & _ & q & t & OQ & _ & V) VU NH Z.
  destruct (@rows_of_vectors (mat_mul (lattice c) (flip q)) (lattice g)) as (H & EH).
  { intros s. assert (LV : lattice_vector (cell_of c) (vec_mat (vec_mat (vec_mat (vecZ s) (lattice c)) (flip q)) q)) by (rewrite back_and_there by exact OQ; exists s; reflexivity).
    destruct (proj2 (V _) LV) as (k & E). cbn [cell_of fst] in E. exists k. rewrite <- E, vec_mat_mul. reflexivity. }
  apply (f_equal volume) in EH. rewrite volume_mul, Z in EH. apply (f_equal (fun x => x * volume q)%Qc) in EH.
  rewrite <- volume_mat_mul, mat_mul_assoc, (proj2 OQ), mat_mul_one_r, LC in EH. apply (volume_supercell NH VU). rewrite EH. ring.
Qed.

Section Frame.
Context (u g : gcell) (m : mat Z) (news : list Z) (C : crystal) (q : mat Qc) (w : vec Qc).
Hypothesis PU : forall z z' v, atom_at (cell_of u) z v -> atom_at (cell_of u) z' v -> z = z'.
Hypothesis VG : volume (lattice g) <> 0%Qc.
Hypothesis Lg : length (numbers g) = length (positions g).
Hypothesis Dg : SSym.distinct_sites (positions g).
Hypothesis CF : carries_frame u g m q w.
Hypothesis D : derivative (cell_of u) m news C.
Notation F := (move q w).
Notation B := (unmove q w).
Notation here := (crystal_atom (lattice g) (positions g) (numbers g)).
Notation shift s := (vec_mat (vecZ s) (lattice g)).
Let OQ := cf_orth CF.

Lemma FB v : F (B v) = v. Proof. exact (move_unmove w v OQ). Qed.
Lemma BF v : B (F v) = v. Proof. exact (unmove_move w v OQ). Qed.
Lemma here_back z v : atom_at (cell_of u) z (B v) <-> here z v.
Proof. rewrite (cf_atoms CF z (B v)), FB. reflexivity. Qed.
Lemma here_unique z z' v : here z v -> here z' v -> z = z'.
Proof. intros A A'. apply here_back in A. apply here_back in A'. exact (PU A A'). Qed.
Definition seen (z : Z) (v : vec Qc) : Prop := C z (B v).
Lemma seen_moved z v : C z v <-> seen z (F v).
Proof. unfold seen. now rewrite BF. Qed.
Lemma seen_sites v : (exists z, seen z v) <-> exists z, here z v.
Proof. unfold seen. rewrite (d_sites D). split; intros (z & H); exists z; now apply here_back. Qed.
Lemma seen_one v z z' : seen z v -> seen z' v -> z = z'.
Proof. apply (d_one D). Qed.
Lemma seen_species v z : seen z v -> In z news \/ here z v.
Proof. intros H. destruct (d_species D H) as [H'|H']; [now left|right]. now apply here_back. Qed.
Lemma seen_shift s z v : seen z v -> seen z (vadd v (shift s)).
Proof. unfold seen. intros H. destruct (cf_back CF s) as (k & E). rewrite E. exact (d_period D k H). Qed.

Lemma decoration : exists x, length x = length (positions g) /\
  (forall i p z, nth_error (positions g) i = Some p -> nth_error x i = Some z -> seen z (vec_mat p (lattice g))).
Proof.
  destruct (@finite_choice _ _ (fun p z => seen z (vec_mat p (lattice g))) (positions g)) as (x & Hx).
  - intros p I. apply In_nth_error in I as (i & I). destruct (nth_pair (x := numbers g) Lg I) as (z & Z).
    apply seen_sites. exists z. now apply atom_here with i.
  - exists x. split; [symmetry; exact (Forall2_len Hx)|]. intros i p z. apply (Forall2_nth Hx).
Qed.

Context (x : list Z).
Hypothesis Lx : length x = length (positions g).
Hypothesis Hx : forall i p z, nth_error (positions g) i = Some p -> nth_error x i = Some z -> seen z (vec_mat p (lattice g)).

Lemma shown z v : crystal_atom (lattice g) (positions g) x z v <-> seen z v.
Proof.
  split.
  - intros (i & p & s & P & Z & ->). rewrite vec_mat_add. apply seen_shift. now apply Hx with i.
  - intros H. destruct (proj1 (seen_sites v)) as (z0 & i & p & s & P & _ & E); [eauto|].
    destruct (nth_pair (x := x) Lx P) as (z1 & Z1). exists i, p, s. split; [exact P|]. split; [|exact E].
    assert (z1 = z) as <-; [|exact Z1]. apply (@seen_one v); [|exact H]. rewrite E, vec_mat_add. apply seen_shift. now apply Hx with i.
Qed.
Lemma shown_species i a b : nth_error (numbers g) i = Some a -> nth_error x i = Some b -> In b news \/ b = a.
Proof.
  intros A Bb. destruct (nth_pair (x := positions g) (eq_sym Lx) Bb) as (p & P). destruct (seen_species (Hx P Bb)) as [H|H]; [now left|right].
  apply (here_unique H). now apply atom_here with i.
Qed.
Lemma shown_diff sp i p : nth_error (positions g) i = Some p ->
  In i (diffs (numbers g) x sp) <-> seen sp (vec_mat p (lattice g)) /\ ~ here sp (vec_mat p (lattice g)).
Proof.
  intros P. rewrite diffs_In by congruence. destruct (nth_pair (x := numbers g) Lg P) as (a & A). destruct (nth_pair (x := x) Lx P) as (b & Bb).
  assert (PA : here a (vec_mat p (lattice g))) by now apply atom_here with i. split.
  - intros (a' & A' & B' & N). assert (a' = a) by congruence. subst.
    split; [now apply Hx with i|]. intros H. apply N. apply (here_unique PA H).
  - intros [H N]. exists a. split; [exact A|]. assert (b = sp) as -> by (apply (seen_one (Hx P Bb) H)). split; [exact Bb|]. intros ->. contradiction.
Qed.
Lemma replaced_seen sp a : replaced (cell_of u) sp C a <-> seen sp (F a) /\ ~ here sp (F a).
Proof. unfold replaced. rewrite seen_moved, (cf_atoms CF sp a). reflexivity. Qed.
Lemma here_shift s z v : here z (vadd v (shift s)) -> here z v.
Proof.
  intros (i & p & t & P & Z & E). exists i, p, (zvsub t s). split; [exact P|]. split; [exact Z|].
  rewrite vecZ_sub. apply (f_equal (fun v => vsub v (shift s))) in E. rewrite vsub_add, <- vec_mat_vsub in E. rewrite E. f_equal.
  generalize (vecZ s) (vecZ t). clear. qm.
Qed.
Lemma replaced_shift sp s v : seen sp v /\ ~ here sp v -> seen sp (vadd v (shift s)) /\ ~ here sp (vadd v (shift s)).
Proof. intros [H N]. split; [now apply seen_shift|]. intros H'. apply N. exact (here_shift H'). Qed.
Lemma shift_neg s : shift (zvsub (V3 0 0 0)%Z s) = vsub v0 (shift s).
Proof. rewrite vecZ_sub, vec_mat_vsub. f_equal. Qed.

Lemma shown_count sp subs : replaced_per_period (cell_of u) m sp C subs -> length (diffs (numbers g) x sp) = length subs.
Proof.
  intros PP. destruct PP as (P1 & P2 & P3). rewrite Forall_forall in P1. cbn [cell_of fst] in P2, P3.
  assert (ZP := period_0 (lattice u)). assert (VZ := vadd_0).
  set (R := fun (a : vec Qc) i => exists p s, nth_error (positions g) i = Some p /\ F a = vadd (vec_mat p (lattice g)) (shift s)).
  assert (ND : NoDup subs).
  { clear P1 P2. revert P3. clear. intros P3. induction P3 as [|a l Ha P3 IH]; [constructor|]. constructor; [|exact IH]. intros I. rewrite Forall_forall in Ha.
    apply (Ha a I (V3 0 0 0)%Z). now rewrite period_0, vadd_0. }
  apply Nat.le_antisymm.
  - apply (rel_le (R := fun i a => R a i)); [apply NoDup_filter, seq_NoDup| |].
    + intros i I. pose proof I as I'. apply diffs_In in I' as (a & A & _ & _); [|congruence].
      destruct (nth_pair (x := positions g) (eq_sym Lg) A) as (p & P). apply (shown_diff sp P) in I.
      set (v := vec_mat p (lattice g)) in *. rewrite <- (FB v) in I. apply replaced_seen in I.
      destruct (P2 _ I) as (a0 & k & Ia & E). exists a0. split; [exact Ia|]. exists p.
      destruct (cf_forth CF k) as (s & K). assert (E' : v = vadd (F a0) (shift s)) by (rewrite <- K, <- E; symmetry; apply FB).
      exists (zvsub (V3 0 0 0) s)%Z. split; [exact P|]. fold v. rewrite E', shift_neg, vadd_vsub_chain, VZ. reflexivity.
    + intros i j a _ _ (p & s & P & E) (p' & s' & P' & E').
      apply (exact_distinct VG Dg (s := zvsub s' s) P P'). rewrite vecZ_sub, vec_mat_add, vec_mat_vsub.
      rewrite E in E'. apply (f_equal (fun v => vsub v (shift s))) in E'. rewrite vsub_add in E'. rewrite E'.
      generalize (vec_mat p' (lattice g)) (shift s) (shift s'). clear. qm.
  - apply (rel_le (R := R)); [exact ND| |].
    + intros a Ia. pose proof (proj1 (replaced_seen sp a) (P1 a Ia)) as H.
      destruct (proj1 (seen_sites (F a))) as (z0 & i & p & s & P & _ & E); [exists sp; apply H|]. rewrite vec_mat_add in E.
      exists i. split; [|exists p, s; auto]. apply (shown_diff sp P).
      assert (E' : vec_mat p (lattice g) = vadd (F a) (shift (zvsub (V3 0 0 0) s)%Z)) by (rewrite E, shift_neg, vadd_vsub_chain, VZ; reflexivity).
      rewrite E'. now apply replaced_shift.
    + intros a b i Ia Ib (p & s & P & E) (p' & s' & P' & E'). assert (p' = p) by congruence. subst p'.
      assert (K : F a = vadd (F b) (shift (zvsub s s'))) by (rewrite E, E', vecZ_sub, vec_mat_vsub, vadd_vsub_chain; reflexivity).
      destruct (cf_back CF (zvsub s s')) as (k & Bk). apply (f_equal B) in K. rewrite Bk, !BF in K.
      destruct (ForallOrdPairs_In P3 _ _ Ia Ib) as [?|[H|H]]; [assumption| |].
      * exfalso. apply (H (zvsub (V3 0 0 0) k)%Z). rewrite K, period_sub, ZP, vadd_vsub_chain, VZ. reflexivity.
      * exfalso. apply (H k). exact K.
Qed.
Lemma shown_element sp ele : (forall v, replaced (cell_of u) sp C v -> atom_at (cell_of u) ele v) ->
  forall i, In i (diffs (numbers g) x sp) -> site_holds (numbers g) ele i.
Proof.
  intros HE i I. pose proof I as I'. apply diffs_In in I' as (a & A & _ & _); [|congruence].
  destruct (nth_pair (x := positions g) (eq_sym Lg) A) as (p & P). apply (shown_diff sp P) in I.
  set (v := vec_mat p (lattice g)) in *. rewrite <- (FB v) in I. apply replaced_seen, HE in I. apply (proj1 (here_back _ _)) in I.
  unfold site_holds. rewrite A. f_equal. apply (here_unique (v := v)); [|exact I]. now apply atom_here with i.
Qed.
End Frame.

(** Together. *)
Lemma derivative_in_frame u ops h m g news (C : crystal) : length (numbers u) = length (positions u) -> volume (lattice u) <> 0%Qc -> symmetries_of ops u ->
  zdet h <> 0%Z -> lat_equiv (map fst ops) m h -> stands_for u h g -> length (numbers g) = length (positions g) -> SSym.distinct_sites (positions g) ->
  derivative (cell_of u) m news C ->
  exists x q w, orthogonal q /\ length x = length (positions g) /\
    (forall z v, atom_at (cell_of u) z v <-> atom_at (cell_of g) z (move q w v)) /\
    (forall z v, C z v <-> crystal_atom (lattice g) (positions g) x z (move q w v)) /\
    (forall i a b, nth_error (numbers g) i = Some a -> nth_error x i = Some b -> In b news \/ b = a) /\
    (forall sp subs, replaced_per_period (cell_of u) m sp C subs -> length (diffs (numbers g) x sp) = length subs) /\
    (forall sp ele, (forall v, replaced (cell_of u) sp C v -> atom_at (cell_of u) ele v) ->
       forall i, In i (diffs (numbers g) x sp) -> site_holds (numbers g) ele i).
Proof.
  intros Lu VU SU Nh (r & Ir & RC) SF Lg Dg D. apply in_map_iff in Ir as (op & <- & Iop).
  destruct (frame_found Lu SU Iop RC SF) as (q & w & CF). pose proof (frame_volume SF VU Nh) as VG.
  assert (PU : forall z z' v, atom_at (cell_of u) z v -> atom_at (cell_of u) z' v -> z = z').
  { intros z z' v. apply unique_species; [exact VU|]. apply exact_distinct; [exact VU|]. apply SU. }
  destruct (decoration Lg CF D) as (x & Lx & Hx). exists x, q, w. split; [exact (cf_orth CF)|]. split; [exact Lx|].
  split; [exact (cf_atoms CF)|]. split; [|split; [|split]].
  - intros z v. rewrite (shown CF D Lx Hx). apply (seen_moved C CF).
  - exact (shown_species PU CF D Lx Hx).
  - exact (shown_count PU VG Lg Dg CF D Lx Hx).
  - exact (shown_element PU Lg CF D Lx Hx).
Qed.
