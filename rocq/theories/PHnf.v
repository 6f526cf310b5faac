(** Properties C31-C35: superlattices (grid.py). *)
From Verif Require Import Base LBase BaseQ LQ SLattice SSubst SSym MGeneralCell MHnf LMat3 LHnf LSuper LSuper2.
Open Scope Z_scope.

(** Python's [set] in first-occurrence order, used in the examples. *)
Definition first_order (l : list Z) : list Z := nodup Z.eq_dec l.
Lemma first_order_ok : set_order first_order.
Proof. intros l. split; [apply NoDup_nodup|]. intros x. apply nodup_In. Qed.

(** Rotations about the third axis. *)
Definition c4 : list (mat Z) :=
  [zid; V3 (V3 0 (-1) 0) (V3 1 0 0) (V3 0 0 1);
   V3 (V3 (-1) 0 0) (V3 0 (-1) 0) (V3 0 0 1); V3 (V3 0 1 0) (V3 (-1) 0 0) (V3 0 0 1)].
Lemma c4_group : rot_group c4.
Proof. apply rot_group_b_ok. reflexivity. Qed.

Definition unit1 : gcell :=
  let lat := (V3 (V3 1 0 0) (V3 0 1 0) (V3 0 0 1))%Qc in mkG lat [v0] [5] (lat, [v0], [5]) 1.

Theorem C31_hermite_forms : forall sl rots u n, set_order sl ->
  (0 < n -> exists l, hnfs_from_n_dups sl rots u n = Ok l /\
     NoDup (List.map sl_H l) /\ (forall h, In h (List.map sl_H l) <-> is_hnf n h) /\
     Forall (fun s => s = SuperLatticeCell_new rots u (sl_H s)) l) /\
  (n <= 0 -> hnfs_from_n_dups sl rots u n = Raise TypeError).
Proof.
  intros sl rots u n SL. split.
  - intros N. destruct (hnf_mats_spec SL N) as (l & E & ND & H). unfold hnfs_from_n_dups. rewrite E. cbn.
    eexists. split; [reflexivity|]. rewrite map_map. cbn. rewrite map_id. split; [exact ND|]. split; [exact H|].
    apply Forall_forall. intros s S. apply in_map_iff in S. destruct S as (h & <- & _). reflexivity.
  - intros N. unfold hnfs_from_n_dups. now rewrite hnf_mats_bad.
Qed.
Print Assumptions C31_hermite_forms.
(** The seven Hermite forms of index 2; the number for index 12. *)
Example C31_ex :
  (exists l, hnfs_from_n_dups first_order c4 unit1 2 = Ok l /\
    List.map sl_H l = [V3 (V3 1 0 0) (V3 0 1 0) (V3 0 0 2); V3 (V3 1 0 0) (V3 0 1 1) (V3 0 0 2);
                  V3 (V3 1 0 1) (V3 0 1 0) (V3 0 0 2); V3 (V3 1 0 1) (V3 0 1 1) (V3 0 0 2);
                  V3 (V3 1 0 0) (V3 0 2 0) (V3 0 0 1); V3 (V3 1 1 0) (V3 0 2 0) (V3 0 0 1);
                  V3 (V3 2 0 0) (V3 0 1 0) (V3 0 0 1)]) /\
  (exists l, hnfs_from_n_dups first_order c4 unit1 12 = Ok l /\ length l = 455%nat).
Proof. split; eexists; (split; [vm_compute; reflexivity|reflexivity]). Qed.

Theorem C32_every_superlattice_once : forall sl rots u n m, set_order sl -> 0 < n -> Z.abs (zdet m) = n ->
  exists l, hnfs_from_n_dups sl rots u n = Ok l /\
    exists s, In s l /\ same_lattice m (sl_H s) /\
      (forall i j a b, nth_error l i = Some a -> nth_error l j = Some b ->
         same_lattice m (sl_H a) -> same_lattice m (sl_H b) -> i = j).
Proof.
  intros sl rots u n m SL N D. destruct (hnf_mats_spec SL N) as (l & E & ND & H).
  unfold hnfs_from_n_dups. rewrite E. cbn. eexists. split; [reflexivity|].
  assert (D' : zdet m <> 0) by lia. destruct (hnf_exists D') as (h & Hh & L). rewrite D in Hh.
  exists (SuperLatticeCell_new rots u h). split; [apply in_map, H; exact Hh|]. split; [exact L|].
  intros i j a b I J A B.
  rewrite nth_error_map in I, J.
  destruct (nth_error l i) as [x|] eqn:X; [|discriminate]. destruct (nth_error l j) as [y|] eqn:Y; [|discriminate].
  cbn in I, J. injection I as <-. injection J as <-. cbn in A, B.
  assert (x = y).
  { eapply hnf_unique; [apply H; eapply nth_error_In; exact X|apply H; eapply nth_error_In; exact Y|].
    eapply same_lattice_trans; [apply same_lattice_sym; exact A|exact B]. }
  subst y. apply (proj1 (NoDup_nth_error l) ND); [apply nth_error_Some; congruence|congruence].
Qed.
Print Assumptions C32_every_superlattice_once.
(** A matrix of determinant 2 and its representative. *)
Example C32_ex : let m := V3 (V3 0 2 0) (V3 3 5 7) (V3 1 0 2) in let h := V3 (V3 1 0 0) (V3 0 1 1) (V3 0 0 2) in
  Z.abs (zdet m) = 2 /\ is_hnf 2 h /\ same_lattice m h.
Proof.
  split; [reflexivity|]. split; [exists 1, 0, 1, 0, 1, 2; repeat split; lia|].
  apply same_lattice_rows;
    [exists (V3 (5) (-2) (7))|exists (V3 (-2) (1) (-3))|exists (V3 (-5) (2) (-6))|exists (V3 0 2 (-1))|exists (V3 3 5 1)|exists (V3 1 0 1)]; reflexivity.
Qed.

Theorem C33_equality_iff_rotation : forall s t, (forall r, In r (sl_rots s) -> unimodular r) ->
  0 < Z.abs (zdet (sl_H s)) < 2000 -> Z.abs (zdet (sl_H s)) = Z.abs (zdet (sl_H t)) ->
  exists b, sl_eq s t = Ok b /\
    (b = true <-> exists r, In r (sl_rots s) /\ rot_carries r (sl_H s) (sl_H t)).
Proof. intros s t R D E. apply sl_eq_loop_spec; [exact R|lia|exact E|lia]. Qed.
Print Assumptions C33_equality_iff_rotation.

Theorem C33_equivalence_relation : forall rots n, rot_group rots -> 0 < n < 2000 ->
  let dom s := sl_rots s = rots /\ Z.abs (zdet (sl_H s)) = n in
  (forall s, dom s -> sl_eq s s = Ok true) /\
  (forall s t, dom s -> dom t -> sl_eq s t = sl_eq t s) /\
  (forall s t u, dom s -> dom t -> dom u -> sl_eq s t = Ok true -> sl_eq t u = Ok true -> sl_eq s u = Ok true).
Proof.
  intros rots n G N dom.
  assert (K : forall s t, dom s -> dom t -> exists b, sl_eq s t = Ok b /\ (b = true <-> eqv rots s t))
    by (intros; now apply (@sl_eq_spec rots n G N)).
  split; [|split].
  - intros s S. destruct (K s s S S) as (b & -> & T). f_equal. apply T. now apply lat_equiv_refl.
  - intros s t S T. destruct (K s t S T) as (b & -> & B), (K t s T S) as (c & -> & C). f_equal.
    assert (eqv rots s t <-> eqv rots t s) by (split; now apply lat_equiv_sym).
    destruct b, c; trivial; intuition congruence.
  - intros s t u S T U. destruct (K s t S T) as (b & -> & B), (K t u T U) as (c & -> & C), (K s u S U) as (d & -> & D).
    intros X Y. injection X as ->. injection Y as ->. f_equal. apply D.
    eapply lat_equiv_trans; [exact G|now apply B|now apply C].
Qed.
Print Assumptions C33_equivalence_relation.

(** From index 2000 on, whatever the rotations: two different superlattices of index n
    compare equal; with the trivial rotation group they are not related by any rotation. *)
Theorem C33_false_equality_refuted : forall n, 2000 <= n ->
  exists m1 m2, is_hnf n m1 /\ is_hnf n m2 /\ ~ same_lattice m1 m2 /\
    (forall s t, sl_H s = m1 -> sl_H t = m2 -> (forall r, In r (sl_rots s) -> unimodular r) ->
       In zid (sl_rots s) -> sl_eq s t = Ok true) /\
    ~ lat_equiv [zid] m1 m2.
Proof.
  intros n N. assert (N2 : 2 <= n) by lia. exists (bigA n), (bigB n).
  split; [apply (big_hnf N2)|]. split; [apply (big_hnf N2)|]. split; [now apply big_differ|]. split.
  - intros s t S T R I. unfold sl_eq. rewrite S, T. now apply big_equal.
  - rewrite trivial_equiv. now apply big_differ.
Qed.
Print Assumptions C33_false_equality_refuted.
(** Index 2: two superlattices related by a quarter turn, and two that are not. *)
Example C33_ex :
  let s m := SuperLatticeCell_new c4 unit1 m in
  sl_eq (s (V3 (V3 1 0 0) (V3 0 2 0) (V3 0 0 1))) (s (V3 (V3 2 0 0) (V3 0 1 0) (V3 0 0 1))) = Ok true /\
  sl_eq (s (V3 (V3 1 1 0) (V3 0 2 0) (V3 0 0 1))) (s (V3 (V3 2 0 0) (V3 0 1 0) (V3 0 0 1))) = Ok false.
Proof. split; vm_compute; reflexivity. Qed.

Theorem C34_one_per_class : forall sl il rots u n, set_order sl -> rot_group rots ->
  (0 < n < 2000 -> exists all out, hnfs_from_n_dups sl rots u n = Ok all /\ hnfs_from_n sl il rots u n = Ok out /\
     subseq (List.map sl_H out) (List.map sl_H all) /\
     transversal (lat_equiv rots) (fun m => Z.abs (zdet m) = n) (List.map sl_H out)) /\
  (n <= 0 -> hnfs_from_n sl il rots u n = Raise TypeError).
Proof.
  intros sl il rots u n SL G. split.
  - intros N. assert (N' : 0 < n) by lia. destruct (hnf_mats_spec SL N') as (l & E & ND & H).
    unfold hnfs_from_n, hnfs_from_n_dups. rewrite E. cbn [bind].
    destruct (@nodup_transversal rots n il u l (fun m => Z.abs (zdet m) = n) G N) as (out & O & S & T).
    + intros h Hh. apply H in Hh. pose proof (hnf_det Hh). split; [lia|]. cbn. lia.
    + intros m M. cbn in M. assert (D : zdet m <> 0) by lia. destruct (hnf_exists D) as (h & Hh & L). rewrite M in Hh.
      exists h. split; [now apply H|exact L].
    + exists (List.map (SuperLatticeCell_new rots u) l), out. split; [reflexivity|]. split; [exact O|]. split; [|exact T].
      rewrite map_map. cbn. now rewrite map_id.
  - intros N. unfold hnfs_from_n, hnfs_from_n_dups. now rewrite hnf_mats_bad.
Qed.
Print Assumptions C34_one_per_class.
Example C34_ex : exists l, hnfs_from_n first_order true c4 unit1 2 = Ok l /\
  List.map sl_H l = [V3 (V3 1 0 0) (V3 0 1 0) (V3 0 0 2); V3 (V3 1 0 0) (V3 0 1 1) (V3 0 0 2);
                V3 (V3 1 0 1) (V3 0 1 1) (V3 0 0 2);
                V3 (V3 1 0 0) (V3 0 2 0) (V3 0 0 1); V3 (V3 1 1 0) (V3 0 2 0) (V3 0 0 1)].
Proof. eexists; (split; [vm_compute; reflexivity|reflexivity]). Qed.

Theorem C35_plane_forms : forall sl rots u n, set_order sl ->
  (0 < n -> exists l, hnfs_from_n_dups_2d sl rots u n = Ok l /\
     NoDup (List.map sl_H l) /\ (forall h, In h (List.map sl_H l) <-> is_hnf2 n h) /\
     (forall m, in_plane m -> Z.abs (zdet m) = n ->
        exists h, In h (List.map sl_H l) /\ same_lattice m h /\
          forall h', In h' (List.map sl_H l) -> same_lattice m h' -> h' = h)) /\
  (n <= 0 -> hnfs_from_n_dups_2d sl rots u n = Raise TypeError).
Proof.
  intros sl rots u n SL. split.
  - intros N. destruct (hnf2_mats_spec SL N) as (l & E & ND & H). unfold hnfs_from_n_dups_2d. rewrite E. cbn.
    eexists. split; [reflexivity|]. rewrite map_map. cbn. rewrite map_id. split; [exact ND|]. split; [exact H|].
    intros m P D. assert (D' : zdet m <> 0) by lia. destruct (hnf2_exists P D') as (h & Hh & L). rewrite D in Hh.
    exists h. split; [now apply H|]. split; [exact L|]. intros h' H' L'.
    eapply hnf_unique; [apply hnf2_hnf, H; exact H'|apply hnf2_hnf; exact Hh|].
    eapply same_lattice_trans; [apply same_lattice_sym; exact L'|exact L].
  - intros N. unfold hnfs_from_n_dups_2d. now rewrite hnf2_mats_bad.
Qed.
Print Assumptions C35_plane_forms.

Theorem C35_plane_classes : forall sl il rots u n, set_order sl -> rot_group rots -> 0 < n < 2000 ->
  exists all out, hnfs_from_n_dups_2d sl rots u n = Ok all /\ hnfs_from_n_2d sl il rots u n = Ok out /\
     subseq (List.map sl_H out) (List.map sl_H all) /\
     transversal (lat_equiv rots) (fun m => in_plane m /\ Z.abs (zdet m) = n) (List.map sl_H out).
Proof.
  intros sl il rots u n SL G N. assert (N' : 0 < n) by lia. destruct (hnf2_mats_spec SL N') as (l & E & ND & H).
  unfold hnfs_from_n_2d, hnfs_from_n_dups_2d. rewrite E. cbn [bind].
  destruct (@nodup_transversal rots n il u l (fun m => in_plane m /\ Z.abs (zdet m) = n) G N) as (out & O & S & T).
  - intros h Hh. apply H in Hh. pose proof (hnf_det (hnf2_hnf Hh)). split; [lia|]. split; [|cbn; lia].
    destruct Hh as (a & b & c & -> & _). now exists a, b, 0, c.
  - intros m [P M]. assert (D : zdet m <> 0) by lia. destruct (hnf2_exists P D) as (h & Hh & L). rewrite M in Hh.
    exists h. split; [now apply H|exact L].
  - exists (List.map (SuperLatticeCell_new rots u) l), out. split; [reflexivity|]. split; [exact O|]. split; [|exact T].
    rewrite map_map. cbn. now rewrite map_id.
Qed.
Print Assumptions C35_plane_classes.
Example C35_ex : exists l, hnfs_from_n_2d first_order false c4 unit1 4 = Ok l /\
  List.map sl_H l = [V3 (V3 1 0 0) (V3 0 4 0) (V3 0 0 1); V3 (V3 1 1 0) (V3 0 4 0) (V3 0 0 1);
                V3 (V3 1 2 0) (V3 0 4 0) (V3 0 0 1); V3 (V3 2 0 0) (V3 0 2 0) (V3 0 0 1)].
Proof. eexists; (split; [vm_compute; reflexivity|reflexivity]). Qed.
