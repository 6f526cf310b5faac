(** C83: no derivative structure is missed, and nothing else is listed. *)
From Coq Require Import String.
From Verif Require Import Base LBase PSuper BaseQ LQ SLattice SGeneralCell LGeneralCell MGeneralCell SSym LSym LSymDec SSubst SOcc SEnum SModCell SShape MHnf LHnf LMisc LCrystal LShape LSuper
  MComb MSogen LDup LSogen SDeriv LDeriv LDeriv2 LDeriv3 LCli8 PHnf LComb.
Open Scope nat_scope.
Notation length := List.length.

Lemma space_class sl il u ops n m : set_order sl -> symmetries_of ops u -> (0 < n < 2000)%Z -> Z.abs (zdet m) = n ->
  exists out s, hnfs_from_n sl il (map fst ops) u n = Ok out /\ In s out /\ s = SuperLatticeCell_new (map fst ops) u (sl_H s) /\
    is_hnf n (sl_H s) /\ is_hnf n (sl_H s) /\ lat_equiv (map fst ops) m (sl_H s).
Proof.
  intros SL SU N M. assert (N0 : (0 < n)%Z) by lia. pose proof SU as (_ & X & _ & _). pose proof (ops_rot_group X) as RG.
  destruct (proj1 (C34_one_per_class sl il (map fst ops) u n SL RG) N) as (all & out & _ & Eo & _ & (_ & T & _)).
  destruct (T m M) as (h & Ih & LE). apply in_map_iff in Ih as (s & <- & Is).
  pose proof (gen3_made SL N0 Eo) as MO. rewrite Forall_forall in MO. destruct (MO s Is) as [Es Hs]. exists out, s. auto 10.
Qed.
Lemma plane_class sl il u ops n m : set_order sl -> symmetries_of ops u -> (0 < n < 2000)%Z -> in_plane m -> Z.abs (zdet m) = n ->
  exists out s, hnfs_from_n_2d sl il (map fst ops) u n = Ok out /\ In s out /\ s = SuperLatticeCell_new (map fst ops) u (sl_H s) /\
    is_hnf n (sl_H s) /\ is_hnf2 n (sl_H s) /\ lat_equiv (map fst ops) m (sl_H s).
Proof.
  intros SL SU N IP M. assert (N0 : (0 < n)%Z) by lia. pose proof SU as (_ & X & _ & _). pose proof (ops_rot_group X) as RG.
  destruct (C35_plane_classes sl il (map fst ops) u n SL RG N) as (all & out & Ea & Eo & SB & (_ & T & _)).
  destruct (T m (conj IP M)) as (h & Ih & LE).
  assert (H2 : is_hnf2 n h).
  { destruct (proj1 (C35_plane_forms sl (map fst ops) u n SL) N0) as (all' & Ea' & _ & H & _). rewrite Ea in Ea'. injection Ea' as <-.
    apply H. now apply (subseq_incl SB). }
  apply in_map_iff in Ih as (s & <- & Is).
  pose proof (gen2_made SL N0 Eo) as MO. rewrite Forall_forall in MO. destruct (MO s Is) as [Es Hs]. exists out, s. auto 10.
Qed.

(** Any site may be substituted. *)
Theorem C83_complete : forall sl il u ops n spg wy hash sp m (C : crystal) subs,
  set_order sl -> from_constructor u -> volume (lattice u) <> 0%Qc -> symmetries_of ops u -> (0 < n < 2000)%Z -> 
  (forall h c, is_hnf n h -> to_general_cell (SuperLatticeCell_new (map fst ops) u h) = Ok c ->
     symmetries_of (spg c) c /\ collision_free hash (k_fold (numbers c) (any_site (numbers c)) (length subs) sp)) ->
  Z.abs (zdet m) = n -> derivative (cell_of u) m [sp] C -> replaced_per_period (cell_of u) m sp C subs ->
  exists out s c o g, hnfs_from_n sl il (map fst ops) u n = Ok out /\ In s out /\ to_general_cell s = Ok c /\
    OccupyGenerator_new (spg c) (wy c) c = Ok o /\ In g (items (gen_nodup_unitary hash o (Z.of_nat (length subs)) sp)) /\
    same_structure (cell_of u) C (atom_at (cell_of g)).
Proof.
  intros sl il u ops n spg wy hash sp m C subs SL FU VU SU N SP M D PP. assert (N1 : (n < 100000)%Z) by lia.
  destruct (@space_class sl il u ops n m SL SU N M) as (out & s & Eo & Is & Es & Hs & H2 & LE).
  destruct (core_unitary wy FU VU SU Hs N1 LE (fun c => SP (sl_H s) c H2) D PP) as (c & o & g & K1 & K2 & K3 & K4).
  exists out, s, c, o, g. rewrite <- Es in K1. auto 10.
Qed.
Print Assumptions C83_complete.

(** Only atoms of one element are substituted. *)
Theorem C83_complete_element : forall sl il u ops n spg wy hash ele sp m (C : crystal) subs,
  set_order sl -> from_constructor u -> volume (lattice u) <> 0%Qc -> symmetries_of ops u -> (0 < n < 2000)%Z -> 
  (forall h c, is_hnf n h -> to_general_cell (SuperLatticeCell_new (map fst ops) u h) = Ok c ->
     symmetries_of (spg c) c /\ collision_free hash (k_fold (numbers c) (site_holds (numbers c) ele) (length subs) sp)) ->
  Z.abs (zdet m) = n -> derivative (cell_of u) m [sp] C -> replaced_per_period (cell_of u) m sp C subs ->
  (forall v, replaced (cell_of u) sp C v -> atom_at (cell_of u) ele v) ->
  exists out s c o g, hnfs_from_n sl il (map fst ops) u n = Ok out /\ In s out /\ to_general_cell s = Ok c /\
    OccupyGenerator_new (spg c) (wy c) c = Ok o /\ In g (items (gen_nodup_of_ele hash o ele (Z.of_nat (length subs)) sp)) /\
    same_structure (cell_of u) C (atom_at (cell_of g)).
Proof.
  intros sl il u ops n spg wy hash ele sp m C subs SL FU VU SU N SP M D PP HE. assert (N1 : (n < 100000)%Z) by lia.
  destruct (@space_class sl il u ops n m SL SU N M) as (out & s & Eo & Is & Es & Hs & H2 & LE).
  destruct (core_element wy FU VU SU Hs N1 LE (fun c => SP (sl_H s) c H2) D PP HE) as (c & o & g & K1 & K2 & K3 & K4).
  exists out, s, c, o, g. rewrite <- Es in K1. auto 10.
Qed.
Print Assumptions C83_complete_element.

(** Two species are substituted. *)
Theorem C83_complete_ternary : forall sl il u ops n spg wy hash v1 v2 m (C : crystal) subs1 subs2,
  set_order sl -> from_constructor u -> volume (lattice u) <> 0%Qc -> symmetries_of ops u -> (0 < n < 2000)%Z -> v1 <> v2 -> 
  (forall h c, is_hnf n h -> to_general_cell (SuperLatticeCell_new (map fst ops) u h) = Ok c ->
     symmetries_of (spg c) c /\ collision_free hash (two_fold (numbers c) (length subs1) v1 (length subs2) v2)) ->
  Z.abs (zdet m) = n -> derivative (cell_of u) m [v1; v2] C -> replaced_per_period (cell_of u) m v1 C subs1 -> replaced_per_period (cell_of u) m v2 C subs2 ->
  exists out s c o g, hnfs_from_n sl il (map fst ops) u n = Ok out /\ In s out /\ to_general_cell s = Ok c /\
    OccupyGenerator_new (spg c) (wy c) c = Ok o /\ In g (items (gen_nodup_trinary_alloy hash o v1 (Z.of_nat (length subs1)) v2 (Z.of_nat (length subs2)))) /\
    same_structure (cell_of u) C (atom_at (cell_of g)).
Proof.
  intros sl il u ops n spg wy hash v1 v2 m C subs1 subs2 SL FU VU SU N N12 SP M D P1 P2. assert (N1 : (n < 100000)%Z) by lia.
  destruct (@space_class sl il u ops n m SL SU N M) as (out & s & Eo & Is & Es & Hs & H2 & LE).
  destruct (core_ternary wy FU VU SU Hs N1 LE N12 (fun c => SP (sl_H s) c H2) D P1 P2) as (c & o & g & K1 & K2 & K3 & K4).
  exists out, s, c, o, g. rewrite <- Es in K1. auto 10.
Qed.
Print Assumptions C83_complete_ternary.

(** The same for planar superlattices. *)
Theorem C83_complete_plane : forall sl il u ops n spg wy hash sp m (C : crystal) subs,
  set_order sl -> from_constructor u -> volume (lattice u) <> 0%Qc -> symmetries_of ops u -> (0 < n < 2000)%Z -> 
  (forall h c, is_hnf2 n h -> to_general_cell (SuperLatticeCell_new (map fst ops) u h) = Ok c ->
     symmetries_of (spg c) c /\ collision_free hash (k_fold (numbers c) (any_site (numbers c)) (length subs) sp)) ->
  in_plane m -> Z.abs (zdet m) = n -> derivative (cell_of u) m [sp] C -> replaced_per_period (cell_of u) m sp C subs ->
  exists out s c o g, hnfs_from_n_2d sl il (map fst ops) u n = Ok out /\ In s out /\ to_general_cell s = Ok c /\
    OccupyGenerator_new (spg c) (wy c) c = Ok o /\ In g (items (gen_nodup_unitary hash o (Z.of_nat (length subs)) sp)) /\
    same_structure (cell_of u) C (atom_at (cell_of g)).
Proof.
  intros sl il u ops n spg wy hash sp m C subs SL FU VU SU N SP IP M D PP. assert (N1 : (n < 100000)%Z) by lia.
  destruct (@plane_class sl il u ops n m SL SU N IP M) as (out & s & Eo & Is & Es & Hs & H2 & LE).
  destruct (core_unitary wy FU VU SU Hs N1 LE (fun c => SP (sl_H s) c H2) D PP) as (c & o & g & K1 & K2 & K3 & K4).
  exists out, s, c, o, g. rewrite <- Es in K1. auto 10.
Qed.
Print Assumptions C83_complete_plane.

Theorem C83_complete_element_plane : forall sl il u ops n spg wy hash ele sp m (C : crystal) subs,
  set_order sl -> from_constructor u -> volume (lattice u) <> 0%Qc -> symmetries_of ops u -> (0 < n < 2000)%Z -> 
  (forall h c, is_hnf2 n h -> to_general_cell (SuperLatticeCell_new (map fst ops) u h) = Ok c ->
     symmetries_of (spg c) c /\ collision_free hash (k_fold (numbers c) (site_holds (numbers c) ele) (length subs) sp)) ->
  in_plane m -> Z.abs (zdet m) = n -> derivative (cell_of u) m [sp] C -> replaced_per_period (cell_of u) m sp C subs ->
  (forall v, replaced (cell_of u) sp C v -> atom_at (cell_of u) ele v) ->
  exists out s c o g, hnfs_from_n_2d sl il (map fst ops) u n = Ok out /\ In s out /\ to_general_cell s = Ok c /\
    OccupyGenerator_new (spg c) (wy c) c = Ok o /\ In g (items (gen_nodup_of_ele hash o ele (Z.of_nat (length subs)) sp)) /\
    same_structure (cell_of u) C (atom_at (cell_of g)).
Proof.
  intros sl il u ops n spg wy hash ele sp m C subs SL FU VU SU N SP IP M D PP HE. assert (N1 : (n < 100000)%Z) by lia.
  destruct (@plane_class sl il u ops n m SL SU N IP M) as (out & s & Eo & Is & Es & Hs & H2 & LE).
  destruct (core_element wy FU VU SU Hs N1 LE (fun c => SP (sl_H s) c H2) D PP HE) as (c & o & g & K1 & K2 & K3 & K4).
  exists out, s, c, o, g. rewrite <- Es in K1. auto 10.
Qed.
Print Assumptions C83_complete_element_plane.

Theorem C83_complete_ternary_plane : forall sl il u ops n spg wy hash v1 v2 m (C : crystal) subs1 subs2,
  set_order sl -> from_constructor u -> volume (lattice u) <> 0%Qc -> symmetries_of ops u -> (0 < n < 2000)%Z -> v1 <> v2 -> 
  (forall h c, is_hnf2 n h -> to_general_cell (SuperLatticeCell_new (map fst ops) u h) = Ok c ->
     symmetries_of (spg c) c /\ collision_free hash (two_fold (numbers c) (length subs1) v1 (length subs2) v2)) ->
  in_plane m -> Z.abs (zdet m) = n -> derivative (cell_of u) m [v1; v2] C -> replaced_per_period (cell_of u) m v1 C subs1 -> replaced_per_period (cell_of u) m v2 C subs2 ->
  exists out s c o g, hnfs_from_n_2d sl il (map fst ops) u n = Ok out /\ In s out /\ to_general_cell s = Ok c /\
    OccupyGenerator_new (spg c) (wy c) c = Ok o /\ In g (items (gen_nodup_trinary_alloy hash o v1 (Z.of_nat (length subs1)) v2 (Z.of_nat (length subs2)))) /\
    same_structure (cell_of u) C (atom_at (cell_of g)).
Proof.
  intros sl il u ops n spg wy hash v1 v2 m C subs1 subs2 SL FU VU SU N N12 SP IP M D P1 P2. assert (N1 : (n < 100000)%Z) by lia.
  destruct (@plane_class sl il u ops n m SL SU N IP M) as (out & s & Eo & Is & Es & Hs & H2 & LE).
  destruct (core_ternary wy FU VU SU Hs N1 LE N12 (fun c => SP (sl_H s) c H2) D P1 P2) as (c & o & g & K1 & K2 & K3 & K4).
  exists out, s, c, o, g. rewrite <- Es in K1. auto 10.
Qed.
Print Assumptions C83_complete_ternary_plane.

(** And every listed structure is a derivative structure of the parent along its superlattice,
    with the wanted number of substitutions where the new species is foreign to the parent. *)
Theorem C83_sound : forall sl il u rots n spg wy hash out s c o g,
  set_order sl -> from_constructor u -> volume (lattice u) <> 0%Qc -> (0 < n < 2000)%Z ->
  hnfs_from_n sl il rots u n = Ok out \/ hnfs_from_n_2d sl il rots u n = Ok out -> In s out -> to_general_cell s = Ok c -> symmetries_of (spg c) c ->
  OccupyGenerator_new (spg c) (wy c) c = Ok o ->
  Z.abs (zdet (sl_H s)) = n /\
  (forall sp k, collision_free hash (k_fold (numbers c) (any_site (numbers c)) k sp) ->
     In g (items (gen_nodup_unitary hash o (Z.of_nat k) sp)) -> shows_derivative u (sl_H s) [(sp, k)] g) /\
  (forall ele sp k, collision_free hash (k_fold (numbers c) (site_holds (numbers c) ele) k sp) ->
     In g (items (gen_nodup_of_ele hash o ele (Z.of_nat k) sp)) -> shows_derivative u (sl_H s) [(sp, k)] g) /\
  (forall v1 k1 v2 k2, v1 <> v2 -> collision_free hash (two_fold (numbers c) k1 v1 k2 v2) ->
     In g (items (gen_nodup_trinary_alloy hash o v1 (Z.of_nat k1) v2 (Z.of_nat k2))) -> shows_derivative u (sl_H s) [(v1, k1); (v2, k2)] g).
Proof.
  intros sl il u rots n spg wy hash out s c o g SL FU VU N Eo Is Ec SC Ec2. assert (N0 : (0 < n)%Z) by lia. assert (N1 : (n < 100000)%Z) by lia.
  assert (MO : Forall (made_of rots u n) out) by (destruct Eo as [Eo|Eo]; [exact (gen3_made SL N0 Eo)|exact (gen2_made SL N0 Eo)]).
  rewrite Forall_forall in MO. destruct (MO s Is) as [Es Hs]. rewrite Es in Ec. cbn [SuperLatticeCell_new sl_H] in *.
  destruct (from_constructor_facts FU) as (_ & NEu & Lu & _).
  destruct (C37_superlattice_same_crystal rots u n (sl_H s) NEu Lu Hs N1) as (c' & Ec' & _ & _ & _ & NC & _).
  rewrite Ec' in Ec. injection Ec as ->. pose proof (made_by_constructor Ec' NC) as FC.
  destruct (generator_facts (wy c) FC SC) as (o' & Eo' & IC & FO & PG & PR). rewrite Eo' in Ec2. injection Ec2 as ->.
  split; [rewrite (hnf_det Hs); lia|]. split; [|split].
  - intros sp k CF Ig. rewrite <- IC in CF. destruct (C19_unitary FO PG PR CF) as (_ & FR & (TF & _)). rewrite IC in FR, TF.
    rewrite Forall_forall in FR, TF. specialize (TF _ (in_map numbers _ _ Ig)).
    apply (sound_core FU VU Hs N1 Ec' (proj1 SC) (FR g Ig)); [destruct TF as (S & _ & L & _); exact L|exact (fold_choice TF)|].
    intros sp' k' [[= <- <-]|[]] NI. exact (fold_places (fun i H => H) NI TF).
  - intros ele sp k CF Ig. rewrite <- IC in CF. destruct (C19_ele FO PG PR CF) as (_ & FR & (TF & _)). rewrite IC in FR, TF.
    rewrite Forall_forall in FR, TF. specialize (TF _ (in_map numbers _ _ Ig)).
    apply (sound_core FU VU Hs N1 Ec' (proj1 SC) (FR g Ig)); [destruct TF as (S & _ & L & _); exact L|exact (fold_choice TF)|].
    intros sp' k' [[= <- <-]|[]] NI. refine (fold_places _ NI TF). intros i H. unfold site_holds in H. apply nth_error_Some. congruence.
  - intros v1 k1 v2 k2 N12 CF Ig. rewrite <- IC in CF. destruct (C20_lemma FO PG PR CF) as (_ & FR & (TF & _)). rewrite IC in FR, TF.
    rewrite Forall_forall in FR, TF. specialize (TF _ (in_map numbers _ _ Ig)).
    apply (sound_core FU VU Hs N1 Ec' (proj1 SC) (FR g Ig)); [destruct TF as (S1 & S2 & _ & _ & _ & L & _); exact L|exact (two_choice TF)|].
    destruct (two_places N12 TF) as [T1 T2]. intros sp' k' [[= <- <-]|[[= <- <-]|[]]] NI; [exact (T1 NI)|exact (T2 NI)].
Qed.
Print Assumptions C83_sound.

(** Boron on the simple cubic net; the derivative structure has carbon in every second layer,
    described by a matrix that is not in Hermite form. *)
Definition c4_ops : list (mat Z * vec Qc) := map (fun r => (r, v0)) c4.
Definition translations (c : gcell) : list (mat Z * vec Qc) := map (fun p => (zid, p)) (positions c).
Definition layers_m : mat Z := (V3 (V3 0 0 2) (V3 1 0 0) (V3 0 1 0))%Z.
Definition layers (a b : Z) : crystal := fun z v => exists s, v = vecZ s /\ z = (if Z.even (vz s) then a else b).

Definition mQc_eqb (a b : mat Qc) : bool := vQc_eqb (vx a) (vx b) && vQc_eqb (vy a) (vy b) && vQc_eqb (vz a) (vz b).
Lemma mat_eq_dec_ok a b : mQc_eqb a b = true -> a = b.
Proof.
  destruct a as [[a1 a2 a3] [a4 a5 a6] [a7 a8 a9]], b as [[b1 b2 b3] [b4 b5 b6] [b7 b8 b9]]. unfold mQc_eqb, vQc_eqb, Qceqb. cbn [vx vy vz].
  rewrite !andb_true_iff, !Qeq_bool_iff. intros ([[[? ?] ?] [[? ?] ?]] & [? ?] & ?). repeat f_equal; now apply Qc_is_canon.
Qed.
Definition all_boron (c : gcell) : bool :=
  distinctb (positions c) && exact_space_groupb (translations c) (positions c) && forallb (Z.eqb 5) (numbers c) && (length (numbers c) =? length (positions c)).
Lemma translations_ok c : all_boron c = true -> symmetries_of (translations c) c.
Proof.
  unfold all_boron. rewrite !andb_true_iff. intros [[[A B] E] F]. apply Nat.eqb_eq in F.
  split; [now apply distinctb_ok|]. split; [now apply exact_space_groupb_ok|]. split.
  - intros o i j p q _ P Q _. destruct (nth_pair (x := numbers c) F P) as (a & HA). destruct (nth_pair (x := numbers c) F Q) as (b & HB).
    rewrite forallb_forall in E. rewrite HA, HB. pose proof (E a (nth_error_In _ _ HA)). pose proof (E b (nth_error_In _ _ HB)). f_equal. lia.
  - intros o I. apply in_map_iff in I as (p & <- & _). exists one, (vec_mat p (lattice c)). split.
    + split; apply mat_eq_dec_ok; vm_compute; reflexivity.
    + intros x. cbn [fst snd]. generalize (lattice c). clear. intros [[? ? ?] [? ? ?] [? ? ?]]. destruct x, p.
      unfold op_image, zid, one, vec_mat, vadd, vscale. cbn. change (Zc 0) with 0%Qc. change (Zc 1) with 1%Qc. f_equal; ring.
Qed.
Lemma unit1_made : from_constructor unit1.
Proof. exists (lattice unit1), [v0], [5%Z]. split; [reflexivity|]. vm_compute. reflexivity. Qed.
Lemma c4_symmetries : symmetries_of c4_ops unit1.
Proof.
  split; [apply distinctb_ok; vm_compute; reflexivity|]. split; [apply exact_space_groupb_ok; vm_compute; reflexivity|]. split.
  - intros o [|i] [|j] p q _ P Q _; cbn in P, Q; try reflexivity; try (destruct i; discriminate); try (destruct j; discriminate).
  - intros o I. exists (flip (matZ (fst o))), v0.
    cbn in I. destruct I as [<-|[<-|[<-|[<-|[]]]]]; (split; [split; apply mat_eq_dec_ok; vm_compute; reflexivity|]; intros [x y z]; cbn [fst snd];
      unfold op_image, zid, flip, unit1, vec_mat, vadd, vscale, matZ, vecZ, vmap, v0; cbn;
      change (Zc 0) with 0%Qc; change (Zc 1) with 1%Qc; change (Zc (-1)) with (-(1))%Qc; f_equal; ring).
Qed.
Lemma two_forms h : is_hnf 2 h -> In h (match hnfs_from_n_dups first_order (map fst c4_ops) unit1 2 with Ok l => map sl_H l | Raise _ => [] end).
Proof.
  intros H. destruct (proj1 (C31_hermite_forms first_order (map fst c4_ops) unit1 2 first_order_ok)) as (l & E & _ & X & _); [lia|].
  rewrite E. now apply X.
Qed.
Lemma two_cells h c : is_hnf 2 h -> to_general_cell (SuperLatticeCell_new (map fst c4_ops) unit1 h) = Ok c -> all_boron c = true.
Proof.
  intros H E. apply two_forms in H.
  assert (A : forallb (fun h => match to_general_cell (SuperLatticeCell_new (map fst c4_ops) unit1 h) with Ok c => all_boron c | Raise _ => true end)
    (match hnfs_from_n_dups first_order (map fst c4_ops) unit1 2 with Ok l => map sl_H l | Raise _ => [] end) = true) by (vm_compute; reflexivity).
  rewrite forallb_forall in A. specialize (A h H). now rewrite E in A.
Qed.
Lemma unit1_atoms z v : atom_at (cell_of unit1) z v <-> exists s, v = vecZ s /\ z = 5%Z.
Proof.
  assert (K : forall s, vec_mat (vadd v0 (vecZ s)) (lattice unit1) = vecZ s).
  { intros s. change (lattice unit1) with one. rewrite vec_mat_one. change v0 with (vecZ (V3 0 0 0)%Z). rewrite <- vecZ_add. now destruct s. }
  split.
  - intros ([|i] & p & s & P & Z & ->); [|destruct i; discriminate]. cbn in P, Z. injection P as <-. injection Z as <-.
    exists s. split; [apply K|reflexivity].
  - intros (s & -> & ->). exists 0, v0, s. split; [reflexivity|]. split; [reflexivity|]. symmetry. apply K.
Qed.
Lemma layers_period k : period (fst (fst (cell_of unit1))) layers_m k = vecZ (V3 (vy k) (vz k) (2 * vx k)%Z).
Proof.
  destruct k as [a b d]. unfold period, layers_m, zcomb, zvadd, zvscale. cbn [vx vy vz].
  replace (V3 _ _ _) with (V3 b d (2 * a)%Z) by (f_equal; lia). change (fst (fst (cell_of unit1))) with one. apply vec_mat_one.
Qed.
Lemma layers_derivative a b news : In a news -> b = 5%Z \/ In b news -> derivative (cell_of unit1) layers_m news (layers a b).
Proof.
  intros A B. split.
  - intros v. split.
    + intros (z & s & -> & _). exists 5%Z. apply unit1_atoms. eauto.
    + intros (z & H). apply unit1_atoms in H as (s & -> & _). eexists. exists s. split; reflexivity.
  - intros v z z' (s & -> & ->) (s' & E & ->). apply vecZ_inj in E. now subst.
  - intros v z (s & -> & ->). destruct (Z.even (vz s)); [now left|]. destruct B as [->|B]; [right|now left]. apply unit1_atoms. eauto.
  - intros k z v (s & -> & ->). rewrite layers_period, <- vecZ_add. eexists. split; [reflexivity|].
    unfold zvadd. cbn [vz]. rewrite Z.even_add, Z.even_mul. cbn. now destruct (Z.even (vz s)).
Qed.
Lemma layers_even a b : a <> 5%Z -> a <> b -> replaced_per_period (cell_of unit1) layers_m a (layers a b) [v0].
Proof.
  intros A AB. split; [|split].
  - constructor; [|constructor]. split; [exists (V3 0 0 0)%Z; split; reflexivity|]. intros H. apply unit1_atoms in H as (s & _ & ?). congruence.
  - intros v [(s & -> & E) _]. destruct (Z.even (vz s)) eqn:V; [|congruence]. apply Z.even_spec in V as (e & V).
    exists v0, (V3 e (vx s) (vy s)). split; [now left|]. rewrite layers_period. cbn [vx vy vz]. rewrite <- V.
    change v0 with (vecZ (V3 0 0 0)%Z). rewrite <- vecZ_add. f_equal. destruct s; reflexivity.
  - repeat constructor.
Qed.
Lemma layers_odd a b : b <> 5%Z -> a <> b -> replaced_per_period (cell_of unit1) layers_m b (layers a b) [vecZ (V3 0 0 1)%Z].
Proof.
  intros A AB. split; [|split].
  - constructor; [|constructor]. split; [exists (V3 0 0 1)%Z; split; reflexivity|]. intros H. apply unit1_atoms in H as (s & _ & ?). congruence.
  - intros v [(s & -> & E) _]. destruct (Z.even (vz s)) eqn:V; [congruence|]. rewrite <- Z.negb_odd in V. apply negb_false_iff, Z.odd_spec in V as (e & V).
    exists (vecZ (V3 0 0 1)%Z), (V3 e (vx s) (vy s)). split; [now left|]. rewrite layers_period. cbn [vx vy vz].
    rewrite <- vecZ_add. f_equal. destruct s as [s1 s2 s3]. cbn [vz] in V. subst s3. unfold zvadd. cbn [vx vy vz]. f_equal. lia.
  - repeat constructor.
Qed.
Lemma boron_bounds c : all_boron c = true -> Forall (fun z => 0 <= z < 1000)%Z (numbers c).
Proof.
  unfold all_boron. rewrite !andb_true_iff. intros [[_ A] _]. rewrite forallb_forall in A. apply Forall_forall. intros x I. specialize (A x I). lia.
Qed.
Example C83_ex : set_order first_order /\ from_constructor unit1 /\ volume (lattice unit1) <> 0%Qc /\ symmetries_of c4_ops unit1 /\
  (forall h c, is_hnf 2 h -> to_general_cell (SuperLatticeCell_new (map fst c4_ops) unit1 h) = Ok c ->
     symmetries_of (translations c) c /\ collision_free poly (k_fold (numbers c) (any_site (numbers c)) 1 6%Z) /\
     collision_free poly (k_fold (numbers c) (site_holds (numbers c) 5%Z) 1 6%Z) /\
     collision_free poly (two_fold (numbers c) 1 6%Z 1 7%Z)) /\
  Z.abs (zdet layers_m) = 2%Z /\ ~ In 6%Z (numbers unit1) /\ ~ In 7%Z (numbers unit1) /\
  (derivative (cell_of unit1) layers_m [6%Z] (layers 6 5) /\ replaced_per_period (cell_of unit1) layers_m 6 (layers 6 5) [v0] /\
   forall v, replaced (cell_of unit1) 6 (layers 6 5) v -> atom_at (cell_of unit1) 5 v) /\
  (derivative (cell_of unit1) layers_m [6; 7]%Z (layers 6 7) /\ replaced_per_period (cell_of unit1) layers_m 6 (layers 6 7) [v0] /\
   replaced_per_period (cell_of unit1) layers_m 7 (layers 6 7) [vecZ (V3 0 0 1)%Z]).
Proof.
  split; [exact first_order_ok|]. split; [exact unit1_made|]. split; [intros E; apply (f_equal this) in E; vm_compute in E; discriminate|].
  split; [exact c4_symmetries|]. split; [|split; [reflexivity|]].
  { intros h c H E. pose proof (two_cells h c H E) as A. pose proof (boron_bounds c A) as B. split; [now apply translations_ok|].
    split; [apply kfold_poly; constructor; [lia|exact B]|]. split; [apply kfold_poly; constructor; [lia|exact B]|].
    apply two_fold_poly. constructor; [lia|]. constructor; [lia|exact B]. }
  split; [cbn; intros [?|[]]; discriminate|]. split; [cbn; intros [?|[]]; discriminate|]. split; [split; [|split]|split; [|split]].
  - apply layers_derivative; cbn; auto.
  - apply layers_even; lia.
  - intros v [(s & -> & _) _]. apply unit1_atoms. eauto.
  - apply layers_derivative; cbn; auto.
  - apply layers_even; lia.
  - apply layers_odd; lia.
Qed.
