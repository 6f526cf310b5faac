(** C92: what is enumerated does not depend on arbitrary choices, and different routes to the
    same structures agree. *)
From Coq Require Import String.
From Verif Require Import Base LBase BaseQ LQ MGeneralCell SGeneralCell MComb SSubst SSym MSogen SOcc SEnum SRobust SChoice LDup LMisc LSym LSymDec LSogen LFilter LRobust LChoice LFrame PSogen SLattice MHnf LMat3 LSuper2 LFrame2 PHnf.
Open Scope list_scope.
Open Scope nat_scope.
Notation length := List.length.

(** One crystal described twice - other origin, other basis of the same lattice, sites listed
    in another order or in other cells, another hash: the structures correspond one to one. *)
Theorem C92_frame : forall A ops wy c o ops' wy' c' o' h h' n sp,
  sound_input ops wy c o -> sound_input ops' wy' c' o' -> same_crystal_in A ops c ops' c' ->
  collision_free h (k_fold (numbers c) (any_site (numbers c)) n sp) -> collision_free h' (k_fold (numbers c') (any_site (numbers c')) n sp) ->
  same_classes (same_decoration A c ops' c')
    (map numbers (items (gen_nodup_unitary h o (Z.of_nat n) sp))) (map numbers (items (gen_nodup_unitary h' o' (Z.of_nat n) sp))).
Proof. exact (fun A ops wy c o ops' wy' c' o' h h' n sp SI SI' SC => @frame_unitary A ops wy c o ops' wy' c' o' SI SI' SC h h' n sp). Qed.
Print Assumptions C92_frame.
Theorem C92_frame_element : forall A ops wy c o ops' wy' c' o' h h' ele n sp,
  sound_input ops wy c o -> sound_input ops' wy' c' o' -> same_crystal_in A ops c ops' c' ->
  collision_free h (k_fold (numbers c) (site_holds (numbers c) ele) n sp) -> collision_free h' (k_fold (numbers c') (site_holds (numbers c') ele) n sp) ->
  same_classes (same_decoration A c ops' c')
    (map numbers (items (gen_nodup_of_ele h o ele (Z.of_nat n) sp))) (map numbers (items (gen_nodup_of_ele h' o' ele (Z.of_nat n) sp))).
Proof. exact (fun A ops wy c o ops' wy' c' o' h h' ele n sp SI SI' SC => @frame_element A ops wy c o ops' wy' c' o' SI SI' SC h h' ele n sp). Qed.
Print Assumptions C92_frame_element.
Theorem C92_frame_wyckoff : forall A ops wy c o ops' wy' c' o' h h' w n sp,
  sound_input ops wy c o -> sound_input ops' wy' c' o' -> same_crystal_in A ops c ops' c' ->
  length wy = length (numbers c) -> length wy' = length (numbers c') -> preserves (sym_perm o) wy -> preserves (sym_perm o') wy' ->
  (forall i j p q, nth_error (positions c) j = Some p -> nth_error (positions c') i = Some q -> carries_exactly A p q -> nth_error wy' i = nth_error wy j) ->
  collision_free h (k_fold (numbers c) (site_letter wy w) n sp) -> collision_free h' (k_fold (numbers c') (site_letter wy' w) n sp) ->
  same_classes (same_decoration A c ops' c')
    (map numbers (items (gen_nodup h o w (Z.of_nat n) sp))) (map numbers (items (gen_nodup h' o' w (Z.of_nat n) sp))).
Proof. exact (fun A ops wy c o ops' wy' c' o' h h' w n sp SI SI' SC => @frame_wyckoff A ops wy c o ops' wy' c' o' SI SI' SC h h' w n sp). Qed.
Print Assumptions C92_frame_wyckoff.
Theorem C92_frame_ternary : forall A ops wy c o ops' wy' c' o' h h' n1 v1 n2 v2,
  sound_input ops wy c o -> sound_input ops' wy' c' o' -> same_crystal_in A ops c ops' c' ->
  collision_free h (two_fold (numbers c) n1 v1 n2 v2) -> collision_free h' (two_fold (numbers c') n1 v1 n2 v2) ->
  same_classes (same_decoration A c ops' c')
    (map numbers (items (gen_nodup_trinary_alloy h o v1 (Z.of_nat n1) v2 (Z.of_nat n2))))
    (map numbers (items (gen_nodup_trinary_alloy h' o' v1 (Z.of_nat n1) v2 (Z.of_nat n2)))).
Proof. exact (fun A ops wy c o ops' wy' c' o' h h' n1 v1 n2 v2 SI SI' SC => @frame_ternary A ops wy c o ops' wy' c' o' SI SI' SC h h' n1 v1 n2 v2). Qed.
Print Assumptions C92_frame_ternary.

(** The matching in particular makes the numbers of structures equal. *)
Theorem C92_counts : forall A B (E : A -> B -> Prop) l l', same_classes E l l' -> length l = length l'.
Proof. intros A B E l l' (l2 & P & F). rewrite (Permutation_length P). exact (Forall2_len F). Qed.
Print Assumptions C92_counts.

Section Routes.
Variables (h h' : list Z -> Z) (o : occ).
Notation N := (numbers (init_cell o)).
Hypothesis FC : from_constructor (init_cell o).
Hypothesis HG : perm_group (length N) (sym_perm o).
Hypothesis PR : preserves (sym_perm o) N.

Lemma routes (D : list Z -> Prop) l l' : (forall x, D x -> length x = length N) ->
  transversal (equivalent (sym_perm o)) D l -> transversal (equivalent (sym_perm o)) D l' -> same_classes (equivalent (sym_perm o)) l l'.
Proof.
  intros LD. apply transversal_match.
  - intros x y Dx. apply (equivalent_sym HG). auto.
  - intros x y z Dx. apply (equivalent_trans HG). auto.
Qed.
Lemma kfold_sites (P P' : nat -> Prop) k v x : (forall i, P i <-> P' i) -> k_fold N P k v x <-> k_fold N P' k v x.
Proof.
  intros H. split; intros (S & (A & B & C) & K); exists S; (split; [split; [exact A|split; [exact B|]]|exact K]); intros i Hi; apply H; auto.
Qed.

Lemma level_route n sp k t : ~ In sp N -> nth_error (all_speckle_gen_unitary h o n sp) k = Some t ->
  (forall j, j <= Z.to_nat (n - Z.of_nat (count_occ Z.eq_dec N sp)) -> collision_free h (k_fold N (any_site N) j sp)) ->
  collision_free h' (k_fold N (any_site N) (S k) sp) ->
  same_classes (equivalent (sym_perm o)) (map numbers (items t)) (map numbers (items (gen_nodup_unitary h' o (Z.of_nat (S k)) sp))).
Proof.
  intros NI Hk CF CF'.
  assert (SN : forall i, site_not N sp i <-> any_site N i).
  { intros i. unfold site_not, any_site. split; [intros (a & Ha & _); apply nth_error_Some; congruence|]. intros L.
    destruct (nth_error N i) as [a|] eqn:E; [|apply nth_error_None in E; lia]. exists a. split; [reflexivity|]. intros ->. apply NI. exact (nth_error_In _ _ E). }
  assert (LV := C21_levels h o n sp FC HG PR).
  destruct LV as [_ LV]. { intros j Lj x y Dx Dy. apply (CF j); [exact Lj|now apply (kfold_sites _ _ j sp x SN)|now apply (kfold_sites _ _ j sp y SN)]. }
  destruct (LV k t Hk) as (_ & _ & T). destruct (C19_all_sites h' o (S k) sp FC HG PR CF') as (_ & _ & T').
  apply (transversal_dom (D' := k_fold N (any_site N) (S k) sp)) in T; [|intros x; now apply kfold_sites].
  apply (@routes (k_fold N (any_site N) (S k) sp)); auto. intros x Dx. exact (kfold_length Dx).
Qed.
Lemma element_route e n sp : Forall (eq e) N -> collision_free h (k_fold N (any_site N) n sp) -> collision_free h' (k_fold N (any_site N) n sp) ->
  same_classes (equivalent (sym_perm o)) (map numbers (items (gen_nodup_of_ele h o e (Z.of_nat n) sp))) (map numbers (items (gen_nodup_unitary h' o (Z.of_nat n) sp))).
Proof.
  intros PU CF CF'.
  assert (SN : forall i, site_holds N e i <-> any_site N i).
  { intros i. unfold site_holds, any_site. split; [intros H; apply nth_error_Some; congruence|]. intros L.
    destruct (nth_error N i) as [a|] eqn:E; [|apply nth_error_None in E; lia]. rewrite Forall_forall in PU. now rewrite (PU a (nth_error_In _ _ E)). }
  destruct (C19_element h o e n sp FC HG PR) as (_ & _ & T). { intros x y Dx Dy. apply CF; now apply (kfold_sites _ _ n sp _ SN). }
  destruct (C19_all_sites h' o n sp FC HG PR CF') as (_ & _ & T').
  apply (transversal_dom (D' := k_fold N (any_site N) n sp)) in T; [|intros x; now apply kfold_sites].
  apply (@routes (k_fold N (any_site N) n sp)); auto. intros x Dx. exact (kfold_length Dx).
Qed.
Lemma two_fold_sym n1 v1 n2 v2 x : two_fold N n1 v1 n2 v2 x -> two_fold N n2 v2 n1 v1 x.
Proof.
  intros (S1 & S2 & A & B & C & L & H). exists S2, S1. split; [exact B|]. split; [exact A|]. split; [intros i I J; exact (C i J I)|]. split; [exact L|].
  intros i a Ha. destruct (H i a Ha) as (K1 & K2 & K3). auto.
Qed.
Lemma ternary_order n1 v1 n2 v2 : collision_free h (two_fold N n1 v1 n2 v2) -> collision_free h' (two_fold N n1 v1 n2 v2) ->
  same_classes (equivalent (sym_perm o)) (map numbers (items (gen_nodup_trinary_alloy h o v1 (Z.of_nat n1) v2 (Z.of_nat n2))))
    (map numbers (items (gen_nodup_trinary_alloy h' o v2 (Z.of_nat n2) v1 (Z.of_nat n1)))).
Proof.
  intros CF CF'. destruct (C20_ternary h o n1 n2 v1 v2 FC HG PR CF) as (_ & _ & T).
  destruct (C20_ternary h' o n2 n1 v2 v1 FC HG PR) as (_ & _ & T'). { intros x y Dx Dy. apply CF'; now apply two_fold_sym. }
  apply (transversal_dom (D' := two_fold N n1 v1 n2 v2)) in T'; [|intros x; split; apply two_fold_sym].
  apply (@routes (two_fold N n1 v1 n2 v2)); auto. intros x (? & ? & _ & _ & _ & L & _). exact L.
Qed.
Lemma two_fold_zero n1 v1 v2 x : two_fold N n1 v1 0 v2 x <-> k_fold N (any_site N) n1 v1 x.
Proof.
  split.
  - intros (S1 & S2 & A & (_ & B & _) & C & L & H). exists S1. split; [exact A|]. split; [exact L|]. intros i a Ha. destruct (H i a Ha) as (K1 & _ & K3).
    split; [exact K1|]. intros NI. apply K3; [exact NI|]. now destruct S2.
  - intros (S1 & A & L & H). exists S1, []. split; [exact A|]. split; [repeat split; [constructor|intros i []]|]. split; [intros i _ []|]. split; [exact L|].
    intros i a Ha. destruct (H i a Ha) as (K1 & K2). split; [exact K1|]. split; [intros []|]. intros NI _. auto.
Qed.
Lemma ternary_one n1 v1 v2 : collision_free h (k_fold N (any_site N) n1 v1) -> collision_free h' (k_fold N (any_site N) n1 v1) ->
  same_classes (equivalent (sym_perm o)) (map numbers (items (gen_nodup_trinary_alloy h o v1 (Z.of_nat n1) v2 0)))
    (map numbers (items (gen_nodup_unitary h' o (Z.of_nat n1) v1))).
Proof.
  intros CF CF'. destruct (C20_ternary h o n1 0 v1 v2 FC HG PR) as (_ & _ & T). { intros x y Dx Dy. apply CF; now apply two_fold_zero in Dx, Dy. }
  destruct (C19_all_sites h' o n1 v1 FC HG PR CF') as (_ & _ & T').
  apply (transversal_dom (D' := k_fold N (any_site N) n1 v1)) in T; [|intros x; apply two_fold_zero].
  apply (@routes (k_fold N (any_site N) n1 v1)); auto. intros x Dx. exact (kfold_length Dx).
Qed.
Lemma other_species n u v : ~ In u N -> ~ In v N -> collision_free h (k_fold N (any_site N) n u) -> collision_free h' (k_fold N (any_site N) n v) ->
  same_classes (equivalent (sym_perm o)) (map (map (exchange u v)) (map numbers (items (gen_nodup_unitary h o (Z.of_nat n) u))))
    (map numbers (items (gen_nodup_unitary h' o (Z.of_nat n) v))).
Proof.
  intros NU NV CF CF'. destruct (C19_all_sites h o n u FC HG PR CF) as (_ & _ & T). destruct (C19_all_sites h' o n v FC HG PR CF') as (_ & _ & T').
  apply (@routes (k_fold N (any_site N) n v)); [intros x Dx; exact (kfold_length Dx)| |exact T'].
  apply (transversal_map (E := equivalent (sym_perm o)) (D := k_fold N (any_site N) n u)); [| | |exact T].
  - intros x. now apply kfold_exchange.
  - intros y Dy. exists (map (exchange u v) y). split; [|apply exchange_map_inv].
    replace (map (exchange u v) y) with (map (exchange v u) y); [now apply kfold_exchange|]. apply map_ext. intros z. unfold exchange.
    destruct (Z.eqb_spec z v), (Z.eqb_spec z u); congruence.
  - intros x y _ _. apply equivalent_exchange.
Qed.
Lemma complement e n sp : Forall (eq e) N -> e <> sp -> n <= length N ->
  collision_free h (k_fold N (any_site N) n sp) -> collision_free h' (k_fold N (any_site N) (length N - n) sp) ->
  same_classes (equivalent (sym_perm o)) (map (map (exchange e sp)) (map numbers (items (gen_nodup_unitary h o (Z.of_nat n) sp))))
    (map numbers (items (gen_nodup_unitary h' o (Z.of_nat (length N - n)) sp))).
Proof.
  intros PU NE LE CF CF'. destruct (C19_all_sites h o n sp FC HG PR CF) as (_ & _ & T). destruct (C19_all_sites h' o _ sp FC HG PR CF') as (_ & _ & T').
  apply (@routes (k_fold N (any_site N) (length N - n) sp)); [intros x Dx; exact (kfold_length Dx)| |exact T'].
  assert (RN : N = repeat e (length N)). { apply Forall_eq_repeat. exact PU. }
  apply (transversal_map (E := equivalent (sym_perm o)) (D := k_fold N (any_site N) n sp)); [| | |exact T].
  - intros x. rewrite RN. rewrite repeat_length. now apply kfold_complement.
  - intros y Dy. exists (map (exchange e sp) y). split; [|apply exchange_map_inv]. rewrite RN in Dy |- *. rewrite repeat_length in Dy.
    apply (kfold_complement NE) in Dy; [|lia]. now replace (length N - (length N - n)) with n in Dy by lia.
  - intros x y _ _. apply equivalent_exchange.
Qed.
End Routes.

(** Level k+1 of the level-by-level enumeration and the direct enumeration of the (k+1)-fold
    substitutions, in a cell without the new species. *)
Theorem C92_levels : forall h h' o n sp k t, from_constructor (init_cell o) ->
  perm_group (length (numbers (init_cell o))) (sym_perm o) -> preserves (sym_perm o) (numbers (init_cell o)) ->
  ~ In sp (numbers (init_cell o)) -> nth_error (all_speckle_gen_unitary h o n sp) k = Some t ->
  (forall j, j <= Z.to_nat (n - Z.of_nat (count_occ Z.eq_dec (numbers (init_cell o)) sp)) ->
     collision_free h (k_fold (numbers (init_cell o)) (any_site (numbers (init_cell o))) j sp)) ->
  collision_free h' (k_fold (numbers (init_cell o)) (any_site (numbers (init_cell o))) (S k) sp) ->
  same_classes (equivalent (sym_perm o)) (map numbers (items t)) (map numbers (items (gen_nodup_unitary h' o (Z.of_nat (S k)) sp))).
Proof. exact (fun h h' o n sp k t FC HG PR => @level_route h h' o FC HG PR n sp k t). Qed.
Print Assumptions C92_levels.
(** Substituting in a cell of one element: naming the element or not makes no difference. *)
Theorem C92_one_element : forall h h' o e n sp, from_constructor (init_cell o) ->
  perm_group (length (numbers (init_cell o))) (sym_perm o) -> preserves (sym_perm o) (numbers (init_cell o)) ->
  Forall (eq e) (numbers (init_cell o)) ->
  collision_free h (k_fold (numbers (init_cell o)) (any_site (numbers (init_cell o))) n sp) ->
  collision_free h' (k_fold (numbers (init_cell o)) (any_site (numbers (init_cell o))) n sp) ->
  same_classes (equivalent (sym_perm o)) (map numbers (items (gen_nodup_of_ele h o e (Z.of_nat n) sp))) (map numbers (items (gen_nodup_unitary h' o (Z.of_nat n) sp))).
Proof. exact (fun h h' o e n sp FC HG PR => @element_route h h' o FC HG PR e n sp). Qed.
Print Assumptions C92_one_element.
(** Ternary alloys: the order in which the two species are named. *)
Theorem C92_ternary_order : forall h h' o n1 v1 n2 v2, from_constructor (init_cell o) ->
  perm_group (length (numbers (init_cell o))) (sym_perm o) -> preserves (sym_perm o) (numbers (init_cell o)) ->
  collision_free h (two_fold (numbers (init_cell o)) n1 v1 n2 v2) -> collision_free h' (two_fold (numbers (init_cell o)) n1 v1 n2 v2) ->
  same_classes (equivalent (sym_perm o)) (map numbers (items (gen_nodup_trinary_alloy h o v1 (Z.of_nat n1) v2 (Z.of_nat n2))))
    (map numbers (items (gen_nodup_trinary_alloy h' o v2 (Z.of_nat n2) v1 (Z.of_nat n1)))).
Proof. exact (fun h h' o n1 v1 n2 v2 FC HG PR => @ternary_order h h' o FC HG PR n1 v1 n2 v2). Qed.
Print Assumptions C92_ternary_order.
(** None of the second species: the binary enumeration. *)
Theorem C92_ternary_one : forall h h' o n1 v1 v2, from_constructor (init_cell o) ->
  perm_group (length (numbers (init_cell o))) (sym_perm o) -> preserves (sym_perm o) (numbers (init_cell o)) ->
  collision_free h (k_fold (numbers (init_cell o)) (any_site (numbers (init_cell o))) n1 v1) ->
  collision_free h' (k_fold (numbers (init_cell o)) (any_site (numbers (init_cell o))) n1 v1) ->
  same_classes (equivalent (sym_perm o)) (map numbers (items (gen_nodup_trinary_alloy h o v1 (Z.of_nat n1) v2 0)))
    (map numbers (items (gen_nodup_unitary h' o (Z.of_nat n1) v1))).
Proof. exact (fun h h' o n1 v1 v2 FC HG PR => @ternary_one h h' o FC HG PR n1 v1 v2). Qed.
Print Assumptions C92_ternary_one.
(** Which new species is put in does not matter. *)
Theorem C92_species : forall h h' o n u v, from_constructor (init_cell o) ->
  perm_group (length (numbers (init_cell o))) (sym_perm o) -> preserves (sym_perm o) (numbers (init_cell o)) ->
  ~ In u (numbers (init_cell o)) -> ~ In v (numbers (init_cell o)) ->
  collision_free h (k_fold (numbers (init_cell o)) (any_site (numbers (init_cell o))) n u) ->
  collision_free h' (k_fold (numbers (init_cell o)) (any_site (numbers (init_cell o))) n v) ->
  same_classes (equivalent (sym_perm o)) (map (map (exchange u v)) (map numbers (items (gen_nodup_unitary h o (Z.of_nat n) u))))
    (map numbers (items (gen_nodup_unitary h' o (Z.of_nat n) v))).
Proof. exact (fun h h' o n u v FC HG PR => @other_species h h' o FC HG PR n u v). Qed.
Print Assumptions C92_species.
(** Replacing n atoms of a pure cell, or all but n. *)
Theorem C92_complement : forall h h' o e n sp, from_constructor (init_cell o) ->
  perm_group (length (numbers (init_cell o))) (sym_perm o) -> preserves (sym_perm o) (numbers (init_cell o)) ->
  Forall (eq e) (numbers (init_cell o)) -> e <> sp -> n <= length (numbers (init_cell o)) ->
  collision_free h (k_fold (numbers (init_cell o)) (any_site (numbers (init_cell o))) n sp) ->
  collision_free h' (k_fold (numbers (init_cell o)) (any_site (numbers (init_cell o))) (length (numbers (init_cell o)) - n) sp) ->
  same_classes (equivalent (sym_perm o)) (map (map (exchange e sp)) (map numbers (items (gen_nodup_unitary h o (Z.of_nat n) sp))))
    (map numbers (items (gen_nodup_unitary h' o (Z.of_nat (length (numbers (init_cell o)) - n)) sp))).
Proof. exact (fun h h' o e n sp FC HG PR => @complement h h' o FC HG PR e n sp). Qed.
Print Assumptions C92_complement.

(** The superlattices listed one per class, in two bases of the lattice. *)
Theorem C92_superlattices : forall A sl sl' il il' rots rots' u u' n, set_order sl -> set_order sl' -> unimodular A ->
  rot_group rots -> rot_group rots' -> rotations_in A rots rots' -> (0 < n < 2000)%Z ->
  exists out out', hnfs_from_n sl il rots u n = Ok out /\ hnfs_from_n sl' il' rots' u' n = Ok out' /\
    same_classes (same_superlattice_in A rots') (map sl_H out) (map sl_H out').
Proof.
  intros A sl sl' il il' rots rots' u u' n S S' U G G' (R1 & R2) N.
  destruct (proj1 (C34_one_per_class sl il rots u n S G) N) as (_ & out & _ & E & _ & T).
  destruct (proj1 (C34_one_per_class sl' il' rots' u' n S' G') N) as (_ & out' & _ & E' & _ & T').
  exists out, out'. split; [exact E|]. split; [exact E'|]. exact (bases_match U R1 R2 G' T T').
Qed.
Print Assumptions C92_superlattices.
Theorem C92_superlattices_plane : forall A sl sl' il il' rots rots' u u' n, set_order sl -> set_order sl' -> unimodular A -> in_plane A ->
  rot_group rots -> rot_group rots' -> rotations_in A rots rots' -> (0 < n < 2000)%Z ->
  exists out out', hnfs_from_n_2d sl il rots u n = Ok out /\ hnfs_from_n_2d sl' il' rots' u' n = Ok out' /\
    same_classes (same_superlattice_in A rots') (map sl_H out) (map sl_H out').
Proof.
  intros A sl sl' il il' rots rots' u u' n S S' U PA G G' (R1 & R2) N.
  destruct (C35_plane_classes sl il rots u n S G N) as (_ & out & _ & E & _ & T).
  destruct (C35_plane_classes sl' il' rots' u' n S' G' N) as (_ & out' & _ & E' & _ & T').
  exists out, out'. split; [exact E|]. split; [exact E'|]. exact (plane_match U R1 R2 PA G' T T').
Qed.
Print Assumptions C92_superlattices_plane.

(** Examples: the square net, and the same net in a sheared basis with a shifted origin and the
    sites in another order. *)
Definition shear : mat Z * vec Qc := (V3 (V3 1 1 0) (V3 0 1 0) (V3 0 0 1), V3 (Q2Qc (1#4)) 0%Qc 0%Qc)%Z.
Definition shear_back : mat Z * vec Qc := (V3 (V3 1 (-1) 0) (V3 0 1 0) (V3 0 0 1), V3 (Q2Qc (-1#4)) 0%Qc 0%Qc)%Z.
Definition sh_lat : mat Qc := (V3 (V3 1 0 0) (V3 (-(1)) 1 0) (V3 0 0 1))%Qc.
Definition sh_pos : list (vec Qc) :=
  let h := Q2Qc (1#2) in let q := Q2Qc (1#4) in let t := Q2Qc (3#4) in [V3 q 0%Qc 0%Qc; V3 q h 0%Qc; V3 t 0%Qc 0%Qc; V3 t h 0%Qc].
Definition sh_cell : gcell := mkG sh_lat sh_pos [5; 5; 5; 5]%Z (sh_lat, sh_pos, [5; 5; 5; 5]%Z) 4.
Definition sh_ops : list (mat Z * vec Qc) :=
  let h := Q2Qc (1#2) in [(id3, V3 0%Qc 0%Qc 0%Qc); (id3, V3 h h 0%Qc); (id3, V3 h 0%Qc 0%Qc); (id3, V3 0%Qc h 0%Qc)].
Definition sh_occ : occ := mkOcc sh_cell [[0;1;2;3]; [3;2;1;0]; [2;3;0;1]; [1;0;3;2]] ["a"; "a"; "a"; "a"]%string.
Lemma sq_sound : sound_input sq_ops ["a"; "a"; "a"; "a"]%string sq_cell sq_occ.
Proof.
  split; [exact sq_fc|]. split; [exact sq_distinct|]. split; [exact sq_exact|]. split; [|exact sq_occ_new].
  apply species_keptb_ok; [reflexivity|]. vm_compute. reflexivity.
Qed.
Lemma sh_sound : sound_input sh_ops ["a"; "a"; "a"; "a"]%string sh_cell sh_occ.
Proof.
  split; [exists sh_lat, sh_pos, [5; 5; 5; 5]%Z; split; [reflexivity|vm_compute; reflexivity]|]. split; [apply distinctb_ok; vm_compute; reflexivity|].
  split; [apply exact_space_groupb_ok; vm_compute; reflexivity|]. split; [|vm_compute; reflexivity].
  apply species_keptb_ok; [reflexivity|]. vm_compute. reflexivity.
Qed.
Lemma sh_same : same_crystal_in shear sq_ops sq_cell sh_ops sh_cell.
Proof.
  assert (R : Forall2 (rewritten shear) sq_ops sh_ops) by (repeat constructor; apply same_opb_ok; vm_compute; reflexivity).
  split; [exists shear_back; apply same_opb_ok; vm_compute; reflexivity|]. split.
  - set (p i := nth i sq_pos (V3 0%Qc 0%Qc 0%Qc)).
    exists [(p 0, 5%Z); (p 3, 5%Z); (p 2, 5%Z); (p 1, 5%Z)]. split.
    + change (combine (positions sq_cell) (numbers sq_cell)) with [(p 0, 5%Z); (p 1, 5%Z); (p 2, 5%Z); (p 3, 5%Z)]. apply perm_skip.
      apply (perm_trans (l' := [(p 1, 5%Z); (p 3, 5%Z); (p 2, 5%Z)])); [apply perm_skip, perm_swap|].
      apply (perm_trans (l' := [(p 3, 5%Z); (p 1, 5%Z); (p 2, 5%Z)])); [apply perm_swap|apply perm_skip, perm_swap].
    + repeat constructor; apply int_shiftb_ok; vm_compute; reflexivity.
  - revert R. generalize sq_ops sh_ops. intros a b R. split.
    + induction R as [|x y l l' H R IH]; intros o Ho; [destruct Ho|]. destruct Ho as [<-|Ho]; [exists y; split; [now left|exact H]|].
      destruct (IH o Ho) as (o' & H1 & H2). exists o'. split; [now right|exact H2].
    + induction R as [|x y l l' H R IH]; intros o Ho; [destruct Ho|]. destruct Ho as [<-|Ho]; [exists x; split; [now left|exact H]|].
      destruct (IH o Ho) as (o' & H1 & H2). exists o'. split; [now right|exact H2].
Qed.
Example C92_frame_ex :
  sound_input sq_ops ["a"; "a"; "a"; "a"]%string sq_cell sq_occ /\ sound_input sh_ops ["a"; "a"; "a"; "a"]%string sh_cell sh_occ /\
  same_crystal_in shear sq_ops sq_cell sh_ops sh_cell /\
  collision_free poly (k_fold (numbers sh_cell) (any_site (numbers sh_cell)) 2 6%Z) /\
  map numbers (items (gen_nodup_unitary poly sq_occ 2 6)) = [[6;6;5;5]; [6;5;6;5]; [6;5;5;6]]%Z /\
  map numbers (items (gen_nodup_unitary poly sh_occ 2 6)) = [[6;6;5;5]; [6;5;6;5]; [6;5;5;6]]%Z /\
  carried_over shear (positions sq_cell) (positions sh_cell) [6;6;5;5]%Z [6;5;5;6]%Z /\
  ~ carried_over shear (positions sq_cell) (positions sh_cell) [6;6;5;5]%Z [6;6;5;5]%Z.
Proof.
  split; [exact sq_sound|]. split; [exact sh_sound|]. split; [exact sh_same|]. split; [apply kfold_poly; repeat constructor; lia|].
  split; [vm_compute; reflexivity|]. split; [vm_compute; reflexivity|]. split.
  - split; [reflexivity|]. intros i j p q Hp Hq C.
    assert (K : existsb (fun ij => Nat.eqb i (fst ij) && Nat.eqb j (snd ij)) [(0,0);(1,3);(2,2);(3,1)] = true).
    { assert (C' : int_shiftb (op_image (fst shear) (snd shear) p) q = true).
      { destruct C as (a & b & c & Ha). generalize dependent (op_image (fst shear) (snd shear) p). intros r Hr.
        assert (E : forall x k, intb (x + Zc k - x)%Qc = true).
        { intros x k. unfold intb. replace (x + Zc k - x)%Qc with (Zc k) by ring. rewrite Qcfloor_Zc. now apply Qceqb_eq. }
        rewrite Hr. unfold int_shiftb. cbn [vx vy vz]. now rewrite !E. }
      clear C.
      do 4 (destruct i as [|i]; [injection Hq as <-; do 4 (destruct j as [|j]; [injection Hp as <-; vm_compute in C'; first [reflexivity|discriminate C']|]); now destruct j|]).
      now destruct i. }
    do 4 (destruct i as [|i]; [do 4 (destruct j as [|j]; [first [reflexivity|discriminate K]|]); discriminate K|]). discriminate K.
  - intros (_ & H). specialize (H 1 3 _ _ eq_refl eq_refl). assert (C : carries_exactly shear (nth 3 sq_pos (V3 0%Qc 0%Qc 0%Qc)) (nth 1 sh_pos (V3 0%Qc 0%Qc 0%Qc))).
    { apply int_shiftb_ok. vm_compute. reflexivity. } specialize (H C). discriminate H.
Qed.
Example C92_levels_ex : ~ In 6%Z (numbers (init_cell sq_occ)) /\
  (forall P k, collision_free poly (k_fold (numbers (init_cell sq_occ)) P k 6%Z)) /\
  option_map (fun t => map numbers (items t)) (nth_error (all_speckle_gen_unitary poly sq_occ 3 6) 1) = Some [[6;6;5;5]; [6;5;6;5]; [6;5;5;6]]%Z.
Proof. split; [cbn; intuition discriminate|]. split; [intros; apply kfold_poly; repeat constructor; lia|vm_compute; reflexivity]. Qed.
(** A hash that is the negative of the other, and the opposite order of the species. *)
Example C92_ternary_order_ex : collision_free poly (two_fold (numbers (init_cell sq_occ)) 1 6%Z 2 7%Z) /\
  map numbers (items (gen_nodup_trinary_alloy poly sq_occ 6 1 7 2)) = [[6;7;7;5]; [6;7;5;7]; [6;5;7;7]]%Z /\
  map numbers (items (gen_nodup_trinary_alloy (fun x => - poly x)%Z sq_occ 7 2 6 1)) = [[7;7;6;5]; [7;6;7;5]; [7;6;5;7]]%Z /\
  map numbers (items (gen_nodup_trinary_alloy poly sq_occ 6 2 7 0)) = map numbers (items (gen_nodup_unitary poly sq_occ 2 6)).
Proof. split; [apply two_fold_poly; repeat constructor; lia|]. repeat split; vm_compute; reflexivity. Qed.
Example C92_complement_ex : Forall (eq 5%Z) (numbers (init_cell sq_occ)) /\
  map (map (exchange 5 6)) (map numbers (items (gen_nodup_unitary poly sq_occ 1 6))) = [[5;6;6;6]]%Z /\
  map numbers (items (gen_nodup_unitary poly sq_occ 3 6)) = [[6;6;6;5]]%Z /\
  equivalent (sym_perm sq_occ) [5;6;6;6]%Z [6;6;6;5]%Z.
Proof.
  split; [repeat constructor|]. split; [vm_compute; reflexivity|]. split; [vm_compute; reflexivity|].
  exists [3;2;1;0]. split; [cbn; auto|]. repeat constructor.
Qed.
Example C92_species_ex : ~ In 6%Z (numbers (init_cell sq_occ)) /\ ~ In 7%Z (numbers (init_cell sq_occ)) /\
  map numbers (items (gen_nodup_unitary poly sq_occ 2 7)) = map (map (exchange 6 7)) (map numbers (items (gen_nodup_unitary poly sq_occ 2 6))).
Proof. split; [cbn; intuition discriminate|]. split; [cbn; intuition discriminate|vm_compute; reflexivity]. Qed.

(** The four-fold axis in the usual and in a sheared basis: two classes of superlattices of
    index 2 in the plane, represented by different matrices. *)
Definition four : list (mat Z) := [V3 (V3 1 0 0) (V3 0 1 0) (V3 0 0 1); V3 (V3 0 (-1) 0) (V3 1 0 0) (V3 0 0 1); V3 (V3 (-1) 0 0) (V3 0 (-1) 0) (V3 0 0 1); V3 (V3 0 1 0) (V3 (-1) 0 0) (V3 0 0 1)]%Z.
Definition four' : list (mat Z) := [V3 (V3 1 0 0) (V3 0 1 0) (V3 0 0 1); V3 (V3 1 (-2) 0) (V3 1 (-1) 0) (V3 0 0 1); V3 (V3 (-1) 0 0) (V3 0 (-1) 0) (V3 0 0 1); V3 (V3 (-1) 2 0) (V3 (-1) 1 0) (V3 0 0 1)]%Z.
Example C92_superlattices_ex : unimodular (fst shear) /\ in_plane (fst shear) /\ rot_group four /\ rot_group four' /\ rotations_in (fst shear) four four' /\
  (exists a, hnfs_from_n_2d first_order false four unit1 2 = Ok a /\ map sl_H a = [V3 (V3 1 0 0) (V3 0 2 0) (V3 0 0 1); V3 (V3 1 1 0) (V3 0 2 0) (V3 0 0 1)]%Z) /\
  (exists a, hnfs_from_n_2d first_order false four' unit1 2 = Ok a /\ map sl_H a = [V3 (V3 1 0 0) (V3 0 2 0) (V3 0 0 1); V3 (V3 2 0 0) (V3 0 1 0) (V3 0 0 1)]%Z).
Proof.
  split; [left; reflexivity|]. split; [exists 1%Z, 1%Z, 0%Z, 1%Z; reflexivity|]. split; [apply rot_group_b_ok; vm_compute; reflexivity|].
  split; [apply rot_group_b_ok; vm_compute; reflexivity|]. split; [|split; eexists; (split; [vm_compute; reflexivity|reflexivity])].
  assert (R : Forall2 (fun r r' => forall v, zrot r' (zrot (fst shear) v) = zrot (fst shear) (zrot r v)) four four') by (repeat constructor; intros [x y z]; cbv [zrot zdot fst shear BaseQ.vx BaseQ.vy BaseQ.vz]; f_equal; ring).
  revert R. generalize four four'. intros a b R. split.
  - induction R as [|x y l l' H R IH]; intros o Ho; [destruct Ho|]. destruct Ho as [<-|Ho]; [exists y; split; [now left|exact H]|].
    destruct (IH o Ho) as (o' & H1 & H2). exists o'. split; [now right|exact H2].
  - induction R as [|x y l l' H R IH]; intros o Ho; [destruct Ho|]. destruct Ho as [<-|Ho]; [exists x; split; [now left|exact H]|].
    destruct (IH o Ho) as (o' & H1 & H2). exists o'. split; [now right|exact H2].
Qed.
