(** Property C106: order and representatives of superlattices, grid structures and buckyballs. *)
From Coq Require Import String Sorted.
From Verif Require Import Base LBase BaseQ LQ MElement SElement SLattice MGeneralCell SGeneralCell MHnf LHnf LSuper LSuper2 MComb SSubst SSym LSymDec MSogen LFilter SOcc LMisc MGrid SGrid MGrid2 MLegacy SLegacy MBuckyTable MBucky LBuckyTable SBucky LBucky LBucky2 LSym LDup SOrder SOrder2 LOrder LOrder7 LOrder8 LOrder9 PHnf PAgree PBucky.
Open Scope list_scope.
Open Scope nat_scope.
Notation length := List.length.

(** Superlattices: matrices with the same diagonal are tried in lexicographic order of
    (b, d, e), and of every class the first matrix tried is kept, whatever the order of
    Python's sets and the side on which [in] puts the list items. *)
Theorem C106_superlattices : forall sl il rots u n, set_order sl -> rot_group rots -> (0 < n < 2000)%Z ->
  exists all out, hnfs_from_n_dups sl rots u n = Ok all /\ hnfs_from_n sl il rots u n = Ok out /\
    sorted_blocks (List.map sl_H all) /\ firsts (lat_equiv rots) [] (List.map sl_H all) (List.map sl_H out).
Proof.
  intros sl il rots u n SL G N. assert (N' : (0 < n)%Z) by lia. destruct (hnf_mats_spec SL N') as (l & E & _ & H).
  unfold hnfs_from_n, hnfs_from_n_dups. rewrite E. cbn [bind].
  destruct (@firsts_mats rots u il n l G N) as (out & O & F).
  - intros h Hh. apply H in Hh. exact (hnf_det Hh).
  - exists (List.map (SuperLatticeCell_new rots u) l), out. split; [reflexivity|]. split; [exact O|].
    rewrite map_map. cbn. rewrite map_id. split; [|exact F]. apply (hnf_sorted SL N' E).
Qed.
Print Assumptions C106_superlattices.

Theorem C106_plane : forall sl il rots u n, set_order sl -> rot_group rots -> (0 < n < 2000)%Z ->
  exists all out, hnfs_from_n_dups_2d sl rots u n = Ok all /\ hnfs_from_n_2d sl il rots u n = Ok out /\
    sorted_blocks (List.map sl_H all) /\ firsts (lat_equiv rots) [] (List.map sl_H all) (List.map sl_H out).
Proof.
  intros sl il rots u n SL G N. assert (N' : (0 < n)%Z) by lia. destruct (hnf2_mats_spec SL N') as (l & E & _ & H).
  unfold hnfs_from_n_2d, hnfs_from_n_dups_2d. rewrite E. cbn [bind].
  destruct (@firsts_mats rots u il n l G N) as (out & O & F).
  - intros h Hh. apply H in Hh. exact (hnf_det (hnf2_hnf Hh)).
  - exists (List.map (SuperLatticeCell_new rots u) l), out. split; [reflexivity|]. split; [exact O|].
    rewrite map_map. cbn. rewrite map_id. split; [|exact F]. apply (hnf2_sorted SL N' E).
Qed.
Print Assumptions C106_plane.

(** With four-fold rotations: (1,0,1;0,1,0;0,0,2) is dropped, (1,0,0;0,1,1;0,0,2) came first. *)
Example C106_superlattices_ex : set_order first_order /\ rot_group c4 /\
  exists all out, hnfs_from_n_dups first_order c4 unit1 2 = Ok all /\ hnfs_from_n first_order true c4 unit1 2 = Ok out /\
    In (V3 (V3 1 0 1) (V3 0 1 0) (V3 0 0 2))%Z (List.map sl_H all) /\
    ~ In (V3 (V3 1 0 1) (V3 0 1 0) (V3 0 0 2))%Z (List.map sl_H out) /\ In (V3 (V3 1 0 0) (V3 0 1 1) (V3 0 0 2))%Z (List.map sl_H out).
Proof.
  split; [exact first_order_ok|]. split; [exact c4_group|].
  do 2 eexists. split; [vm_compute; reflexivity|]. split; [vm_compute; reflexivity|]. cbn.
  split; [tauto|]. split; [|tauto]. intros K. repeat (destruct K as [K|K]; [discriminate|]). exact K.
Qed.

(** The grid-based generator: the leading sets in lexicographic order of the sites, counted
    row by row. *)
Theorem C106_grid : forall np2 ops wy hp m ssp sp d w l noa g hp1 c o, 0 < d <= 990 -> 0 < w <= 990 -> 0 < l <= 990 ->
  supported (sp_Z ssp) -> supported (sp_Z sp) -> exact_space_group ops (all_sites d w l) ->
  sea hp d w l ssp = Ok (g, hp1) -> get_gcell hp1 (mkCStru m g) = Ok c -> OccupyGenerator_new ops wy c = Ok o ->
  let (t, hp') := gen_nodup_cstru np2 ops hp m ssp (d, w, l) sp (Z.of_nat noa) in
  exists cells, in_order o (sp_Z sp) (leader (sym_perm o) (numbers c) (any_site (numbers c)) noa (sp_Z sp)) (mkTrace cells None) /\
    stop t = None /\ Forall2 (fun s x => get_gcell hp' s = Ok x) (items t) cells.
Proof.
  intros np2 ops wy hp m ssp sp d w l noa g hp1 c o Hd Hw Hl S1 S2 X ES EC EO.
  exact (grid_in_order np2 noa Hd Hw Hl S1 S2 X ES EC EO).
Qed.
Print Assumptions C106_grid.

(** The hypotheses hold for the row of [C96_ex]. *)
Example C106_grid_ex : exists g hp1 c o, exact_space_group row_ops (all_sites 1 1 4) /\
  sea [] 1 1 4 GhostSpecie_new = Ok (g, hp1) /\ get_gcell hp1 (mkCStru row_basis g) = Ok c /\ OccupyGenerator_new row_ops [] c = Ok o /\
  (let (t, hp) := gen_nodup_cstru false row_ops [] row_basis GhostSpecie_new (1, 1, 4) row_sp 2 in
   mapM (fun s => to_array hp (c_grid s)) (items t)) = Ok [[[[5;5;0;0]]]; [[[5;0;5;0]]]]%Z.
Proof.
  do 4 eexists. split; [apply exact_space_groupb_ok; vm_compute; reflexivity|].
  split; [vm_compute; reflexivity|]. split; [vm_compute; reflexivity|]. split; [vm_compute; reflexivity|]. vm_compute; reflexivity.
Qed.

(** The buckyball: all sets, and the leading sets, in lexicographic order. *)
Theorem C106_ball_tried : forall sp k,
  arrays_in_order (repeat 6%Z 60) sp (site_choice (any_site (repeat 6%Z 60)) k) (gen_speckle sp (Z.of_nat k)).
Proof. exact speckle_in_order. Qed.
Print Assumptions C106_ball_tried.

Theorem C106_ball_direct : forall h nums s sp k, Structure_new nums = Ok s ->
  collision_free h (k_fold (repeat 6%Z 60) (any_site (repeat 6%Z 60)) k sp) ->
  arrays_in_order (repeat 6%Z 60) sp (leader (b_sym_perm s) (repeat 6%Z 60) (any_site (repeat 6%Z 60)) k sp)
    (to_nodup_generator h s (gen_speckle sp (Z.of_nat k))).
Proof. intros h nums s sp k E. apply new_inv in E. subst s. exact (@ball_direct h sp k nums). Qed.
Print Assumptions C106_ball_direct.

(** Level by level, starting from any decoration that the symmetry keeps. *)
Theorem C106_ball_levels : forall h nums s sp n_max k t, Structure_new nums = Ok s -> length nums = 60 ->
  preserves (b_sym_perm s) nums ->
  (forall k, k <= Z.to_nat (n_max - Z.of_nat (count_occ Z.eq_dec nums sp)) -> collision_free h (k_fold nums (site_not nums sp) k sp)) ->
  nth_error (b_all_speckle_gen h s n_max sp) k = Some t ->
  arrays_in_order nums sp (leader (b_sym_perm s) nums (site_not nums sp) k sp) t.
Proof. intros h nums s sp n_max k t E. apply new_inv in E. subst s. exact (@ball_in_order h nums sp k t n_max). Qed.
Print Assumptions C106_ball_levels.

(** On carbon the two ways give the same arrays in the same order. *)
Theorem C106_ball_same : forall h s sp n_max k t, Structure_new (repeat 6%Z 60) = Ok s -> sp <> 6%Z ->
  (forall k, k <= Z.to_nat n_max -> collision_free h (k_fold (repeat 6%Z 60) (any_site (repeat 6%Z 60)) k sp)) ->
  nth_error (b_all_speckle_gen h s n_max sp) k = Some t -> t = to_nodup_generator h s (gen_speckle sp (Z.of_nat k)).
Proof. intros h s sp n_max k t E N CF H. apply new_inv in E. subst s. exact (@ball_same h sp k t n_max N CF H (repeat 6%Z 60)). Qed.
Print Assumptions C106_ball_same.

Theorem C106_determined : forall init v Q t t', arrays_in_order init v Q t -> arrays_in_order init v Q t' -> t = t'.
Proof. intros init v Q t t'. exact (@arrays_unique init v Q Q t t' (fun S => iff_refl _)). Qed.
Print Assumptions C106_determined.

Definition sites_of (x : list Z) : list nat := List.map fst (filter (fun p => Z.eqb (snd p) 5) (combine (seq 0 60) x)).
(** The first representatives with two boron atoms. *)
Example C106_ball_ex : preserves bucky_perm_table (repeat 6%Z 60) /\
  (forall P k, collision_free bin (k_fold (repeat 6%Z 60) P k 5%Z)) /\
  option_map (fun t => (firstn 4 (List.map sites_of (items t)), length (items t)))
    (nth_error (b_all_speckle_gen bin (ball (repeat 6%Z 60)) 2 5) 2) = Some ([[0;1]; [0;2]; [0;4]; [0;5]], 23).
Proof.
  split; [exact carbon_preserved|]. split; [|vm_compute; reflexivity]. intros P k x y Hx Hy.
  assert (K : collision_free bin (images bucky_perm_table (k_fold (repeat 6%Z 60) P k 5%Z))).
  { apply images_two; [exact bucky_group|]. apply Forall_forall. intros z Hz. apply repeat_spec in Hz. now right. }
  apply K; [exists x|exists y]; (split; [assumption|]); apply (equivalent_refl bucky_group); [apply (kfold_length Hx)|apply (kfold_length Hy)].
Qed.
