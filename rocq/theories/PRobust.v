(** C85: small errors do not change the symmetry permutations or the enumeration. *)
From Coq Require Import String.
From Verif Require Import Base BaseQ MGeneralCell SGeneralCell SSym MComb MSogen SSubst SOcc SEnum SRobust LMisc LSymDec LRobust.
Open Scope list_scope.
Notation length := List.length.

(** A cell built from positions with errors has the atoms in the same order. *)
Theorem C85_cell : forall e lat lat' pos pos' nums c, length pos = length nums -> Forall (margin e) pos -> Forall2 (near e) pos' pos ->
  GeneralCell_new lat pos nums = Ok c -> exists c', GeneralCell_new lat' pos' nums = Ok c' /\
    lattice c' = lat' /\ numbers c' = numbers c /\ Forall2 (near e) (positions c') (positions c).
Proof. exact cell_near. Qed.
Print Assumptions C85_cell.

(** The permutations computed from inaccurate images are those of the exact symmetry group. *)
Theorem C85_images : forall lat pos nums c ops m, GeneralCell_new lat pos nums = Ok c ->
  Forall (margin m) (positions c) -> exact_space_group ops (positions c) -> forall images,
  Forall2 (fun o img => Forall2 (near m) img (map (op_image (fst o) (snd o)) (positions c))) ops images ->
  mapM get_new_id_seq images = get_symmetry_permutation ops c.
Proof. exact computed_images. Qed.
Print Assumptions C85_images.

(** The same with the errors of positions, translations and arithmetic apart: [R e + t + d]. *)
Theorem C85_permutations : forall lat pos nums c ops m, GeneralCell_new lat pos nums = Ok c ->
  Forall (margin m) (positions c) -> exact_space_group ops (positions c) ->
  forall (f : symop -> vec Qc -> vec Qc) R e t d ops' c',
  Forall2 (near_op t) ops' ops -> (forall o, In o ops -> row_sums R (fst o)) -> Forall2 (near e) (positions c') (positions c) ->
  (forall o p, near d (f o p) (op_image (fst o) (snd o) p)) -> (Zc R * e + t + d <= m)%Qc ->
  mapM (fun o => get_new_id_seq (map (f o) (positions c'))) ops' = get_symmetry_permutation ops c.
Proof. exact noisy_permutations. Qed.
Print Assumptions C85_permutations.

(** Hence the enumeration from inaccurate data is complete and free of repetitions with respect to
    the true symmetry operations acting on the true positions. *)
Theorem C85_enumeration : forall h m f lat lat' pos pos' nums c c' ops ops' wy perms,
  length pos = length nums -> GeneralCell_new lat pos nums = Ok c -> distinct_sites (positions c) ->
  exact_space_group ops (positions c) -> species_kept ops (positions c) (numbers c) ->
  small_errors m pos pos' ops ops' f -> GeneralCell_new lat' pos' nums = Ok c' ->
  mapM (fun o => get_new_id_seq (map (f o) (positions c'))) ops' = Ok perms ->
  forall n sp, collision_free h (k_fold (numbers c) (any_site (numbers c)) n sp) ->
  let t := gen_nodup_unitary h (mkOcc c' perms wy) (Z.of_nat n) sp in stop t = None /\ Forall (same_frame c') (items t) /\
  transversal (geo_equivalent ops (positions c)) (k_fold (numbers c) (any_site (numbers c)) n sp) (map numbers (items t)).
Proof. exact noisy_unitary. Qed.
Print Assumptions C85_enumeration.
Theorem C85_enumeration_element : forall h m f lat lat' pos pos' nums c c' ops ops' wy perms,
  length pos = length nums -> GeneralCell_new lat pos nums = Ok c -> distinct_sites (positions c) ->
  exact_space_group ops (positions c) -> species_kept ops (positions c) (numbers c) ->
  small_errors m pos pos' ops ops' f -> GeneralCell_new lat' pos' nums = Ok c' ->
  mapM (fun o => get_new_id_seq (map (f o) (positions c'))) ops' = Ok perms ->
  forall ele n sp, collision_free h (k_fold (numbers c) (site_holds (numbers c) ele) n sp) ->
  let t := gen_nodup_of_ele h (mkOcc c' perms wy) ele (Z.of_nat n) sp in stop t = None /\ Forall (same_frame c') (items t) /\
  transversal (geo_equivalent ops (positions c)) (k_fold (numbers c) (site_holds (numbers c) ele) n sp) (map numbers (items t)).
Proof. exact noisy_ele. Qed.
Print Assumptions C85_enumeration_element.
Theorem C85_enumeration_ternary : forall h m f lat lat' pos pos' nums c c' ops ops' wy perms,
  length pos = length nums -> GeneralCell_new lat pos nums = Ok c -> distinct_sites (positions c) ->
  exact_space_group ops (positions c) -> species_kept ops (positions c) (numbers c) ->
  small_errors m pos pos' ops ops' f -> GeneralCell_new lat' pos' nums = Ok c' ->
  mapM (fun o => get_new_id_seq (map (f o) (positions c'))) ops' = Ok perms ->
  forall n1 v1 n2 v2, collision_free h (two_fold (numbers c) n1 v1 n2 v2) ->
  let t := gen_nodup_trinary_alloy h (mkOcc c' perms wy) v1 (Z.of_nat n1) v2 (Z.of_nat n2) in stop t = None /\ Forall (same_frame c') (items t) /\
  transversal (geo_equivalent ops (positions c)) (two_fold (numbers c) n1 v1 n2 v2) (map numbers (items t)).
Proof. exact noisy_ternary. Qed.
Print Assumptions C85_enumeration_ternary.

Theorem C85_enumeration_wyckoff : forall h m f lat lat' pos pos' nums c c' ops ops' wy perms,
  length pos = length nums -> GeneralCell_new lat pos nums = Ok c -> distinct_sites (positions c) ->
  exact_space_group ops (positions c) -> species_kept ops (positions c) (numbers c) ->
  small_errors m pos pos' ops ops' f -> GeneralCell_new lat' pos' nums = Ok c' ->
  mapM (fun o => get_new_id_seq (map (f o) (positions c'))) ops' = Ok perms ->
  forall w n sp, length wy = length (numbers c) -> preserves perms wy ->
  collision_free h (k_fold (numbers c) (site_letter wy w) n sp) ->
  let t := gen_nodup h (mkOcc c' perms wy) w (Z.of_nat n) sp in stop t = None /\ Forall (same_frame c') (items t) /\
  transversal (geo_equivalent ops (positions c)) (k_fold (numbers c) (site_letter wy w) n sp) (map numbers (items t)).
Proof. exact noisy_wyckoff. Qed.
Print Assumptions C85_enumeration_wyckoff.
(** The level-by-level enumerations. *)
Theorem C85_levels : forall h m f lat lat' pos pos' nums c c' ops ops' wy perms,
  length pos = length nums -> GeneralCell_new lat pos nums = Ok c -> distinct_sites (positions c) ->
  exact_space_group ops (positions c) -> species_kept ops (positions c) (numbers c) ->
  small_errors m pos pos' ops ops' f -> GeneralCell_new lat' pos' nums = Ok c' ->
  mapM (fun o => get_new_id_seq (map (f o) (positions c'))) ops' = Ok perms ->
  forall n sp, (forall k, (k <= Z.to_nat (n - Z.of_nat (count_occ Z.eq_dec (numbers c) sp)))%nat -> collision_free h (k_fold (numbers c) (site_not (numbers c) sp) k sp)) ->
  let ts := all_speckle_gen_unitary h (mkOcc c' perms wy) n sp in
  length ts = Z.to_nat (n - Z.of_nat (count_occ Z.eq_dec (numbers c) sp)) /\
  forall k t, nth_error ts k = Some t -> stop t = None /\ Forall (same_frame c') (items t) /\
    transversal (geo_equivalent ops (positions c)) (k_fold (numbers c) (site_not (numbers c) sp) (S k) sp) (map numbers (items t)).
Proof. exact noisy_levels. Qed.
Print Assumptions C85_levels.
Theorem C85_levels_element : forall h m f lat lat' pos pos' nums c c' ops ops' wy perms,
  length pos = length nums -> GeneralCell_new lat pos nums = Ok c -> distinct_sites (positions c) ->
  exact_space_group ops (positions c) -> species_kept ops (positions c) (numbers c) ->
  small_errors m pos pos' ops ops' f -> GeneralCell_new lat' pos' nums = Ok c' ->
  mapM (fun o => get_new_id_seq (map (f o) (positions c'))) ops' = Ok perms ->
  forall n ele sp, (forall k, (k <= Z.to_nat (n - Z.of_nat (count_occ Z.eq_dec (numbers c) sp)))%nat -> collision_free h (k_fold (numbers c) (fun i => site_holds (numbers c) ele i /\ site_not (numbers c) sp i) k sp)) ->
  let ts := all_speckle_gen_of_ele h (mkOcc c' perms wy) n ele sp in
  length ts = Z.to_nat (n - Z.of_nat (count_occ Z.eq_dec (numbers c) sp)) /\
  forall k t, nth_error ts k = Some t -> stop t = None /\ Forall (same_frame c') (items t) /\
    transversal (geo_equivalent ops (positions c)) (k_fold (numbers c) (fun i => site_holds (numbers c) ele i /\ site_not (numbers c) sp i) (S k) sp) (map numbers (items t)).
Proof. exact noisy_levels_ele. Qed.
Print Assumptions C85_levels_element.
Theorem C85_levels_wyckoff : forall h m f lat lat' pos pos' nums c c' ops ops' wy perms,
  length pos = length nums -> GeneralCell_new lat pos nums = Ok c -> distinct_sites (positions c) ->
  exact_space_group ops (positions c) -> species_kept ops (positions c) (numbers c) ->
  small_errors m pos pos' ops ops' f -> GeneralCell_new lat' pos' nums = Ok c' ->
  mapM (fun o => get_new_id_seq (map (f o) (positions c'))) ops' = Ok perms ->
  forall n w sp, preserves perms wy -> (forall k, (k <= Z.to_nat (n - Z.of_nat (count_occ Z.eq_dec (numbers c) sp)))%nat -> collision_free h (k_fold (numbers c) (fun i => site_letter wy w i /\ site_not (numbers c) sp i) k sp)) ->
  let ts := all_speckle_gen h (mkOcc c' perms wy) n w sp in
  length ts = Z.to_nat (n - Z.of_nat (count_occ Z.eq_dec (numbers c) sp)) /\
  forall k t, nth_error ts k = Some t -> stop t = None /\ Forall (same_frame c') (items t) /\
    transversal (geo_equivalent ops (positions c)) (k_fold (numbers c) (fun i => site_letter wy w i /\ site_not (numbers c) sp i) (S k) sp) (map numbers (items t)).
Proof. exact noisy_levels_wyckoff. Qed.
Print Assumptions C85_levels_wyckoff.

(** Without the margin no accuracy is enough: sites at 1/16 = 0.0625 (half a thousandth), the
    identity, and an error as small as one likes in one image swap two sites half a cell apart. *)
Theorem C85_margin_refuted : forall eps, (0 < eps)%Qc -> exists lat pos nums c img,
  GeneralCell_new lat pos nums = Ok c /\ distinct_sites (positions c) /\ exact_space_group [op_id] (positions c) /\
  Forall2 (near eps) img (map (op_image (fst op_id) (snd op_id)) (positions c)) /\
  get_symmetry_permutation [op_id] c = Ok [[0; 1]]%nat /\ get_new_id_seq img = Ok [1; 0]%nat.
Proof. exact margin_needed. Qed.
Print Assumptions C85_margin_refuted.

(** The hexagonal cell AlB2 with the six rotations about the axis; the positions are given with
    four decimals, the translations are off by 0.00001 and the arithmetic keeps six decimals. *)
Definition hx_pos : list (vec Qc) := [V3 0%Qc 0%Qc 0%Qc; V3 (Q2Qc (1#3)) (Q2Qc (2#3)) (Q2Qc (1#2)); V3 (Q2Qc (2#3)) (Q2Qc (1#3)) (Q2Qc (1#2))].
Definition hx_pos' : list (vec Qc) := [V3 0%Qc 0%Qc 0%Qc; V3 (Q2Qc (3333#10000)) (Q2Qc (6667#10000)) (Q2Qc (1#2)); V3 (Q2Qc (6667#10000)) (Q2Qc (3333#10000)) (Q2Qc (1#2))].
Definition hx_rots : list (mat Z) :=
  [V3 (V3 1 0 0) (V3 0 1 0) (V3 0 0 1); V3 (V3 0 (-1) 0) (V3 1 (-1) 0) (V3 0 0 1); V3 (V3 (-1) 1 0) (V3 (-1) 0 0) (V3 0 0 1);
   V3 (V3 (-1) 0 0) (V3 0 (-1) 0) (V3 0 0 1); V3 (V3 0 1 0) (V3 (-1) 1 0) (V3 0 0 1); V3 (V3 1 (-1) 0) (V3 1 0 0) (V3 0 0 1)]%Z.
Definition hx_ops : list symop := map (fun r => (r, v0)) hx_rots.
Definition hx_ops' : list symop := map (fun r => (r, V3 (Q2Qc (1#100000)) (Q2Qc (-1#100000)) 0%Qc)) hx_rots.
Definition hx_nums : list Z := [13; 5; 5]%Z.
Definition hx_lat : mat Qc := V3 (V3 (Zc 3) 0%Qc 0%Qc) (V3 (Q2Qc (-3#2)) (Q2Qc (13#5)) 0%Qc) (V3 0%Qc 0%Qc (Zc 3)).
Definition hx_cell (pos : list (vec Qc)) : gcell := mkG hx_lat pos hx_nums (hx_lat, pos, hx_nums) 3.
Definition hx_m : Qc := Q2Qc (1#10000).
Lemma hx_errors : small_errors hx_m hx_pos hx_pos' hx_ops hx_ops' six.
Proof.
  split; [apply Forall_forall; intros p Hp; apply marginb_ok; revert p Hp; apply (forallb_forall (marginb hx_m)); vm_compute; reflexivity|].
  exists 2%Z, (Q2Qc (1#29000)), (Q2Qc (1#100000)), (Q2Qc (1#2000000)). split; [refine (@all2b_ok _ _ (nearb _) _ _ _ (fun a b H => nearb_ok H) _); vm_compute; reflexivity|].
  split.
  { unfold hx_ops, hx_ops'. induction hx_rots as [|r l IH]; cbn [map]; constructor; [split; [reflexivity|]|exact IH]. apply nearb_ok. vm_compute. reflexivity. }
  split; [intros o Ho; apply row_sumsb_ok; revert o Ho; apply (forallb_forall (fun o => row_sumsb 2 (fst o))); vm_compute; reflexivity|].
  split; [exact six_near|]. split; unfold Qcle; apply Qle_bool_iff; vm_compute; reflexivity.
Qed.
Example C85_ex :
  GeneralCell_new hx_lat hx_pos hx_nums = Ok (hx_cell hx_pos) /\ distinct_sites (positions (hx_cell hx_pos)) /\
  exact_space_group hx_ops (positions (hx_cell hx_pos)) /\ species_kept hx_ops (positions (hx_cell hx_pos)) (numbers (hx_cell hx_pos)) /\
  small_errors hx_m hx_pos hx_pos' hx_ops hx_ops' six /\ GeneralCell_new hx_lat hx_pos' hx_nums = Ok (hx_cell hx_pos') /\
  mapM (fun o => get_new_id_seq (map (six o) (positions (hx_cell hx_pos')))) hx_ops' =
    Ok [[0; 1; 2]; [0; 1; 2]; [0; 1; 2]; [0; 2; 1]; [0; 2; 1]; [0; 2; 1]]%nat /\
  map numbers (items (gen_nodup_of_ele poly (mkOcc (hx_cell hx_pos') [[0; 1; 2]; [0; 1; 2]; [0; 1; 2]; [0; 2; 1]; [0; 2; 1]; [0; 2; 1]]%nat []) 5 1 6)) = [[13; 6; 5]]%Z.
Proof.
  split; [vm_compute; reflexivity|]. split; [apply distinctb_ok; vm_compute; reflexivity|]. split; [apply exact_space_groupb_ok; vm_compute; reflexivity|].
  split; [apply species_keptb_ok; [reflexivity|vm_compute; reflexivity]|]. split; [exact hx_errors|]. split; [vm_compute; reflexivity|]. split; vm_compute; reflexivity.
Qed.
Example C85_levels_ex :
  preserves [[0; 1; 2]; [0; 1; 2]; [0; 1; 2]; [0; 2; 1]; [0; 2; 1]; [0; 2; 1]]%nat ["a"; "d"; "d"]%string /\
  (forall P k, collision_free poly (k_fold (numbers (hx_cell hx_pos)) P k 6%Z)) /\
  map (fun t => map numbers (items t)) (all_speckle_gen poly (mkOcc (hx_cell hx_pos') [[0; 1; 2]; [0; 1; 2]; [0; 1; 2]; [0; 2; 1]; [0; 2; 1]; [0; 2; 1]]%nat ["a"; "d"; "d"]%string) 2 "d" 6) =
    [[[13; 6; 5]]; [[13; 6; 6]]]%Z.
Proof.
  split; [intros p Hp; cbn in Hp; destruct Hp as [<-|[<-|[<-|[<-|[<-|[<-|[]]]]]]]; repeat constructor|]. split; [|vm_compute; reflexivity].
  intros P k. apply kfold_poly; repeat constructor; lia.
Qed.
