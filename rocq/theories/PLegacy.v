(** Properties C28 - C30: grid-based generator, structure comparison, disjunct speckles. *)
From Coq Require Import String.
From Verif Require Import Base BaseQ LQ MElement SElement MGeneralCell MGrid SGrid LGrid LGrid2 SSym LSym LSymDec MLegacy SLegacy LLegacyKey LLegacy LDisjunct.
Open Scope nat_scope.
Notation length := List.length.

(** C28: one representative per symmetry class, no assumption about hashing; [np2] is the
    NumPy version.  The bound 990 is where the rounding of coordinates to 5 and 3 decimals
    stays injective. *)
Theorem C28_one_per_class : forall np2 ops hp m ssp sp d w l noa, 0 < d <= 990 -> 0 < w <= 990 -> 0 < l <= 990 ->
  supported (sp_Z ssp) -> supported (sp_Z sp) -> sp_Z ssp <> sp_Z sp ->
  exact_space_group ops (all_sites d w l) ->
  let (t, hp') := gen_nodup_cstru np2 ops hp m ssp (d, w, l) sp (Z.of_nat noa) in
  stop t = None /\ Forall (fun c => c_m c = m /\ live hp' (c_grid c)) (items t) /\
  exists arrs, mapM (fun c => to_array hp' (c_grid c)) (items t) = Ok arrs /\
    transversal (grid_equiv ops d w l) (placement d w l (sp_Z ssp) (sp_Z sp) noa) arrs.
Proof. exact C28_lemma. Qed.
Print Assumptions C28_one_per_class.

Definition half_ops : list symop :=
  [op_id; (fst op_id, V3 0 0 (Q2Qc (1#2)))%Qc].
Definition unit_basis : mat Qc := (V3 (V3 1 0 0) (V3 0 1 0) (V3 0 0 1))%Qc.
Definition boron_sp : specie := match from_num 5 with Ok s => s | Raise _ => GhostSpecie_new end.
Example C28_ex : exact_space_group half_ops (all_sites 1 1 2) /\ sp_Z boron_sp = 5%Z /\
  (let (t, hp) := gen_nodup_cstru false half_ops [] unit_basis GhostSpecie_new (1, 1, 2) boron_sp 1 in
   (stop t, mapM (fun c => to_array hp (c_grid c)) (items t))) = (None, Ok [[[[5; 0]]]]%Z).
Proof. split; [apply exact_space_groupb_ok; vm_compute; reflexivity|]. split; vm_compute; reflexivity. Qed.

(** Beyond the bound the sorting key is no longer injective: in a row of 999 sites two
    neighbours get the same key. *)
Lemma C28_key_bound : wrap_key 5 (site 1 1 999 0 0 499) = wrap_key 5 (site 1 1 999 0 0 500).
Proof. vm_compute. f_equal; apply Qc_is_canon; reflexivity. Qed.

(** C29 *)
Theorem C29_complete : forall pad, layout pad -> forall d w l, 0 < d <= 990 -> 0 < w <= 990 -> 0 < l <= 990 ->
  forall hp A B ops a b, live hp (c_grid A) -> live hp (c_grid B) ->
  to_array hp (c_grid A) = Ok a -> to_array hp (c_grid B) = Ok b -> shaped a d w l -> shaped b d w l ->
  d * w * l <= 1000 -> (forall o, In o ops -> permutes_sites o (all_sites d w l)) ->
  exists r, is_stru_equal pad hp A B ops = Ok r /\ (r = true <-> exists o, In o ops /\ moved_by o d w l b a).
Proof. exact C29_complete_lemma. Qed.
Print Assumptions C29_complete.

Theorem C29_abbreviated : forall pad, layout pad -> forall d w l, 0 < d <= 990 -> 0 < w <= 990 -> 0 < l <= 990 ->
  forall hp A B ops a b, live hp (c_grid A) -> live hp (c_grid B) ->
  to_array hp (c_grid A) = Ok a -> to_array hp (c_grid B) = Ok b -> shaped a d w l -> shaped b d w l ->
  1000 < d * w * l -> (forall o, In o ops -> permutes_sites o (all_sites d w l)) ->
  exists r, is_stru_equal pad hp A B ops = Ok r /\
   (r = true <-> exists o b', In o ops /\ shaped b' d w l /\ moved_by o d w l b b' /\
      forall i j k, in_grid d w l i j k -> (i * w + j) * l + k < 3 \/ d * w * l - 3 <= (i * w + j) * l + k -> entry b' i j k = entry a i j k).
Proof. exact C29_abbreviated_lemma. Qed.
Print Assumptions C29_abbreviated.

Definition one_space (ws : list string) (i : nat) : string := match i with O => EmptyString | S _ => " "%string end.
Lemma one_space_layout : layout one_space.
Proof. intros ws [|i]; cbn; unfold white; intuition congruence. Qed.
Example C29_ex : exists g1 g2 hp1 hp2, from_array [] [[[5; 0]]]%Z = Ok (g1, hp1) /\ from_array hp1 [[[0; 5]]]%Z = Ok (g2, hp2) /\
  (forall o, In o half_ops -> permutes_sites o (all_sites 1 1 2)) /\
  is_stru_equal one_space hp2 (mkCStru unit_basis g1) (mkCStru unit_basis g2) half_ops = Ok true /\
  is_stru_equal one_space hp2 (mkCStru unit_basis g1) (mkCStru unit_basis g2) [op_id] = Ok false.
Proof.
  eexists. eexists. eexists. eexists. split; [vm_compute; reflexivity|]. split; [vm_compute; reflexivity|]. split.
  - intros o Ho. apply (exact_permutes (ops := half_ops)); [|assumption]. apply exact_space_groupb_ok. vm_compute. reflexivity.
  - split; vm_compute; reflexivity.
Qed.

(** More than 1000 sites: two structures that differ in one site compare equal. *)
Theorem C29_refuted : exists hp A B ops a b d w l, live hp (c_grid A) /\ live hp (c_grid B) /\
  to_array hp (c_grid A) = Ok a /\ to_array hp (c_grid B) = Ok b /\ shaped a d w l /\ shaped b d w l /\
  (forall o, In o ops -> permutes_sites o (all_sites d w l)) /\
  (forall pad, layout pad -> is_stru_equal pad hp A B ops = Ok true) /\
  ~ (exists o, In o ops /\ moved_by o d w l b a).
Proof. exact C29_refuted_lemma. Qed.
Print Assumptions C29_refuted.

(** C30 *)
Theorem C30_pool : forall (arr : list (list (list Z))) d w l, shaped arr d w l -> 0 < d -> 0 < w -> 0 < l ->
  exists pool, pool_sites arr = Ok pool /\ shaped pool (S d) (S w) (S l) /\
    forall i j k, i <= d -> j <= w -> k <= l -> entry pool i j k = entry arr (i mod d) (j mod w) (k mod l).
Proof. exact pool_sites_ok. Qed.
Print Assumptions C30_pool.

Theorem C30_disjunct : forall hp s sp, live hp (c_grid s) ->
  let d := g_depth (c_grid s) in let w := g_width (c_grid s) in let l := g_length (c_grid s) in
  exists a r, to_array hp (c_grid s) = Ok a /\ shaped a d w l /\ is_speckle_disjunct hp s sp = Ok r /\
   (r = true <-> forall i j k i' j' k', in_box d w l i j k -> in_box d w l i' j' k' -> V3 i j k <> V3 i' j' k' ->
      tiled a d w l i j k = Some (sp_Z sp) -> tiled a d w l i' j' k' = Some (sp_Z sp) ->
      over_101 (c_m s) (V3 (i - i') (j - j') (k - k'))%Z).
Proof. exact C30_lemma. Qed.
Print Assumptions C30_disjunct.

(** In the infinite crystal the answer True guarantees the distance only between sites one
    step apart ... *)
Theorem C30_neighbours : forall hp s sp, live hp (c_grid s) -> is_speckle_disjunct hp s sp = Ok true ->
  exists a, to_array hp (c_grid s) = Ok a /\
  let d := g_depth (c_grid s) in let w := g_width (c_grid s) in let l := g_length (c_grid s) in
  forall i j k u1 u2 u3, (-1 <= u1 <= 1)%Z -> (-1 <= u2 <= 1)%Z -> (-1 <= u3 <= 1)%Z -> V3 u1 u2 u3 <> V3 0%Z 0%Z 0%Z ->
    tiled a d w l i j k = Some (sp_Z sp) -> tiled a d w l (i + u1) (j + u2) (k + u3) = Some (sp_Z sp) ->
    over_101 (c_m s) (V3 u1 u2 u3).
Proof. exact C30_neighbours_lemma. Qed.
Print Assumptions C30_neighbours.

Definition flat_basis : mat Qc := (V3 (V3 (Q2Qc (1#2)) 0 0) (V3 0 (Q2Qc 2) 0) (V3 0 0 (Q2Qc 2)))%Qc.
Example C30_ex : exists g hp, from_array [] [[[5; 0; 5; 0]]]%Z = Ok (g, hp) /\
  is_speckle_disjunct hp (mkCStru unit_basis g) boron_sp = Ok false /\
  is_speckle_disjunct hp (mkCStru (V3 (V3 (Q2Qc 2) 0 0) (V3 0 (Q2Qc 2) 0) (V3 0 0 1))%Qc g) boron_sp = Ok true.
Proof. eexists. eexists. split; [vm_compute; reflexivity|]. split; vm_compute; reflexivity. Qed.

(** ... and not between all speckle atoms. *)
Theorem C30_periodic_refuted : exists hp s sp a, live hp (c_grid s) /\ to_array hp (c_grid s) = Ok a /\
  is_speckle_disjunct hp s sp = Ok true /\
  exists i j k u, u <> V3 0%Z 0%Z 0%Z /\
    tiled a (g_depth (c_grid s)) (g_width (c_grid s)) (g_length (c_grid s)) i j k = Some (sp_Z sp) /\
    tiled a (g_depth (c_grid s)) (g_width (c_grid s)) (g_length (c_grid s)) (i + vx u) (j + vy u) (k + vz u) = Some (sp_Z sp) /\
    ~ over_101 (c_m s) u.
Proof.
  destruct (from_array [] [[[0]]; [[5]]; [[0]]; [[0]]; [[5]]]%Z) as [[g hp]|e] eqn:E; [|vm_compute in E; discriminate].
  exists hp, (mkCStru flat_basis g), boron_sp, [[[0]]; [[5]]; [[0]]; [[0]]; [[5]]]%Z. cbn [c_grid c_m].
  split; [apply (live_from_array [] [[[0]]; [[5]]; [[0]]; [[0]]; [[5]]]%Z 5 1 1); [|assumption]|].
  { split; [reflexivity|]. repeat constructor. }
  vm_compute in E. injection E as <- <-. split; [vm_compute; reflexivity|]. split; [vm_compute; reflexivity|].
  exists (-1)%Z, 0%Z, 0%Z, (V3 2 0 0)%Z. split; [discriminate|]. split; [vm_compute; reflexivity|]. split; [vm_compute; reflexivity|].
  unfold over_101. rewrite <- Qcltb_lt. vm_compute. discriminate.
Qed.
Print Assumptions C30_periodic_refuted.
