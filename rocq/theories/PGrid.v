(** Properties C03-C07: SitesGrid and CStru. *)
From Coq Require Import String.
From Verif Require Import Base BaseQ MElement SElement MGrid SSubst SGrid LGrid LGrid2.
Open Scope nat_scope.

(** C03 *)
Theorem C03_every_placement_once : forall hp ssp sp d w l noa,
  0 < d -> 0 < w -> 0 < l -> supported (sp_Z ssp) -> supported (sp_Z sp) -> sp_Z ssp <> sp_Z sp ->
  let (t, hp') := gen_speckle hp ssp (d, w, l) sp (Z.of_nat noa) in
  stop t = None /\ (forall g, live hp g -> live hp' g) /\ Forall (live hp') (items t) /\
  exists arrs, mapM (to_array hp') (items t) = Ok arrs /\
    Forall (placement d w l (sp_Z ssp) (sp_Z sp) noa) arrs /\
    (forall a, placement d w l (sp_Z ssp) (sp_Z sp) noa a -> In a arrs) /\
    NoDup arrs /\ length arrs = binom (d * w * l) noa.
Proof. exact C03_lemma. Qed.
Print Assumptions C03_every_placement_once.

Definition boron : specie := mkSpecie "B"%string 5 (10811 # 1000) (117 # 100).
Example C03_ex : from_num 5 = Ok boron /\
  (let (t, hp) := gen_speckle [] GhostSpecie_new (1, 2, 2) boron 1 in mapM (to_array hp) (items t)) =
  Ok [[[[5;0];[0;0]]]; [[[0;5];[0;0]]]; [[[0;0];[5;0]]]; [[[0;0];[0;5]]]]%Z.
Proof. split; vm_compute; reflexivity. Qed.

(** C04 *)
Theorem C04_array_grid_array : forall hp arr d w l, shaped arr d w l -> 0 < d -> 0 < w -> 0 < l ->
  (forall i j k z, entry arr i j k = Some z -> supported z) ->
  exists g hp', from_array hp arr = Ok (g, hp') /\ live hp' g /\ to_array hp' g = Ok arr.
Proof. exact C04_lemma. Qed.
Print Assumptions C04_array_grid_array.

Theorem C04_grid_array_grid : forall hp g, live hp g ->
  (forall pos s, grid_get hp g pos = Ok s -> supported (sp_Z s)) ->
  exists arr g' hp', to_array hp g = Ok arr /\ shaped arr (g_depth g) (g_width g) (g_length g) /\
    (forall i j k pos, denotes3 g pos (i, j, k) -> exists s, grid_get hp g pos = Ok s /\ entry arr i j k = Some (sp_Z s)) /\
    from_array hp arr = Ok (g', hp') /\ grid_eqb hp' g g' = Ok true.
Proof. exact C04_back. Qed.
Print Assumptions C04_grid_array_grid.

Theorem C04_unknown_number : forall hp arr i j k z, entry arr i j k = Some z -> ~ supported z ->
  from_array hp arr = Raise IndexError.
Proof. exact C04_unknown. Qed.
Print Assumptions C04_unknown_number.

Example C04_ex : shaped [[[5;0;6];[7;8;9]]]%Z 1 2 3 /\
  (exists g hp, from_array [] [[[5;0;6];[7;8;9]]]%Z = Ok (g, hp) /\ to_array hp g = Ok [[[5;0;6];[7;8;9]]]%Z) /\
  from_array [] [[[5;60]]]%Z = Raise IndexError.
Proof.
  split; [split; [reflexivity|repeat constructor]|]. split; [|vm_compute; reflexivity].
  eexists. eexists. split; vm_compute; reflexivity.
Qed.

(** C05 *)
Theorem C05_write_one_site : forall hp g pos s, live hp g ->
  ((forall p, ~ denotes3 g pos p) -> grid_get hp g pos = Raise IndexError /\ grid_set hp g pos s = Raise IndexError) /\
  (forall p, denotes3 g pos p -> exists hp', grid_set hp g pos s = Ok hp' /\ live hp' g /\
     forall pos' p', denotes3 g pos' p' ->
       (p' = p -> grid_get hp' g pos' = Ok s) /\
       (p' <> p -> grid_get hp' g pos' = grid_get hp g pos' /\ exists v, grid_get hp g pos' = Ok v)).
Proof. exact C05_lemma. Qed.
Print Assumptions C05_write_one_site.

Example C05_ex : exists g hp hp', sea [] 2 2 2 GhostSpecie_new = Ok (g, hp) /\ live hp g /\
  denotes3 g (-1, 0, -2)%Z (1, 0, 0) /\ grid_set hp g (-1, 0, -2)%Z boron = Ok hp' /\
  to_array hp' g = Ok [[[0;0];[0;0]];[[5;0];[0;0]]]%Z /\ grid_set hp g (2, 0, 0)%Z boron = Raise IndexError.
Proof.
  eexists. eexists. eexists. split; [vm_compute; reflexivity|]. split.
  - eapply (@live_sea [] 2 2 2 GhostSpecie_new); [vm_compute; reflexivity|lia].
  - split; [cbn; unfold denotes; lia|]. split; [vm_compute; reflexivity|]. split; vm_compute; reflexivity.
Qed.

(** C06: the copy reads like the original, but in every later state every write through
    the copy is visible through the original. *)
Theorem C06_copy_shares_every_row : forall hp g, live hp g -> exists c, deepCopy hp g = Ok c /\
  (forall hp' pos, grid_get hp' c pos = grid_get hp' g pos) /\
  (forall hp' pos s, grid_set hp' c pos s = grid_set hp' g pos s) /\
  (forall hp' pos p s, live hp' g -> denotes3 g pos p ->
     exists hp2, grid_set hp' c pos s = Ok hp2 /\ grid_get hp2 g pos = Ok s).
Proof. exact C06_lemma. Qed.
Print Assumptions C06_copy_shares_every_row.

Theorem C06_refuted : exists hp g c pos s hp', live hp g /\ deepCopy hp g = Ok c /\
  grid_set hp c pos s = Ok hp' /\ grid_get hp' g pos <> grid_get hp g pos.
Proof.
  eexists. eexists. eexists. exists (0, 0, 0)%Z, boron. eexists. split; [|split; [|split]].
  - eapply (@live_sea [] 1 1 1 GhostSpecie_new); [vm_compute; reflexivity|lia].
  - vm_compute. reflexivity.
  - vm_compute. reflexivity.
  - vm_compute. discriminate.
Qed.
Print Assumptions C06_refuted.

(** C07 *)
Theorem C07_cell : forall hp s, live hp (c_grid s) ->
  let d := g_depth (c_grid s) in let w := g_width (c_grid s) in let l := g_length (c_grid s) in
  exists bas pos num, get_cell hp s = Ok (bas, pos, num) /\ length pos = d * w * l /\ length num = d * w * l /\
  bas = V3 (vscale (Zc (Z.of_nat d)) (vx (c_m s))) (vscale (Zc (Z.of_nat w)) (vy (c_m s))) (vscale (Zc (Z.of_nat l)) (vz (c_m s))) /\
  (forall i j k, i < d -> j < w -> k < l -> exists sp p,
     grid_get hp (c_grid s) (Z.of_nat i, Z.of_nat j, Z.of_nat k) = Ok sp /\
     nth_error num ((i * w + j) * l + k) = Some (sp_Z sp) /\
     nth_error pos ((i * w + j) * l + k) = Some p /\
     vec_mat p bas = vec_mat (vecZ (V3 (Z.of_nat i) (Z.of_nat j) (Z.of_nat k))) (c_m s)) /\
  (forall n, n < d * w * l -> exists i j k, i < d /\ j < w /\ k < l /\ n = (i * w + j) * l + k).
Proof. exact C07_lemma. Qed.
Print Assumptions C07_cell.

Example C07_ex : exists g hp num bas pos, from_array [] [[[5;0];[6;7]]]%Z = Ok (g, hp) /\
  get_cell hp (mkCStru (V3 (V3 1 0 0) (V3 0 1 0) (V3 0 0 1))%Qc g) = Ok (bas, pos, num) /\
  num = [5;0;6;7]%Z /\ map (fun p => (this (vx p), this (vy p), this (vz p))) pos =
    [(0, 0, 0); (0, 0, 1#2); (0, 1#2, 0); (0, 1#2, 1#2)]%Q.
Proof.
  eexists. eexists. eexists. eexists. eexists. split; [vm_compute; reflexivity|]. split; [vm_compute; reflexivity|].
  split; [reflexivity|]. vm_compute; reflexivity.
Qed.
