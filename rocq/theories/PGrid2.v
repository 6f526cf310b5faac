(** C84: the crystal of a grid structure. *)
From Coq Require Import String.
From Verif Require Import Base BaseQ MElement SElement MGeneralCell MGrid SGrid MGrid2 SGrid2 SLattice SModCell LGrid LGrid2 LGrid3.
Open Scope list_scope.

(** The cell handed over by a grid structure has exactly one site per grid entry, and its infinite
    crystal is the periodic continuation of the grid along the rows of the matrix. *)
Theorem C84_crystal : forall hp s, live hp (c_grid s) -> exists c, get_gcell hp s = Ok c /\
  get_lattice hp s = Ok (lattice c) /\ List.length (positions c) = List.length (numbers c) /\
  List.length (positions c) = (g_depth (c_grid s) * g_width (c_grid s) * g_length (c_grid s))%nat /\
  forall z v, crystal_atom (lattice c) (positions c) (numbers c) z v <-> grid_atom hp s z v.
Proof. exact gcell_crystal. Qed.
Print Assumptions C84_crystal.

(** [CStru.from_array] builds a structure with that matrix whose array is the given one; the three
    getters return the lattice, positions and numbers entry by entry, in the order of the array. *)
Theorem C84_from_array : forall hp m arr d w l, shaped arr d w l -> (0 < d)%nat -> (0 < w)%nat -> (0 < l)%nat ->
  (forall i j k z, entry arr i j k = Some z -> supported z) ->
  exists s hp', cstru_from_array hp m arr = Ok (s, hp') /\ c_m s = m /\ live hp' (c_grid s) /\ to_array hp' (c_grid s) = Ok arr.
Proof.
  intros hp m arr d w l SH D W L S. destruct (C04_lemma hp SH D W L S) as (g & hp' & E & LV & T). exists (mkCStru m g), hp'.
  unfold cstru_from_array. rewrite E. auto.
Qed.
Print Assumptions C84_from_array.
Theorem C84_parts : forall hp s, live hp (c_grid s) ->
  let d := g_depth (c_grid s) in let w := g_width (c_grid s) in let l := g_length (c_grid s) in
  exists bas pos num, get_lattice hp s = Ok bas /\ get_positions hp s = Ok pos /\ get_atoms hp s = Ok num /\
    List.length pos = (d * w * l)%nat /\ List.length num = (d * w * l)%nat /\
    bas = V3 (vscale (Zc (Z.of_nat d)) (vx (c_m s))) (vscale (Zc (Z.of_nat w)) (vy (c_m s))) (vscale (Zc (Z.of_nat l)) (vz (c_m s))) /\
    forall i j k, (i < d)%nat -> (j < w)%nat -> (k < l)%nat -> exists sp p,
      grid_get hp (c_grid s) (Z.of_nat i, Z.of_nat j, Z.of_nat k) = Ok sp /\
      nth_error num ((i * w + j) * l + k) = Some (sp_Z sp) /\ nth_error pos ((i * w + j) * l + k) = Some p /\
      vec_mat p bas = vec_mat (vecZ (V3 (Z.of_nat i) (Z.of_nat j) (Z.of_nat k))) (c_m s).
Proof.
  intros hp s LV. destruct (C07_lemma LV) as (bas & pos & num & E & H1 & H2 & H3 & H4 & _). exists bas, pos, num.
  unfold get_lattice, get_positions, get_atoms. rewrite E. auto 10.
Qed.
Print Assumptions C84_parts.

(** Two structures compare equal exactly when their matrices are equal and the grids have the same
    sizes and the same species everywhere. *)
Theorem C84_equality : forall hp s s', live hp (c_grid s) -> live hp (c_grid s') ->
  exists b, cstru_eqb hp s s' = Ok b /\ (b = true <-> c_m s = c_m s' /\ same_entries hp (c_grid s) (c_grid s')).
Proof. exact cstru_equality. Qed.
Print Assumptions C84_equality.

(** With independent rows and equal sizes, equal entries means: the same infinite crystal. *)
Theorem C84_same_crystal : forall hp s s', live hp (c_grid s) -> live hp (c_grid s') -> volume (c_m s) <> 0%Qc -> c_m s' = c_m s ->
  g_depth (c_grid s) = g_depth (c_grid s') -> g_width (c_grid s) = g_width (c_grid s') -> g_length (c_grid s) = g_length (c_grid s') ->
  same_entries hp (c_grid s) (c_grid s') <-> forall z v, grid_atom hp s z v <-> grid_atom hp s' z v.
Proof. exact same_entries_crystal. Qed.
Print Assumptions C84_same_crystal.

(** [get_id_matrix] turns the numbers of the cell back into the array of the grid; it accepts every
    triple of sizes with the right product, keeps the order, and refuses all others. *)
Theorem C84_id_matrix : forall hp s, live hp (c_grid s) -> exists cell arr, get_cell hp s = Ok cell /\ get_array hp s = Ok arr /\
  get_id_matrix cell (g_depth (c_grid s)) (g_width (c_grid s)) (g_length (c_grid s)) = Ok arr.
Proof. exact id_matrix_same. Qed.
Print Assumptions C84_id_matrix.
Theorem C84_id_matrix_sizes : forall hp s, live hp (c_grid s) -> exists cell arr, get_cell hp s = Ok cell /\ get_array hp s = Ok arr /\
  forall d w l, ((d * w * l)%nat = (g_depth (c_grid s) * g_width (c_grid s) * g_length (c_grid s))%nat ->
      exists m, get_id_matrix cell d w l = Ok m /\ shaped m d w l /\ concat (concat m) = concat (concat arr)) /\
    ((d * w * l)%nat <> (g_depth (c_grid s) * g_width (c_grid s) * g_length (c_grid s))%nat -> get_id_matrix cell d w l = Raise ValueError).
Proof. exact id_matrix_sizes. Qed.
Print Assumptions C84_id_matrix_sizes.

(** [random_fill]: one of the two species at every site, the second exactly where the drawn bit is
    one; and every such filling can be drawn. *)
Theorem C84_random_fill : forall hp bsp sp d w l bits, shaped bits d w l -> (0 < d)%nat -> (0 < w)%nat -> (0 < l)%nat ->
  (forall b, In b (concat (concat bits)) -> b = 0%Z \/ b = 1%Z) -> supported (sp_Z bsp) -> supported (sp_Z sp) ->
  exists g hp', random_fill hp bsp d w l sp bits = Ok (g, hp') /\ live hp' g /\ (exists ext, hp' = hp ++ ext) /\
    g_depth g = d /\ g_width g = w /\ g_length g = l /\
    to_array hp' g = Ok (map (map (map (fun bit => if Z.eqb bit 1 then sp_Z sp else sp_Z bsp))) bits).
Proof. exact random_fill_ok. Qed.
Print Assumptions C84_random_fill.
Theorem C84_random_fill_all : forall hp bsp sp d w l arr, shaped arr d w l -> (0 < d)%nat -> (0 < w)%nat -> (0 < l)%nat ->
  (forall z, In z (concat (concat arr)) -> z = sp_Z bsp \/ z = sp_Z sp) -> supported (sp_Z bsp) -> supported (sp_Z sp) ->
  exists bits, shaped bits d w l /\ (forall b, In b (concat (concat bits)) -> b = 0%Z \/ b = 1%Z) /\
    exists g hp', random_fill hp bsp d w l sp bits = Ok (g, hp') /\ to_array hp' g = Ok arr.
Proof. exact random_fill_all. Qed.
Print Assumptions C84_random_fill_all.

(** A 2 x 1 x 2 boron nitride grid, the same grid with two entries exchanged, and the smaller grid
    of one row: the second differs as a crystal; the third shows that grids of unequal sizes never
    compare equal even if they show the same crystal. *)
Definition ex84_m : mat Qc := V3 (V3 (Zc 1) (Zc 0) (Zc 0)) (V3 (Zc 0) (Zc 20) (Zc 0)) (V3 (Zc 1) (Zc 0) (Zc 2)).
Definition ex84 (arr : list (list (list Z))) (hp : heap) : res (cstru * heap) := cstru_from_array hp ex84_m arr.
Example C84_ex :
  (do a <- ex84 [[[5; 7]]; [[5; 7]]]%Z []; let '(s1, h1) := a in
   do b <- ex84 [[[5; 7]]; [[7; 5]]]%Z h1; let '(s2, h2) := b in
   do c <- ex84 [[[5; 7]]]%Z h2; let '(s3, h) := c in
   do e1 <- cstru_eqb h s1 s1; do e2 <- cstru_eqb h s1 s2; do e3 <- cstru_eqb h s1 s3;
   do g <- get_gcell h s1; do cell <- get_cell h s1; do m <- get_id_matrix cell 2 1 2;
   Ok (e1, e2, e3, map (vmap this) (positions g), numbers g, m, match get_id_matrix cell 2 2 2 with Raise ValueError => true | _ => false end)) =
  Ok (true, false, false, [V3 0 0 0; V3 0 0 (1 # 2); V3 (1 # 2) 0 0; V3 (1 # 2) 0 (1 # 2)]%Q, [5; 7; 5; 7]%Z, [[[5; 7]]; [[5; 7]]]%Z, true).
Proof. vm_compute. reflexivity. Qed.
Example C84_ex_random :
  (do b <- from_num 5; do n <- from_num 7; do r <- random_fill [] b 1 2 2 n [[[0; 1]; [1; 1]]]%Z; let '(g, hp) := r in to_array hp g) = Ok [[[5; 7]; [7; 7]]]%Z.
Proof. vm_compute. reflexivity. Qed.
