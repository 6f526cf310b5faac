(** Property C90: degenerate input is refused with a definite error, and nothing else is. *)
From Coq Require Import String.
From Verif Require Import Base BaseQ MElement MSort MGeneralCell MComb MSogen MGrid MGrid2 MLegacy MHnf MArrange MIO SElement SGrid SLattice SIO SErr
  LComb LGrid LGrid2 LErr LIO6.
From Verif Require MBucky.
Notation length := List.length.
Open Scope list_scope.
Open Scope Z_scope.

(** Grid to array: ragged - AttributeError; regular without entry - ValueError; else the array. *)
Theorem C90_to_array : forall hp g a, contents hp g = Ok a ->
  (~ regular a -> to_array hp g = Raise AttributeError) /\
  (regular a -> hollow a -> to_array hp g = Raise ValueError) /\
  (regular a -> ~ hollow a -> to_array hp g = Ok (map (map (map sp_Z)) a)).
Proof. exact to_array_errors. Qed.
Print Assumptions C90_to_array.

(** Array to grid. *)
Theorem C90_from_array : forall hp arr, regular arr ->
  (hollow arr -> from_array hp arr = Raise ValueError) /\
  ((exists p r v, In p arr /\ In r p /\ In v r /\ ~ supported v) -> from_array hp arr = Raise IndexError) /\
  (~ hollow arr -> (forall p r v, In p arr -> In r p -> In v r -> supported v) -> exists g hp', from_array hp arr = Ok (g, hp')).
Proof. exact from_array_errors. Qed.
Print Assumptions C90_from_array.

Example C90_grid_ex : to_array [] (mkGrid [] 0 0 0) = Raise ValueError /\
  to_array [[GhostSpecie_new]; []] (mkGrid [[0%nat]; [1%nat]] 2 1 1) = Raise AttributeError /\
  to_array [[GhostSpecie_new]] (mkGrid [[0%nat]; [0%nat]] 2 1 1) = Ok [[[0]]; [[0]]] /\
  from_array [] [[[]; []]] = Raise ValueError.
Proof. repeat split. Qed.

(** Grids in the plane. *)
Theorem C90_grid2 : forall sites,
  (sites = [] <-> SitesGrid2d_new sites = Raise IndexError) /\
  forall g, SitesGrid2d_new sites = Ok g ->
  ((exists r r', In r sites /\ In r' sites /\ length r <> length r') -> get_array2 g = Raise AttributeError) /\
  ((forall r, In r sites -> r = []) -> get_array2 g = Raise ValueError) /\
  ((forall r r', In r sites -> In r' sites -> length r = length r') -> (exists r, In r sites /\ r <> []) ->
     get_array2 g = Ok (map (map sp_Z) sites)).
Proof.
  intros sites. split; [|intros g; apply get_array2_cases]. rewrite new2_cases. destruct sites; split; try reflexivity; discriminate.
Qed.
Print Assumptions C90_grid2.
Theorem C90_from_array2 : forall arr, ((forall r, In r arr -> r = []) -> from_array2 arr = Raise ValueError) /\
  ((exists r, In r arr /\ r <> []) -> from_array2 arr = Raise AttributeError).
Proof. exact from_array2_cases. Qed.
Print Assumptions C90_from_array2.
Example C90_grid2_ex : match SitesGrid2d_new [[]; []] with Ok g => get_array2 g | Raise e => Raise e end = Raise ValueError /\
  match SitesGrid2d_new [[GhostSpecie_new]; []] with Ok g => get_array2 g | Raise e => Raise e end = Raise AttributeError.
Proof. split; reflexivity. Qed.

(** The periodic copy of the disjointness test exists exactly when no list is empty. *)
Theorem C90_pool_sites : forall arr,
  (arr = [] \/ In [] arr \/ (exists p, In p arr /\ In [] p) -> pool_sites arr = Raise IndexError) /\
  (arr <> [] -> ~ In [] arr -> (forall p, In p arr -> ~ In [] p) -> exists pool, pool_sites arr = Ok pool).
Proof. exact pool_sites_cases. Qed.
Print Assumptions C90_pool_sites.
Example C90_pool_ex : pool_sites [[[1; 2]]; [[3]; []]] = Raise IndexError /\ pool_sites [[[1; 2]]; [[3]; [4; 5]]] <> Raise IndexError.
Proof. split; [reflexivity|discriminate]. Qed.

(** Permutations of a structure without atoms. *)
Theorem C90_permutations : forall ops pos,
  (pos = [] -> ops <> [] -> get_permutation_cell ops pos = Raise ValueError) /\
  (pos <> [] \/ ops = [] -> exists perms, get_permutation_cell ops pos = Ok perms /\ length perms = length ops).
Proof. exact perm_cell_cases. Qed.
Print Assumptions C90_permutations.

(** A negative number of sites to substitute: ValueError before anything is produced. *)
Theorem C90_negative_count : forall n, n < 0 ->
  (forall o sp, gen_dup_unitary o n sp = mkTrace [] (Some ValueError)) /\
  (forall o wy sp, gen_dup o wy n sp = mkTrace [] (Some ValueError)) /\
  (forall o ele sp, gen_dup_of_ele o ele n sp = mkTrace [] (Some ValueError)) /\
  (forall o sp1 sp2 n2, gen_dup_trinary_alloy o sp1 n sp2 n2 = mkTrace [] (Some ValueError)) /\
  (forall o sp1 sp2 n1, (n1 <= length (numbers (init_cell o)))%nat ->
     gen_dup_trinary_alloy o sp1 (Z.of_nat n1) sp2 n = mkTrace [] (Some ValueError)) /\
  (forall hp ssp size sp, gen_speckle hp ssp size sp n = (mkTrace [] (Some ValueError), hp)) /\
  (forall sp, MBucky.gen_speckle sp n = mkTrace [] (Some ValueError)).
Proof. exact negative_count. Qed.
Print Assumptions C90_negative_count.
(** The same through the filters. *)
Theorem C90_negative_nodup : forall h n, n < 0 ->
  (forall o sp, gen_nodup_unitary h o n sp = mkTrace [] (Some ValueError)) /\
  (forall o wy sp, gen_nodup h o wy n sp = mkTrace [] (Some ValueError)) /\
  (forall o ele sp, gen_nodup_of_ele h o ele n sp = mkTrace [] (Some ValueError)) /\
  (forall o sp1 sp2 n2, gen_nodup_trinary_alloy h o sp1 n sp2 n2 = mkTrace [] (Some ValueError)).
Proof. exact negative_nodup. Qed.
Print Assumptions C90_negative_nodup.
Example C90_negative_ex : gen_dup_trinary_alloy (mkOcc (mkG (V3 v0 v0 v0) [] [5] (V3 v0 v0 v0, [], [5]) 1) [] []) 6 2 7 (-1) = mkTrace [] None.
Proof. reflexivity. Qed.

(** Supercells: every integer matrix is covered. *)
Theorem C90_interior_points : forall m,
  (zdet m = 0 -> get_frac_from_mat m = Raise LinAlgError) /\
  (zdet m <> 0 -> ~ some_pos m -> get_frac_from_mat m = Raise ValueError) /\
  (zdet m <> 0 -> some_pos m -> exists pts, get_frac_from_mat m = Ok pts).
Proof. exact get_frac_cases. Qed.
Print Assumptions C90_interior_points.
Theorem C90_supercell : forall c m, length (positions c) = length (numbers c) ->
  (zdet m = 0 -> supercell c m = Raise LinAlgError) /\
  (zdet m <> 0 -> positions c = [] -> supercell c m = Raise ValueError) /\
  (zdet m <> 0 -> ~ some_pos m -> supercell c m = Raise ValueError) /\
  (zdet m <> 0 -> some_pos m -> diag_prod m < 0 -> supercell c m = Raise ValueError) /\
  (forall pts, get_frac_from_mat m = Ok pts -> positions c <> [] -> 0 <= diag_prod m ->
     (pts = [] -> supercell c m = Raise ValueError) /\
     (pts <> [] -> diag_prod m < Z.of_nat (length pts) -> supercell c m = Raise IndexError) /\
     (pts <> [] -> Z.of_nat (length pts) <= diag_prod m -> exists g, supercell c m = Ok g)).
Proof. exact supercell_cases. Qed.
Print Assumptions C90_supercell.
Definition one_atom : gcell := let l := (V3 (V3 1 0 0) (V3 0 1 0) (V3 0 0 1))%Qc in mkG l [v0] [5] (l, [v0], [5]) 1.
Example C90_supercell_ex :
  supercell one_atom (V3 (V3 1 1 0) (V3 1 1 0) (V3 0 0 1)) = Raise LinAlgError /\
  supercell one_atom (V3 (V3 (-1) 0 0) (V3 0 (-1) 0) (V3 0 0 (-1))) = Raise ValueError /\
  supercell one_atom (V3 (V3 1 0 0) (V3 0 (-1) 0) (V3 0 0 1)) = Raise ValueError /\
  supercell one_atom (V3 (V3 0 1 0) (V3 1 0 0) (V3 0 0 1)) = Raise IndexError /\
  (exists g, supercell one_atom (V3 (V3 2 0 0) (V3 0 1 0) (V3 0 0 1)) = Ok g /\ numbers g = [5; 5]).
Proof. repeat (split; [vm_compute; reflexivity|]). eexists. split; [vm_compute; reflexivity|reflexivity]. Qed.

(** Reading a file that is not there. *)
Theorem C90_missing_file : forall load cbrt name fmt fs, yaml_named name fmt \/ vasp_named name fmt -> fs name = None ->
  from_file load cbrt (Some name) fmt fs = Raise FileNotFoundError.
Proof. exact missing_file. Qed.
Print Assumptions C90_missing_file.

(** A position that cannot be unpacked, for the neighbour queries. *)
Theorem C90_unpacking : forall delta,
  (forall m d w l zs, length zs <> 3%nat -> get_neighbors m d w l (VTup zs) delta = Raise ValueError) /\
  (forall m d w l, get_neighbors m d w l VNone delta = Raise TypeError /\ forall z, get_neighbors m d w l (VInt z) delta = Raise TypeError) /\
  (forall m w l zs, length zs <> 2%nat -> get_neighbors2 m w l (VTup zs) delta = Raise ValueError) /\
  (forall m w l, get_neighbors2 m w l VNone delta = Raise TypeError /\ forall z, get_neighbors2 m w l (VInt z) delta = Raise TypeError).
Proof. exact unpacking. Qed.
Print Assumptions C90_unpacking.
