(** Properties C36-C38: supercells. *)
From Verif Require Import Base LBase BaseQ LQ SLattice SSubst SSym MGeneralCell MHnf LMat3 LHnf LSuper LSuper2 LFrac LCrystal.
Open Scope Z_scope.

(** C36, for every non-negative matrix (triangular or not): the number of points is the
    determinant, all lie in the unit cube, each is an integer vector in the basis of the
    unit cell, and every integer vector is congruent to exactly one of them modulo the
    rows of H. *)
Theorem C36_interior_points : forall H, nonneg_mat H -> 0 < Z.abs (zdet H) < 100000 ->
  exists pts, get_frac_from_mat H = Ok pts /\ NoDup pts /\ Z.of_nat (length pts) = Z.abs (zdet H) /\
    (forall t, In t pts -> in01 (vx t) /\ in01 (vy t) /\ in01 (vz t)) /\
    (forall t, In t pts -> exists v, vec_mat t (matZ H) = vecZ v) /\
    (forall v, exists t, In t pts /\ (exists s, vecZ v = vec_mat (vadd t (vecZ s)) (matZ H)) /\
       forall t', In t' pts -> (exists s, vecZ v = vec_mat (vadd t' (vecZ s)) (matZ H)) -> t' = t).
Proof. exact get_frac_spec. Qed.
Print Assumptions C36_interior_points.

Definition exH : mat Z := V3 (V3 2 1 0) (V3 0 2 1) (V3 0 0 1).
Definition half : Qc := Q2Qc (1#2).
Definition quarter : Qc := Q2Qc (1#4).
Example C36_ex : nonneg_mat exH /\ zdet exH = 4 /\
  exists pts, get_frac_from_mat exH = Ok pts /\ length pts = 4%nat /\
    List.map (vmap this) pts = List.map (vmap this)
      [v0; V3 0%Qc half half; V3 half quarter (Q2Qc (3#4)); V3 half (Q2Qc (3#4)) quarter].
Proof.
  split; [cbv; repeat split; discriminate|]. split; [reflexivity|].
  eexists. split; [vm_compute; reflexivity|]. split; [reflexivity|]. vm_compute. reflexivity.
Qed.
(** The determinant bound is needed: with 100000 the tolerance drops points. *)
Example C36_bound_sharp : in_cell (qdivz 100000 99999) = false.
Proof. vm_compute. reflexivity. Qed.

Theorem C37_supercell_same_crystal : forall c0 H, positions c0 <> [] -> length (positions c0) = length (numbers c0) ->
  nonneg_mat H -> upper H \/ lower H -> 0 < zdet H < 100000 ->
  exists c, supercell c0 H = Ok c /\
    lattice c = mat_mul (matZ H) (lattice c0) /\
    Z.of_nat (length (positions c)) = zdet H * Z.of_nat (length (positions c0)) /\
    length (numbers c) = length (positions c) /\ num_count c = length (positions c) /\
    forall z v, crystal_atom (lattice c) (positions c) (numbers c) z v <->
                crystal_atom (lattice c0) (positions c0) (numbers c0) z v.
Proof.
  intros c0 H P L NN U B. pose proof (tri_det U) as D. unfold supercell.
  destruct (@build_supercell_spec (lattice c0) (positions c0) (numbers c0) H P L NN) as (c & A & X & Y & Z); [lia|lia|].
  exists c. rewrite Z.abs_eq in Y by lia. auto.
Qed.
Print Assumptions C37_supercell_same_crystal.

(** Superlattice cells; every Hermite form qualifies. *)
Theorem C37_superlattice_same_crystal : forall rots u n h, positions u <> [] -> length (positions u) = length (numbers u) ->
  is_hnf n h -> n < 100000 ->
  exists c, to_general_cell (SuperLatticeCell_new rots u h) = Ok c /\
    lattice c = mat_mul (matZ h) (lattice u) /\
    Z.of_nat (length (positions c)) = n * Z.of_nat (length (positions u)) /\
    length (numbers c) = length (positions c) /\ num_count c = length (positions c) /\
    forall z v, crystal_atom (lattice c) (positions c) (numbers c) z v <->
                crystal_atom (lattice u) (positions u) (numbers u) z v.
Proof.
  intros rots u n h P L Hh B. pose proof (hnf_det Hh) as D.
  assert (K : nonneg_mat h /\ diag_prod h = n /\ 0 < n).
  { destruct Hh as (a & b & c & d & e & f & -> & ?). unfold nonneg_mat, diag_prod. cbn [vx vy vz]. nia. }
  destruct K as (NN & DP & N0). unfold to_general_cell. cbn.
  destruct (@build_supercell_spec (lattice u) (positions u) (numbers u) h P L NN) as (c & A & X & Y & Z); [lia|lia|].
  exists c. rewrite D, Z.abs_eq in Y by lia. auto.
Qed.
Print Assumptions C37_superlattice_same_crystal.

Definition two_lat : mat Qc := (V3 (V3 (Zc 2) 0 0) (V3 0 (Zc 3) 0) (V3 0 1 (Zc 4)))%Qc.
Definition two_pos : list (vec Qc) := [v0; V3 half half half].
Definition two_cell : gcell := mkG two_lat two_pos [5; 6] (two_lat, two_pos, [5; 6]) 2.
Example C37_ex : GeneralCell_new two_lat two_pos [5; 6] = Ok two_cell /\ upper exH /\
  exists c, supercell two_cell exH = Ok c /\ numbers c = [5; 5; 6; 6; 5; 5; 6; 6].
Proof.
  split; [vm_compute; reflexivity|]. split; [now cbn|]. eexists. split; [vm_compute; reflexivity|reflexivity].
Qed.

(** C38: on a non-negative matrix the result is determined by comparing the product of
    the diagonal with the determinant: smaller - IndexError; larger - the cell carries
    the wrong numbers (num_count disagrees with the number of positions). *)
Theorem C38_nonneg_characterised : forall c0 H, positions c0 <> [] -> length (positions c0) = length (numbers c0) ->
  nonneg_mat H -> 0 < Z.abs (zdet H) < 100000 ->
  (diag_prod H < Z.abs (zdet H) -> supercell c0 H = Raise IndexError) /\
  (diag_prod H = Z.abs (zdet H) -> exists c, supercell c0 H = Ok c /\
     Z.of_nat (length (positions c)) = Z.abs (zdet H) * Z.of_nat (length (positions c0)) /\
     forall z v, crystal_atom (lattice c) (positions c) (numbers c) z v <->
                 crystal_atom (lattice c0) (positions c0) (numbers c0) z v) /\
  (Z.abs (zdet H) < diag_prod H -> exists c, supercell c0 H = Ok c /\
     Z.of_nat (num_count c) <> Z.of_nat (length (positions c)) /\
     Permutation (numbers c) (firstn (length (positions c))
       (concat (List.map (fun z => repeat z (Z.to_nat (diag_prod H))) (numbers c0))))).
Proof.
  intros c0 H P L NN B.
  destruct (@build_supercell_mismatch (lattice c0) (positions c0) (numbers c0) H P L NN B) as [X Y].
  split; [exact X|]. split.
  - intros E. destruct (@build_supercell_spec (lattice c0) (positions c0) (numbers c0) H P L NN B E) as (c & A & _ & F & _ & _ & G).
    exists c. auto.
  - intros E. destruct (Y E) as (c & A & _ & _ & F & G). exists c. auto.
Qed.
Print Assumptions C38_nonneg_characterised.

(** Counterexamples: an exception for the fcc primitive vectors (determinant 2); wrong
    species counts for a non-negative non-triangular matrix of determinant 3; half of
    the atoms missing for diag(-2,-1,1). *)
Theorem C38_copies_refuted :
  (exists M, zdet M = 2 /\ supercell two_cell M = Raise IndexError) /\
  (exists M c, zdet M = 3 /\ supercell two_cell M = Ok c /\
     count_occ Z.eq_dec (numbers two_cell) 5 = 1%nat /\ count_occ Z.eq_dec (numbers c) 5 = 4%nat /\
     count_occ Z.eq_dec (numbers two_cell) 6 = 1%nat /\ count_occ Z.eq_dec (numbers c) 6 = 2%nat) /\
  (exists M c, zdet M = 2 /\ supercell two_cell M = Ok c /\ length (positions c) = 2%nat /\
     count_occ Z.eq_dec (numbers c) 5 = 2%nat /\ count_occ Z.eq_dec (numbers c) 6 = 0%nat) /\
  (exists M, zdet M = -1 /\ supercell two_cell M = Raise ValueError).
Proof.
  split; [|split; [|split]].
  - exists (V3 (V3 0 1 1) (V3 1 0 1) (V3 1 1 0)). split; vm_compute; reflexivity.
  - exists (V3 (V3 2 1 0) (V3 1 2 0) (V3 0 0 1)). eexists. split; [reflexivity|]. split; [vm_compute; reflexivity|]. repeat split.
  - exists (V3 (V3 (-2) 0 0) (V3 0 (-1) 0) (V3 0 0 1)). eexists. split; [reflexivity|]. split; [vm_compute; reflexivity|]. repeat split.
  - exists (V3 (V3 (-1) 0 0) (V3 0 1 0) (V3 0 0 1)). split; vm_compute; reflexivity.
Qed.
Print Assumptions C38_copies_refuted.
