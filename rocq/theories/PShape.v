(** Property C77: standardised cells (scaffold.py:390-419). *)
From Coq Require Import Permutation.
From Verif Require Import Base BaseQ SLattice MGeneralCell MIO MCli SShape LShape LQ LMat3 LSuper LCrystal SModCell MHnf PHnf PSuper LShape2.
Open Scope nat_scope.

(** [get_shaped_cell] hands atom indices to spglib as species.  Because all of them differ,
    the answer has the same lattice and the same crystal up to a rigid motion, and every
    atom exactly once. *)
Theorem C77_shaped : forall std c, length (positions c) = length (numbers c) ->
  standardized (labelled (lattice c) (positions c) (length (positions c))) (std (labelled (lattice c) (positions c) (length (positions c)))) ->
  exists g, get_shaped_cell std c = Ok g /\ same_cell_up_to_motion (cell_of c) (cell_of g) /\
    length (positions g) = length (positions c) /\ Permutation (numbers g) (numbers c).
Proof. exact shaped_spec. Qed.
Print Assumptions C77_shaped.

(** [get_refined_pcell]: the same crystal up to a rigid motion, with all its translations in
    the lattice of the cell. *)
Theorem C77_refined : forall std c, standardized (cell_of c) (std (cell_of c)) ->
  exists g, get_refined_pcell std c = Ok g /\ same_up_to_motion (cell_of c) (cell_of g) /\ smallest (cell_of g) /\
    length (positions g) = length (numbers g).
Proof. exact refined_spec. Qed.
Print Assumptions C77_refined.

(** The assumption about spglib can be met: rotating the axes, shifting the origin and
    reordering the atoms. *)
Theorem C77_assumption_met : forall q tau, orthogonal q -> standardizes (moved q tau).
Proof. intros q tau O lat pos nums L N D _ DS. now apply moved_standard. Qed.
Print Assumptions C77_assumption_met.

(** A supercell of a cell without repeated atoms has no repeated atoms. *)
Theorem C37_no_repeated_atoms : forall c0 H c, positions c0 <> [] -> length (positions c0) = length (numbers c0) ->
  volume (lattice c0) <> 0%Qc -> distinct_sites (lattice c0) (positions c0) ->
  nonneg_mat H -> upper H \/ lower H -> (0 < zdet H < 100000)%Z -> supercell c0 H = Ok c ->
  distinct_sites (lattice c) (positions c) /\ volume (lattice c) <> 0%Qc.
Proof.
  intros c0 H c NE L V D NN U B E. pose proof (tri_det U) as T. split.
  - apply (@supercell_distinct c0 H c NE L V D NN); [lia| |exact E]. rewrite Z.abs_eq by lia. symmetry. exact T.
  - destruct (C37_supercell_same_crystal c0 H NE L NN U B) as (c' & E' & K & _). assert (c' = c) by congruence. subst c'.
    rewrite K. apply volume_supercell; [lia|exact V].
Qed.
Print Assumptions C37_no_repeated_atoms.

(** Two borons in a doubled cell: kept by [get_shaped_cell], merged by [get_refined_pcell]. *)
Definition q77 : mat Qc := (V3 (V3 0 1 0) (V3 (-(1)) 0 0) (V3 0 0 1))%Qc.
Definition half77 : Qc := Q2Qc (1 # 2).
Definition lat77 : mat Qc := (V3 (V3 (Zc 2) 0 0) (V3 0 1 0) (V3 0 0 1))%Qc.
Definition pos77 : list (vec Qc) := [v0; V3 half77 0 0]%Qc.
Definition c77 : gcell := mkG lat77 pos77 [5; 5]%Z (lat77, pos77, [5; 5]%Z) 2.
Lemma orth77 : orthogonal q77.
Proof. split; repeat apply vec_eq; apply Qc_is_canon; reflexivity. Qed.
Lemma cart77 a b c : vec_mat (V3 a b c) lat77 = V3 (a * Zc 2)%Qc b c.
Proof. unfold lat77, vec_mat, vadd, vscale. cbn [vx vy vz]. f_equal; ring. Qed.
Lemma at0 k : ((0 + Zc k) * Zc 2 = Zc (2 * k))%Qc.
Proof. rewrite Zc_mult. ring. Qed.
Lemma at1 k : ((half77 + Zc k) * Zc 2 = Zc (1 + 2 * k))%Qc.
Proof. rewrite Zc_plus, Zc_mult. assert (E : (half77 * Zc 2 = Zc 1)%Qc) by (apply Qc_is_canon; reflexivity). rewrite <- E. ring. Qed.
Lemma distinct77 : distinct_sites lat77 pos77.
Proof.
  intros i j p p' [a b c] P P' E.
  assert (K : forall n y, nth_error pos77 n = Some y -> (n = 0 /\ y = (V3 0 0 0)%Qc) \/ (n = 1 /\ y = (V3 half77 0 0)%Qc)).
  { intros n y H. destruct n as [|[|n]]; cbn in H; [left|right|destruct n; discriminate]; injection H as <-; auto. }
  destruct (K _ _ P) as [[-> ->]|[-> ->]], (K _ _ P') as [[-> ->]|[-> ->]]; try reflexivity; exfalso; clear K P P';
    unfold vecZ, vmap, vadd in E; cbn [vx vy vz] in E; rewrite !cart77 in E; apply (f_equal (@vx Qc)) in E; cbn [vx] in E.
  - rewrite at1 in E. assert (Z0 : (0 * Zc 2 = Zc 0)%Qc) by (apply Qc_is_canon; reflexivity). rewrite Z0 in E. apply Zc_inj in E. lia.
  - rewrite at0 in E. assert (Z0 : (half77 * Zc 2 = Zc 1)%Qc) by (apply Qc_is_canon; reflexivity). rewrite Z0 in E. apply Zc_inj in E. lia.
Qed.
Lemma match_ok A (P : A -> Prop) (r : res A) : match r with Ok g => P g | Raise _ => False end -> exists g, r = Ok g /\ P g.
Proof. destruct r; [eauto|intros []]. Qed.
Example C77_ex : standardized (labelled lat77 pos77 2) (moved q77 (V3 half77 0 0)%Qc (labelled lat77 pos77 2)) /\
  exists g, get_shaped_cell (moved q77 (V3 half77 0 0)%Qc) c77 = Ok g /\ numbers g = [5; 5]%Z /\
  map (vmap this) (positions g) = map (vmap this) [v0; V3 (- half77) 0 0]%Qc.
Proof.
  split.
  - apply moved_standard; [exact orth77|reflexivity|discriminate| |exact distinct77]. repeat constructor; cbn; intuition discriminate.
  - apply match_ok. vm_compute. split; reflexivity.
Qed.
Definition prim77 (c : cell3) : cell3 := (one, [v0], [5]%Z).
Lemma prim_atoms z v : atom_at (prim77 (cell_of c77)) z v <-> z = 5%Z /\ exists a b c, v = vecZ (V3 a b c).
Proof.
  unfold prim77, atom_at, crystal_atom. split.
  - intros (i & p & [a b c] & P & Z & ->). destruct i as [|i]; [|destruct i; discriminate]. injection P as <-. injection Z as <-.
    split; [reflexivity|]. exists a, b, c. rewrite vec_mat_one. unfold vadd, v0. cbn [vx vy vz]. unfold vecZ, vmap. cbn [vx vy vz]. f_equal; ring.
  - intros [-> (a & b & c & ->)]. exists 0, v0, (V3 a b c). split; [reflexivity|]. split; [reflexivity|].
    rewrite vec_mat_one. unfold vadd, v0. cbn [vx vy vz]. unfold vecZ, vmap. cbn [vx vy vz]. f_equal; ring.
Qed.
Lemma c77_atoms z v : atom_at (cell_of c77) z v <-> z = 5%Z /\ exists a b c, v = vecZ (V3 a b c).
Proof.
  unfold cell_of, atom_at, crystal_atom. cbn [lattice positions numbers c77]. split.
  - intros (i & p & [a b c] & P & Z & ->). destruct i as [|[|i]]; [| |destruct i; discriminate]; injection P as <-; injection Z as <-; (split; [reflexivity|]).
    + exists (2 * a)%Z, b, c. unfold vadd, v0, vecZ, vmap. cbn [vx vy vz]. rewrite cart77, at0. f_equal; ring.
    + exists (1 + 2 * a)%Z, b, c. unfold vadd, v0, vecZ, vmap. cbn [vx vy vz]. rewrite cart77, at1. f_equal; ring.
  - intros [-> (a & b & c & ->)]. destruct (Z.Even_or_Odd a) as [(k & ->)|(k & ->)].
    + exists 0, v0, (V3 k b c). split; [reflexivity|]. split; [reflexivity|]. unfold vadd, v0, vecZ, vmap. cbn [vx vy vz]. rewrite cart77, at0. f_equal; ring.
    + exists 1, (V3 half77 0 0)%Qc, (V3 k b c). split; [reflexivity|]. split; [reflexivity|]. unfold vadd, vecZ, vmap. cbn [vx vy vz]. rewrite cart77, at1, Z.add_comm. f_equal; ring.
Qed.
(** the same cell refined: one boron is left *)
Example C77_ex2 : standardized (cell_of c77) (prim77 (cell_of c77)) /\ exists g, get_refined_pcell prim77 c77 = Ok g /\ numbers g = [5]%Z.
Proof.
  split; [|apply match_ok; vm_compute; reflexivity]. unfold standardized, prim77. split; [discriminate|]. split; [reflexivity|]. split; [|split].
  - exists one, v0. split; [split; repeat apply vec_eq; apply Qc_is_canon; reflexivity|]. intros z v. change (one, [v0], [5%Z]) with (prim77 (cell_of c77)).
    rewrite vec_mat_one, prim_atoms, c77_atoms. assert (E : vadd v v0 = v) by (destruct v as [x y w]; unfold vadd, v0; cbn [vx vy vz]; f_equal; ring). rewrite E. reflexivity.
  - apply nodup_smallest; [reflexivity|discriminate|repeat constructor; intros []].
  - intros i j p p' s P P' _. destruct i as [|i]; [|destruct i; discriminate]. destruct j as [|j]; [reflexivity|destruct j; discriminate].
Qed.
