(** Property C87: primitive cells (scaffold.py:372-374, 390-402). *)
From Coq Require Import Permutation.
From Verif Require Import Base BaseQ LQ SLattice SOcc MGeneralCell MIO MCli MHnf SCli SShape SPrim SModCell LShape LShape2 LDup LBase LDeriv2 LDeriv3 LPrim PSuper PShape.
Open Scope nat_scope.

(** All cells that show one crystal, have all its translations and repeat no atom have the same
    number of atoms.  So "the" number of atoms of the primitive cell makes sense, also for two
    descriptions of a crystal that differ by a rigid motion. *)
Theorem C87_size_unique : forall c c' n n', same_up_to_motion c c' -> primitive_size c n -> primitive_size c' n' -> n = n'.
Proof. exact primitive_size_unique. Qed.
Print Assumptions C87_size_unique.

(** The number of atoms of a cell that repeats no atom is a multiple of it. *)
Theorem C87_size_divides : forall lat pos nums n, length pos = length nums -> distinct_sites lat pos ->
  primitive_size (lat, pos, nums) n -> exists k, length pos = k * n.
Proof. exact primitive_size_multiple. Qed.
Print Assumptions C87_size_divides.

Lemma spg_cell_of c : from_constructor c -> spg_cell c = cell_of c.
Proof. intros F. destruct (from_constructor_facts F) as (_ & _ & _ & _ & E). rewrite E. reflexivity. Qed.

(** [is_primitive] compares two numbers of atoms.  For a cell that repeats no atom the outcome
    says whether every translation of the crystal is a lattice vector of the cell. *)
Theorem C87_is_primitive : forall psize c, from_constructor c -> distinct_sites (lattice c) (positions c) ->
  primitive_size (cell_of c) (psize (cell_of c)) -> (is_primitive psize c = true <-> smallest (cell_of c)).
Proof.
  intros psize c F D P. destruct (from_constructor_facts F) as (_ & _ & L & _ & _).
  unfold is_primitive. rewrite (spg_cell_of c F), Nat.eqb_eq. unfold cell_of in *. cbn [snd]. rewrite <- L.
  exact (primitive_size_smallest L D P).
Qed.
Print Assumptions C87_is_primitive.

(** What the option of ocumaker and ocubiter that demands primitive cells keeps: exactly the structures that are
    not repetitions of a smaller cell. *)
Theorem C87_kept : forall psize c, from_constructor c -> distinct_sites (lattice c) (positions c) ->
  primitive_size (cell_of c) (psize (cell_of c)) -> (wanted psize true None c <-> smallest (cell_of c)).
Proof.
  intros psize c F D P. rewrite <- (C87_is_primitive psize c F D P). unfold wanted, is_primitive. rewrite Nat.eqb_eq. split.
  - intros [H _]. now apply H.
  - intros H. split; [auto|discriminate].
Qed.
Print Assumptions C87_kept.

(** A supercell of two or more copies is never reported primitive, whatever the cell. *)
Theorem C87_supercell : forall psize c0 H c, positions c0 <> [] -> length (positions c0) = length (numbers c0) ->
  nonneg_mat H -> upper H \/ lower H -> (1 < zdet H < 100000)%Z -> supercell c0 H = Ok c ->
  primitive_size (cell_of c) (psize (spg_cell c)) -> is_primitive psize c = false.
Proof.
  intros psize c0 H c NE L NN U B E P. destruct (C37_supercell_same_crystal c0 H NE L NN U) as (c' & E' & _ & N & L' & NC & S); [lia|].
  assert (c' = c) by congruence. subst c'.
  assert (LS : length (snd (spg_cell c)) = length (positions c)).
  { assert (F : from_constructor c) by (apply (@made_by_constructor (mkSL (lattice c0) (positions c0) (numbers c0) H [])); assumption).
    rewrite (spg_cell_of c F). exact L'. }
  unfold is_primitive. apply Nat.eqb_neq. intros Q.
  assert (P0 : primitive_size (cell_of c0) (psize (spg_cell c))).
  { destruct P as ([[lat' pos'] nums'] & (N1 & N2 & (q & t & O & M) & SM & DS) & EQ). exists (lat', pos', nums'). split; [|exact EQ].
    split; [exact N1|]. split; [exact N2|]. split; [|split; assumption]. exists q, t. split; [exact O|]. intros z v. rewrite (M z v). apply S. }
  apply (@primitive_size_le (lattice c0) (positions c0) (numbers c0)) in P0; [|exact L]. rewrite Q, LS in P0.
  assert (length (positions c0) <> 0) by (intros Z; apply length_zero_iff_nil in Z; contradiction). nia.
Qed.
Print Assumptions C87_supercell.

(** The refined primitive cell is primitive, and it has as many atoms for a supercell as for the cell itself. *)
Theorem C87_refined : forall psize std c, standardized (cell_of c) (std (cell_of c)) ->
  (forall d, from_constructor d -> primitive_size (cell_of d) (psize (cell_of d))) ->
  exists g, get_refined_pcell std c = Ok g /\ is_primitive psize g = true /\ length (positions g) = length (snd (fst (std (cell_of c)))).
Proof.
  intros psize std c ST PS. destruct (C77_refined std c ST) as (g & E & M & S & L). exists g. split; [exact E|].
  unfold get_refined_pcell in E. change (lattice c, positions c, numbers c) with (cell_of c) in E.
  destruct (std (cell_of c)) as [[lat pos] nums]. destruct ST as (N & L1 & _ & _ & DS).
  destruct (new_cell lat N L1) as (g' & E' & LG & LN & LL & P). assert (g' = g) by congruence. subst g'.
  split; [|exact LL]. assert (F : from_constructor g) by (exists lat, pos, nums; auto).
  apply C87_is_primitive; [exact F| |now apply PS|exact S].
  rewrite LG. apply distinct_FOP. apply distinct_FOP in DS. eapply FOP_perm; [apply apart_sym| |exact DS].
  apply (Permutation_map fst) in P. rewrite !map_fst_combine in P by assumption. now symmetry.
Qed.
Print Assumptions C87_refined.
Theorem C87_refined_supercell : forall std c0 H c, positions c0 <> [] -> length (positions c0) = length (numbers c0) ->
  nonneg_mat H -> upper H \/ lower H -> (0 < zdet H < 100000)%Z -> supercell c0 H = Ok c ->
  standardized (cell_of c0) (std (cell_of c0)) -> standardized (cell_of c) (std (cell_of c)) ->
  exists g0 g, get_refined_pcell std c0 = Ok g0 /\ get_refined_pcell std c = Ok g /\
    length (positions g) = length (positions g0) /\ same_up_to_motion (cell_of g0) (cell_of g).
Proof.
  intros std c0 H c NE L NN U B E S0 S. destruct (C37_supercell_same_crystal c0 H NE L NN U B) as (c' & E' & _ & N & _ & _ & K).
  assert (c' = c) by congruence. subst c'.
  assert (M : same_up_to_motion (cell_of c0) (cell_of c)).
  { exists one, v0. split; [split; apply mat_mul_one_l|]. intros z v. rewrite vec_mat_one, vadd_0. apply K. }
  destruct (C77_refined std c0 S0) as (g0 & E0 & M0 & SM0 & L0). destruct (C77_refined std c S) as (g & Eg & Mg & SMg & Lg).
  exists g0, g. split; [exact E0|]. split; [exact Eg|]. split.
  - assert (P0 : primitive_size (cell_of c0) (length (snd (fst (std (cell_of c0)))))) by (eexists; split; [exact S0|reflexivity]).
    assert (P : primitive_size (cell_of c) (length (snd (fst (std (cell_of c)))))) by (eexists; split; [exact S|reflexivity]).
    pose proof (primitive_size_unique M P0 P) as Q.
    assert (G : forall c g, standardized (cell_of c) (std (cell_of c)) -> get_refined_pcell std c = Ok g -> length (positions g) = length (snd (fst (std (cell_of c))))).
    { clear. intros c g ST E. unfold get_refined_pcell in E. change (lattice c, positions c, numbers c) with (cell_of c) in E.
      destruct (std (cell_of c)) as [[lat pos] nums]. destruct ST as (N & L1 & _). destruct (new_cell lat N L1) as (g' & E' & _ & _ & LL & _).
      assert (g' = g) by congruence. subst g'. exact LL. }
    rewrite (G c g S Eg), (G c0 g0 S0 E0). now symmetry.
  - eapply motion_trans; [apply motion_sym; exact M0|]. eapply motion_trans; [exact M|exact Mg].
Qed.
Print Assumptions C87_refined_supercell.

(** One atom per cell, and the same crystal described by a cell twice as long. *)
Definition one_cell : gcell := mkG one [v0] [5%Z] (one, [v0], [5%Z]) 1.
Definition twice : mat Z := (V3 (V3 2 0 0) (V3 0 1 0) (V3 0 0 1))%Z.
Lemma one_standard : standardized (cell_of one_cell) (cell_of one_cell).
Proof.
  split; [discriminate|]. split; [reflexivity|]. split; [|split].
  - exists one, v0. split; [split; apply mat_mul_one_l|]. intros z v. now rewrite vec_mat_one, vadd_0.
  - apply nodup_smallest; [reflexivity|discriminate|]. repeat constructor. intros [].
  - intros [|i] [|j] p p' s P P' _; try reflexivity; exfalso; (destruct i + destruct j); discriminate.
Qed.
Example C87_ex : from_constructor one_cell /\ distinct_sites (lattice one_cell) (positions one_cell) /\
  primitive_size (cell_of one_cell) 1 /\ is_primitive (fun _ => 1) one_cell = true /\ smallest (cell_of one_cell) /\
  exists c, supercell one_cell twice = Ok c /\ from_constructor c /\ distinct_sites (lattice c) (positions c) /\ length (positions c) = 2 /\
    primitive_size (cell_of c) 1 /\ is_primitive (fun _ => 1) c = false /\ ~ smallest (cell_of c).
Proof.
  assert (F : from_constructor one_cell) by (exists one, [v0], [5%Z]; split; [reflexivity|vm_compute; reflexivity]).
  assert (P : primitive_size (cell_of one_cell) 1) by (eexists; split; [apply one_standard|reflexivity]).
  assert (D : distinct_sites (lattice one_cell) (positions one_cell)) by apply one_standard.
  split; [exact F|]. split; [exact D|]. split; [exact P|]. split; [reflexivity|]. split; [apply one_standard|].
  assert (NE : positions one_cell <> []) by discriminate. assert (NN : nonneg_mat twice) by (cbv; repeat split; discriminate).
  assert (U : upper twice \/ lower twice) by (left; cbv; auto). assert (B : (0 < zdet twice < 100000)%Z) by (split; reflexivity).
  destruct (C37_supercell_same_crystal one_cell twice NE eq_refl NN U B) as (c & E & _ & N & L & NC & S). exists c. split; [exact E|].
  assert (FC : from_constructor c) by (apply (@made_by_constructor (mkSL (lattice one_cell) (positions one_cell) (numbers one_cell) twice [])); assumption).
  assert (VO : volume (lattice one_cell) <> 0%Qc) by (vm_compute; discriminate).
  destruct (C37_no_repeated_atoms one_cell twice c NE eq_refl VO D NN U B E) as [DC _].
  assert (N2 : length (positions c) = 2) by (apply Nat2Z.inj; rewrite N; reflexivity).
  assert (PC : primitive_size (cell_of c) 1).
  { exists (cell_of one_cell). split; [|reflexivity]. split; [discriminate|]. split; [reflexivity|]. split; [|split; [apply one_standard|exact D]].
    exists one, v0. split; [split; apply mat_mul_one_l|]. intros z v. rewrite vec_mat_one, vadd_0. symmetry. apply S. }
  assert (NP : is_primitive (fun _ => 1) c = false) by (unfold is_primitive; rewrite (spg_cell_of c FC); cbn [cell_of snd]; rewrite L, N2; reflexivity).
  split; [exact FC|]. split; [exact DC|]. split; [exact N2|]. split; [exact PC|]. split; [exact NP|].
  intros SM. pose proof (proj2 (C87_is_primitive (fun _ => 1) c FC DC PC) SM) as T. discriminate (eq_trans (eq_sym NP) T).
Qed.
