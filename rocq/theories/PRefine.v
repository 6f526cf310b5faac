(** C87, continued: the conventional standardised cell. *)
From Verif Require Import Base LBase BaseQ LQ SLattice MGeneralCell MHnf MCli SShape SModCell SPrim LPrim LShape LShape2 LCrystal SSubst SOcc MSpg PShape PSuper PPrim LCli8 LDeriv2 LDeriv3 LDup.
Open Scope nat_scope.

(** What is asked of standardize_cell without reduction to the primitive cell: the same crystal up to
    a rigid motion, no atom listed twice. *)
Definition conventional (c d : cell3) : Prop :=
  let '(lat, pos, nums) := d in pos <> [] /\ length pos = length nums /\ same_up_to_motion c d /\ distinct_sites lat pos.

(** get_refined_cell keeps the crystal; its number of atoms is a multiple of that of a primitive cell; reducing it
    afterwards gives a cell as large as reducing the original one, of the same crystal. *)
Theorem C87_conventional : forall std stdc c, conventional (cell_of c) (stdc (cell_of c)) ->
  exists g, get_refined_cell stdc c = Ok g /\ same_up_to_motion (cell_of c) (cell_of g) /\ distinct_sites (lattice g) (positions g) /\
    (forall n, primitive_size (cell_of c) n -> exists k, length (positions g) = k * n) /\
    (standardized (cell_of c) (std (cell_of c)) -> standardized (cell_of g) (std (cell_of g)) ->
     exists p q, get_refined_pcell std c = Ok p /\ get_refined_pcell std g = Ok q /\
       length (positions p) = length (positions q) /\ same_up_to_motion (cell_of p) (cell_of q)).
Proof.
  intros std stdc c. unfold get_refined_cell. change (lattice c, positions c, numbers c) with (cell_of c).
  destruct (stdc (cell_of c)) as [[lat pos] nums]. intros (N & L & M & DS).
  destruct (new_cell lat N L) as (g & E & LG & LN & LL & P). exists g. split; [exact E|].
  assert (CA : forall z v, crystal_atom lat pos nums z v <-> crystal_atom lat (positions g) (numbers g) z v)
    by (intros; apply crystal_perm; [exact L|exact LN|apply Permutation_sym, P]).
  assert (MG : same_up_to_motion (cell_of c) (cell_of g)) by (unfold cell_of at 2; rewrite LG; eapply motion_eq; [|exact M]; exact CA).
  assert (DG : distinct_sites (lattice g) (positions g)).
  { rewrite LG. apply distinct_FOP. apply distinct_FOP in DS. eapply FOP_perm; [apply apart_sym| |exact DS].
    apply (Permutation_map fst) in P. rewrite !map_fst_combine in P by assumption. now symmetry. }
  split; [exact MG|]. split; [exact DG|]. split.
  - intros n (d & ST & En). apply (@primitive_size_multiple (lattice g) (positions g) (numbers g) n LN DG). exists d. split; [|exact En].
    destruct d as [[lat' pos'] nums']. destruct ST as (N1 & N2 & M1 & S1 & D1). split; [exact N1|]. split; [exact N2|]. split; [|split; assumption].
    eapply motion_trans; [apply motion_sym; exact MG|exact M1].
  - intros S0 SG. destruct (C77_refined std c S0) as (p & Ep & Mp & SMp & Lp). destruct (C77_refined std g SG) as (q & Eq & Mq & SMq & Lq).
    exists p, q. split; [exact Ep|]. split; [exact Eq|]. split.
    + assert (P0 : primitive_size (cell_of c) (length (snd (fst (std (cell_of c)))))) by (eexists; split; [exact S0|reflexivity]).
      assert (P1 : primitive_size (cell_of g) (length (snd (fst (std (cell_of g)))))) by (eexists; split; [exact SG|reflexivity]).
      assert (G : forall c g, standardized (cell_of c) (std (cell_of c)) -> get_refined_pcell std c = Ok g -> length (positions g) = length (snd (fst (std (cell_of c))))).
      { clear. intros c g ST E. unfold get_refined_pcell in E. change (lattice c, positions c, numbers c) with (cell_of c) in E.
        destruct (std (cell_of c)) as [[lat pos] nums]. destruct ST as (N & L1 & _). destruct (new_cell lat N L1) as (g' & E' & _ & _ & LL & _).
        assert (g' = g) by congruence. subst g'. exact LL. }
      rewrite (G c p S0 Ep), (G g q SG Eq). exact (primitive_size_unique MG P0 P1).
    + eapply motion_trans; [apply motion_sym; exact Mp|]. eapply motion_trans; [exact MG|exact Mq].
Qed.
Print Assumptions C87_conventional.
Lemma ok_inj A (x y : A) : Ok x = Ok y -> x = y.
Proof. now intros [= ->]. Qed.
(** A conventional cell of two atoms for the cell of one atom. *)
Example C87_conventional_ex : exists c, supercell one_cell twice = Ok c /\
  conventional (cell_of one_cell) (cell_of c) /\ primitive_size (cell_of one_cell) 1 /\ length (positions c) = 2 /\
  standardized (cell_of one_cell) (cell_of one_cell) /\ forall g, get_refined_cell (fun _ => cell_of c) one_cell = Ok g -> standardized (cell_of g) (cell_of one_cell).
Proof.
  destruct C87_ex as (F & D & P & _ & _ & c & E & FC & DC & N2 & PC & _).
  assert (NE : positions one_cell <> []) by discriminate. assert (NN : nonneg_mat twice) by (cbv; repeat split; discriminate).
  assert (U : upper twice \/ lower twice) by (left; cbv; auto). assert (B : (0 < zdet twice < 100000)%Z) by (split; reflexivity).
  destruct (C37_supercell_same_crystal one_cell twice NE eq_refl NN U B) as (c' & E' & _ & _ & L & _ & S). assert (EC : Ok c = Ok c') by (rewrite <- E; exact E'). apply ok_inj in EC. subst c'. clear E'.
  assert (M : same_up_to_motion (cell_of one_cell) (cell_of c)).
  { exists one, v0. split; [split; apply mat_mul_one_l|]. intros z v. rewrite vec_mat_one, vadd_0. apply S. }
  assert (CV : conventional (cell_of one_cell) (cell_of c)).
  { unfold conventional, cell_of at 2. split; [intros Z; rewrite Z in N2; discriminate|]. split; [now symmetry|]. split; [exact M|exact DC]. }
  exists c. split; [exact E|]. split; [exact CV|]. split; [exact P|]. split; [exact N2|]. split; [exact one_standard|].
  intros g G. destruct (C87_conventional (fun _ => cell_of one_cell) (fun _ => cell_of c) one_cell CV) as (g' & G' & MG & _).
  assert (EG : Ok g = Ok g') by (rewrite <- G; exact G'). apply ok_inj in EG. subst g'. destruct one_standard as (N1 & N3 & M1 & S1 & D1). split; [exact N1|]. split; [exact N3|]. split; [|split; assumption].
  apply motion_sym. exact MG.
Qed.
