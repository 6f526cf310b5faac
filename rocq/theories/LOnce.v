(** Lemmas for C88: structures without a shorter period are listed once. *)
From Coq Require Import Permutation String.
From Verif Require Import Base LBase BaseQ LQ SLattice SGeneralCell LGeneralCell MGeneralCell SSym LSym SOcc SModCell SShape SDeriv SOnce MHnf LMat3 LHnf LSuper LCrystal LShape LShape2 LModCell4
  MSogen LDup LFilter LDeriv LDeriv2 LDeriv3 LPrim LCli8 PSuper LComb.
Set Implicit Arguments.
Unset Strict Implicit.
Open Scope nat_scope.
Notation length := List.length.

Lemma vec_mat_inj L a b : volume L <> 0%Qc -> vec_mat a L = vec_mat b L -> a = b.
Proof. intros V E. destruct (inv_spec V) as (i & _ & _ & I). rewrite <- (I a), <- (I b), E. reflexivity. Qed.
Lemma op_image_shift r t s p : op_image r (vadd t s) p = vadd (op_image r t p) s.
Proof. destruct p, t, s. unfold op_image, vadd. cbn [BaseQ.vx BaseQ.vy BaseQ.vz]. f_equal; ring. Qed.
Lemma move_add q w v t : move q w (vadd v t) = vadd (move q w v) (vec_mat t q).
Proof. unfold move. rewrite vec_mat_add. apply vadd_swap. Qed.
Lemma flip_fwd q v : orthogonal q -> vec_mat (vec_mat v q) (flip q) = v.
Proof. intros [A _]. rewrite vec_mat_mul, A. apply vec_mat_one. Qed.

Lemma Forall2_nth_intro A B (R : A -> B -> Prop) l x : length l = length x -> (forall i a b, nth_error l i = Some a -> nth_error x i = Some b -> R a b) -> Forall2 R l x.
Proof.
  revert x. induction l as [|a l IH]; intros [|b x] E H; try discriminate; [constructor|]. constructor; [apply (H 0); reflexivity|].
  apply IH; [now injection E|]. intros i. apply (H (S i)).
Qed.

(** A symmetry of a crystal whose cell is smallest keeps the lattice. *)
Lemma symmetry_lattice c q w : smallest c -> orthogonal q -> keeps_crystal c q w -> forall t, lattice_vector c t <-> lattice_vector c (vec_mat t q).
Proof.
  intros S O K t. split; intros H; apply S; intros z v V.
  - rewrite <- (move_unmove w v O), <- move_add. apply (proj1 (K z (vadd (unmove q w v) t))). apply lattice_keeps; [exact H|]. apply (proj2 (K z (unmove q w v))).
    fold (move q w (unmove q w v)). now rewrite move_unmove.
  - apply (proj2 (K z (vadd v t))). fold (move q w (vadd v t)). rewrite move_add. apply lattice_keeps; [exact H|]. now apply (proj1 (K z v)).
Qed.

(** The lattice of periods is carried along. *)
Lemma periods_carried L (r : mat Z) q w m h (C D : crystal) : volume L <> 0%Qc -> unimodular r -> orthogonal q ->
  (forall s, vec_mat (vec_mat (vecZ s) L) q = vec_mat (vecZ (zrot r s)) L) ->
  (forall z v, C z v <-> D z (move q w v)) -> (forall k z v, D z v -> D z (vadd v (period L h k))) ->
  Z.abs (zdet m) = Z.abs (zdet h) -> zdet h <> 0%Z -> primitive_along L m C -> rot_carries r m h.
Proof.
  intros V U O K M P E N PA. apply unimodular_abs in U. apply carries_same, span_incl_same.
  - rewrite zdet_mul, zdet_transpose, Z.abs_mul. nia.
  - rewrite zdet_mul, zdet_transpose. nia.
  - intros x (k & ->). destruct (PA (vec_mat (period L h k) (flip q))) as (k' & E').
    + intros z v H. apply M. rewrite move_add, flip_back by exact O. apply P. now apply M.
    + apply (f_equal (fun t => vec_mat t q)) in E'. rewrite flip_back in E' by exact O. unfold period in E'. rewrite K in E'.
      apply vec_mat_inj, vecZ_inj in E'; [|exact V]. exists k'. now rewrite E', <- zcomb_zmul, zrot_comb.
Qed.

(** A decoration moved by a symmetry is a reordering. *)
Lemma moved_equivalent ops wy c o x y q w : from_constructor c -> volume (lattice c) <> 0%Qc -> symmetries_of ops c -> all_symmetries ops (cell_of c) ->
  OccupyGenerator_new ops wy c = Ok o -> length x = length (positions c) -> length y = length (positions c) ->
  orthogonal q -> keeps_crystal (cell_of c) q w -> (forall t, lattice_vector (cell_of c) t <-> lattice_vector (cell_of c) (vec_mat t q)) ->
  (forall z v, crystal_atom (lattice c) (positions c) x z v <-> crystal_atom (lattice c) (positions c) y z (move q w v)) ->
  equivalent (sym_perm o) x y.
Proof.
  intros FC VO (ND & X & SPC & RG) AS E Lx Ly OQ KC KL M. destruct (from_constructor_facts FC) as (Can & _ & Lc & _).
  destruct (AS q w OQ KC KL) as (op & s0 & Iop & EQ). cbn [cell_of fst] in EQ.
  unfold OccupyGenerator_new in E. destruct (get_symmetry_permutation ops c) as [perms|] eqn:EP; [|discriminate]. cbn in E. injection E as <-. cbn.
  pose proof (C13_lemma Can ND EP) as F2. pose proof (proj1 (distinct_keys _) ND) as ND'.
  pose proof (exact_distinct VO ND) as DX. apply In_nth_error in Iop as (k & Ik).
  destruct (nth_error perms k) as [pm|] eqn:Eo; [|apply nth_error_None in Eo; rewrite <- (Forall2_len F2) in Eo; apply nth_error_None in Eo; congruence].
  pose proof (Forall2_nth F2 Ik Eo) as K. apply nth_error_In in Eo. apply nth_error_In in Ik. destruct K as (Pm & Ca); [now apply exact_maps_sites with (ops := ops)|].
  exists pm. split; [exact Eo|].
  assert (Lp : length pm = length (positions c)) by (rewrite (Permutation_length Pm); apply seq_length).
  unfold reordered. apply Forall2_nth_intro; [congruence|]. intros i j b J B.
  destruct (Ca i j J) as (p & p' & P & P' & C0). pose proof (carries_to_exact ND' X Ik (nth_error_In _ _ P) (nth_error_In _ _ P') C0) as CE.
  unfold carries_exactly in CE. apply int_shift_sym, int_shift_vec in CE as (a & CE).
  destruct (nth_pair (x := x) Lx P) as (z & Z). rewrite Z. f_equal.
  assert (A : crystal_atom (lattice c) (positions c) y z (move q w (vec_mat p (lattice c)))).
  { apply M. exists j, p, (V3 0 0 0)%Z. split; [exact P|]. split; [exact Z|]. f_equal. change (vecZ (V3 0 0 0)%Z) with v0. symmetry. apply vadd_0. }
  destruct A as (i' & p1 & s1 & P1 & Z1 & E1). unfold move in E1. rewrite EQ, CE, vadd_assoc, <- vecZ_add in E1.
  assert (i = i') as <-; [|congruence].
  apply (DX i i' p' p1 (zvsub s1 (zvadd a s0)) P' P1). rewrite vecZ_sub.
  apply vec_mat_inj in E1; [|exact VO]. f_equal. revert E1. generalize (vecZ (zvadd a s0)) (vecZ s1). clear. intros u v E.
  apply (f_equal (fun x => vsub x u)) in E. rewrite vsub_add in E. rewrite E. destruct p1, u, v. unfold vadd, vsub. cbn [BaseQ.vx BaseQ.vy BaseQ.vz]. f_equal; ring.
Qed.

Lemma structure_sym u (C D : crystal) : same_structure u C D -> same_structure u D C.
Proof.
  intros (q & t & O & K & M). exists (flip q), (vec_mat (vsub v0 t) (flip q)). split; [now apply orth_flip|].
  assert (B : forall v, vadd (vec_mat (vadd (vec_mat v (flip q)) (vec_mat (vsub v0 t) (flip q))) q) t = v)
    by (intros v; rewrite <- vec_mat_add, flip_back by exact O; apply vadd_undo').
  split; [intros z v; rewrite (K z (vadd (vec_mat v (flip q)) _)), B; reflexivity|]. intros z v. rewrite (M z (vadd (vec_mat v (flip q)) _)), B. reflexivity.
Qed.
Lemma structure_trans u (C D E : crystal) : same_structure u C D -> same_structure u D E -> same_structure u C E.
Proof.
  intros (q & t & O & K & M) (q' & t' & O' & K' & M'). exists (mat_mul q q'), (vadd (vec_mat t q') t'). split; [now apply orth_mul|].
  assert (B : forall v, vadd (vec_mat v (mat_mul q q')) (vadd (vec_mat t q') t') = vadd (vec_mat (vadd (vec_mat v q) t) q') t')
    by (intros v; rewrite vec_mat_add, vec_mat_mul, vadd_assoc; reflexivity).
  split; intros z v; rewrite B; [rewrite (K z v); apply K'|rewrite (M z v); apply M'].
Qed.

Section Once.
Context (ops : list (mat Z * vec Qc)) (u : gcell) (n : Z).
Hypothesis FU : from_constructor u.
Hypothesis VU : volume (lattice u) <> 0%Qc.
Hypothesis SM : smallest (cell_of u).
Hypothesis SU : symmetries_of ops u.
Hypothesis AU : all_symmetries ops (cell_of u).
Hypothesis N : (0 < n < 100000)%Z.
Notation rots := (map fst ops).

Lemma structure_op q w : orthogonal q -> keeps_crystal (cell_of u) q w -> exists r, In r rots /\ unimodular r /\
  forall s, vec_mat (vec_mat (vecZ s) (lattice u)) q = vec_mat (vecZ (zrot r s)) (lattice u).
Proof.
  intros O K. destruct (AU O K (symmetry_lattice SM O K)) as (o & s0 & Io & E). cbn [cell_of fst] in E.
  exists (fst o). split; [now apply in_map|]. split; [exact (op_unimodular (proj1 (proj2 SU)) Io)|].
  apply (@lin_lattice (lattice u) (fst o, vadd (snd o) (vecZ s0)) q w). intros p. cbn [fst snd]. rewrite op_image_shift. symmetry. apply E.
Qed.

Lemma listed_frame s c : made_of rots u n s -> to_general_cell s = Ok c ->
  from_constructor c /\ lattice c = mat_mul (matZ (sl_H s)) (lattice u) /\ (forall z v, atom_at (cell_of c) z v <-> atom_at (cell_of u) z v) /\
  zdet (sl_H s) <> 0%Z /\ Z.abs (zdet (sl_H s)) = n.
Proof.
  intros [E H] C. rewrite E in C. destruct (from_constructor_facts FU) as (_ & NEu & Lu & _).
  destruct (C37_superlattice_same_crystal rots u n (sl_H s) NEu Lu H) as (c' & Ec & LC & _ & Lc & NC & CR); [lia|].
  rewrite Ec in C. injection C as ->. pose proof (hnf_det H). split; [exact (made_by_constructor Ec NC)|]. split; [exact LC|]. split; [exact CR|]. lia.
Qed.
Lemma period_lattice h k : vec_mat (vecZ k) (mat_mul (matZ h) (lattice u)) = period (lattice u) h k.
Proof. unfold period. rewrite vecZ_comb, vec_mat_mul. reflexivity. Qed.
Lemma periodic g h k z v : lattice g = mat_mul (matZ h) (lattice u) -> atom_at (cell_of g) z v -> atom_at (cell_of g) z (vadd v (period (lattice u) h k)).
Proof. intros L. apply lattice_keeps. exists k. cbn [cell_of fst]. rewrite L. symmetry. apply period_lattice. Qed.
Lemma smallest_along g h : lattice g = mat_mul (matZ h) (lattice u) -> smallest (cell_of g) <-> primitive_along (lattice u) h (atom_at (cell_of g)).
Proof.
  intros L. split; intros S t K; destruct (S t K) as (k & ->); exists k; cbn [cell_of fst] in *; rewrite ?L, period_lattice; reflexivity.
Qed.

(** A listed structure that shows a crystal without shorter periods has none either. *)
Lemma primitive_moved m h g (C : crystal) : lattice g = mat_mul (matZ h) (lattice u) -> Z.abs (zdet m) = Z.abs (zdet h) -> zdet h <> 0%Z ->
  primitive_along (lattice u) m C -> same_structure (cell_of u) C (atom_at (cell_of g)) -> smallest (cell_of g).
Proof.
  intros L E NZ PA (q & w & O & K & M). destruct (structure_op O K) as (r & Ir & U & KL). apply (smallest_along L).
  pose proof (@periods_carried (lattice u) r q w m h C (atom_at (cell_of g)) VU U O KL M (fun k z v => @periodic g h k z v L) E NZ PA) as [RC _].
  intros t T. destruct (PA (vec_mat t (flip q))) as (k & Ek).
  - intros z v H. apply M. fold (move q w (vadd v (vec_mat t (flip q)))). rewrite move_add, flip_back by exact O. apply T. now apply M.
  - apply (f_equal (fun x => vec_mat x q)) in Ek. rewrite flip_back in Ek by exact O. rewrite Ek. unfold period. rewrite KL.
    destruct (RC (zcomb k m)) as (k' & E'); [now exists k|]. exists k'. now rewrite E'.
Qed.

Section Lists.
Context (spg : gcell -> list (mat Z * vec Qc)) (wy : gcell -> list string) (hash : list Z -> Z) (dup : occ -> trace gcell) (out : list slcell).
Hypothesis MO : Forall (made_of rots u n) out.
Hypothesis ONE : ForallOrdPairs (fun a b => ~ lat_equiv rots a b /\ ~ lat_equiv rots b a) (map sl_H out).
Hypothesis SPG : forall s c, In s out -> to_general_cell s = Ok c -> symmetries_of (spg c) c /\ all_symmetries (spg c) (cell_of c).
Hypothesis FRM : forall o, from_constructor (init_cell o) -> Forall (same_frame (init_cell o)) (items (dup o)).

Lemma once_core a1 b1 g1 a2 b2 g2 : listed_at spg wy hash dup out a1 b1 g1 -> listed_at spg wy hash dup out a2 b2 g2 -> smallest (cell_of g1) ->
  same_structure (cell_of u) (atom_at (cell_of g1)) (atom_at (cell_of g2)) -> a1 = a2 /\ b1 = b2.
Proof.
  intros (s1 & c1 & o1 & A1 & C1 & O1 & B1) (s2 & c2 & o2 & A2 & C2 & O2 & B2) SG (q & w & O & K & M).
  destruct (structure_op O K) as (r & Ir & U & KL). rewrite Forall_forall in MO.
  pose proof (nth_error_In _ _ A1) as I1. pose proof (nth_error_In _ _ A2) as I2.
  destruct (listed_frame (MO _ I1) C1) as (F1 & L1 & CR1 & Z1 & D1). destruct (listed_frame (MO _ I2) C2) as (F2 & L2 & CR2 & Z2 & D2).
  destruct (SPG I1 C1) as [S1 AS1]. destruct (SPG I2 C2) as [S2 AS2].
  destruct (generator_facts (wy c1) F1 S1) as (o1' & O1' & IC1 & FO1 & PG1 & _). rewrite O1' in O1. injection O1 as <-.
  destruct (generator_facts (wy c2) F2 S2) as (o2' & O2' & IC2 & FO2 & PG2 & _). rewrite O2' in O2. injection O2 as <-.
  assert (FR : forall o g b, from_constructor (init_cell o) -> perm_group (length (numbers (init_cell o))) (sym_perm o) -> nth_error (items (gen_2nodup_gen hash o (dup o))) b = Some g ->
    same_frame (init_cell o) g).
  { intros o g b FO PG B. pose proof (FRM FO) as F. rewrite Forall_forall in F. apply F.
    destruct (@C18_lemma hash o (length (numbers (init_cell o))) (dup o) PG) as (SB & _); [intros c I; exact (proj1 (proj2 (proj2 (proj2 (F c I)))))|].
    eapply subseq_incl; [exact SB|]. eapply nth_error_In. exact B. }
  pose proof (FR _ _ _ FO1 PG1 B1) as G1. pose proof (FR _ _ _ FO2 PG2 B2) as G2. rewrite IC1 in G1. rewrite IC2 in G2.
  assert (LG1 : lattice g1 = mat_mul (matZ (sl_H s1)) (lattice u)) by (rewrite (proj1 G1); exact L1).
  assert (LG2 : lattice g2 = mat_mul (matZ (sl_H s2)) (lattice u)) by (rewrite (proj1 G2); exact L2).
  assert (RC : rot_carries r (sl_H s1) (sl_H s2)).
  { refine (@periods_carried (lattice u) r q w (sl_H s1) (sl_H s2) _ _ VU U O KL M (fun k z v => @periodic g2 (sl_H s2) k z v LG2) _ Z2 _); [congruence|].
    now apply (smallest_along LG1). }
  assert (a1 = a2) as <-.
  { assert (LE : lat_equiv rots (sl_H s1) (sl_H s2)) by (exists r; auto). pose proof (proj1 (FOP_nth _ _) ONE) as Q.
    destruct (Nat.lt_trichotomy a1 a2) as [H|[H|H]]; [|exact H|]; exfalso.
    - destruct (Q a1 a2 (sl_H s1) (sl_H s2) H) as [X _]; [now apply map_nth_error|now apply map_nth_error|]. contradiction.
    - destruct (Q a2 a1 (sl_H s2) (sl_H s1) H) as [_ X]; [now apply map_nth_error|now apply map_nth_error|]. contradiction. }
  split; [reflexivity|]. assert (ES : s2 = s1) by congruence. rewrite ES in *. clear ES. assert (ES : c2 = c1) by congruence. rewrite ES in *. clear ES.
  assert (ES : o2' = o1') by congruence. rewrite ES in *. clear ES A2 C2 O2' I2 F2 L2 CR2 Z2 D2 S2 AS2 IC2 FO2 PG2. rename s1 into s, c1 into c, o1' into o.
  assert (VC : volume (lattice c) <> 0%Qc) by (rewrite L1; now apply volume_supercell).
  assert (EQV : equivalent (sym_perm o) (numbers g1) (numbers g2)).
  { destruct G1 as (GL1 & GP1 & _ & GN1 & _). destruct G2 as (GL2 & GP2 & _ & GN2 & _). destruct (from_constructor_facts F1) as (_ & _ & Lc & _).
    apply (moved_equivalent (q := q) (w := w) F1 VC S1 AS1 O1'); [congruence|congruence|exact O| | |].
    - intros z v. rewrite !CR1. apply K.
    - intros t. unfold lattice_vector. cbn [cell_of fst]. rewrite L1. split.
      + intros (k & ->). rewrite period_lattice. unfold period. rewrite KL. destruct (proj1 RC (zcomb k (sl_H s))) as (k' & E'); [now exists k|].
        exists k'. rewrite period_lattice. unfold period. now rewrite E'.
      + intros (k & E). rewrite period_lattice in E. unfold period in E. destruct (proj2 RC (zcomb k (sl_H s))) as (x & (k' & ->) & E'); [now exists k|].
        rewrite E', <- KL in E. apply (f_equal (fun x => vec_mat x (flip q))) in E. rewrite !flip_fwd in E by exact O. exists k'. rewrite period_lattice. exact E.
    - intros z v. specialize (M z v). unfold atom_at, cell_of in M. rewrite GL1, GP1, GL2, GP2 in M. exact M. }
  destruct (@C18_lemma hash o (length (numbers (init_cell o))) (dup o) PG1) as (_ & _ & FP).
  { pose proof (FRM FO1) as F. rewrite Forall_forall in F. intros x I. exact (proj1 (proj2 (proj2 (proj2 (F x I))))). }
  pose proof (proj1 (FOP_nth _ _) FP) as Q. destruct (Nat.lt_trichotomy b1 b2) as [H|[H|H]]; [|exact H|]; exfalso.
  - destruct (Q b1 b2 g1 g2 H B1 B2) as [X _]. contradiction.
  - destruct (Q b2 b1 g2 g1 H B2 B1) as [_ X]. contradiction.
Qed.
Lemma listed_same a b g : listed_at spg wy hash dup out a b g -> exists c, from_constructor c /\ (forall z v, atom_at (cell_of c) z v <-> atom_at (cell_of u) z v) /\ same_frame c g.
Proof.
  intros (s1 & c1 & o1 & A1 & C1 & O1 & B1). rewrite Forall_forall in MO. pose proof (nth_error_In _ _ A1) as I1.
  destruct (listed_frame (MO _ I1) C1) as (F1 & L1 & CR1 & Z1 & D1). destruct (SPG I1 C1) as [SS1 _].
  destruct (generator_facts (wy c1) F1 SS1) as (o1' & O1' & IC1 & FO1 & PG1 & _). rewrite O1' in O1. injection O1 as <-.
  exists c1. split; [exact F1|]. split; [exact CR1|]. rewrite <- IC1.
  pose proof (FRM FO1) as F. rewrite Forall_forall in F. apply F.
  destruct (@C18_lemma hash o1' (length (numbers (init_cell o1'))) (dup o1') PG1) as (SB & _); [intros c I; exact (proj1 (proj2 (proj2 (proj2 (F c I)))))|].
  eapply subseq_incl; [exact SB|]; eapply nth_error_In; exact B1.
Qed.
Lemma listed_smallest m (C : crystal) a1 b1 g1 : Z.abs (zdet m) = n -> primitive_along (lattice u) m C -> listed_at spg wy hash dup out a1 b1 g1 ->
  same_structure (cell_of u) C (atom_at (cell_of g1)) -> smallest (cell_of g1).
Proof.
  intros E PA H1 S1.
  destruct H1 as (s1 & c1 & o1 & A1 & C1 & O1 & B1). rewrite Forall_forall in MO. pose proof (nth_error_In _ _ A1) as I1.
  destruct (listed_frame (MO _ I1) C1) as (F1 & L1 & CR1 & Z1 & D1). destruct (SPG I1 C1) as [SS1 _].
  destruct (generator_facts (wy c1) F1 SS1) as (o1' & O1' & IC1 & FO1 & PG1 & _). rewrite O1' in O1. injection O1 as <-.
  apply (@primitive_moved m (sl_H s1) g1 C); [|congruence|exact Z1|exact PA|exact S1].
  pose proof (FRM FO1) as F. rewrite Forall_forall in F.
  destruct (@C18_lemma hash o1' (length (numbers (init_cell o1'))) (dup o1') PG1) as (SB & _); [intros c I; exact (proj1 (proj2 (proj2 (proj2 (F c I)))))|].
  assert (Ig : In g1 (items (dup o1'))) by (eapply subseq_incl; [exact SB|]; eapply nth_error_In; exact B1).
  destruct (F g1 Ig) as (GL & _). rewrite GL, IC1. exact L1.
Qed.
Lemma once_crystal m (C : crystal) a1 b1 g1 a2 b2 g2 : Z.abs (zdet m) = n -> primitive_along (lattice u) m C ->
  listed_at spg wy hash dup out a1 b1 g1 -> listed_at spg wy hash dup out a2 b2 g2 ->
  same_structure (cell_of u) C (atom_at (cell_of g1)) -> same_structure (cell_of u) C (atom_at (cell_of g2)) -> a1 = a2 /\ b1 = b2.
Proof.
  intros E PA H1 H2 S1 S2. apply (@once_core a1 b1 g1 a2 b2 g2 H1 H2); [|eapply structure_trans; [apply structure_sym; exact S1|exact S2]].
  exact (listed_smallest E PA H1 S1).
Qed.
End Lists.
End Once.
