(** suplat, then ocubiter: no structure is written twice. *)
From Coq Require Import String Permutation.
From Verif Require Import SIO SCliRead Base LBase BaseQ LQ SLattice SGeneralCell LGeneralCell MGeneralCell SSym LSym SOcc SSubst SModCell SShape SRobust MHnf LMat3 LHnf LSuper LCrystal
  LModCell4 LShape LShape2 MSogen LFrame SDeriv LDeriv LDeriv2 LDeriv3 LPrim SOnce LOnce LFlow LFlow4 SFlow LDup LSym.
Set Implicit Arguments.
Unset Strict Implicit.
Open Scope list_scope.
Open Scope nat_scope.
Notation length := List.length.

Lemma vadd_left a b c : vadd a b = vadd a c -> b = c.
Proof. assert (S : forall x y, vadd x y = vadd y x) by qm. rewrite (S a b), (S a c). apply vadd_cancel. Qed.
Lemma symmetries_geo ops wy c o : from_constructor c -> symmetries_of ops c -> OccupyGenerator_new ops wy c = Ok o ->
  forall x y, length x = length (numbers c) -> equivalent (sym_perm o) x y -> geo_equivalent ops (positions c) x y.
Proof.
  intros (lat & pos & nums & L & E) (DS & GRP & SP & _) EO x y Lx. apply (@sound_facts ops wy c o); [|exact Lx].
  split; [exists lat, pos, nums; auto|]. repeat (split; [assumption|]). split; [|exact EO].
  intros o1 i j p p' Io P P' K. apply (SP o1 i j p p' Io P P'). now apply carries_exactly_carries.
Qed.

Section Once.
Context (ops : list (mat Z * vec Qc)) (u g : gcell) (v : Z) (h m : mat Z) (C : crystal).
Hypothesis FU : from_constructor u.
Hypothesis VU : volume (lattice u) <> 0%Qc.
Hypothesis SM : smallest (cell_of u).
Hypothesis SU : symmetries_of ops u.
Hypothesis AU : all_symmetries ops (cell_of u).
Hypothesis Lg : length (numbers g) = length (positions g).
Hypothesis SF : stands_for u h g.
Hypothesis Nh : zdet h <> 0%Z.
Hypothesis Vm : Z.abs (zdet m) = Z.abs (zdet h).
Hypothesis PA : primitive_along (lattice u) m C.

Lemma crystal_shift y s z r : crystal_atom (lattice g) (positions g) y z r -> crystal_atom (lattice g) (positions g) y z (vadd r (vec_mat (vecZ s) (lattice g))).
Proof. intros (i & p & t & P & Z & ->). exists i, p, (zvadd t s). split; [exact P|]. split; [exact Z|]. rewrite <- vec_mat_add, vadd_assoc, <- vecZ_add. reflexivity. Qed.

(** The motion that shows [C] in [g] carries its periods to the lattice of [g]. *)
Lemma shown_periods y q w : orthogonal q -> (forall z r, atom_at (cell_of u) z r <-> atom_at (cell_of g) z (vadd (vec_mat r q) w)) ->
  (forall z r, C z r <-> atom_at (lattice g, positions g, y) z (vadd (vec_mat r q) w)) ->
  lat_equiv (map fst ops) m h /\ (forall k, exists s, vec_mat (period (lattice u) m k) q = vec_mat (vecZ s) (lattice g)) /\
  (forall s, exists k, vec_mat (vec_mat (vecZ s) (lattice g)) (flip q) = period (lattice u) m k).
Proof.
  intros OQ AT XC. destruct (from_constructor_facts FU) as (_ & _ & Lu & _).
  destruct (frame_self (eq_sym Lu) SU SF) as (q0 & w0 & CF). pose proof (cf_orth CF) as O0.
  assert (L0 : forall k, exists s, vec_mat (period (lattice u) h k) q0 = vec_mat (vecZ s) (lattice g)).
  { intros k. destruct (cf_forth CF k) as (s & E). exists s. specialize (E v0). rewrite move_add in E. exact (vadd_left E). }
  set (q1 := mat_mul q (flip q0)). set (w1 := vadd (vec_mat w (flip q0)) (vec_mat (vsub v0 w0) (flip q0))).
  assert (FM : forall r, unmove q0 w0 (move q w r) = move q1 w1 r) by (intros r; rewrite unmove_as_move; apply move_move).
  assert (O1 : orthogonal q1) by (apply orthogonal_mul; [exact OQ|now apply orthogonal_flip]).
  assert (K : keeps_crystal (cell_of u) q1 w1).
  { intros z r. fold (move q1 w1 r). rewrite <- FM, (cf_atoms CF z (unmove q0 w0 (move q w r))), move_unmove by exact O0. apply AT. }
  destruct (structure_op SM SU AU O1 K) as (r & Ir & U & KL).
  set (D := fun z x => crystal_atom (lattice g) (positions g) y z (move q0 w0 x)).
  assert (M : forall z x, C z x <-> D z (move q1 w1 x)) by (intros z x; unfold D; rewrite <- FM, move_unmove by exact O0; apply XC).
  assert (P : forall k z x, D z x -> D z (vadd x (period (lattice u) h k))).
  { intros k z x H. unfold D in *. destruct (cf_forth CF k) as (s & E). rewrite E. now apply crystal_shift. }
  pose proof (@periods_carried (lattice u) r q1 w1 m h C D VU U O1 KL M P Vm Nh PA) as RC. split; [exists r; auto|].
  assert (QQ : forall x, vec_mat (vec_mat x q1) q0 = vec_mat x q) by (intros x; unfold q1; rewrite <- vec_mat_mul, back_and_there by exact O0; reflexivity).
  split.
  - intros k. destruct (proj1 RC (zcomb k m)) as (k' & E'); [now exists k|]. destruct (L0 k') as (s & Es). exists s. rewrite <- Es, <- QQ. f_equal.
    unfold period. rewrite KL, E'. reflexivity.
  - intros s. apply PA.
    intros z x H. apply XC. fold (move q w (vadd x (vec_mat (vec_mat (vecZ s) (lattice g)) (flip q)))). rewrite move_add, back_and_there by exact OQ. apply crystal_shift. now apply XC.
Qed.
End Once.

Section Same.
Context (ops gops : list (mat Z * vec Qc)) (u g : gcell) (h m : mat Z) (C : crystal).
Hypothesis FU : from_constructor u.
Hypothesis VU : volume (lattice u) <> 0%Qc.
Hypothesis SM : smallest (cell_of u).
Hypothesis SU : symmetries_of ops u.
Hypothesis AU : all_symmetries ops (cell_of u).
Hypothesis FG : from_constructor g.
Hypothesis SF : stands_for u h g.
Hypothesis Nh : zdet h <> 0%Z.
Hypothesis Vm : Z.abs (zdet m) = Z.abs (zdet h).
Hypothesis PA : primitive_along (lattice u) m C.
Hypothesis SG : symmetries_of gops g.
Hypothesis AG : all_symmetries gops (cell_of g).

Lemma shown_once y1 y2 : length y1 = length (positions g) -> length y2 = length (positions g) -> shown_as u g y1 C -> shown_as u g y2 C ->
  geo_equivalent gops (positions g) y1 y2.
Proof.
  intros L1 L2 (q1 & w1 & O1 & A1 & X1) (q2 & w2 & O2 & A2 & X2). destruct (from_constructor_facts FG) as (_ & NEg & Lg & _).
  pose proof (frame_volume SF VU Nh) as VG.
  destruct (shown_periods FU VU SM SU AU SF Nh Vm PA O1 A1 X1) as (_ & F1 & B1).
  destruct (shown_periods FU VU SM SU AU SF Nh Vm PA O2 A2 X2) as (_ & F2 & B2).
  set (q := mat_mul (flip q1) q2). set (w := vadd (vec_mat (vec_mat (vsub v0 w1) (flip q1)) q2) w2).
  assert (FM : forall r, move q2 w2 (unmove q1 w1 r) = move q w r) by (intros r; rewrite unmove_as_move; apply move_move).
  assert (OQ : orthogonal q) by (apply orthogonal_mul; [now apply orthogonal_flip|exact O2]).
  assert (QQ : forall x, vec_mat (vec_mat x (flip q1)) q2 = vec_mat x q) by (intros x; unfold q; now rewrite <- vec_mat_mul).
  destruct (get_symmetry_permutation gops g) as [perms|] eqn:EP; [|rewrite mapM_gsp_ok in EP by exact NEg; discriminate].
  set (o := mkOcc g perms []).
  assert (EO : OccupyGenerator_new gops [] g = Ok o) by (unfold OccupyGenerator_new; now rewrite EP).
  apply (@symmetries_geo gops [] g o FG SG EO); [congruence|].
  refine (@moved_equivalent gops [] g o y1 y2 q w FG VG SG AG EO L1 L2 OQ _ _ _).
  - intros z r. fold (move q w r). rewrite <- FM. etransitivity; [|exact (A2 z (unmove q1 w1 r))].
    rewrite (A1 z (unmove q1 w1 r)). fold (move q1 w1 (unmove q1 w1 r)). now rewrite move_unmove.
  - intros t. split.
    + intros (s & ->). destruct (B1 s) as (k & E). destruct (F2 k) as (s' & E'). exists s'. cbn [cell_of fst] in *. now rewrite <- QQ, E.
    + intros (s & E). destruct (B2 s) as (k & Ek). destruct (F1 k) as (s' & Es). exists s'. cbn [cell_of fst] in *. rewrite <- Es, <- Ek, <- E, <- QQ.
      now rewrite there_and_back, back_and_there.
  - intros z r. rewrite <- FM. etransitivity; [|exact (X2 z (unmove q1 w1 r))].
    etransitivity; [|symmetry; exact (X1 z (unmove q1 w1 r))]. fold (move q1 w1 (unmove q1 w1 r)). now rewrite move_unmove.
Qed.
End Same.
