(** [get_shaped_cell] and [get_refined_pcell] keep the crystal. *)
From Coq Require Import Permutation.
From Verif Require Import Base LBase BaseQ LQ SLattice SGeneralCell LGeneralCell MGeneralCell MHnf LMat3 LHnf LSuper LFrac LCrystal MIO MCli SGrid LGrid SShape.
Set Implicit Arguments.
Unset Strict Implicit.
Open Scope nat_scope.

Ltac qm := intros; dmat; cbv [one flip vsub]; qcbv; repeat apply vec_eq; qcbv; try ring.
Lemma vec_mat_one v : vec_mat v one = v.
Proof. qm. Qed.
Lemma vadd_swap a b c : vadd (vadd a b) c = vadd (vadd a c) b.
Proof. qm. Qed.
Lemma vadd_sub a b : vadd (vsub a b) b = a.
Proof. qm. Qed.
Lemma vsub_add a b : vsub (vadd a b) b = a.
Proof. qm. Qed.
Lemma vec_mat_vsub v w a : vec_mat (vsub v w) a = vsub (vec_mat v a) (vec_mat w a).
Proof. qm. Qed.
Lemma vsub_two a b t : vsub a b = vsub (vadd a t) (vadd b t).
Proof. qm. Qed.
Lemma vsub_common a b c : vsub (vadd c a) (vadd c b) = vsub a b.
Proof. qm. Qed.
Lemma vadd_diff a b : vadd b (vsub a b) = a.
Proof. qm. Qed.
Lemma vadd_comm' a b : vadd a b = vadd b a.
Proof. qm. Qed.
Lemma vsub_front a b : vsub (vadd a b) a = b.
Proof. qm. Qed.
Lemma vecZ_sub a b : vecZ (zvsub a b) = vsub (vecZ a) (vecZ b).
Proof.
  assert (E : zvadd (zvsub a b) b = a) by (destruct a as [a1 a2 a3], b as [b1 b2 b3]; unfold zvadd, zvsub; cbn [vx vy vz]; f_equal; lia).
  rewrite <- E at 2. rewrite vecZ_add, vsub_add. reflexivity.
Qed.

Lemma atom_here lat pos nums i p z : nth_error pos i = Some p -> nth_error nums i = Some z -> crystal_atom lat pos nums z (vec_mat p lat).
Proof.
  intros P Z. exists i, p, (V3 0 0 0)%Z. repeat (split; [assumption|]). f_equal. destruct p as [p1 p2 p3]. unfold vecZ, vmap, vadd. cbn [vx vy vz].
  change (Zc 0) with 0%Qc. rewrite !Qcplus_0_r. reflexivity.
Qed.
Lemma label_nth n k z : nth_error (map Z.of_nat (seq 0 n)) k = Some z <-> k < n /\ z = Z.of_nat k.
Proof.
  rewrite nth_error_map. destruct (Nat.lt_ge_cases k n) as [L|L].
  - rewrite (nth_error_nth' _ 0) by (rewrite seq_length; exact L). rewrite seq_nth by exact L. cbn. split; [intros [= <-]; auto|intros [_ ->]; reflexivity].
  - assert (E : nth_error (seq 0 n) k = None) by (apply nth_error_None; rewrite seq_length; exact L). rewrite E. split; [discriminate|lia].
Qed.
Lemma label_atom lat pos n z v : length pos = n -> atom_at (labelled lat pos n) z v <->
  exists k p s, z = Z.of_nat k /\ nth_error pos k = Some p /\ v = vec_mat (vadd p (vecZ s)) lat.
Proof.
  intros L. unfold atom_at, labelled, crystal_atom. split.
  - intros (k & p & s & P & Z & V). apply label_nth in Z as [K ->]. exists k, p, s. auto.
  - intros (k & p & s & -> & P & V). exists k, p, s. split; [exact P|]. split; [|exact V]. apply label_nth. split; [|reflexivity].
    rewrite <- L. apply nth_error_Some. congruence.
Qed.

Section Shape.
Variables (lat : mat Qc) (pos : list (vec Qc)) (n : nat) (lat' : mat Qc) (pos' : list (vec Qc)) (idx : list Z).
Hypothesis LP : length pos = n.
Hypothesis ST : standardized (labelled lat pos n) (lat', pos', idx).

Lemma idx_label z : In z idx -> exists k, k < n /\ z = Z.of_nat k.
Proof.
  intros I. destruct ST as (_ & L & (q & t & _ & M) & _). apply In_nth_error in I as (i & I).
  destruct (nth_error pos' i) as [p|] eqn:P; [|apply nth_error_None in P; assert (i < length idx) by (apply nth_error_Some; congruence); lia].
  pose proof (atom_here lat' P I) as A. apply M in A. apply label_atom in A as (k & p' & s & -> & P' & _); [|exact LP].
  exists k. split; [|reflexivity]. rewrite <- LP. apply nth_error_Some. congruence.
Qed.
Lemma label_idx k : k < n -> In (Z.of_nat k) idx.
Proof.
  intros K. destruct ST as (_ & L & (q & t & (_ & O) & M) & _).
  destruct (nth_error pos k) as [p|] eqn:P; [|apply nth_error_None in P; lia].
  set (v := vec_mat (vsub (vec_mat p lat) t) (flip q)).
  assert (A : atom_at (lat', pos', idx) (Z.of_nat k) v).
  { apply M. unfold v. rewrite vec_mat_mul, O, vec_mat_one, vadd_sub. unfold atom_at, labelled. apply (@atom_here lat pos _ k p); [exact P|].
    apply label_nth. auto. }
  destruct A as (i & p' & s & _ & I & _). eapply nth_error_In; eauto.
Qed.
Lemma idx_NoDup : NoDup idx.
Proof.
  destruct ST as (_ & L & (q & t & O & M) & SM & DS).
  apply NoDup_nth_error. intros i j Hi E.
  destruct (nth_error idx i) as [z|] eqn:I; [|apply nth_error_Some in Hi; congruence]. symmetry in E.
  assert (Hj : j < length idx) by (apply nth_error_Some; congruence).
  destruct (nth_error pos' i) as [p|] eqn:P; [|apply nth_error_None in P; lia].
  destruct (nth_error pos' j) as [p'|] eqn:P'; [|apply nth_error_None in P'; lia].
  pose proof (atom_here lat' P I) as A. pose proof (atom_here lat' P' E) as B.
  apply M in A. apply M in B. apply label_atom in A as (k & r & s & -> & R & A); [|exact LP].
  apply label_atom in B as (k' & r' & s' & EK & R' & B); [|exact LP]. apply Nat2Z.inj in EK. subst k'.
  assert (r' = r) by congruence. subst r'.
  set (d := vsub (vec_mat p lat') (vec_mat p' lat')).
  assert (D : vec_mat d q = vec_mat (vecZ (zvsub s s')) lat).
  { unfold d. rewrite vec_mat_vsub, (vsub_two _ _ t), A, B, <- vec_mat_vsub, vecZ_sub. f_equal.
    apply vsub_common. }
  destruct (SM d) as (u & U).
  { intros z v H. apply M in H. apply M. rewrite vec_mat_add, D, vadd_swap.
    apply label_atom in H as (m & w & x & -> & W & ->); [|exact LP]. apply label_atom; [exact LP|].
    exists m, w, (zvadd x (zvsub s s')). split; [reflexivity|]. split; [exact W|]. rewrite <- vec_mat_add, vecZ_add, vadd_assoc. reflexivity. }
  cbn [fst] in U. apply (DS i j p p' u P P'). rewrite vec_mat_add, <- U. unfold d.
  symmetry. apply vadd_diff.
Qed.
Lemma idx_perm : Permutation idx (map Z.of_nat (seq 0 n)).
Proof.
  apply NoDup_Permutation; [exact idx_NoDup| |].
  - apply FinFun.Injective_map_NoDup; [intros a b; apply Nat2Z.inj|apply seq_NoDup].
  - intros z. split.
    + intros I. destruct (idx_label I) as (k & K & ->). apply in_map_iff. exists k. split; [reflexivity|]. apply in_seq. lia.
    + intros I. apply in_map_iff in I as (k & <- & K). apply in_seq in K. apply label_idx. lia.
Qed.
Lemma same_lattice q t : orthogonal q -> (forall z v, atom_at (lat', pos', idx) z v <-> atom_at (labelled lat pos n) z (vadd (vec_mat v q) t)) ->
  forall w, lattice_vector (lat', pos', idx) w <-> lattice_vector (labelled lat pos n) (vec_mat w q).
Proof.
  intros O M w. destruct ST as (NE & L & _ & SM & _). split.
  - intros (s & ->). cbn [fst]. destruct pos' as [|p ps] eqn:EP; [congruence|]. destruct idx as [|z zs] eqn:EZ; [discriminate|].
    assert (A : atom_at (lat', p :: ps, z :: zs) z (vec_mat p lat')) by (apply (@atom_here lat' (p :: ps) (z :: zs) 0); reflexivity).
    assert (B : atom_at (lat', p :: ps, z :: zs) z (vec_mat (vadd p (vecZ s)) lat')) by (exists 0, p, s; auto).
    apply M in A. apply M in B. apply label_atom in A as (k & r & x & -> & R & A); [|exact LP].
    apply label_atom in B as (k' & r' & x' & EK & R' & B); [|exact LP]. apply Nat2Z.inj in EK. subst k'. assert (r' = r) by congruence. subst r'.
    exists (zvsub x' x). cbn [labelled fst]. rewrite vecZ_sub, <- (vsub_common _ _ r), vec_mat_vsub, <- B, <- A, vec_mat_add, vec_mat_add.
    rewrite <- vsub_two. symmetry. apply vsub_front.
  - intros (s & E). cbn [labelled fst] in E. apply SM. intros z v H. apply M in H. apply M. rewrite vec_mat_add, E, vadd_swap.
    apply label_atom in H as (m & u & x & -> & U & ->); [|exact LP]. apply label_atom; [exact LP|].
    exists m, u, (zvadd x s). split; [reflexivity|]. split; [exact U|]. rewrite <- vec_mat_add, vecZ_add, vadd_assoc. reflexivity.
Qed.
End Shape.

Lemma crystal_perm lat pos nums pos' nums' z v : length pos = length nums -> length pos' = length nums' ->
  Permutation (combine pos nums) (combine pos' nums') -> crystal_atom lat pos nums z v <-> crystal_atom lat pos' nums' z v.
Proof.
  intros L L' P. rewrite !crystal_combine by assumption. split; intros (p & s & I & V); exists p, s; (split; [|exact V]).
  - exact (Permutation_in _ P I).
  - exact (Permutation_in _ (Permutation_sym P) I).
Qed.
Lemma new_cell lat pos nums : pos <> [] -> length pos = length nums -> exists g, GeneralCell_new lat pos nums = Ok g /\ lattice g = lat /\
  length (positions g) = length (numbers g) /\ length (positions g) = length pos /\ Permutation (combine (positions g) (numbers g)) (combine pos nums).
Proof.
  intros N L. destruct (GeneralCell_new lat pos nums) as [g|e] eqn:E.
  - exists g. pose proof (C08_pairs _ _ _ L E) as P. rewrite GeneralCell_new_ok in E by (auto; lia). injection E as <-. cbn in *.
    rewrite !sortp_length, !sortn_length in *. auto.
  - rewrite GeneralCell_new_ok in E by (auto; lia). discriminate.
Qed.

Lemma smallest_perm lat pos nums pos' nums' : (forall z v, crystal_atom lat pos nums z v <-> crystal_atom lat pos' nums' z v) ->
  smallest (lat, pos, nums) -> smallest (lat, pos', nums').
Proof. intros H S t K. apply S. intros z v A. apply H. apply K. apply H. exact A. Qed.
Lemma motion_eq c d d' : (forall z v, atom_at d z v <-> atom_at d' z v) -> same_up_to_motion c d -> same_up_to_motion c d'.
Proof. intros H (q & t & O & M). exists q, t. split; [exact O|]. intros z v. rewrite <- H. apply M. Qed.

Lemma refined_spec std c : standardized (cell_of c) (std (cell_of c)) ->
  exists g, get_refined_pcell std c = Ok g /\ same_up_to_motion (cell_of c) (cell_of g) /\ smallest (cell_of g) /\ length (positions g) = length (numbers g).
Proof.
  unfold get_refined_pcell. change (lattice c, positions c, numbers c) with (cell_of c).
  destruct (std (cell_of c)) as [[lat pos] nums]. intros (N & L & M & S & _).
  destruct (new_cell lat N L) as (g & E & LG & LN & LL & P). exists g. split; [exact E|].
  assert (CA : forall z v, crystal_atom lat pos nums z v <-> crystal_atom lat (positions g) (numbers g) z v)
    by (intros; apply crystal_perm; [exact L|exact LN|apply Permutation_sym, P]).
  unfold cell_of. rewrite LG. split; [eapply motion_eq; [|exact M]; exact CA|]. split; [eapply smallest_perm; eauto|exact LN].
Qed.

Lemma shaped_spec std c : length (positions c) = length (numbers c) ->
  standardized (labelled (lattice c) (positions c) (length (positions c))) (std (labelled (lattice c) (positions c) (length (positions c)))) ->
  exists g, get_shaped_cell std c = Ok g /\ same_cell_up_to_motion (cell_of c) (cell_of g) /\
    length (positions g) = length (positions c) /\ Permutation (numbers g) (numbers c).
Proof.
  intros L. unfold get_shaped_cell. rewrite <- L. set (n := length (positions c)).
  change (lattice c, positions c, map Z.of_nat (range n)) with (labelled (lattice c) (positions c) n).
  destruct (std (labelled (lattice c) (positions c) n)) as [[lat pos] idx]. intros ST.
  pose proof (@idx_perm (lattice c) (positions c) n lat pos idx eq_refl ST) as IP.
  pose proof (@idx_label (lattice c) (positions c) n lat pos idx eq_refl ST) as IL.
  pose proof (@same_lattice (lattice c) (positions c) n lat pos idx eq_refl ST) as SL.
  destruct ST as (N & LI & (q & t & O & M) & _).
  set (nm := fun z => nth (Z.to_nat z) (numbers c) 0%Z).
  assert (MM : mapM (fun i => py_get (numbers c) i) idx = Ok (map nm idx)).
  { apply mapM_ok_map. intros z I. destruct (IL z I) as (k & K & ->). unfold nm. rewrite Nat2Z.id.
    rewrite (@py_get_denotes _ (numbers c) (Z.of_nat k) k); [apply get_nth_nth; lia|]. split; [lia|auto]. }
  rewrite MM. cbn [bind]. assert (LM : length pos = length (map nm idx)) by (rewrite map_length; exact LI).
  destruct (new_cell lat N LM) as (g & E & LG & LN & LL & P). exists g. split; [exact E|].
  assert (CA : forall z v, crystal_atom lat pos (map nm idx) z v <-> crystal_atom lat (positions g) (numbers g) z v)
    by (intros; apply crystal_perm; [exact LM|exact LN|apply Permutation_sym, P]).
  assert (PI : Permutation (numbers g) (numbers c)).
  { transitivity (map nm idx).
    - rewrite <- (map_snd_combine _ _ LN), <- (map_snd_combine _ _ LM). apply Permutation_map. exact P.
    - rewrite IP, map_map. apply Permutation_refl'. etransitivity; [|exact (map_nth_seq (numbers c) 0%Z)]. rewrite <- L. apply map_ext. intros k. unfold nm. now rewrite Nat2Z.id. }
  split; [|split; [|exact PI]].
  - unfold cell_of. rewrite LG. exists q, t. split; [exact O|]. split; [|exact (SL q t O M)]. intros z v. cbn [atom_at]. rewrite <- CA. split.
    + intros (i & p & s & P1 & Z1 & V). rewrite nth_error_map in Z1. destruct (nth_error idx i) as [y|] eqn:Y; [|discriminate]. injection Z1 as <-.
      assert (A : atom_at (lat, pos, idx) y v) by (exists i, p, s; auto). apply M in A.
      apply label_atom in A as (k & p' & s' & -> & P' & V'); [|reflexivity]. exists k, p', s'. split; [exact P'|]. split; [|exact V'].
      unfold nm. rewrite Nat2Z.id. apply nth_error_nth'. rewrite <- L. apply nth_error_Some. congruence.
    + intros (k & p & s & P1 & Z1 & V).
      assert (A : atom_at (labelled (lattice c) (positions c) n) (Z.of_nat k) (vadd (vec_mat v q) t)) by (apply label_atom; [reflexivity|]; exists k, p, s; auto).
      apply M in A. destruct A as (i & p' & s' & P' & Y & V'). exists i, p', s'. split; [exact P'|]. split; [|exact V'].
      rewrite nth_error_map, Y. cbn. unfold nm. rewrite Nat2Z.id. f_equal. apply nth_error_nth. exact Z1.
  - apply Permutation_length in PI. unfold n. lia.
Qed.

(** Cells whose atoms all have different numbers have the smallest lattice. *)
Lemma nodup_smallest lat pos nums : length pos = length nums -> pos <> [] -> NoDup nums -> smallest (lat, pos, nums).
Proof.
  intros L N D t K. destruct pos as [|p0 pos]; [congruence|]. destruct nums as [|z0 nums]; [discriminate|].
  assert (A : atom_at (lat, p0 :: pos, z0 :: nums) z0 (vec_mat p0 lat)) by (apply (@atom_here lat (p0 :: pos) (z0 :: nums) 0); reflexivity).
  apply K in A. destruct A as (k & p & s & P & E & V). destruct k as [|k].
  - injection P as <-. exists s. cbn [fst]. rewrite vec_mat_add in V. rewrite <- (vsub_add t (vec_mat p0 lat)). rewrite (vadd_comm' t), V. apply vsub_front.
  - exfalso. inversion D; subst. apply H1. eapply nth_error_In. exact E.
Qed.
(** The contract is met: rotate the axes, shift the origin, reorder the atoms. *)
Definition moved (q : mat Qc) (tau : vec Qc) (c : cell3) : cell3 :=
  let '(lat, pos, nums) := c in (mat_mul lat (flip q), map (fun p => vsub p tau) (rev pos), rev nums).
Lemma nth_error_rev A (l : list A) i : i < length l -> nth_error (rev l) i = nth_error l (length l - S i).
Proof.
  intros H. destruct (nth_error l (length l - S i)) as [x|] eqn:E; [|apply nth_error_None in E; lia].
  rewrite (nth_error_nth' _ x) by (rewrite rev_length; exact H). rewrite rev_nth by exact H. now rewrite (nth_error_nth _ _ _ E).
Qed.
Lemma nth_error_rev' A (l : list A) i x : nth_error l i = Some x -> nth_error (rev l) (length l - S i) = Some x.
Proof.
  intros H. assert (K : i < length l) by (apply nth_error_Some; congruence). rewrite nth_error_rev by lia.
  now replace (length l - S (length l - S i)) with i by lia.
Qed.
Lemma cart_back p s lat q : orthogonal q -> vec_mat (vec_mat (vadd p s) (mat_mul lat (flip q))) q = vec_mat (vadd p s) lat.
Proof. intros [_ O]. rewrite <- vec_mat_mul, (vec_mat_mul _ (flip q) q), O, vec_mat_one. reflexivity. Qed.
Lemma vadd_back p s tau : vadd (vadd (vsub p tau) s) tau = vadd p s.
Proof. qm. Qed.
Lemma moved_standard q tau lat pos nums : orthogonal q -> length pos = length nums -> pos <> [] -> NoDup nums -> distinct_sites lat pos ->
  standardized (lat, pos, nums) (moved q tau (lat, pos, nums)).
Proof.
  intros O L N D DS. unfold standardized, moved.
  assert (N' : map (fun p => vsub p tau) (rev pos) <> []). { intros E. apply map_eq_nil in E. destruct pos as [|p0 pos]; [congruence|]. cbn in E. destruct (rev pos); discriminate. }
  assert (L' : length (map (fun p => vsub p tau) (rev pos)) = length (rev nums)) by (rewrite map_length, !rev_length; exact L).
  split; [exact N'|]. split; [exact L'|]. split; [|split].
  - exists q, (vec_mat tau lat). split; [exact O|]. intros z v. unfold atom_at. split.
    + intros (i & p & s & P & Z & ->). rewrite nth_error_map in P. destruct (nth_error (rev pos) i) as [p1|] eqn:E; [|discriminate]. injection P as <-.
      apply nth_error_rev' in E. apply nth_error_rev' in Z. rewrite rev_involutive in E, Z. rewrite rev_length in E, Z. rewrite <- L in Z.
      exists (length pos - S i), p1, s. split; [exact E|]. split; [exact Z|]. rewrite (cart_back _ _ _ O), <- vec_mat_add, vadd_back. reflexivity.
    + intros (i & p & s & P & Z & V). exists (length pos - S i), (vsub p tau), s.
      apply nth_error_rev' in P. apply nth_error_rev' in Z. split; [rewrite nth_error_map, P; reflexivity|]. split; [rewrite L; exact Z|].
      assert (K : vec_mat v q = vec_mat (vadd (vsub p tau) (vecZ s)) lat).
      { rewrite <- (vsub_add (vec_mat v q) (vec_mat tau lat)), V, <- (vadd_back p (vecZ s) tau), (vec_mat_add (vadd _ _)). apply vsub_add. }
      rewrite <- vec_mat_mul, <- K, vec_mat_mul. destruct O as [O _]. rewrite O, vec_mat_one. reflexivity.
  - apply nodup_smallest; [exact L'|exact N'|]. apply NoDup_rev. exact D.
  - intros i j p p' s P P' E. rewrite nth_error_map in P, P'. destruct (nth_error (rev pos) i) as [p1|] eqn:E1; [|discriminate].
    destruct (nth_error (rev pos) j) as [p2|] eqn:E2; [|discriminate]. injection P as <-. injection P' as <-.
    assert (I1 : i < length pos) by (rewrite <- (rev_length pos); apply nth_error_Some; congruence).
    assert (I2 : j < length pos) by (rewrite <- (rev_length pos); apply nth_error_Some; congruence).
    apply nth_error_rev' in E1. apply nth_error_rev' in E2. rewrite rev_involutive, rev_length in E1, E2.
    assert (K : length pos - S i = length pos - S j); [|lia]. apply (DS _ _ _ _ s E1 E2).
    apply (f_equal (fun v => vec_mat v q)) in E. rewrite (cart_back _ _ _ O) in E.
    assert (E0 : vsub p1 tau = vadd (vsub p1 tau) v0) by (unfold v0; clear; qm). rewrite E0, (cart_back _ _ _ O), <- E0 in E.
    rewrite <- (vadd_sub p1 tau), vec_mat_add, E, <- vec_mat_add, vadd_back. reflexivity.
Qed.
