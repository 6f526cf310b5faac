(** Every derivative structure is a decoration of the representative of its superlattice. *)
From Verif Require Import Base LBase BaseQ LQ SLattice SGeneralCell LGeneralCell MGeneralCell SSym LSym SSubst SModCell SShape MHnf LMat3 LHnf LSuper LSuper2 LFrac LCrystal
  LGrid LModCell4 LShape LShape2 SBurn LBurn SDeriv LDeriv.
Set Implicit Arguments.
Unset Strict Implicit.
Open Scope nat_scope.

Lemma exact_distinct L pos : volume L <> 0%Qc -> SSym.distinct_sites pos -> SShape.distinct_sites L pos.
Proof.
  intros V D i j p p' s Hi Hj EQ. apply distinct_keys in D. destruct (inv_spec V) as (k & _ & _ & K).
  apply (f_equal (fun v => vec_mat v k)) in EQ. rewrite !K in EQ. apply (distinct_pos D Hi Hj).
  subst p. assert (IS : int_shift p' (vadd p' (vecZ s))) by (apply int_shift_vec; eauto).
  now apply tofrac_shift.
Qed.

Lemma finite_choice A B (R : A -> B -> Prop) l : (forall a, In a l -> exists b, R a b) -> exists x, Forall2 R l x.
Proof.
  induction l as [|a l IH]; intros H; [exists []; constructor|].
  destruct (H a) as (b & Hb); [now left|]. destruct IH as (x & Hx); [intros; apply H; now right|]. exists (b :: x). now constructor.
Qed.
Lemma Forall2_nth A B (R : A -> B -> Prop) l x : Forall2 R l x -> forall i a b, nth_error l i = Some a -> nth_error x i = Some b -> R a b.
Proof. induction 1; intros [|i] u v; cbn; try discriminate; [intros [= <-] [= <-]; assumption|eauto]. Qed.
Lemma nth_pair A B (l : list A) (x : list B) i a : length x = length l -> nth_error l i = Some a -> exists b, nth_error x i = Some b.
Proof. intros L E. destruct (nth_error x i) eqn:F; [eauto|]. apply nth_error_None in F. assert (i < length l) by (apply nth_error_Some; congruence). lia. Qed.

(** the places where [v] was substituted *)
Definition diffs (init x : list Z) (v : Z) : list nat :=
  filter (fun i => Z.eqb (nth i x 0%Z) v && negb (Z.eqb (nth i init 0%Z) v)) (seq 0 (length init)).
Lemma diffs_In init x v i : length x = length init ->
  In i (diffs init x v) <-> exists a, nth_error init i = Some a /\ nth_error x i = Some v /\ a <> v.
Proof.
  intros L. unfold diffs. rewrite filter_In, in_seq, andb_true_iff, negb_true_iff, Z.eqb_neq, Z.eqb_eq. split.
  - intros [[_ H] [E N]]. exists (nth i init 0%Z). split; [apply nth_error_nth'; lia|]. split; [rewrite <- E; apply nth_error_nth'; lia|exact N].
  - intros (a & A & B & N). assert (i < length init) by (apply nth_error_Some; congruence). split; [lia|].
    rewrite (nth_error_nth _ _ _ A), (nth_error_nth _ _ _ B). auto.
Qed.
Lemma diffs_NoDup init x v : NoDup (diffs init x v).
Proof. apply NoDup_filter, seq_NoDup. Qed.
Lemma diffs_fold init x v (P : nat -> Prop) : length x = length init ->
  (forall i a b, nth_error init i = Some a -> nth_error x i = Some b -> b = v \/ b = a) ->
  (forall i, In i (diffs init x v) -> P i) ->
  k_fold init P (length (diffs init x v)) v x.
Proof.
  intros L H HP. exists (diffs init x v). split.
  - split; [apply diffs_NoDup|]. split; [reflexivity|exact HP].
  - split; [exact L|]. intros i a A. destruct (nth_pair (x := x) L A) as (b & B). split.
    + intros I. apply (diffs_In v i L) in I as (a' & A' & B' & N). exact B'.
    + intros I. destruct (H i a b A B) as [-> | ->]; [|exact B]. destruct (Z.eq_dec a v) as [->|N]; [exact B|]. exfalso. apply I. apply (diffs_In v i L). eauto.
Qed.
Lemma diffs_any init x v i : length x = length init -> In i (diffs init x v) -> any_site init i.
Proof. intros L I. apply (diffs_In v i L) in I as (a & A & _). unfold any_site. apply nth_error_Some. congruence. Qed.
Lemma diffs_two init x v1 v2 : length x = length init -> v1 <> v2 ->
  (forall i a b, nth_error init i = Some a -> nth_error x i = Some b -> In b [v1; v2] \/ b = a) ->
  two_fold init (length (diffs init x v1)) v1 (length (diffs init x v2)) v2 x.
Proof.
  intros L N12 H. exists (diffs init x v1), (diffs init x v2).
  split; [split; [apply diffs_NoDup|split; [reflexivity|intros i; now apply diffs_any]]|].
  split; [split; [apply diffs_NoDup|split; [reflexivity|intros i; now apply diffs_any]]|].
  split; [|split; [exact L|]].
  - intros i I J. apply (diffs_In v1 i L) in I as (a & _ & B & _). apply (diffs_In v2 i L) in J as (a' & _ & B' & _). congruence.
  - intros i a A. destruct (nth_pair (x := x) L A) as (b & B).
    split; [intros I; now apply (diffs_In v1 i L) in I as (a' & _ & ? & _)|]. split; [intros I; now apply (diffs_In v2 i L) in I as (a' & _ & ? & _)|].
    intros I1 I2. destruct (H i a b A B) as [[<-|[<-|[]]] | ->]; [| |exact B].
    + destruct (Z.eq_dec a v1) as [->|N]; [exact B|]. exfalso. apply I1. apply (diffs_In v1 i L). eauto.
    + destruct (Z.eq_dec a v2) as [->|N]; [exact B|]. exfalso. apply I2. apply (diffs_In v2 i L). eauto.
Qed.

Lemma cell_period h L p s : vec_mat (vadd p (vecZ s)) (mat_mul (matZ h) L) = vadd (vec_mat p (mat_mul (matZ h) L)) (period L h s).
Proof. rewrite vec_mat_add. unfold period. now rewrite vecZ_comb, vec_mat_mul. Qed.
Lemma period_sub L h s s' : period L h (zvsub s s') = vsub (period L h s) (period L h s').
Proof. unfold period. now rewrite zcomb_sub, vecZ_sub, vec_mat_vsub. Qed.
Lemma period_0 L m : period L m (V3 0 0 0)%Z = v0.
Proof.
  unfold period, zcomb, zvadd, zvscale, vecZ, vmap. cbn [vx vy vz Z.mul Z.add]. change (Zc 0) with 0%Qc. destruct L as [[? ? ?] [? ? ?] [? ? ?]].
  unfold v0, vec_mat, vadd, vscale. cbn. f_equal; ring.
Qed.
Lemma vadd_0 a : vadd a v0 = a.
Proof. destruct a. unfold v0, vadd. cbn. f_equal; ring. Qed.
Lemma vadd_vsub_chain a b c : vadd (vadd a b) (vsub c b) = vadd a c.
Proof. qm. Qed.

Lemma unique_species L pos nums z z' v : volume L <> 0%Qc -> SShape.distinct_sites L pos ->
  crystal_atom L pos nums z v -> crystal_atom L pos nums z' v -> z = z'.
Proof.
  intros V D (i & p & s & P & Z & ->) (j & p' & s' & P' & Z' & EQ).
  assert (i = j) as ->; [|congruence]. apply (D i j p p' (zvsub s' s) P P').
  rewrite vecZ_sub. apply (f_equal (fun x => vsub x (vec_mat (vecZ s) L))) in EQ. rewrite <- !vec_mat_vsub in EQ. rewrite vsub_add in EQ.
  rewrite EQ. f_equal. generalize (vecZ s) (vecZ s'). clear. qm.
Qed.

Section Main.
Context (u c : gcell) (ops : list (mat Z * vec Qc)) (o : mat Z * vec Qc) (m h : mat Z) (news : list Z) (C : crystal).
Hypothesis Lu : length (numbers u) = length (positions u).
Hypothesis VO : volume (lattice u) <> 0%Qc.
Hypothesis SU : symmetries_of ops u.
Hypothesis Ho : In o ops.
Hypothesis RC : rot_carries (fst o) m h.
Hypothesis Nh : zdet h <> 0%Z.
Hypothesis LC : lattice c = mat_mul (matZ h) (lattice u).
Hypothesis Lc : length (numbers c) = length (positions c).
Hypothesis Dc : SSym.distinct_sites (positions c).
Hypothesis CR : forall z v, crystal_atom (lattice c) (positions c) (numbers c) z v <-> crystal_atom (lattice u) (positions u) (numbers u) z v.
Hypothesis D : derivative (cell_of u) m news C.
Context (q : mat Qc) (w : vec Qc).
Hypothesis OQ : orthogonal q.
Hypothesis EQ : forall p, vec_mat (op_image (fst o) (snd o) p) (lattice u) = move q w (vec_mat p (lattice u)).
Notation L := (lattice u).
Notation parent := (crystal_atom (lattice u) (positions u) (numbers u)).
Notation F := (move q w).
Notation B := (unmove q w).

Lemma volc : volume (lattice c) <> 0%Qc.
Proof. rewrite LC. now apply volume_supercell. Qed.
Lemma parent_unique z z' v : parent z v -> parent z' v -> z = z'.
Proof. apply unique_species; [exact VO|]. apply exact_distinct; [exact VO|]. apply SU. Qed.
Lemma parent_moved z v : parent z v <-> parent z (F v).
Proof.
  destruct SU as (ND & X & SP & _). apply distinct_keys in ND.
  apply (op_crystal ND X Ho OQ EQ (x := numbers u) (y := numbers u) Lu Lu).
  intros i j p p' P P' K. apply (SP o i j p p' Ho P P'). now apply carries_exactly_carries.
Qed.
Lemma parent_back z v : parent z (B v) <-> parent z v.
Proof. rewrite parent_moved, move_unmove by exact OQ. reflexivity. Qed.

Definition C1 (z : Z) (v : vec Qc) : Prop := C z (B v).
Lemma C1_moved z v : C z v <-> C1 z (F v).
Proof. unfold C1. now rewrite unmove_move. Qed.
Lemma C1_sites v : (exists z, C1 z v) <-> exists z, parent z v.
Proof.
  unfold C1. rewrite (d_sites D). split; intros (z & H); exists z.
  - now apply parent_back.
  - now apply parent_back.
Qed.
Lemma C1_one v z z' : C1 z v -> C1 z' v -> z = z'.
Proof. apply (d_one D). Qed.
Lemma C1_species v z : C1 z v -> In z news \/ parent z v.
Proof. intros H. destruct (d_species D H) as [H'|H']; [now left|right]. now apply parent_back. Qed.

Lemma B_lattice v s : B (vadd v (vec_mat (vecZ (zrot (fst o) s)) L)) = vadd (B v) (vec_mat (vecZ s) L).
Proof.
  rewrite <- (unmove_move w (vadd (B v) _) OQ). f_equal. rewrite (move_lattice EQ), move_unmove by exact OQ. reflexivity.
Qed.
Lemma back_period k : exists k', forall v, B (vadd v (period L h k)) = vadd (B v) (period L m k').
Proof.
  destruct RC as [_ RB]. destruct (RB (zcomb k h)) as (s & (k' & ->) & E); [now exists k|]. exists k'. intros v.
  unfold period. rewrite E. apply B_lattice.
Qed.
Lemma forth_period k : exists k', forall v, F (vadd v (period L m k)) = vadd (F v) (period L h k').
Proof.
  destruct RC as [RB _]. destruct (RB (zcomb k m)) as (k' & E); [now exists k|]. exists k'. intros v.
  unfold period. rewrite <- E. apply (move_lattice EQ).
Qed.
Lemma C1_period k z v : C1 z v -> C1 z (vadd v (period L h k)).
Proof. unfold C1. intros H. destruct (back_period k) as (k' & E). rewrite E. exact (d_period D k' H). Qed.

Lemma species_list : exists x, length x = length (positions c) /\
  (forall i p z, nth_error (positions c) i = Some p -> nth_error x i = Some z -> C1 z (vec_mat p (lattice c))).
Proof.
  destruct (@finite_choice _ _ (fun p z => C1 z (vec_mat p (lattice c))) (positions c)) as (x & Hx).
  - intros p I. apply In_nth_error in I as (i & I). destruct (nth_pair (x := numbers c) Lc I) as (z & Z).
    apply C1_sites. exists z. apply CR. now apply atom_here with i.
  - exists x. split; [symmetry; exact (Forall2_len Hx)|]. intros i p z. apply (Forall2_nth Hx).
Qed.

Context (x : list Z).
Hypothesis Lx : length x = length (positions c).
Hypothesis Hx : forall i p z, nth_error (positions c) i = Some p -> nth_error x i = Some z -> C1 z (vec_mat p (lattice c)).

Lemma at_cell v z : parent z v -> exists i p s, nth_error (positions c) i = Some p /\ nth_error (numbers c) i = Some z /\
  v = vadd (vec_mat p (lattice c)) (period L h s).
Proof.
  intros H. apply CR in H. destruct H as (i & p & s & P & Z & ->). exists i, p, s. rewrite LC, cell_period. auto.
Qed.

Lemma x_crystal z v : crystal_atom (lattice c) (positions c) x z v <-> C1 z v.
Proof.
  split.
  - intros (i & p & s & P & Z & ->). rewrite LC, cell_period, <- LC. apply C1_period. now apply Hx with i.
  - intros H. destruct (proj1 (C1_sites v)) as (z0 & Z0); [eauto|]. destruct (at_cell Z0) as (i & p & s & P & _ & E).
    destruct (nth_pair (x := x) Lx P) as (z1 & Z1). exists i, p, s. split; [exact P|]. split; [|rewrite LC, cell_period, <- LC; exact E].
    assert (z1 = z) as <-; [|exact Z1]. apply (@C1_one v); [|exact H]. rewrite E. apply C1_period. now apply Hx with i.
Qed.

Lemma x_species i a b : nth_error (numbers c) i = Some a -> nth_error x i = Some b -> In b news \/ b = a.
Proof.
  intros A Bb. destruct (nth_pair (x := positions c) (eq_sym Lx) Bb) as (p & P). destruct (C1_species (Hx P Bb)) as [H|H]; [now left|right].
  apply (parent_unique H). apply CR. now apply atom_here with i.
Qed.

Lemma diff_replaced sp i p : nth_error (positions c) i = Some p ->
  In i (diffs (numbers c) x sp) <-> C1 sp (vec_mat p (lattice c)) /\ ~ parent sp (vec_mat p (lattice c)).
Proof.
  intros P. rewrite diffs_In by congruence. destruct (nth_pair (x := numbers c) Lc P) as (a & A). destruct (nth_pair (x := x) Lx P) as (b & Bb).
  assert (PA : parent a (vec_mat p (lattice c))) by (apply CR; now apply atom_here with i). split.
  - intros (a' & A' & B' & N). assert (a' = a) by congruence. subst.
    split; [now apply Hx with i|]. intros H. apply N. apply (parent_unique PA H).
  - intros [H N]. exists a. split; [exact A|]. assert (b = sp) as -> by (apply (C1_one (Hx P Bb) H)). split; [exact Bb|]. intros ->. contradiction.
Qed.

Lemma replaced_moved sp a : replaced (cell_of u) sp C a <-> C1 sp (F a) /\ ~ parent sp (F a).
Proof. unfold replaced. rewrite C1_moved. cbn. rewrite (parent_moved sp a). reflexivity. Qed.

Lemma period_moved sp k v : C1 sp v /\ ~ parent sp v -> C1 sp (vadd v (period L h k)) /\ ~ parent sp (vadd v (period L h k)).
Proof.
  intros [H N]. split; [now apply C1_period|]. intros H'. apply N. apply CR in H'. apply CR.
  destruct H' as (i & p & s & P & Z & E). exists i, p, (zvsub s k). split; [exact P|]. split; [exact Z|].
  rewrite LC, cell_period, period_sub. rewrite LC, cell_period in E.
  apply (f_equal (fun v => vsub v (period L h k))) in E. rewrite vsub_add in E. rewrite E.
  generalize (vec_mat p (mat_mul (matZ h) L)) (period L h s) (period L h k). clear. qm.
Qed.

Lemma same_count sp subs : replaced_per_period (cell_of u) m sp C subs -> length (diffs (numbers c) x sp) = length subs.
Proof.
  intros PP. destruct PP as (P1 & P2 & P3). rewrite Forall_forall in P1. cbn [cell_of fst] in P2, P3.
  assert (ZP := period_0 L). assert (VZ := vadd_0).
  set (R := fun (a : vec Qc) i => exists p s, nth_error (positions c) i = Some p /\ F a = vadd (vec_mat p (lattice c)) (period L h s)).
  assert (ND : NoDup subs).
  { clear P1 P2. revert P3. clear. intros P3. induction P3 as [|a l Ha P3 IH]; [constructor|]. constructor; [|exact IH]. intros I. rewrite Forall_forall in Ha.
    apply (Ha a I (V3 0 0 0)%Z). now rewrite period_0, vadd_0. }
  apply Nat.le_antisymm.
  - apply (rel_le (R := fun i a => R a i)); [apply NoDup_filter, seq_NoDup| |].
    + intros i I. pose proof I as I'. apply diffs_In in I' as (a & A & _ & _); [|congruence].
      destruct (nth_pair (x := positions c) (eq_sym Lc) A) as (p & P). apply (diff_replaced sp P) in I.
      set (v := vec_mat p (lattice c)) in *. rewrite <- (move_unmove w v OQ) in I. apply replaced_moved in I.
      destruct (P2 _ I) as (a0 & k & Ia & E). exists a0. split; [exact Ia|]. exists p.
      destruct (forth_period k) as (k' & K). assert (E' : v = vadd (F a0) (period L h k')).
      { rewrite <- K, <- E. symmetry. now apply move_unmove. }
      exists (zvsub (V3 0 0 0) k')%Z. split; [exact P|]. fold v. rewrite E', period_sub, ZP, vadd_vsub_chain, VZ. reflexivity.
    + intros i j a _ _ (p & s & P & E) (p' & s' & P' & E').
      apply (exact_distinct volc Dc (s := zvsub s' s) P P'). rewrite LC, cell_period, period_sub, <- LC.
      rewrite E in E'. apply (f_equal (fun v => vsub v (period L h s))) in E'. rewrite vsub_add in E'. rewrite E'.
      generalize (vec_mat p' (lattice c)) (period L h s) (period L h s'). clear. qm.
  - apply (rel_le (R := R)); [exact ND| |].
    + intros a Ia. pose proof (proj1 (replaced_moved sp a) (P1 a Ia)) as H.
      destruct (proj1 (C1_sites (F a))) as (z0 & Z0); [exists sp; apply H|]. destruct (at_cell Z0) as (i & p & s & P & _ & E).
      exists i. split; [|exists p, s; auto]. apply (diff_replaced sp P).
      assert (E' : vec_mat p (lattice c) = vadd (F a) (period L h (zvsub (V3 0 0 0) s)%Z)).
      { rewrite E, period_sub, ZP, vadd_vsub_chain, VZ. reflexivity. }
      rewrite E'. now apply period_moved.
    + intros a b i Ia Ib (p & s & P & E) (p' & s' & P' & E'). assert (p' = p) by congruence. subst p'.
      assert (K : F a = vadd (F b) (period L h (zvsub s s'))).
      { rewrite E, E', period_sub, vadd_vsub_chain. reflexivity. }
      destruct (back_period (zvsub s s')) as (k & Bk). apply (f_equal B) in K. rewrite Bk, !unmove_move in K by exact OQ.
      destruct (ForallOrdPairs_In P3 _ _ Ia Ib) as [?|[H|H]]; [assumption| |].
      * exfalso. apply (H (zvsub (V3 0 0 0) k)%Z). rewrite K, period_sub, ZP, vadd_vsub_chain, VZ. reflexivity.
      * exfalso. apply (H k). exact K.
Qed.

(** Nothing but atoms of [ele] was replaced. *)
Lemma same_element sp ele : (forall v, replaced (cell_of u) sp C v -> parent ele v) ->
  forall i, In i (diffs (numbers c) x sp) -> site_holds (numbers c) ele i.
Proof.
  intros HE i I. pose proof I as I'. apply diffs_In in I' as (a & A & _ & _); [|congruence].
  destruct (nth_pair (x := positions c) (eq_sym Lc) A) as (p & P). apply (diff_replaced sp P) in I.
  set (v := vec_mat p (lattice c)) in *. rewrite <- (move_unmove w v OQ) in I. apply replaced_moved, HE in I. apply (proj1 (parent_back _ _)) in I.
  unfold site_holds. rewrite A. f_equal. apply (parent_unique (v := v)); [|exact I]. apply CR. now apply atom_here with i.
Qed.
End Main.
