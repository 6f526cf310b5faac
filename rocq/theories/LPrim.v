(** Lemmas for C87: cells of the same crystal. *)
From Verif Require Import Base LBase BaseQ LQ MGeneralCell SLattice SModCell SShape LCrystal LShape SPrim.
Set Implicit Arguments.
Unset Strict Implicit.
Open Scope nat_scope.

Lemma flip_back v q : orthogonal q -> vec_mat (vec_mat v (flip q)) q = v.
Proof. intros [_ O]. rewrite vec_mat_mul, O. apply vec_mat_one. Qed.
Lemma flip_fore v q : orthogonal q -> vec_mat (vec_mat v q) (flip q) = v.
Proof. intros [O _]. rewrite vec_mat_mul, O. apply vec_mat_one. Qed.
Lemma vadd_cancel a b c : vadd a c = vadd b c -> a = b.
Proof. intros E. rewrite <- (vsub_add a c), E. apply vsub_add. Qed.
Lemma vecZ_neg s : vecZ (zvsub (V3 0 0 0)%Z s) = vsub v0 (vecZ s).
Proof. rewrite vecZ_sub. f_equal. Qed.

Lemma shift_diff x w w' t : vadd (vadd x w) t = vadd (vadd (vadd x w') t) (vsub w w').
Proof. destruct x, w, w', t. unfold vadd, vsub. cbn [BaseQ.vx BaseQ.vy BaseQ.vz]. f_equal; ring. Qed.
Lemma vadd_undo p s : vadd p (vadd s (vsub v0 s)) = p.
Proof. destruct p, s. unfold vadd, vsub, v0. cbn [BaseQ.vx BaseQ.vy BaseQ.vz]. f_equal; ring. Qed.
Lemma vadd_undo' v t : vadd (vadd v (vsub v0 t)) t = v.
Proof. destruct v, t. unfold vadd, vsub, v0. cbn [BaseQ.vx BaseQ.vy BaseQ.vz]. f_equal; ring. Qed.

Lemma choose_list A (P : nat -> A -> Prop) l : (forall i, In i l -> exists x, P i x) -> exists r, Forall2 P l r.
Proof.
  induction l as [|i l IH]; intros H; [exists []; constructor|]. destruct (H i (or_introl eq_refl)) as (x & X).
  destruct IH as (r & R); [intros j J; apply H; now right|]. exists (x :: r). now constructor.
Qed.
(** A relation that is a function onto. *)
Section Onto.
Context (n n' : nat) (R : nat -> nat -> Prop).
Hypothesis TOT : forall i, i < n -> exists j, R i j /\ j < n'.
Hypothesis FUN : forall i j j', R i j -> R i j' -> j = j'.
Hypothesis ONTO : forall j, j < n' -> exists i, i < n /\ R i j.
Lemma onto_list : exists r, length r = n /\ (forall i j, i < n -> nth_error r i = Some j <-> R i j) /\ incl (seq 0 n') r /\ (forall j, In j r -> j < n').
Proof.
  destruct (@choose_list nat (fun i j => R i j /\ j < n') (seq 0 n)) as (r & F); [intros i I; apply in_seq in I; apply TOT; lia|].
  assert (L : length r = n) by (rewrite <- (seq_length n 0); clear -F; induction F; cbn; congruence).
  assert (N : forall i j, nth_error r i = Some j -> R i j /\ j < n').
  { intros i j E. assert (Hi : i < n) by (rewrite <- L; apply nth_error_Some; congruence).
    revert E. assert (G : forall (l r : list nat) k, Forall2 (fun i j => R i j /\ j < n') l r -> forall a b, nth_error l k = Some a -> nth_error r k = Some b -> R a b /\ b < n').
    { clear. intros l r k F. revert k. induction F as [|a b l r H F IH]; intros [|k] x y E1 E2; try discriminate; cbn in *; [injection E1 as <-; injection E2 as <-; exact H|eauto]. }
    intros E. apply (G _ _ i F); [|exact E]. rewrite (nth_error_nth' _ 0) by (rewrite seq_length; exact Hi). now rewrite seq_nth. }
  exists r. split; [exact L|]. split; [|split].
  - intros i j Hi. split; [intros E; apply (N i j E)|]. intros H. destruct (nth_error r i) as [j'|] eqn:E; [|apply nth_error_None in E; lia].
    f_equal. apply (@FUN i); [exact (proj1 (N i j' E))|exact H].
  - intros j J. apply in_seq in J. destruct (@ONTO j) as (i & Hi & H); [lia|]. destruct (nth_error r i) as [j'|] eqn:E; [|apply nth_error_None in E; lia].
    assert (j' = j) by (apply (@FUN i); [exact (proj1 (N i j' E))|exact H]). subst j'. now apply nth_error_In in E.
  - intros j J. apply In_nth_error in J as (i & E). exact (proj2 (N i j E)).
Qed.
Lemma onto_le : n' <= n.
Proof. destruct onto_list as (r & L & _ & I & _). rewrite <- L, <- (seq_length n' 0). apply NoDup_incl_length; [apply seq_NoDup|exact I]. Qed.
Lemma onto_inj : n <= n' -> forall i k j, i < n -> k < n -> R i j -> R k j -> i = k.
Proof.
  intros LE i k j Hi Hk H1 H2. destruct onto_list as (r & L & N & I & _).
  assert (ND : NoDup r) by (apply (@NoDup_incl_NoDup _ (seq 0 n') r); [apply seq_NoDup|rewrite seq_length; lia|exact I]).
  apply N in H1; [|exact Hi]. apply N in H2; [|exact Hk]. rewrite NoDup_nth_error in ND. apply ND; [lia|congruence].
Qed.
Lemma inj_eq : (forall i k j, i < n -> k < n -> R i j -> R k j -> i = k) -> n = n'.
Proof.
  intros INJ. destruct onto_list as (r & L & N & I & B). apply Nat.le_antisymm; [|exact onto_le].
  rewrite <- L, <- (seq_length n' 0). apply NoDup_incl_length; [|intros j J; apply in_seq; pose proof (B j J); lia].
  rewrite NoDup_nth_error. intros i k Hi E. rewrite L in Hi. destruct (nth_error r i) as [j|] eqn:E1; [|apply nth_error_None in E1; lia].
  assert (Hk : k < n) by (rewrite <- L; apply nth_error_Some; congruence). apply (INJ i k j Hi Hk); apply N; auto.
Qed.
End Onto.

Lemma lattice_sub c w w' : lattice_vector c w -> lattice_vector c w' -> lattice_vector c (vsub w w').
Proof. intros (s & ->) (s' & ->). exists (zvsub s s'). now rewrite vecZ_sub, vec_mat_vsub. Qed.
Lemma lattice_add c w w' : lattice_vector c w -> lattice_vector c w' -> lattice_vector c (vadd w w').
Proof. intros (s & ->) (s' & ->). exists (zvadd s s'). now rewrite <- vec_mat_add, vecZ_add. Qed.
Lemma lattice_keeps c w : lattice_vector c w -> keeps c w.
Proof.
  destruct c as [[lat pos] nums]. intros (s & ->) z v (i & p & s' & P & Z & ->). exists i, p, (zvadd s' s). split; [exact P|]. split; [exact Z|].
  cbn [fst]. rewrite <- vec_mat_add, vecZ_add, vadd_assoc. reflexivity.
Qed.

Section Cells.
Context (lat lat' : mat Qc) (pos pos' : list (vec Qc)) (nums nums' : list Z) (q : mat Qc) (t : vec Qc).
Hypothesis L : length pos = length nums.
Hypothesis L' : length pos' = length nums'.
Hypothesis NE' : pos' <> [].
Hypothesis O : orthogonal q.
Hypothesis M : forall z v, crystal_atom lat' pos' nums' z v <-> crystal_atom lat pos nums z (vadd (vec_mat v q) t).
Let c : cell3 := (lat, pos, nums).
Let d : cell3 := (lat', pos', nums').
Hypothesis SM : smallest d.
Hypothesis DS : distinct_sites lat' pos'.

Lemma keeps_iff w : keeps d w <-> keeps c (vec_mat w q).
Proof.
  split; intros K z v A.
  - set (u := vec_mat (vsub v t) (flip q)). assert (E : vadd (vec_mat u q) t = v) by (unfold u; rewrite flip_back by exact O; apply vadd_sub).
    assert (B : atom_at d z u) by (apply M; rewrite E; exact A). apply K in B. apply M in B. rewrite vec_mat_add, vadd_swap, E in B. exact B.
  - apply M. rewrite vec_mat_add, vadd_swap. apply K. apply M. exact A.
Qed.
Lemma keeps_down w : keeps c w -> lattice_vector d (vec_mat w (flip q)).
Proof. intros K. apply SM. apply keeps_iff. rewrite flip_back by exact O. exact K. Qed.

(** atom [i] of [c] is shown by atom [j] of [d] *)
Definition shown (i j : nat) : Prop := exists p p' w, nth_error pos i = Some p /\ nth_error pos' j = Some p' /\ lattice_vector d w /\
  vec_mat p lat = vadd (vec_mat (vadd (vec_mat p' lat') w) q) t.
Lemma shown_total i : i < length pos -> exists j, shown i j /\ j < length pos'.
Proof.
  intros Hi. destruct (nth_error pos i) as [p|] eqn:P; [|apply nth_error_None in P; lia]. destruct (nth_error nums i) as [z|] eqn:Z; [|apply nth_error_None in Z; lia].
  set (u := vec_mat (vsub (vec_mat p lat) t) (flip q)). assert (E : vadd (vec_mat u q) t = vec_mat p lat) by (unfold u; rewrite flip_back by exact O; apply vadd_sub).
  assert (B : crystal_atom lat' pos' nums' z u) by (apply M; rewrite E; eapply atom_here; eauto). destruct B as (j & p' & s & P' & _ & U).
  exists j. split; [|apply nth_error_Some; congruence]. exists p, p', (vec_mat (vecZ s) lat'). split; [exact P|]. split; [exact P'|]. split; [exists s; reflexivity|].
  rewrite <- vec_mat_add, <- U, E. reflexivity.
Qed.
Lemma shown_fun i j j' : shown i j -> shown i j' -> j = j'.
Proof.
  intros (p & a & w & P & A & (s & ->) & E) (p2 & b & w' & P2 & B & (s' & ->) & E'). assert (p2 = p) by congruence. subst p2. rewrite E in E'.
  apply vadd_cancel in E'. apply (f_equal (fun x => vec_mat x (flip q))) in E'. rewrite !flip_fore in E' by exact O. cbn [fst d] in E'.
  apply (@DS j j' a b (zvsub s' s) A B). rewrite vecZ_sub. apply (vadd_cancel (c := vec_mat (vecZ s) lat')). rewrite E', <- !vec_mat_add. f_equal. rewrite vadd_assoc. f_equal. symmetry. apply vadd_sub.
Qed.
Lemma shown_onto j : j < length pos' -> exists i, i < length pos /\ shown i j.
Proof.
  intros Hj. destruct (nth_error pos' j) as [p'|] eqn:P; [|apply nth_error_None in P; lia]. destruct (nth_error nums' j) as [z|] eqn:Z; [|apply nth_error_None in Z; lia].
  assert (A : crystal_atom lat' pos' nums' z (vec_mat p' lat')) by (eapply atom_here; eauto). apply M in A. destruct A as (i & p & s & P' & _ & U).
  exists i. split; [apply nth_error_Some; congruence|]. set (l := vec_mat (vecZ (zvsub (V3 0 0 0)%Z s)) lat).
  exists p, p', (vec_mat l (flip q)). split; [exact P'|]. split; [exact P|]. split; [apply keeps_down, lattice_keeps; exists (zvsub (V3 0 0 0)%Z s); reflexivity|].
  rewrite vec_mat_add, flip_back by exact O. rewrite vadd_swap, U. unfold l. rewrite <- vec_mat_add, vadd_assoc, vecZ_neg, vadd_undo. reflexivity.
Qed.
Lemma size_le : length pos' <= length pos.
Proof. exact (onto_le shown_total shown_fun shown_onto). Qed.
Lemma same_size_smallest : length pos' = length pos -> smallest c.
Proof.
  intros EL w K. assert (H0 : 0 < length pos) by (rewrite <- EL; destruct pos'; [congruence|cbn; lia]).
  destruct (nth_error pos 0) as [p|] eqn:P; [|apply nth_error_None in P; lia]. destruct (nth_error nums 0) as [z|] eqn:Z; [|apply nth_error_None in Z; lia].
  assert (A : atom_at c z (vec_mat p lat)) by (eapply atom_here; eauto). apply K in A. destruct A as (k & p2 & s & P2 & _ & U).
  assert (Hk : k < length pos) by (apply nth_error_Some; congruence). destruct (shown_total H0) as (j & (p0 & p' & x & P0 & P' & X & E) & _).
  assert (p0 = p) by congruence. subst p0. set (l := vec_mat (vecZ (zvsub (V3 0 0 0)%Z s)) lat).
  assert (S2 : shown k j).
  { exists p2, p', (vadd x (vec_mat (vadd w l) (flip q))). split; [exact P2|]. split; [exact P'|]. split.
    - apply lattice_add; [exact X|]. apply keeps_down. intros y v Y. rewrite <- vadd_assoc. apply lattice_keeps; [exists (zvsub (V3 0 0 0)%Z s); reflexivity|]. apply K. exact Y.
    - rewrite <- vadd_assoc, vec_mat_add, flip_back by exact O. rewrite vadd_swap, <- E, <- vadd_assoc, U. unfold l. rewrite <- vec_mat_add, vadd_assoc, vecZ_neg, vadd_undo. reflexivity. }
  assert (k = 0).
  { apply (onto_inj shown_total shown_fun shown_onto) with (j := j); [lia|exact Hk|exact H0|exact S2|]. exists p, p', x. auto. }
  subst k. assert (p2 = p) by congruence. subst p2. exists s. cbn [fst c]. rewrite vec_mat_add in U. rewrite <- (vsub_front (vec_mat p lat) w), U. apply vsub_front.
Qed.
Lemma smallest_same_size : smallest c -> distinct_sites lat pos -> length pos = length pos'.
Proof.
  intros SC DC. apply (inj_eq shown_total shown_fun shown_onto). intros i k j Hi Hk (p & a & w & P & A & W & E) (p2 & b & w' & P2 & B & W' & E').
  assert (b = a) by congruence. subst b. assert (V : lattice_vector c (vec_mat (vsub w w') q)) by (apply SC, keeps_iff, lattice_keeps, lattice_sub; assumption).
  destruct V as (s & V). cbn [fst c] in V. apply (@DC i k p p2 s P P2). rewrite vec_mat_add, <- V, E, E'. rewrite !vec_mat_add, vec_mat_vsub. apply shift_diff.
Qed.
(** Every atom of [d] shows the same number of atoms of [c]. *)
Lemma fiber_le (r : list nat) j j' : distinct_sites lat pos -> length r = length pos -> (forall i j, i < length pos -> nth_error r i = Some j <-> shown i j) ->
  j < length pos' -> j' < length pos' -> count_occ Nat.eq_dec r j <= count_occ Nat.eq_dec r j'.
Proof.
  intros DC LR N Hj Hj'. set (fib := fun j => filter (fun i => if Nat.eq_dec (nth i r 0) j then true else false) (seq 0 (length r))).
  assert (FL : forall j, length (fib j) = count_occ Nat.eq_dec r j).
  { clear. intros j. unfold fib. clear fib. enough (G : forall r pre, length (filter (fun i => if Nat.eq_dec (nth i (pre ++ r) 0) j then true else false) (seq (length pre) (length r))) = count_occ Nat.eq_dec r j) by apply (G r []).
    intros r0. induction r0 as [|x r0 IH]; intros pre; [reflexivity|]. cbn [length seq filter count_occ]. rewrite app_nth2, Nat.sub_diag by lia. cbn [nth].
    specialize (IH (pre ++ [x])). rewrite app_length, <- app_assoc in IH. cbn [length app] in IH. rewrite Nat.add_1_r in IH.
    destruct (Nat.eq_dec x j); cbn [length]; rewrite IH; reflexivity. }
  assert (FI : forall j i, In i (fib j) <-> i < length pos /\ shown i j).
  { intros k i. unfold fib. rewrite filter_In, in_seq. split.
    - intros [B E]. assert (Hi : i < length pos) by lia. split; [exact Hi|]. destruct (Nat.eq_dec (nth i r 0) k) as [<- |]; [|discriminate].
      apply N; [exact Hi|]. apply nth_error_nth'. lia.
    - intros [Hi S]. split; [lia|]. apply N in S; [|exact Hi]. apply nth_error_nth with (d := 0) in S. rewrite S. now destruct (Nat.eq_dec k k). }
  destruct (@shown_onto j Hj) as (i0 & Hi0 & p0 & a & w0 & P0 & A & W0 & E0).
  destruct (@shown_onto j' Hj') as (k0 & Hk0 & y0 & b & x0 & Y0 & B & X0 & F0).
  destruct (@choose_list nat (fun i k => In k (fib j') /\ exists p y l, nth_error pos i = Some p /\ nth_error pos k = Some y /\ lattice_vector c l /\
     vec_mat y lat = vadd (vadd (vec_mat y0 lat) (vsub (vec_mat p lat) (vec_mat p0 lat))) l) (fib j)) as (ks & F).
  { intros i I. apply FI in I as [Hi (p & a' & w & P & A' & W & E)]. assert (a' = a) by congruence. subst a'.
    set (u := vsub (vec_mat p lat) (vec_mat p0 lat)). assert (U : u = vec_mat (vsub w w0) q).
    { unfold u. rewrite E, E0, !vec_mat_add, vec_mat_vsub. clear. generalize (vec_mat (vec_mat a lat') q) (vec_mat w q) (vec_mat w0 q). intros x y z.
      destruct x, y, z, t. unfold vadd, vsub. cbn [BaseQ.vx BaseQ.vy BaseQ.vz]. f_equal; ring. }
    assert (K : keeps c u) by (rewrite U; apply keeps_iff, lattice_keeps, lattice_sub; assumption).
    destruct (nth_error nums k0) as [z|] eqn:Z; [|apply nth_error_None in Z; lia].
    assert (Q : atom_at c z (vec_mat y0 lat)) by (eapply atom_here; eauto). apply K in Q. destruct Q as (k & y & s & Y & _ & V).
    set (l := vec_mat (vecZ (zvsub (V3 0 0 0)%Z s)) lat). assert (LV : lattice_vector c l) by (exists (zvsub (V3 0 0 0)%Z s); reflexivity).
    assert (YE : vec_mat y lat = vadd (vadd (vec_mat y0 lat) u) l) by (rewrite V; unfold l; rewrite <- vec_mat_add, vadd_assoc, vecZ_neg, vadd_undo; reflexivity).
    exists k. split; [|exists p, y, l; auto]. apply FI. split; [apply nth_error_Some; congruence|].
    exists y, b, (vadd x0 (vadd (vsub w w0) (vec_mat l (flip q)))). split; [exact Y|]. split; [exact B|]. split.
    - apply lattice_add; [exact X0|]. apply lattice_add; [now apply lattice_sub|]. apply keeps_down, lattice_keeps, LV.
    - rewrite YE, U, F0, !vec_mat_add, flip_back by exact O. clear. generalize (vec_mat (vec_mat b lat') q) (vec_mat x0 q) (vec_mat (vsub w w0) q). intros x y1 z1.
      destruct x, y1, z1, t, l. unfold vadd. cbn [BaseQ.vx BaseQ.vy BaseQ.vz]. f_equal; ring. }
  rewrite <- !FL. assert (LK : length ks = length (fib j)) by (symmetry; eapply Forall2_len; exact F). rewrite <- LK. apply NoDup_incl_length.
  - assert (NF : NoDup (fib j)) by (apply NoDup_filter, seq_NoDup). clear -F NF DC. revert F NF. generalize (fib j) as is. intros is F.
    assert (IN : forall i k, Forall2 (fun i k => exists p y l, nth_error pos i = Some p /\ nth_error pos k = Some y /\ lattice_vector c l /\
       vec_mat y lat = vadd (vadd (vec_mat y0 lat) (vsub (vec_mat p lat) (vec_mat p0 lat))) l) [i] [k] -> forall i', Forall2 (fun i k => exists p y l, nth_error pos i = Some p /\ nth_error pos k = Some y /\ lattice_vector c l /\
       vec_mat y lat = vadd (vadd (vec_mat y0 lat) (vsub (vec_mat p lat) (vec_mat p0 lat))) l) [i'] [k] -> i = i').
    { intros i k H i' H'. inversion H as [|? ? ? ? (p & y & l & P & Y & (s & ->) & E) _]; subst. inversion H' as [|? ? ? ? (p' & y' & l' & P' & Y' & (s' & ->) & E') _]; subst.
      assert (y' = y) by congruence. subst y'. rewrite E in E'. cbn [c fst] in E'. apply (@DC i i' p p' (zvsub s' s) P P'). rewrite vecZ_sub, vec_mat_add, vec_mat_vsub.
      revert E'. generalize (vec_mat p lat) (vec_mat p' lat) (vec_mat (vecZ s) lat) (vec_mat (vecZ s') lat) (vec_mat y0 lat) (vec_mat p0 lat). clear. intros a b x x' g h E.
      rewrite <- (vsub_add a x), <- (vsub_add (vadd a x) (vsub g h)). replace (vadd (vadd a x) (vsub g h)) with (vadd (vadd g (vsub a h)) x)
        by (destruct a, x, g, h; unfold vadd, vsub; cbn [BaseQ.vx BaseQ.vy BaseQ.vz]; f_equal; ring). rewrite E.
      destruct b, x, x', g, h; unfold vadd, vsub; cbn [BaseQ.vx BaseQ.vy BaseQ.vz]; f_equal; ring. }
    induction F as [|i k is ks [_ H] F IH]; intros NF; [constructor|]. inversion NF as [|? ? NI NF']; subst. constructor; [|now apply IH].
    intros I. assert (G : exists i', In i' is /\ exists p y l, nth_error pos i' = Some p /\ nth_error pos k = Some y /\ lattice_vector c l /\
       vec_mat y lat = vadd (vadd (vec_mat y0 lat) (vsub (vec_mat p lat) (vec_mat p0 lat))) l).
    { clear -F I. induction F as [|i k1 is ks [_ H] F IH]; [destruct I|]. destruct I as [-> |I]; [exists i; split; [now left|exact H]|].
      destruct (IH I) as (i' & I1 & H1). exists i'. split; [now right|exact H1]. }
    destruct G as (i' & I' & H'). apply NI. rewrite (IN i k) with (i' := i'); [exact I'|now repeat constructor|now repeat constructor].
  - intros k K. clear -F K. induction F as [|i k1 is ks [H _] F IH]; [destruct K|]. destruct K as [<- |K]; [exact H|now apply IH].
Qed.
Lemma size_multiple : distinct_sites lat pos -> exists k, length pos = k * length pos'.
Proof.
  intros DC. destruct (onto_list shown_total shown_fun shown_onto) as (r & LR & N & _ & B).
  exists (count_occ Nat.eq_dec r 0). assert (H0 : 0 < length pos') by (apply Nat.neq_0_lt_0; intros E0; apply length_zero_iff_nil in E0; contradiction).
  assert (EQ : forall j, j < length pos' -> count_occ Nat.eq_dec r j = count_occ Nat.eq_dec r 0).
  { intros j Hj. apply Nat.le_antisymm; apply fiber_le; auto. }
  rewrite <- LR. revert EQ. generalize (count_occ Nat.eq_dec r 0) as k. revert B. generalize (length pos') as n. clear. intros n. revert r.
  induction n as [|n IH]; intros r B k EQ.
  - destruct r as [|x r]; [now rewrite Nat.mul_0_r|]. exfalso. pose proof (B x (or_introl eq_refl)). lia.
  - assert (S : length r = count_occ Nat.eq_dec r n + length (remove Nat.eq_dec n r)).
    { clear. induction r as [|x r IH]; [reflexivity|]. cbn. destruct (Nat.eq_dec x n) as [-> |N]; destruct (Nat.eq_dec n _) as [E|E]; try congruence; cbn; lia. }
    rewrite S, (EQ n) by lia. rewrite (IH (remove Nat.eq_dec n r)) with (k := k); [lia| |].
    + intros j J. apply in_remove in J as [J Nj]. pose proof (B j J). lia.
    + intros j Hj. rewrite <- (EQ j) by lia. clear -Hj. induction r as [|x r IH]; [reflexivity|]. cbn. destruct (Nat.eq_dec n x) as [<- |Nx].
      * destruct (Nat.eq_dec n j); [lia|exact IH].
      * cbn. destruct (Nat.eq_dec x j); rewrite IH; reflexivity.
Qed.
End Cells.

Ltac mats := intros; repeat match goal with m : mat Qc |- _ => destruct m as [[] [] []] end; unfold mat_mul, flip, vec_mat, vmap, vadd, vscale, one; cbn [BaseQ.vx BaseQ.vy BaseQ.vz]; f_equal; f_equal; ring.
Lemma flip_mul a b : flip (mat_mul a b) = mat_mul (flip b) (flip a).
Proof. mats. Qed.
Lemma mat_mul_assoc3 a b c : mat_mul (mat_mul a b) c = mat_mul a (mat_mul b c).
Proof. unfold mat_mul at 1 3. unfold vmap. cbn [BaseQ.vx BaseQ.vy BaseQ.vz]. f_equal; apply vec_mat_mul. Qed.
Lemma mat_mul_one_l a : mat_mul one a = a.
Proof. mats. Qed.
Lemma mat_mul_one_r a : mat_mul a one = a.
Proof. mats. Qed.
Lemma flip_flip a : flip (flip a) = a.
Proof. mats. Qed.
Lemma orth_flip q : orthogonal q -> orthogonal (flip q).
Proof. intros [A B]. split; rewrite flip_flip; assumption. Qed.
Lemma orth_mul a b : orthogonal a -> orthogonal b -> orthogonal (mat_mul a b).
Proof.
  intros [A A'] [B B']. split; rewrite flip_mul.
  - rewrite mat_mul_assoc3, <- (mat_mul_assoc3 b), B, mat_mul_one_l. exact A.
  - rewrite mat_mul_assoc3, <- (mat_mul_assoc3 (flip a)), A', mat_mul_one_l. exact B'.
Qed.
Lemma motion_sym c d : same_up_to_motion c d -> same_up_to_motion d c.
Proof.
  intros (q & t & O & M). exists (flip q), (vec_mat (vsub v0 t) (flip q)). split; [now apply orth_flip|]. intros z v. rewrite M.
  rewrite <- vec_mat_add, flip_back by exact O. rewrite vadd_undo'. reflexivity.
Qed.
Lemma motion_trans c d e : same_up_to_motion c d -> same_up_to_motion d e -> same_up_to_motion c e.
Proof.
  intros (q & t & O & M) (q' & t' & O' & M'). exists (mat_mul q' q), (vadd (vec_mat t' q) t). split; [now apply orth_mul|]. intros z v.
  rewrite M', M, vec_mat_add, vec_mat_mul, vadd_assoc. reflexivity.
Qed.

(** All smallest cells of a crystal have the same number of atoms. *)
Lemma primitive_size_unique c c' n n' : same_up_to_motion c c' -> primitive_size c n -> primitive_size c' n' -> n = n'.
Proof.
  intros MC (d & (S & ->)) (d' & (S' & ->)). destruct d as [[lat pos] nums], d' as [[lat' pos'] nums']. cbn [fst snd].
  destruct S as (NE & L & M & SM & DS), S' as (NE' & L' & M' & SM' & DS').
  pose proof (motion_trans (motion_trans (motion_sym M) MC) M') as (q & t & O & K).
  exact (@smallest_same_size lat lat' pos pos' nums nums' q t L L' O K SM' DS' SM DS).
Qed.
Lemma primitive_size_le lat pos nums n : length pos = length nums -> primitive_size (lat, pos, nums) n -> n <= length pos.
Proof.
  intros L ([[lat' pos'] nums'] & (NE & L' & (q & t & O & M) & SM & DS) & ->). cbn [fst snd]. exact (@size_le lat lat' pos pos' nums nums' q t L L' O M SM DS).
Qed.
Lemma primitive_size_smallest lat pos nums n : length pos = length nums -> distinct_sites lat pos -> primitive_size (lat, pos, nums) n ->
  n = length pos <-> smallest (lat, pos, nums).
Proof.
  intros L DC ([[lat' pos'] nums'] & (NE & L' & (q & t & O & M) & SM & DS) & ->). cbn [fst snd]. split.
  - exact (@same_size_smallest lat lat' pos pos' nums nums' q t L L' NE O M SM DS).
  - intros SC. symmetry. exact (@smallest_same_size lat lat' pos pos' nums nums' q t L L' O M SM DS SC DC).
Qed.
Lemma primitive_size_multiple lat pos nums n : length pos = length nums -> distinct_sites lat pos -> primitive_size (lat, pos, nums) n ->
  exists k, length pos = k * n.
Proof.
  intros L DC ([[lat' pos'] nums'] & (NE & L' & (q & t & O & M) & SM & DS) & ->). cbn [fst snd].
  exact (@size_multiple lat lat' pos pos' nums nums' q t L L' NE O M SM DS DC).
Qed.
