(** Conversely every structure written at the end is a derivative structure of the parent. *)
From Coq Require Import String Permutation.
From Verif Require Import SIO SCliRead Base LBase BaseQ LQ SLattice SGeneralCell LGeneralCell MGeneralCell SSym LSym SSubst SModCell SShape MHnf LMat3 LHnf LSuper LSuper2 LFrac LCrystal
  LGrid LModCell4 LShape LShape2 SBurn LBurn SDeriv LDeriv LDeriv2 LDeriv3 LFlow.
Set Implicit Arguments.
Unset Strict Implicit.
Open Scope list_scope.
Open Scope nat_scope.
Notation length := List.length.

Section Sound.
Context (u g : gcell) (h : mat Z) (q : mat Qc) (w : vec Qc) (ele sp : Z) (n : nat) (y : list Z).
Hypothesis VG : volume (lattice g) <> 0%Qc.
Hypothesis Lg : length (numbers g) = length (positions g).
Hypothesis Dg : SSym.distinct_sites (positions g).
Hypothesis CF : carries_frame u g h q w.
Hypothesis KF : k_fold (numbers g) (site_holds (numbers g) ele) n sp y.
Notation F := (move q w).
Notation B := (unmove q w).
Notation here := (crystal_atom (lattice g) (positions g) (numbers g)).
Notation made := (crystal_atom (lattice g) (positions g) y).
Notation shift s := (vec_mat (vecZ s) (lattice g)).

Lemma y_length : length y = length (positions g).
Proof. destruct KF as (S & _ & L & _). congruence. Qed.
Lemma made_shift s z v : made z v -> made z (vadd v (shift s)).
Proof. intros (i & p & t & P & Z & ->). exists i, p, (zvadd t s). split; [exact P|]. split; [exact Z|]. rewrite vecZ_add, <- vec_mat_add. f_equal. generalize (vecZ s) (vecZ t). clear. qm. Qed.
Lemma made_derivative_moved : derivative (cell_of u) h [sp] (fun z r => made z (F r)).
Proof.
  pose proof y_length as Ly. split.
  - intros r. split.
    + intros (z & i & p & s & P & _ & E). destruct (nth_pair (x := numbers g) Lg P) as (a & A). exists a. apply (cf_atoms CF). exists i, p, s. auto.
    + intros (z & H). apply (cf_atoms CF) in H as (i & p & s & P & _ & E). destruct (nth_pair (x := y) Ly P) as (a & A). exists a, i, p, s. auto.
  - intros r z z'. apply unique_species; [exact VG|]. now apply exact_distinct.
  - intros r z (i & p & s & P & Y & E). destruct (nth_pair (x := numbers g) Lg P) as (a & A).
    destruct (fold_choice KF A Y) as [H|H]; [now left|right]. subst z. apply (cf_atoms CF). exists i, p, s. auto.
  - intros k z r H. cbn [cell_of fst]. destruct (cf_forth CF k) as (s & E). rewrite E. now apply made_shift.
Qed.
Hypothesis NE : ele <> sp.
Lemma made_replaced_moved : exists subs, length subs = n /\ replaced_per_period (cell_of u) h sp (fun z r => made z (F r)) subs /\
  forall r, replaced (cell_of u) sp (fun z r => made z (F r)) r -> atom_at (cell_of u) ele r.
Proof.
  pose proof y_length as Ly. pose proof KF as (S & (ND & LS & IS) & _ & H). pose proof (cf_orth CF) as OQ.
  assert (UN : forall z z' v, here z v -> here z' v -> z = z') by (intros z z' v; apply unique_species; [exact VG|now apply exact_distinct]).
  assert (AT : forall i, In i S -> exists p, nth_error (positions g) i = Some p /\ nth_error y i = Some sp /\ nth_error (numbers g) i = Some ele).
  { intros i I. pose proof (IS i I) as A. unfold site_holds in A. destruct (nth_pair (x := positions g) (eq_sym Lg) A) as (p & P). exists p. split; [exact P|]. split; [|exact A]. now apply (H i ele A). }
  assert (FBk : forall v, F (B v) = v) by (intros v; now apply move_unmove).
  assert (IN : forall i p r s, nth_error (positions g) i = Some p -> nth_error y i = Some sp -> F r = vec_mat (vadd p (vecZ s)) (lattice g) -> ~ here sp (F r) -> In i S).
  { intros i p r s P Y E N. destruct (nth_pair (x := numbers g) Lg P) as (a & A). destruct (in_dec Nat.eq_dec i S) as [I|I]; [exact I|]. exfalso. apply N.
    rewrite (proj2 (H i a A) I) in Y. injection Y as ->. exists i, p, s. auto. }
  exists (map (fun i => B (vec_mat (nth i (positions g) v0) (lattice g))) S). split; [now rewrite map_length|]. split; [split; [|split]|]; unfold replaced.
  - apply Forall_forall. intros r I. apply in_map_iff in I as (i & <- & I). destruct (AT i I) as (p & P & Y & A).
    rewrite (nth_error_nth _ _ _ P), FBk. split; [now apply atom_here with i|]. intros K. apply (cf_atoms CF) in K. rewrite FBk in K.
    apply NE. apply (UN ele sp (vec_mat p (lattice g))); [now apply atom_here with i|exact K].
  - intros r [(i & p & s & P & Y & E) N]. assert (N' : ~ here sp (F r)) by (intros K; apply N; now apply (cf_atoms CF)).
    pose proof (IN i p r s P Y E N') as I. destruct (cf_back CF s) as (k & K). exists (B (vec_mat p (lattice g))), k. split.
    + apply in_map_iff. exists i. split; [now rewrite (nth_error_nth _ _ _ P)|exact I].
    + cbn [cell_of fst]. rewrite <- K, <- vec_mat_add, <- E. symmetry. now apply unmove_move.
  - clear H LS IN. assert (IS' : forall i, In i S -> In i S) by auto. revert ND IS'. generalize S at 1 2 4. intros S' ND. induction ND as [|i S' N ND IH]; intros IS'; cbn [map]; constructor.
    + apply Forall_forall. intros r I k E. apply in_map_iff in I as (j & <- & I). destruct (AT i (IS' i (or_introl eq_refl))) as (p & P & _).
      destruct (AT j (IS' j (or_intror I))) as (p' & P' & _). rewrite (nth_error_nth _ _ _ P), (nth_error_nth _ _ _ P') in E. cbn [cell_of fst] in E.
      apply (f_equal F) in E. destruct (cf_forth CF k) as (s & K). rewrite K, !FBk, <- vec_mat_add in E.
      apply N. replace i with j; [exact I|]. exact (exact_distinct VG Dg P' P E).
    + apply IH. intros j J. apply IS'. now right.
  - intros r [(i & p & s & P & Y & E) N]. assert (N' : ~ here sp (F r)) by (intros K; apply N; now apply (cf_atoms CF)).
    pose proof (IN i p r s P Y E N') as I. destruct (AT i I) as (_ & _ & _ & A). apply (cf_atoms CF). exists i, p, s. auto.
Qed.
End Sound.

(** The frame for the superlattice itself. *)
Lemma frame_self u ops h g : length (numbers u) = length (positions u) -> symmetries_of ops u -> stands_for u h g -> exists q w, carries_frame u g h q w.
Proof.
  intros Lu SU SF. pose proof SU as (_ & X & _). destruct X as ((o & Io & [E _]) & _).
  apply (@frame_found u ops o h h g Lu SU Io); [|exact SF]. rewrite <- E. split; intros v H.
  - cbn [op_id fst]. change (V3 (V3 1 0 0) (V3 0 1 0) (V3 0 0 1))%Z with zid. rewrite zrot_zid. exact H.
  - exists v. split; [exact H|]. cbn [op_id fst]. change (V3 (V3 1 0 0) (V3 0 1 0) (V3 0 0 1))%Z with zid. symmetry. apply zrot_zid.
Qed.
