(** A checker for finite permutation groups, used for concrete data. *)
From Verif Require Import Base LBase SSym LSym SGeneralCell.
Open Scope nat_scope.

Definition nat_list_eqb (a b : list nat) : bool := if list_eq_dec Nat.eq_dec a b then true else false.
Lemma nat_list_eqb_eq a b : nat_list_eqb a b = true <-> a = b.
Proof. unfold nat_list_eqb. destruct (list_eq_dec Nat.eq_dec a b); split; congruence. Qed.

Definition memL (p : list nat) (G : list (list nat)) : bool := existsb (nat_list_eqb p) G.
Lemma memL_In p G : memL p G = true <-> In p G.
Proof.
  unfold memL. rewrite existsb_exists. split.
  - intros [q [Hq E]]. apply nat_list_eqb_eq in E. now subst.
  - intros H. exists p. split; [assumption|now apply nat_list_eqb_eq].
Qed.

Definition is_permb (n : nat) (p : list nat) : bool :=
  Nat.eqb (length p) n && forallb (fun j => j <? n) p && forallb (fun j => existsb (Nat.eqb j) p) (seq 0 n).

Lemma is_permb_ok n p : is_permb n p = true -> Permutation p (seq 0 n).
Proof.
  unfold is_permb. rewrite !andb_true_iff. intros [[L B] C]. apply Nat.eqb_eq in L.
  rewrite forallb_forall in B, C.
  assert (I : incl (seq 0 n) p).
  { intros j Hj. specialize (C j Hj). apply existsb_exists in C. destruct C as [k [Hk E]]. apply Nat.eqb_eq in E. now subst. }
  symmetry. apply NoDup_Permutation_bis; [apply seq_NoDup|rewrite seq_length; lia|assumption].
Qed.

Definition compb (p q : list nat) : list nat := map (fun j => nth j p 0) q.
Definition inv_ofb (n : nat) (p r : list nat) : bool :=
  forallb (fun i => Nat.eqb (nth (nth i p 0) r n) i) (seq 0 n).

Definition perm_groupb (n : nat) (G : list (list nat)) : bool :=
  forallb (is_permb n) G && memL (seq 0 n) G &&
  forallb (fun p => forallb (fun q => memL (compb p q) G) G) G &&
  forallb (fun p => existsb (inv_ofb n p) G) G.

Lemma perm_groupb_ok n G : perm_groupb n G = true -> perm_group n G.
Proof.
  unfold perm_groupb. rewrite !andb_true_iff, !forallb_forall. intros [[[P I] C] V].
  assert (HP : forall p, In p G -> Permutation p (seq 0 n)) by (intros p Hp; apply is_permb_ok, P, Hp).
  split; [assumption|]. split; [now apply memL_In|]. split.
  - intros p q Hp Hq. specialize (C p Hp). rewrite forallb_forall in C. specialize (C q Hq). apply memL_In in C.
    exists (compb p q). split; [assumption|]. intros i j E. unfold compb. rewrite nth_error_map, E. cbn.
    symmetry. apply nth_error_nth'. rewrite (perm_length (HP p Hp)). apply (perm_lt (HP q Hq) E).
  - intros p Hp. specialize (V p Hp). apply existsb_exists in V. destruct V as [r [Hr E]]. exists r. split; [assumption|].
    intros i j Eij. unfold inv_ofb in E. rewrite forallb_forall in E.
    assert (Hi : i < n) by (rewrite <- (perm_length (HP p Hp)); apply nth_error_Some; congruence).
    specialize (E i). rewrite in_seq in E. specialize (E ltac:(lia)). apply Nat.eqb_eq in E.
    rewrite (nth_error_nth p i 0 Eij) in E. transitivity (Some (nth j r n)); [|now rewrite E]. apply nth_error_nth'.
    rewrite (perm_length (HP r Hr)). apply (perm_lt (HP p Hp) Eij).
Qed.

Definition preservesb (G : list (list nat)) (x : list Z) : bool :=
  forallb (fun p => Nat.eqb (length p) (length x) && forallb (fun j => j <? length x) p &&
    (if list_eq_dec Z.eq_dec (map (fun j => nth j x 0%Z) p) x then true else false)) G.

Lemma preservesb_ok G x : preservesb G x = true -> preserves G x.
Proof.
  unfold preservesb. rewrite forallb_forall. intros H p Hp. specialize (H p Hp). rewrite !andb_true_iff in H.
  destruct H as [[L B] E]. apply Nat.eqb_eq in L. rewrite forallb_forall in B.
  destruct (list_eq_dec Z.eq_dec (map (fun j => nth j x 0%Z) p) x) as [E'|]; [|discriminate].
  apply reordered_intro; [congruence|]. intros i j Eij.
  assert (Hj : j < length x) by (apply Nat.ltb_lt, B; eapply nth_error_In; eauto).
  exists (nth j x 0%Z). split; [now apply nth_error_nth'|]. rewrite <- E' at 1. rewrite nth_error_map, Eij. reflexivity.
Qed.
