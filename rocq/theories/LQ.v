From Verif Require Import Base BaseQ.
Set Implicit Arguments.
Open Scope Z_scope.

Lemma this_plus x y : (this (x + y)%Qc == this x + this y)%Q.
Proof. apply Qred_correct. Qed.
Lemma this_mult x y : (this (x * y)%Qc == this x * this y)%Q.
Proof. apply Qred_correct. Qed.
Lemma this_opp x : (this (- x)%Qc == - this x)%Q.
Proof. apply Qred_correct. Qed.
Lemma this_minus x y : (this (x - y)%Qc == this x - this y)%Q.
Proof. unfold Qcminus. rewrite this_plus, this_opp. reflexivity. Qed.
Lemma this_Q2Qc q : (this (Q2Qc q) == q)%Q.
Proof. apply Qred_correct. Qed.
Lemma this_Zc z : (this (Zc z) == inject_Z z)%Q.
Proof. apply this_Q2Qc. Qed.
Lemma this_inv x : (this (/ x)%Qc == / this x)%Q.
Proof. apply Qred_correct. Qed.
Lemma this_0 : (this 0%Qc == 0)%Q. Proof. reflexivity. Qed.
Lemma this_1 : (this 1%Qc == 1)%Q. Proof. reflexivity. Qed.
Lemma Qc_eq_this x y : x = y <-> (this x == this y)%Q.
Proof. split; [intros ->; reflexivity | apply Qc_is_canon]. Qed.

Ltac qcpush :=
  repeat match goal with
  | H : @eq Qc _ _ |- _ => apply Qc_eq_this in H
  | H : not (@eq Qc _ _) |- _ => rewrite Qc_eq_this in H
  | |- @eq Qc _ _ => apply Qc_is_canon
  end;
  unfold Qcle, Qclt in *;
  repeat progress (rewrite ?this_plus, ?this_minus, ?this_mult, ?this_opp, ?this_Zc, ?this_Q2Qc in *).
Ltac qclra := qcpush; lra.

Lemma Qcleb_le x y : Qcleb x y = true <-> (x <= y)%Qc.
Proof. unfold Qcleb, Qcle. apply Qle_bool_iff. Qed.
Lemma Qcltb_lt x y : Qcltb x y = true <-> (x < y)%Qc.
Proof.
  unfold Qcltb, Qclt. rewrite negb_true_iff. split; intros H.
  - apply Qnot_le_lt. intros K. apply Qle_bool_iff in K. congruence.
  - destruct (Qle_bool _ _) eqn:E; [|reflexivity]. apply Qle_bool_iff in E. lra.
Qed.
Lemma Qceqb_eq x y : Qceqb x y = true <-> x = y.
Proof. unfold Qceqb. rewrite Qc_eq_this. apply Qeq_bool_iff. Qed.
Lemma Qcleb_gt x y : Qcleb x y = false <-> (y < x)%Qc.
Proof.
  rewrite <- Qcltb_lt. unfold Qcltb, Qcleb. destruct (Qle_bool _ _); cbn; intuition congruence.
Qed.
Lemma Qcltb_ge x y : Qcltb x y = false <-> (y <= x)%Qc.
Proof.
  rewrite <- Qcleb_le. unfold Qcltb, Qcleb. destruct (Qle_bool _ _); cbn; intuition congruence.
Qed.
Lemma Qceqb_neq x y : Qceqb x y = false <-> x <> y.
Proof. rewrite <- Qceqb_eq. destruct (Qceqb x y); intuition congruence. Qed.

Lemma Zc_inj a b : Zc a = Zc b <-> a = b.
Proof.
  split; [|now intros ->]. intros H. qcpush. now apply inject_Z_injective.
Qed.
Lemma Zc_le a b : (Zc a <= Zc b)%Qc <-> a <= b.
Proof. unfold Qcle. rewrite !this_Zc, <- Zle_Qle. tauto. Qed.
Lemma Zc_lt a b : (Zc a < Zc b)%Qc <-> a < b.
Proof. unfold Qclt. rewrite !this_Zc, <- Zlt_Qlt. tauto. Qed.
Lemma Zc_plus a b : Zc (a + b) = (Zc a + Zc b)%Qc.
Proof. qcpush. now rewrite inject_Z_plus. Qed.
Lemma Zc_opp a : Zc (- a) = (- Zc a)%Qc.
Proof. qcpush. now rewrite inject_Z_opp. Qed.
Lemma Zc_minus a b : Zc (a - b) = (Zc a - Zc b)%Qc.
Proof. unfold Z.sub, Qcminus. now rewrite Zc_plus, Zc_opp. Qed.
Lemma Zc_mult a b : Zc (a * b) = (Zc a * Zc b)%Qc.
Proof. qcpush. now rewrite inject_Z_mult. Qed.
Lemma Zc_0 : Zc 0 = 0%Qc. Proof. apply Qc_is_canon. reflexivity. Qed.
Lemma Zc_1 : Zc 1 = 1%Qc. Proof. apply Qc_is_canon. reflexivity. Qed.

Lemma Qcfloor_spec x : (Zc (Qcfloor x) <= x)%Qc /\ (x < Zc (Qcfloor x + 1))%Qc.
Proof.
  unfold Qcfloor, Qcle, Qclt. rewrite !this_Zc. split; [apply Qfloor_le | apply Qlt_floor].
Qed.

Lemma Qcfloor_unique x z : (Zc z <= x)%Qc -> (x < Zc (z + 1))%Qc -> Qcfloor x = z.
Proof.
  intros H1 H2. destruct (Qcfloor_spec x) as [H3 H4].
  assert (Zc z < Zc (Qcfloor x + 1))%Qc by qclra.
  assert (Zc (Qcfloor x) < Zc (z + 1))%Qc by qclra.
  rewrite Zc_lt in *. lia.
Qed.

Lemma Qcfloor_Zc z : Qcfloor (Zc z) = z.
Proof. apply Qcfloor_unique; [apply Zc_le | apply Zc_lt]; lia. Qed.

Lemma Qcfloor_add x z : Qcfloor (x + Zc z)%Qc = Qcfloor x + z.
Proof.
  destruct (Qcfloor_spec x) as [H1 H2].
  apply Qcfloor_unique; rewrite ?Zc_plus in *; qclra.
Qed.

Lemma mod1_range x : (0 <= mod1 x)%Qc /\ (mod1 x < 1)%Qc.
Proof.
  unfold mod1. destruct (Qcfloor_spec x) as [H1 H2]. rewrite Zc_plus, Zc_1 in H2.
  split; qclra.
Qed.

Lemma mod1_add x z : mod1 (x + Zc z)%Qc = mod1 x.
Proof. unfold mod1. rewrite Qcfloor_add, Zc_plus. ring. Qed.

Lemma mod1_eq x y : mod1 x = mod1 y <-> exists z, y = (x + Zc z)%Qc.
Proof.
  split.
  - intros H. exists (Qcfloor y - Qcfloor x). unfold mod1 in H. rewrite Zc_minus.
    generalize dependent (Zc (Qcfloor x)). generalize (Zc (Qcfloor y)). intros fy fx H.
    transitivity (y - fy + fy)%Qc; [ring|]. rewrite <- H. ring.
  - intros [z ->]. now rewrite mod1_add.
Qed.

(** rounding *)
Lemma round_even_near x : (Zc (round_even x) - Q2Qc (1#2) <= x)%Qc /\ (x <= Zc (round_even x) + Q2Qc (1#2))%Qc.
Proof.
  unfold round_even. set (f := Qcfloor x). destruct (Qcfloor_spec x) as [H1 H2]. fold f in H1, H2.
  rewrite Zc_plus, Zc_1 in H2.
  destruct (Qcltb _ _) eqn:E1.
  - apply Qcltb_lt in E1. split; qclra.
  - apply Qcltb_ge in E1. destruct (Qceqb _ _) eqn:E2.
    + apply Qceqb_eq in E2. destruct (Z.even f); rewrite ?Zc_plus, ?Zc_1; split; qclra.
    + rewrite Zc_plus, Zc_1. split; qclra.
Qed.

Lemma round_even_unique x z :
  (Zc z - Q2Qc (1#2) < x)%Qc -> (x < Zc z + Q2Qc (1#2))%Qc -> round_even x = z.
Proof.
  intros H1 H2. destruct (round_even_near x) as [H3 H4].
  assert (Zc (round_even x) < Zc (z + 1))%Qc by (rewrite Zc_plus, Zc_1; qclra).
  assert (Zc z < Zc (round_even x + 1))%Qc by (rewrite Zc_plus, Zc_1; qclra).
  rewrite Zc_lt in *. lia.
Qed.

Lemma round_even_Zc z : round_even (Zc z) = z.
Proof. apply round_even_unique; qclra. Qed.

Lemma round_even_add_even x z : Z.even z = true -> round_even (x + Zc z)%Qc = round_even x + z.
Proof.
  intros E. unfold round_even. rewrite Qcfloor_add.
  replace (x + Zc z - Zc (Qcfloor x + z))%Qc with (x - Zc (Qcfloor x))%Qc by (rewrite Zc_plus; ring).
  destruct (Qcltb _ _); [reflexivity|]. destruct (Qceqb _ _); [|lia].
  rewrite Z.even_add, E. destruct (Z.even (Qcfloor x)); cbn; lia.
Qed.

Lemma Zc_pow10_pos d : (0 < Zc (Zpos (pow10 d)))%Qc.
Proof. rewrite <- Zc_0. apply Zc_lt. lia. Qed.

Lemma Q2Qc_frac n d : Q2Qc (n # d) = (Zc n / Zc (Zpos d))%Qc.
Proof.
  apply Qc_is_canon. rewrite this_Q2Qc. unfold Qcdiv. rewrite this_mult, this_inv, !this_Zc.
  unfold Qeq, Qinv, inject_Z; cbn. lia.
Qed.

Lemma around_frac d k : around d (Q2Qc (k # pow10 d)) = Q2Qc (k # pow10 d).
Proof.
  unfold around. f_equal. f_equal. rewrite Q2Qc_frac. unfold Qcdiv.
  rewrite <- Qcmult_assoc, (Qcmult_comm (/ _)%Qc), Qcmult_inv_r, Qcmult_1_r.
  - apply round_even_Zc.
  - intros H. pose proof (Zc_pow10_pos d). rewrite H in *. eapply Qclt_not_eq; eauto.
Qed.

Lemma around_idem d x : around d (around d x) = around d x.
Proof. unfold around at 2 3. now rewrite around_frac. Qed.

Lemma frac_mult n d : (Q2Qc (n # d) * Zc (Zpos d))%Qc = Zc n.
Proof.
  rewrite Q2Qc_frac. unfold Qcdiv.
  rewrite <- Qcmult_assoc, (Qcmult_comm (/ _)%Qc), Qcmult_inv_r, Qcmult_1_r; [reflexivity|].
  intros H. rewrite <- Zc_0 in H. apply Zc_inj in H. lia.
Qed.

Lemma around_near d x :
  (Zc 2 * (around d x - x) * Zc (Zpos (pow10 d)) <= 1)%Qc /\
  (Zc 2 * (x - around d x) * Zc (Zpos (pow10 d)) <= 1)%Qc.
Proof.
  unfold around. destruct (round_even_near (x * Zc (Zpos (pow10 d)))%Qc) as [H1 H2].
  set (k := round_even _) in *. set (P := Zc (Zpos (pow10 d))) in *.
  replace (Zc 2 * (Q2Qc (k # pow10 d) - x) * P)%Qc with (Zc 2 * (Q2Qc (k # pow10 d) * P - x * P))%Qc by ring.
  replace (Zc 2 * (x - Q2Qc (k # pow10 d)) * P)%Qc with (Zc 2 * (x * P - Q2Qc (k # pow10 d) * P))%Qc by ring.
  unfold P. rewrite frac_mult. fold P. clearbody k. generalize dependent (x * P)%Qc. intros y H1 H2.
  split; qcpush; change (inject_Z 2) with 2%Q; change (this 1%Qc) with 1%Q; lra.
Qed.
