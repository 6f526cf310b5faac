(** Sorting keys of the grid-based generator on grid positions. *)
From Coq Require Import Sorted.
From Verif Require Import Base LBase BaseQ LQ MGeneralCell MSort SSort LSort SGeneralCell LGeneralCell SSym LSym MGrid SGrid LGrid LGrid2 MLegacy SLegacy.
Set Implicit Arguments.
Unset Strict Implicit.
Open Scope Z_scope.

Lemma round_even_le x y : (x <= y)%Qc -> round_even x <= round_even y.
Proof.
  intros H. destruct (Z_le_gt_dec (round_even x) (round_even y)) as [L|G]; [assumption|exfalso].
  destruct (round_even_near x) as [A1 A2]. destruct (round_even_near y) as [B1 B2].
  assert (E : (Zc (round_even y) + 1 <= Zc (round_even x))%Qc).
  { rewrite <- Zc_1, <- Zc_plus. apply Zc_le. lia. }
  assert (X : x = y) by (apply Qcle_antisym; [assumption|]; qclra). subst y. lia.
Qed.
Lemma around_le n x y : (x <= y)%Qc -> (around n x <= around n y)%Qc.
Proof.
  intros H. unfold around. assert (P := Zc_pow10_pos n).
  assert (L : round_even (x * Zc (Zpos (pow10 n))) <= round_even (y * Zc (Zpos (pow10 n)))).
  { apply round_even_le. apply Qcmult_le_compat_r; [assumption|]. now apply Qclt_le_weak. }
  unfold Qcle. rewrite !this_Q2Qc. unfold Qle; cbn. nia.
Qed.
Lemma around_lt n x y : ((1 : Qc) < (y - x) * Zc (Zpos (pow10 n)))%Qc -> (around n x < around n y)%Qc.
Proof.
  intros H. assert (P := Zc_pow10_pos n). unfold around.
  assert (L : round_even (x * Zc (Zpos (pow10 n))) < round_even (y * Zc (Zpos (pow10 n)))).
  { destruct (round_even_near (x * Zc (Zpos (pow10 n)))) as [A1 A2]. destruct (round_even_near (y * Zc (Zpos (pow10 n)))) as [B1 B2].
    apply Zc_lt. revert A1 A2 B1 B2 H. generalize (Zc (round_even (x * Zc (Zpos (pow10 n))))) (Zc (round_even (y * Zc (Zpos (pow10 n))))).
    generalize (Zc (Zpos (pow10 n))). intros p a b A1 A2 B1 B2 H. assert (E : ((y - x) * p = y * p - x * p)%Qc) by ring. rewrite E in H. qclra. }
  unfold Qclt. rewrite !this_Q2Qc. unfold Qlt; cbn. nia.
Qed.
Lemma around_0 n : around n 0 = 0%Qc.
Proof. replace 0%Qc with (Q2Qc (0 # pow10 n)); [apply around_frac|]. apply Qc_is_canon. rewrite this_Q2Qc. reflexivity. Qed.

Lemma pow10_even n : Z.even (Zpos (pow10 (S n))) = true.
Proof. cbn [pow10]. rewrite Pos2Z.inj_mul, Z.even_mul. reflexivity. Qed.
Lemma around_add_int n x z : around (S n) (x + Zc z)%Qc = (around (S n) x + Zc z)%Qc.
Proof.
  unfold around. set (p := pow10 (S n)).
  assert (E : ((x + Zc z) * Zc (Zpos p) = x * Zc (Zpos p) + Zc (z * Zpos p))%Qc) by (rewrite Zc_mult; ring).
  rewrite E, round_even_add_even by (rewrite Z.even_mul; unfold p; rewrite pow10_even; apply orb_true_r).
  apply Qc_is_canon. rewrite this_plus, !this_Q2Qc, this_Zc. unfold Qeq, Qplus, inject_Z; cbn [Qnum Qden]. lia.
Qed.
Lemma wrap_key1_add n x z : wrap_key1 (S n) (x + Zc z)%Qc = wrap_key1 (S n) x.
Proof. unfold wrap_key1. now rewrite around_add_int, mod1_add. Qed.
Lemma wrap_key_shift n p q : int_shift p q -> wrap_key (S n) q = wrap_key (S n) p.
Proof. intros [a [b [c ->]]]. destruct p as [p1 p2 p3]. unfold wrap_key, vmap. cbn. now rewrite !wrap_key1_add. Qed.

Lemma mod1_small x : (0 <= x)%Qc -> (x < 1)%Qc -> mod1 x = x.
Proof.
  intros H1 H2. unfold mod1. rewrite (@Qcfloor_unique x 0).
  - rewrite Zc_0. ring.
  - now rewrite Zc_0.
  - change (0 + 1) with 1. now rewrite Zc_1.
Qed.
Definition top : Qc := Q2Qc (999 # 1000).
Lemma around_top n : (3 <= n)%nat -> around n top = top.
Proof.
  intros H. assert (E : exists k, top = Q2Qc (k # pow10 n)).
  { destruct n as [|[|[|n]]]; try lia. clear H. exists (999 * Zpos (pow10 n)). unfold top. apply Qc_is_canon. rewrite !this_Q2Qc.
    unfold Qeq; cbn [Qnum Qden pow10]. lia. }
  destruct E as [k ->]. apply around_frac.
Qed.
Lemma wrap_key1_in n x : (3 <= n)%nat -> (0 <= x)%Qc -> (x <= top)%Qc -> wrap_key1 n x = around 3 (around n x).
Proof.
  intros Hn H1 H2. unfold wrap_key1. rewrite mod1_small; [reflexivity| |].
  - rewrite <- (around_0 n). now apply around_le.
  - apply Qcle_lt_trans with top; [|reflexivity]. rewrite <- (around_top Hn). now apply around_le.
Qed.
Definition gap : Qc := Q2Qc (101 # 100000).
Lemma wrap_key1_lt n x y : (n = 3 \/ 5 <= n)%nat -> (0 <= x)%Qc -> (y <= top)%Qc -> (gap < y - x)%Qc -> (wrap_key1 n x < wrap_key1 n y)%Qc.
Proof.
  intros Hn H1 H2 H3. assert (P3 : Zc (Zpos (pow10 3)) = Q2Qc 1000) by reflexivity.
  assert (G : (0 < gap)%Qc) by reflexivity.
  assert (H5 : (x <= top)%Qc) by (clear P3; qclra). assert (H6 : (0 <= y)%Qc) by (clear P3; qclra).
  rewrite !wrap_key1_in by (try assumption; lia).
  destruct Hn as [->|Hn].
  - rewrite !around_idem. apply around_lt. rewrite P3. unfold gap in *. qclra.
  - apply around_lt. rewrite P3.
    destruct (around_near n x) as [A1 A2]. destruct (around_near n y) as [B1 B2].
    set (p := Zc (Zpos (pow10 n))) in *. assert (Hp : (Q2Qc 100000 <= p)%Qc).
    { unfold p. change (Q2Qc 100000) with (Zc 100000). apply Zc_le. destruct n as [|[|[|[|[|m]]]]]; try lia. cbn [pow10]. lia. }
    unfold gap in H3. change (Zc 2) with (Q2Qc 2) in *.
    assert (X1 : (around n x - x <= Q2Qc (1 # 200000))%Qc).
    { clear - A1 Hp. revert A1. generalize (around n x - x)%Qc. intros t A. destruct (Qclt_le_dec (Q2Qc (1 # 200000)) t) as [L|L]; [exfalso|assumption].
      assert (M : (Q2Qc (1 # 200000) * p < t * p)%Qc) by (apply Qcmult_lt_compat_r; [qclra|assumption]).
      replace (Q2Qc 2 * t * p)%Qc with (Q2Qc 2 * (t * p))%Qc in A by ring. revert M A. generalize (t * p)%Qc. intros u M A. qclra. }
    assert (X2 : (y - around n y <= Q2Qc (1 # 200000))%Qc).
    { clear - B2 Hp. revert B2. generalize (y - around n y)%Qc. intros t A. destruct (Qclt_le_dec (Q2Qc (1 # 200000)) t) as [L|L]; [exfalso|assumption].
      assert (M : (Q2Qc (1 # 200000) * p < t * p)%Qc) by (apply Qcmult_lt_compat_r; [qclra|assumption]).
      replace (Q2Qc 2 * t * p)%Qc with (Q2Qc 2 * (t * p))%Qc in A by ring. revert M A. generalize (t * p)%Qc. intros u M A. qclra. }
    clear - H3 X1 X2. qclra.
Qed.

(** positions i/d *)
Lemma frac_bounds (i d : nat) : (i < d)%nat -> (d <= 990)%nat ->
  (0 <= Zc (Z.of_nat i) / Zc (Z.of_nat d))%Qc /\ (Zc (Z.of_nat i) / Zc (Z.of_nat d) <= top)%Qc.
Proof.
  intros H1 H2. destruct d as [|d]; [lia|]. unfold top. replace (Z.of_nat (S d)) with (Zpos (Pos.of_succ_nat d)) by reflexivity.
  rewrite <- Q2Qc_frac. unfold Qcle. rewrite !this_Q2Qc. unfold Qle. cbn [Qnum Qden]. rewrite Zpos_P_of_succ_nat. change (Qnum (this 0%Qc)) with 0. change (QDen (this 0%Qc)) with 1.
  lia.
Qed.
Lemma frac_gap (i j d : nat) : (i < j)%nat -> (j < d)%nat -> (d <= 990)%nat -> (gap < Zc (Z.of_nat j) / Zc (Z.of_nat d) - Zc (Z.of_nat i) / Zc (Z.of_nat d))%Qc.
Proof.
  intros H1 H2 H3. destruct d as [|d]; [lia|]. replace (Z.of_nat (S d)) with (Zpos (Pos.of_succ_nat d)) by reflexivity.
  assert (E : (Zc (Z.of_nat j) / Zc (Zpos (Pos.of_succ_nat d)) - Zc (Z.of_nat i) / Zc (Zpos (Pos.of_succ_nat d)) = Zc (Z.of_nat j - Z.of_nat i) / Zc (Zpos (Pos.of_succ_nat d)))%Qc).
  { rewrite Zc_minus. unfold Qcdiv. ring. }
  rewrite E, <- Q2Qc_frac. unfold gap, Qclt. rewrite !this_Q2Qc. unfold Qlt. cbn [Qnum Qden]. rewrite Zpos_P_of_succ_nat. lia.
Qed.
Lemma frac_key_lt n (i j d : nat) : (n = 3 \/ 5 <= n)%nat -> (i < j)%nat -> (j < d)%nat -> (d <= 990)%nat ->
  (wrap_key1 n (Zc (Z.of_nat i) / Zc (Z.of_nat d)) < wrap_key1 n (Zc (Z.of_nat j) / Zc (Z.of_nat d)))%Qc.
Proof.
  intros Hn H1 H2 H3. apply wrap_key1_lt; [assumption| | |now apply frac_gap].
  - apply frac_bounds; lia.
  - apply frac_bounds; lia.
Qed.

(** all sites *)
Lemma all_sites_planes d w l : all_sites d w l = List.map (fun p => let '(c, b, a) := p in site d w l c b a) (concat (concat (pos_planes d w l))).
Proof.
  unfold all_sites. rewrite <- yield_position_planes. unfold yield_position, range.
  induction (seq 0 d) as [|c r IH]; cbn; [reflexivity|]. rewrite map_app, IH. apply f_equal2; [|reflexivity]. clear IH.
  induction (seq 0 w) as [|b s IHs]; cbn; [reflexivity|]. rewrite map_app, IHs. apply f_equal2; [|reflexivity]. rewrite map_map. reflexivity.
Qed.
Lemma all_sites_length d w l : length (all_sites d w l) = (d * w * l)%nat.
Proof. rewrite all_sites_planes, map_length. apply (shaped_concat (pos_planes_shaped d w l)). Qed.
Lemma all_sites_nth d w l i j k : in_grid d w l i j k -> nth_error (all_sites d w l) ((i * w + j) * l + k) = Some (site d w l i j k).
Proof.
  intros [Hi [Hj Hk]]. rewrite all_sites_planes, nth_error_map, (nth_concat2 (pos_planes_shaped d w l)), pos_planes_entry by assumption. reflexivity.
Qed.
Lemma split_index d w l n : (n < d * w * l)%nat -> exists i j k, in_grid d w l i j k /\ n = ((i * w + j) * l + k)%nat.
Proof.
  intros Hn. assert (l <> 0)%nat by nia. assert (w <> 0)%nat by nia.
  exists (n / l / w)%nat, ((n / l) mod w)%nat, (n mod l)%nat.
  assert (n / l < d * w)%nat by (apply Nat.div_lt_upper_bound; lia).
  split; [split; [apply Nat.div_lt_upper_bound; lia|split; now apply Nat.mod_upper_bound]|].
  rewrite (Nat.mul_comm (n / l / w) w), <- Nat.div_mod by assumption. rewrite (Nat.mul_comm (n / l) l). now apply Nat.div_mod.
Qed.
Lemma digit_lt (a b n r s : nat) : (r < n)%nat -> (s < n)%nat -> (a * n + r < b * n + s)%nat -> (a < b \/ (a = b /\ r < s))%nat.
Proof.
  intros H1 H2 H. destruct (Nat.lt_trichotomy a b) as [L|[E|L]]; [now left|right; subst; lia|exfalso].
  assert (b * n + n <= a * n)%nat by (replace (b * n + n)%nat with (S b * n)%nat by lia; apply Nat.mul_le_mono_r; lia). lia.
Qed.
Lemma digit_eq (a b n r s : nat) : (r < n)%nat -> (s < n)%nat -> (a * n + r = b * n + s)%nat -> (a = b /\ r = s)%nat.
Proof.
  intros H1 H2 H. destruct (Nat.lt_trichotomy a b) as [L|[E|L]]; [exfalso|subst; lia|exfalso].
  - assert (a * n + n <= b * n)%nat by (replace (a * n + n)%nat with (S a * n)%nat by lia; apply Nat.mul_le_mono_r; lia). lia.
  - assert (b * n + n <= a * n)%nat by (replace (b * n + n)%nat with (S b * n)%nat by lia; apply Nat.mul_le_mono_r; lia). lia.
Qed.
Lemma all_sites_keys n d w l : (n = 3 \/ 5 <= n)%nat -> (d <= 990)%nat -> (w <= 990)%nat -> (l <= 990)%nat ->
  StronglySorted vlt (List.map (wrap_key n) (all_sites d w l)).
Proof.
  intros Hn Hd Hw Hl. apply nth_StronglySorted. intros a b x y L Ha Hb. rewrite nth_error_map in Ha, Hb.
  assert (La : (a < d * w * l)%nat) by (rewrite <- all_sites_length; apply nth_error_Some; destruct (nth_error (all_sites d w l) a); cbn in *; congruence).
  assert (Lb : (b < d * w * l)%nat) by (rewrite <- all_sites_length; apply nth_error_Some; destruct (nth_error (all_sites d w l) b); cbn in *; congruence).
  destruct (split_index La) as [i [j [k [G E]]]]. destruct (split_index Lb) as [i' [j' [k' [G' E']]]]. subst a b.
  rewrite (all_sites_nth G) in Ha. rewrite (all_sites_nth G') in Hb. cbn in Ha, Hb. injection Ha as <-. injection Hb as <-.
  destruct G as [G1 [G2 G3]], G' as [G1' [G2' G3']]. unfold vlt, wrap_key, vmap, site; cbn.
  assert (C : (i < i' \/ (i = i' /\ (j < j' \/ (j = j' /\ k < k'))))%nat).
  { destruct (digit_lt G3 G3' L) as [M|[M1 M2]].
    - destruct (digit_lt G2 G2' M) as [M'|[M1' M2']]; [now left|right]. auto.
    - destruct (digit_eq G2 G2' M1) as [Z1 Z2]; auto. }
  destruct C as [C|[<- [C|[<- C]]]].
  - left. now apply frac_key_lt.
  - right. split; [reflexivity|]. left. now apply frac_key_lt.
  - right. split; [reflexivity|]. right. split; [reflexivity|]. now apply frac_key_lt.
Qed.
