(** POSCAR text: shape of the written text. *)
From Coq Require Import String Ascii Sorted DecimalString.
From Verif Require Import Base LBase BaseQ LQ SElement MElement LElement MSort LSort MGeneralCell SGeneralCell LGeneralCell
  MText LText MIO SIO.
Set Implicit Arguments.
Unset Strict Implicit.
Open Scope Z_scope.
Open Scope string_scope.

(** *** numerals *)
Lemma digit_of_val c : digit_of c = digit_val c.
Proof. destruct c as [b0 b1 b2 b3 b4 b5 b6 b7]. destruct b0, b1, b2, b3, b4, b5, b6, b7; reflexivity. Qed.
Lemma numeral_app s : forall p v k, numeral p v k -> allc is_digit_c s = true ->
  numeral (p ++ s) (fold_left (fun a d => 10 * a + d) (digits_of s) v) (k + String.length s).
Proof.
  induction s as [|c s IH]; intros p v k N H; cbn.
  - rewrite app_nil_s, Nat.add_0_r. exact N.
  - cbn in H. apply andb_true_iff in H. destruct H as [H1 H2]. unfold is_digit_c in H1.
    destruct (digit_val c) as [d|] eqn:D; [|discriminate].
    unfold digits_of. cbn. rewrite D. destruct (span_digits s) as [ds t] eqn:E. cbn.
    assert (Ns : numeral (p ++ String c "") (10 * v + d) (S k)) by (apply num_snoc; [exact N|rewrite digit_of_val; exact D]).
    specialize (IH _ _ _ Ns H2). unfold digits_of in IH. rewrite E in IH. cbn in IH.
    rewrite app_assoc_s in IH. cbn in IH. rewrite Nat.add_succ_r. exact IH.
Qed.
Lemma numeral_digits s : allc is_digit_c s = true -> numeral s (digits_val (digits_of s)) (String.length s).
Proof. intros H. exact (@numeral_app s "" 0 0%nat num_nil H). Qed.

(** *** one number *)
Definition mant (x : Qc) : Z := round_even ((if Qcltb x 0%Qc then - x else x) * Zc (Zpos (pow10 6)))%Qc.
Definition fsign (x : Qc) : string := if Qcltb x 0%Qc then "-" else "".
(** the value written *)
Definition fval (x : Qc) : Qc := Q2Qc ((if Qcltb x 0%Qc then -1 else 1) * mant x # pow10 6).
Definition fword (x : Qc) : string :=
  fsign x ++ (decN (mant x / Zpos (pow10 6)) ++ String "." (fixed 6 (mant x mod Zpos (pow10 6)))).

Lemma blanks_spaces n : blanks (spaces n).
Proof. induction n; cbn; constructor; auto. Qed.
Lemma spaces_blank n : allc is_space (spaces n) = true.
Proof. induction n; cbn; auto. Qed.
Lemma format_eq x : exists n, format_10_6f x = spaces n ++ fword x.
Proof. unfold format_10_6f, pad_left. eexists. reflexivity. Qed.

Lemma mant_nonneg x : 0 <= mant x.
Proof.
  unfold mant. set (y := ((if Qcltb x 0 then - x else x) * Zc (Zpos (pow10 6)))%Qc).
  assert (Y : (0 <= y)%Qc).
  { assert (A : (0 <= (if Qcltb x 0 then - x else x))%Qc).
    { clear y. destruct (Qcltb x 0) eqn:E; [apply Qcltb_lt in E; qclra|apply Qcltb_ge in E; exact E]. }
    pose proof (Qcmult_le_compat_r _ _ _ A (Qclt_le_weak _ _ (Zc_pow10_pos 6))) as B. rewrite Qcmult_0_l in B. exact B. }
  destruct (round_even_near y) as [_ H]. destruct (Z_lt_le_dec (round_even y) 0) as [L|L]; [|exact L].
  exfalso. assert (K : (Zc (round_even y) <= Zc (-1))%Qc) by (apply Zc_le; lia).
  assert ((0 <= Zc (-1) + Q2Qc (1 # 2))%Qc) as B by qclra. vm_compute in B. apply B. reflexivity.
Qed.

Lemma fsign_eqb x : (if String.eqb (fsign x) "-" then -1 else 1) = (if Qcltb x 0%Qc then -1 else 1).
Proof. unfold fsign. destruct (Qcltb x 0); reflexivity. Qed.
Lemma fsign_cases x : fsign x = "" \/ fsign x = "-".
Proof. unfold fsign. destruct (Qcltb x 0); auto. Qed.

Lemma frac_part x : 0 <= mant x mod Zpos (pow10 6) < 10 ^ Z.of_nat 6.
Proof. exact (Z.mod_pos_bound (mant x) (Zpos (pow10 6)) eq_refl). Qed.
Lemma int_part x : 0 <= mant x / Zpos (pow10 6).
Proof. apply Z.div_pos; [apply mant_nonneg|reflexivity]. Qed.
Lemma mant_split x : mant x / Zpos (pow10 6) * 10 ^ Z.of_nat 6 + mant x mod Zpos (pow10 6) = mant x.
Proof. rewrite Z.mul_comm. symmetry. exact (Z.div_mod (mant x) (Zpos (pow10 6)) ltac:(discriminate)). Qed.

Lemma fword_word x : is_word (fword x).
Proof.
  destruct (fixed_spec (frac_part x)) as (F & _ & _). split.
  - unfold fword. rewrite !allc_app. cbn [allc]. rewrite andb_true_iff. split.
    + destruct (fsign_cases x) as [-> | ->]; reflexivity.
    + rewrite (allc_impl digit_not_space (decN_digits _)). rewrite (allc_impl digit_not_space F). reflexivity.
  - unfold fword. destruct (fsign_cases x) as [-> | ->]; [|discriminate]. pose proof (@decN_nonempty (mant x / Zpos (pow10 6))).
    destruct (decN (mant x / Zpos (pow10 6))); [congruence|discriminate].
Qed.
Lemma fword_parse x : parse_float (fword x) = Ok (fval x).
Proof.
  destruct (fixed_spec (frac_part x)) as (F & L & V). unfold fword.
  rewrite parse_float_point; auto using fsign_cases, decN_digits, decN_nonempty.
  rewrite fsign_eqb, decN_val, L, V, mant_split by apply int_part. reflexivity.
Qed.

Lemma fval_within x : within (Q2Qc (1 # 2000000)) x (fval x).
Proof.
  unfold fval, mant. set (P := pow10 6). 
  set (y := ((if Qcltb x 0 then - x else x) * Zc (Zpos P))%Qc).
  destruct (round_even_near y) as [H1 H2]. set (m := round_even y) in *. clearbody m.
  rewrite (Q2Qc_frac _ P). unfold within.
  assert (E : Zc (Zpos P) = Zc 1000000) by reflexivity. unfold y in *. rewrite E in *.
  assert (Z6 : (Zc 1000000 <> 0)%Qc) by (intros K; rewrite <- Zc_0 in K; apply Zc_inj in K; lia).
  destruct (Qcltb x 0).
  - assert (X : x = (- ((- x) * Zc 1000000) / Zc 1000000)%Qc) by (field; exact Z6).
    set (w := (- x * Zc 1000000)%Qc) in *. clearbody w. subst x. rewrite Zc_mult.
    clear E Z6. split; unfold Qcdiv; qcpush; rewrite ?this_inv, ?this_Zc in *; change (/ inject_Z 1000000)%Q with (1 # 1000000)%Q; change (inject_Z (-1)) with (-1)%Q; change (inject_Z 1) with 1%Q; lra.
  - assert (X : x = (x * Zc 1000000 / Zc 1000000)%Qc) by (field; exact Z6).
    set (w := (x * Zc 1000000)%Qc) in *. clearbody w. subst x. rewrite Zc_mult.
    clear E Z6. split; unfold Qcdiv; qcpush; rewrite ?this_inv, ?this_Zc in *; change (/ inject_Z 1000000)%Q with (1 # 1000000)%Q; change (inject_Z (-1)) with (-1)%Q; change (inject_Z 1) with 1%Q; lra.
Qed.

Lemma format_shows x : shows x (format_10_6f x).
Proof.
  exists (fval x). split; [|apply fval_within].
  destruct (format_eq x) as [n E]. destruct (fixed_spec (frac_part x)) as (F & L & V).
  exists (spaces n), (fsign x), (decN (mant x / Zpos (pow10 6))), (fixed 6 (mant x mod Zpos (pow10 6))),
    (mant x / Zpos (pow10 6)), (mant x mod Zpos (pow10 6)), (pred (String.length (decN (mant x / Zpos (pow10 6))))).
  split; [apply blanks_spaces|]. split; [apply fsign_cases|]. split; [|split; [|split; [exact E|]]].
  - pose proof (numeral_digits (decN_digits (mant x / Zpos (pow10 6)))) as K. rewrite decN_val in K by apply int_part.
    pose proof (@decN_nonempty (mant x / Zpos (pow10 6))) as NE. destruct (decN (mant x / Zpos (pow10 6))); [congruence|exact K].
  - pose proof (numeral_digits F) as K. rewrite V, L in K. exact K.
  - unfold fval. rewrite Q2Qc_frac, Zc_mult. rewrite <- (mant_split x) at 1. rewrite Zc_plus, Zc_mult.
    change (Zc (10 ^ Z.of_nat 6)) with (Zc 1000000). change (Zc (Zpos (pow10 6))) with (Zc 1000000).
    assert (Z6 : (Zc 1000000 <> 0)%Qc) by (intros K; rewrite <- Zc_0 in K; apply Zc_inj in K; lia).
    unfold fsign. destruct (Qcltb x 0); cbn [String.eqb Ascii.eqb Bool.eqb].
    + change (String.eqb "-" "-") with true. cbv iota. change (Zc (-1)) with (-(1))%Qc. field. exact Z6.
    + change (String.eqb "" "-") with false. cbv iota. change (Zc 1) with 1%Qc. field. exact Z6.
Qed.
