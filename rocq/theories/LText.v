(** Lemmas on Python text. *)
From Coq Require Import String Ascii DecimalString.
From Coq Require DecimalN DecimalNat DecimalPos DecimalFacts.
From Verif Require Import Base LBase BaseQ LQ MText.
Set Implicit Arguments.
Unset Strict Implicit.
Open Scope Z_scope.
Open Scope string_scope.

Lemma app_assoc_s a b c : (a ++ b) ++ c = a ++ (b ++ c).
Proof. induction a as [|x a IH]; cbn; [reflexivity|]. now rewrite IH. Qed.
Lemma app_nil_s a : a ++ "" = a.
Proof. induction a as [|x a IH]; cbn; [reflexivity|]. now rewrite IH. Qed.
Lemma snoc_app a c b : snoc a c ++ b = a ++ String c b.
Proof. unfold snoc. now rewrite app_assoc_s. Qed.

Fixpoint allc (P : ascii -> bool) (s : string) : bool := match s with EmptyString => true | String c r => P c && allc P r end.
Lemma allc_app P a b : allc P (a ++ b) = allc P a && allc P b.
Proof. induction a as [|x a IH]; cbn; [reflexivity|]. rewrite IH. now rewrite andb_assoc. Qed.
Lemma allc_impl (P Q : ascii -> bool) s : (forall c, P c = true -> Q c = true) -> allc P s = true -> allc Q s = true.
Proof. intros H. induction s as [|c s IH]; cbn; [auto|]. rewrite !andb_true_iff. intros [A B]. auto. Qed.
Lemma blank_allc s : blank s = allc is_space s.
Proof. induction s as [|c s IH]; cbn; [reflexivity|]. now rewrite IH. Qed.
Definition noblank (c : ascii) : bool := negb (is_space c).

(** *** split *)
Lemma flush_app cur l : flush cur l = (flush cur [] ++ l)%list.
Proof. destruct cur; reflexivity. Qed.
Lemma split_ws_word w : forall cur r, allc noblank w = true -> split_ws cur (w ++ r) = split_ws (cur ++ w) r.
Proof.
  induction w as [|c w IH]; intros cur r H; cbn.
  - now rewrite app_nil_s.
  - cbn in H. apply andb_true_iff in H. destruct H as [H1 H2]. unfold noblank in H1. apply negb_true_iff in H1.
    rewrite H1, IH by assumption. f_equal. apply snoc_app.
Qed.
Lemma split_ws_blank b : forall r, allc is_space b = true -> split_ws "" (b ++ r) = split_ws "" r.
Proof.
  induction b as [|c b IH]; intros r H; cbn; [reflexivity|]. cbn in H. apply andb_true_iff in H. destruct H as [H1 H2].
  rewrite H1. cbn. auto.
Qed.
Definition is_word (w : string) : Prop := allc noblank w = true /\ w <> "".
(** A word followed by a blank. *)
Lemma split_cons b w c r : allc is_space b = true -> is_word w -> is_space c = true ->
  split (b ++ (w ++ String c r)) = w :: split r.
Proof.
  intros B [W1 W2] C. unfold split. rewrite split_ws_blank, split_ws_word by assumption. cbn. rewrite C.
  destruct w; [congruence|reflexivity].
Qed.
Lemma split_last b w : allc is_space b = true -> is_word w -> split (b ++ w) = [w].
Proof.
  intros B [W1 W2]. unfold split. rewrite split_ws_blank by assumption. rewrite <- (app_nil_s w) at 1.
  rewrite split_ws_word by assumption. cbn. destruct w; [congruence|reflexivity].
Qed.
Lemma split_empty : split "" = [].
Proof. reflexivity. Qed.
Lemma split_words ws : Forall is_word ws -> split (String.concat " " ws) = ws.
Proof.
  induction 1 as [|w ws W F IH]; [reflexivity|]. destruct ws as [|v ws].
  - cbn. apply (@split_last "" w); auto.
  - change (String.concat " " (w :: v :: ws)) with (w ++ String " " (String.concat " " (v :: ws))).
    rewrite (@split_cons "" w " " (String.concat " " (v :: ws)) eq_refl W eq_refl : split (w ++ _) = _). now rewrite IH.
Qed.

(** *** lines *)
Definition no_nl (c : ascii) : bool := negb (Ascii.eqb c newline).
Lemma split_on_line l : forall cur r, allc no_nl l = true -> split_on newline cur (l ++ r) = split_on newline (cur ++ l) r.
Proof.
  induction l as [|c l IH]; intros cur r H; cbn.
  - now rewrite app_nil_s.
  - cbn in H. apply andb_true_iff in H. destruct H as [H1 H2]. unfold no_nl in H1. apply negb_true_iff in H1.
    rewrite H1, IH by assumption. f_equal. apply snoc_app.
Qed.
Lemma split_lines_cons l r : allc no_nl l = true -> split_lines (l ++ String newline r) = l :: split_lines r.
Proof. intros H. unfold split_lines. rewrite split_on_line by assumption. reflexivity. Qed.
Lemma split_lines_one l : allc no_nl l = true -> split_lines l = [l].
Proof. intros H. unfold split_lines. rewrite <- (app_nil_s l) at 1. rewrite split_on_line by assumption. reflexivity. Qed.

(** *** digits *)
Lemma code_range c : 0 <= code c < 256.
Proof. unfold code. pose proof (N_ascii_bounded c). lia. Qed.
Lemma code_digit_char d : 0 <= d <= 9 -> code (digit_char d) = 48 + d.
Proof. intros H. unfold code, digit_char. rewrite N_ascii_embedding by lia. lia. Qed.
Lemma digit_val_char d : 0 <= d <= 9 -> digit_val (digit_char d) = Some d.
Proof.
  intros H. unfold digit_val. rewrite code_digit_char by assumption.
  destruct (Z.leb_spec 48 (48 + d)); [|lia]. destruct (Z.leb_spec (48 + d) 57); [|lia]. cbn [andb]. f_equal. lia.
Qed.
Definition is_digit_c (c : ascii) : bool := match digit_val c with Some _ => true | None => false end.
Lemma digit_val_range c d : digit_val c = Some d -> 0 <= d <= 9.
Proof.
  unfold digit_val. destruct ((48 <=? code c)%Z && (code c <=? 57)%Z) eqn:E; [|discriminate]. intros [= <-].
  apply andb_true_iff in E. rewrite !Z.leb_le in E. lia.
Qed.
Definition digits_of (s : string) : list Z := fst (span_digits s).
Lemma span_digits_app s r : allc is_digit_c s = true -> match r with EmptyString => True | String c _ => digit_val c = None end ->
  span_digits (s ++ r) = (digits_of s, r).
Proof.
  unfold digits_of, is_digit_c. intros H R. induction s as [|c s IH]; cbn.
  - destruct r as [|c r]; cbn; [reflexivity|]. now rewrite R.
  - cbn in H. destruct (digit_val c) as [d|]; [|discriminate]. cbn in H. rewrite (IH H).
    destruct (span_digits s) as [ds t] eqn:E. reflexivity.
Qed.
Lemma digits_of_app s t : allc is_digit_c s = true -> digits_of (s ++ t) = (digits_of s ++ digits_of t)%list.
Proof.
  unfold digits_of, is_digit_c. induction s as [|c s IH]; cbn; [reflexivity|].
  destruct (digit_val c) as [d|]; [|discriminate]. cbn. intros H. specialize (IH H).
  destruct (span_digits (s ++ t)), (span_digits s); cbn in *. congruence.
Qed.
Lemma digits_of_length s : allc is_digit_c s = true -> List.length (digits_of s) = String.length s.
Proof.
  unfold digits_of, is_digit_c. induction s as [|c s IH]; cbn; [reflexivity|].
  destruct (digit_val c) as [d|]; [|discriminate]. cbn. intros H. specialize (IH H). destruct (span_digits s); cbn in *. congruence.
Qed.
Lemma digits_val_app a b : digits_val (a ++ b) = digits_val a * 10 ^ Z.of_nat (List.length b) + digits_val b.
Proof.
  unfold digits_val. rewrite fold_left_app. generalize (fold_left (fun a d => 10 * a + d) a 0) as x. intros x.
  assert (G : forall b x y, fold_left (fun a d => 10 * a + d) b (x + y) = x * 10 ^ Z.of_nat (List.length b) + fold_left (fun a d => 10 * a + d) b y).
  { clear. induction b as [|d b IH]; intros x y; cbn [fold_left List.length].
    - cbn. lia.
    - rewrite Nat2Z.inj_succ, Z.pow_succ_r by lia. replace (10 * (x + y) + d) with (10 * x + (10 * y + d)) by ring. rewrite IH. ring. }
  rewrite <- (Z.add_0_r x) at 1. apply G.
Qed.

(** fixed width *)
Lemma fixed_spec k : forall z, 0 <= z < 10 ^ Z.of_nat k ->
  allc is_digit_c (fixed k z) = true /\ String.length (fixed k z) = k /\ digits_val (digits_of (fixed k z)) = z.
Proof.
  induction k as [|k IH]; intros z H.
  - cbn in *. split; [reflexivity|]. split; [reflexivity|]. lia.
  - rewrite Nat2Z.inj_succ, Z.pow_succ_r in H by lia. cbn [fixed].
    destruct (IH (z / 10)) as (A & B & C). { split; [apply Z.div_pos; lia|apply Z.div_lt_upper_bound; lia]. }
    pose proof (Z.mod_pos_bound z 10). assert (D : digit_val (digit_char (z mod 10)) = Some (z mod 10)) by (apply digit_val_char; lia).
    unfold snoc. split; [|split].
    + rewrite allc_app, A. cbn. unfold is_digit_c. now rewrite D.
    + clear -B. revert B. generalize (fixed k (z / 10)) as s. intros s. revert k. induction s as [|c s IHs]; intros k B; cbn in *.
      * now subst.
      * destruct k; [discriminate|]. injection B as B. now rewrite (IHs k B).
    + rewrite digits_of_app, digits_val_app, C by assumption. unfold digits_of. cbn. rewrite D. cbn.
      pose proof (Z.div_mod z 10). lia.
Qed.

(** [decN] *)
Lemma uint_string_digits d : allc is_digit_c (NilEmpty.string_of_uint d) = true.
Proof. induction d; cbn; auto. Qed.
Fixpoint uval (d : Decimal.uint) (acc : Z) : Z :=
  match d with
  | Decimal.Nil => acc
  | Decimal.D0 d => uval d (10 * acc) | Decimal.D1 d => uval d (10 * acc + 1) | Decimal.D2 d => uval d (10 * acc + 2)
  | Decimal.D3 d => uval d (10 * acc + 3) | Decimal.D4 d => uval d (10 * acc + 4) | Decimal.D5 d => uval d (10 * acc + 5)
  | Decimal.D6 d => uval d (10 * acc + 6) | Decimal.D7 d => uval d (10 * acc + 7) | Decimal.D8 d => uval d (10 * acc + 8)
  | Decimal.D9 d => uval d (10 * acc + 9)
  end.
Lemma uint_string_val d : forall acc, fold_left (fun a x => 10 * a + x) (digits_of (NilEmpty.string_of_uint d)) acc = uval d acc.
Proof.
  unfold digits_of. induction d; intros acc; [reflexivity|..]; cbn;
    destruct (span_digits (NilEmpty.string_of_uint d)) as [ds t] eqn:E; cbn in *; rewrite IHd; f_equal; lia.
Qed.
Lemma uval_of_uint_acc d : forall p, uval d (Zpos p) = Zpos (Pos.of_uint_acc d p).
Proof.
  induction d; intros p; [reflexivity|..]; cbn [uval Pos.of_uint_acc]; rewrite <- IHd; f_equal; lia.
Qed.
Lemma uval_of_uint d : uval d 0 = Z.of_N (Pos.of_uint d).
Proof.
  induction d; [reflexivity|exact IHd|..]; cbn [uval Pos.of_uint]; cbn [Z.of_N]; rewrite <- uval_of_uint_acc; reflexivity.
Qed.
Lemma decN_digits z : allc is_digit_c (decN z) = true.
Proof. apply uint_string_digits. Qed.
Lemma decN_val z : 0 <= z -> digits_val (digits_of (decN z)) = z.
Proof.
  intros H. unfold decN, digits_val. rewrite uint_string_val, uval_of_uint.
  change (Pos.of_uint (N.to_uint (Z.to_N z))) with (N.of_uint (N.to_uint (Z.to_N z))).
  rewrite DecimalN.Unsigned.of_to. lia.
Qed.
Lemma string_of_uint_nil d : NilEmpty.string_of_uint d = "" -> d = Decimal.Nil.
Proof. destruct d; [reflexivity|discriminate..]. Qed.
Lemma decN_nonempty z : decN z <> "".
Proof.
  unfold decN. intros E. apply string_of_uint_nil in E. destruct (Z.to_N z) as [|p]; [discriminate|].
  pose proof (DecimalPos.Unsigned.to_uint_nonzero p) as K. cbn in E. 
  assert (Pos.of_uint (Pos.to_uint p) = N0) by (rewrite E; reflexivity). rewrite DecimalPos.Unsigned.of_to in H. discriminate.
Qed.
Lemma uval_nat d : forall a, uval d (Z.of_nat a) = Z.of_nat (Nat.of_uint_acc d a).
Proof.
  induction d; intros acc; [reflexivity|..]; cbn [uval Nat.of_uint_acc]; rewrite <- IHd; f_equal; rewrite Nat.tail_mul_spec; lia.
Qed.
Lemma nat_text_val n : digits_val (digits_of (NilEmpty.string_of_uint (Nat.to_uint n))) = Z.of_nat n.
Proof.
  unfold digits_val. rewrite uint_string_val. change 0 with (Z.of_nat 0). rewrite uval_nat. f_equal.
  exact (DecimalNat.Unsigned.of_to n).
Qed.
Lemma nat_text_nonempty n : NilEmpty.string_of_uint (Nat.to_uint n) <> "".
Proof.
  intros E. apply string_of_uint_nil in E.
  pose proof (DecimalNat.Unsigned.of_to n) as O. rewrite E in O. cbn in O. subst n. discriminate.
Qed.

Lemma digit_not_space c : is_digit_c c = true -> noblank c = true.
Proof.
  unfold is_digit_c, noblank, is_space. destruct (digit_val c) as [d|] eqn:E; [|discriminate]. intros _.
  unfold digit_val in E. destruct ((48 <=? code c)%Z && (code c <=? 57)%Z) eqn:K; [|discriminate].
  apply andb_true_iff in K. rewrite !Z.leb_le in K. apply negb_true_iff. rewrite !orb_false_iff, !andb_false_iff, !Z.leb_gt, !Z.eqb_neq. lia.
Qed.
Lemma noblank_no_nl c : noblank c = true -> no_nl c = true.
Proof. unfold noblank, no_nl. destruct (Ascii.eqb_spec c newline) as [->|N]; [vm_compute; auto|auto]. Qed.
Lemma digit_code c : is_digit_c c = true -> 48 <= code c <= 57.
Proof.
  unfold is_digit_c. destruct (digit_val c) as [d|] eqn:E; [|discriminate]. intros _.
  unfold digit_val in E. destruct ((48 <=? code c)%Z && (code c <=? 57)%Z) eqn:K; [|discriminate].
  apply andb_true_iff in K. rewrite !Z.leb_le in K. lia.
Qed.
Lemma digits_word s : allc is_digit_c s = true -> s <> "" -> is_word s.
Proof. intros H N. split; [|exact N]. revert H. apply allc_impl. apply digit_not_space. Qed.

Lemma lstrip_word c r : is_space c = false -> lstrip (String c r) = String c r.
Proof. intros H. cbn. now rewrite H. Qed.
Lemma read_sign_digit s r : allc is_digit_c s = true -> s <> "" -> read_sign (lstrip (s ++ r)) = (1, s ++ r).
Proof.
  destruct s as [|c s]; [congruence|]. intros H _. cbn in H. apply andb_true_iff in H. destruct H as [H _].
  pose proof (digit_not_space H) as S. unfold noblank in S. apply negb_true_iff in S. cbn. rewrite S. cbn.
  apply digit_code in H. destruct (Ascii.eqb_spec c "-"); [subst; exfalso; destruct H as [H _]; apply H; reflexivity|].
  destruct (Ascii.eqb_spec c "+"); [subst; exfalso; destruct H as [H _]; apply H; reflexivity|]. reflexivity.
Qed.

Lemma digits_of_ne s : allc is_digit_c s = true -> s <> "" -> digits_of s <> [].
Proof. intros H N E. pose proof (digits_of_length H) as L. rewrite E in L. destruct s; [congruence|discriminate]. Qed.

(** reading integers *)
Lemma parse_int_digits s : allc is_digit_c s = true -> s <> "" -> parse_int s = Ok (digits_val (digits_of s)).
Proof.
  intros H N. unfold parse_int. rewrite <- (app_nil_s s) at 1. rewrite read_sign_digit by assumption.
  rewrite span_digits_app by (auto; exact I). pose proof (digits_of_ne H N). destruct (digits_of s) as [|d ds] eqn:E; [congruence|].
  cbn [blank]. f_equal. lia.
Qed.
Lemma parse_float_int s : allc is_digit_c s = true -> s <> "" -> parse_float s = Ok (Zc (digits_val (digits_of s))).
Proof.
  intros H N. unfold parse_float. rewrite <- (app_nil_s s) at 1. rewrite read_sign_digit by assumption.
  rewrite span_digits_app by (auto; exact I). pose proof (digits_of_ne H N). destruct (digits_of s) as [|d ds] eqn:E; [congruence|].
  cbn [List.app read_exp blank List.length]. change (0 - Z.of_nat 0) with 0. unfold scale10.
  change (0 <=? 0)%Z with true. cbv iota. change (pow10 (Z.to_nat 0)) with 1%positive. rewrite Z.mul_1_l, Z.mul_1_r, app_nil_r. reflexivity.
Qed.

(** reading numbers with a decimal point *)
Lemma parse_float_point sg ip fp : sg = "" \/ sg = "-" -> allc is_digit_c ip = true -> ip <> "" -> allc is_digit_c fp = true ->
  parse_float (sg ++ (ip ++ String "." fp)) =
  Ok (scale10 ((if String.eqb sg "-" then -1 else 1) * (digits_val (digits_of ip) * 10 ^ Z.of_nat (String.length fp) + digits_val (digits_of fp))) (- Z.of_nat (String.length fp))).
Proof.
  intros S H N F. assert (NN := digits_of_ne H N).
  assert (K : read_sign (lstrip (sg ++ (ip ++ String "." fp))) = ((if String.eqb sg "-" then -1 else 1), ip ++ String "." fp)).
  { destruct S as [-> | ->]; [exact (@read_sign_digit ip (String "." fp) H N)|reflexivity]. }
  unfold parse_float. rewrite K. rewrite span_digits_app by (auto; reflexivity). change (Ascii.eqb "." ".") with true. cbv iota zeta beta.
  rewrite <- (app_nil_s fp) at 1. rewrite span_digits_app by (auto; exact I).
  destruct (digits_of ip ++ digits_of fp)%list as [|d ds] eqn:E; [apply app_eq_nil in E; destruct E; congruence|].
  cbn [read_exp blank]. rewrite <- E, digits_val_app, digits_of_length by assumption. reflexivity.
Qed.
