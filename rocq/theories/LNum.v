(** Numbers and structures in text: exactly the grammar of SNum. *)
From Coq Require Import String Ascii DecimalString.
From Verif Require Import Base LBase BaseQ LQ SElement MElement LElement MSort LSort MGeneralCell SGeneralCell LGeneralCell
  MText LText MIO SIO LIO LIO2 LIO3 LIO4 LIO5 SNum.
Set Implicit Arguments.
Unset Strict Implicit.
Open Scope string_scope.
Open Scope list_scope.
Open Scope Z_scope.
Notation length := List.length.
Notation "a +++ b" := (String.append a b) (at level 60, right associativity).

Definition nodigit (r : string) : Prop := match r with EmptyString => True | String c _ => digit_val c = None end.
Lemma span_inv s : forall ds r, span_digits s = (ds, r) -> exists p, s = p +++ r /\ allc is_digit_c p = true /\ ds = digits_of p /\ nodigit r.
Proof.
  induction s as [|c s IH]; intros ds r H; cbn in H.
  - injection H as <- <-. exists "". repeat split.
  - destruct (digit_val c) as [d|] eqn:D.
    + destruct (span_digits s) as [es t] eqn:E. injection H as <- <-. destruct (IH _ _ eq_refl) as (p & -> & A & -> & N).
      exists (String c p). split; [reflexivity|]. split; [cbn; unfold is_digit_c at 1; now rewrite D, A|]. split; [|exact N].
      unfold digits_of. cbn. rewrite D. destruct (span_digits p). reflexivity.
    + injection H as <- <-. exists "". repeat split. cbn. exact D.
Qed.
Lemma lstrip_inv s : exists b, allc is_space b = true /\ s = b +++ lstrip s.
Proof.
  induction s as [|c s (b & B & E)]; [exists ""; split; reflexivity|]. cbn. destruct (is_space c) eqn:S.
  - exists (String c b). cbn. rewrite S, B. split; [reflexivity|]. now rewrite <- E.
  - exists "". split; reflexivity.
Qed.
Lemma allc_whites s : allc is_space s = true -> whites s.
Proof.
  intros H a c b ->. rewrite allc_app in H. apply andb_true_iff in H. destruct H as [_ H]. cbn in H. apply andb_true_iff in H.
  apply is_space_white. exact (proj1 H).
Qed.
Lemma sign_inv s m r : read_sign s = (m, r) -> exists sg, sign_text sg m /\ s = sg +++ r.
Proof.
  unfold read_sign, sign_text. destruct s as [|c s]; [intros [= <- <-]; exists ""; auto|].
  destruct (Ascii.eqb_spec c "-") as [->|N]; [intros [= <- <-]; exists "-"; auto|].
  destruct (Ascii.eqb_spec c "+") as [->|N']; [intros [= <- <-]; exists "+"; auto|].
  intros [= <- <-]. exists "". auto.
Qed.
(** A text beginning with a digit or a point. *)
Definition starts (r : string) : Prop := match r with EmptyString => False | String c _ => is_digit_c c = true \/ c = "."%char end.
Lemma starts_char c r : starts (String c r) -> is_space c = false /\ Ascii.eqb c "-" = false /\ Ascii.eqb c "+" = false.
Proof.
  intros [H| ->]; [|repeat split]. split; [apply digit_not_space in H; unfold noblank in H; now apply negb_true_iff in H|].
  apply digit_code in H. split.
  - destruct (Ascii.eqb_spec c "-"); [subst; exfalso; destruct H as [H _]; apply H; reflexivity|reflexivity].
  - destruct (Ascii.eqb_spec c "+"); [subst; exfalso; destruct H as [H _]; apply H; reflexivity|reflexivity].
Qed.
Lemma sign_ok sg m r : sign_text sg m -> starts r -> read_sign (sg +++ r) = (m, r) /\ lstrip (sg +++ r) = sg +++ r.
Proof.
  intros S R. destruct r as [|c r]; [easy|]. destruct (starts_char R) as (A & B & C).
  destruct S as [[[-> | ->] ->]|[-> ->]]; cbn; rewrite ?A, ?B, ?C; auto.
Qed.
Lemma exp_inv s e r : read_exp s = (e, r) -> exists ex, exponent ex e /\ s = ex +++ r.
Proof.
  unfold read_exp. destruct s as [|c s]; [intros [= <- <-]; exists ""; split; [constructor|reflexivity]|].
  destruct (Ascii.eqb c "e" || Ascii.eqb c "E") eqn:E; [|intros [= <- <-]; exists ""; split; [constructor|reflexivity]].
  destruct (read_sign s) as [m r1] eqn:S. destruct (span_digits r1) as [[|d ds] r2] eqn:D.
  - intros [= <- <-]. exists "". split; [constructor|reflexivity].
  - intros [= <- <-]. destruct (sign_inv S) as (sg & SG & ->). destruct (span_inv D) as (p & -> & A & DE & _).
    exists (String c (sg +++ p)). split; [|cbn; now rewrite app_assoc_s]. rewrite DE.
    pose proof (numeral_digits A) as N. destruct p as [|x p]; [unfold digits_of in DE; discriminate|].
    eapply exp_some; [|exact SG|exact N]. apply orb_true_iff in E. destruct E as [E|E]; apply Ascii.eqb_eq in E; auto.
Qed.
Lemma blank_ends b : allc is_space b = true -> ends_word b.
Proof. destruct b as [|c b]; cbn; [auto|]. rewrite andb_true_iff. tauto. Qed.
Lemma ends_nodigit b : ends_word b -> nodigit b.
Proof. destruct b as [|c b]; cbn; [auto|]. intros H. now apply space_cases. Qed.
Lemma exp_ok ex e b : exponent ex e -> allc is_space b = true -> read_exp (ex +++ b) = (e, b).
Proof.
  intros X B. pose proof (blank_ends B) as W. destruct X as [|c sg m ds v k C S N].
  - cbn. destruct b as [|c b]; [reflexivity|]. cbn in W. destruct (space_cases W) as (_ & _ & K). cbn. now rewrite K.
  - destruct (numeral_inv N) as (A & V & L). pose proof (numeral_ne N) as NE.
    assert (ST : starts (ds +++ b)). { destruct ds as [|x ds]; [easy|]. cbn in *. left. now apply andb_true_iff in A. }
    cbn. assert ((Ascii.eqb c "e" || Ascii.eqb c "E") = true) as -> by (destruct C as [-> | ->]; reflexivity).
    rewrite app_assoc_s, (proj1 (sign_ok S ST)). rewrite span_digits_app by (assumption || apply ends_nodigit, W).
    pose proof (digits_of_ne A NE). destruct (digits_of ds) eqn:DD; [congruence|]. rewrite V. reflexivity.
Qed.
Lemma exp_head ex e b : exponent ex e -> allc is_space b = true ->
  match ex +++ b with EmptyString => True | String c _ => digit_val c = None /\ Ascii.eqb c "." = false end.
Proof.
  intros X B. destruct X as [|c sg m ds v k C S N].
  - cbn. destruct b as [|c b]; [exact I|]. cbn in B. apply andb_true_iff in B. destruct (space_cases (proj1 B)) as (? & ? & _). auto.
  - cbn. destruct C as [-> | ->]; split; reflexivity.
Qed.

Lemma ten_neg d : ten_to (- Z.of_nat d) = (1 / Zc (10 ^ Z.of_nat d))%Qc.
Proof.
  unfold ten_to. destruct (Z.leb_spec 0 (- Z.of_nat d)); [|now rewrite Z.opp_involutive].
  assert (d = 0%nat) as -> by lia. cbn. reflexivity.
Qed.
Lemma Zc_ten_ne e : 0 <= e -> (Zc (10 ^ e) <> 0)%Qc.
Proof. intros P H. rewrite <- Zc_0 in H. apply Zc_inj in H. pose proof (Z.pow_pos_nonneg 10 e). lia. Qed.
Lemma ten_add a b : ten_to (a + b) = (ten_to a * ten_to b)%Qc.
Proof.
  assert (G : forall x y u v, 0 <= x -> 0 <= y -> 0 <= u -> 0 <= v -> u - v = x - y -> (Zc (10 ^ u) / Zc (10 ^ v) = Zc (10 ^ x) / Zc (10 ^ y))%Qc).
  { intros x y u v Hx Hy Hu Hv E. assert (Q : (Zc (10 ^ u) * Zc (10 ^ y) = Zc (10 ^ x) * Zc (10 ^ v))%Qc).
    { rewrite <- !Zc_mult. f_equal. rewrite <- !Z.pow_add_r by assumption. f_equal. lia. }
    pose proof (@Zc_ten_ne y Hy). pose proof (@Zc_ten_ne v Hv).
    transitivity ((Zc (10 ^ u) * Zc (10 ^ y)) / (Zc (10 ^ v) * Zc (10 ^ y)))%Qc; [field; auto|]. rewrite Q. field. auto. }
  assert (T : forall e, exists x y, 0 <= x /\ 0 <= y /\ e = x - y /\ ten_to e = (Zc (10 ^ x) / Zc (10 ^ y))%Qc).
  { intros e. unfold ten_to. destruct (Z.leb_spec 0 e).
    - exists e, 0. repeat split; try lia. change (Zc (10 ^ 0)) with 1%Qc. field. discriminate.
    - exists 0, (- e). repeat split; try lia. }
  destruct (T a) as (x & y & Hx & Hy & E1 & ->). destruct (T b) as (u & v & Hu & Hv & E2 & ->). destruct (T (a + b)) as (p & q & Hp & Hq & E3 & ->).
  pose proof (@Zc_ten_ne y Hy). pose proof (@Zc_ten_ne v Hv).
  transitivity (Zc (10 ^ (x + u)) / Zc (10 ^ (y + v)))%Qc; [apply G; lia|].
  rewrite !Z.pow_add_r, !Zc_mult by assumption. field. auto.
Qed.
Lemma scale10_ten m e : scale10 m e = (Zc m * ten_to e)%Qc.
Proof.
  unfold scale10, ten_to. destruct (Z.leb_spec 0 e).
  - rewrite pow10_Z, Z2Nat.id, Zc_mult by assumption. reflexivity.
  - rewrite Q2Qc_frac, pow10_Z, Z2Nat.id by lia. pose proof (@Zc_ten_ne (- e) ltac:(lia)). field. assumption.
Qed.
Lemma value_eq m i f d e : scale10 (m * (i * 10 ^ Z.of_nat d + f)) (e - Z.of_nat d) = (Zc m * (Zc i + Zc f / Zc (10 ^ Z.of_nat d)) * ten_to e)%Qc.
Proof.
  rewrite scale10_ten. unfold Z.sub. rewrite ten_add, ten_neg, !Zc_mult, Zc_plus, Zc_mult. pose proof (@Zc_pow_ne d). field. assumption.
Qed.

Theorem parse_float_iff s x : parse_float s = Ok x <-> float_text s x.
Proof.
  split.
  - unfold parse_float. destruct (lstrip_inv s) as (b & B & Es). destruct (read_sign (lstrip s)) as [m s1] eqn:S.
    destruct (sign_inv S) as (sg & SG & E1). destruct (span_digits s1) as [ip s2] eqn:D1.
    destruct (span_inv D1) as (p & E2 & A1 & -> & N1).
    assert (K : exists pt fp s3, match s2 with String c r => if Ascii.eqb c "." then span_digits r else ([], s2) | EmptyString => ([], s2) end = (digits_of fp, s3) /\
      allc is_digit_c fp = true /\ s2 = pt +++ fp +++ s3 /\ (pt = "." \/ pt = "" /\ fp = "")).
    { destruct s2 as [|c r]; [exists "", "", ""; repeat split; auto|]. destruct (Ascii.eqb_spec c ".") as [->|N].
      - destruct (span_digits r) as [q t] eqn:D2. destruct (span_inv D2) as (q' & -> & A2 & -> & _). exists ".", q', t. repeat split; auto.
      - exists "", "", (String c r). repeat split; auto. }
    destruct K as (pt & fp & s3 & -> & A2 & E3 & PT). destruct (digits_of p ++ digits_of fp) as [|d0 ds] eqn:DD; [discriminate|].
    destruct (read_exp s3) as [e s4] eqn:X. destruct (exp_inv X) as (ex & EX & E4). destruct (blank s4) eqn:BL; [|discriminate].
    intros [= <-]. rewrite blank_allc in BL.
    exists b, sg, m, p, (digits_val (digits_of p)), (String.length p), pt, fp, (digits_val (digits_of fp)), (String.length fp), ex, e, s4.
    split; [now apply allc_whites|]. split; [now apply allc_whites|]. split; [exact SG|]. split; [now apply numeral_digits|]. split; [now apply numeral_digits|].
    split; [|split; [exact PT|split; [exact EX|split; [now rewrite Es, E1, E2, E3, E4|]]]].
    + rewrite <- !digits_of_length by assumption. rewrite <- app_length, DD. cbn. lia.
    + rewrite <- DD, digits_val_app, digits_of_length by assumption. apply value_eq.
  - intros (b & sg & m & ip & i & k & pt & fp & f & d & ex & e & b' & B & B' & SG & NI & NF & KD & PT & EX & -> & ->).
    apply whites_allc in B, B'. destruct (numeral_inv NI) as (A1 & V1 & L1). destruct (numeral_inv NF) as (A2 & V2 & L2).
    unfold parse_float. rewrite (lstrip_white _ B). pose proof (exp_head EX B') as H.
    assert (ST : starts (ip +++ pt +++ fp +++ ex +++ b')).
    { destruct ip as [|c ip]; [|cbn in *; left; now apply andb_true_iff in A1]. destruct PT as [-> |[-> ->]]; [cbn; auto|]. cbn in L1, L2. lia. }
    destruct (sign_ok SG ST) as [R ->]. rewrite R.
    assert (ND : nodigit (pt +++ fp +++ ex +++ b')).
    { destruct PT as [-> |[-> ->]]; [reflexivity|]. cbn. destruct (ex +++ b'); [exact I|]. tauto. }
    rewrite span_digits_app by assumption.
    assert (K : match pt +++ fp +++ ex +++ b' with String c r => if Ascii.eqb c "." then span_digits r else ([], pt +++ fp +++ ex +++ b') | EmptyString => ([], pt +++ fp +++ ex +++ b') end = (digits_of fp, ex +++ b')).
    { destruct PT as [-> |[-> ->]].
      - cbn. rewrite span_digits_app; [reflexivity|assumption|]. destruct (ex +++ b'); [exact I|]. tauto.
      - cbn. destruct (ex +++ b'); [reflexivity|]. destruct H as [_ ->]. reflexivity. }
    rewrite K. destruct (digits_of ip ++ digits_of fp) as [|d0 ds] eqn:DD.
    { exfalso. apply (f_equal (@List.length _)) in DD. rewrite app_length, !digits_of_length, L1, L2 in DD by assumption. cbn in DD. lia. }
    rewrite (exp_ok EX B'). rewrite blank_allc, B'. rewrite <- DD, digits_val_app, V1, V2, digits_of_length, L2 by assumption. f_equal. apply value_eq.
Qed.
Theorem parse_int_iff s z : parse_int s = Ok z <-> int_text s z.
Proof.
  split.
  - unfold parse_int. destruct (lstrip_inv s) as (b & B & Es). destruct (read_sign (lstrip s)) as [m s1] eqn:S.
    destruct (sign_inv S) as (sg & SG & E1). destruct (span_digits s1) as [ip s2] eqn:D1.
    destruct (span_inv D1) as (p & E2 & A1 & DE & N1). destruct ip as [|d ds]; [discriminate|].
    destruct (blank s2) eqn:BL; [|discriminate]. intros [= <-]. rewrite blank_allc in BL. pose proof (numeral_digits A1) as N.
    destruct p as [|c p]; [unfold digits_of in DE; discriminate|].
    exists b, sg, m, (String c p), (digits_val (d :: ds)), (String.length p), s2. rewrite DE.
    repeat (split; [first [now apply allc_whites|assumption]|]). split; [now rewrite Es, E1, E2|reflexivity].
  - intros (b & sg & m & ip & i & k & b' & B & B' & SG & NI & -> & ->).
    apply whites_allc in B, B'. destruct (numeral_inv NI) as (A1 & V1 & L1). pose proof (numeral_ne NI) as NE.
    unfold parse_int. rewrite (lstrip_white _ B).
    assert (ST : starts (ip +++ b')) by (destruct ip as [|c ip]; [easy|]; cbn in *; left; now apply andb_true_iff in A1).
    destruct (sign_ok SG ST) as [R ->]. rewrite R, span_digits_app by (assumption || apply ends_nodigit, blank_ends, B').
    pose proof (digits_of_ne A1 NE). destruct (digits_of ip) eqn:DD; [congruence|]. rewrite V1, blank_allc, B'. reflexivity.
Qed.
Lemma parse_float_only s e : parse_float s = Raise e -> e = ValueError.
Proof.
  unfold parse_float. destruct (read_sign _) as [m s1]. destruct (span_digits s1) as [ip s2].
  destruct (match s2 with EmptyString => _ | String _ _ => _ end) as [fp s3].
  destruct (ip ++ fp); [congruence|]. destruct (read_exp s3) as [x s4]. destruct (blank s4); congruence.
Qed.
Lemma parse_int_only s e : parse_int s = Raise e -> e = ValueError.
Proof. unfold parse_int. destruct (read_sign _) as [m s1]. destruct (span_digits s1) as [[|d ds] s2]; [congruence|]. destruct (blank s2); congruence. Qed.

(** *** Words and lines *)
Lemma white_fields c ws r : white c -> fields ws r -> fields ws (String c r).
Proof.
  intros W F. assert (K : forall b, whites b -> whites (String c b)).
  { intros b B [|x a] d t E; cbn in E; injection E as <- E; [exact W|]. exact (B a d t E). }
  destruct F as [b B|b w ws r B V R F]; [constructor; auto|]. exact (@fields_cons (String c b) w ws r (K _ B) V R F).
Qed.
Lemma is_word_word s : is_word s -> word s.
Proof.
  intros [H N]. split; [exact N|]. intros a c b -> W. apply is_space_white in W. rewrite allc_app in H. apply andb_true_iff in H.
  destruct H as [_ H]. cbn in H. unfold noblank in H. rewrite W in H. discriminate.
Qed.
Lemma split_ws_fields s : forall cur, allc noblank cur = true -> fields (split_ws cur s) (cur +++ s).
Proof.
  induction s as [|c s IH]; intros cur N; cbn.
  - destruct cur as [|x cur]; cbn; [constructor; now apply allc_whites|].
    refine (@fields_cons "" (String x cur) [] "" _ _ _ _); [now apply allc_whites|now apply is_word_word; split|now left|constructor; now apply allc_whites].
  - destruct (is_space c) eqn:S.
    + pose proof (white_fields (proj1 (is_space_white c) S) (IH "" eq_refl)) as F. cbn in F. destruct cur as [|x cur]; [exact F|].
      refine (@fields_cons "" (String x cur) _ (String c s) _ _ _ F); [now apply allc_whites|now apply is_word_word; split|].
      right. exists c, s. split; [reflexivity|]. now apply is_space_white.
    + rewrite <- snoc_app. apply IH. unfold snoc. rewrite allc_app, N. cbn. unfold noblank. now rewrite S.
Qed.
Lemma split_iff s ws : split s = ws <-> fields ws s.
Proof. split; [intros <-; exact (@split_ws_fields s "" eq_refl)|apply fields_split]. Qed.
Lemma allc_one_line s : allc no_nl s = true -> one_line s.
Proof.
  intros H a b ->. rewrite allc_app in H. apply andb_true_iff in H. destruct H as [_ H]. cbn in H. discriminate.
Qed.
Lemma split_on_ne sep s : forall cur, split_on sep cur s <> [].
Proof. induction s as [|c s IH]; intros cur; cbn; [discriminate|]. destruct (Ascii.eqb c sep); [discriminate|apply IH]. Qed.
Lemma concat_cons_s l ls : ls <> [] -> String.concat nl (l :: ls) = l +++ nl +++ String.concat nl ls.
Proof. destruct ls; [congruence|reflexivity]. Qed.
Lemma split_on_lines s : forall cur, allc no_nl cur = true ->
  String.concat nl (split_on newline cur s) = cur +++ s /\ Forall one_line (split_on newline cur s).
Proof.
  induction s as [|c s IH]; intros cur N; cbn [split_on].
  - cbn. rewrite app_nil_s. split; [reflexivity|]. constructor; [now apply allc_one_line|constructor].
  - destruct (Ascii.eqb_spec c newline) as [->|NE].
    + destruct (IH "" eq_refl) as [E F]. split; [|constructor; [now apply allc_one_line|exact F]].
      rewrite concat_cons_s by apply split_on_ne. rewrite E. reflexivity.
    + rewrite <- (snoc_app cur c s). apply IH. unfold snoc. rewrite allc_app, N. cbn. unfold no_nl.
      destruct (Ascii.eqb_spec c newline); [congruence|reflexivity].
Qed.
Lemma filter_kept all : kept all (filter keep all).
Proof.
  induction all as [|l all IH]; cbn; [constructor|]. unfold keep at 1. destruct (blank l) eqn:B; cbn.
  - apply kept_no; [|exact IH]. intros H. apply ink_iff in H. congruence.
  - apply kept_yes; [|exact IH]. now apply ink_iff.
Qed.

(** *** Lines of the reader *)
Lemma Forall2_iff A B (P Q : A -> B -> Prop) l r : (forall a b, P a b <-> Q a b) -> Forall2 P l r <-> Forall2 Q l r.
Proof. intros H. split; intros F; induction F; constructor; auto; now apply H. Qed.
Lemma mapM_iff A B (f : A -> res B) l r : mapM f l = Ok r <-> Forall2 (fun a b => f a = Ok b) l r.
Proof.
  split; [|apply mapM_Forall2]. revert r. induction l as [|a l IH]; cbn; intros r H; [injection H as <-; constructor|].
  destruct (f a) as [b|] eqn:E; [|discriminate]. cbn in H. destruct (mapM f l) as [t|]; [|discriminate]. cbn in H. injection H as <-.
  constructor; auto.
Qed.
Lemma row3_inv l v : row3 l = Ok v -> l = [vx v; vy v; vz v].
Proof. destruct l as [|a [|b [|c [|d l]]]]; cbn; try discriminate. intros [= <-]. reflexivity. Qed.
Lemma three_false s v : (do fs <- mapM parse_float (split s); row3 fs) = Ok v <-> three false s v.
Proof.
  unfold three. split.
  - destruct (mapM parse_float (split s)) as [fs|] eqn:M; [|discriminate]. cbn [bind]. intros R. apply row3_inv in R. subst fs.
    apply mapM_iff in M. inversion M as [|a ? l ? A M1 E1 E2]; subst. inversion M1 as [|b ? l1 ? B M2]; subst. inversion M2 as [|c ? l2 ? C M3]; subst. inversion M3; subst.
    exists a, b, c, []. split; [apply split_iff; symmetry; assumption|]. rewrite <- !parse_float_iff. auto.
  - intros (a & b & c & ws & F & A & B & C & W). rewrite (W eq_refl) in F. apply split_iff in F. rewrite F. cbn [mapM].
    apply parse_float_iff in A, B, C. rewrite A, B, C. cbn. destruct v; reflexivity.
Qed.
Lemma three_true s v : (do fs <- mapM parse_float (firstn 3 (split s)); row3 fs) = Ok v <-> three true s v.
Proof.
  unfold three. split.
  - destruct (mapM parse_float (firstn 3 (split s))) as [fs|] eqn:M; [|discriminate]. cbn [bind]. intros R. apply row3_inv in R. subst fs.
    apply mapM_iff in M. destruct (split s) as [|a [|b [|c ws]]] eqn:S; cbn [firstn] in M.
    + inversion M.
    + inversion M as [|? ? ? ? A M1]; subst. inversion M1.
    + inversion M as [|? ? ? ? A M1]; subst. inversion M1 as [|? ? ? ? B M2]; subst. inversion M2.
    + inversion M as [|? ? ? ? A M1]; subst. inversion M1 as [|? ? ? ? B M2]; subst. inversion M2 as [|? ? ? ? C M3]; subst.
      exists a, b, c, ws. split; [now apply split_iff|]. rewrite <- !parse_float_iff. repeat split; auto. discriminate.
  - intros (a & b & c & ws & F & A & B & C & W). apply split_iff in F. rewrite F. cbn [firstn mapM].
    apply parse_float_iff in A, B, C. rewrite A, B, C. cbn. destruct v; reflexivity.
Qed.
Lemma species_iff l zs : mapM (fun s => do sp <- Specie_new s; Ok (sp_Z sp)) l = Ok zs <-> Forall2 is_element zs l.
Proof.
  rewrite mapM_iff. assert (H : forall s z, (do sp <- Specie_new s; Ok (sp_Z sp)) = Ok z <-> is_element z s).
  { intros s z. split.
    - destruct (Specie_new s) as [sp|] eqn:E; [|discriminate]. cbn. intros [= <-]. now apply Specie_new_spec.
    - intros I. destruct (Specie_new_total I) as (sp & -> & <-). reflexivity. }
  split; intros F; induction F; constructor; auto; now apply H.
Qed.
Lemma expand_iff ns : forall zs l, expand zs ns = Ok l <-> counted zs ns l.
Proof.
  induction ns as [|n ns IH]; intros zs l.
  - destruct zs; cbn; (split; [intros [= <-]; constructor|intros H; inversion H; reflexivity]).
  - destruct zs as [|z zs]; cbn; [split; [discriminate|intros H; inversion H]|]. split.
    + destruct (expand zs ns) as [r|] eqn:E; [|discriminate]. cbn. intros [= <-]. constructor. apply IH. exact E.
    + intros H. inversion H as [|? ? ? ? r C]; subst. rewrite (proj2 (IH _ _) C). reflexivity.
Qed.
Lemma vrounded_iff v r : vrounded 4 v r <-> r = vmap (around 4) v.
Proof.
  split.
  - intros (A & B & C). apply rounded_fun in A, B, C. destruct r; cbn in *. now subst.
  - intros ->. destruct v. repeat split; apply around_rounded.
Qed.
Lemma factor_iff cbrt z L f : factor cbrt z L f <-> f = zoom_factor cbrt L z.
Proof.
  unfold factor, zoom_factor. rewrite det_volume. destruct (Qcltb z 0) eqn:E.
  - apply Qcltb_lt in E. split; [|auto]. intros [[H _]|[_ H]]; [exfalso; exact (Qclt_not_le _ _ E H)|exact H].
  - apply Qcltb_ge in E. split; [|auto]. intros [[_ H]|[H _]]; [exact H|exfalso; exact (Qclt_not_le _ _ H E)].
Qed.

Definition readback cbrt scale (lat : mat Qc) (pos : list (vec Qc)) (nums : list Z) :=
  let lat1 := vmap (vmap (around 4)) lat in
  (vmap (vmap (fun x => x * zoom_factor cbrt lat1 scale)%Qc) lat1, map (vmap (around 4)) pos, nums).
Lemma from_string_iff cbrt content r : from_string cbrt content = Ok r <->
  exists scale lat nums pos, accepted content scale lat nums pos /\ r = readback cbrt scale lat pos nums.
Proof.
  split.
  - unfold from_string. destruct (@split_on_lines content "" eq_refl) as [EC OL]. cbn [String.append] in EC.
    fold (split_lines content) in EC, OL. change (fun l => negb (blank l)) with keep. pose proof (filter_kept (split_lines content)) as K.
    destruct (filter keep (split_lines content)) as [|comp [|sc [|l1 [|l2 [|l3 rest]]]]]; cbn [get_nth nth_error bind skipn firstn]; try discriminate.
    + destruct (parse_float sc); cbn [bind mapM]; discriminate.
    + destruct (parse_float sc); cbn [bind mapM]; [|discriminate]. destruct (mapM parse_float (split l1)) as [x|]; cbn [bind]; [|discriminate]. destruct (row3 x); cbn [bind rows3]; discriminate.
    + destruct (parse_float sc); cbn [bind mapM]; [|discriminate]. destruct (mapM parse_float (split l1)) as [x|]; cbn [bind]; [|discriminate]. destruct (row3 x); cbn [bind]; [|discriminate].
      destruct (mapM parse_float (split l2)) as [y|]; cbn [bind]; [|discriminate]. destruct (row3 y); cbn [bind rows3]; discriminate.
    + destruct (parse_float sc) as [scale|] eqn:ES; cbn [bind]; [|discriminate]. cbn [mapM].
      destruct (do fs <- mapM parse_float (split l1); row3 fs) as [v1|] eqn:R1; cbn [bind]; [|discriminate].
      destruct (do fs <- mapM parse_float (split l2); row3 fs) as [v2|] eqn:R2; cbn [bind]; [|discriminate].
      destruct (do fs <- mapM parse_float (split l3); row3 fs) as [v3|] eqn:R3; cbn [bind rows3]; [|discriminate].
      destruct rest as [|species [|counts tail]]; unfold get_nth; cbn [nth_error bind skipn]; try discriminate.
      { destruct (mapM _ (split species)); cbn [bind]; discriminate. }
      destruct (mapM _ (split species)) as [zs|] eqn:EZ; cbn [bind]; [|discriminate].
      destruct (mapM parse_int (split counts)) as [ns|] eqn:EN; cbn [bind]; [|discriminate].
      destruct (expand zs ns) as [nums|] eqn:EX; cbn [bind]; [|discriminate].
      match goal with |- context[mapM ?f (match tail with [] => [] | _ :: l => l end)] =>
        change (mapM f (match tail with [] => [] | _ :: l => l end)) with
          (mapM (fun line => do fs <- mapM parse_float (firstn 3 (split line)); row3 fs) (match tail with [] => [] | _ :: l => l end)) end.
      destruct (mapM _ (match tail with [] => [] | _ :: l => l end)) as [pos|] eqn:EP; cbn [bind]; [|discriminate].
      intros E. exists scale, (V3 v1 v2 v3), nums, pos. split; [|apply (f_equal (fun x => match x with Ok a => a | Raise _ => r end)) in E; symmetry; exact E]. clear E.
      exists (split_lines content), comp, sc, l1, l2, l3, species, counts, tail, (match tail with [] => [] | _ :: l => l end), (split species), (split counts), zs, ns.
      split; [symmetry; exact EC|]. split; [exact OL|]. split; [exact K|]. split; [destruct tail as [|m tl]; [now left|right; now exists m]|].
      split; [now apply parse_float_iff|]. split; [now apply three_false|]. split; [now apply three_false|]. split; [now apply three_false|].
      split; [now apply split_iff|]. split; [now apply species_iff|]. split; [now apply split_iff|].
      split; [apply mapM_iff in EN; revert EN; apply Forall2_iff; intros; symmetry; apply parse_int_iff|].
      split; [now apply expand_iff|]. apply mapM_iff in EP. revert EP. apply Forall2_iff. intros; symmetry; apply three_true.
  - intros (scale & lat & nums & pos & A & ->).
    destruct A as (all & comp & sc & l1 & l2 & l3 & species & counts & tail & rows & syms & cs & zs & ns & -> & OL & K & TL & S & R1 & R2 & R3 & FS & ES & FC & NC & CN & RP).
    assert (NE : all <> []) by (intros ->; inversion K). destruct all as [|l0 all]; [congruence|].
    unfold from_string. change (String "010" "") with nl. rewrite (split_concat OL). change (fun l => negb (blank l)) with keep. rewrite (kept_filter K).
    cbn [get_nth nth_error bind skipn firstn]. apply parse_float_iff in S. rewrite S. cbn [bind mapM].
    apply three_false in R1, R2, R3. rewrite R1, R2, R3. cbn [bind rows3]. apply split_iff in FS, FC. rewrite FS, FC.
    apply species_iff in ES. rewrite ES. cbn [bind].
    assert (EN : mapM parse_int cs = Ok ns). { apply mapM_iff. revert NC. apply Forall2_iff. intros; apply parse_int_iff. }
    rewrite EN. cbn [bind]. apply expand_iff in CN. rewrite CN. cbn [bind].
    assert (EP : mapM (fun line => do fs <- mapM parse_float (firstn 3 (split line)); row3 fs) (match tail with [] => [] | _ :: l => l end) = Ok pos).
    { apply mapM_iff. replace (match tail with [] => [] | _ :: l => l end) with rows by (destruct TL as [[-> ->]|[m ->]]; reflexivity).
      revert RP. apply Forall2_iff. intros; apply three_true. }
    assert (EP' := EP). cbn [firstn] in EP'. rewrite EP'. destruct lat. reflexivity.
Qed.
Lemma reading_iff cbrt content lat' pos' nums : from_string cbrt content = Ok (lat', pos', nums) <->
  exists scale lat lat4 f pos, accepted content scale lat nums pos /\
    vrounded 4 (vx lat) (vx lat4) /\ vrounded 4 (vy lat) (vy lat4) /\ vrounded 4 (vz lat) (vz lat4) /\
    factor cbrt scale lat4 f /\ scaled f lat4 lat' /\ Forall2 (vrounded 4) pos pos'.
Proof.
  assert (RL : forall lat lat4, (vrounded 4 (vx lat) (vx lat4) /\ vrounded 4 (vy lat) (vy lat4) /\ vrounded 4 (vz lat) (vz lat4)) <-> lat4 = vmap (vmap (around 4)) lat).
  { intros [a b c] [x y z]. cbn [vx vy vz vmap]. rewrite !vrounded_iff. split; [now intros (-> & -> & ->)|intros [= -> -> ->]; auto]. }
  assert (RP : forall pos pos', Forall2 (vrounded 4) pos pos' <-> pos' = map (vmap (around 4)) pos).
  { induction pos as [|p pos IH]; intros q; cbn; split.
    - intros H. now inversion H.
    - intros ->. constructor.
    - intros H. inversion H as [|? ? ? ? A B]; subst. apply vrounded_iff in A. apply IH in B. now subst.
    - intros ->. constructor; [now apply vrounded_iff|now apply IH]. }
  rewrite from_string_iff. split.
  - intros (scale & lat & ns & pos & A & E). injection E as -> -> ->.
    exists scale, lat, (vmap (vmap (around 4)) lat), (zoom_factor cbrt (vmap (vmap (around 4)) lat) scale), pos.
    split; [exact A|]. pose proof (proj2 (RL lat _) eq_refl) as (? & ? & ?). repeat (split; [assumption|]).
    split; [now apply factor_iff|]. split; [reflexivity|]. now apply RP.
  - intros (scale & lat & lat4 & f & pos & A & B & C & D & F & S & P). exists scale, lat, nums, pos. split; [exact A|].
    pose proof (proj1 (RL lat lat4) (conj B (conj C D))) as ->. apply factor_iff in F. subst f. apply RP in P. subst pos'. unfold scaled in S. now subst lat'.
Qed.

(** *** The cell *)
Lemma cell_iff cbrt content : (exists g, vasp_get_cell cbrt content = Ok g) <->
  exists scale lat nums pos, accepted content scale lat nums pos /\ pos <> [] /\ (length pos <= length nums)%nat.
Proof.
  unfold vasp_get_cell. split.
  - intros (g & H). destruct (from_string cbrt content) as [r|] eqn:E; [|discriminate]. cbn [bind] in H.
    apply from_string_iff in E. destruct E as (scale & lat & nums & pos & A & ->). exists scale, lat, nums, pos. split; [exact A|].
    unfold readback in H. destruct (C10_lemma (vmap (vmap (fun x => x * zoom_factor cbrt (vmap (vmap (around 4)) lat) scale)%Qc) (vmap (vmap (around 4)) lat)) (map (vmap (around 4)) pos) nums) as (K1 & K2 & _).
    cbv zeta in H. split.
    + intros ->. cbn [map] in *. rewrite (K1 eq_refl) in H. discriminate.
    + destruct (le_lt_dec (length pos) (length nums)) as [L|L]; [exact L|]. rewrite K2 in H by (rewrite map_length; exact L). discriminate.
  - intros (scale & lat & nums & pos & A & N & L). assert (E : from_string cbrt content = Ok (readback cbrt scale lat pos nums)) by (apply from_string_iff; exists scale, lat, nums, pos; auto).
    rewrite E. cbn [bind]. unfold readback. cbv zeta.
    destruct (C10_lemma (vmap (vmap (fun x => x * zoom_factor cbrt (vmap (vmap (around 4)) lat) scale)%Qc) (vmap (vmap (around 4)) lat)) (map (vmap (around 4)) pos) nums) as (_ & _ & K3).
    destruct K3 as (g & G & _); [|rewrite map_length; exact L|exists g; exact G]. intros Z. apply N. destruct pos; [reflexivity|discriminate].
Qed.

Lemma ok_or A (r : res A) : (exists a, r = Ok a) \/ exists e, r = Raise e.
Proof. destruct r; eauto. Qed.
Lemma mapM_bad A B (f : A -> res B) (err : exn) l : (forall a e, f a = Raise e -> e = err) -> Exists (fun a => ~ exists b, f a = Ok b) l -> mapM f l = Raise err.
Proof.
  intros H X. induction X as [a l X|a l X IH]; cbn.
  - destruct (f a) eqn:F; [exfalso; eauto|]. cbn. now rewrite (H _ _ F).
  - destruct (f a) eqn:F; cbn; [now rewrite IH|]. now rewrite (H _ _ F).
Qed.
Lemma mapM_raise A B (f : A -> res B) (err : exn) l e : (forall a e, f a = Raise e -> e = err) -> mapM f l = Raise e ->
  e = err /\ Exists (fun a => ~ exists b, f a = Ok b) l.
Proof.
  intros H. induction l as [|a l IH]; cbn; [discriminate|]. destruct (f a) eqn:F; cbn.
  - destruct (mapM f l); cbn; [discriminate|]. intros [= <-]. destruct (IH eq_refl) as [-> X]. split; [reflexivity|now right].
  - intros [= <-]. split; [eauto|]. left. intros [b E]. congruence.
Qed.
Lemma row3_only l e : row3 l = Raise e -> e = ValueError.
Proof. destruct l as [|a [|b [|c [|d l]]]]; cbn; congruence. Qed.
Lemma line_only (l : list string) e : (do fs <- mapM parse_float l; row3 fs) = Raise e -> e = ValueError.
Proof.
  destruct (mapM parse_float l) as [fs|x] eqn:E; cbn [bind]; [apply row3_only|]. intros [= <-].
  apply (mapM_raise (err := ValueError)) in E; [tauto|]. intros a e'. apply parse_float_only.
Qed.
Lemma specie_only s e : (do sp <- Specie_new s; Ok (sp_Z sp)) = Raise e -> e = KeyError.
Proof. destruct (Specie_new_cases s) as [-> |[sp ->]]; cbn; congruence. Qed.
Lemma expand_raise ns : forall zs e, expand zs ns = Raise e <-> e = IndexError /\ (length zs < length ns)%nat.
Proof.
  induction ns as [|n ns IH]; intros zs e; [destruct zs; cbn; (split; [discriminate|lia])|].
  destruct zs as [|z zs]; cbn; [split; [intros [= <-]; split; [reflexivity|lia]|now intros [-> _]]|].
  destruct (expand zs ns) as [r|x] eqn:E; cbn.
  - split; [discriminate|]. intros [-> L]. assert (X : expand zs ns = Raise IndexError) by (apply IH; split; [reflexivity|lia]). congruence.
  - pose proof (proj1 (IH _ _) E) as [-> L]. split; [intros [= <-]; split; [reflexivity|lia]|now intros [-> _]].
Qed.
Definition row_of (more : bool) (line : string) : res (vec Qc) :=
  do fs <- mapM parse_float (if more then firstn 3 (split line) else split line); row3 fs.
Lemma row_of_iff more s v : row_of more s = Ok v <-> three more s v.
Proof. destruct more; [apply three_true|apply three_false]. Qed.
Lemma row_of_only more s e : row_of more s = Raise e -> e = ValueError.
Proof. apply line_only. Qed.
Lemma a_row_iff more s : a_row more s <-> exists v, row_of more s = Ok v.
Proof. unfold a_row. split; intros [v H]; exists v; now apply row_of_iff. Qed.
Lemma a_float_iff s : a_float s <-> exists x, parse_float s = Ok x.
Proof. unfold a_float. split; intros [v H]; exists v; now apply parse_float_iff. Qed.
Lemma species_line_iff s zs : species_line s zs <-> mapM (fun s => do sp <- Specie_new s; Ok (sp_Z sp)) (split s) = Ok zs.
Proof.
  unfold species_line. split.
  - intros (syms & F & E). apply split_iff in F. rewrite F. now apply species_iff.
  - intros E. exists (split s). split; [now apply split_iff|now apply species_iff].
Qed.
Lemma counts_line_iff s ns : counts_line s ns <-> mapM parse_int (split s) = Ok ns.
Proof.
  unfold counts_line. split.
  - intros (cs & F & E). apply split_iff in F. rewrite F. apply mapM_iff. revert E. apply Forall2_iff. intros; apply parse_int_iff.
  - intros E. exists (split s). split; [now apply split_iff|]. apply mapM_iff in E. revert E. apply Forall2_iff. intros; symmetry; apply parse_int_iff.
Qed.
Lemma counted_total ns : forall zs, (length ns <= length zs)%nat -> exists l, counted zs ns l.
Proof.
  induction ns as [|n ns IH]; intros zs L; [exists []; constructor|]. destruct zs as [|z zs]; cbn in L; [lia|].
  destruct (IH zs) as [l H]; [lia|]. eexists. constructor. exact H.
Qed.
Lemma counted_length zs ns l : counted zs ns l -> (length ns <= length zs)%nat.
Proof. induction 1; cbn; lia. Qed.

(** The reader on the lines with something on them. *)
Definition read_tail (cbrt : Qc -> Qc) (zoom : Qc) (lat0 : mat Qc) (rest : list string) : res gcell :=
  do l5 <- get_nth rest 0;
  do nsymbols <- mapM (fun s => do sp <- Specie_new s; Ok (sp_Z sp)) (split l5);
  do l6 <- get_nth rest 1;
  do natoms <- mapM parse_int (split l6);
  do nums <- expand nsymbols natoms;
  do pos0 <- mapM (row_of true) (match skipn 2 rest with [] => [] | _ :: l => l end);
  let '(lat, pos, nums) := readback cbrt zoom lat0 pos0 nums in GeneralCell_new lat pos nums.
Definition read_lines (cbrt : Qc -> Qc) (lines : list string) : res gcell :=
  match lines with
  | c :: sc :: r =>
      do zoom <- parse_float sc;
      do rows <- mapM (row_of false) (firstn 3 r);
      do lat0 <- rows3 rows;
      read_tail cbrt zoom lat0 (skipn 3 r)
  | _ => Raise IndexError
  end.
Lemma get_cell_lines cbrt content : vasp_get_cell cbrt content = read_lines cbrt (filter keep (split_lines content)).
Proof.
  unfold vasp_get_cell, from_string. change (fun l => negb (blank l)) with keep. set (lines := filter keep (split_lines content)). clearbody lines.
  destruct lines as [|c [|sc r]]; [reflexivity..|]. unfold read_lines. cbn [get_nth nth_error bind]. 
  change (get_nth (c :: sc :: r) 5) with (get_nth r 3). change (get_nth (c :: sc :: r) 6) with (get_nth r 4).
  change (skipn 2 (c :: sc :: r)) with r. change (skipn 8 (c :: sc :: r)) with (skipn 6 r).
  destruct (parse_float sc) as [zoom|]; cbn [bind]; [|reflexivity].
  match goal with |- context[mapM ?f (firstn 3 r)] => change (mapM f (firstn 3 r)) with (mapM (row_of false) (firstn 3 r)) end.
  destruct (mapM (row_of false) (firstn 3 r)) as [rows|]; cbn [bind]; [|reflexivity].
  destruct (rows3 rows) as [lat0|]; cbn [bind]; [|reflexivity]. unfold read_tail.
  assert (G : forall k, get_nth (skipn 3 r) k = get_nth r (3 + k)) by (intros k; destruct r as [|? [|? [|? r]]]; destruct k; reflexivity).
  rewrite (G 0%nat), (G 1%nat). cbn [Nat.add].
  destruct (get_nth r 3) as [l5|]; cbn [bind]; [|reflexivity].
  destruct (mapM _ (split l5)) as [zs|]; cbn [bind]; [|reflexivity].
  destruct (get_nth r 4) as [l6|]; cbn [bind]; [|reflexivity].
  destruct (mapM parse_int (split l6)) as [ns|]; cbn [bind]; [|reflexivity].
  destruct (expand zs ns) as [nums|]; cbn [bind]; [|reflexivity].
  replace (match skipn 2 (skipn 3 r) with [] => [] | _ :: l => l end) with (skipn 6 r).
  2:{ destruct r as [|? [|? [|? [|? [|? [|? r]]]]]]; reflexivity. }
  match goal with |- context[mapM ?f (skipn 6 r)] => change (mapM f (skipn 6 r)) with (mapM (row_of true) (skipn 6 r)) end.
  destruct (mapM (row_of true) (skipn 6 r)) as [pos|]; cbn [bind]; reflexivity.
Qed.

Lemma lattice_rows cbrt zoom c sc l1 l2 l3 t : parse_float sc = Ok zoom ->
  (forall v1 v2 v3, row_of false l1 = Ok v1 -> row_of false l2 = Ok v2 -> row_of false l3 = Ok v3 ->
     read_lines cbrt (c :: sc :: l1 :: l2 :: l3 :: t) = read_tail cbrt zoom (V3 v1 v2 v3) t) /\
  (~ (a_row false l1 /\ a_row false l2 /\ a_row false l3) -> read_lines cbrt (c :: sc :: l1 :: l2 :: l3 :: t) = Raise ValueError).
Proof.
  intros E. unfold read_lines. rewrite E. cbn [bind firstn skipn mapM]. rewrite !a_row_iff.
  destruct (row_of false l1) as [v1|] eqn:R1; cbn [bind]; [|split; [congruence|]; intros _; f_equal; exact (row_of_only R1)].
  destruct (row_of false l2) as [v2|] eqn:R2; cbn [bind]; [|split; [congruence|]; intros _; f_equal; exact (row_of_only R2)].
  destruct (row_of false l3) as [v3|] eqn:R3; cbn [bind]; [|split; [congruence|]; intros _; f_equal; exact (row_of_only R3)].
  cbn [rows3]. split; [|intros N; exfalso; apply N; repeat split; eexists; reflexivity]. intros ? ? ? [= <-] [= <-] [= <-]. reflexivity.
Qed.
Lemma few_rows cbrt zoom c sc r : parse_float sc = Ok zoom -> (length r < 3)%nat -> read_lines cbrt (c :: sc :: r) = Raise ValueError.
Proof.
  intros E L. unfold read_lines. rewrite E. cbn [bind]. destruct (mapM (row_of false) (firstn 3 r)) as [rows|e] eqn:M; cbn [bind].
  - apply mapM_iff, Forall2_len in M. rewrite firstn_length in M. destruct rows as [|? [|? [|? ?]]]; [reflexivity..|]. cbn [length] in M. lia.
  - f_equal. apply (mapM_raise (err := ValueError)) in M; [tauto|]. apply row_of_only.
Qed.
Lemma head_ok cbrt c sc l1 l2 l3 : good_head sc l1 l2 l3 ->
  exists zoom lat0, forall t, read_lines cbrt (c :: sc :: l1 :: l2 :: l3 :: t) = read_tail cbrt zoom lat0 t.
Proof.
  intros (F & A & B & C). apply a_float_iff in F. rewrite a_row_iff in A, B, C. destruct F as [zoom F], A as [v1 A], B as [v2 B], C as [v3 C].
  exists zoom, (V3 v1 v2 v3). intros t'. now apply (lattice_rows cbrt c l1 l2 l3 t' F).
Qed.
Definition coord_lines (t : list string) : list string := match t with [] => [] | _ :: l => l end.
Lemma coordinates_iff t rows : coordinates t rows <-> rows = coord_lines t.
Proof.
  unfold coordinates, coord_lines. split.
  - intros [[-> ->]|[m ->]]; reflexivity.
  - intros ->. destruct t as [|m t]; [now left|right; now exists m].
Qed.
Lemma tail_read cbrt zoom lat0 sp zs cs ns nums t : species_line sp zs -> counts_line cs ns -> counted zs ns nums ->
  read_tail cbrt zoom lat0 (sp :: cs :: t) =
  (do pos0 <- mapM (row_of true) (coord_lines t); let '(lat, pos, nums) := readback cbrt zoom lat0 pos0 nums in GeneralCell_new lat pos nums).
Proof.
  intros S C N. apply species_line_iff in S. apply counts_line_iff in C. apply expand_iff in N.
  unfold read_tail, get_nth. cbn [nth_error bind skipn]. rewrite S. cbn [bind]. rewrite C. cbn [bind]. rewrite N. cbn [bind]. reflexivity.
Qed.
Lemma final_cell cbrt zoom lat0 pos0 nums e :
  (let '(lat, pos, nums) := readback cbrt zoom lat0 pos0 nums in GeneralCell_new lat pos nums) = Raise e <->
  pos0 = [] /\ e = ValueError \/ (length nums < length pos0)%nat /\ e = IndexError.
Proof.
  unfold readback. cbv zeta. set (L := vmap _ _). clearbody L.
  destruct (C10_lemma L (map (vmap (around 4)) pos0) nums) as (K1 & K2 & K3). destruct pos0 as [|p pos0].
  - rewrite K1 by reflexivity. split; [intros [= <-]; left; auto|]. intros [[_ ->]|[X _]]; [reflexivity|cbn in X; lia].
  - set (P := p :: pos0) in *. assert (NE : P <> []) by discriminate. assert (LP : length (map (vmap (around 4)) P) = length P) by apply map_length. clearbody P.
    destruct (le_lt_dec (length P) (length nums)) as [LE|LT].
    + destruct K3 as (g & X & _); [intros Z; apply NE; destruct P; [reflexivity|discriminate]|lia|]. rewrite X. split; [discriminate|]. intros [[Z _]|[Z _]]; [contradiction|lia].
    + rewrite K2 by lia. split; [intros [= <-]; right; auto|]. intros [[Z _]|[_ ->]]; [contradiction|reflexivity].
Qed.
Lemma rows_total rows : Forall (a_row true) rows -> exists pos, mapM (row_of true) rows = Ok pos /\ length pos = length rows.
Proof.
  induction 1 as [|l rows A F IH]; [exists []; auto|]. apply a_row_iff in A. destruct A as [v A], IH as (pos & M & L). exists (v :: pos).
  cbn [mapM]. rewrite A. cbn [bind]. rewrite M. cbn. auto.
Qed.
Lemma Exists_imp A (P Q : A -> Prop) l : (forall a, P a -> Q a) -> Exists P l -> Exists Q l.
Proof. intros H X. induction X; [left|right]; auto. Qed.
Lemma refused_lines cbrt ls e : read_lines cbrt ls = Raise e <-> refused ls e.
Proof.
  split.
  - destruct ls as [|c [|sc r]]; [intros [= <-]; apply ref_short; cbn; lia..|]. intros H.
    destruct (parse_float sc) as [zoom|x] eqn:F.
    2:{ unfold read_lines in H. rewrite F in H. cbn [bind] in H. pose proof (parse_float_only F) as ->. injection H as <-. apply ref_scale.
        rewrite a_float_iff. intros [y Y]. congruence. }
    assert (AF : a_float sc) by (apply a_float_iff; eauto).
    destruct r as [|l1 [|l2 [|l3 t]]];
      [rewrite (few_rows cbrt c F) in H by (cbn; lia); injection H as <-; apply ref_lattice; [exact AF|intros; discriminate]..|].
    destruct (row_of false l1) as [v1|] eqn:R1.
    2:{ rewrite (proj2 (lattice_rows cbrt c l1 l2 l3 t F)) in H by (rewrite !a_row_iff; intros ([v V] & _); congruence).
        injection H as <-. apply ref_lattice; [exact AF|]. intros ? ? ? ? [= <- <- <- <-]. rewrite !a_row_iff. intros ([v V] & _); congruence. }
    destruct (row_of false l2) as [v2|] eqn:R2.
    2:{ rewrite (proj2 (lattice_rows cbrt c l1 l2 l3 t F)) in H by (rewrite !a_row_iff; intros (_ & [v V] & _); congruence).
        injection H as <-. apply ref_lattice; [exact AF|]. intros ? ? ? ? [= <- <- <- <-]. rewrite !a_row_iff. intros (_ & [v V] & _); congruence. }
    destruct (row_of false l3) as [v3|] eqn:R3.
    2:{ rewrite (proj2 (lattice_rows cbrt c l1 l2 l3 t F)) in H by (rewrite !a_row_iff; intros (_ & _ & [v V]); congruence).
        injection H as <-. apply ref_lattice; [exact AF|]. intros ? ? ? ? [= <- <- <- <-]. rewrite !a_row_iff. intros (_ & _ & [v V]); congruence. }
    rewrite (proj1 (lattice_rows cbrt c l1 l2 l3 t F) v1 v2 v3 R1 R2 R3) in H.
    assert (GH : good_head sc l1 l2 l3) by (unfold good_head; rewrite !a_row_iff; split; [exact AF|]; repeat split; eexists; eassumption).
    clear F AF R1 R2 R3. destruct t as [|sp t]; [injection H as <-; now apply ref_no_species|].
    destruct (mapM (fun s => do sp <- Specie_new s; Ok (sp_Z sp)) (split sp)) as [zs|x] eqn:S.
    2:{ unfold read_tail, get_nth in H. cbn [nth_error bind] in H. rewrite S in H. cbn [bind] in H. injection H as <-.
        destruct (mapM_raise specie_only S) as [-> _]. apply ref_symbol; [exact GH|]. intros zs Z. apply species_line_iff in Z. congruence. }
    assert (SL := proj2 (species_line_iff _ _) S). destruct t as [|cs t].
    { unfold read_tail, get_nth in H. cbn [nth_error bind] in H. rewrite S in H. cbn [bind] in H. injection H as <-. eapply ref_no_counts; eauto. }
    destruct (mapM parse_int (split cs)) as [ns|x] eqn:C.
    2:{ unfold read_tail, get_nth in H. cbn [nth_error bind] in H. rewrite S in H. cbn [bind] in H. rewrite C in H. cbn [bind] in H. injection H as <-.
        destruct (mapM_raise parse_int_only C) as [-> _]. eapply ref_count; eauto. intros ns Z. apply counts_line_iff in Z. congruence. }
    assert (CL := proj2 (counts_line_iff _ _) C). destruct (expand zs ns) as [nums|x] eqn:X.
    2:{ unfold read_tail, get_nth in H. cbn [nth_error bind] in H. rewrite S in H. cbn [bind] in H. rewrite C in H. cbn [bind] in H. rewrite X in H. cbn [bind] in H.
        injection H as <-. apply expand_raise in X. destruct X as [-> L]. eapply ref_more_counts; eauto. }
    apply expand_iff in X. rewrite (tail_read cbrt _ _ t SL CL X) in H. pose proof (counted_length X) as LE. clear S C.
    destruct (mapM (row_of true) (coord_lines t)) as [pos|x] eqn:P.
    2:{ cbn [bind] in H. injection H as <-. destruct (mapM_raise (@row_of_only true) P) as [-> B].
        eapply ref_row; eauto; [now apply coordinates_iff|]. revert B. apply Exists_imp. intros l. now rewrite a_row_iff. }
    cbn [bind] in H. apply final_cell in H. apply mapM_iff in P. assert (LR := Forall2_len P). destruct H as [[-> ->]|[L ->]].
    + inversion P as [Z|]. eapply ref_no_row; eauto. now apply coordinates_iff.
    + apply (@ref_more_rows c sc l1 l2 l3 sp zs cs ns nums t (coord_lines t) GH SL CL X); [now apply coordinates_iff| |lia]. clear - P. induction P; constructor; auto. apply a_row_iff. eexists; eassumption.
  - intros R. destruct R as [ls L|c sc r F|c sc r F N|c sc l1 l2 l3 G|c sc l1 l2 l3 sp t G N|c sc l1 l2 l3 sp zs G S|c sc l1 l2 l3 sp zs cs t G S N
      |c sc l1 l2 l3 sp zs cs ns t G S C L|c sc l1 l2 l3 sp zs cs ns t rows G S C L Co X|c sc l1 l2 l3 sp zs cs ns t G S C L Co|c sc l1 l2 l3 sp zs cs ns nums t rows G S C Cn Co F L].
    + destruct ls as [|? [|? ?]]; cbn in L; [reflexivity..|lia].
    + unfold read_lines. rewrite a_float_iff in F. destruct (parse_float sc) eqn:E; [exfalso; eauto|]. cbn [bind]. now rewrite (parse_float_only E).
    + apply a_float_iff in F. destruct F as [zoom F]. destruct r as [|l1 [|l2 [|l3 t]]]; [apply (few_rows cbrt c F); cbn; lia..|].
      apply (lattice_rows cbrt c l1 l2 l3 t F). now apply (N l1 l2 l3 t).
    + destruct (head_ok cbrt c G) as (zoom & lat0 & ->). reflexivity.
    + destruct (head_ok cbrt c G) as (zoom & lat0 & ->). unfold read_tail, get_nth. cbn [nth_error bind].
      destruct (mapM (fun s => do sp <- Specie_new s; Ok (sp_Z sp)) (split sp)) as [zs|x] eqn:S; [exfalso; apply (N zs); now apply species_line_iff|].
      destruct (mapM_raise specie_only S) as [-> _]. reflexivity.
    + destruct (head_ok cbrt c G) as (zoom & lat0 & ->). apply species_line_iff in S. unfold read_tail, get_nth. cbn [nth_error bind]. rewrite S. reflexivity.
    + destruct (head_ok cbrt c G) as (zoom & lat0 & ->). apply species_line_iff in S. unfold read_tail, get_nth. cbn [nth_error bind]. rewrite S. cbn [bind].
      destruct (mapM parse_int (split cs)) as [ns|x] eqn:C; [exfalso; apply (N ns); now apply counts_line_iff|].
      destruct (mapM_raise parse_int_only C) as [-> _]. reflexivity.
    + destruct (head_ok cbrt c G) as (zoom & lat0 & ->). apply species_line_iff in S. apply counts_line_iff in C.
      unfold read_tail, get_nth. cbn [nth_error bind]. rewrite S. cbn [bind]. rewrite C. cbn [bind].
      rewrite (proj2 (expand_raise ns zs IndexError) (conj eq_refl L)). reflexivity.
    + destruct (head_ok cbrt c G) as (zoom & lat0 & ->). destruct (counted_total L) as [nums Cn]. rewrite (tail_read cbrt _ _ t S C Cn).
      apply coordinates_iff in Co. subst rows. rewrite (mapM_bad (err := ValueError) (f := row_of true)); [reflexivity|apply row_of_only|].
      revert X. apply Exists_imp. intros l. now rewrite a_row_iff.
    + destruct (head_ok cbrt c G) as (zoom & lat0 & ->). destruct (counted_total L) as [nums Cn]. rewrite (tail_read cbrt _ _ t S C Cn).
      apply coordinates_iff in Co. rewrite <- Co. cbn [mapM bind]. apply final_cell. now left.
    + destruct (head_ok cbrt c G) as (zoom & lat0 & ->). rewrite (tail_read cbrt _ _ t S C Cn).
      apply coordinates_iff in Co. subst rows. destruct (rows_total F) as (pos & -> & LP). cbn [bind]. apply final_cell. right. split; [lia|reflexivity].
Qed.
Lemma cell_errors cbrt content e : vasp_get_cell cbrt content = Raise e <->
  exists all ls, content = String.concat (String "010" "") all /\ Forall one_line all /\ kept all ls /\ refused ls e.
Proof.
  rewrite get_cell_lines, refused_lines. split.
  - intros R. destruct (@split_on_lines content "" eq_refl) as [EC OL]. cbn [String.append] in EC. fold (split_lines content) in EC, OL.
    exists (split_lines content), (filter keep (split_lines content)). split; [symmetry; exact EC|]. split; [exact OL|]. split; [apply filter_kept|exact R].
  - intros (all & ls & -> & OL & K & R). destruct all as [|l0 all].
    + inversion K; subst. exact R.
    + change (String "010" "") with nl. rewrite (split_concat OL), (kept_filter K). exact R.
Qed.
