(** Reading of any well-formed POSCAR text; YAML; choice of the format. *)
From Coq Require Import String Ascii Sorted DecimalString.
From Verif Require Import Base LBase BaseQ LQ SElement MElement LElement MSort LSort MGeneralCell SGeneralCell LGeneralCell
  MText LText MIO SIO LIO LIO2 LIO3 LIO4.
Set Implicit Arguments.
Unset Strict Implicit.
Open Scope string_scope.
Open Scope list_scope.
Open Scope Z_scope.
Notation length := List.length.
Notation "a +++ b" := (String.append a b) (at level 60, right associativity).

Lemma allc_all f s : (forall a c b, s = a +++ String c b -> f c = true) -> allc f s = true.
Proof.
  induction s as [|c s IH]; intros H; [reflexivity|]. cbn. rewrite (H "" c s eq_refl). cbn. apply IH. intros a d b ->. exact (H (String c a) d b eq_refl).
Qed.
Lemma whites_allc s : whites s -> allc is_space s = true.
Proof. intros H. apply allc_all. intros a c b E. apply is_space_white. exact (H a c b E). Qed.
Lemma word_is_word s : word s -> is_word s.
Proof.
  intros [N H]. split; [|exact N]. apply allc_all. intros a c b E. unfold noblank. specialize (H a c b E).
  destruct (is_space c) eqn:S; [|reflexivity]. exfalso. apply H, is_space_white, S.
Qed.
Lemma allc_blank_split b : allc is_space b = true -> split b = [].
Proof. intros H. rewrite <- (app_nil_s b). unfold split. rewrite split_ws_blank by assumption. reflexivity. Qed.
Lemma fields_split ws s : fields ws s -> split s = ws.
Proof.
  induction 1 as [b B|b w ws r B W R F IH]; [apply allc_blank_split, whites_allc, B|].
  apply whites_allc in B. apply word_is_word in W. destruct R as [->|(c & r' & -> & C)].
  - rewrite app_nil_s, split_last by assumption. rewrite <- IH. reflexivity.
  - apply is_space_white in C. rewrite split_cons by assumption. f_equal. rewrite <- IH. unfold split at 2. cbn. rewrite C. reflexivity.
Qed.

Lemma numeral_inv s v k : numeral s v k -> allc is_digit_c s = true /\ digits_val (digits_of s) = v /\ String.length s = k.
Proof.
  induction 1 as [|s v k c d N (A & B & C) D]; [repeat split|]. rewrite digit_of_val in D.
  assert (X : allc is_digit_c (String c "") = true) by (cbn; unfold is_digit_c; now rewrite D).
  rewrite allc_app, A, X. split; [reflexivity|]. split.
  - rewrite digits_of_app, digits_val_app, B by assumption. assert (DG : digits_of (String c "") = [d]) by (unfold digits_of; cbn; now rewrite D). rewrite DG. unfold digits_val. cbn [fold_left List.length]. change (Z.of_nat 1) with 1. rewrite Z.pow_1_r. lia.
  - clear -C. revert k C. induction s as [|x s IH]; intros k C; cbn in *; [now subst|]. destruct k; [discriminate|]. injection C as C. now rewrite (IH _ C).
Qed.
Lemma numeral_ne s v k : numeral s v (S k) -> s <> "".
Proof. intros N. destruct (numeral_inv N) as (_ & _ & L). destruct s; [discriminate|congruence]. Qed.

Definition ends_word (e : string) : Prop := match e with EmptyString => True | String c _ => is_space c = true end.
Lemma space_cases c : is_space c = true -> digit_val c = None /\ Ascii.eqb c "." = false /\ (Ascii.eqb c "e" || Ascii.eqb c "E") = false.
Proof.
  destruct c as [b0 b1 b2 b3 b4 b5 b6 b7]. destruct b0, b1, b2, b3, b4, b5, b6, b7; vm_compute; intros H; try discriminate H; repeat split.
Qed.
Lemma lstrip_white b r : allc is_space b = true -> lstrip (b +++ r) = lstrip r.
Proof. induction b as [|c b IH]; [reflexivity|]. cbn. rewrite andb_true_iff. intros [-> B]. now apply IH. Qed.
Lemma sign_step sg ip r : sg = "" \/ sg = "-" -> allc is_digit_c ip = true -> ip <> "" ->
  read_sign (lstrip (sg +++ ip +++ r)) = ((if String.eqb sg "-" then -1 else 1), ip +++ r).
Proof. intros [-> | ->] H N; [exact (@read_sign_digit ip r H N)|reflexivity]. Qed.
Lemma pow10_Z n : Zpos (pow10 n) = 10 ^ Z.of_nat n.
Proof.
  unfold pow10. induction n as [|n IH]; [reflexivity|]. rewrite Nat2Z.inj_succ, Z.pow_succ_r, <- IH by lia. reflexivity.
Qed.
Lemma Zc_pow_ne d : (Zc (10 ^ Z.of_nat d) <> 0)%Qc.
Proof. intros H. rewrite <- Zc_0 in H. apply Zc_inj in H. pose proof (Z.pow_pos_nonneg 10 (Z.of_nat d)). lia. Qed.
Lemma scale10_neg m d : scale10 m (- Z.of_nat d) = (Zc m / Zc (10 ^ Z.of_nat d))%Qc.
Proof.
  unfold scale10. destruct (Z.leb_spec 0 (- Z.of_nat d)).
  - assert (d = 0%nat) as -> by lia. cbn. rewrite Z.mul_1_r. change (Zc 1) with 1%Qc. field. discriminate.
  - rewrite Z.opp_involutive, Nat2Z.id, Q2Qc_frac, pow10_Z. reflexivity.
Qed.
Lemma parse_decimal b w x e : decimal w x -> allc is_space b = true -> allc is_space e = true -> ends_word e -> parse_float (b +++ w +++ e) = Ok x.
Proof.
  intros D B E EW. unfold parse_float. rewrite (lstrip_white _ B).
  assert (EB : blank e = true) by (rewrite blank_allc; exact E).
  assert (ED : match e with EmptyString => True | String c _ => digit_val c = None end) by (destruct e; [exact I|]; apply space_cases, EW).
  destruct D as [sg ip i k S N|sg ip fp i f k d S N F].
  - destruct (numeral_inv N) as (A & V & L). pose proof (numeral_ne N) as NE. rewrite app_assoc_s, (sign_step e S A NE).
    rewrite span_digits_app by assumption. pose proof (digits_of_ne A NE) as DN.
    assert (E2 : match e with String c r => if Ascii.eqb c "." then span_digits r else ([], e) | EmptyString => ([], e) end = ([], e)).
    { destruct e as [|c r]; [reflexivity|]. cbn in EW. destruct (space_cases EW) as (_ & -> & _). reflexivity. }
    rewrite E2, app_nil_r. destruct (digits_of ip) as [|d0 ds] eqn:DD; [congruence|].
    assert (E3 : read_exp e = (0, e)). { destruct e as [|c r]; [reflexivity|]. cbn in EW. destruct (space_cases EW) as (_ & _ & K). cbn. now rewrite K. }
    rewrite E3, EB, V. change (0 - Z.of_nat (length (@nil Z))) with 0. unfold scale10. change (0 <=? 0) with true. cbv iota.
    change (Zpos (pow10 (Z.to_nat 0))) with 1. rewrite Z.mul_1_r. f_equal. unfold sign_of. destruct (String.eqb sg "-"); [|f_equal; lia].
    rewrite <- Zc_opp. reflexivity.
  - destruct (numeral_inv N) as (A & V & L). pose proof (numeral_ne N) as NE. destruct (numeral_inv F) as (A' & V' & L').
    rewrite !app_assoc_s, (sign_step _ S A NE). rewrite span_digits_app by (assumption || reflexivity). cbn [String.append].
    change (Ascii.eqb "." ".") with true. cbv iota. rewrite span_digits_app by assumption.
    pose proof (digits_of_ne A NE) as DN.
    destruct (digits_of ip ++ digits_of fp)%list as [|d0 ds] eqn:DD; [apply app_eq_nil in DD; destruct DD; congruence|].
    assert (E3 : read_exp e = (0, e)). { destruct e as [|c r]; [reflexivity|]. cbn in EW. destruct (space_cases EW) as (_ & _ & K). cbn. now rewrite K. }
    rewrite E3, EB, <- DD, digits_val_app, V, V', digits_of_length, L' by assumption. f_equal.
    change (0 - Z.of_nat d) with (- Z.of_nat d). rewrite scale10_neg. pose proof (@Zc_pow_ne d) as P.
    unfold sign_of. destruct (String.eqb sg "-"); rewrite !Zc_mult, Zc_plus, Zc_mult; [change (Zc (-1)) with (-(1))%Qc|change (Zc 1) with 1%Qc]; field; exact P.
Qed.
Lemma parse_word w x : decimal w x -> parse_float w = Ok x.
Proof. intros D. rewrite <- (app_nil_s w). exact (parse_decimal (b:="") (e:="") D eq_refl eq_refl I). Qed.

Lemma number_line_parse s x : number_line s x -> parse_float s = Ok x.
Proof.
  intros (w & F & D). inversion F as [|b w' ws r B W R F' E1 E2]; subst. inversion F'; subst.
  apply parse_decimal; [exact D|now apply whites_allc..|].
  destruct R as [->|(c & r' & -> & C)]; [exact I|]. now apply is_space_white.
Qed.
Lemma row_line_parse s v : row_line false s v -> (do fs <- mapM parse_float (split s); row3 fs) = Ok v.
Proof.
  intros (a & b & c & ws & F & A & B & C & M). rewrite (fields_split F), (M eq_refl). cbn. rewrite (parse_word A), (parse_word B), (parse_word C).
  cbn. destruct v; reflexivity.
Qed.
Lemma atom_line_parse s v : row_line true s v -> (do fs <- mapM parse_float (firstn 3 (split s)); row3 fs) = Ok v.
Proof.
  intros (a & b & c & ws & F & A & B & C & M). rewrite (fields_split F). cbn. rewrite (parse_word A), (parse_word B), (parse_word C).
  cbn. destruct v; reflexivity.
Qed.

Lemma around_rounded d x : rounded d x (around d x).
Proof.
  exists (round_even (x * Zc (10 ^ Z.of_nat d))%Qc). split; [apply nearest_even_round|].
  unfold around. rewrite Q2Qc_frac, pow10_Z. reflexivity.
Qed.
Lemma rounded_fun d x r : rounded d x r -> r = around d x.
Proof. intros (m & N & ->). apply nearest_even_unique in N. subst m. unfold around. rewrite Q2Qc_frac, pow10_Z. reflexivity. Qed.

Lemma split_concat l ls : Forall one_line (l :: ls) -> split_lines (String.concat nl (l :: ls)) = l :: ls.
Proof.
  revert l. induction ls as [|m ls IH]; intros l F; inversion F as [|? ? O F']; subst.
  - apply split_lines_one, one_line_allc, O.
  - change (String.concat nl (l :: m :: ls)) with (l +++ String newline (String.concat nl (m :: ls))).
    rewrite (split_lines_cons _ (one_line_allc O)), (IH m F'). reflexivity.
Qed.
Lemma kept_filter a ls : kept a ls -> filter keep a = ls.
Proof.
  induction 1 as [|l a ls H K IH|l a ls H K IH]; cbn; [reflexivity| |]; unfold keep at 1.
  - apply ink_iff in H. rewrite H. cbn. now rewrite IH.
  - destruct (blank l) eqn:E; [exact IH|]. exfalso. apply H, ink_iff, E.
Qed.
Lemma det_volume L : (if Qcltb (det L) 0 then - det L else det L)%Qc = volume L.
Proof.
  destruct L as [[a b c] [d e f] [g h i]]. unfold volume, det. cbn [vx vy vz].
  set (D := (a * (e * i - f * h) - b * (d * i - f * g) + c * (d * h - e * g))%Qc).
  unfold Qcltb. change (this 0%Qc) with 0%Q. destruct (Qle_bool 0 D); reflexivity.
Qed.
Lemma mapM_Forall2 A B (f : A -> res B) l r : Forall2 (fun a b => f a = Ok b) l r -> mapM f l = Ok r.
Proof. induction 1 as [|a b l r H F IH]; cbn; [reflexivity|]. rewrite H. cbn. rewrite IH. reflexivity. Qed.
Lemma Forall2_imp A B (P Q : A -> B -> Prop) l r : (forall a b, P a b -> Q a b) -> Forall2 P l r -> Forall2 Q l r.
Proof. induction 2; constructor; auto. Qed.
Lemma expand_spec zs : forall ns, length ns = length zs ->
  expand zs (map Z.of_nat ns) = Ok (flat_map (fun zn => repeat (fst zn) (snd zn)) (combine zs ns)).
Proof.
  induction zs as [|z zs IH]; intros [|n ns] L; try discriminate; [reflexivity|]. cbn. rewrite IH by now injection L. cbn. now rewrite Nat2Z.id.
Qed.

Lemma reading cbrt content z lat zs ns pos : poscar_text content z lat zs ns pos ->
  let lat1 := vmap (vmap (around 4)) lat in
  from_string cbrt content = Ok (vmap (vmap (fun x => x * zoom_factor cbrt lat1 z)%Qc) lat1, map (vmap (around 4)) pos,
    flat_map (fun zn => repeat (fst zn) (snd zn)) (combine zs ns)).
Proof.
  intros (all & comp & scale & l1 & l2 & l3 & species & counts & mode & rows & syms & cs & -> & O & K & HS & R1 & R2 & R3 & FS & ES & FC & NC & LN & RP).
  intros lat1. assert (NE : all <> []) by (intros ->; inversion K).
  destruct all as [|l0 all]; [congruence|]. unfold from_string. change (String "010" "") with nl. rewrite (split_concat O).
  change (fun l => negb (blank l)) with keep. rewrite (kept_filter K).
  cbn [get_nth nth_error bind skipn firstn]. rewrite (number_line_parse HS). cbn [bind].
  cbn [mapM]. rewrite (row_line_parse R1), (row_line_parse R2), (row_line_parse R3). cbn [bind rows3].
  rewrite (fields_split FS), (read_symbols ES). cbn [bind]. rewrite (fields_split FC).
  rewrite (@mapM_Forall2 _ _ parse_int cs (map Z.of_nat ns)).
  2:{ clear -NC. induction NC as [|n c ns cs (k & N) F IH]; cbn; constructor; [|exact IH].
      destruct (numeral_inv N) as (A & V & _). rewrite parse_int_digits by (assumption || eapply numeral_ne; eauto). now rewrite V. }
  cbn [bind]. rewrite (expand_spec LN). cbn [bind].
  match goal with |- context[mapM ?f rows] =>
    change (mapM f rows) with (mapM (fun line => do fs <- mapM parse_float (firstn 3 (split line)); row3 fs) rows) end.
  rewrite (@mapM_Forall2 _ _ _ rows pos) by (eapply Forall2_imp; [|exact RP]; intros; now apply atom_line_parse).
  cbn [bind]. destruct lat as [a b c]. reflexivity.
Qed.

Lemma volume_scaled f L : (0 <= f)%Qc -> volume (vmap (vmap (fun x => x * f)%Qc) L) = (f * f * f * volume L)%Qc.
Proof.
  intros F. rewrite <- !det_volume. destruct L as [[a b c] [d e g] [h i j]]. unfold det. cbn [vmap vx vy vz].
  set (D := (a * (e * j - g * i) - b * (d * j - g * h) + c * (d * i - e * h))%Qc).
  replace (a * f * (e * f * (j * f) - g * f * (i * f)) - b * f * (d * f * (j * f) - g * f * (h * f)) + c * f * (d * f * (i * f) - e * f * (h * f)))%Qc
    with (f * f * f * D)%Qc by (unfold D; ring).
  assert (F3 : (0 <= f * f * f)%Qc). { clear -F. unfold Qcle in *. change (this 0%Qc) with 0%Q in *. rewrite !this_mult. apply Qmult_le_0_compat; [apply Qmult_le_0_compat|]; exact F. }
  set (q := (f * f * f)%Qc) in *. clearbody q D.
  destruct (Qcltb D 0) eqn:E, (Qcltb (q * D) 0) eqn:E'; try ring.
  - apply Qcltb_lt in E. apply Qcltb_ge in E'. assert (q * D = 0)%Qc; [|rewrite H; replace (q * - D)%Qc with (- (q * D))%Qc by ring; rewrite H; ring].
    apply Qcle_antisym; [|exact E']. clear E'. unfold Qcle, Qclt in *. change (this 0%Qc) with 0%Q in *. rewrite this_mult. nra.
  - apply Qcltb_ge in E. apply Qcltb_lt in E'. exfalso. revert E'. apply Qcle_not_lt. unfold Qcle, Qclt in *. change (this 0%Qc) with 0%Q in *. rewrite this_mult.
    apply Qmult_le_0_compat; assumption.
Qed.

Lemma C68_lemma cbrt content z lat zs ns pos : poscar_text content z lat zs ns pos ->
  exists lat4 lat' pos4 nums, from_string cbrt content = Ok (lat', pos4, nums) /\
    vrounded 4 (vx lat) (vx lat4) /\ vrounded 4 (vy lat) (vy lat4) /\ vrounded 4 (vz lat) (vz lat4) /\
    Forall2 (vrounded 4) pos pos4 /\
    nums = flat_map (fun zn => repeat (fst zn) (snd zn)) (combine zs ns) /\
    ((0 <= z)%Qc -> scaled z lat4 lat') /\
    ((z < 0)%Qc -> (forall x, (0 < x)%Qc -> x = (- z / volume lat4)%Qc -> (cbrt x * cbrt x * cbrt x = x)%Qc) -> volume lat4 <> 0%Qc ->
       exists f, (0 < f)%Qc /\ scaled f lat4 lat' /\ volume lat' = (- z)%Qc).
Proof.
  intros P. pose proof (reading cbrt P) as R. cbv zeta in R. set (lat4 := vmap (vmap (around 4)) lat) in *.
  exists lat4. eexists _, _, _. split; [exact R|].
  assert (V : forall v, vrounded 4 v (vmap (around 4) v)) by (intros [a b c]; repeat split; apply around_rounded).
  split; [destruct lat; apply V|]. split; [destruct lat; apply V|]. split; [destruct lat; apply V|]. clear R P.
  split. { induction pos; cbn; constructor; auto. }
  split; [reflexivity|]. split.
  - intros Z. unfold scaled. assert (E : zoom_factor cbrt lat4 z = z); [|now rewrite E].
    unfold zoom_factor. destruct (Qcltb z 0) eqn:E; [|reflexivity]. apply Qcltb_lt in E. exfalso. exact (Qclt_not_le _ _ E Z).
  - intros Z C N. set (x := (- z / volume lat4)%Qc) in *.
    assert (VP : (0 < volume lat4)%Qc).
    { assert (VN : (0 <= volume lat4)%Qc). { unfold volume. set (d := (_ + _)%Qc). destruct (Qle_bool 0 d) eqn:E; [apply Qle_bool_iff in E; exact E|].
        clear -E. clearbody d. destruct (Qlt_le_dec d 0) as [H|H]; [|apply Qle_bool_iff in H; congruence]. unfold Qcle. rewrite this_opp. change (this 0%Qc) with 0%Q. lra. }
      apply Qcle_lt_or_eq in VN. destruct VN as [VN|VN]; [exact VN|congruence]. }
    assert (X : (x * volume lat4 = - z)%Qc) by (unfold x; field; exact N).
    assert (XP : (0 < x)%Qc). { destruct (Qclt_le_dec 0 x) as [H|H]; [exact H|]. exfalso. clear -H X VP Z. apply Qc_eq_this in X. unfold Qcle, Qclt in *.
      change (this 0%Qc) with 0%Q in *. rewrite this_mult, this_opp in X. nra. }
    specialize (C x XP eq_refl). exists (cbrt x).
    assert (E : zoom_factor cbrt lat4 z = cbrt x). { unfold zoom_factor. rewrite det_volume. rewrite (proj2 (Qcltb_lt z 0) Z). reflexivity. }
    assert (FP : (0 < cbrt x)%Qc). { destruct (Qclt_le_dec 0 (cbrt x)) as [H|H]; [exact H|]. exfalso. clear -H C XP. apply Qc_eq_this in C. unfold Qcle, Qclt in *.
      change (this 0%Qc) with 0%Q in *. rewrite !this_mult in C. assert (this (cbrt x) * this (cbrt x) >= 0)%Q by nra. nra. }
    split; [exact FP|]. unfold scaled. rewrite E. split; [reflexivity|]. rewrite volume_scaled by now apply Qclt_le_weak. rewrite C. exact X.
Qed.
