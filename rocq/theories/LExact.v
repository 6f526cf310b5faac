(** The POSCAR text, character by character; reading back numbers with four decimals. *)
From Coq Require Import String Ascii Sorted DecimalString.
From Coq Require DecimalN.
From Verif Require Import Base LBase BaseQ LQ SElement MElement LElement MSort SSort LSort MGeneralCell SGeneralCell LGeneralCell
  MText LText MIO SIO LIO LIO2 LIO3 LIO4 LIO6 SOcc SExact.
Set Implicit Arguments.
Unset Strict Implicit.
Open Scope string_scope.
Open Scope list_scope.
Open Scope Z_scope.
Notation length := List.length.

(** *** numerals are determined by their value and number of digits *)
Lemma digit_range c d : digit_of c = Some d -> 0 <= d < 10.
Proof. destruct c as [b0 b1 b2 b3 b4 b5 b6 b7]. destruct b0, b1, b2, b3, b4, b5, b6, b7; cbn; intros E; try discriminate; injection E as <-; lia. Qed.
Lemma digit_inj c c' d : digit_of c = Some d -> digit_of c' = Some d -> c = c'.
Proof.
  assert (K : forall c d, digit_of c = Some d -> c = digit_char d).
  { intros a e. destruct a as [b0 b1 b2 b3 b4 b5 b6 b7]. destruct b0, b1, b2, b3, b4, b5, b6, b7; cbn; intros E; try discriminate; injection E as <-; reflexivity. }
  intros A B. now rewrite (K _ _ A), (K _ _ B).
Qed.
Lemma numeral_bound s v k : numeral s v k -> 0 <= v < 10 ^ Z.of_nat k.
Proof.
  induction 1 as [|s v k c d N IH D]; [cbn; lia|]. pose proof (digit_range D). rewrite Nat2Z.inj_succ, Z.pow_succ_r by lia. lia.
Qed.
Lemma length_app_s a b : String.length (String.append a b) = (String.length a + String.length b)%nat.
Proof. induction a as [|c a IH]; cbn; [reflexivity|now rewrite IH]. Qed.
Lemma numeral_length s v k : numeral s v k -> String.length s = k.
Proof. induction 1 as [|s v k c d N IH D]; [reflexivity|]. rewrite length_app_s. cbn. lia. Qed.
Lemma numeral_snoc s v k : numeral s v (S k) ->
  exists s1 v1 c d, numeral s1 v1 k /\ digit_of c = Some d /\ s = String.append s1 (String c "") /\ v = 10 * v1 + d.
Proof. intros A. inversion A. do 4 eexists. repeat split; eassumption. Qed.
Lemma numeral_fun k : forall s s' v, numeral s v k -> numeral s' v k -> s = s'.
Proof.
  induction k as [|k IH]; intros s s' v A B.
  - inversion A; inversion B; reflexivity.
  - destruct (numeral_snoc A) as (s1 & v1 & c1 & d1 & A1 & D1 & -> & E1). destruct (numeral_snoc B) as (s2 & v2 & c2 & d2 & B1 & D2 & -> & E2).
    pose proof (digit_range D1). pose proof (digit_range D2). assert (v1 = v2) by lia. assert (d1 = d2) by lia. subst v2 d2.
    rewrite (IH _ _ _ A1 B1), (digit_inj D1 D2). reflexivity.
Qed.
Lemma numeral_lead s v k : numeral s v k -> forall c r, s = String c r -> exists d, digit_of c = Some d /\ d * 10 ^ Z.of_nat (k - 1) <= v.
Proof.
  induction 1 as [|s v k c d N IH D]; intros c0 r E; [discriminate|].
  destruct s as [|c1 s1].
  - cbn in E. injection E as <- <-. inversion N; subst; [|destruct s; discriminate]. exists d. split; [exact D|]. cbn. lia.
  - cbn in E. injection E as <- _. destruct (IH _ _ eq_refl) as (d0 & D0 & L). exists d0. split; [exact D0|].
    pose proof (digit_range D). pose proof (numeral_length N) as NL. cbn in NL. subst k. cbn [Nat.sub] in *. rewrite Nat.sub_0_r in *.
    rewrite Nat2Z.inj_succ, Z.pow_succ_r by lia. lia.
Qed.
Lemma plain_numeral_fun s s' v : plain_numeral s v -> plain_numeral s' v -> s = s'.
Proof.
  assert (K : forall s v k, numeral s v (S k) -> (k = 0%nat \/ forall r, s <> String "0" r) -> k = 0%nat \/ 10 ^ Z.of_nat k <= v).
  { intros t w k N [L|L]; [now left|]. right. destruct t as [|c r]; [pose proof (numeral_length N); discriminate|].
    destruct (numeral_lead N eq_refl) as (d & D & G). cbn [Nat.sub] in G. rewrite Nat.sub_0_r in G.
    assert (d <> 0). { intros ->. apply (L r). rewrite (@digit_inj c "0"%char 0 D eq_refl). reflexivity. }
    pose proof (digit_range D). nia. }
  intros (k & N & L) (k' & N' & L').
  assert (E : k = k').
  { pose proof (K _ _ _ N L) as A. pose proof (K _ _ _ N' L') as B. pose proof (numeral_bound N) as C. pose proof (numeral_bound N') as C'.
    destruct (Nat.lt_trichotomy k k') as [H|[H|H]]; [|exact H|]; exfalso.
    - assert (10 ^ Z.of_nat (S k) <= 10 ^ Z.of_nat k') by (apply Z.pow_le_mono_r; lia). destruct B; lia.
    - assert (10 ^ Z.of_nat (S k') <= 10 ^ Z.of_nat k) by (apply Z.pow_le_mono_r; lia). destruct A; lia. }
  subst k'. exact (numeral_fun N N').
Qed.
Lemma int_text_fun z s s' : int_text z s -> int_text z s' -> s = s'.
Proof.
  intros [[A B]|(A & t & B & ->)] [[C D]|(C & t' & D & ->)]; try lia; [exact (plain_numeral_fun B D)|]. now rewrite (plain_numeral_fun B D).
Qed.
Lemma blanks_len b : blanks b -> forall b', blanks b' -> String.length b = String.length b' -> b = b'.
Proof.
  induction 1 as [|b B IH]; intros b' B' L; destruct B' as [|b' B']; try discriminate; [reflexivity|]. f_equal. apply IH; [exact B'|]. now injection L.
Qed.
Lemma flush_right_fun w s t t' : flush_right w s t -> flush_right w s t' -> t = t'.
Proof.
  intros (b & B & -> & L) (b' & B' & -> & L'). rewrite length_app_s in L, L'. f_equal. apply (blanks_len B B'). lia.
Qed.
Lemma six_text_fun x s s' : six_text x s -> six_text x s' -> s = s'.
Proof.
  intros (sg & y & m & ip & i & fp & f & S & N & M & P & Q & ->) (sg' & y' & m' & ip' & i' & fp' & f' & S' & N' & M' & P' & Q' & ->).
  assert (E : sg = sg' /\ y = y').
  { destruct S as [(-> & A & ->)|(-> & A & ->)], S' as [(-> & A' & ->)|(-> & A' & ->)]; try (split; reflexivity);
      exfalso; eapply Qclt_not_le; eassumption. }
  destruct E as [<- <-]. apply nearest_even_unique in N. apply nearest_even_unique in N'. assert (m = m') by congruence. subst m'.
  pose proof (numeral_bound Q) as B. pose proof (numeral_bound Q') as B'. change (10 ^ Z.of_nat 6) with 1000000 in *.
  assert (i = i') by lia. assert (f = f') by lia. subst i' f'.
  rewrite (plain_numeral_fun P P'), (numeral_fun Q Q'). reflexivity.
Qed.
Lemma six_field_fun x s s' : six_field x s -> six_field x s' -> s = s'.
Proof. intros (t & A & B) (t' & A' & B'). rewrite (six_text_fun A A') in B. exact (flush_right_fun B B'). Qed.
Lemma six_row_fun v s s' : six_row v s -> six_row v s' -> s = s'.
Proof.
  intros (a & b & c & A & B & C & ->) (a' & b' & c' & A' & B' & C' & ->).
  rewrite (six_field_fun A A'), (six_field_fun B B'), (six_field_fun C C'). reflexivity.
Qed.

Lemma Forall2_fun A B (R : A -> B -> Prop) l : (forall x y y', In x l -> R x y -> R x y' -> y = y') -> forall m m', Forall2 R l m -> Forall2 R l m' -> m = m'.
Proof.
  intros H m m' F. revert m'. induction F as [|x y l m E F IH]; intros m' F'; inversion F'; subst; [reflexivity|]. f_equal.
  - eapply H; [now left|eassumption..].
  - apply IH; [|assumption]. intros; eapply H; [right|..]; eassumption.
Qed.

Lemma poscar_exact_fun lat pos nums z mode t t' :
  poscar_exact lat pos nums z mode t -> poscar_exact lat pos nums z mode t' -> t = t'.
Proof.
  intros (comp & sc & l1 & l2 & l3 & zs & syms & bl & -> & F & I & R1 & R2 & R3 & S & C & E & B)
    (comp' & sc' & l1' & l2' & l3' & zs' & syms' & bl' & -> & F' & I' & R1' & R2' & R3' & S' & C' & E' & B').
  assert (zs = zs').
  { apply (@LSort.sorted_unique _ Z.lt); [intros; lia|assumption..|].
    assert (forall l, StronglySorted Z.lt l -> NoDup l) as ND.
    { induction 1 as [|a l H IH Ha]; constructor; [|assumption]. intros J. rewrite Forall_forall in Ha. specialize (Ha _ J). lia. }
    apply NoDup_Permutation; [auto..|]. intros y. rewrite C, C'. tauto. }
  subst zs'.
  assert (syms = syms') by (eapply Forall2_fun; [|exact E|exact E']; intros; eapply element_fun; eassumption). subst syms'.
  assert (bl = bl').
  { eapply Forall2_fun; [|exact B|exact B']. intros q b b' _ H H'. eapply Forall2_fun; [|exact H|exact H'].
    intros p r r' _ (w & W & ->) (w' & W' & ->). rewrite (six_row_fun W W'). reflexivity. }
  subst bl'. rewrite (formula_unique F F'), (int_text_fun I I'), (six_row_fun R1 R1'), (six_row_fun R2 R2'), (six_row_fun R3 R3'). reflexivity.
Qed.

(** *** the writer's text is the exact one *)
Lemma decN_plain z : 0 <= z -> plain_numeral (decN z) z.
Proof.
  intros H. pose proof (numeral_digits (decN_digits z)) as K. rewrite decN_val in K by exact H.
  pose proof (@decN_nonempty z) as NE. exists (pred (String.length (decN z))). split.
  - destruct (decN z); [congruence|exact K].
  - unfold decN in *. set (d := N.to_uint (Z.to_N z)) in *.
    assert (U : Decimal.unorm d = d). { rewrite <- DecimalN.Unsigned.to_of. unfold d. now rewrite DecimalN.Unsigned.of_to. }
    destruct d as [|d|d|d|d|d|d|d|d|d|d]; try (right; intros r E; cbn in E; discriminate).
    left. assert (Z0 : d = Decimal.Nil); [|now rewrite Z0].
    unfold Decimal.unorm in U. cbn [Decimal.nzhead] in U.
    assert (HD : forall u w, Decimal.nzhead u <> Decimal.D0 w) by (induction u; cbn; intros w; auto; discriminate).
    destruct (Decimal.nzhead d) as [|u|u|u|u|u|u|u|u|u|u] eqn:E; try discriminate U.
    + now injection U.
    + exfalso. exact (HD _ _ E).
Qed.
Lemma str_int_text z : int_text z (str_int z).
Proof.
  unfold str_int. destruct (Z.ltb_spec z 0).
  - right. split; [assumption|]. exists (decN (- z)). split; [apply decN_plain; lia|reflexivity].
  - left. split; [assumption|]. now apply decN_plain.
Qed.
Lemma spaces_length n : String.length (spaces n) = n.
Proof. induction n; cbn; congruence. Qed.
Lemma format_six x : six_field x (format_10_6f x).
Proof.
  exists (fword x). split.
  - destruct (fixed_spec (frac_part x)) as (F & L & V).
    exists (fsign x), (if Qcltb x 0 then - x else x)%Qc, (mant x), (decN (mant x / Zpos (pow10 6))), (mant x / Zpos (pow10 6)),
      (fixed 6 (mant x mod Zpos (pow10 6))), (mant x mod Zpos (pow10 6)).
    split; [|split; [exact (nearest_even_round _)|split; [exact (Z.div_mod (mant x) (Zpos (pow10 6)) ltac:(discriminate))|split; [apply decN_plain, int_part|split; [|reflexivity]]]]].
    + unfold fsign. destruct (Qcltb x 0) eqn:E; [right; apply Qcltb_lt in E|left; apply Qcltb_ge in E]; auto.
    + pose proof (numeral_digits F) as K. rewrite V, L in K. exact K.
  - change (format_10_6f x) with (pad_left 10 (fword x)). unfold pad_left. exists (spaces (10 - String.length (fword x))).
    split; [apply blanks_spaces|]. split; [reflexivity|]. rewrite length_app_s, spaces_length. lia.
Qed.
Lemma format_row_six v : six_row v (format_row v).
Proof. rewrite format_row_eq. exists (format_10_6f (vx v)), (format_10_6f (vy v)), (format_10_6f (vz v)). repeat split; apply format_six. Qed.
Lemma blocks_six zs syms pos nums :
  Forall2 (fun zsym block => Forall2 (fun p line => exists row, six_row p row /\ line = String.append row (String " " (snd zsym)))
    (of_number (fst zsym) pos nums) block) (combine zs syms) (block_list zs syms pos nums).
Proof.
  unfold block_list. induction (combine zs syms) as [|zs' l IH]; cbn [map]; constructor; [|exact IH].
  induction (of_number (fst zs') pos nums) as [|p ps IHp]; cbn [map]; constructor; [|exact IHp].
  exists (format_row p). split; [apply format_row_six|reflexivity].
Qed.
Lemma exact_text g zoom direct : Forall supported (numbers g) -> length (positions g) = length (numbers g) ->
  exists v, VaspOutput_new g zoom = Ok v /\
    poscar_exact (lattice g) (positions g) (numbers g) zoom (mode_text direct) (get_string v direct).
Proof.
  intros S L. destruct (VaspOutput_new_ok zoom S L) as (names & zs & syms & E & W). exists (mkVO g names zoom). split; [exact E|].
  exists (comment_of (ordered_atoms names)), (str_int zoom), (format_row (vx (lattice g))), (format_row (vy (lattice g))), (format_row (vz (lattice g))), zs, syms,
    (block_list zs syms (positions g) (numbers g)).
  split; [exact (get_string_eq zoom direct W)|]. split; [eapply comment_formula; [exact S|eapply VaspOutput_names; eauto]|].
  split; [apply str_int_text|].
  do 3 (split; [apply format_row_six|]). split; [apply W|]. split; [apply W|]. split; [apply W|]. apply blocks_six.
Qed.

(** *** numbers with four decimals come back unchanged *)
Lemma four_frac x : four x -> exists m, x = Q2Qc (m # pow10 4).
Proof. intros (m & ->). exists m. now rewrite Q2Qc_frac. Qed.
Lemma around_four x : four (around 4 x).
Proof. unfold around. exists (round_even (x * Zc (Zpos (pow10 4)))%Qc). now rewrite Q2Qc_frac. Qed.
Lemma around_fixed x : four x -> around 4 x = x.
Proof. intros F. destruct (four_frac F) as (m & ->). apply around_frac. Qed.
Lemma around6_fixed x : four x -> around 6 x = x.
Proof.
  intros F. destruct (four_frac F) as (m & ->). assert (E : Q2Qc (m # pow10 4) = Q2Qc (m * 100 # pow10 6)).
  { apply Qc_is_canon. rewrite !this_Q2Qc. unfold Qeq. cbn. lia. }
  rewrite E. apply around_frac.
Qed.
Lemma four_opp x : four x -> four (- x)%Qc.
Proof. intros (m & ->). exists (- m). rewrite Zc_opp. unfold Qcdiv. ring. Qed.
Lemma fval_fixed x : four x -> fval x = x.
Proof.
  intros F. unfold fval, mant. destruct (Qcltb x 0).
  - pose proof (around6_fixed (four_opp F)) as A. unfold around in A. rewrite Q2Qc_frac in A. rewrite Q2Qc_frac, Zc_mult.
    set (k := round_even _) in *. change (Zc (-1)) with (- (1))%Qc.
    replace (- (1) * Zc k / Zc (Zpos (pow10 6)))%Qc with (- (Zc k / Zc (Zpos (pow10 6))))%Qc by (unfold Qcdiv; ring). rewrite A. ring.
  - rewrite Z.mul_1_l. exact (around6_fixed F).
Qed.
Lemma read_fixed x : four x -> around 4 (fval x) = x.
Proof. intros F. rewrite (fval_fixed F). now apply around_fixed. Qed.
Lemma vread_fixed v : vfour v -> vmap (fun x => around 4 (fval x)) v = v.
Proof. destruct v as [a b c]. intros (A & B & C). cbn in *. unfold vmap. cbn. now rewrite !read_fixed. Qed.
Lemma mread_fixed m : mfour m -> vmap (vmap (fun x => around 4 (fval x))) m = m.
Proof. destruct m as [a b c]. intros (A & B & C). cbn in *. unfold vmap at 1. cbn [vx vy vz]. now rewrite !vread_fixed. Qed.
Lemma vread_four v : vfour (vmap (fun x => around 4 (fval x)) v).
Proof. repeat split; apply around_four. Qed.
Lemma one_times m : vmap (vmap (fun x => x * Zc 1)%Qc) m = m.
Proof. destruct m as [[a b c] [d e f] [h i j]]. unfold vmap. cbn. change (Zc 1) with 1%Qc. now rewrite !Qcmult_1_r. Qed.

Lemma read_exactly cbrt g direct v : Forall supported (numbers g) -> length (positions g) = length (numbers g) ->
  (exists z, In z (numbers g) /\ z <> 0) -> mfour (lattice g) -> Forall vfour (positions g) -> VaspOutput_new g 1 = Ok v ->
  exists atoms, from_string cbrt (get_string v direct) = Ok (lattice g, map fst atoms, map snd atoms) /\
    grouped (combine (positions g) (numbers g)) atoms.
Proof.
  intros S L (z & I & N) M P E. destruct (VaspOutput_new_ok 1 S L) as (names & zs & syms & E' & W). rewrite E' in E. injection E as <-.
  assert (NZ : zs <> []). { intros ->. apply (proj2 (w_cover W z)). auto. }
  exists (atoms_of zs (positions g) (numbers g)). split; [|apply (atoms_grouped W)].
  rewrite (read_written cbrt 1 direct W NZ). cbv zeta. rewrite (@zoom_pos cbrt _ 1) by lia.
  rewrite (mread_fixed M), one_times, atoms_pos, (atoms_nums zs (w_len W)).
  enough (Q : map (vmap (fun x => around 4 (fval x))) (grouped_pos zs (positions g) (numbers g)) = grouped_pos zs (positions g) (numbers g)) by now rewrite Q.
  rewrite <- (map_id (grouped_pos zs (positions g) (numbers g))) at 2. apply map_ext_in. intros p K. apply vread_fixed. rewrite Forall_forall in P. apply P.
  unfold grouped_pos in K. apply in_flat_map in K. destruct K as (y & _ & K). unfold of_number in K. apply in_map_iff in K. destruct K as ([q n] & <- & K).
  apply filter_In in K. destruct K as [K _]. now apply in_combine_l in K.
Qed.

Lemma perm_filters (l : list (vec Qc * Z)) : forall l', (forall z, Permutation (filter (fun a => snd a =? z) l) (filter (fun a => snd a =? z) l')) -> Permutation l l'.
Proof.
  induction l as [|a l IH]; intros l' H.
  - destruct l' as [|[p m] l']; [constructor|]. specialize (H m). cbn in H. rewrite Z.eqb_refl in H. apply Permutation_nil in H. discriminate.
  - assert (I : In a l').
    { specialize (H (snd a)). cbn in H. rewrite Z.eqb_refl in H. assert (K : In a (filter (fun b => snd b =? snd a) l')) by (eapply Permutation_in; [exact H|now left]).
      now apply filter_In in K. }
    apply in_split in I. destruct I as (u & w & ->). apply Permutation_cons_app, IH. intros z. specialize (H z). rewrite !filter_app in *. cbn in H.
    destruct (snd a =? z); [|exact H]. now apply Permutation_cons_app_inv in H.
Qed.
Lemma grouped_perm (orig out : list (vec Qc * Z)) : (forall a, In a orig -> snd a <> 0) -> grouped orig out -> Permutation orig out.
Proof.
  intros NV [_ G]. apply perm_filters. intros z. rewrite G. destruct (Z.eqb_spec z 0) as [->|]; [|reflexivity].
  rewrite filter_empty; [constructor|]. intros a I. apply Z.eqb_neq. auto.
Qed.
Lemma combine_split_pairs A B (l : list (A * B)) : combine (map fst l) (map snd l) = l.
Proof. induction l as [|[a b] l IH]; cbn; congruence. Qed.

Lemma constructor_again c : from_constructor c -> GeneralCell_new (lattice c) (positions c) (numbers c) = Ok c /\ length (positions c) = length (numbers c) /\ positions c <> [].
Proof.
  intros (lat & pos & nums & L & E). split; [exact (C09_idempotent _ _ _ L E)|].
  destruct (GeneralCell_new_inv _ _ _ E) as [N _]. rewrite GeneralCell_new_ok in E by (auto; lia). injection E as <-. cbn.
  rewrite sortp_length, sortn_length. split; [reflexivity|]. intros K. apply (f_equal (@length _)) in K. rewrite sortp_length in K. destruct pos; [congruence|discriminate].
Qed.

Lemma read_cell_exactly cbrt c direct v : from_constructor c -> Forall supported (numbers c) -> ~ In 0 (numbers c) ->
  (forall ks, Forall2 vwrap3 (positions c) ks -> NoDup ks) -> mfour (lattice c) -> Forall vfour (positions c) -> VaspOutput_new c 1 = Ok v ->
  vasp_get_cell cbrt (get_string v direct) = Ok c.
Proof.
  intros FC S NV ND M P E. destruct (constructor_again FC) as (G & L & NE).
  assert (SA : exists z, In z (numbers c) /\ z <> 0).
  { destruct (numbers c) as [|z zs]; [destruct (positions c); [congruence|discriminate]|]. exists z. split; [now left|]. intros ->. apply NV. now left. }
  destruct (@read_exactly cbrt c direct v S L SA M P E) as (atoms & R & GR). unfold vasp_get_cell. rewrite R. cbn [bind]. rewrite <- G. symmetry.
  apply C09_order_independent; [exact L|now rewrite !map_length| |exact ND].
  rewrite combine_split_pairs. apply grouped_perm; [|exact GR]. intros [p n] I C. cbn in C. subst n. apply in_combine_r in I. contradiction.
Qed.

Lemma sort_atoms lat pos nums c : length pos = length nums -> GeneralCell_new lat pos nums = Ok c ->
  lattice c = lat /\ Permutation pos (positions c) /\ Permutation nums (numbers c).
Proof.
  intros L E. destruct (GeneralCell_new_inv _ _ _ E) as [N _]. pose proof E as E0. rewrite GeneralCell_new_ok in E by (auto; lia). injection E as <-. cbn.
  pose proof (sort_pairs_perm pos nums L) as Q. split; [reflexivity|].
  assert (L2 : length (sortp pos) = length (sortn pos nums)) by now rewrite sortp_length, sortn_length.
  split.
  - apply (Permutation_map fst) in Q. rewrite !map_fst_combine in Q by assumption. now symmetry.
  - apply (Permutation_map snd) in Q. rewrite !map_snd_combine in Q by assumption. now symmetry.
Qed.

Lemma second_pass cbrt g direct v c : Forall supported (numbers g) -> length (positions g) = length (numbers g) ->
  (exists z, In z (numbers g) /\ z <> 0) -> VaspOutput_new g 1 = Ok v -> vasp_get_cell cbrt (get_string v direct) = Ok c ->
  (forall ks, Forall2 vwrap3 (positions c) ks -> NoDup ks) ->
  exists v', VaspOutput_new c 1 = Ok v' /\ forall direct', vasp_get_cell cbrt (get_string v' direct') = Ok c.
Proof.
  intros S L (z & I & N) E R ND. destruct (VaspOutput_new_ok 1 S L) as (names & zs & syms & E' & W). rewrite E' in E. injection E as <-.
  assert (NZ : zs <> []). { intros ->. apply (proj2 (w_cover W z)). auto. }
  unfold vasp_get_cell in R. rewrite (read_written cbrt 1 direct W NZ) in R. cbv zeta in R. cbn [bind] in R.
  rewrite (@zoom_pos cbrt _ 1), one_times in R by lia.
  set (pos := map _ _) in R. set (nums := flat_map _ _) in R.
  assert (LL : length pos = length nums).
  { unfold pos, nums. rewrite map_length, <- atoms_pos, <- (atoms_nums zs (w_len W)), !map_length. reflexivity. }
  assert (FC : from_constructor c) by (exists (vmap (vmap (fun x => around 4 (fval x))) (lattice g)), pos, nums; split; assumption).
  destruct (sort_atoms LL R) as (Hl & Hp & Hn).
  assert (NI : forall y, In y (numbers c) -> In y (numbers g) /\ y <> 0).
  { intros y J. apply (Permutation_in _ (Permutation_sym Hn)) in J. unfold nums in J. apply in_flat_map in J. destruct J as (y' & J & K).
    apply repeat_spec in K. subst y'. now apply (w_cover W). }
  assert (SC : Forall supported (numbers c)).
  { apply Forall_forall. intros y J. rewrite Forall_forall in S. apply S. now apply NI. }
  destruct (constructor_again FC) as (_ & LC & _).
  destruct (VaspOutput_new_ok 1 SC LC) as (names' & zs' & syms' & E2 & _). eexists. split; [exact E2|]. intros direct'.
  apply read_cell_exactly; auto.
  - intros J. apply NI in J. destruct J as [_ J]. now apply J.
  - rewrite Hl. repeat split; apply around_four.
  - apply Forall_forall. intros p J. apply (Permutation_in _ (Permutation_sym Hp)) in J. unfold pos in J. apply in_map_iff in J.
    destruct J as (q & <- & _). apply vread_four.
Qed.

(** *** YAML *)
Lemma yaml_exactly c : from_constructor c -> Forall supported (numbers c) -> mfour (lattice c) -> Forall vfour (positions c) ->
  exists d, yaml_doc c = Ok d /\ yaml_get_cell d = Ok c.
Proof.
  intros FC S M P. destruct (constructor_again FC) as (G & _ & _). destruct (mapM_to_name S) as (names & E & _).
  unfold yaml_doc. rewrite E. cbn [bind]. eexists. split; [reflexivity|]. unfold yaml_get_cell, yaml_read. cbn [y_lattice y_positions y_numbers y_zoom].
  rewrite <- G. f_equal.
  - destruct (lattice c) as [[a b d] [e f h] [i j k]]. destruct M as ((A1 & A2 & A3) & (B1 & B2 & B3) & (C1 & C2 & C3)). cbn in *.
    unfold vmap. cbn. rewrite !Qcmult_1_r, !around6_fixed, !around_fixed by assumption. reflexivity.
  - rewrite map_map. rewrite <- (map_id (positions c)) at 2. apply map_ext_in. intros p I. rewrite Forall_forall in P. specialize (P _ I).
    destruct p as [x y z]. destruct P as (A & B & C). cbn in *. unfold vmap. cbn. now rewrite !around6_fixed, !around_fixed by assumption.
Qed.
