(** C85: small errors in positions, translations and arithmetic. *)
From Verif Require Import Base LBase BaseQ LQ MSort LSort MGeneralCell SGeneralCell LGeneralCell SSym LSym MComb MSogen SSubst SOcc SEnum LDup LSogen LSymDec SRobust.
Set Implicit Arguments.
Unset Strict Implicit.
Open Scope Z_scope.

Lemma half_eq k : (Q2Qc ((2 * k + 1) # 2000) * Zc 1000)%Qc = (Zc k + Q2Qc (1#2))%Qc.
Proof.
  apply Qc_is_canon. rewrite this_mult, this_plus, !this_Zc, !this_Q2Qc. unfold Qeq, Qmult, Qplus, inject_Z. cbn [Qnum Qden]. lia.
Qed.

Lemma tofrac1_near e y x : margin1 e x -> near1 e y x -> tofrac1 y = tofrac1 x.
Proof.
  intros M [a [A1 A2]]. rewrite !tofrac1_eq.
  assert (E : tofrac1 y = tofrac1 (y - Zc a)%Qc) by (replace y with ((y - Zc a) + Zc a)%Qc at 1 by ring; apply tofrac1_shift).
  rewrite !tofrac1_eq in E. rewrite E. f_equal. f_equal. f_equal.
  set (m := round_even (x * Zc 1000)%Qc). pose proof (nearest_even_round (x * Zc 1000)%Qc) as N. fold m in N.
  assert (L : (Zc m - Q2Qc (1#2) <= x * Zc 1000)%Qc /\ (x * Zc 1000 <= Zc m + Q2Qc (1#2))%Qc).
  { destruct N as [[? ?]|[[N|N] _]]; split; try (now apply Qclt_le_weak); rewrite N; qclra. }
  clear N. destruct L as [L1 L2]. pose proof (M m) as M1. pose proof (M (m - 1)) as M2.
  pose proof (half_eq m) as H1. pose proof (half_eq (m - 1)) as H2. rewrite Zc_minus, Zc_1 in H2.
  set (u := Q2Qc ((2 * m + 1) # 2000)) in *. set (v := Q2Qc ((2 * (m - 1) + 1) # 2000)) in *.
  assert (E1000 : Zc 1000 = Q2Qc (1000#1)) by (apply Qc_is_canon; reflexivity).
  rewrite E1000 in *.
  assert (D1 : (x - u < - e)%Qc).
  { apply Qcnot_le_lt. intros K. apply M1. split; [exact K|]. clear M1 M2. qclra. }
  assert (D2 : (e < x - v)%Qc).
  { apply Qcnot_le_lt. intros K. apply M2. split; [|exact K]. clear M1 M2. qclra. }
  clear M1 M2. apply round_even_unique; qclra.
Qed.

Lemma tofrac_near e p q : margin e q -> near e p q -> tofrac p = tofrac q.
Proof.
  intros (M1 & M2 & M3) (N1 & N2 & N3). unfold tofrac, vmap. now rewrite (tofrac1_near M1 N1), (tofrac1_near M2 N2), (tofrac1_near M3 N3).
Qed.
Lemma keys_near e ps qs : Forall (margin e) qs -> Forall2 (near e) ps qs -> map tofrac ps = map tofrac qs.
Proof.
  intros M F. induction F as [|p q ps qs H F IH]; [reflexivity|]. inversion M; subst. cbn. rewrite IH by assumption. f_equal. eapply tofrac_near; eauto.
Qed.

Lemma near1_mono e e' x y : (e <= e')%Qc -> near1 e x y -> near1 e' x y.
Proof. intros L [a [A B]]. exists a. split; qclra. Qed.
Lemma near_mono e e' p q : (e <= e')%Qc -> near e p q -> near e' p q.
Proof. intros L (A & B & C). split; [|split]; eauto using near1_mono. Qed.
Lemma near1_trans e e' x y z : near1 e x y -> near1 e' y z -> near1 (e + e')%Qc x z.
Proof. intros [a [A1 A2]] [b [B1 B2]]. exists (a + b). rewrite Zc_plus. split; qclra. Qed.
Lemma near_trans e e' p q r : near e p q -> near e' q r -> near (e + e')%Qc p r.
Proof. intros (A & B & C) (A' & B' & C'). split; [|split]; eauto using near1_trans. Qed.
Lemma shift_near p q : int_shift p q -> near 0%Qc p q.
Proof. intros (a & b & c & ->). split; [|split]; cbn; [exists (- a)|exists (- b)|exists (- c)]; rewrite Zc_opp; split; qclra. Qed.

Lemma scaled_abs r d e : (- e <= d)%Qc -> (d <= e)%Qc -> (- (Zc (Z.abs r) * e) <= Zc r * d)%Qc /\ (Zc r * d <= Zc (Z.abs r) * e)%Qc.
Proof.
  intros A B. destruct (Z.le_ge_cases 0 r) as [H|H].
  - rewrite Z.abs_eq by assumption. assert (Z0 : (0 <= Zc r)%Qc) by (rewrite <- Zc_0; now apply Zc_le).
    split; [|rewrite !(Qcmult_comm (Zc r)); now apply Qcmult_le_compat_r].
    replace (- (Zc r * e))%Qc with ((- e) * Zc r)%Qc by ring. rewrite (Qcmult_comm (Zc r)). now apply Qcmult_le_compat_r.
  - rewrite Z.abs_neq by assumption. assert (Z0 : (0 <= Zc (- r))%Qc) by (rewrite <- Zc_0; apply Zc_le; lia). rewrite Zc_opp in *.
    split.
    + replace (- (- Zc r * e))%Qc with (- (e * - Zc r))%Qc by ring. replace (Zc r * d)%Qc with (- (d * - Zc r))%Qc by ring. apply Qcopp_le_compat. now apply Qcmult_le_compat_r.
    + replace (Zc r * d)%Qc with ((- d) * - Zc r)%Qc by ring. replace (- Zc r * e)%Qc with (e * - Zc r)%Qc by ring. apply Qcmult_le_compat_r; [|assumption].
      replace e with (- - e)%Qc by ring. now apply Qcopp_le_compat.
Qed.

Lemma row_near R e t r1 r2 r3 x y z t0 x' y' z' t0' : Z.abs r1 + Z.abs r2 + Z.abs r3 <= R ->
  near1 e x' x -> near1 e y' y -> near1 e z' z -> near1 t t0' t0 ->
  near1 (Zc R * e + t)%Qc (Zc r1 * x' + Zc r2 * y' + Zc r3 * z' + t0')%Qc (Zc r1 * x + Zc r2 * y + Zc r3 * z + t0)%Qc.
Proof.
  intros HR [a [A1 A2]] [b [B1 B2]] [c [C1 C2]] [d [D1 D2]]. exists (r1 * a + r2 * b + r3 * c + d).
  assert (E0 : (0 <= e)%Qc) by qclra. apply Zc_le in HR. rewrite !Zc_plus in HR.
  assert (HE := Qcmult_le_compat_r _ _ _ HR E0).
  destruct (@scaled_abs r1 _ _ A1 A2) as [X1 X2]. destruct (@scaled_abs r2 _ _ B1 B2) as [Y1 Y2]. destruct (@scaled_abs r3 _ _ C1 C2) as [Z1 Z2].
  rewrite !Zc_plus, !Zc_mult.
  replace (Zc r1 * x' + Zc r2 * y' + Zc r3 * z' + t0' - (Zc r1 * x + Zc r2 * y + Zc r3 * z + t0) - (Zc r1 * Zc a + Zc r2 * Zc b + Zc r3 * Zc c + Zc d))%Qc
    with (Zc r1 * (x' - x - Zc a) + Zc r2 * (y' - y - Zc b) + Zc r3 * (z' - z - Zc c) + (t0' - t0 - Zc d))%Qc by ring.
  revert HE X1 X2 Y1 Y2 Z1 Z2 D1 D2. replace ((Zc (Z.abs r1) + Zc (Z.abs r2) + Zc (Z.abs r3)) * e)%Qc with (Zc (Z.abs r1) * e + Zc (Z.abs r2) * e + Zc (Z.abs r3) * e)%Qc by ring.
  generalize (Zc r1 * (x' - x - Zc a))%Qc (Zc r2 * (y' - y - Zc b))%Qc (Zc r3 * (z' - z - Zc c))%Qc (t0' - t0 - Zc d)%Qc (Zc (Z.abs r1) * e)%Qc (Zc (Z.abs r2) * e)%Qc (Zc (Z.abs r3) * e)%Qc (Zc R * e)%Qc.
  clear. intros u v w s a b c Re ? ? ? ? ? ? ? ? ?. split; qclra.
Qed.
Lemma image_near R e t o' o p' p : row_sums R (fst o) -> near_op t o' o -> near e p' p ->
  near (Zc R * e + t)%Qc (op_image (fst o') (snd o') p') (op_image (fst o) (snd o) p).
Proof.
  intros (R1 & R2 & R3) [-> (T1 & T2 & T3)] (P1 & P2 & P3). unfold op_image. split; [|split]; cbn [vx vy vz]; apply row_near; assumption.
Qed.

Lemma Forall2_nthr A B (R : A -> B -> Prop) l l' i b : Forall2 R l l' -> nth_error l' i = Some b -> exists a, nth_error l i = Some a /\ R a b.
Proof. intros F. revert i. induction F as [|x y l l' H F IH]; intros [|i] E; cbn in *; try discriminate; [injection E as <-; eauto|auto]. Qed.

Lemma Forall2_in A B (R : A -> B -> Prop) l l' : Forall2 R l l' -> Forall2 (fun a b => In a l /\ R a b) l l'.
Proof.
  induction 1 as [|x y l l' H F IH]; constructor; [split; [now left|assumption]|]. eapply Forall2_imp; [|exact IH]. cbn. intros a b [? ?]. split; [now right|assumption].
Qed.

(** *** the cell *)
Lemma cell_near e lat lat' pos pos' nums c : length pos = length nums -> Forall (margin e) pos -> Forall2 (near e) pos' pos ->
  GeneralCell_new lat pos nums = Ok c -> exists c', GeneralCell_new lat' pos' nums = Ok c' /\
    lattice c' = lat' /\ numbers c' = numbers c /\ Forall2 (near e) (positions c') (positions c).
Proof.
  intros L M F E. pose proof (keys_near M F) as K. unfold GeneralCell_new in *.
  destruct pos as [|p pos]; [discriminate|]. inversion F as [|p' q ps' qs Hp Fp]; subst.
  unfold get_new_id_seq in *. cbn [bind] in *. rewrite K. set (r := lexsort (map tofrac (p :: pos))) in *.
  destruct (take_idx (p :: pos) r) as [ps|] eqn:Eps; [|discriminate]. cbn [bind] in E. destruct (take_idx nums r) as [ns|] eqn:Ens; [|discriminate]. cbn [bind] in *. injection E as <-.
  apply take_idx_reordered in Eps.
  assert (X : exists ps2, take_idx (p' :: ps') r = Ok ps2 /\ Forall2 (near e) ps2 ps).
  { clear - Eps F. revert ps Eps. generalize r as s. induction s as [|i s IH]; intros ps H; inversion H as [|? a ? l Hi Hl]; subst; [exists []; split; [reflexivity|constructor]|].
    destruct (IH l Hl) as (ps2 & E2 & F2). destruct (Forall2_nthr F Hi) as (b & Hb & Nb). exists (b :: ps2).
    split; [|constructor; assumption]. apply take_idx_reordered. constructor; [assumption|]. now apply take_idx_reordered. }
  destruct X as (ps2 & E2 & F2). rewrite E2. cbn [bind]. eexists. split; [reflexivity|]. cbn. auto.
Qed.

(** *** the permutations *)
Section Perm.
Variables (lat : mat Qc) (pos : list (vec Qc)) (nums : list Z) (c : gcell) (ops : list symop) (m : Qc).
Hypothesis LEN : length pos = length nums.
Hypothesis NEW : GeneralCell_new lat pos nums = Ok c.
Hypothesis MAR : Forall (margin m) (positions c).
Hypothesis DIS : distinct_sites (positions c).
Hypothesis GRP : exact_space_group ops (positions c).

Lemma images_keys o ps img : In o ops -> incl ps (positions c) -> Forall2 (near m) img (map (op_image (fst o) (snd o)) ps) ->
  map tofrac img = map tofrac (map (apply_op o) ps).
Proof.
  intros Ho. revert img. induction ps as [|p ps IH]; intros img IN F; inversion F as [|a b l l' N F']; subst; [reflexivity|].
  cbn. rewrite (IH l) by (try assumption; intros x Hx; apply IN; now right). f_equal.
  destruct GRP as (_ & _ & _ & X). destruct (X o p Ho (IN p (or_introl eq_refl))) as (q & Hq & C).
  rewrite apply_op_image, <- (tofrac_shift C). rewrite Forall_forall in MAR. apply (tofrac_near (MAR q Hq)).
  replace m with (m + 0)%Qc by ring. exact (near_trans N (shift_near C)).
Qed.

Lemma computed_images images :
  Forall2 (fun o img => Forall2 (near m) img (map (op_image (fst o) (snd o)) (positions c))) ops images ->
  mapM get_new_id_seq images = get_symmetry_permutation ops c.
Proof.
  clear LEN DIS. intros F. pose proof (proj2 (GeneralCell_new_canonical NEW)) as NE. rewrite (mapM_gsp_ok _ NE).
  assert (K : forall o img, In o ops -> Forall2 (near m) img (map (op_image (fst o) (snd o)) (positions c)) -> get_new_id_seq img = Ok (order_of (map (apply_op o) (positions c)))).
  { intros o img Ho Fi. unfold order_of. rewrite <- (images_keys Ho (incl_refl _) Fi). unfold get_new_id_seq. destruct img; [|reflexivity].
    inversion Fi as [E|]. destruct (positions c); [congruence|discriminate]. }
  clear - F K. induction F as [|o img os is Fi F IH]; [reflexivity|]. cbn. rewrite (K o img) by (try assumption; now left). cbn. rewrite IH; [reflexivity|].
  intros o' img' Ho. apply K. now right.
Qed.

Lemma noisy_permutations (f : symop -> vec Qc -> vec Qc) (R : Z) (e t d : Qc) ops' c' :
  Forall2 (near_op t) ops' ops -> (forall o, In o ops -> row_sums R (fst o)) -> Forall2 (near e) (positions c') (positions c) ->
  (forall o p, near d (f o p) (op_image (fst o) (snd o) p)) -> (Zc R * e + t + d <= m)%Qc ->
  mapM (fun o => get_new_id_seq (map (f o) (positions c'))) ops' = get_symmetry_permutation ops c.
Proof.
  intros FO RS FP FF LE. rewrite <- (@computed_images (map (fun o => map (f o) (positions c')) ops')).
  - clear. induction ops' as [|o l IH]; [reflexivity|]. cbn. now rewrite IH.
  - clear - FO RS FP FF LE. induction FO as [|o' o os' os Ho F IH]; [constructor|]. cbn. constructor; [|apply IH; intros; apply RS; now right].
    clear IH F. assert (R0 : row_sums R (fst o)) by (apply RS; now left). clear RS. induction FP as [|p' p ps' ps Hp F IH]; [constructor|]. cbn. constructor; [|exact IH].
    apply (near_mono LE). replace (Zc R * e + t + d)%Qc with (d + (Zc R * e + t))%Qc by ring. eapply near_trans; [apply FF|]. now apply image_near.
Qed.
Lemma noisy_symmetry (R : Z) (e t : Qc) ops' c' :
  Forall2 (near_op t) ops' ops -> (forall o, In o ops -> row_sums R (fst o)) -> Forall2 (near e) (positions c') (positions c) -> (Zc R * e + t <= m)%Qc ->
  get_symmetry_permutation ops' c' = get_symmetry_permutation ops c.
Proof.
  intros FO RS FP LE. unfold get_symmetry_permutation at 1. apply (@noisy_permutations apply_op R e t 0%Qc); auto.
  - intros o p. rewrite apply_op_image. split; [|split]; exists 0; rewrite Zc_0; split; qclra.
  - replace (Zc R * e + t + 0)%Qc with (Zc R * e + t)%Qc by ring. exact LE.
Qed.

(** *** equivalence of decorations is geometric *)
Lemma geo_perms perms x y : get_symmetry_permutation ops c = Ok perms -> length x = length (positions c) ->
  equivalent perms x y <-> geo_equivalent ops (positions c) x y.
Proof.
  clear LEN MAR. intros EP LX. pose proof (proj1 (GeneralCell_new_canonical NEW)) as CAN. pose proof (C13_lemma CAN DIS EP) as F.
  pose proof (proj1 (distinct_keys _) DIS) as ND.
  assert (FM : Forall2 (fun o perm => In o ops /\ Permutation perm (seq 0 (length (positions c))) /\
     forall i j, nth_error perm i = Some j -> exists p q, nth_error (positions c) j = Some p /\ nth_error (positions c) i = Some q /\ carries o p q) ops perms).
  { eapply Forall2_imp; [|exact (Forall2_in F)]. cbn. intros o perm [Ho H]. split; [exact Ho|]. apply H. exact (exact_maps_sites ND GRP Ho). }
  assert (LP : forall perm, Permutation perm (seq 0 (length (positions c))) -> length perm = length (positions c)) by (intros perm P; apply Permutation_length in P; now rewrite seq_length in P).
  split.
  - intros [perm [Hp RE]]. destruct (In_nth_error _ _ Hp) as [n Hn]. destruct (Forall2_nthr FM Hn) as (o & Hno & Ho & P & CA).
    pose proof (Forall2_len RE) as LY. rewrite (LP _ P) in LY. split; [congruence|]. exists o. split; [exact Ho|]. intros i j p q Hj Hi C.
    assert (Ij : In j perm). { apply (Permutation_in _ (Permutation_sym P)). apply in_seq. assert (j < length (positions c))%nat by (apply nth_error_Some; congruence). lia. }
    destruct (In_nth_error _ _ Ij) as [i' Hi']. destruct (CA _ _ Hi') as (p' & q' & Hp' & Hq' & C'). assert (p' = p) by congruence. subst p'.
    assert (i' = i) by (apply (carries_fun ND Hj Hq' Hi C'); now apply carries_exactly_carries). subst i'.
    assert (Hy : exists a, nth_error y i = Some a). { destruct (nth_error y i) eqn:K; [eauto|]. apply nth_error_None in K. assert (i < length (positions c))%nat by (apply nth_error_Some; congruence). lia. }
    destruct Hy as [a Ha]. rewrite Ha. destruct (Forall2_nthr RE Ha) as (j' & Hj' & Hx). assert (j' = j) by congruence. subst. now symmetry.
  - intros (LY & o & Ho & H). destruct (In_nth_error _ _ Ho) as [n Hn].
    assert (X : exists perm, In perm perms /\ Permutation perm (seq 0 (length (positions c))) /\
      forall i j, nth_error perm i = Some j -> exists p q, nth_error (positions c) j = Some p /\ nth_error (positions c) i = Some q /\ carries o p q).
    { clear - FM Hn. revert n Hn. induction FM as [|o1 perm os ps K F IH]; intros [|n] Hn; cbn in Hn; try discriminate.
      - injection Hn as ->. exists perm. split; [now left|]. apply K.
      - destruct (IH n Hn) as (perm' & I & K'). exists perm'. split; [now right|exact K']. }
    destruct X as (perm & Ip & P & CA). exists perm. split; [exact Ip|]. unfold reordered.
    assert (LE : length perm = length y) by (rewrite (LP _ P); congruence).
    assert (AL : forall i j a, nth_error perm i = Some j -> nth_error y i = Some a -> nth_error x j = Some a).
    { intros i j a Hi Ha. destruct (CA _ _ Hi) as (p & q & Hp & Hq & C).
      assert (C' : carries_exactly o p q) by (apply (carries_to_exact ND GRP Ho (nth_error_In _ _ Hp) (nth_error_In _ _ Hq) C)).
      rewrite <- (H i j p q Hp Hq C'). exact Ha. }
    clear - LE AL. revert y LE AL. induction perm as [|j perm IH]; intros [|a y] LE AL; cbn in LE; try discriminate; constructor.
    + exact (AL 0%nat j a eq_refl eq_refl).
    + apply IH; [lia|]. intros i j' a' Hi Ha. exact (AL (S i) j' a' Hi Ha).
Qed.
End Perm.

Lemma transversal_rel A (E E' : A -> A -> Prop) (D : A -> Prop) out : (forall x y, D x -> (E x y <-> E' x y)) -> transversal E D out -> transversal E' D out.
Proof.
  intros H (F & C & P). split; [exact F|]. split.
  - intros x Dx. destruct (C x Dx) as (y & Hy & Exy). exists y. split; [exact Hy|]. now apply H.
  - clear C. induction P as [|x l K P IH]; [constructor|]. inversion F as [|? ? Dx Fl]; subst. constructor; [|now apply IH].
    rewrite Forall_forall in *. intros y Hy. destruct (K y Hy) as [N1 N2]. split; intros X; [apply N1|apply N2]; apply H; auto.
Qed.

Section Enum.
Variables (h : list Z -> Z) (m : Qc) (f : symop -> vec Qc -> vec Qc) (lat lat' : mat Qc) (pos pos' : list (vec Qc)) (nums : list Z) (c c' : gcell) (ops ops' : list symop)
  (wy : list String.string) (perms : list (list nat)).
Hypothesis LEN : length pos = length nums.
Hypothesis NEW : GeneralCell_new lat pos nums = Ok c.
Hypothesis DIS : distinct_sites (positions c).
Hypothesis GRP : exact_space_group ops (positions c).
Hypothesis KEEP : species_kept ops (positions c) (numbers c).
Hypothesis SE : small_errors m pos pos' ops ops' f.
Hypothesis NEW' : GeneralCell_new lat' pos' nums = Ok c'.
Hypothesis PERM : mapM (fun o => get_new_id_seq (map (f o) (positions c'))) ops' = Ok perms.

Lemma margin_cell : Forall (margin m) (positions c).
Proof.
  destruct SE as [M _]. unfold GeneralCell_new in NEW. destruct (get_new_id_seq pos) as [r|]; [|discriminate]. cbn in NEW.
  destruct (take_idx pos r) as [ps|] eqn:E; [|discriminate]. cbn in NEW. destruct (take_idx nums r); [|discriminate]. cbn in NEW. injection NEW as <-. cbn.
  apply take_idx_reordered in E. rewrite Forall_forall in *. intros p Hp. destruct (In_nth_error _ _ Hp) as [n Hn]. destruct (Forall2_nthr E Hn) as (i & _ & Hi).
  apply M. exact (nth_error_In _ _ Hi).
Qed.
Lemma noisy_facts : numbers c' = numbers c /\ get_symmetry_permutation ops c = Ok perms /\ from_constructor c' /\
  perm_group (length (numbers c')) perms /\ preserves perms (numbers c') /\
  forall x y, length x = length (numbers c') -> equivalent perms x y <-> geo_equivalent ops (positions c) x y.
Proof.
  pose proof SE as [M (R & e & t & d & FP & FO & RS & FF & LE1 & LE2)].
  assert (FPm : Forall2 (near m) pos' pos) by (clear - FP LE1; induction FP; constructor; eauto using near_mono).
  assert (NUM : numbers c' = numbers c /\ Forall2 (near e) (positions c') (positions c)).
  { pose proof (keys_near M FPm) as K. assert (L' := Forall2_len FP). unfold GeneralCell_new in NEW, NEW'.
    assert (EK : get_new_id_seq pos' = get_new_id_seq pos). { unfold get_new_id_seq. destruct pos, pos'; cbn in L'; try discriminate; try reflexivity. now rewrite K. }
    rewrite EK in NEW'. destruct (get_new_id_seq pos) as [r|]; [|discriminate]. cbn in NEW, NEW'.
    destruct (take_idx pos r) as [ps|] eqn:E1; [|discriminate]. destruct (take_idx pos' r) as [ps'|] eqn:E2; [|discriminate]. cbn in NEW, NEW'.
    destruct (take_idx nums r) as [ns|]; [|discriminate]. cbn in NEW, NEW'. injection NEW as <-. injection NEW' as <-. cbn. split; [reflexivity|].
    apply take_idx_reordered in E1, E2. clear - E1 E2 FP. unfold reordered in *. revert ps' E2. induction E1 as [|i a r l Hi E1 IH]; intros ps' E2; inversion E2 as [|? a' ? l' Hi' E2']; subst; constructor; [|now apply IH].
    destruct (Forall2_nthr FP Hi) as (b & Hb & N). congruence. }
  destruct NUM as [NUM FPC]. assert (EP : get_symmetry_permutation ops c = Ok perms).
  { rewrite <- PERM. symmetry. exact (noisy_permutations NEW margin_cell GRP FO RS FPC FF LE2). }
  assert (L' : length pos' = length nums) by (rewrite (Forall2_len FP); exact LEN).
  assert (S : forall o i j p q, In o ops -> nth_error (positions c) j = Some p -> nth_error (positions c) i = Some q -> carries o p q -> nth_error (numbers c) j = nth_error (numbers c) i).
  { intros o i j p q Ho Hp Hq C. apply (KEEP Ho Hp Hq). exact (carries_to_exact (proj1 (distinct_keys _) DIS) GRP Ho (nth_error_In _ _ Hp) (nth_error_In _ _ Hq) C). }
  assert (ON : OccupyGenerator_new ops wy c = Ok (mkOcc c perms wy)) by (unfold OccupyGenerator_new; now rewrite EP).
  destruct (end_to_end LEN NEW DIS GRP S ON) as (_ & FC & HG & PR). cbn in FC, HG, PR.
  split; [exact NUM|]. split; [exact EP|]. split; [exists lat', pos', nums; auto|]. rewrite NUM. split; [exact HG|]. split; [exact PR|].
  intros x y LX. assert (LX' : length x = length (positions c)) by (destruct (from_constructor_facts FC) as (_ & _ & LE & _); congruence).
  exact (geo_perms NEW DIS GRP y EP LX').
Qed.

Lemma noisy_unitary n sp : collision_free h (k_fold (numbers c) (any_site (numbers c)) n sp) ->
  let t := gen_nodup_unitary h (mkOcc c' perms wy) (Z.of_nat n) sp in stop t = None /\ Forall (same_frame c') (items t) /\
  transversal (geo_equivalent ops (positions c)) (k_fold (numbers c) (any_site (numbers c)) n sp) (map numbers (items t)).
Proof.
  intros CF. destruct noisy_facts as (NUM & _ & FC & HG & PR & GE). rewrite <- NUM in *.
  destruct (@C19_unitary h (mkOcc c' perms wy) FC HG PR n sp CF) as (A & B & C). cbn [init_cell sym_perm] in *. split; [exact A|]. split; [exact B|].
  refine (transversal_rel _ C). intros x y Dx. apply GE. exact (kfold_length Dx).
Qed.
Lemma noisy_ele ele n sp : collision_free h (k_fold (numbers c) (site_holds (numbers c) ele) n sp) ->
  let t := gen_nodup_of_ele h (mkOcc c' perms wy) ele (Z.of_nat n) sp in stop t = None /\ Forall (same_frame c') (items t) /\
  transversal (geo_equivalent ops (positions c)) (k_fold (numbers c) (site_holds (numbers c) ele) n sp) (map numbers (items t)).
Proof.
  intros CF. destruct noisy_facts as (NUM & _ & FC & HG & PR & GE). rewrite <- NUM in *.
  destruct (@C19_ele h (mkOcc c' perms wy) FC HG PR ele n sp CF) as (A & B & C). cbn [init_cell sym_perm] in *. split; [exact A|]. split; [exact B|].
  refine (transversal_rel _ C). intros x y Dx. apply GE. exact (kfold_length Dx).
Qed.
Lemma noisy_ternary n1 v1 n2 v2 : collision_free h (two_fold (numbers c) n1 v1 n2 v2) ->
  let t := gen_nodup_trinary_alloy h (mkOcc c' perms wy) v1 (Z.of_nat n1) v2 (Z.of_nat n2) in stop t = None /\ Forall (same_frame c') (items t) /\
  transversal (geo_equivalent ops (positions c)) (two_fold (numbers c) n1 v1 n2 v2) (map numbers (items t)).
Proof.
  intros CF. destruct noisy_facts as (NUM & _ & FC & HG & PR & GE). rewrite <- NUM in *.
  destruct (@C20_lemma h (mkOcc c' perms wy) n1 n2 v1 v2 FC HG PR CF) as (A & B & C). cbn [init_cell sym_perm] in *. split; [exact A|]. split; [exact B|].
  refine (transversal_rel _ C). intros x y Dx. apply GE. destruct Dx as (? & ? & _ & _ & _ & LX & _). exact LX.
Qed.
Lemma noisy_wyckoff w n sp : length wy = length (numbers c) -> preserves perms wy ->
  collision_free h (k_fold (numbers c) (site_letter wy w) n sp) ->
  let t := gen_nodup h (mkOcc c' perms wy) w (Z.of_nat n) sp in stop t = None /\ Forall (same_frame c') (items t) /\
  transversal (geo_equivalent ops (positions c)) (k_fold (numbers c) (site_letter wy w) n sp) (map numbers (items t)).
Proof.
  intros LW PW CF. destruct noisy_facts as (NUM & _ & FC & HG & PR & GE). rewrite <- NUM in *.
  destruct (@C19_wy h (mkOcc c' perms wy) FC HG PR w n sp LW PW CF) as (A & B & C). cbn [init_cell sym_perm] in *. split; [exact A|]. split; [exact B|].
  refine (transversal_rel _ C). intros x y Dx. apply GE. exact (kfold_length Dx).
Qed.
Lemma noisy_level (P : nat -> Prop) n sp ts : numbers c' = numbers c ->
  (forall x y, length x = length (numbers c') -> equivalent perms x y <-> geo_equivalent ops (positions c) x y) ->
  level_statement (mkOcc c' perms wy) P n sp ts ->
  length ts = Z.to_nat (n - Z.of_nat (count_occ Z.eq_dec (numbers c) sp)) /\
  forall k t, nth_error ts k = Some t -> stop t = None /\ Forall (same_frame c') (items t) /\
    transversal (geo_equivalent ops (positions c)) (k_fold (numbers c) P (S k) sp) (map numbers (items t)).
Proof.
  intros NUM GE (L & H). cbn [init_cell sym_perm] in *. rewrite <- NUM. split; [exact L|]. intros k t Hk. destruct (H k t Hk) as (A & B & C).
  cbn [init_cell sym_perm] in *. split; [exact A|]. split; [exact B|]. refine (transversal_rel _ C). intros x y Dx. apply GE. exact (kfold_length Dx).
Qed.
Lemma noisy_levels n sp :
  (forall k, (k <= Z.to_nat (n - Z.of_nat (count_occ Z.eq_dec (numbers c) sp)))%nat -> collision_free h (k_fold (numbers c) (site_not (numbers c) sp) k sp)) ->
  let ts := all_speckle_gen_unitary h (mkOcc c' perms wy) n sp in
  length ts = Z.to_nat (n - Z.of_nat (count_occ Z.eq_dec (numbers c) sp)) /\
  forall k t, nth_error ts k = Some t -> stop t = None /\ Forall (same_frame c') (items t) /\
    transversal (geo_equivalent ops (positions c)) (k_fold (numbers c) (site_not (numbers c) sp) (S k) sp) (map numbers (items t)).
Proof.
  intros CF. destruct noisy_facts as (NUM & _ & FC & HG & PR & GE). cbn zeta. apply (noisy_level NUM GE). rewrite <- NUM in *.
  exact (@C21_lemma h (mkOcc c' perms wy) FC HG PR n sp CF).
Qed.
Lemma noisy_levels_ele n ele sp :
  (forall k, (k <= Z.to_nat (n - Z.of_nat (count_occ Z.eq_dec (numbers c) sp)))%nat -> collision_free h (k_fold (numbers c) (fun i => site_holds (numbers c) ele i /\ site_not (numbers c) sp i) k sp)) ->
  let ts := all_speckle_gen_of_ele h (mkOcc c' perms wy) n ele sp in
  length ts = Z.to_nat (n - Z.of_nat (count_occ Z.eq_dec (numbers c) sp)) /\
  forall k t, nth_error ts k = Some t -> stop t = None /\ Forall (same_frame c') (items t) /\
    transversal (geo_equivalent ops (positions c)) (k_fold (numbers c) (fun i => site_holds (numbers c) ele i /\ site_not (numbers c) sp i) (S k) sp) (map numbers (items t)).
Proof.
  intros CF. destruct noisy_facts as (NUM & _ & FC & HG & PR & GE). cbn zeta. apply (noisy_level NUM GE). rewrite <- NUM in *.
  exact (@C23_lemma h (mkOcc c' perms wy) FC HG PR n ele sp CF).
Qed.
Lemma noisy_levels_wyckoff n w sp : preserves perms wy ->
  (forall k, (k <= Z.to_nat (n - Z.of_nat (count_occ Z.eq_dec (numbers c) sp)))%nat -> collision_free h (k_fold (numbers c) (fun i => site_letter wy w i /\ site_not (numbers c) sp i) k sp)) ->
  let ts := all_speckle_gen h (mkOcc c' perms wy) n w sp in
  length ts = Z.to_nat (n - Z.of_nat (count_occ Z.eq_dec (numbers c) sp)) /\
  forall k t, nth_error ts k = Some t -> stop t = None /\ Forall (same_frame c') (items t) /\
    transversal (geo_equivalent ops (positions c)) (k_fold (numbers c) (fun i => site_letter wy w i /\ site_not (numbers c) sp i) (S k) sp) (map numbers (items t)).
Proof.
  intros PW CF. destruct noisy_facts as (NUM & _ & FC & HG & PR & GE). cbn zeta. apply (noisy_level NUM GE). rewrite <- NUM in *.
  exact (@C22_lemma h (mkOcc c' perms wy) FC HG PR n w sp PW CF).
Qed.
End Enum.

(** *** deciding the margin *)
Definition margin1b (e x : Qc) : bool :=
  let k := Qcfloor (x * Zc 1000)%Qc in let u := Q2Qc ((2 * k + 1) # 2000) in
  Qcltb e (Q2Qc (1 # 2000)) && (Qcltb e (x - u)%Qc || Qcltb e (u - x)%Qc).
Definition marginb (e : Qc) (p : vec Qc) : bool := margin1b e (vx p) && margin1b e (vy p) && margin1b e (vz p).
Lemma half_step k j : j <= k -> (Q2Qc ((2 * j + 1) # 2000) <= Q2Qc ((2 * k + 1) # 2000))%Qc.
Proof. intros H. unfold Qcle. rewrite !this_Q2Qc. unfold Qle. cbn [Qnum Qden]. lia. Qed.
Lemma margin1b_ok e x : margin1b e x = true -> margin1 e x.
Proof.
  unfold margin1b. set (k0 := Qcfloor (x * Zc 1000)%Qc). rewrite andb_true_iff, orb_true_iff, !Qcltb_lt. intros [E H] k [K1 K2].
  destruct (Qcfloor_spec (x * Zc 1000)%Qc) as [F1 F2]. fold k0 in F1, F2. rewrite Zc_plus, Zc_1 in F2.
  assert (E1000 : Zc 1000 = Q2Qc (1000#1)) by (apply Qc_is_canon; reflexivity).
  destruct (Z.lt_trichotomy k k0) as [L|[-> |L]].
  - pose proof (@half_step (k0 - 1) k ltac:(lia)) as S. pose proof (half_eq (k0 - 1)) as HE. rewrite Zc_minus, Zc_1 in HE. rewrite E1000 in *.
    set (u := Q2Qc ((2 * (k0 - 1) + 1) # 2000)) in *. set (w := Q2Qc ((2 * k + 1) # 2000)) in *. clear H. qclra.
  - set (w := Q2Qc ((2 * k0 + 1) # 2000)) in *. destruct H; qclra.
  - pose proof (@half_step k (k0 + 1) ltac:(lia)) as S. pose proof (half_eq (k0 + 1)) as HE. rewrite Zc_plus, Zc_1 in HE. rewrite E1000 in *.
    set (u := Q2Qc ((2 * (k0 + 1) + 1) # 2000)) in *. set (w := Q2Qc ((2 * k + 1) # 2000)) in *. clear H. qclra.
Qed.
Lemma marginb_ok e p : marginb e p = true -> margin e p.
Proof. unfold marginb. rewrite !andb_true_iff. intros [[A B] C]. split; [|split]; now apply margin1b_ok. Qed.

(** *** the margin is needed *)
Definition edge_lat : mat Qc := (V3 (V3 1 0 0) (V3 0 1 0) (V3 0 0 1))%Qc.
Definition edge_pos : list (vec Qc) := [V3 (Q2Qc (1#16)) (Q2Qc (1#10)) 0%Qc; V3 (Q2Qc (1#16)) (Q2Qc (6#10)) 0%Qc].
Definition edge_cell : gcell := mkG edge_lat edge_pos [5; 5] (edge_lat, edge_pos, [5; 5]) 2.
Lemma edge_round d : (0 < d)%Qc -> (d <= Q2Qc (1#2000))%Qc -> tofrac1 (Q2Qc (1#16) + d)%Qc = Q2Qc (63#1000).
Proof.
  intros A B. rewrite tofrac1_eq. replace (round_even ((Q2Qc (1#16) + d) * Zc 1000)%Qc) with 63; [reflexivity|]. symmetry.
  assert (E1000 : Zc 1000 = Q2Qc (1000#1)) by (apply Qc_is_canon; reflexivity). assert (E63 : Zc 63 = Q2Qc (63#1)) by (apply Qc_is_canon; reflexivity).
  apply round_even_unique; rewrite E1000, E63; qclra.
Qed.
Lemma margin_needed eps : (0 < eps)%Qc -> exists lat pos nums c img,
  GeneralCell_new lat pos nums = Ok c /\ distinct_sites (positions c) /\ exact_space_group [op_id] (positions c) /\
  Forall2 (near eps) img (map (op_image (fst op_id) (snd op_id)) (positions c)) /\
  get_symmetry_permutation [op_id] c = Ok [[0; 1]]%nat /\ get_new_id_seq img = Ok [1; 0]%nat.
Proof.
  intros HE. set (d := if Qcleb eps (Q2Qc (1#2000)) then eps else Q2Qc (1#2000)).
  assert (D : (0 < d /\ d <= Q2Qc (1#2000) /\ d <= eps)%Qc).
  { unfold d. destruct (Qcleb eps (Q2Qc (1#2000))) eqn:K.
    - apply Qcleb_le in K. split; [assumption|]. split; [assumption|qclra].
    - assert (L : (Q2Qc (1#2000) < eps)%Qc) by (apply Qcnot_le_lt; intros X; apply Qcleb_le in X; congruence). split; [reflexivity|]. split; [qclra|qclra]. }
  destruct D as (D0 & D1 & D2).
  exists edge_lat, edge_pos, [5; 5], edge_cell, [V3 (Q2Qc (1#16) + d)%Qc (Q2Qc (1#10)) 0%Qc; V3 (Q2Qc (1#16)) (Q2Qc (6#10)) 0%Qc].
  split; [vm_compute; reflexivity|]. split; [apply distinctb_ok; vm_compute; reflexivity|]. split; [apply exact_space_groupb_ok; vm_compute; reflexivity|]. split.
  { cbn [map edge_cell positions edge_pos]. rewrite !op_id_image. constructor; [|constructor; [|constructor]]; (split; [|split]); cbn [vx vy vz]; exists 0; rewrite Zc_0; split; qclra. }
  split; [vm_compute; reflexivity|]. unfold get_new_id_seq, tofrac. cbn [map]. unfold vmap at 1. cbn [vx vy vz]. rewrite (edge_round D0 D1). vm_compute. reflexivity.
Qed.

(** *** deciding the premises in an example *)
Definition species_keptb (ops : list symop) (pos : list (vec Qc)) (nums : list Z) : bool :=
  forallb (fun o => forallb (fun pz => forallb (fun qw => negb (vQc_eqb (tofrac (apply_op o (fst pz))) (tofrac (fst qw))) || Z.eqb (snd pz) (snd qw)) (combine pos nums)) (combine pos nums)) ops.
Lemma combine_nth_error A B (a : list A) (b : list B) i x y : nth_error a i = Some x -> nth_error b i = Some y -> nth_error (combine a b) i = Some (x, y).
Proof. revert b i. induction a as [|u a IH]; intros [|v b] [|i] H K; cbn in *; try discriminate; [congruence|auto]. Qed.
Lemma species_keptb_ok ops pos nums : length pos = length nums -> species_keptb ops pos nums = true -> species_kept ops pos nums.
Proof.
  intros L H o i j p q Ho Hp Hq C. apply carries_exactly_carries, carries_iff in C.
  destruct (nth_error nums j) as [z|] eqn:Ez; [|apply nth_error_None in Ez; assert (j < length pos)%nat by (apply nth_error_Some; congruence); lia].
  destruct (nth_error nums i) as [w|] eqn:Ew; [|apply nth_error_None in Ew; assert (i < length pos)%nat by (apply nth_error_Some; congruence); lia].
  unfold species_keptb in H. rewrite forallb_forall in H. specialize (H o Ho). rewrite forallb_forall in H. specialize (H _ (nth_error_In _ _ (combine_nth_error Hp Ez))).
  rewrite forallb_forall in H. specialize (H _ (nth_error_In _ _ (combine_nth_error Hq Ew))). cbn [fst snd] in H. rewrite C in H.
  replace (vQc_eqb (tofrac q) (tofrac q)) with true in H; [cbn in H; apply Z.eqb_eq in H; congruence|].
  symmetry. unfold vQc_eqb, Qceqb. rewrite !andb_true_iff, !Qeq_bool_iff. repeat split; reflexivity.
Qed.

Definition near1b (e x y : Qc) : bool :=
  let a := round_even (x - y)%Qc in Qcleb (- e)%Qc (x - y - Zc a)%Qc && Qcleb (x - y - Zc a)%Qc e.
Definition nearb (e : Qc) (p q : vec Qc) : bool := near1b e (vx p) (vx q) && near1b e (vy p) (vy q) && near1b e (vz p) (vz q).
Lemma nearb_ok e p q : nearb e p q = true -> near e p q.
Proof.
  assert (K : forall x y, near1b e x y = true -> near1 e x y) by (intros x y; unfold near1b; rewrite andb_true_iff, !Qcleb_le; intros H; eexists; exact H).
  unfold nearb. rewrite !andb_true_iff. intros [[A B] C]. split; [|split]; auto.
Qed.
Fixpoint all2b {A B} (f : A -> B -> bool) (l : list A) (l' : list B) : bool :=
  match l, l' with [], [] => true | a :: l, b :: l' => f a b && all2b f l l' | _, _ => false end.
Lemma all2b_ok A B (f : A -> B -> bool) (R : A -> B -> Prop) l l' : (forall a b, f a b = true -> R a b) -> all2b f l l' = true -> Forall2 R l l'.
Proof. intros H. revert l'. induction l as [|a l IH]; intros [|b l'] E; cbn in E; try discriminate; constructor; apply andb_true_iff in E; destruct E; auto. Qed.
Definition row_sumsb (R : Z) (r : mat Z) : bool :=
  let s (u : vec Z) := Z.abs (vx u) + Z.abs (vy u) + Z.abs (vz u) in (s (vx r) <=? R) && (s (vy r) <=? R) && (s (vz r) <=? R).
Lemma row_sumsb_ok R r : row_sumsb R r = true -> row_sums R r.
Proof. unfold row_sumsb, row_sums. rewrite !andb_true_iff, !Z.leb_le. tauto. Qed.

(** arithmetic that keeps six decimals *)
Definition six (o : symop) (p : vec Qc) : vec Qc := vmap (around 6) (op_image (fst o) (snd o) p).
Lemma around6 x : near1 (Q2Qc (1#2000000)) (around 6 x) x.
Proof.
  exists 0. rewrite Zc_0. unfold around. change (pow10 6) with 1000000%positive. set (k := round_even (x * Zc 1000000)%Qc).
  pose proof (nearest_even_round (x * Zc 1000000)%Qc) as N. fold k in N.
  assert (EK : (Q2Qc (k # 1000000) * Zc 1000000)%Qc = Zc k).
  { apply Qc_is_canon. rewrite this_mult, !this_Zc, !this_Q2Qc. unfold Qeq, Qmult, inject_Z. cbn [Qnum Qden]. lia. }
  assert (EM : Zc 1000000 = Q2Qc (1000000#1)) by (apply Qc_is_canon; reflexivity). rewrite EM in *. set (w := Q2Qc (k # 1000000)) in *.
  assert (L : (Zc k - Q2Qc (1#2) <= x * Q2Qc (1000000#1))%Qc /\ (x * Q2Qc (1000000#1) <= Zc k + Q2Qc (1#2))%Qc).
  { destruct N as [[? ?]|[[N|N] _]]; split; try (now apply Qclt_le_weak); rewrite N; qclra. }
  clear N. destruct L. split; qclra.
Qed.
Lemma six_near o p : near (Q2Qc (1#2000000)) (six o p) (op_image (fst o) (snd o) p).
Proof. split; [|split]; apply around6. Qed.
