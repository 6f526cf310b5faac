(** Lemmas for ModifiedCell: moving sites, spheres, clarifiers, equality, conversion. *)
From Verif Require Import Base LBase BaseQ LQ SElement MElement LElement MGeneralCell LGeneralCell MHnf MRestrict LMat3 MModCell SModCell LModCell LModCell2 LModCell3.
From Coq Require Import Sorted.
Set Implicit Arguments.
Unset Strict Implicit.
Open Scope list_scope.
Notation length := List.length.

Lemma volume_qdet L : qdet L = volume L.
Proof. destruct L as [[a b c] [d e f] [g h i]]. unfold qdet, volume, cross, vdot; cbn. ring. Qed.

Lemma inv_spec L : volume L <> 0%Qc -> exists i, inv L = Ok i /\
  (forall x, vec_mat (vec_mat x i) L = x) /\ (forall x, vec_mat (vec_mat x L) i = x).
Proof.
  intros V. pose proof (volume_qdet L) as E. unfold inv.
  destruct (Qceqb (qdet L) 0) eqn:Z; [apply Qceqb_eq in Z; congruence|]. clear Z.
  rewrite <- E in V. clear E. destruct L as [[a b c] [p q r] [x y z]]. cbv zeta.
  eexists. split; [reflexivity|].
  unfold qdet in V; cbn [vx vy vz] in V.
  split; intros [s t w]; unfold vec_mat, vadd, vscale, qdet; cbn [vx vy vz]; f_equal; field; exact V.
Qed.

Lemma inv_singular L : volume L = 0%Qc -> inv L = Raise LinAlgError.
Proof.
  intros V. rewrite <- volume_qdet in V. unfold inv. rewrite V. reflexivity.
Qed.

(** ** translate_sites *)
Definition with_site (h : heap) (a : nat) (s : site) : heap := mkHeap (upd (h_site h) a s) (h_list h) (h_cell h).

Lemma site_at_with_site h a s b : is_site h a -> site_at (with_site h a s) b = if Nat.eqb a b then s else site_at h b.
Proof. intros A. unfold site_at, with_site; cbn. apply nth_upd. exact A. Qed.

Lemma wf_with_site h a s : wf_heap h -> wf_heap (with_site h a s).
Proof.
  intros (W1 & W2 & W3). split; [|split]; auto. intros l x X Y. unfold is_site, with_site; cbn. rewrite upd_length. eapply W3; eauto.
Qed.

Lemma py_get_index A (l : list A) i j x : py_index (length l) i j -> nth_error l j = Some x -> py_get l i = Ok x.
Proof.
  intros I N. unfold py_get. pose proof (norm_index_spec (length l) i) as S.
  destruct (norm_index (length l) i) as [k|].
  - rewrite (py_index_unique S I). unfold get_nth. rewrite N. reflexivity.
  - exfalso. exact (py_index_not I S).
Qed.
Lemma py_get_no A (l : list A) i : no_index (length l) i -> py_get l i = Raise IndexError.
Proof.
  intros I. unfold py_get. pose proof (norm_index_spec (length l) i) as S.
  destruct (norm_index (length l) i) as [k|]; [exfalso; exact (py_index_not S I)|reflexivity].
Qed.

Lemma translate_spec c i v h j a : wf_heap h -> is_cell h c -> py_index (length (refs h c)) i j ->
  nth_error (refs h c) j = Some a -> volume (mc_lattice (cell_at h c)) <> 0%Qc ->
  exists s', translate_sites c i v h = (with_site h a s', Ok tt) /\
    displaced (mc_lattice (cell_at h c)) v (site_at h a) s'.
Proof.
  intros W C I N V. unfold translate_sites, cbind, mc_getitem. rewrite (py_get_index I N).
  destruct (inv_spec V) as (m & E & K1 & K2). unfold frac_from_cart. rewrite E. cbn [bind].
  eexists. split; [reflexivity|]. split; [reflexivity|]. cbn [s_pos]. rewrite K1. reflexivity.
Qed.

Lemma translate_no_index c i v h : no_index (length (refs h c)) i -> translate_sites c i v h = (h, Raise IndexError).
Proof. intros N. unfold translate_sites, cbind, mc_getitem. rewrite (py_get_no N). reflexivity. Qed.
Lemma translate_singular c i v h j : py_index (length (refs h c)) i j ->
  volume (mc_lattice (cell_at h c)) = 0%Qc -> translate_sites c i v h = (h, Raise LinAlgError).
Proof.
  intros I V. destruct (nth_error (refs h c) j) as [a|] eqn:N; [|apply nth_error_None in N; destruct I; lia].
  unfold translate_sites, cbind, mc_getitem. rewrite (py_get_index I N).
  unfold frac_from_cart. rewrite (inv_singular V). reflexivity.
Qed.

Lemma displaced_unique L v s s1 s2 : volume L <> 0%Qc -> displaced L v s s1 -> displaced L v s s2 -> s1 = s2.
Proof.
  intros V [E1 P1] [E2 P2]. destruct (inv_spec V) as (m & _ & _ & K).
  destruct s1 as [p1 e1], s2 as [p2 e2]; cbn in *. subst. f_equal.
  rewrite <- (K p1), <- (K p2), P1, P2. reflexivity.
Qed.

(** ** perturb *)
Lemma rescale_eq k n v : vscale k (V3 (vx v / n) (vy v / n) (vz v / n))%Qc = rescaled k n v.
Proof. unfold vscale, rescaled; cbn. f_equal; ring. Qed.

Lemma get_rand_vec_spec dist rnd us : without (fun d : vec Qc * Qc => snd d = 0%Qc) rnd us ->
  match us with
  | [] => get_rand_vec dist rnd = None
  | (v, n) :: us' => n <> 0%Qc /\ exists rnd', get_rand_vec dist rnd = Some (rescaled dist n v, rnd') /\
      without (fun d : vec Qc * Qc => snd d = 0%Qc) rnd' us'
  end.
Proof.
  induction 1 as [|[v n] l l' P H IH|[v n] l l' P H IH]; cbn [get_rand_vec].
  - reflexivity.
  - cbn in P. subst n. replace (Qceqb 0 0) with true by (symmetry; apply Qceqb_eq; reflexivity). exact IH.
  - cbn in P. destruct (Qceqb n 0) eqn:E; [apply Qceqb_eq in E; contradiction|].
    split; [exact P|]. exists l. split; [rewrite <- rescale_eq; reflexivity|exact H].
Qed.

Lemma perturb_loop_spec c dist k : forall i rnd us h, wf_heap h -> is_cell h c -> NoDup (refs h c) ->
  volume (mc_lattice (cell_at h c)) <> 0%Qc -> (i + k = length (refs h c))%nat ->
  without (fun d : vec Qc * Qc => snd d = 0%Qc) rnd us ->
  if (k <=? length us)%nat then
  exists h', perturb_loop c dist k i rnd h = Some (h', Ok tt) /\ wf_heap h' /\ h_list h' = h_list h /\ h_cell h' = h_cell h /\
    length (h_site h') = length (h_site h) /\
    (forall b, (forall j, (i <= j)%nat -> nth_error (refs h c) j <> Some b) -> site_at h' b = site_at h b) /\
    (forall j b, nth_error (refs h c) (i + j) = Some b -> exists v n, nth_error us j = Some (v, n) /\ n <> 0%Qc /\
       displaced (mc_lattice (cell_at h c)) (rescaled dist n v) (site_at h b) (site_at h' b))
  else perturb_loop c dist k i rnd h = None.
Proof.
  induction k as [|k IH]; intros i rnd us h W C ND V L U.
  - cbn. exists h. repeat (split; [reflexivity || assumption|]).
    intros j b H. exfalso. assert (nth_error (refs h c) (i + j) <> None) by congruence. apply nth_error_Some in H0. lia.
  - cbn [perturb_loop]. pose proof (get_rand_vec_spec dist U) as G. destruct us as [|[v n] us]; [rewrite G; reflexivity|].
    destruct G as (Nn & rnd' & -> & U').
    destruct (nth_error (refs h c) i) as [a|] eqn:Na; [|apply nth_error_None in Na; lia].
    assert (A : is_site h a) by (eapply wf_refs_site; [exact W|exact C|eapply nth_error_In; eauto]).
    destruct (@translate_spec c (Z.of_nat i) (rescaled dist n v) h i a W C) as (s' & E & Dd); auto.
    { split; [lia|left; reflexivity]. }
    rewrite E. set (h1 := with_site h a s') in *.
    assert (R1 : refs h1 c = refs h c) by reflexivity.
    assert (L1 : mc_lattice (cell_at h1 c) = mc_lattice (cell_at h c)) by reflexivity.
    specialize (IH (S i) rnd' us h1 (wf_with_site a s' W) C ND V). rewrite R1 in IH.
    specialize (IH ltac:(lia) U'). change (S k <=? length ((v, n) :: us))%nat with (k <=? length us)%nat.
    destruct (k <=? length us)%nat; [|exact IH].
    destruct IH as (h' & E' & W' & HL & HC & HS & O & M). exists h'. rewrite L1 in M.
    split; [exact E'|]. split; [exact W'|]. split; [exact HL|]. split; [exact HC|].
    split; [rewrite HS; unfold h1; cbn; apply upd_length|].
    assert (S1 : forall b, b <> a -> site_at h1 b = site_at h b).
    { intros b B. unfold h1. rewrite site_at_with_site by exact A. destruct (Nat.eqb_spec a b); [congruence|reflexivity]. }
    assert (Sa : site_at h1 a = s').
    { unfold h1. rewrite site_at_with_site by exact A. rewrite Nat.eqb_refl. reflexivity. }
    split.
    + intros b B. rewrite O.
      * apply S1. intros ->. apply (B i); [lia|exact Na].
      * intros j J. apply B. lia.
    + intros [|j] b Hb.
      * rewrite Nat.add_0_r in Hb. assert (b = a) by congruence. subst b.
        exists v, n. split; [reflexivity|]. split; [exact Nn|]. rewrite O, Sa; [exact Dd|].
        intros j J Hj. assert (j = i); [|lia]. apply (proj1 (NoDup_nth_error (refs h c)) ND).
        { apply nth_error_Some. congruence. } congruence.
      * replace (i + S j)%nat with (S i + j)%nat in Hb by lia. destruct (M j b Hb) as (v' & n' & X1 & X2 & X3).
        exists v', n'. split; [exact X1|]. split; [exact X2|]. rewrite S1 in X3; [exact X3|].
        intros ->. assert (S i + j = i)%nat; [|lia]. apply (proj1 (NoDup_nth_error (refs h c)) ND).
        { apply nth_error_Some. congruence. } congruence.
Qed.

(** ** spheres *)
Lemma sqrt_lt_spec w r : sqrt_lt (vdot w w) r = true <-> shorter w r.
Proof.
  unfold sqrt_lt, shorter, vdot. rewrite andb_true_iff, !Qcltb_lt. reflexivity.
Qed.

Lemma trans27_In t : In t trans27 <-> exists a b c, -1 <= a <= 1 /\ -1 <= b <= 1 /\ -1 <= c <= 1 /\ t = vecZ (V3 a b c).
Proof.
  unfold trans27. rewrite in_concat. split.
  - intros (l & L & T). apply in_map_iff in L. destruct L as (a & <- & A).
    rewrite in_concat in T. destruct T as (l & L & T). apply in_map_iff in L. destruct L as (b & <- & B).
    apply in_map_iff in T. destruct T as (c & <- & K). exists a, b, c.
    cbn in A, B, K. repeat split; try lia.
  - intros (a & b & c & A & B & K & ->). eexists. split.
    + apply in_map_iff. exists a. split; [reflexivity|]. cbn. lia.
    + apply in_concat. eexists. split.
      * apply in_map_iff. exists b. split; [reflexivity|]. cbn. lia.
      * apply in_map_iff. exists c. split; [reflexivity|]. cbn. lia.
Qed.

Lemma vec_mat_sub x y L : vsub (vec_mat x L) (vec_mat y L) = vec_mat (vsub x y) L.
Proof.
  destruct x as [x1 x2 x3], y as [y1 y2 y3], L as [[a b c] [d e f] [g h i]]. unfold vec_mat, vsub, vadd, vscale; cbn. f_equal; ring.
Qed.

Lemma in_euclid_spec L p ce r : in_euclid L p ce r = true <-> near_image L p ce r.
Proof.
  unfold in_euclid. rewrite existsb_exists. unfold near_image. split.
  - intros (x & X & D). apply in_map_iff in X. destruct X as (t & <- & T). apply trans27_In in T.
    destruct T as (a & b & c & A & B & K & ->). exists a, b, c. repeat (split; [assumption|]).
    unfold dist2 in D. apply sqrt_lt_spec in D. unfold cart_from_frac in D. rewrite vec_mat_sub in D. exact D.
  - intros (a & b & c & A & B & K & D). exists (vadd p (vecZ (V3 a b c))). split.
    + apply in_map. apply trans27_In. exists a, b, c. auto.
    + unfold dist2. apply sqrt_lt_spec. unfold cart_from_frac. rewrite vec_mat_sub. exact D.
Qed.

(** the test of get_points_incell_insphere on a site *)
Definition in_sphere (L : mat Qc) (ce : vec Qc) (r : Qc) (ele : option specie) (s : site) : bool :=
  match ele with
  | None => in_euclid L (s_pos s) ce r
  | Some e => in_euclid L (s_pos s) ce r && sp_eqb (s_ele s) e
  end.
Lemma in_sphere_spec L ce r ele s : in_sphere L ce r ele s = true <-> near_image L (s_pos s) ce r /\ of_species ele s.
Proof.
  unfold in_sphere, of_species. destruct ele as [e|].
  - rewrite andb_true_iff, in_euclid_spec. unfold sp_eqb. rewrite Z.eqb_eq. reflexivity.
  - rewrite in_euclid_spec. tauto.
Qed.
Lemma points_insphere_eq h c ce r ele : points_insphere h c ce r ele =
  filter (fun ia => in_sphere (mc_lattice (cell_at h c)) ce r ele (site_at h (snd ia))) (enumerate (refs h c)).
Proof. reflexivity. Qed.

Lemma points_insphere_In h c ce r ele i a : In (i, a) (points_insphere h c ce r ele) <->
  nth_error (refs h c) i = Some a /\ near_image (mc_lattice (cell_at h c)) (s_pos (site_at h a)) ce r /\ of_species ele (site_at h a).
Proof. rewrite points_insphere_eq, filter_In, In_enumerate, in_sphere_spec. reflexivity. Qed.

Lemma filter_sorted A (R : A -> A -> Prop) f l : StronglySorted R l -> StronglySorted R (filter f l).
Proof. apply StronglySorted_filter. Qed.
Lemma points_insphere_sorted h c ce r ele : StronglySorted lt (map fst (points_insphere h c ce r ele)).
Proof.
  rewrite points_insphere_eq. unfold enumerate, range. generalize 0%nat as k. generalize (refs h c) as l.
  induction l as [|x l IH]; intros k; cbn; [constructor|].
  destruct (in_sphere _ _ _ _ _); [|apply IH]. cbn. constructor; [apply IH|].
  apply Forall_forall. intros j J. apply in_map_iff in J. destruct J as ([j' b] & <- & J).
  apply filter_In in J. destruct J as [J _]. apply in_combine_l in J. apply in_seq in J. cbn. lia.
Qed.

(** ** clarifiers *)
Lemma kept_filter_gen (P : nat -> bool) bad l : forall k l',
  (forall i a, nth_error l i = Some a -> (In (k + Z.of_nat i)%Z bad <-> P a = true)) ->
  kept_except bad k l l' -> l' = filter (fun a => negb (P a)) l.
Proof.
  induction l as [|x l IH]; intros k l' B H; inversion H; subst; [reflexivity| |].
  - pose proof (proj1 (B 0%nat x eq_refl)) as X. cbn. rewrite X by (rewrite Z.add_0_r; assumption). cbn.
    apply (IH (k + 1)%Z); [|assumption]. intros i a N. rewrite <- (B (S i) a N). 
    replace (k + 1 + Z.of_nat i)%Z with (k + Z.of_nat (S i))%Z by lia. reflexivity.
  - pose proof (proj2 (B 0%nat x eq_refl)) as X. rewrite Z.add_0_r in X. cbn.
    destruct (P x) eqn:Px; [exfalso; auto|]. cbn. f_equal.
    apply (IH (k + 1)%Z); [|assumption]. intros i a N. rewrite <- (B (S i) a N).
    replace (k + 1 + Z.of_nat i)%Z with (k + Z.of_nat (S i))%Z by lia. reflexivity.
Qed.

Lemma sphere_removed h c ce r ele l' :
  kept_except (map (fun ia => Z.of_nat (fst ia)) (points_insphere h c ce r ele)) 0 (refs h c) l' ->
  l' = filter (fun a => negb (in_sphere (mc_lattice (cell_at h c)) ce r ele (site_at h a))) (refs h c).
Proof.
  apply kept_filter_gen. intros i a N. rewrite Z.add_0_l. rewrite in_map_iff, in_sphere_spec. split.
  - intros ([j b] & E & I). apply points_insphere_In in I. cbn in E. assert (j = i) by lia. subst j.
    destruct I as (N' & X). assert (a = b) by congruence. subst b. exact X.
  - intros X. exists (i, a). split; [reflexivity|]. apply points_insphere_In. auto.
Qed.

(** State reached by removals: same sites, lattices and other cells; [c] keeps [l]. *)
Definition reduced (h h' : heap) (c : nat) (l : list nat) : Prop :=
  wf_heap h' /\ h_site h' = h_site h /\ length (h_cell h') = length (h_cell h) /\
  (forall d, mc_lattice (cell_at h' d) = mc_lattice (cell_at h d)) /\
  (forall d, is_cell h d -> d <> c -> refs h' d = refs h d) /\
  (forall i, (i < length (h_list h))%nat -> list_at h' i = list_at h i) /\
  (length (h_list h) <= length (h_list h'))%nat /\
  refs h' c = l.

Lemma reduced_step h c ce r ele : wf_heap h -> is_cell h c ->
  exists h', cbind (remove_sites c (map (fun ia => Z.of_nat (fst ia)) (points_insphere h c ce r ele))) (fun _ => ret tt) h = (h', Ok tt) /\
    reduced h h' c (filter (fun a => negb (in_sphere (mc_lattice (cell_at h c)) ce r ele (site_at h a))) (refs h c)).
Proof.
  intros W C. set (idx := map _ _). destruct (remove_sites_spec idx W C) as (h' & E & W' & S' & L' & K & R & O & LO).
  assert (LL : (length (h_list h) <= length (h_list h'))%nat).
  { unfold remove_sites in E. cbn in E. injection E as <-. cbn. rewrite app_length. lia. }
  exists h'. unfold cbind. rewrite E. split; [reflexivity|]. repeat (split; [assumption|]).
  apply sphere_removed. exact R.
Qed.

Lemma reduced_trans h h1 h2 c l1 l2 : is_cell h c -> reduced h h1 c l1 -> reduced h1 h2 c l2 -> reduced h h2 c l2.
Proof.
  intros C (W1 & S1 & L1 & K1 & O1 & LO1 & LL1 & R1) (W2 & S2 & L2 & K2 & O2 & LO2 & LL2 & R2).
  split; [exact W2|]. split; [congruence|]. split; [congruence|]. split; [intros; rewrite K2; apply K1|].
  split; [|split; [|split; [lia|exact R2]]].
  - intros d D N. rewrite O2; [apply O1; assumption| |exact N]. rewrite <- is_cell_eq; eauto.
  - intros i I. rewrite LO2 by lia. apply LO1. exact I.
Qed.
Lemma reduced_refl h c : wf_heap h -> reduced h h c (refs h c).
Proof. intros W. repeat (split; [reflexivity || assumption|]). reflexivity. Qed.

Lemma filter_all A (l : list A) : filter (fun _ => true) l = l.
Proof. induction l as [|x l IH]; cbn; congruence. Qed.
Lemma filter_filter A (f g : A -> bool) l : filter f (filter g l) = filter (fun x => g x && f x) l.
Proof. induction l as [|x l IH]; cbn; [reflexivity|]. destruct (g x) eqn:E; cbn; [destruct (f x); rewrite IH; reflexivity|exact IH]. Qed.
Lemma negb_existsb_cons A (f : A -> bool) x l : negb (f x) && negb (existsb f l) = negb (existsb f (x :: l)).
Proof. cbn. rewrite negb_orb. reflexivity. Qed.

Lemma clarify_reduced c r ele cs : forall h, wf_heap h -> is_cell h c ->
  exists h', citer (fun center h =>
          let dsites := points_insphere h c center r ele in
          cbind (remove_sites c (List.map (fun ia => Z.of_nat (fst ia)) dsites)) (fun _ => ret tt) h) cs h = (h', Ok tt) /\
    reduced h h' c (filter (fun a => negb (existsb (fun ce => in_sphere (mc_lattice (cell_at h c)) ce r ele (site_at h a)) cs)) (refs h c)).
Proof.
  induction cs as [|ce cs IH]; intros h W C.
  - exists h. split; [reflexivity|]. cbn [existsb]. replace (filter _ _) with (refs h c); [apply reduced_refl; exact W|].
    symmetry. apply filter_all.
  - destruct (@reduced_step h c ce r ele W C) as (h1 & E1 & R1).
    destruct (IH h1) as (h2 & E2 & R2); [apply R1|rewrite <- is_cell_eq; [exact C|apply R1]|].
    exists h2. split.
    + cbn [citer]. unfold cbind at 1. cbv zeta. rewrite E1. exact E2.
    + pose proof (reduced_trans C R1 R2) as R.
      destruct R1 as (_ & S1 & _ & K1 & _ & _ & _ & F1). rewrite F1, K1 in R.
      rewrite filter_filter in R. unfold site_at in R. rewrite S1 in R. 
      erewrite filter_ext in R; [exact R|]. intros a. cbn [existsb]. rewrite negb_orb. reflexivity.
Qed.

Lemma without_filter (P : site -> Prop) f h l : (forall s, f s = true <-> P s) ->
  without P (map (site_at h) l) (map (site_at h) (filter (fun a => negb (f (site_at h a))) l)).
Proof.
  intros F. induction l as [|a l IH]; cbn; [constructor|]. destruct (f (site_at h a)) eqn:E; cbn.
  - apply w_drop; [apply F; exact E|exact IH].
  - apply w_keep; [rewrite <- F; congruence|exact IH].
Qed.
Lemma without_fun A (P : A -> Prop) l : forall l1 l2, without P l l1 -> without P l l2 -> l1 = l2.
Proof.
  induction l as [|x l IH]; intros l1 l2 H1 H2; inversion H1; subst; inversion H2; subst; try contradiction; auto. f_equal. auto.
Qed.
Lemma without_ext A (P Q : A -> Prop) l l' : (forall x, P x <-> Q x) -> without P l l' -> without Q l l'.
Proof. intros E. induction 1; [constructor|apply w_drop; [apply E; auto|auto]|apply w_keep; [rewrite <- E; auto|auto]]. Qed.
Lemma without_again A (P : A -> Prop) l l' : without P l l' -> without P l' l'.
Proof. induction 1; [constructor|assumption|apply w_keep; assumption]. Qed.

Lemma reduced_contains h h' c l : wf_heap h -> is_cell h c -> reduced h h' c l ->
  (forall d lat ss, d <> c -> contains h d lat ss -> contains h' d lat ss) /\
  contains h' c (mc_lattice (cell_at h c)) (map (site_at h) l).
Proof.
  intros W C (W' & S' & L' & K & O & _ & _ & R).
  assert (V : forall a, site_at h' a = site_at h a) by (intros; unfold site_at; rewrite S'; reflexivity).
  split.
  - intros d lat ss N H. apply contains_iff in H; [|exact W]. apply contains_iff; [exact W'|].
    destruct H as (D & -> & ->). rewrite K, O by assumption. split; [rewrite <- is_cell_eq; eauto|]. split; [reflexivity|].
    apply map_ext. intros; symmetry; apply V.
  - apply contains_iff; [exact W'|]. rewrite K, R. split; [rewrite <- is_cell_eq; eauto|]. split; [reflexivity|].
    apply map_ext. intros; symmetry; apply V.
Qed.

(** the loop of the verbose clarifier *)
Lemma verbose_loop c r ele eto (h0 : heap) lr rs (C0 : is_cell h0 c) : forall k i fuel h l,
  (i + k = length rs)%nat -> (k < fuel)%nat -> reduced h0 h c l -> (lr < length (h_list h0))%nat -> list_at h0 lr = rs ->
  exists h', iter_list fuel lr i (fun a h =>
              let s := site_at h a in
              if sp_eqb (s_ele s) eto then
                let dsites := points_insphere h c (s_pos s) r ele in
                cbind (remove_sites c (List.map (fun ia => Z.of_nat (fst ia)) dsites)) (fun _ => ret tt) h
              else (h, Ok tt)) h = Some (h', Ok tt) /\
    reduced h0 h' c (filter (fun a => negb (existsb (fun b => sp_eqb (s_ele (site_at h0 b)) eto &&
        in_sphere (mc_lattice (cell_at h0 c)) (s_pos (site_at h0 b)) r ele (site_at h0 a)) (skipn i rs))) l).
Proof.
  induction k as [|k IH]; intros i fuel h l L F R B E.
  - destruct fuel as [|fuel]; [lia|]. cbn [iter_list].
    assert (LR : list_at h lr = rs) by (rewrite <- E; apply R; exact B).
    rewrite LR. replace (nth_error rs i) with (@None nat) by (symmetry; apply nth_error_None; lia).
    exists h. split; [reflexivity|]. rewrite skipn_all2 by lia. cbn [existsb negb].
    replace (filter _ l) with l; [exact R|]. symmetry. apply filter_all.
  - destruct fuel as [|fuel]; [lia|]. cbn [iter_list].
    assert (LR : list_at h lr = rs) by (rewrite <- E; apply R; exact B).
    rewrite LR. destruct (nth_error rs i) as [b|] eqn:N; [|apply nth_error_None in N; lia].
    assert (SK : skipn i rs = b :: skipn (S i) rs).
    { clear -N. revert i N. induction rs as [|x rs IHr]; intros [|i] N; try discriminate; cbn in *; [congruence|]. apply IHr. exact N. }
    assert (VS : forall a, site_at h a = site_at h0 a).
    { intros a. unfold site_at. rewrite (proj1 (proj2 R)). reflexivity. }
    assert (VL : mc_lattice (cell_at h c) = mc_lattice (cell_at h0 c)) by apply R.
    cbv zeta. rewrite VS. rewrite SK. cbn [existsb].
    destruct (sp_eqb (s_ele (site_at h0 b)) eto) eqn:Q.
    + destruct (@reduced_step h c (s_pos (site_at h0 b)) r ele) as (h1 & E1 & R1);
        [apply R|rewrite <- is_cell_eq; [exact C0|apply R]|].
      rewrite E1. pose proof (reduced_trans C0 R R1) as R2.
      destruct (IH (S i) fuel h1 _ ltac:(lia) ltac:(lia) R2 B E) as (h' & E2 & R3).
      exists h'. split; [exact E2|]. assert (RL : refs h c = l) by apply R. rewrite RL in R3. rewrite filter_filter in R3.
      rewrite VL in R3.
      erewrite filter_ext in R3; [exact R3|]. intros a. cbv beta. rewrite VS. rewrite negb_orb. reflexivity.
    + cbn [andb orb]. apply IH; auto; lia.
Qed.
