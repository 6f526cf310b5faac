From Coq Require Import String Ascii.
From Coq Require Import DecimalString DecimalNat.
From Verif Require Import Base LBase BaseQ LQ MGeneralCell LGeneralCell MHnf LMat3 LHnf LFrac SLattice LCrystal MRestrict SRestrict.
Set Implicit Arguments. Unset Strict Implicit.
Open Scope Z_scope.

(** ** The eight interior points of the doubled cell *)
Lemma map_this_inj (a b : list (vec Qc)) : List.map (vmap this) a = List.map (vmap this) b -> a = b.
Proof.
  revert b. induction a as [|x a IH]; intros [|y b] E; try discriminate; [reflexivity|].
  cbn in E. injection E as E1 E2 E3 E4. f_equal; [|now apply IH].
  destruct x, y; cbn in *. f_equal; apply Qc_is_canon; now rewrite ?E1, ?E2, ?E3.
Qed.

Definition offs : list (vec Z) := product3 2.
Definition h2 : Qc := Q2Qc (1#2).
Definition pts2 : list (vec Qc) := List.map (fun o => vscale h2 (vecZ o)) offs.
Lemma frac2 : get_frac_from_mat scale2 = Ok pts2.
Proof.
  unfold get_frac_from_mat.
  destruct (inv (matZ scale2)) as [hi|] eqn:E; [|vm_compute in E; discriminate]. cbn [bind].
  change (amax scale2 <=? 0) with false. cbv iota zeta. f_equal. apply map_this_inj.
  vm_compute in E. injection E as <-. vm_compute. reflexivity.
Qed.
Lemma inv2 : exists si, inv (matZ scale2) = Ok si /\ forall p, vec_mat p si = vscale h2 p.
Proof.
  destruct (inv (matZ scale2)) as [hi|] eqn:E; [|vm_compute in E; discriminate]. exists hi. split; [reflexivity|].
  assert (K : hi = (V3 (V3 h2 0 0) (V3 0 h2 0) (V3 0 0 h2))%Qc).
  { vm_compute in E. injection E as <-. repeat f_equal; apply Qc_is_canon; reflexivity. }
  intros [a b c]. rewrite K. unfold vec_mat, vscale, vadd. cbn [vx vy vz]. f_equal; ring.
Qed.
Lemma vec_eq3 (a b : vec Qc) : vx a = vx b -> vy a = vy b -> vz a = vz b -> a = b.
Proof. destruct a, b; cbn; congruence. Qed.
Lemma cart2 L p o : vec_mat (vadd (vscale h2 p) (vscale h2 (vecZ o))) (mat_mul (matZ scale2) L) = vec_mat (vadd p (vecZ o)) L.
Proof.
  destruct p as [p1 p2 p3], o as [o1 o2 o3], L as [[a1 a2 a3] [b1 b2 b3] [c1 c2 c3]].
  unfold vec_mat, vadd, vscale, mat_mul, matZ, vecZ, vmap, scale2, vec_mat, vadd, vscale. cbn [vx vy vz].
  assert (K : (Zc 2 * h2 = 1)%Qc) by (apply Qc_is_canon; reflexivity). rewrite Zc_0.
  assert (K2 : forall x, (h2 * (Zc 2 * x) = x)%Qc) by (intros x; rewrite Qcmult_assoc, (Qcmult_comm h2), K; ring).
  f_equal.
  all: match goal with |- ?l = ?r => transitivity ((Zc 2 * h2) * r)%Qc; [ring|rewrite K; ring] end.
Qed.

(** ** Selecting atoms *)
Definition selb (ele : option Z) (z : Z) : bool := match ele with None => true | Some e => Z.eqb z e end.
Lemma combine_shift A B (l : list A) (m : list B) k : forall s,
  List.map fst (List.filter (fun iz => k (snd iz)) (combine (seq s (length m)) m)) =
  List.filter (fun i => match nth_error m (i - s) with Some z => k z | None => false end) (seq s (length m)).
Proof.
  induction m as [|y m IH]; intros s; [reflexivity|]. cbn [length seq combine List.filter snd].
  rewrite Nat.sub_diag. cbn [nth_error]. specialize (IH (S s)).
  assert (E : List.filter (fun i => match nth_error (y :: m) (i - s) with Some z => k z | None => false end) (seq (S s) (length m)) =
    List.filter (fun i => match nth_error m (i - S s) with Some z => k z | None => false end) (seq (S s) (length m))).
  { apply filter_ext_in. intros i Hi. apply in_seq in Hi. now replace (i - s)%nat with (S (i - S s)) by lia. }
  rewrite E. destruct (k y); cbn [List.map fst]; rewrite IH; reflexivity.
Qed.
Lemma take_sel A (l : list A) (m : list Z) k : length l = length m ->
  take_idx l (List.map fst (List.filter (fun iz => k (snd iz)) (enumerate m))) =
  Ok (List.map fst (List.filter (fun pz => k (snd pz)) (combine l m))).
Proof.
  intros L. unfold enumerate, range.
  assert (G : forall (pre l : list A) (m : list Z), length l = length m ->
    take_idx (pre ++ l) (List.map fst (List.filter (fun iz => k (snd iz)) (combine (seq (length pre) (length m)) m))) =
    Ok (List.map fst (List.filter (fun pz => k (snd pz)) (combine l m)))).
  { clear. intros pre l m. revert pre l. induction m as [|y m IH]; intros pre [|x l] L; try discriminate; [reflexivity|].
    cbn [length seq combine List.filter snd]. injection L as L.
    specialize (IH (pre ++ [x]) l L). rewrite app_length, Nat.add_1_r, <- app_assoc in IH. cbn [app] in IH.
    destruct (k y); cbn [List.map fst]; [|exact IH].
    unfold take_idx in *. cbn [mapM]. unfold get_nth at 1. rewrite nth_error_app2, Nat.sub_diag by lia. cbn [nth_error bind].
    now rewrite IH. }
  exact (G [] l m L).
Qed.
Lemma filter_all A (l : list A) : List.filter (fun _ => true) l = l.
Proof. induction l; cbn; congruence. Qed.
Lemma get_cart c ele : length (positions c) = length (numbers c) ->
  get_cartesian c ele = Ok (List.map (fun pz => vec_mat (fst pz) (lattice c))
                             (List.filter (fun pz => selb ele (snd pz)) (combine (positions c) (numbers c)))).
Proof.
  intros L. unfold get_cartesian. destruct ele as [e|].
  - rewrite (@take_sel _ _ _ (fun z => Z.eqb z e)) by assumption. cbn [bind]. now rewrite map_map.
  - cbn [bind selb]. rewrite filter_all. f_equal. rewrite <- (map_fst_combine (positions c) (numbers c) L) at 1. now rewrite map_map.
Qed.

Definition tpos ele c : list (vec Qc) :=
  List.map fst (List.filter (fun pz => selb ele (snd pz)) (combine (positions c) (numbers c))).

Lemma filter_blocks ele (P : list (vec Qc)) nums (pts : list (vec Qc)) n : length P = length nums -> length pts = n ->
  List.map fst (List.filter (fun pz => selb ele (snd pz))
    (combine (concat (List.map (fun x => List.map (vadd x) pts) P)) (concat (List.map (fun x => repeat x n) nums)))) =
  concat (List.map (fun x => List.map (vadd x) pts) (List.map fst (List.filter (fun pz => selb ele (snd pz)) (combine P nums)))).
Proof.
  revert nums. induction P as [|p P IH]; intros [|z nums] L N; try discriminate; [reflexivity|]. injection L as L.
  cbn [List.map concat]. rewrite combine_app by (now rewrite map_length, repeat_length).
  rewrite filter_app, map_app, IH by assumption. cbn [combine List.filter snd].
  rewrite combine_repeat by (now rewrite map_length).
  destruct (selb ele z) eqn:E.
  - cbn [List.map concat fst]. f_equal.
    assert (F : forall l : list (vec Qc), List.filter (fun pz => selb ele (snd pz)) (List.map (fun x => (x, z)) l) = List.map (fun x => (x, z)) l).
    { induction l; cbn; [reflexivity|]. now rewrite E, IHl. }
    rewrite F, map_map. cbn. apply map_id.
  - assert (F : forall l : list (vec Qc), List.filter (fun pz => selb ele (snd pz)) (List.map (fun x => (x, z)) l) = []).
    { induction l; cbn; [reflexivity|]. now rewrite E, IHl. }
    now rewrite F.
Qed.

Lemma map_filter_fst L ele (l : list (vec Qc * Z)) :
  List.map (fun pz => vec_mat (fst pz) L) (List.filter (fun pz => selb ele (snd pz)) l) =
  List.map (fun p => vec_mat p L) (List.map fst (List.filter (fun pz => selb ele (snd pz)) l)).
Proof. now rewrite map_map. Qed.

Lemma Permutation_filter A (f : A -> bool) l l' : Permutation l l' -> Permutation (List.filter f l) (List.filter f l').
Proof.
  induction 1; cbn; [reflexivity| | |etransitivity; eassumption].
  - destruct (f x); [now constructor|assumption].
  - destruct (f x), (f y); try reflexivity. apply perm_swap.
Qed.

Definition carts ele c : list (vec Qc) :=
  concat (List.map (fun p => List.map (fun o => vec_mat (vadd p (vecZ o)) (lattice c)) offs) (tpos ele c)).

Lemma target_cart_perm c ele : positions c <> [] -> length (positions c) = length (numbers c) ->
  exists sc tc, supercell c scale2 = Ok sc /\ get_cartesian sc ele = Ok tc /\ Permutation tc (carts ele c).
Proof.
  intros NE L. unfold supercell, build_supercell. destruct inv2 as (si & Ei & Hi). rewrite Ei. cbn [bind].
  rewrite frac2. cbn [bind].
  set (P := List.map (fun p => vec_mat p si) (positions c)).
  assert (EP : P = List.map (vscale h2) (positions c)) by (apply map_ext; intros; apply Hi).
  assert (LP : length P = length (positions c)) by apply map_length.
  set (B := List.map (fun x => List.map (fun y => vadd x y) pts2) P).
  assert (NB : np_concatenate B = Ok (concat B)).
  { unfold np_concatenate. destruct B eqn:EB; [|reflexivity]. exfalso. apply NE. unfold B in EB.
    apply map_eq_nil in EB. unfold P in EB. now apply map_eq_nil in EB. }
  rewrite NB. cbn [bind].
  change (diag_prod scale2) with 8. unfold np_repeat. change (8 <? 0) with false. cbv iota. cbn [bind].
  change (Z.to_nat 8) with 8%nat.
  set (N := concat (List.map (fun x => repeat x 8) (numbers c))).
  assert (LB : length (concat B) = length N).
  { unfold B, N. rewrite blocks_length, repeats_length, LP, L. reflexivity. }
  assert (NE2 : concat B <> []).
  { intros E. apply (f_equal (@length _)) in E. unfold B in E. rewrite blocks_length, LP in E.
    change (length pts2) with 8%nat in E. destruct (positions c); [congruence|cbn in E; lia]. }
  pose proof (@GeneralCell_new_ok (mat_mul (matZ scale2) (lattice c)) (concat B) N) as G.
  specialize (G ltac:(assumption) ltac:(lia)). rewrite G.
  set (sc := mkG _ _ _ _ _) in *.
  assert (Ls : length (positions sc) = length (numbers sc)).
  { unfold sc. cbn. unfold sortp, sortn. now rewrite !map_length. }
  pose proof (C08_pairs _ _ _ LB G) as PP.
  eexists _, _. split; [reflexivity|]. split; [apply get_cart; exact Ls|].
  change (lattice sc) with (mat_mul (matZ scale2) (lattice c)).
  apply (Permutation_filter (fun pz => selb ele (snd pz))) in PP.
  rewrite map_filter_fst. apply (Permutation_map fst) in PP. rewrite PP.
  unfold B, N. rewrite filter_blocks by (congruence || reflexivity).
  rewrite EP. unfold carts, tpos.
  assert (EQ : forall l m, length l = length m ->
    List.map fst (List.filter (fun pz => selb ele (snd pz)) (combine (List.map (vscale h2) l) m)) =
    List.map (vscale h2) (List.map fst (List.filter (fun pz => selb ele (snd pz)) (combine l m)))).
  { clear. induction l as [|x l IH]; intros [|z m] L; try discriminate; [reflexivity|]. injection L as L.
    cbn [List.map combine List.filter snd]. destruct (selb ele z); cbn [List.map fst]; now rewrite IH. }
  rewrite EQ by assumption. rewrite concat_map, !map_map.
  apply Permutation_refl'. f_equal. apply map_ext. intros p. unfold pts2. rewrite !map_map.
  apply map_ext. intros o. apply cart2.
Qed.

(** ** Minimum over pairs *)
Lemma Qcmin2_gt x y t : sqrt_gt (Qcmin2 x y) t = true <-> sqrt_gt x t = true /\ sqrt_gt y t = true.
Proof.
  unfold sqrt_gt, Qcmin2. rewrite !orb_true_iff, !Qcltb_lt.
  destruct (Qcleb x y) eqn:E; [apply Qcleb_le in E|apply Qcleb_gt in E]; rewrite ?orb_true_iff, ?Qcltb_lt.
  - intuition auto. right. eapply Qclt_le_trans; eauto.
  - intuition auto. right. eapply Qclt_trans; eauto.
Qed.
Lemma np_min_gt l t m : np_min l = Ok m -> (sqrt_gt m t = true <-> Forall (fun d => sqrt_gt d t = true) l).
Proof.
  destruct l as [|x l]; [discriminate|]. cbn [np_min]. intros E. injection E as <-.
  revert x. induction l as [|y l IH]; intros x; cbn [fold_left].
  - split; [intros; repeat constructor; auto|inversion 1; auto].
  - rewrite IH. rewrite !Forall_cons_iff, Qcmin2_gt. tauto.
Qed.
Lemma pdist_FOP (R : Qc -> Prop) l : Forall R (pdist l) <-> ForallOrdPairs (fun a b => R (dist2 a b)) l.
Proof.
  induction l as [|x l IH]; cbn [pdist]; [split; constructor|].
  rewrite Forall_app, IH, Forall_map. split.
  - intros [H1 H2]. now constructor.
  - inversion 1; subst. auto.
Qed.
Lemma FOP_perm A (R : A -> A -> Prop) l l' : (forall a b, R a b -> R b a) -> Permutation l l' ->
  ForallOrdPairs R l -> ForallOrdPairs R l'.
Proof.
  intros S. induction 1; intros F; [constructor| | |auto].
  - inversion F; subst. constructor; [|auto]. eapply Permutation_Forall; eauto.
  - inversion F as [|? ? A1 F1]; subst. inversion F1 as [|? ? A2 F2]; subst. inversion A1; subst.
    constructor; [constructor; auto|]. constructor; auto.
Qed.
Lemma FOP_nodup A B (f : A -> B) (R : B -> B -> Prop) l : (forall a b, R a b -> R b a) -> NoDup l ->
  (ForallOrdPairs R (List.map f l) <-> forall a b, In a l -> In b l -> a <> b -> R (f a) (f b)).
Proof.
  intros S. induction 1 as [|x l NI ND IH]; cbn [List.map]; [split; [intros _ a b []|constructor]|].
  split.
  - intros F. inversion F as [|? ? A1 F1]; subst. rewrite Forall_map, Forall_forall in A1.
    intros a b [<-|Ha] [<-|Hb] N; [congruence|now apply A1|apply S; now apply A1|now apply IH].
  - intros G. constructor.
    + rewrite Forall_map, Forall_forall. intros y Hy. apply G; cbn; auto. intros <-. auto.
    + apply IH. intros a b Ha Hb. apply G; cbn; auto.
Qed.
Lemma dist2_sym a b : dist2 a b = dist2 b a.
Proof. destruct a as [a1 a2 a3], b as [b1 b2 b3]. unfold dist2, vsub, vdot. cbn [vx vy vz]. ring. Qed.

(** index form of the target list *)
Definition tidx ele c : list nat :=
  List.map fst (List.filter (fun iz => selb ele (snd iz)) (enumerate (numbers c))).
Lemma tpos_idx ele c : length (positions c) = length (numbers c) ->
  tpos ele c = List.map (fun i => nth i (positions c) v0) (tidx ele c).
Proof.
  intros L. pose proof (@take_sel _ (positions c) (numbers c) (selb ele) L) as T. fold (tpos ele c) in T. fold (tidx ele c) in T.
  pose proof (take_idx_inv _ _ T) as F. rewrite (take_idx_ok _ _ v0 F) in T. congruence.
Qed.
Lemma In_tidx ele c i : In i (tidx ele c) <-> exists z, nth_error (numbers c) i = Some z /\ selb ele z = true.
Proof.
  unfold tidx. rewrite in_map_iff. split.
  - intros ([j z] & <- & H). apply filter_In in H. destruct H as [H1 H2]. apply In_enumerate in H1. eauto.
  - intros (z & H1 & H2). exists (i, z). split; [reflexivity|]. apply filter_In. split; [now apply In_enumerate|assumption].
Qed.
Lemma NoDup_tidx ele c : NoDup (tidx ele c).
Proof.
  unfold tidx, enumerate, range. rewrite (@combine_shift nat Z [] (numbers c) (selb ele) 0). apply NoDup_filter, seq_NoDup.
Qed.
Lemma selb_spec ele z : selb ele z = true <-> (ele = None \/ ele = Some z).
Proof.
  destruct ele as [e|]; cbn; [|intuition].
  rewrite Z.eqb_eq. split; [intros ->; auto|intros [E|E]; [discriminate|congruence]].
Qed.
Lemma carts_idx ele c : length (positions c) = length (numbers c) ->
  carts ele c = List.map (fun io => vec_mat (vadd (nth (fst io) (positions c) v0) (vecZ (snd io))) (lattice c)) (list_prod (tidx ele c) offs).
Proof.
  intros L. unfold carts. rewrite (tpos_idx ele L), map_map. induction (tidx ele c) as [|i l IH]; [reflexivity|].
  cbn [List.map concat list_prod]. rewrite map_app, map_map, IH. reflexivity.
Qed.
Lemma NoDup_list_prod A B (l : list A) (m : list B) : NoDup l -> NoDup m -> NoDup (list_prod l m).
Proof.
  intros N M. induction N as [|x l NI N IH]; cbn [list_prod]; [constructor|].
  apply NoDup_app_disj; [|exact IH|].
  - apply FinFun.Injective_map_NoDup; [|exact M]. intros a b E. congruence.
  - intros [a b] H1 H2. apply in_map_iff in H1. destruct H1 as (y & E & _). injection E as <- <-.
    apply in_prod_iff in H2. tauto.
Qed.

(** ** C39 *)
Lemma In_offs o : In o offs <-> (0 <= vx o < 2 /\ 0 <= vy o < 2 /\ 0 <= vz o < 2).
Proof. apply In_product3. Qed.
Lemma dist2_image L p q a b :
  dist2 (vec_mat (vadd p (vecZ a)) L) (vec_mat (vadd q (vecZ b)) L) = image_dist2 L p (zvsub a b) q.
Proof.
  destruct p as [p1 p2 p3], q as [q1 q2 q3], a as [x1 x2 x3], b as [y1 y2 y3], L as [[a1 a2 a3] [b1 b2 b3] [c1 c2 c3]].
  unfold dist2, image_dist2, vec_mat, vadd, vsub, vscale, vdot, vecZ, vmap, zvsub. cbn [vx vy vz].
  rewrite !Zc_minus. ring.
Qed.
Lemma sqrt_gt_spec d t : sqrt_gt d t = true <-> exceeds d t.
Proof. unfold sqrt_gt, exceeds. now rewrite orb_true_iff, !Qcltb_lt. Qed.

Definition clamp01 (z : Z) : Z := if z =? 1 then 1 else 0.
Lemma offs_diff o : near_offset o -> exists a b, In a offs /\ In b offs /\ zvsub a b = o.
Proof.
  destruct o as [x y z]. intros (A & B & C). cbn [vx vy vz] in *.
  exists (V3 (Z.max x 0) (Z.max y 0) (Z.max z 0)), (V3 (Z.max (-x) 0) (Z.max (-y) 0) (Z.max (-z) 0)).
  rewrite !In_offs. unfold zvsub. cbn [vx vy vz]. repeat apply conj; try lia. f_equal; lia.
Qed.

Lemma all_far_carts ele t c : length (positions c) = length (numbers c) ->
  ForallOrdPairs (fun a b => sqrt_gt (dist2 a b) t = true) (carts ele c) <-> all_far near_offset ele t c.
Proof.
  intros L. rewrite (carts_idx ele L).
  rewrite FOP_nodup; [|intros a b; now rewrite dist2_sym|apply NoDup_list_prod; [apply NoDup_tidx|apply NoDup_product3]].
  unfold all_far. split.
  - intros H i j p q o (P1 & z & P2 & P3) (Q1 & y & Q2 & Q3) O N.
    destruct (offs_diff O) as (a & b & Ia & Ib & E).
    specialize (H (i, a) (j, b)). rewrite !in_prod_iff, !In_tidx in H. cbn [fst snd] in H.
    rewrite dist2_image, E, sqrt_gt_spec in H.
    rewrite (nth_error_nth _ _ v0 P1), (nth_error_nth _ _ v0 Q1) in H. apply H.
    + split; [|assumption]. exists z. now rewrite selb_spec.
    + split; [|assumption]. exists y. now rewrite selb_spec.
    + intros K. injection K as <- <-. destruct N as [N|N]; [congruence|]. apply N. rewrite <- E.
      unfold zvsub. rewrite !Z.sub_diag. reflexivity.
  - intros H [i a] [j b]. rewrite !in_prod_iff, !In_tidx, !In_offs. cbn [fst snd].
    intros [(z & A1 & A2) A3] [(y & B1 & B2) B3] N. rewrite dist2_image, sqrt_gt_spec.
    apply selb_spec in A2. apply selb_spec in B2.
    assert (Hi : (i < length (positions c))%nat) by (rewrite L; apply nth_error_Some; congruence).
    assert (Hj : (j < length (positions c))%nat) by (rewrite L; apply nth_error_Some; congruence).
    apply (H i j).
    + split; [now apply nth_error_nth'|eauto].
    + split; [now apply nth_error_nth'|eauto].
    + unfold near_offset, zvsub. cbn [vx vy vz]. lia.
    + destruct (Nat.eq_dec i j) as [->|]; [right|now left]. intros E. apply N. f_equal.
      destruct a as [a1 a2 a3], b as [b1 b2 b3]. unfold zvsub in E. cbn [vx vy vz] in E. injection E as E1 E2 E3. f_equal; lia.
Qed.

Lemma FOP_perm_iff A (R : A -> A -> Prop) l l' : (forall a b, R a b -> R b a) -> Permutation l l' ->
  ForallOrdPairs R l <-> ForallOrdPairs R l'.
Proof. intros S P. split; apply FOP_perm; auto. now symmetry. Qed.

Lemma carts_length ele c : length (carts ele c) = (length (tpos ele c) * 8)%nat.
Proof.
  unfold carts. induction (tpos ele c) as [|p l IH]; [reflexivity|]. cbn [List.map concat length].
  rewrite app_length, map_length, IH. change (length offs) with 8%nat. lia.
Qed.

Lemma min_distance_ok ele t c : positions c <> [] -> length (positions c) = length (numbers c) ->
  (exists i p, target_atom ele c i p) ->
  exists b, min_distance_satisfied ele t c = Ok b /\ (b = true <-> all_far near_offset ele t c).
Proof.
  intros NE L (i & p & P1 & z & P2 & P3). unfold min_distance_satisfied.
  destruct (target_cart_perm ele NE L) as (sc & tc & E1 & E2 & PP). rewrite E1. cbn [bind]. rewrite E2. cbn [bind].
  assert (LT : (2 <= length tc)%nat).
  { rewrite PP, carts_length.
    assert (In i (tidx ele c)) by (rewrite In_tidx; exists z; now rewrite selb_spec).
    rewrite (tpos_idx ele L), map_length. destruct (tidx ele c); [contradiction|cbn; lia]. }
  destruct tc as [|a [|b tc]]; cbn in LT; try lia. clear LT.
  assert (exists m, np_min (pdist (a :: b :: tc)) = Ok m) as [m Em] by (eexists; reflexivity).
  rewrite Em. cbn [bind]. eexists. split; [reflexivity|]. rewrite (np_min_gt t Em), pdist_FOP.
  rewrite <- all_far_carts by assumption. apply FOP_perm_iff; [|assumption]. intros; now rewrite dist2_sym.
Qed.
Lemma min_distance_none ele t c : positions c <> [] -> length (positions c) = length (numbers c) ->
  ~ (exists i p, target_atom ele c i p) -> min_distance_satisfied ele t c = Raise ValueError.
Proof.
  intros NE L N. unfold min_distance_satisfied.
  destruct (target_cart_perm ele NE L) as (sc & tc & E1 & E2 & PP). rewrite E1. cbn [bind]. rewrite E2. cbn [bind].
  assert (T : tidx ele c = []).
  { destruct (tidx ele c) as [|i l] eqn:E; [reflexivity|]. exfalso.
    assert (I : In i (tidx ele c)) by (rewrite E; now left). apply In_tidx in I. destruct I as (z & H1 & H2).
    apply selb_spec in H2. apply N.
    assert (Hi : (i < length (positions c))%nat) by (rewrite L; apply nth_error_Some; congruence).
    exists i, (nth i (positions c) v0). split; [now apply nth_error_nth'|eauto]. }
  assert (tc = []) as ->.
  { apply Permutation_nil. symmetry. rewrite PP. unfold carts. now rewrite (tpos_idx ele L), T. }
  reflexivity.
Qed.

Lemma target_dec ele c : length (positions c) = length (numbers c) ->
  (exists i p, target_atom ele c i p) \/ ~ (exists i p, target_atom ele c i p).
Proof.
  intros L. destruct (tidx ele c) as [|i l] eqn:E.
  - right. intros (i & p & P1 & z & P2 & P3). assert (I : In i (tidx ele c)) by (rewrite In_tidx; exists z; now rewrite selb_spec).
    rewrite E in I. exact I.
  - left. assert (I : In i (tidx ele c)) by (rewrite E; now left). apply In_tidx in I. destruct I as (z & H1 & H2).
    apply selb_spec in H2.
    assert (Hi : (i < length (positions c))%nat) by (rewrite L; apply nth_error_Some; congruence).
    exists i, (nth i (positions c) v0). split; [now apply nth_error_nth'|eauto].
Qed.

(** ** C40 *)
Definition clamp (z : Z) : Z := Z.max (-1) (Z.min 1 z).
Lemma sq_clamp a b o : in01 a -> in01 b ->
  ((a + Zc (clamp o) - b) * (a + Zc (clamp o) - b) <= (a + Zc o - b) * (a + Zc o - b))%Qc.
Proof.
  unfold in01. intros A B. unfold clamp.
  assert (C : o = -1 \/ o = 0 \/ o = 1 \/ 2 <= o \/ o <= -2) by lia.
  destruct C as [->|[->|[->|[C|C]]]]; try apply Qcle_refl.
  - replace (Z.max (-1) (Z.min 1 o)) with 1 by lia. apply Zc_le in C. revert C. generalize (Zc o). intros w C.
    change (Zc 2) with (Q2Qc 2) in C. change (Zc 1) with (Q2Qc 1). clear o.
    unfold Qcle, Qclt in *. qcpush. revert A B C. generalize (this a) (this b) (this w). intros x y z A B C.
    change (this 0%Qc) with 0%Q in *. change (this 1%Qc) with 1%Q in *.
    assert (0 <= (z - 1) * (2 * (x - y) + z + 1))%Q by (apply Qmult_le_0_compat; lra). lra.
  - replace (Z.max (-1) (Z.min 1 o)) with (-1) by lia. apply Zc_le in C. revert C. generalize (Zc o). intros w C.
    change (Zc (-2)) with (Q2Qc (-2)) in C. change (Zc (-1)) with (Q2Qc (-1)). clear o.
    unfold Qcle, Qclt in *. qcpush. revert A B C. generalize (this a) (this b) (this w). intros x y z A B C.
    change (this 0%Qc) with 0%Q in *. change (this 1%Qc) with 1%Q in *.
    assert (0 <= (- z - 1) * (2 * (y - x) + - z + 1))%Q by (apply Qmult_le_0_compat; lra). lra.
Qed.

Lemma Qcsq_nonneg (x : Qc) : (0 <= x * x)%Qc.
Proof. unfold Qcle. rewrite this_mult. change (this 0%Qc) with 0%Q. nra. Qed.
Lemma vdot_self (v : vec Qc) : (0 <= vdot v v)%Qc.
Proof.
  destruct v as [a b c]. unfold vdot. cbn [vx vy vz].
  pose proof (@Qcsq_nonneg a) as H. pose proof (@Qcsq_nonneg b) as H0. pose proof (@Qcsq_nonneg c) as H1.
  revert H H0 H1. generalize (a*a)%Qc (b*b)%Qc (c*c)%Qc. intros. qclra.
Qed.
Lemma image_orth L p o q : orthogonal L -> image_dist2 L p o q =
  ((vx p + Zc (vx o) - vx q) * (vx p + Zc (vx o) - vx q) * vdot (vx L) (vx L) +
   (vy p + Zc (vy o) - vy q) * (vy p + Zc (vy o) - vy q) * vdot (vy L) (vy L) +
   (vz p + Zc (vz o) - vz q) * (vz p + Zc (vz o) - vz q) * vdot (vz L) (vz L))%Qc.
Proof.
  intros (A & B & C). unfold image_dist2.
  set (x := (vx p + Zc (vx o) - vx q)%Qc). set (y := (vy p + Zc (vy o) - vy q)%Qc). set (z := (vz p + Zc (vz o) - vz q)%Qc).
  change (vsub (vadd p (vecZ o)) q) with (V3 x y z). clearbody x y z.
  transitivity (x * x * vdot (vx L) (vx L) + y * y * vdot (vy L) (vy L) + z * z * vdot (vz L) (vz L) +
    Q2Qc 2 * x * y * vdot (vx L) (vy L) + Q2Qc 2 * x * z * vdot (vx L) (vz L) + Q2Qc 2 * y * z * vdot (vy L) (vz L))%Qc.
  - destruct L as [[a1 a2 a3] [b1 b2 b3] [c1 c2 c3]]. unfold vec_mat, vadd, vscale, vdot. cbn [vx vy vz].
    change (Q2Qc 2) with (Q2Qc (1 + 1)).
    replace (Q2Qc (1 + 1)) with (1 + 1)%Qc by (apply Qc_is_canon; reflexivity). ring.
  - rewrite A, B, C. ring.
Qed.
Lemma wsum_le (a b c a' b' c' u v w : Qc) : (0 <= u)%Qc -> (0 <= v)%Qc -> (0 <= w)%Qc ->
  (a <= a')%Qc -> (b <= b')%Qc -> (c <= c')%Qc -> (a * u + b * v + c * w <= a' * u + b' * v + c' * w)%Qc.
Proof. intros. repeat apply Qcplus_le_compat; now apply Qcmult_le_compat_r. Qed.

Lemma orth_far ele t c : orthogonal (lattice c) -> (forall p, In p (positions c) -> wrapped p) ->
  all_far near_offset ele t c -> all_far (fun _ => True) ele t c.
Proof.
  intros O W H i j p q o P Q _ N.
  pose (o' := V3 (clamp (vx o)) (clamp (vy o)) (clamp (vz o))).
  assert (X : exceeds (image_dist2 (lattice c) p o' q) t).
  { apply (H i j); auto.
    - unfold near_offset, o', clamp. cbn [vx vy vz]. lia.
    - destruct N as [N|N]; [now left|right]. intros E. apply N. destruct o as [x y z]. unfold o', clamp in E.
      cbn [vx vy vz] in E. injection E as E1 E2 E3. f_equal; lia. }
  assert (Y : (image_dist2 (lattice c) p o' q <= image_dist2 (lattice c) p o q)%Qc).
  { rewrite !image_orth by assumption. unfold o'. cbn [vx vy vz].
    assert (Wp : wrapped p) by (apply W; eapply nth_error_In; apply P).
    assert (Wq : wrapped q) by (apply W; eapply nth_error_In; apply Q).
    destruct Wp as (A1 & A2 & A3), Wq as (B1 & B2 & B3).
    apply wsum_le; try apply vdot_self; now apply sq_clamp. }
  destruct X as [X|X]; [now left|right]. eapply Qclt_le_trans; eauto.
Qed.

(** ** C41 *)
Lemma is_digit_In c : is_digit c = true <-> In c digits10.
Proof.
  split.
  - destruct c as [b0 b1 b2 b3 b4 b5 b6 b7].
    destruct b0, b1, b2, b3, b4, b5, b6, b7; vm_compute; intros E; try discriminate; tauto.
  - cbn. intuition (subst; reflexivity).
Qed.
Lemma findall_skip a s : no_digit a -> findall_digits EmptyString (a ++ s) = findall_digits EmptyString s.
Proof.
  induction a as [|c a IH]; [reflexivity|]. cbn [no_digit String.append findall_digits]. intros [N D].
  destruct (is_digit c) eqn:E; [apply is_digit_In in E; contradiction|auto].
Qed.
Fixpoint all_digits (s : string) : Prop :=
  match s with EmptyString => True | String c r => is_digit c = true /\ all_digits r end.
Lemma append_assoc (a b c : string) : (a ++ (b ++ c) = (a ++ b) ++ c)%string.
Proof. induction a; cbn; congruence. Qed.
Lemma append_empty (a : string) : (a ++ "" = a)%string.
Proof. induction a; cbn; congruence. Qed.
Lemma findall_run acc d s : all_digits d -> no_digit_first s -> (acc ++ d)%string <> EmptyString ->
  nth_error (findall_digits acc (d ++ s)) 0 = Some (acc ++ d)%string.
Proof.
  revert acc. induction d as [|c d IH]; intros acc D F N.
  - rewrite append_empty in *. cbn [String.append]. destruct s as [|c s]; cbn [findall_digits].
    + destruct acc; [congruence|reflexivity].
    + destruct (is_digit c) eqn:E; [apply is_digit_In in E; contradiction|]. destruct acc; [congruence|reflexivity].
  - destruct D as [D1 D2]. cbn [String.append findall_digits]. rewrite D1. rewrite IH; auto.
    + now rewrite <- append_assoc.
    + destruct acc; cbn; discriminate.
Qed.
Lemma all_digits_uint d : all_digits (NilEmpty.string_of_uint d).
Proof. induction d; cbn; auto. Qed.
Lemma int_of_uint d : forall acc, int_of_digits (Z.of_nat acc) (NilEmpty.string_of_uint d) = Z.of_nat (Nat.of_uint_acc d acc).
Proof.
  induction d; intros acc; [reflexivity|..]; cbn [NilEmpty.string_of_uint int_of_digits Nat.of_uint_acc];
    rewrite <- IHd; f_equal; rewrite Nat.tail_mul_spec; unfold digit_val;
    match goal with |- context [Z.of_N ?x] => let y := eval vm_compute in (Z.of_N x) in change (Z.of_N x) with y end; lia.
Qed.
Lemma int_dec n : int_of_digits 0 (dec n) = Z.of_nat n.
Proof.
  unfold dec. change 0 with (Z.of_nat 0). rewrite int_of_uint. f_equal. exact (DecimalNat.Unsigned.of_to n).
Qed.
Lemma dec_nonempty n : dec n <> EmptyString.
Proof.
  unfold dec. intros E.
  assert (K : Nat.to_uint n <> Decimal.Nil).
  { intros K. pose proof (DecimalNat.Unsigned.of_to n) as O. rewrite K in O. cbn in O. subst n. discriminate. }
  destruct (Nat.to_uint n); try discriminate. congruence.
Qed.
Lemma space_group_first a n rest l : no_digit a -> no_digit_first rest ->
  space_group_satisfied l (Some (a ++ dec n ++ rest)%string) = Ok (memZ (Z.of_nat n) l).
Proof.
  intros A R. unfold space_group_satisfied. rewrite findall_skip by assumption. unfold get_nth.
  rewrite findall_run; [|apply all_digits_uint|assumption|apply dec_nonempty].
  cbn [bind String.append]. now rewrite int_dec.
Qed.
Lemma space_group_none a l : no_digit a -> space_group_satisfied l (Some a) = Raise IndexError.
Proof.
  intros A. unfold space_group_satisfied. rewrite <- (append_empty a), findall_skip by assumption. reflexivity.
Qed.
Lemma no_digit_app a b : no_digit a -> no_digit b -> no_digit (a ++ b).
Proof. induction a as [|c a IH]; cbn; intuition. Qed.
Lemma no_digit_first_app a b : a <> EmptyString -> no_digit_first a -> no_digit_first (a ++ b).
Proof. destruct a; cbn; congruence || auto. Qed.
