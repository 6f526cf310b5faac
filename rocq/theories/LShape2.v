(** Supercells of cells without repeated atoms have none. *)
From Coq Require Import Permutation.
From Verif Require Import Base LBase BaseQ LQ SLattice SGeneralCell LGeneralCell MGeneralCell MHnf LMat3 LHnf LSuper LFrac LCrystal SModCell LModCell4 MIO MCli LCli3 SShape LShape.
Set Implicit Arguments.
Unset Strict Implicit.
Open Scope nat_scope.

Definition apart (lat : mat Qc) (p p' : vec Qc) : Prop := forall s, vec_mat p lat <> vec_mat (vadd p' (vecZ s)) lat.
Lemma apart_sym lat p p' : apart lat p p' -> apart lat p' p.
Proof.
  intros H s E. apply (H (zvsub (V3 0 0 0)%Z s)). rewrite vecZ_sub, vec_mat_add, vec_mat_vsub, E, vec_mat_add.
  assert (Z0 : vec_mat (vecZ (V3 0 0 0)%Z) lat = v0) by (unfold vecZ, vmap, v0; cbn [vx vy vz]; change (Zc 0) with 0%Qc; qm).
  rewrite Z0. generalize (vec_mat p lat) (vec_mat (vecZ s) lat). unfold v0. clear. qm.
Qed.
Lemma FOP_nth A (R : A -> A -> Prop) l : ForallOrdPairs R l <-> (forall i j x y, i < j -> nth_error l i = Some x -> nth_error l j = Some y -> R x y).
Proof.
  split.
  - intros F. induction F as [|a l H F IH]; intros i j x y L X Y; [destruct i; discriminate|]. destruct j as [|j]; [lia|]. destruct i as [|i]; cbn in X, Y.
    + injection X as <-. rewrite Forall_forall in H. apply H. eapply nth_error_In; eauto.
    + apply (IH i j); auto. lia.
  - induction l as [|a l IH]; intros H; constructor.
    + apply Forall_forall. intros y I. apply In_nth_error in I as (j & J). apply (H 0 (S j)); [lia|reflexivity|exact J].
    + apply IH. intros i j x y L X Y. apply (H (S i) (S j)); [lia|exact X|exact Y].
Qed.
Lemma distinct_FOP lat pos : distinct_sites lat pos <-> ForallOrdPairs (apart lat) pos.
Proof.
  rewrite FOP_nth. split.
  - intros D i j x y L X Y s E. pose proof (D i j x y s X Y E). lia.
  - intros H i j p p' s P P' E. destruct (Nat.lt_trichotomy i j) as [L|[L|L]]; [|exact L|]; exfalso.
    + exact (H i j p p' L P P' s E).
    + pose proof (H j i p' p L P' P) as K. apply apart_sym in K. exact (K s E).
Qed.
Lemma FOP_perm A (R : A -> A -> Prop) l l' : (forall x y, R x y -> R y x) -> Permutation l l' -> ForallOrdPairs R l -> ForallOrdPairs R l'.
Proof.
  intros S P. induction P as [|x l l' P IH|x y l|l l' l'' P1 IH1 P2 IH2]; intros F; [constructor| | |auto].
  - inversion F; subst. constructor; [|auto]. eapply Permutation_Forall; eauto.
  - inversion F as [|? ? F1 F2]; subst. inversion F2 as [|? ? F3 F4]; subst. inversion F1; subst.
    constructor; [constructor; [apply S; assumption|assumption]|]. constructor; assumption.
Qed.
Lemma FOP_concat A B (R : B -> B -> Prop) (f : A -> list B) l : (forall x, In x l -> ForallOrdPairs R (f x)) ->
  ForallOrdPairs (fun x y => forall a b, In a (f x) -> In b (f y) -> R a b) l -> ForallOrdPairs R (concat (map f l)).
Proof.
  intros H F. induction F as [|x l HX F IH]; cbn [map concat]; [constructor|]. apply FOP_app.
  - apply H. now left.
  - apply IH. intros y Y. apply H. now right.
  - intros a b IA IB. apply in_concat in IB as (m & IM & IB). apply in_map_iff in IM as (y & <- & IY). rewrite Forall_forall in HX. exact (HX y IY a b IA IB).
Qed.
Lemma FOP_map A B (R : B -> B -> Prop) (f : A -> B) l : ForallOrdPairs (fun x y => R (f x) (f y)) l -> ForallOrdPairs R (map f l).
Proof. induction 1 as [|x l H F IH]; cbn; constructor; [|exact IH]. apply Forall_map. exact H. Qed.
Lemma FOP_impl A (R R' : A -> A -> Prop) l : (forall x y, In x l -> In y l -> R x y -> R' x y) -> ForallOrdPairs R l -> ForallOrdPairs R' l.
Proof.
  intros H F. induction F as [|x l HX F IH]; constructor.
  - rewrite Forall_forall in *. intros y Y. apply H; [now left|now right|auto].
  - apply IH. intros a b A1 B1. apply H; now right.
Qed.
Lemma NoDup_FOP A (l : list A) : NoDup l -> ForallOrdPairs (fun x y => x <> y) l.
Proof. induction 1 as [|x l N D IH]; constructor; [|exact IH]. apply Forall_forall. intros y Y E. subst. contradiction. Qed.

Lemma swap_sum a b c d : vadd (vadd a b) (vadd c d) = vadd (vadd a c) (vadd b d).
Proof. qm. Qed.
Lemma vsub_zero_front a b : vadd a b = a -> b = v0.
Proof. intros E. rewrite <- (vsub_front a b), E. unfold v0. qm. Qed.
Lemma supercell_distinct u H c : positions u <> [] -> length (positions u) = length (numbers u) -> volume (lattice u) <> 0%Qc ->
  distinct_sites (lattice u) (positions u) ->
  nonneg_mat H -> (0 < Z.abs (zdet H) < 100000)%Z -> diag_prod H = Z.abs (zdet H) -> supercell u H = Ok c ->
  distinct_sites (lattice c) (positions c).
Proof.
  intros NE L VO DS NN B DP. assert (N : zdet H <> 0%Z) by lia.
  destruct (get_frac_spec NN B) as (pts & G & ND & LN & _ & IV & CL).
  unfold supercell, build_supercell. rewrite inv_matZ by exact N. cbn [bind]. rewrite G. cbn [bind].
  set (si := mdiv (zadj H) (zdet H)). set (P := List.map (fun p => vec_mat p si) (positions u)).
  assert (CC : np_concatenate (List.map (fun x => List.map (fun y => vadd x y) pts) P) = Ok (concat (List.map (fun x => List.map (fun y => vadd x y) pts) P))).
  { unfold P. destruct (positions u); [congruence|reflexivity]. }
  rewrite CC. cbn [bind]. unfold np_repeat. rewrite DP. destruct (Z.abs (zdet H) <? 0)%Z eqn:E; [apply Z.ltb_lt in E; lia|]. cbn [bind].
  set (n := Z.to_nat (Z.abs (zdet H))). assert (PN : length pts = n) by (unfold n; lia).
  set (pp := concat (List.map (fun x => List.map (fun y => vadd x y) pts) P)).
  set (nn := concat (List.map (fun x => repeat x n) (numbers u))). intros EC.
  assert (Lpn : length pp = length nn).
  { unfold pp, nn. rewrite blocks_length, repeats_length. unfold P. rewrite map_length. congruence. }
  pose proof (C08_pairs _ _ _ Lpn EC) as PERM.
  assert (LC : lattice c = mat_mul (matZ H) (lattice u) /\ Permutation (positions c) pp).
  { pose proof (GeneralCell_new_inv _ _ _ EC) as [NEp _]. assert (LL : length (positions c) = length (numbers c)).
    { rewrite GeneralCell_new_ok in EC by (auto; lia). injection EC as <-. cbn. now rewrite sortp_length, sortn_length. }
    split; [rewrite GeneralCell_new_ok in EC by (auto; lia); injection EC as <-; reflexivity|].
    rewrite <- (map_fst_combine _ _ LL), <- (map_fst_combine _ _ Lpn). apply Permutation_map. exact PERM. }
  destruct LC as [LC PC]. rewrite LC. apply distinct_FOP. apply (@FOP_perm _ _ pp); [intros x y; apply apart_sym|apply Permutation_sym, PC|].
  apply distinct_FOP in DS.
  assert (CART : forall p t, vec_mat (vadd (vec_mat p si) t) (mat_mul (matZ H) (lattice u)) = vec_mat (vadd p (vec_mat t (matZ H))) (lattice u)).
  { intros p t. rewrite <- vec_mat_mul, vec_mat_add. unfold si. rewrite inv_mul by exact N. reflexivity. }
  assert (IV' : forall t, In t pts -> exists w, vec_mat t (matZ H) = vecZ w) by exact IV.
  unfold pp, P. apply FOP_concat.
  - intros x IX. apply in_map_iff in IX as (p & <- & IP). apply FOP_map. eapply FOP_impl; [|apply NoDup_FOP; exact ND].
    intros t t' T T' NEQ s EQ. apply NEQ. rewrite vadd_assoc, !CART, !vec_mat_add in EQ.
    apply (f_equal (fun v => vsub v (vec_mat p (lattice u)))) in EQ. rewrite !vsub_front in EQ.
    destruct (inv_spec VO) as (i & _ & _ & K). apply (f_equal (fun v => vec_mat v i)) in EQ. rewrite !vec_mat_add, !K, <- vec_mat_add in EQ.
    destruct (IV' t T) as (w & W). destruct (CL w) as (t0 & _ & _ & U).
    rewrite (U t T), (U t' T'); [reflexivity| |].
    + exists s. rewrite <- W. rewrite EQ. reflexivity.
    + exists (V3 0 0 0)%Z. rewrite <- W. f_equal. unfold vecZ, vmap. cbn [vx vy vz]. change (Zc 0) with 0%Qc. destruct t as [t1 t2 t3]. unfold vadd. cbn [vx vy vz]. now rewrite !Qcplus_0_r.
  - apply FOP_map. eapply FOP_impl; [|exact DS]. intros p p' _ _ AP a b IA IB s EQ.
    apply in_map_iff in IA as (t & <- & T). apply in_map_iff in IB as (t' & <- & T').
    rewrite vadd_assoc, !CART in EQ. destruct (IV' t T) as (w & W). destruct (IV' t' T') as (w' & W').
    rewrite (vec_mat_add t' (vecZ s)), W, W', <- vecZ_comb in EQ.
    apply (AP (zvsub (zvadd w' (zcomb s H)) w)). rewrite vecZ_sub, vecZ_add.
    rewrite vec_mat_add in EQ. rewrite <- (vsub_add (vec_mat p (lattice u)) (vec_mat (vecZ w) (lattice u))), EQ, <- vec_mat_vsub. f_equal.
    generalize (vadd (vecZ w') (vecZ (zcomb s H))) (vecZ w). clear. qm.
Qed.

Lemma volume_mul H L : volume (mat_mul (matZ H) L) = (Zc (zdet H) * volume L)%Qc.
Proof.
  rewrite <- !volume_qdet, <- qdet_matZ. generalize (matZ H). intros M. destruct M as [[a b c] [p q r] [x y z]], L as [[a' b' c'] [p' q' r'] [x' y' z']].
  cbv [qdet mat_mul vec_mat vadd vscale vmap vx vy vz]. ring.
Qed.
Lemma volume_supercell H L : zdet H <> 0%Z -> volume L <> 0%Qc -> volume (mat_mul (matZ H) L) <> 0%Qc.
Proof.
  intros N V E. rewrite volume_mul in E. apply Qcmult_integral in E as [E|E]; [|contradiction]. apply (Zc_neq0 N). exact E.
Qed.
