(** Supercells describe the same infinite crystal. *)
From Verif Require Import Base LBase BaseQ LQ SLattice SGeneralCell LGeneralCell MGeneralCell MHnf LMat3 LHnf LSuper LFrac.
Set Implicit Arguments.
Unset Strict Implicit.
Open Scope Z_scope.

Ltac qv := intros; dmat; qcbv; repeat apply vec_eq; qcbv; try ring.
Lemma vec_mat_mul v a b : vec_mat (vec_mat v a) b = vec_mat v (mat_mul a b).
Proof. qv. Qed.
Lemma vec_mat_add v w a : vec_mat (vadd v w) a = vadd (vec_mat v a) (vec_mat w a).
Proof. qv. Qed.
Lemma vadd_assoc a b c : vadd (vadd a b) c = vadd a (vadd b c).
Proof. qv. Qed.
Lemma mdiv_mul a b k : mat_mul (mdiv a k) (matZ b) = mdiv (zmul a b) k.
Proof. qmring. Qed.
Lemma vdiv_mul a b k : vec_mat (vdiv a k) (matZ b) = vdiv (zcomb a b) k.
Proof. qmring. Qed.
Lemma mdiv_scale k m : k <> 0 -> mdiv (zmscale k m) k = matZ m.
Proof.
  intros K. destruct m as [[a b c] [p q r] [x y z]]. unfold mdiv, zmscale, zvscale, matZ, vmap. cbn [vx vy vz].
  now rewrite !qdivz_scale.
Qed.
Lemma vdiv_scale k m : k <> 0 -> vdiv (zvscale k m) k = vecZ m.
Proof. intros K. destruct m as [a b c]. unfold vdiv, zvscale, vecZ, vmap. cbn [vx vy vz]. now rewrite !qdivz_scale. Qed.
Lemma vecZ_add a b : vecZ (zvadd a b) = vadd (vecZ a) (vecZ b).
Proof. intros; dmat. unfold zvadd, vecZ, vadd, vmap. mcbv. now rewrite !Zc_plus. Qed.
Lemma vec_mat_id v : vec_mat v (matZ zid) = v.
Proof. destruct v as [a b c]. unfold vec_mat, matZ, zid, vmap, vadd, vscale. cbn [vx vy vz]. rewrite Zc_0, Zc_1. f_equal; ring. Qed.

Lemma inv_mul H p : zdet H <> 0 -> vec_mat (vec_mat p (mdiv (zadj H) (zdet H))) (matZ H) = p.
Proof. intros N. rewrite vec_mat_mul, mdiv_mul, zmul_adj_l, mdiv_scale by exact N. apply vec_mat_id. Qed.
Lemma pt_mul H p : zdet H <> 0 -> vec_mat (vdiv (coef H p) (zdet H)) (matZ H) = vecZ p.
Proof. intros N. rewrite vdiv_mul, coef_mul. now apply vdiv_scale. Qed.

Lemma infund_01 D k : D <> 0 -> infund D k <-> in01 (qdivz D k).
Proof.
  intros N. unfold in01, Qcle, Qclt. destruct (@qdivz_bounds D k 0 1 N) as [A B].
  change (this 0%Qc) with 0%Q. change (this 1%Qc) with 1%Q. rewrite A, B. unfold infund.
  rewrite Qmult_0_l, Qmult_1_l, <- Zlt_Qlt. change 0%Q with (inject_Z 0). rewrite <- Zle_Qle. tauto.
Qed.

Lemma vecZ_inj a b : vecZ a = vecZ b -> a = b.
Proof.
  intros E. apply vec_eq; apply Zc_inj; [exact (f_equal (@vx Qc) E)|exact (f_equal (@vy Qc) E)|exact (f_equal (@vz Qc) E)].
Qed.

(** C36 for every non-negative non-singular matrix. *)
Lemma get_frac_spec H : nonneg_mat H -> 0 < Z.abs (zdet H) < 100000 ->
  exists pts, get_frac_from_mat H = Ok pts /\ NoDup pts /\ Z.of_nat (length pts) = Z.abs (zdet H) /\
    (forall t, In t pts -> in01 (vx t) /\ in01 (vy t) /\ in01 (vz t)) /\
    (forall t, In t pts -> exists v, vec_mat t (matZ H) = vecZ v) /\
    (forall v, exists t, In t pts /\ (exists s, vecZ v = vec_mat (vadd t (vecZ s)) (matZ H)) /\
       forall t', In t' pts -> (exists s, vecZ v = vec_mat (vadd t' (vecZ s)) (matZ H)) -> t' = t).
Proof.
  intros NN B. assert (N : zdet H <> 0) by lia. assert (SM : Z.abs (zdet H) < 100000) by lia.
  exists (List.map (fun p => vdiv (coef H p) (zdet H)) (inpts H)).
  split; [now apply get_frac_ok|].
  assert (REP : forall p v, In p (inpts H) -> ((exists s, vecZ v = vec_mat (vadd (vdiv (coef H p) (zdet H)) (vecZ s)) (matZ H)) <-> in_span H (zvsub v p))).
  { intros p v P. split.
    - intros [s E]. exists s. rewrite vec_mat_add, pt_mul, <- vecZ_comb, <- vecZ_add in E by exact N. apply vecZ_inj in E. subst v.
      unfold zvadd, zvsub. apply vec_eq; cbn [vx vy vz]; lia.
    - intros [s E]. exists s. rewrite vec_mat_add, pt_mul, <- vecZ_comb, <- vecZ_add, <- E by exact N. f_equal.
      unfold zvadd, zvsub. apply vec_eq; cbn [vx vy vz]; lia. }
  split; [|split; [|split; [|split]]].
  - assert (I : forall p q, vdiv (coef H p) (zdet H) = vdiv (coef H q) (zdet H) -> p = q).
    { intros p q E. apply vecZ_inj. rewrite <- !(fun x => pt_mul x N). now rewrite E. }
    apply FinFun.Injective_map_NoDup; [exact I|apply NoDup_inpts].
  - rewrite map_length. now apply inpts_length.
  - intros t T. apply in_map_iff in T. destruct T as (p & <- & P). apply In_inpts in P; trivial.
    destruct P as (P1 & P2 & P3). unfold vdiv, vmap. cbn [vx vy vz]. now rewrite <- !infund_01.
  - intros t T. apply in_map_iff in T. destruct T as (p & <- & P). exists p. now apply pt_mul.
  - intros v. destruct (reduce_spec N v) as [R S].
    assert (Pi : In (reduce H v) (inpts H)) by (apply In_inpts; trivial).
    exists (vdiv (coef H (reduce H v)) (zdet H)). split; [apply in_map_iff; eauto|].
    split; [now apply REP|]. intros t' T' E. apply in_map_iff in T'. destruct T' as (p & <- & P).
    apply REP in E; [|exact P]. f_equal. f_equal.
    apply (@infund_unique H N); [apply In_inpts; trivial|exact R|].
    apply span_chain with (v := v); [now apply span_neg|exact S].
Qed.

(** ** The crystal *)
Lemma crystal_combine lat pos nums z v : length pos = length nums ->
  crystal_atom lat pos nums z v <-> exists p s, In (p, z) (combine pos nums) /\ v = vec_mat (vadd p (vecZ s)) lat.
Proof.
  intros L. split.
  - intros (i & p & s & P & Z & V). exists p, s. split; [|exact V]. clear V L. revert pos nums P Z.
    induction i as [|i IH]; intros [|a pos] [|b nums] P Z; try discriminate; cbn in *.
    + injection P as ->. injection Z as ->. now left.
    + right. now apply IH.
  - intros (p & s & I & V). revert nums L I. induction pos as [|a pos IH]; intros [|b nums] L I; try discriminate; cbn in *; [easy|].
    destruct I as [E|I].
    + injection E as -> ->. exists 0%nat, p, s. auto.
    + injection L as L. destruct (IH nums L I) as (i & q & t & Q & Z & V'). exists (S i), q, t. auto.
Qed.

Lemma combine_app A B (a a' : list A) (b b' : list B) : length a = length b ->
  combine (a ++ a') (b ++ b') = combine a b ++ combine a' b'.
Proof. revert b. induction a as [|x a IH]; intros [|y b] L; try discriminate; cbn; [reflexivity|]. f_equal. apply IH. now injection L. Qed.
Lemma combine_repeat A B (l : list A) (z : B) n : length l = n -> combine l (repeat z n) = List.map (fun x => (x, z)) l.
Proof. intros <-. induction l; cbn; congruence. Qed.

Lemma combine_blocks (P : list (vec Qc)) (nums : list Z) (o : list (vec Qc)) n q z :
  length P = length nums -> length o = n ->
  In (q, z) (combine (concat (List.map (fun x => List.map (fun y => vadd x y) o) P)) (concat (List.map (fun x => repeat x n) nums)))
  <-> exists p t, In (p, z) (combine P nums) /\ In t o /\ q = vadd p t.
Proof.
  revert nums. induction P as [|x P IH]; intros [|y nums] L O; try discriminate; cbn [List.map concat combine].
  - split; [easy|]. intros (p & t & [] & _).
  - rewrite combine_app by (now rewrite map_length, repeat_length).
    rewrite combine_repeat by (now rewrite map_length). rewrite in_app_iff, IH by (try exact O; now injection L).
    rewrite map_map, in_map_iff. split.
    + intros [(t & E & T)|(p & t & I & T & E)].
      * injection E as <- <-. exists x, t. cbn; auto.
      * exists p, t. cbn; auto.
    + intros (p & t & [E|I] & T & ->).
      * injection E as -> ->. left. eauto.
      * right. eauto.
Qed.

Lemma blocks_length (P : list (vec Qc)) (o : list (vec Qc)) :
  length (concat (List.map (fun x => List.map (fun y => vadd x y) o) P)) = (length P * length o)%nat.
Proof. apply length_concat_const. intros x _. now rewrite map_length. Qed.
Lemma repeats_length A (l : list A) n : length (concat (List.map (fun x => repeat x n) l)) = (length l * n)%nat.
Proof. apply length_concat_const. intros x _. now rewrite repeat_length. Qed.

Lemma build_supercell_spec lat pos nums H : pos <> [] -> length pos = length nums ->
  nonneg_mat H -> 0 < Z.abs (zdet H) < 100000 -> diag_prod H = Z.abs (zdet H) ->
  exists c, build_supercell lat pos nums H = Ok c /\
    lattice c = mat_mul (matZ H) lat /\
    Z.of_nat (length (positions c)) = Z.abs (zdet H) * Z.of_nat (length pos) /\
    length (numbers c) = length (positions c) /\ num_count c = length (positions c) /\
    forall z v, crystal_atom (lattice c) (positions c) (numbers c) z v <-> crystal_atom lat pos nums z v.
Proof.
  intros NE L NN B DP. assert (N : zdet H <> 0) by lia.
  destruct (get_frac_spec NN B) as (pts & G & ND & LN & _ & IV & CL).
  unfold build_supercell. rewrite inv_matZ by exact N. cbn [bind]. rewrite G. cbn [bind].
  set (si := mdiv (zadj H) (zdet H)). set (P := List.map (fun p => vec_mat p si) pos).
  assert (CC : np_concatenate (List.map (fun x => List.map (fun y => vadd x y) pts) P) = Ok (concat (List.map (fun x => List.map (fun y => vadd x y) pts) P))).
  { unfold P. destruct pos; [congruence|reflexivity]. }
  rewrite CC. cbn [bind]. unfold np_repeat. rewrite DP. destruct (Z.abs (zdet H) <? 0) eqn:E; [apply Z.ltb_lt in E; lia|]. cbn [bind].
  set (n := Z.to_nat (Z.abs (zdet H))). assert (PN : length pts = n) by (unfold n; lia).
  set (pp := concat (List.map (fun x => List.map (fun y => vadd x y) pts) P)).
  set (nn := concat (List.map (fun x => repeat x n) nums)).
  assert (LP : length P = length pos) by (unfold P; apply map_length).
  assert (Lpp : length pp = (length pos * n)%nat) by (unfold pp; rewrite blocks_length; congruence).
  assert (Lnn : length nn = (length pos * n)%nat) by (unfold nn; rewrite repeats_length; congruence).
  assert (n <> 0)%nat by lia. assert (length pos <> 0)%nat by (destruct pos; [congruence|cbn; lia]).
  assert (NEp : pp <> []). { intros E'. rewrite E' in Lpp. cbn in Lpp. symmetry in Lpp. apply Nat.eq_mul_0 in Lpp. tauto. }
  destruct (GeneralCell_new (mat_mul (matZ H) lat) pp nn) as [c|e] eqn:EC.
  2:{ rewrite GeneralCell_new_ok in EC; [discriminate|exact NEp|lia]. }
  exists c. split; [reflexivity|].
  assert (Lpn : length pp = length nn) by congruence.
  pose proof (C08_pairs _ _ _ Lpn EC) as PERM.
  rewrite GeneralCell_new_ok in EC by (trivial; lia). injection EC as <-. cbn [lattice positions numbers num_count] in *.
  rewrite sortp_length, sortn_length. split; [reflexivity|]. split; [rewrite Lpp, Nat2Z.inj_mul; unfold n; lia|].
  split; [reflexivity|]. split; [congruence|]. intros z v.
  rewrite crystal_combine by (now rewrite sortp_length, sortn_length).
  rewrite crystal_combine by exact L.
  assert (K : forall q, In (q, z) (combine (sortp pp) (sortn pp nn)) <-> exists p t, In (p, z) (combine pos nums) /\ In t pts /\ q = vadd (vec_mat p si) t).
  { intros q. split.
    - intros I. apply (Permutation_in _ PERM) in I. unfold pp, nn in I. apply combine_blocks in I; [|congruence|exact PN].
      destruct I as (p & t & I & T & ->). unfold P in I.
      assert (X : forall (l : list (vec Qc)) (m : list Z), In (p, z) (combine (List.map (fun p => vec_mat p si) l) m) -> exists p', p = vec_mat p' si /\ In (p', z) (combine l m)).
      { clear. induction l as [|a l IH]; intros [|b m] I; cbn in *; try easy. destruct I as [E|I].
        - injection E as <- <-. exists a. auto.
        - destruct (IH _ I) as (p' & E & J). exists p'. auto. }
      apply X in I. destruct I as (p' & -> & I). exists p', t. auto.
    - intros (p & t & I & T & ->). apply (Permutation_in _ (Permutation_sym PERM)). unfold pp, nn. apply combine_blocks; [congruence|exact PN|].
      exists (vec_mat p si), t. split; [|auto]. unfold P.
      clear - I. revert nums I. induction pos as [|a l IH]; intros [|b m] I; cbn in *; try easy. destruct I as [E|I].
      + injection E as -> ->. now left.
      + right. now apply IH. }
  split.
  - intros (q & s & I & ->). apply K in I. destruct I as (p & t & I & T & ->). destruct (IV t T) as (w & W).
    exists p, (zvadd w (zcomb s H)). split; [exact I|].
    rewrite <- vec_mat_mul. f_equal. rewrite !vec_mat_add. unfold si. rewrite inv_mul by exact N.
    rewrite W, vecZ_add, <- vecZ_comb. apply vadd_assoc.
  - intros (p & w & I & ->). destruct (CL w) as (t & T & (s & S) & _).
    exists (vadd (vec_mat p si) t), s. split; [apply K; eauto|].
    rewrite <- vec_mat_mul. f_equal. rewrite vadd_assoc, vec_mat_add. unfold si. rewrite inv_mul by exact N. now rewrite S.
Qed.

Lemma tri_det m : upper m \/ lower m -> zdet m = diag_prod m.
Proof. intros [(A & B & C)|(A & B & C)]; unfold zdet, diag_prod; rewrite A, B, C; ring. Qed.

(** Non-negative matrices whose diagonal product is not the determinant. *)
Lemma build_supercell_mismatch lat pos nums H : pos <> [] -> length pos = length nums ->
  nonneg_mat H -> 0 < Z.abs (zdet H) < 100000 ->
  (diag_prod H < Z.abs (zdet H) -> build_supercell lat pos nums H = Raise IndexError) /\
  (Z.abs (zdet H) < diag_prod H -> exists c, build_supercell lat pos nums H = Ok c /\
     Z.of_nat (length (positions c)) = Z.abs (zdet H) * Z.of_nat (length pos) /\
     Z.of_nat (num_count c) = diag_prod H * Z.of_nat (length pos) /\
     Z.of_nat (num_count c) <> Z.of_nat (length (positions c)) /\
     Permutation (numbers c)
       (firstn (length (positions c)) (concat (List.map (fun z => repeat z (Z.to_nat (diag_prod H))) nums)))).
Proof.
  intros NE L NN B. assert (N : zdet H <> 0) by lia.
  assert (DN : 0 <= diag_prod H).
  { unfold diag_prod. destruct NN as ((? & ? & ?) & (? & ? & ?) & (? & ? & ?)). repeat apply Z.mul_nonneg_nonneg; assumption. }
  destruct (get_frac_spec NN B) as (pts & G & ND & LN & _ & IV & CL).
  unfold build_supercell. rewrite inv_matZ by exact N. cbn [bind]. rewrite G. cbn [bind].
  set (si := mdiv (zadj H) (zdet H)). set (P := List.map (fun p => vec_mat p si) pos).
  assert (CC : np_concatenate (List.map (fun x => List.map (fun y => vadd x y) pts) P) = Ok (concat (List.map (fun x => List.map (fun y => vadd x y) pts) P))).
  { unfold P. destruct pos; [congruence|reflexivity]. }
  rewrite CC. cbn [bind]. unfold np_repeat. destruct (diag_prod H <? 0) eqn:E; [apply Z.ltb_lt in E; lia|]. cbn [bind].
  set (pp := concat (List.map (fun x => List.map (fun y => vadd x y) pts) P)).
  set (nn := concat (List.map (fun x => repeat x (Z.to_nat (diag_prod H))) nums)).
  assert (LP : length P = length pos) by (unfold P; apply map_length).
  assert (Lpp : length pp = (length pos * length pts)%nat) by (unfold pp; rewrite blocks_length; congruence).
  assert (Lnn : length nn = (length pos * Z.to_nat (diag_prod H))%nat) by (unfold nn; rewrite repeats_length; congruence).
  assert (K : (length pos <> 0)%nat) by (destruct pos; [congruence|cbn; lia]).
  clearbody pp nn. split; intros D.
  - apply GeneralCell_new_few_numbers. nia.
  - assert (LE : (length pp <= length nn)%nat) by nia. assert (NE' : pp <> []) by (intros ->; cbn in Lpp; nia).
    destruct (C10_lemma (mat_mul (matZ H) lat) pp nn) as (_ & _ & C). destruct (C NE' LE) as (c & E1 & E2 & E3 & E4 & E5).
    exists c. split; [exact E1|]. rewrite E2, E5, Lpp, Lnn. split; [nia|]. split; [nia|]. split; [nia|].
    rewrite Lpp in E4. exact E4.
Qed.
