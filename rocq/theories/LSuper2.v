(** hnfs_from_n as a transversal; the false equalities for large index. *)
From Verif Require Import Base LBase BaseQ LQ SLattice SGeneralCell SSubst SSym MGeneralCell MHnf LMat3 LHnf LSuper.
Set Implicit Arguments.
Unset Strict Implicit.
Open Scope Z_scope.

Lemma same_lattice_equiv rots m h : rot_group rots -> same_lattice m h -> lat_equiv rots m h.
Proof.
  intros G L. destruct (lat_equiv_refl h G) as (r & R & C). exists r. split; [exact R|].
  destruct C as [C1 C2]. split.
  - intros v V. apply C1. now apply L.
  - intros w W. destruct (C2 w W) as (v & V & E). exists v. split; [now apply L|exact E].
Qed.

Lemma nodup_transversal rots n il u ms (P : mat Z -> Prop) : rot_group rots -> 0 < n < 2000 ->
  (forall h, In h ms -> zdet h = n /\ P h) ->
  (forall m, P m -> exists h, In h ms /\ same_lattice m h) ->
  exists out, foldM (nodup_step il) [] (List.map (SuperLatticeCell_new rots u) ms) = Ok out /\
    subseq (List.map sl_H out) ms /\
    transversal (lat_equiv rots) P (List.map sl_H out).
Proof.
  intros G N D C.
  set (l := List.map (SuperLatticeCell_new rots u) ms).
  assert (L : Forall (good rots n) l).
  { apply Forall_forall. intros s S. apply in_map_iff in S. destruct S as (h & <- & H). split; [reflexivity|]. cbn. rewrite (proj1 (D h H)). lia. }
  destruct (@nodup_loop rots n il G N l [] (Forall_nil _) L (FOP_nil _)) as (out & O & (s & E & S) & Q & R).
  cbn in E. subst s. exists out. split; [exact O|].
  assert (S' : subseq (List.map sl_H out) ms).
  { assert (K : forall a b, subseq a b -> subseq (List.map sl_H a) (List.map sl_H b)).
    { induction 1; cbn; constructor; assumption. }
    apply K in S. unfold l in S. rewrite map_map in S. cbn in S. now rewrite map_id in S. }
  split; [exact S'|]. split; [|split].
  - apply Forall_forall. intros h H. assert (K : forall a b (x : mat Z), subseq a b -> In x a -> In x b).
    { clear. induction 1; cbn; intros; [contradiction|tauto|tauto]. }
    apply (D h). eapply K; eauto.
  - intros m M. destruct (C m M) as (h & H & LL).
    destruct (R (SuperLatticeCell_new rots u h)) as (y & Y & V); [unfold l; now apply in_map|].
    exists (sl_H y). split; [now apply in_map|]. eapply lat_equiv_trans; [exact G|apply same_lattice_equiv; eassumption|exact V].
  - clear - Q G. induction Q as [|x l F Q IH]; cbn; constructor; [|exact IH].
    apply Forall_forall. intros h H. apply in_map_iff in H. destruct H as (y & <- & Y).
    rewrite Forall_forall in F. split; [apply F; exact Y|]. intros V. apply (F y Y). now apply lat_equiv_sym.
Qed.

(** Large index: [diag(1,1,n)] and the same with first row (1,0,1). *)
Definition bigA (n : Z) : mat Z := V3 (V3 1 0 0) (V3 0 1 0) (V3 0 0 n).
Definition bigB (n : Z) : mat Z := V3 (V3 1 0 1) (V3 0 1 0) (V3 0 0 n).

Lemma big_hnf n : 2 <= n -> is_hnf n (bigA n) /\ is_hnf n (bigB n).
Proof.
  intros N. split.
  - exists 1, 0, 1, 0, 0, n. repeat split; lia.
  - exists 1, 0, 1, 1, 0, n. repeat split; lia.
Qed.
Lemma big_differ n : 2 <= n -> ~ same_lattice (bigA n) (bigB n).
Proof. intros N L. destruct (big_hnf N) as [A B]. pose proof (hnf_unique A B L). discriminate. Qed.

Lemma big_test n : 2000 <= n -> vall (vall int_after_rounding)
    (mat_mul (mat_mul (matZ (bigB n)) (mdiv (zadj (transpose zid)) (zdet (transpose zid)))) (mdiv (zadj (bigA n)) (zdet (bigA n)))) = true.
Proof.
  intros N. rewrite mul_mdiv, mdiv_mdiv. replace (transpose zid) with zid by reflexivity.
  replace (zadj zid) with zid by reflexivity. rewrite zmul_id_r.
  replace (zdet zid * zdet (bigA n)) with n by (cbv [zdet zid bigA vx vy vz]; ring).
  assert (T : forall k m, near_int (qdivz n k) m -> int_after_rounding (qdivz n k) = true).
  { intros k m H. apply int_after_rounding_spec. now exists m. }
  assert (T0 : forall k m, k = n * m -> int_after_rounding (qdivz n k) = true).
  { intros k m ->. apply (T _ m). rewrite qdivz_scale by lia. unfold near_int, eps2000.
    split; unfold Qcle; rewrite ?this_plus, ?this_minus, ?this_Q2Qc, ?this_Zc; lra. }
  unfold zmul, vmap, zcomb, zadj, bigA, bigB, zvadd, zvscale, mdiv, vall, vmap. cbn [vx vy vz].
  rewrite !andb_true_iff. repeat apply conj.
  - apply (T0 _ 1). ring.
  - apply (T0 _ 0). ring.
  - replace (1 * (0 * 0 - 0 * 1) + 0 * (0 * 0 - 1 * 0) + 1 * (1 * 1 - 0 * 0)) with 1 by ring.
    apply (T _ 0). pose proof (@qdivz_mul n 1 ltac:(lia)) as Q. set (x := qdivz n 1) in *. clearbody x.
    unfold near_int, eps2000. assert (Hn : (2000#1 <= inject_Z n)%Q) by (change (2000#1)%Q with (inject_Z 2000); rewrite <- Zle_Qle; lia).
    apply Qc_eq_this in Q. rewrite this_mult, !this_Zc in Q. unfold Qcle. rewrite ?this_plus, ?this_minus, ?this_Q2Qc, ?this_Zc.
    change (inject_Z 0) with 0%Q. change (inject_Z 1) with 1%Q in Q. set (X := this x) in *. set (NN := inject_Z n) in *. clearbody X NN. clear - Q Hn.
    assert (0 <= X)%Q. { destruct (Qlt_le_dec X 0) as [L|L]; [|exact L]. exfalso.
      assert (0 <= (- X) * NN)%Q by (apply Qmult_le_0_compat; lra). nra. }
    assert (0 <= X * (NN - (2000#1)))%Q by (apply Qmult_le_0_compat; lra).
    split; nra.
  - apply (T0 _ 0). ring.
  - apply (T0 _ 1). ring.
  - apply (T0 _ 0). ring.
  - apply (T0 _ 0). ring.
  - apply (T0 _ 0). ring.
  - apply (T0 _ 1). ring.
Qed.

Lemma unimodular_id : unimodular zid. Proof. now left. Qed.

Lemma big_equal rots n : (forall r, In r rots -> unimodular r) -> In zid rots -> 2000 <= n ->
  sl_eq_loop rots (bigA n) (bigB n) = Ok true.
Proof.
  intros G I N. induction rots as [|r t IH]; [destruct I|].
  cbn [sl_eq_loop].
  assert (R : unimodular r) by (apply G; now left).
  rewrite inv_matZ by (rewrite zdet_transpose; destruct R; lia). cbn [bind].
  rewrite inv_matZ by (cbv [zdet bigA vx vy vz]; lia). cbn [bind].
  destruct (vall _ _) eqn:V; [reflexivity|].
  destruct I as [->|I]; [|apply IH; [intros; apply G; now right|exact I]].
  rewrite big_test in V by exact N. discriminate.
Qed.

Lemma trivial_group : rot_group [zid].
Proof.
  split; [|split; [|split]].
  - intros r [<-|[]]. apply unimodular_id.
  - now left.
  - intros r s [<-|[]] [<-|[]]. exists zid. split; [now left|]. intros v. unfold zrot at 2. unfold zrot at 3. unfold zrot, zdot. dmat; mcbv; f_equal; ring.
  - intros r [<-|[]]. exists zid. split; [now left|]. intros v. dmat; mcbv; f_equal; ring.
Qed.
Lemma trivial_equiv m n : lat_equiv [zid] m n <-> same_lattice m n.
Proof.
  split.
  - intros (r & [<-|[]] & C). apply carries_same in C. replace (transpose zid) with zid in C by reflexivity.
    now rewrite zmul_id_r in C.
  - apply same_lattice_equiv, trivial_group.
Qed.

(** Boolean check of [rot_group]. *)
Definition zv_eqb (a b : vec Z) : bool := (vx a =? vx b) && (vy a =? vy b) && (vz a =? vz b).
Definition zm_eqb (a b : mat Z) : bool := zv_eqb (vx a) (vx b) && zv_eqb (vy a) (vy b) && zv_eqb (vz a) (vz b).
Definition zm_mem (m : mat Z) (l : list (mat Z)) : bool := existsb (zm_eqb m) l.
Lemma zm_eqb_eq a b : zm_eqb a b = true -> a = b.
Proof.
  unfold zm_eqb, zv_eqb. rewrite !andb_true_iff, !Z.eqb_eq. dmat. mcbv. intuition congruence.
Qed.
Lemma zm_mem_In m l : zm_mem m l = true -> In m l.
Proof. intros H. apply existsb_exists in H. destruct H as (x & X & E). apply zm_eqb_eq in E. now subst. Qed.
Definition rot_group_b (G : list (mat Z)) : bool :=
  forallb (fun r => Z.abs (zdet r) =? 1) G && zm_mem zid G &&
  forallb (fun r => forallb (fun s => zm_mem (zmul r s) G) G) G &&
  forallb (fun r => existsb (fun s => zm_eqb (zmul s r) zid) G) G.
Lemma zrot_mul r s v : zrot (zmul r s) v = zrot r (zrot s v).
Proof. mring. Qed.
Lemma rot_group_b_ok G : rot_group_b G = true -> rot_group G.
Proof.
  unfold rot_group_b. rewrite !andb_true_iff, !forallb_forall. intros [[[A B] C] D].
  split; [|split; [|split]].
  - intros r R. apply unimodular_abs. apply Z.eqb_eq. now apply A.
  - now apply zm_mem_In.
  - intros r s R S. exists (zmul r s). split; [|intros; apply zrot_mul].
    specialize (C r R). rewrite forallb_forall in C. now apply zm_mem_In, C.
  - intros r R. specialize (D r R). apply existsb_exists in D. destruct D as (s & S & E). exists s. split; [exact S|].
    intros v. rewrite <- zrot_mul. apply zm_eqb_eq in E. rewrite E. mring.
Qed.
