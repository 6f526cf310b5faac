(** SuperLatticeCell.__eq__ and the reduction by symmetry. *)
From Verif Require Import Base LBase BaseQ LQ SLattice SGeneralCell LGeneralCell SSubst MGeneralCell MHnf LMat3 LHnf.
From Coq Require Import Znumtheory.
Set Implicit Arguments.
Unset Strict Implicit.
Open Scope Z_scope.

(** ** Exact inverses of integer matrices *)
Definition qdivz (k : Z) (z : Z) : Qc := (Zc z / Zc k)%Qc.
Definition mdiv (m : mat Z) (k : Z) : mat Qc := vmap (vmap (qdivz k)) m.
Definition vdiv (v : vec Z) (k : Z) : vec Qc := vmap (qdivz k) v.

Ltac qcbv := cbv [qdet mat_mul vec_mat vadd vscale matZ vecZ mdiv vdiv qdivz vmap zmul zcomb zvadd zvscale zdet zadj vx vy vz Qcdiv].

Lemma qdet_matZ m : qdet (matZ m) = Zc (zdet m).
Proof.
  dmat. qcbv. rewrite ?Zc_plus, ?Zc_minus, ?Zc_mult, ?Zc_plus, ?Zc_minus, ?Zc_mult. ring.
Qed.
Lemma inv_matZ m : zdet m <> 0 -> inv (matZ m) = Ok (mdiv (zadj m) (zdet m)).
Proof.
  intros D. unfold inv. rewrite qdet_matZ.
  destruct (Qceqb (Zc (zdet m)) 0) eqn:E.
  { apply Qceqb_eq in E. rewrite <- Zc_0 in E. apply Zc_inj in E. contradiction. }
  set (k := zdet m). clearbody k. clear. dmat. qcbv.
  rewrite !Zc_minus, !Zc_mult. reflexivity.
Qed.
Lemma inv_matZ_singular m : zdet m = 0 -> inv (matZ m) = Raise LinAlgError.
Proof. intros D. unfold inv. rewrite qdet_matZ, D. reflexivity. Qed.

Ltac qmring := intros; dmat; qcbv;
  rewrite ?Zc_plus, ?Zc_mult; repeat apply vec_eq; qcbv; try ring.
Lemma mul_mdiv a b k : mat_mul (matZ a) (mdiv b k) = mdiv (zmul a b) k.
Proof. qmring. Qed.
Lemma Qcinv_mult' x y : (/ (x * y) = / x * / y)%Qc.
Proof. apply Qc_is_canon. rewrite this_inv, !this_mult, !this_inv. apply Qinv_mult_distr. Qed.
Lemma mdiv_mdiv a b k l : mat_mul (mdiv a k) (mdiv b l) = mdiv (zmul a b) (k * l).
Proof.
  intros; dmat; qcbv.
  rewrite Zc_mult, Qcinv_mult', ?Zc_plus, ?Zc_mult. repeat apply vec_eq; qcbv; ring.
Qed.
Lemma vec_mdiv v b k : vec_mat (vecZ v) (mdiv b k) = vdiv (zcomb v b) k.
Proof. qmring. Qed.
Lemma matZ_mul a b : matZ (zmul a b) = mat_mul (matZ a) (matZ b).
Proof. qmring. Qed.
Lemma vecZ_comb v b : vecZ (zcomb v b) = vec_mat (vecZ v) (matZ b).
Proof. qmring. Qed.
Lemma Zc_neq0 k : k <> 0 -> Zc k <> 0%Qc.
Proof. intros K E. rewrite <- Zc_0 in E. now apply Zc_inj in E. Qed.
Lemma qdivz_mul k z : k <> 0 -> (qdivz k z * Zc k)%Qc = Zc z.
Proof. intros K. unfold qdivz, Qcdiv. rewrite <- Qcmult_assoc, Qcmult_inv_l; [ring|]. now apply Zc_neq0. Qed.
Lemma qdivz_scale k z : k <> 0 -> qdivz k (k * z) = Zc z.
Proof.
  intros K. unfold qdivz. rewrite Zc_mult. unfold Qcdiv.
  rewrite (Qcmult_comm (Zc k)), <- Qcmult_assoc, Qcmult_inv_r; [ring|]. now apply Zc_neq0.
Qed.

(** ** The rounding test *)
Definition eps2000 : Qc := Q2Qc (1 # 2000).
Definition near_int (x : Qc) (m : Z) : Prop := (Zc m - eps2000 <= x /\ x <= Zc m + eps2000)%Qc.

Lemma mod1_zero x : mod1 x = 0%Qc <-> exists z, x = Zc z.
Proof.
  split.
  - intros H. exists (Qcfloor x). unfold mod1 in H. transitivity (x - Zc (Qcfloor x) + Zc (Qcfloor x))%Qc; [ring|].
    rewrite H. ring.
  - intros [z ->]. unfold mod1. rewrite Qcfloor_Zc. ring.
Qed.

Lemma int_after_rounding_spec x : int_after_rounding x = true <-> exists m, near_int x m.
Proof.
  unfold int_after_rounding. rewrite Qceqb_eq, mod1_zero. unfold around.
  change (Z.pos (pow10 3)) with 1000. change (pow10 3) with 1000%positive.
  unfold near_int, eps2000. split.
  - intros [z E]. exists z. destruct (round_even_near (x * Zc 1000)%Qc) as [A B].
    assert (R : Zc (round_even (x * Zc 1000)%Qc) = (Zc z * Zc 1000)%Qc).
    { rewrite <- (frac_mult (round_even (x * Zc 1000)%Qc) 1000%positive). now rewrite E. }
    rewrite R in A, B. clear R E. unfold Qcle in *.
    rewrite !this_plus, !this_minus, !this_mult, !this_Zc, !this_Q2Qc in *. change (inject_Z 1000) with (1000#1)%Q in *.
    split; lra.
  - intros [m [A B]]. exists m.
    assert (R : round_even (x * Zc 1000)%Qc = m * 1000).
    { symmetry. apply nearest_even_unique. unfold nearest_even.
      destruct (Qc_dec (x * Zc 1000)%Qc (Zc (m * 1000) - Q2Qc (1#2))%Qc) as [[L|L]|E].
      - exfalso. rewrite Zc_mult in L. unfold Qcle, Qclt in *. rewrite ?this_plus, ?this_minus, ?this_mult, ?this_plus, ?this_minus, ?this_mult, ?this_Zc, ?this_Q2Qc in *.
        change (inject_Z 1000) with (1000#1)%Q in *. lra.
      - destruct (Qc_dec (x * Zc 1000)%Qc (Zc (m * 1000) + Q2Qc (1#2))%Qc) as [[L'|L']|E'].
        + left; split; assumption.
        + exfalso. rewrite Zc_mult in L'. unfold Qcle, Qclt in *. rewrite ?this_plus, ?this_minus, ?this_mult, ?this_plus, ?this_minus, ?this_mult, ?this_Zc, ?this_Q2Qc in *.
          change (inject_Z 1000) with (1000#1)%Q in *. lra.
        + right. split; [right; exact E'|]. rewrite Z.even_mul. apply orb_true_r.
      - right. split; [left; exact E|]. rewrite Z.even_mul. apply orb_true_r. }
    rewrite R, Q2Qc_frac, Zc_mult. unfold Qcdiv. rewrite <- Qcmult_assoc, Qcmult_inv_r; [ring|]. now apply Zc_neq0.
Qed.

Lemma int_test_exact k z : k <> 0 -> Z.abs k < 2000 -> int_after_rounding (qdivz k z) = true <-> (k | z).
Proof.
  intros K L. rewrite int_after_rounding_spec. split.
  - intros [m [A B]]. exists m. pose proof (qdivz_mul z K) as Q. set (x := qdivz k z) in *. clearbody x.
    assert (C : (Zc (z - m * k) * Zc 2000 < Zc 2000)%Qc /\ (- Zc 2000 < Zc (z - m * k) * Zc 2000)%Qc).
    { rewrite Zc_minus, Zc_mult, <- Q. unfold eps2000, Qcle, Qclt in *.
      rewrite ?this_opp, ?this_plus, ?this_minus, ?this_mult, ?this_plus, ?this_minus, ?this_mult, ?this_Zc, ?this_Q2Qc in *.
      change (inject_Z 2000) with (2000#1)%Q in *.
      assert (Hk : (- (2000#1) < inject_Z k < 2000#1)%Q).
      { change (2000#1)%Q with (inject_Z 2000). change (- inject_Z 2000)%Q with (inject_Z (-2000)). rewrite <- !Zlt_Qlt. lia. }
      set (X := this x) in *. set (M := inject_Z m) in *. set (KK := inject_Z k) in *. clearbody X M KK. clear - A B Hk.
      destruct (Qlt_le_dec KK 0) as [N|N].
      - assert (0 <= ((1#2000) - (X - M)) * (- KK))%Q by (apply Qmult_le_0_compat; lra).
        assert (0 <= ((1#2000) + (X - M)) * (- KK))%Q by (apply Qmult_le_0_compat; lra). split; nra.
      - assert (0 <= ((1#2000) - (X - M)) * KK)%Q by (apply Qmult_le_0_compat; lra).
        assert (0 <= ((1#2000) + (X - M)) * KK)%Q by (apply Qmult_le_0_compat; lra). split; nra. }
    destruct C as [C1 C2]. rewrite <- Zc_opp in C2. rewrite <- !Zc_mult in *. pose proof (proj1 (Zc_lt _ _) C1). pose proof (proj1 (Zc_lt _ _) C2). lia.
  - intros [m ->]. exists m. rewrite Z.mul_comm, qdivz_scale by exact K. unfold near_int, eps2000.
    split; unfold Qcle; rewrite ?this_plus, ?this_minus, ?this_Q2Qc, ?this_Zc; lra.
Qed.

(** ** Carrying one lattice onto the other *)
Lemma carries_same r m n : rot_carries r m n <-> same_lattice (zmul m (transpose r)) n.
Proof.
  split.
  - intros [H K] v. split.
    + intros [k ->]. rewrite <- zcomb_zmul, <- zrot_comb. apply H. now exists k.
    + intros L. destruct (K _ L) as (w & [k ->] & ->). exists k. now rewrite <- zcomb_zmul, zrot_comb.
  - intros L. split.
    + intros v [k ->]. apply L. exists k. now rewrite zrot_comb, zcomb_zmul.
    + intros w W. apply L in W. destruct W as [k ->]. exists (zcomb k m). split; [now exists k|].
      now rewrite zrot_comb, zcomb_zmul.
Qed.

Lemma vall_true A (f : A -> bool) v : vall f v = true <-> f (vx v) = true /\ f (vy v) = true /\ f (vz v) = true.
Proof. unfold vall. rewrite !andb_true_iff. tauto. Qed.

Lemma mdiv_test K D : D <> 0 -> Z.abs D < 2000 ->
  vall (vall int_after_rounding) (mdiv K D) = true <-> exists U, K = zmscale D U.
Proof.
  intros N L. rewrite !vall_true. unfold mdiv.
  destruct K as [[a b c] [p q r] [x y z]]. unfold vmap. cbn [vx vy vz]. rewrite !(fun z => @int_test_exact D z N L).
  split.
  - intros (([a' ->] & [b' ->] & [c' ->]) & ([p' ->] & [q' ->] & [r' ->]) & ([x' ->] & [y' ->] & [z' ->])).
    exists (V3 (V3 a' b' c') (V3 p' q' r') (V3 x' y' z')). mring.
  - intros [[[a' b' c'] [p' q' r'] [x' y' z']] U]. unfold zmscale, zvscale, vmap in U. cbn [vx vy vz] in U.
    injection U as -> -> -> -> -> -> -> -> ->.
    repeat split; eexists; apply Z.mul_comm.
Qed.

Lemma eq_matrix r hs ho : zdet r <> 0 -> zdet hs <> 0 ->
  (exists U, zmul (zmul ho (zadj (transpose r))) (zadj hs) = zmscale (zdet r * zdet hs) U) <->
  (exists U, ho = zmul U (zmul hs (transpose r))).
Proof.
  intros R H. split; intros [U E]; exists U.
  - apply (@zmscale_inj (zdet r * zdet hs)); [nia|].
    rewrite <- (zmul_scale_l U), <- E, <- !zmul_assoc.
    rewrite (zmul_assoc (zmul ho _) (zadj hs)), zmul_adj_l, zmul_scale_r, zmul_id_r, zmul_scale_l.
    rewrite zmul_assoc, zmul_adj_l, zdet_transpose, zmul_scale_r, zmul_id_r.
    unfold zmscale, vmap, zvscale; cbn [vx vy vz]. repeat apply vec_eq; cbn [vx vy vz]; ring.
  - rewrite E, <- zmul_assoc, (zmul_assoc (zmul U hs)), zmul_adj_r, zdet_transpose, zmul_scale_r, zmul_id_r, zmul_scale_l.
    rewrite zmul_assoc, zmul_adj_r, zmul_scale_r, zmul_id_r.
    unfold zmscale, vmap, zvscale; cbn [vx vy vz]. repeat apply vec_eq; cbn [vx vy vz]; ring.
Qed.

Lemma unimodular_abs r : unimodular r <-> Z.abs (zdet r) = 1.
Proof. unfold unimodular. lia. Qed.

(** One rotation of the loop. *)
Lemma eq_step r hs ho : unimodular r -> zdet hs <> 0 -> Z.abs (zdet hs) = Z.abs (zdet ho) -> Z.abs (zdet hs) < 2000 ->
  vall (vall int_after_rounding)
    (mat_mul (mat_mul (matZ ho) (mdiv (zadj (transpose r)) (zdet (transpose r)))) (mdiv (zadj hs) (zdet hs))) = true
  <-> rot_carries r hs ho.
Proof.
  intros R H E L. rewrite unimodular_abs in R.
  rewrite mul_mdiv, mdiv_mdiv, zdet_transpose.
  rewrite mdiv_test by (rewrite ?Z.abs_mul; nia). rewrite eq_matrix by lia.
  rewrite carries_same, <- span_incl_factor. split.
  - apply span_incl_same; rewrite zdet_mul, zdet_transpose; [rewrite Z.abs_mul; lia|nia].
  - intros S v V. now apply S.
Qed.

Lemma sl_eq_loop_spec rots hs ho : (forall r, In r rots -> unimodular r) ->
  zdet hs <> 0 -> Z.abs (zdet hs) = Z.abs (zdet ho) -> Z.abs (zdet hs) < 2000 ->
  exists b, sl_eq_loop rots hs ho = Ok b /\ (b = true <-> lat_equiv rots hs ho).
Proof.
  intros G H E L. induction rots as [|r t IH].
  - exists false. split; [reflexivity|]. split; [discriminate|]. intros (r & [] & _).
  - destruct IH as (b & B & S); [intros; apply G; now right|].
    assert (R : unimodular r) by (apply G; now left).
    cbn [sl_eq_loop]. rewrite inv_matZ by (rewrite zdet_transpose; destruct R; lia). cbn [bind].
    rewrite inv_matZ by exact H. cbn [bind].
    pose proof (eq_step R H E L) as T. destruct (vall _ _) eqn:V.
    + exists true. split; [reflexivity|]. split; [|reflexivity]. intros _. exists r. split; [now left|]. now apply T.
    + exists b. split; [exact B|]. rewrite S. split; intros (q & Q & C).
      * exists q. split; [now right|exact C].
      * destruct Q as [<-|Q]; [apply T in C; discriminate|]. now exists q.
Qed.

(** Equivalence relation. *)
Lemma lat_equiv_refl rots m : rot_group rots -> lat_equiv rots m m.
Proof.
  intros (_ & I & _). exists zid. split; [exact I|]. apply carries_same.
  replace (transpose zid) with zid by reflexivity. rewrite zmul_id_r. apply same_lattice_refl.
Qed.
Lemma lat_equiv_trans rots m n o : rot_group rots -> lat_equiv rots m n -> lat_equiv rots n o -> lat_equiv rots m o.
Proof.
  intros (_ & _ & C & _) (r & R & A1 & A2) (s & S & B1 & B2).
  destruct (C s r S R) as (t & T & E). exists t. split; [exact T|]. split.
  - intros v V. rewrite E. auto.
  - intros w W. destruct (B2 w W) as (u & U & ->). destruct (A2 u U) as (v & V & ->). exists v. split; [exact V|]. now rewrite E.
Qed.
Lemma lat_equiv_sym rots m n : rot_group rots -> lat_equiv rots m n -> lat_equiv rots n m.
Proof.
  intros (_ & _ & _ & J) (r & R & A1 & A2). destruct (J r R) as (s & S & E). exists s. split; [exact S|]. split.
  - intros w W. destruct (A2 w W) as (v & V & ->). now rewrite E.
  - intros v V. exists (zrot r v). split; [auto|]. now rewrite E.
Qed.

(** ** Keeping the first of every class *)
Section Nodup.
Variables (rots : list (mat Z)) (n : Z) (il : bool).
Hypothesis G : rot_group rots.
Hypothesis N : 0 < n < 2000.
Definition good (s : slcell) := sl_rots s = rots /\ Z.abs (zdet (sl_H s)) = n.
Definition eqv (s t : slcell) := lat_equiv rots (sl_H s) (sl_H t).

Lemma sl_eq_spec s t : good s -> good t -> exists b, sl_eq s t = Ok b /\ (b = true <-> eqv s t).
Proof.
  intros [A B] [C D]. unfold sl_eq. rewrite A. apply sl_eq_loop_spec; [apply G|lia..].
Qed.
Lemma sl_in_spec x l : good x -> Forall good l ->
  exists b, sl_in il x l = Ok b /\ (b = true <-> exists y, In y l /\ eqv x y).
Proof.
  intros X. induction 1 as [|y t Y F IH].
  - exists false. split; [reflexivity|]. split; [discriminate|]. intros (y & [] & _).
  - destruct IH as (b & B & S). cbn [sl_in].
    assert (exists c, (if il then sl_eq y x else sl_eq x y) = Ok c /\ (c = true <-> eqv x y)) as (c & C & T).
    { destruct il.
      - destruct (sl_eq_spec Y X) as (c & C & T). exists c. split; [exact C|]. rewrite T.
        split; apply lat_equiv_sym; exact G.
      - apply sl_eq_spec; assumption. }
    rewrite C. cbn [bind]. destruct c.
    + exists true. split; [reflexivity|]. split; [|reflexivity]. intros _. exists y. split; [now left|]. now apply T.
    + exists b. split; [exact B|]. rewrite S. split; intros (z & Z & E).
      * exists z. split; [now right|exact E].
      * destruct Z as [<-|Z]; [apply T in E; discriminate|]. eauto.
Qed.

Definition subseq_of := subseq (A := slcell).
Lemma nodup_loop l : forall acc, Forall good acc -> Forall good l ->
  ForallOrdPairs (fun x y => ~ eqv x y) acc ->
  exists out, foldM (nodup_step il) acc l = Ok out /\
    (exists s, out = acc ++ s /\ subseq s l) /\
    ForallOrdPairs (fun x y => ~ eqv x y) out /\
    (forall x, In x l -> exists y, In y out /\ eqv x y).
Proof.
  induction l as [|x l IH]; intros acc A L P.
  - exists acc. cbn. repeat split; trivial; [exists []; rewrite app_nil_r; split; [reflexivity|constructor]|easy].
  - inversion L as [|? ? X L']; subst. destruct (sl_in_spec X A) as (b & B & S).
    cbn [foldM]. unfold nodup_step at 1. rewrite B. cbn [bind]. destruct b.
    + cbn [bind]. destruct (IH acc A L' P) as (out & O & (s & E & SS) & Q & R). exists out.
      split; [exact O|]. split; [exists s; split; [exact E|now constructor]|]. split; [exact Q|].
      intros y [<-|Y]; [|auto]. destruct (proj1 S eq_refl) as (z & Z & V). exists z. split; [|exact V].
      rewrite E. apply in_or_app. now left.
    + cbn [bind].
      assert (A' : Forall good (acc ++ [x])) by (apply Forall_app; split; [exact A|now constructor]).
      assert (P' : ForallOrdPairs (fun x y => ~ eqv x y) (acc ++ [x])).
      { assert (K : forall y, In y acc -> ~ eqv y x).
        { intros y Y V. assert (false = true); [|discriminate]. apply S. exists y. split; [exact Y|]. now apply lat_equiv_sym. }
        clear - P K. induction acc as [|a acc IH]; cbn; [repeat constructor|]. inversion P; subst. constructor.
        - apply Forall_app. split; [assumption|]. constructor; [|constructor]. apply K. now left.
        - apply IH; [assumption|]. intros; apply K; now right. }
      destruct (IH (acc ++ [x]) A' L' P') as (out & O & (s & E & SS) & Q & R). exists out.
      split; [exact O|]. split; [exists (x :: s); split; [rewrite E, <- app_assoc; reflexivity|now constructor]|]. split; [exact Q|].
      intros y [<-|Y]; [|auto]. exists x. split; [|apply lat_equiv_refl; exact G].
      rewrite E. apply in_or_app. left. apply in_or_app. right. now left.
Qed.
End Nodup.
