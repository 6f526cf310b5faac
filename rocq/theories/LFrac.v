(** Interior points of a supercell; supercells describe the same crystal. *)
From Verif Require Import Base LBase BaseQ LQ SLattice SGeneralCell LGeneralCell MGeneralCell MHnf LMat3 LHnf LSuper.
Set Implicit Arguments.
Unset Strict Implicit.
Open Scope Z_scope.

(** k/D lies in [0,1) *)
Definition infund (D k : Z) : Prop := 0 <= k * Z.sgn D < Z.abs D.

Lemma Zsgn_sq D : D <> 0 -> Z.sgn D * Z.sgn D = 1.
Proof. lia. Qed.

Lemma qdivz_bounds D k (lo hi : Q) : D <> 0 ->
  ((lo <= this (qdivz D k))%Q <-> (lo * inject_Z (Z.abs D) <= inject_Z (k * Z.sgn D))%Q) /\
  ((this (qdivz D k) < hi)%Q <-> (inject_Z (k * Z.sgn D) < hi * inject_Z (Z.abs D))%Q).
Proof.
  intros N. pose proof (qdivz_mul k N) as E. apply Qc_eq_this in E. rewrite this_mult, !this_Zc in E.
  set (x := this (qdivz D k)) in *. clearbody x.
  assert (P : (0 < inject_Z (Z.abs D))%Q) by (change 0%Q with (inject_Z 0); rewrite <- Zlt_Qlt; lia).
  assert (E2 : (inject_Z (k * Z.sgn D) == x * inject_Z (Z.abs D))%Q).
  { rewrite <- (Z.abs_sgn D), inject_Z_mult in E. rewrite inject_Z_mult, <- E.
    assert (S : (inject_Z (Z.sgn D) * inject_Z (Z.sgn D) == 1)%Q).
    { rewrite <- inject_Z_mult, Zsgn_sq by exact N. reflexivity. }
    set (s := inject_Z (Z.sgn D)) in *. set (a := inject_Z (Z.abs D)) in *. clearbody s a. 
    transitivity (x * a * (s * s))%Q; [ring|]. rewrite S. ring. }
  rewrite E2. split.
  - symmetry. apply Qmult_le_r. exact P.
  - symmetry. apply Qmult_lt_r. exact P.
Qed.

Lemma in_cell_exact D k : D <> 0 -> Z.abs D < 100000 -> in_cell (qdivz D k) = true <-> infund D k.
Proof.
  intros N L. unfold in_cell. rewrite andb_true_iff, Qcleb_le, Qcltb_lt. unfold Qcle, Qclt.
  rewrite this_opp, !this_Q2Qc.
  destruct (@qdivz_bounds D k (- (1 # 100000)) (99999 # 100000) N) as [A B]. rewrite A, B. unfold infund.
  set (n := Z.abs D) in *. set (j := k * Z.sgn D). assert (0 < n) by lia. clearbody n j. clear - L H.
  assert (X : ((99999 # 100000) * inject_Z n == inject_Z n - (1 # 100000) * inject_Z n)%Q) by ring.
  assert (Y : ((1#100000) * inject_Z n < 1)%Q).
  { assert (inject_Z n < inject_Z 100000)%Q by (rewrite <- Zlt_Qlt; exact L). change (inject_Z 100000) with (100000#1)%Q in *. lra. }
  assert (Y' : (0 < (1#100000) * inject_Z n)%Q).
  { assert (inject_Z 0 < inject_Z n)%Q by (rewrite <- Zlt_Qlt; exact H). change (inject_Z 0) with 0%Q in *. lra. }
  rewrite X. split.
  - intros [P Q]. split.
    + assert (K : (inject_Z (-1) < inject_Z j)%Q) by (change (inject_Z (-1)) with (-1)%Q; lra). rewrite <- Zlt_Qlt in K. lia.
    + assert (K : (inject_Z j < inject_Z n)%Q) by lra. now rewrite <- Zlt_Qlt in K.
  - intros [P Q]. rewrite Zle_Qle in P. change (inject_Z 0) with 0%Q in P.
    assert (K : j <= n - 1) by lia. rewrite Zle_Qle in K. unfold Z.sub in K. rewrite inject_Z_plus in K. change (inject_Z (-(1))) with (-1)%Q in K.
    split; lra.
Qed.

Lemma qdivz_inj D j k : D <> 0 -> qdivz D j = qdivz D k -> j = k.
Proof. intros N E. apply Zc_inj. rewrite <- (qdivz_mul j N), <- (qdivz_mul k N). now rewrite E. Qed.

(** ** Points of the box and reduction into the cell *)
Lemma In_product3 n p : In p (product3 n) <-> (0 <= vx p < n /\ 0 <= vy p < n /\ 0 <= vz p < n).
Proof.
  unfold product3. rewrite In_concat_map. split.
  - intros (x & X & H). apply In_concat_map in H. destruct H as (y & Y & H). apply in_map_iff in H.
    destruct H as (z & <- & Z). apply In_zrange in X, Y, Z. cbn. auto.
  - destruct p as [x y z]. cbn. intros (X & Y & Z). exists x. rewrite In_zrange. split; [exact X|].
    apply In_concat_map. exists y. rewrite In_zrange. split; [exact Y|]. apply in_map_iff. exists z. rewrite In_zrange. auto.
Qed.
Lemma NoDup_product3 n : NoDup (product3 n).
Proof.
  unfold product3. apply NoDup_concat_map; [apply NoDup_zrange| |].
  - intros x _. apply NoDup_concat_map; [apply NoDup_zrange| |].
    + intros y _. apply FinFun.Injective_map_NoDup; [intros a b H; now injection H|apply NoDup_zrange].
    + intros a b z _ _ A B. apply in_map_iff in A, B. destruct A as (? & <- & _), B as (? & B & _). now injection B.
  - intros a b z _ _ A B. apply In_concat_map in A, B. destruct A as (? & _ & A), B as (? & _ & B).
    apply in_map_iff in A, B. destruct A as (? & <- & _), B as (? & B & _). now injection B.
Qed.

Definition vinfund D (k : vec Z) := infund D (vx k) /\ infund D (vy k) /\ infund D (vz k).

Section Frac.
Variable H : mat Z.
Let D := zdet H.
Hypothesis ND : D <> 0.

(** coefficient vector scaled by the determinant *)
Definition coef (v : vec Z) : vec Z := zcomb v (zadj H).
Lemma coef_mul v : zcomb (coef v) H = zvscale D v.
Proof. unfold coef. rewrite zcomb_zmul, zmul_adj_l, zcomb_mscale, zcomb_id. reflexivity. Qed.
Lemma coef_span w : coef (zcomb w H) = zvscale D w.
Proof. unfold coef. rewrite zcomb_zmul, zmul_adj_r, zcomb_mscale, zcomb_id. reflexivity. Qed.
Lemma coef_sub v w : coef (zvsub v w) = zvsub (coef v) (coef w).
Proof. apply zcomb_sub. Qed.

Definition floorD (k : vec Z) : vec Z := vmap (fun x => (x * Z.sgn D) / Z.abs D) k.
Definition reduce (v : vec Z) : vec Z := zvsub v (zcomb (floorD (coef v)) H).

Lemma infund_reduce k : infund D (k - D * ((k * Z.sgn D) / Z.abs D)).
Proof.
  unfold infund. set (q := (k * Z.sgn D) / Z.abs D).
  replace ((k - D * q) * Z.sgn D) with (k * Z.sgn D - Z.abs D * q) by (clearbody q; rewrite <- (Z.sgn_abs D); ring).
  pose proof (Z.mod_pos_bound (k * Z.sgn D) (Z.abs D) ltac:(lia)). rewrite Z.mod_eq in H0 by lia. exact H0.
Qed.

Lemma reduce_spec v : vinfund D (coef (reduce v)) /\ in_span H (zvsub v (reduce v)).
Proof.
  split.
  - unfold reduce. rewrite coef_sub, coef_span. unfold vinfund, floorD, zvsub, zvscale, vmap. cbn [vx vy vz].
    repeat split; apply infund_reduce.
  - exists (floorD (coef v)). unfold reduce. apply vec_eq; unfold zvsub; cbn [vx vy vz]; lia.
Qed.

Lemma infund_eq j k w : infund D j -> infund D k -> j - k = D * w -> w = 0.
Proof.
  unfold infund. intros [A B] [C E] F.
  assert ((j - k) * Z.sgn D = Z.abs D * w) by (rewrite F, <- (Z.sgn_abs D); ring).
  assert (- Z.abs D < Z.abs D * w < Z.abs D) by lia.
  apply (@mul_small w (Z.abs D)). lia.
Qed.

Lemma infund_unique v w : vinfund D (coef v) -> vinfund D (coef w) -> in_span H (zvsub v w) -> v = w.
Proof.
  intros (A1 & A2 & A3) (B1 & B2 & B3) [k K].
  assert (C : zvsub (coef v) (coef w) = zvscale D k) by (rewrite <- coef_sub, K; apply coef_span).
  unfold zvsub, zvscale in C. injection C as C1 C2 C3.
  apply infund_eq in C1, C2, C3; trivial. destruct k as [k1 k2 k3]. cbn in C1, C2, C3. subst.
  destruct v as [a b c], w as [a' b' c']. unfold zvsub in K. cbn [vx vy vz] in K.
  revert K. mcbv. intros K. injection K as K1 K2 K3. f_equal; lia.
Qed.

(** Entries of an in-cell vector are bounded. *)
Hypothesis NN : nonneg_mat H.
Lemma amax_ge : (vx (vx H) <= amax H /\ vy (vx H) <= amax H /\ vz (vx H) <= amax H) /\
  (vx (vy H) <= amax H /\ vy (vy H) <= amax H /\ vz (vy H) <= amax H) /\
  (vx (vz H) <= amax H /\ vy (vz H) <= amax H /\ vz (vz H) <= amax H).
Proof. unfold amax, vmax. lia. Qed.
Lemma amax_pos : 0 < amax H.
Proof.
  destruct (Z_lt_le_dec 0 (amax H)) as [L|L]; [exact L|]. exfalso. apply ND. unfold D.
  pose proof amax_ge as G. destruct NN as ((? & ? & ?) & (? & ? & ?) & (? & ? & ?)). destruct G as ((? & ? & ?) & (? & ? & ?) & (? & ? & ?)).
  unfold zdet. replace (vx (vx H)) with 0 by lia. replace (vy (vx H)) with 0 by lia. replace (vz (vx H)) with 0 by lia. ring.
Qed.

Lemma bound_entry p k1 k2 k3 h1 h2 h3 : infund D k1 -> infund D k2 -> infund D k3 ->
  0 <= h1 <= amax H -> 0 <= h2 <= amax H -> 0 <= h3 <= amax H ->
  k1 * h1 + k2 * h2 + k3 * h3 = D * p -> 0 <= p < amax H * 3.
Proof.
  unfold infund. intros A B C H1 H2 H3 E.
  assert (P : (k1 * Z.sgn D) * h1 + (k2 * Z.sgn D) * h2 + (k3 * Z.sgn D) * h3 = Z.abs D * p).
  { transitivity ((k1 * h1 + k2 * h2 + k3 * h3) * Z.sgn D); [ring|]. rewrite E, <- (Z.sgn_abs D). ring. }
  pose proof amax_pos as M. set (m := amax H) in *. set (n := Z.abs D) in *. assert (0 < n) by lia.
  set (a := k1 * Z.sgn D) in *. set (b := k2 * Z.sgn D) in *. set (c := k3 * Z.sgn D) in *.
  clearbody m n a b c. clear E k1 k2 k3.
  assert (a * h1 <= (n-1) * m) by (apply Z.mul_le_mono_nonneg; lia).
  assert (b * h2 <= (n-1) * m) by (apply Z.mul_le_mono_nonneg; lia).
  assert (c * h3 <= (n-1) * m) by (apply Z.mul_le_mono_nonneg; lia).
  assert (0 <= a * h1) by (apply Z.mul_nonneg_nonneg; lia).
  assert (0 <= b * h2) by (apply Z.mul_nonneg_nonneg; lia).
  assert (0 <= c * h3) by (apply Z.mul_nonneg_nonneg; lia).
  split; [nia|]. assert (n * p < n * (m * 3)) by nia. nia.
Qed.

Lemma in_box p : vinfund D (coef p) -> In p (product3 (amax H * 3)).
Proof.
  intros (A & B & C). pose proof (coef_mul p) as E. rewrite In_product3. pose proof amax_ge as G.
  destruct NN as ((? & ? & ?) & (? & ? & ?) & (? & ? & ?)). destruct G as ((? & ? & ?) & (? & ? & ?) & (? & ? & ?)).
  unfold zcomb, zvadd, zvscale in E. cbn [vx vy vz] in E. injection E as E1 E2 E3.
  split; [|split]; [refine (bound_entry A B C _ _ _ E1)|refine (bound_entry A B C _ _ _ E2)|refine (bound_entry A B C _ _ _ E3)]; split; assumption.
Qed.

(** The integer points selected by the code. *)
Definition inpts : list (vec Z) :=
  List.filter (fun p => vall in_cell (vdiv (coef p) D)) (product3 (amax H * 3)).

Hypothesis SM : Z.abs D < 100000.
Lemma vall_infund k : vall in_cell (vdiv k D) = true <-> vinfund D k.
Proof. rewrite vall_true. unfold vdiv, vinfund, vmap. cbn [vx vy vz]. now rewrite !in_cell_exact. Qed.
Lemma In_inpts p : In p inpts <-> vinfund D (coef p).
Proof.
  unfold inpts. rewrite filter_In, vall_infund. split; [tauto|]. intros V. split; [now apply in_box|exact V].
Qed.
Lemma NoDup_inpts : NoDup inpts.
Proof. apply NoDup_filter, NoDup_product3. Qed.

Lemma filter_map_comm A B (f : A -> B) (g : B -> bool) l :
  List.filter g (List.map f l) = List.map f (List.filter (fun x => g (f x)) l).
Proof. induction l as [|x l IH]; cbn; [reflexivity|]. destruct (g (f x)); cbn; congruence. Qed.

Lemma get_frac_ok : get_frac_from_mat H = Ok (List.map (fun p => vdiv (coef p) D) inpts).
Proof.
  unfold get_frac_from_mat. rewrite inv_matZ by exact ND. cbn [bind].
  destruct (amax H <=? 0) eqn:E; [apply Z.leb_le in E; pose proof amax_pos; lia|].
  f_equal. rewrite filter_map_comm. unfold inpts.
  rewrite (map_ext (fun p => vec_mat (vecZ p) (mdiv (zadj H) (zdet H))) (fun p => vdiv (coef p) D)) by (intros; apply vec_mdiv).
  f_equal. apply filter_ext. intros p. now rewrite vec_mdiv.
Qed.

(** ** Number of points *)
Lemma inj_length A B (f : A -> B) l l' : NoDup l ->
  (forall x y, In x l -> In y l -> f x = f y -> x = y) -> (forall x, In x l -> In (f x) l') -> (length l <= length l')%nat.
Proof.
  intros N I M. rewrite <- (map_length f l). apply NoDup_incl_length.
  - clear M. induction N as [|x l X N IH]; cbn; constructor.
    + intros K. apply in_map_iff in K. destruct K as (y & E & Y). apply X. rewrite (I x y); auto; [now left|now right].
    + apply IH. intros; apply I; auto; now right.
  - intros y Y. apply in_map_iff in Y. destruct Y as (x & <- & X). auto.
Qed.

Definition box (a c f : Z) : list (vec Z) :=
  concat (List.map (fun x => concat (List.map (fun y => List.map (fun z => V3 x y z) (zrange f)) (zrange c))) (zrange a)).
Lemma In_box a c f p : In p (box a c f) <-> (0 <= vx p < a /\ 0 <= vy p < c /\ 0 <= vz p < f).
Proof.
  unfold box. rewrite In_concat_map. split.
  - intros (x & X & K). apply In_concat_map in K. destruct K as (y & Y & K). apply in_map_iff in K.
    destruct K as (z & <- & Z). apply In_zrange in X, Y, Z. cbn. auto.
  - destruct p as [x y z]. cbn. intros (X & Y & Z). exists x. rewrite In_zrange. split; [exact X|].
    apply In_concat_map. exists y. rewrite In_zrange. split; [exact Y|]. apply in_map_iff. exists z. rewrite In_zrange. auto.
Qed.
Lemma NoDup_box a c f : NoDup (box a c f).
Proof.
  unfold box. apply NoDup_concat_map; [apply NoDup_zrange| |].
  - intros x _. apply NoDup_concat_map; [apply NoDup_zrange| |].
    + intros y _. apply FinFun.Injective_map_NoDup; [intros ? ? E; now injection E|apply NoDup_zrange].
    + intros ? ? z _ _ A B. apply in_map_iff in A, B. destruct A as (? & <- & _), B as (? & B & _). now injection B.
  - intros ? ? z _ _ A B. apply In_concat_map in A, B. destruct A as (? & _ & A), B as (? & _ & B).
    apply in_map_iff in A, B. destruct A as (? & <- & _), B as (? & B & _). now injection B.
Qed.
Lemma length_concat_const A B (f : A -> list B) l k : (forall x, In x l -> length (f x) = k) ->
  length (concat (List.map f l)) = (length l * k)%nat.
Proof.
  induction l as [|x l IH]; intros K; cbn; [reflexivity|]. rewrite app_length, (K x), IH; [reflexivity| |now left]. intros y Y. apply K. now right.
Qed.
Lemma zrange_length n : length (zrange n) = Z.to_nat n.
Proof. unfold zrange. now rewrite map_length, seq_length. Qed.
Lemma box_length a c f : length (box a c f) = (Z.to_nat a * (Z.to_nat c * Z.to_nat f))%nat.
Proof.
  unfold box. rewrite (@length_concat_const _ _ _ _ (Z.to_nat c * Z.to_nat f)).
  - now rewrite zrange_length.
  - intros x _. rewrite (@length_concat_const _ _ _ _ (Z.to_nat f)); [now rewrite zrange_length|].
    intros y _. now rewrite map_length, zrange_length.
Qed.

(** Representative modulo a Hermite form. *)
Definition boxrep (h : mat Z) (v : vec Z) : vec Z :=
  let q1 := vx v / vx (vx h) in
  let y1 := vy v - q1 * vy (vx h) in
  let q2 := y1 / vy (vy h) in
  let z2 := vz v - q1 * vz (vx h) - q2 * vz (vy h) in
  V3 (vx v mod vx (vx h)) (y1 mod vy (vy h)) (z2 mod vz (vz h)).

Lemma boxrep_spec n h v : is_hnf n h -> In (boxrep h v) (box (vx (vx h)) (vy (vy h)) (vz (vz h))) /\
  in_span h (zvsub v (boxrep h v)).
Proof.
  intros (a & b & c & d & e & f & -> & A & C & F & _). unfold boxrep. cbn [vx vy vz]. split.
  - rewrite In_box. cbn [vx vy vz]. repeat split; apply Z.mod_pos_bound; lia.
  - set (q1 := vx v / a). set (y1 := vy v - q1 * b). set (q2 := y1 / c). set (z2 := vz v - q1 * d - q2 * e).
    exists (V3 q1 q2 (z2 / f)). mcbv.
    pose proof (Z.div_mod (vx v) a ltac:(lia)) as E1. pose proof (Z.div_mod y1 c ltac:(lia)) as E2. pose proof (Z.div_mod z2 f ltac:(lia)) as E3.
    fold q1 in E1. fold q2 in E2. destruct v as [x y z]. cbn [vx vy vz] in *. f_equal; unfold y1, z2 in *; lia.
Qed.

Lemma box_unique n h v w : is_hnf n h -> In v (box (vx (vx h)) (vy (vy h)) (vz (vz h))) -> In w (box (vx (vx h)) (vy (vy h)) (vz (vz h))) ->
  in_span h (zvsub v w) -> v = w.
Proof.
  intros (a & b & c & d & e & f & -> & A & C & F & _). cbn [vx vy vz]. rewrite !In_box.
  destruct v as [x y z], w as [x' y' z']. cbn [vx vy vz]. intros V W [[k1 k2 k3] K].
  unfold zvsub, zcomb, zvadd, zvscale in K. cbn [vx vy vz] in K. injection K as K1 K2 K3.
  assert (k1 = 0) by (apply (@mul_small k1 a); lia). subst k1.
  assert (k2 = 0) by (apply (@mul_small k2 c); lia). subst k2.
  assert (k3 = 0) by (apply (@mul_small k3 f); lia). subst k3.
  f_equal; lia.
Qed.

Lemma inpts_length : Z.of_nat (length inpts) = Z.abs D.
Proof.
  destruct (hnf_exists ND) as (h & Hh & L).
  pose proof Hh as Hh'. destruct Hh' as (a & b & c & d & e & f & -> & A & C & F & M & _).
  set (h := V3 (V3 a b d) (V3 0 c e) (V3 0 0 f)) in *.
  assert (BL : Z.of_nat (length (box a c f)) = Z.abs D) by (rewrite box_length, !Nat2Z.inj_mul, !Z2Nat.id by lia; rewrite Z.mul_assoc; exact M).
  rewrite <- BL. f_equal. apply Nat.le_antisymm.
  - apply (@inj_length _ _ (boxrep h)); [apply NoDup_inpts| |].
    + intros p q P Q E. apply In_inpts in P, Q. apply infund_unique; trivial. apply L.
      apply span_chain with (v := boxrep h p); [apply (boxrep_spec p Hh)|]. rewrite E. apply span_neg. apply (boxrep_spec q Hh).
    + intros p _. apply (boxrep_spec p Hh).
  - apply (@inj_length _ _ reduce); [apply NoDup_box| |].
    + intros p q P Q E. apply (@box_unique _ h p q Hh P Q). apply L.
      apply span_chain with (v := reduce p); [apply reduce_spec|]. rewrite E. apply span_neg. apply reduce_spec.
    + intros p _. apply In_inpts, reduce_spec.
Qed.
End Frac.
