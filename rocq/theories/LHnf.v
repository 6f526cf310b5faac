(** hnfs_from_n_dups: the list of Hermite forms; reduction of any integer matrix. *)
From Verif Require Import Base LBase BaseQ LQ SLattice MHnf LMat3.
From Coq Require Import Znumtheory.
Set Implicit Arguments.
Unset Strict Implicit.
Open Scope Z_scope.

Lemma In_zrange n x : In x (zrange n) <-> 0 <= x < n.
Proof.
  unfold zrange. rewrite in_map_iff. split.
  - intros (k & <- & H). apply in_seq in H. lia.
  - intros H. exists (Z.to_nat x). split; [lia|]. apply in_seq. lia.
Qed.
Lemma NoDup_zrange n : NoDup (zrange n).
Proof. apply FinFun.Injective_map_NoDup; [intros a b; lia|apply seq_NoDup]. Qed.

Lemma In_concat_map A B (f : A -> list B) l y : In y (concat (map f l)) <-> exists x, In x l /\ In y (f x).
Proof.
  rewrite in_concat. split.
  - intros (m & H & K). apply in_map_iff in H. destruct H as (x & <- & H). eauto.
  - intros (x & H & K). exists (f x). split; [now apply in_map|exact K].
Qed.

Lemma NoDup_app_disj A (l m : list A) : NoDup l -> NoDup m -> (forall x, In x l -> ~ In x m) -> NoDup (l ++ m).
Proof.
  induction l as [|x l IH]; cbn; intros L M D; [exact M|]. inversion L; subst. constructor.
  - intros K. apply in_app_iff in K. destruct K as [K|K]; [tauto|]. apply (D x); auto.
  - apply IH; auto.
Qed.

Lemma NoDup_concat_map A B (f : A -> list B) l :
  NoDup l -> (forall x, In x l -> NoDup (f x)) ->
  (forall x y z, In x l -> In y l -> In z (f x) -> In z (f y) -> x = y) ->
  NoDup (concat (map f l)).
Proof.
  induction l as [|x l IH]; cbn; intros N F D; [constructor|]. inversion N; subst.
  apply NoDup_app_disj.
  - apply F; auto.
  - apply IH; auto. intros a b z Ha Hb. apply D; auto.
  - intros z Hz Hc. apply In_concat_map in Hc. destruct Hc as (y & Hy & Hz').
    assert (x = y) by (apply (D x y z); auto). now subst.
Qed.

Lemma factors_list_spec n : 0 < n -> exists l, factors_list n = Ok l /\
  forall x, In x l <-> 1 <= x /\ (x | n).
Proof.
  intros N. unfold factors_list. destruct (n <=? 0) eqn:E; [apply Z.leb_le in E; lia|].
  eexists; split; [reflexivity|]. intros x. rewrite In_concat_map.
  assert (S : forall i, In i (filter (fun i => n mod i =? 0) (map (fun i => i + 1) (zrange (Z.sqrt n))))
               <-> 1 <= i <= Z.sqrt n /\ (i | n)).
  { intros i. rewrite filter_In, in_map_iff, Z.eqb_eq. split.
    - intros [(j & <- & J) M]. apply In_zrange in J. split; [lia|]. apply Z.mod_divide; lia.
    - intros [I D]. split; [exists (i - 1); rewrite In_zrange; lia|]. apply Z.mod_divide; [lia|exact D]. }
  split.
  - intros (i & I & X). apply S in I. destruct I as [I [q Q]]. destruct X as [<-|[<-|[]]].
    + split; [lia|]. exists q; lia.
    + subst n. rewrite Z.div_mul by lia. split; [nia|]. exists i; ring.
  - intros [X [q Q]]. assert (1 <= q) by nia.
    destruct (Z_le_gt_dec x (Z.sqrt n)) as [L|L].
    + exists x. split; [apply S; split; [lia|exists q; exact Q]|]. now left.
    + exists q. split.
      * apply S. split; [|exists x; lia]. split; [lia|].
        pose proof (Z.sqrt_spec n) as [_ U]; [lia|]. destruct (Z_le_gt_dec q (Z.sqrt n)) as [K|K]; [exact K|].
        pose proof (Z.sqrt_nonneg n). set (t := Z.sqrt n) in *. clearbody t.
        assert ((t + 1) * (t + 1) <= q * x) by (apply Z.mul_le_mono_nonneg; lia). lia.
      * right; left. subst n. rewrite Z.mul_comm, Z.div_mul; lia.
Qed.

Section S.
Variable sl : list Z -> list Z.
Hypothesis SL : set_order sl.

Lemma factors_spec n : 0 < n -> exists l, factors sl n = Ok l /\ NoDup l /\
  forall x, In x l <-> 1 <= x /\ (x | n).
Proof.
  intros N. destruct (factors_list_spec N) as (l & E & H). unfold factors. rewrite E. cbn.
  exists (sl l). destruct (SL l) as [A B]. split; [reflexivity|split; [exact A|]].
  intros x. now rewrite B.
Qed.
Lemma factors_bad n : n <= 0 -> factors sl n = Raise TypeError.
Proof. intros N. unfold factors, factors_list. apply Z.leb_le in N. now rewrite N. Qed.

Lemma hnf_mats_bad n : n <= 0 -> hnf_mats sl n = Raise TypeError.
Proof. intros N. unfold hnf_mats. now rewrite factors_bad. Qed.
Lemma hnf2_mats_bad n : n <= 0 -> hnf2_mats sl n = Raise TypeError.
Proof. intros N. unfold hnf2_mats. now rewrite factors_bad. Qed.

Definition facs n := match factors sl n with Ok l => l | Raise _ => [] end.
Lemma facs_ok n : 0 < n -> factors sl n = Ok (facs n) /\ NoDup (facs n) /\ forall x, In x (facs n) <-> 1 <= x /\ (x | n).
Proof. intros N. destruct (factors_spec N) as (l & E & H). unfold facs. rewrite E. auto. Qed.

Definition hrow n a c : list (mat Z) :=
  let f := n / a / c in
      List.concat (List.map (fun b =>
        List.concat (List.map (fun d =>
          List.map (fun e => V3 (V3 a b d) (V3 0 c e) (V3 0 0 f)) (zrange f)) (zrange f)))
        (zrange c)).

Lemma In_hrow n a c m : In m (hrow n a c) <->
  exists b d e, m = V3 (V3 a b d) (V3 0 c e) (V3 0 0 (n/a/c)) /\ 0 <= b < c /\ 0 <= d < n/a/c /\ 0 <= e < n/a/c.
Proof.
  unfold hrow. rewrite In_concat_map. split.
  - intros (b & B & H). apply In_concat_map in H. destruct H as (d & D & H).
    apply in_map_iff in H. destruct H as (e & <- & E). apply In_zrange in B, D, E.
    exists b, d, e. auto.
  - intros (b & d & e & -> & B & D & E). exists b. rewrite In_zrange. split; [exact B|].
    apply In_concat_map. exists d. rewrite In_zrange. split; [exact D|].
    apply in_map_iff. exists e. rewrite In_zrange. auto.
Qed.
Lemma NoDup_hrow n a c : NoDup (hrow n a c).
Proof.
  unfold hrow. apply NoDup_concat_map; [apply NoDup_zrange| |].
  - intros b _. apply NoDup_concat_map; [apply NoDup_zrange| |].
    + intros d _. apply FinFun.Injective_map_NoDup; [|apply NoDup_zrange]. intros x y H. now injection H.
    + intros x y z _ _ X Y. apply in_map_iff in X, Y. destruct X as (? & <- & _), Y as (? & Y & _). now injection Y.
  - intros x y z _ _ X Y. apply In_concat_map in X, Y. destruct X as (? & _ & X), Y as (? & _ & Y).
    apply in_map_iff in X, Y. destruct X as (? & <- & _), Y as (? & Y & _). now injection Y.
Qed.

Lemma div_pos_divide n a : 0 < n -> 1 <= a -> (a | n) -> 0 < n / a /\ a * (n / a) = n.
Proof. intros N A [q ->]. rewrite Z.div_mul by lia. nia. Qed.

Lemma hnf_mats_spec n : 0 < n -> exists l, hnf_mats sl n = Ok l /\ NoDup l /\ forall h, In h l <-> is_hnf n h.
Proof.
  intros N. destruct (facs_ok N) as (E & ND & F). unfold hnf_mats. rewrite E. cbn.
  set (g := fun a => concat (map (hrow n a) (facs (n / a)))).
  rewrite (@mapM_ok_map _ _ _ g).
  2:{ intros a A. apply F in A. destruct A as [A D]. destruct (div_pos_divide N A D) as [P _].
      destruct (facs_ok P) as (E' & _). rewrite E'. reflexivity. }
  cbn. eexists; split; [reflexivity|]. split.
  - apply NoDup_concat_map; [exact ND| |].
    + intros a A. apply F in A. destruct A as [A D]. destruct (div_pos_divide N A D) as [P _].
      apply NoDup_concat_map; [apply (facs_ok P)|intros; apply NoDup_hrow|].
      intros x y z _ _ X Y. apply In_hrow in X, Y. destruct X as (? & ? & ? & -> & _), Y as (? & ? & ? & Y & _). now injection Y.
    + intros x y z _ _ X Y. apply In_concat_map in X, Y. destruct X as (? & _ & X), Y as (? & _ & Y).
      apply In_hrow in X, Y. destruct X as (? & ? & ? & -> & _), Y as (? & ? & ? & Y & _). now injection Y.
  - intros h. rewrite In_concat_map. split.
    + intros (a & A & H). apply F in A. destruct A as [A D]. destruct (div_pos_divide N A D) as [P Q].
      apply In_concat_map in H. destruct H as (c & C & H). apply (facs_ok P) in C. destruct C as [C D'].
      destruct (div_pos_divide P C D') as [P' Q'].
      apply In_hrow in H. destruct H as (b & d & e & -> & B & DD & EE).
      assert (a * c * (n / a / c) = n) by (rewrite <- Z.mul_assoc, Q'; exact Q).
      exists a, b, c, d, e, (n/a/c). repeat split; lia.
    + intros (a & b & c & d & e & f & -> & A & C & FF & M & B & D & EE).
      assert (Da : n / a = c * f) by (subst n; rewrite <- Z.mul_assoc, Z.mul_comm, Z.div_mul; lia).
      assert (Dc : n / a / c = f) by (rewrite Da, Z.mul_comm, Z.div_mul; lia).
      exists a. split; [apply F; split; [lia|]; exists (c*f); lia|].
      apply In_concat_map. exists c. split.
      * assert (P : 0 < n / a) by nia. apply (facs_ok P). split; [lia|]. rewrite Da. exists f; ring.
      * apply In_hrow. exists b, d, e. rewrite Dc. auto.
Qed.

Lemma hnf2_mats_spec n : 0 < n -> exists l, hnf2_mats sl n = Ok l /\ NoDup l /\ forall h, In h l <-> is_hnf2 n h.
Proof.
  intros N. destruct (facs_ok N) as (E & ND & F). unfold hnf2_mats. rewrite E. cbn.
  eexists; split; [reflexivity|]. split.
  - apply NoDup_concat_map; [exact ND| |].
    + intros a _. apply FinFun.Injective_map_NoDup; [|apply NoDup_zrange]. intros x y H. now injection H.
    + intros x y z _ _ X Y. apply in_map_iff in X, Y. destruct X as (? & <- & _), Y as (? & Y & _). now injection Y.
  - intros h. rewrite In_concat_map. split.
    + intros (a & A & H). apply F in A. destruct A as [A D]. destruct (div_pos_divide N A D) as [P Q].
      apply in_map_iff in H. destruct H as (b & <- & B). apply In_zrange in B.
      exists a, b, (n / a). repeat split; lia.
    + intros (a & b & c & -> & A & C & M & B).
      assert (Da : n / a = c) by (subst n; rewrite Z.mul_comm, Z.div_mul; lia).
      exists a. split; [apply F; split; [lia|]; exists c; lia|].
      apply in_map_iff. exists b. rewrite Da, In_zrange. auto.
Qed.
End S.

(** ** Reduction to Hermite form *)
Lemma bezout_pair p q : exists u v p' q' g, u * p' + v * q' = 1 /\ p = p' * g /\ q = q' * g /\ u * p + v * q = g.
Proof.
  destruct (Z.eq_dec (Z.gcd p q) 0) as [G|G].
  - apply Z.gcd_eq_0 in G. destruct G as [-> ->]. exists 1, 0, 1, 0, 0. lia.
  - destruct (Z.gcd_bezout p q (Z.gcd p q) eq_refl) as (u & v & B).
    destruct (Z.gcd_divide_l p q) as [p' P], (Z.gcd_divide_r p q) as [q' Q].
    exists u, v, p', q', (Z.gcd p q). repeat split; try lia.
    apply (Z.mul_reg_r _ _ (Z.gcd p q)); [exact G|]. rewrite Z.mul_add_distr_r, <- !Z.mul_assoc, <- P, <- Q, B. lia.
Qed.

(** Unimodular change of basis. *)
Lemma span_change u m : zdet u = 1 \/ zdet u = -1 -> same_lattice m (zmul u m).
Proof.
  intros H. intros v. split.
  - intros [k ->]. exists (zvscale (zdet u) (zcomb k (zadj u))).
    rewrite zcomb_scale, <- zcomb_zmul, (zcomb_zmul k), zmul_adj_l, zcomb_mscale, zcomb_id.
    rewrite zcomb_scale.
    destruct (zcomb k m) as [x y z]. unfold zvscale; cbn [vx vy vz]. destruct H as [-> | ->]; f_equal; ring.
  - intros [k ->]. exists (zcomb k u). now rewrite zcomb_zmul.
Qed.

Lemma column1 m : exists n, same_lattice m n /\ vx (vy n) = 0 /\ vx (vz n) = 0.
Proof.
  destruct m as [[a b c] [p q r] [x y z]].
  destruct (bezout_pair a p) as (u & v & a' & p' & g & B & A & P & G).
  destruct (bezout_pair g x) as (u2 & v2 & g' & x' & h & B2 & A2 & P2 & G2).
  exists (zmul (V3 (V3 u2 0 v2) (V3 0 1 0) (V3 (-x') 0 g'))
         (zmul (V3 (V3 u v 0) (V3 (-p') a' 0) (V3 0 0 1)) (V3 (V3 a b c) (V3 p q r) (V3 x y z)))).
  split; [|split].
  - eapply same_lattice_trans; [eapply span_change | eapply span_change]; left; cbv [zdet vx vy vz]; lia.
  - mcbv. rewrite A, P. ring.
  - mcbv. rewrite <- G in *. rewrite P2. replace (- x' * (u * a + v * p + 0 * x)) with (- x' * (u * a + v * p)) by ring.
    rewrite A2 at 1. ring.
Qed.

Lemma column2 m : vx (vy m) = 0 -> vx (vz m) = 0 ->
  exists n, same_lattice m n /\ vx (vy n) = 0 /\ vx (vz n) = 0 /\ vy (vz n) = 0.
Proof.
  destruct m as [[a b c] [p q r] [x y z]]. cbn [vx vy vz]. intros -> ->.
  destruct (bezout_pair q y) as (u & v & q' & y' & g & B & A & P & G).
  exists (zmul (V3 (V3 1 0 0) (V3 0 u v) (V3 0 (-y') q')) (V3 (V3 a b c) (V3 0 q r) (V3 0 y z))).
  split; [|repeat split].
  - apply span_change. left. cbv [zdet vx vy vz]. lia.
  - mcbv. ring.
  - mcbv. ring.
  - mcbv. rewrite A, P. ring.
Qed.

Lemma sgn_unit a : a <> 0 -> Z.sgn a * a = Z.abs a /\ Z.sgn a * Z.sgn a = 1.
Proof. lia. Qed.

Lemma hnf_exists m : zdet m <> 0 -> exists h, is_hnf (Z.abs (zdet m)) h /\ same_lattice m h.
Proof.
  intros D. destruct (column1 m) as (m1 & L1 & A1 & A2). destruct (column2 A1 A2) as (m2 & L2 & B1 & B2 & B3).
  assert (L : same_lattice m m2) by (eapply same_lattice_trans; eassumption).
  pose proof (same_lattice_det L) as DD.
  destruct m2 as [[a b d] [p c e] [x y f]]. cbn [vx vy vz] in *. subst p x y.
  assert (Z.abs a * Z.abs c * Z.abs f = Z.abs (zdet m)).
  { rewrite DD. cbv [zdet vx vy vz]. rewrite <- !Z.abs_mul. f_equal. ring. }
  assert (a <> 0 /\ c <> 0 /\ f <> 0) as (Na & Nc & Nf) by (repeat split; intros ->; lia).
  destruct (sgn_unit Na) as [Sa Sa2], (sgn_unit Nc) as [Sc Sc2], (sgn_unit Nf) as [Sf Sf2].
  (* signs *)
  set (sa := Z.sgn a) in *. set (sc := Z.sgn c) in *. set (sf := Z.sgn f) in *.
  set (A := Z.abs a) in *. set (C := Z.abs c) in *. set (F := Z.abs f) in *.
  assert (1 <= A /\ 1 <= C /\ 1 <= F) as (PA & PC & PF) by (unfold A, C, F; lia).
  set (b' := sa * b). set (d' := sa * d). set (e' := sc * e).
  set (k1 := b' / C). set (b2 := b' mod C). set (d2 := d' - k1 * e').
  set (k2 := d2 / F). set (k3 := e' / F).
  exists (V3 (V3 A b2 (d2 mod F)) (V3 0 C (e' mod F)) (V3 0 0 F)). split.
  - exists A, b2, C, (d2 mod F), (e' mod F), F. unfold b2. repeat split; try lia; try (apply Z.mod_pos_bound; lia).
  - eapply same_lattice_trans; [exact L|].
    pose proof (Z.div_mod b' C ltac:(lia)) as E1. pose proof (Z.div_mod d2 F ltac:(lia)) as E2.
    pose proof (Z.div_mod e' F ltac:(lia)) as E3. fold k1 b2 in E1. fold k2 in E2. fold k3 in E3.
    assert (U : zmul (V3 (V3 sa (- k1 * sc) ((-k2) * sf)) (V3 0 sc (- k3 * sf)) (V3 0 0 sf)) (V3 (V3 a b d) (V3 0 c e) (V3 0 0 f))
                = V3 (V3 A b2 (d2 mod F)) (V3 0 C (e' mod F)) (V3 0 0 F)).
    { replace b2 with (b' - C * k1) by lia.
      replace (d2 mod F) with (d2 - F * k2) by lia.
      replace (e' mod F) with (e' - F * k3) by lia. unfold d2, b', d', e'. rewrite <- Sf, <- Sc, <- Sa.
      mcbv. repeat apply vec_eq; cbn [vx vy vz]; ring. }
    rewrite <- U. apply span_change. cbv [zdet vx vy vz].
    assert (sa = 1 \/ sa = -1) as [Ea|Ea] by (unfold sa; lia);
    assert (sc = 1 \/ sc = -1) as [Ec|Ec] by (unfold sc; lia);
    assert (sf = 1 \/ sf = -1) as [Ef|Ef] by (unfold sf; lia);
    rewrite Ea, Ec, Ef; lia.
Qed.

(** Uniqueness *)
Lemma mul_small k c : - c < k * c < c -> k = 0.
Proof. nia. Qed.

Lemma mul_zero k a : 0 = k * a -> 1 <= a -> k = 0.
Proof. nia. Qed.
Lemma mul_one k a : a = k * a -> 1 <= a -> k = 1.
Proof. nia. Qed.
Lemma mul_mutual x y a b : a = x * b -> b = y * a -> 1 <= a -> 1 <= b -> a = b.
Proof. intros H K A B. assert (0 < x) by nia. assert (0 < y) by nia. nia. Qed.

Lemma hnf_unique n n' h h' : is_hnf n h -> is_hnf n' h' -> same_lattice h h' -> h = h'.
Proof.
  intros (a & b & c & d & e & f & -> & A & C & F & M & B & D & E)
         (a' & b' & c' & d' & e' & f' & -> & A' & C' & F' & M' & B' & D' & E') L.
  assert (R : forall v, in_span (V3 (V3 a' b' d') (V3 0 c' e') (V3 0 0 f')) v ->
    exists k1 k2 k3, v = V3 (k1 * a') (k1 * b' + k2 * c') (k1 * d' + k2 * e' + k3 * f')).
  { intros v [[k1 k2 k3] ->]. exists k1, k2, k3. mcbv. f_equal; ring. }
  assert (R' : forall v, in_span (V3 (V3 a b d) (V3 0 c e) (V3 0 0 f)) v ->
    exists k1 k2 k3, v = V3 (k1 * a) (k1 * b + k2 * c) (k1 * d + k2 * e + k3 * f)).
  { intros v [[k1 k2 k3] ->]. exists k1, k2, k3. mcbv. f_equal; ring. }
  pose proof (proj1 (L _) (span_row1 _)) as X1. pose proof (proj1 (L _) (span_row2 _)) as X2. pose proof (proj1 (L _) (span_row3 _)) as X3.
  pose proof (proj2 (L _) (span_row1 _)) as Y1. pose proof (proj2 (L _) (span_row2 _)) as Y2. pose proof (proj2 (L _) (span_row3 _)) as Y3.
  cbn [vx vy vz] in *. apply R in X1, X2, X3. apply R' in Y1, Y2, Y3.
  destruct X1 as (x11 & x12 & x13 & X1), X2 as (x21 & x22 & x23 & X2), X3 as (x31 & x32 & x33 & X3).
  destruct Y1 as (y11 & y12 & y13 & Y1), Y2 as (y21 & y22 & y23 & Y2), Y3 as (y31 & y32 & y33 & Y3).
  injection X1 as X11 X12 X13. injection X2 as X21 X22 X23. injection X3 as X31 X32 X33.
  injection Y1 as Y11 Y12 Y13. injection Y2 as Y21 Y22 Y23. injection Y3 as Y31 Y32 Y33.
  apply mul_zero in X31, X21, Y31, Y21; [|lia..]. subst x31 x21 y31 y21.
  assert (0 = x32 * c') as X32' by lia. assert (0 = y32 * c) as Y32' by lia.
  apply mul_zero in X32', Y32'; [|lia..]. subst x32 y32.
  assert (EF : f = f') by (apply (@mul_mutual x33 y33); lia).
  assert (EC : c = c') by (apply (@mul_mutual x22 y22); lia).
  assert (EA : a = a') by (apply (@mul_mutual x11 y11); lia).
  clear Y11 Y12 Y13 Y22 Y23 Y33. subst f' c' a'.
    assert (x22 = 1) by (apply (@mul_one x22 c); lia). assert (x11 = 1) by (apply (@mul_one x11 a); lia). subst x22 x11.
  assert (K : x23 = 0) by (apply (@mul_small x23 f); lia). subst x23.
  assert (EE : e = e') by lia. subst e'.
  assert (K : x12 = 0) by (apply (@mul_small x12 c); lia). subst x12.
  assert (K : x13 = 0) by (apply (@mul_small x13 f); lia). subst x13.
  f_equal; f_equal; lia.
Qed.

Lemma hnf_det n h : is_hnf n h -> zdet h = n.
Proof. intros (a & b & c & d & e & f & -> & _ & _ & _ & M & _). rewrite <- M. cbv [zdet vx vy vz]. ring. Qed.
Lemma hnf2_hnf n h : is_hnf2 n h -> is_hnf n h.
Proof.
  intros (a & b & c & -> & A & C & M & B). exists a, b, c, 0, 0, 1. repeat split; lia.
Qed.

(** In the plane *)
Lemma hnf2_exists m : in_plane m -> zdet m <> 0 -> exists h, is_hnf2 (Z.abs (zdet m)) h /\ same_lattice m h.
Proof.
  intros P D. destruct (hnf_exists D) as (h & H & L). exists h. split; [|exact L].
  destruct H as (a & b & c & d & e & f & -> & A & C & F & M & B & DD & E).
  destruct P as (p & q & r & s & ->).
  pose proof (proj1 (L _) (span_row3 _)) as [[k1 k2 k3] K]. cbv [zcomb zvadd zvscale vx vy vz] in K.
  injection K as K1 K2 K3. assert (k1 = 0) by (apply (@mul_zero k1 a); lia). subst k1. assert (k2 = 0) by (apply (@mul_zero k2 c); lia). subst k2.
  assert (f = 1) by (assert (1 = k3 * f) as K4 by lia; clear - K4 F; symmetry in K4; rewrite Z.mul_comm in K4; apply Z.mul_eq_1 in K4; lia).
  assert (d = 0) by lia. assert (e = 0) by lia. subst f d e.
  exists a, b, c. repeat split; lia.
Qed.
