(** Proofs for [is_speckle_disjunct] (sogen.py:374-425). *)
From Verif Require Import Base LBase BaseQ LQ MElement SElement MGeneralCell SGeneralCell SSym MComb SSubst MGrid SGrid LGrid LGrid2 MLegacy SLegacy LRestrict LHnf LLegacy.
Set Implicit Arguments.
Unset Strict Implicit.
Open Scope Z_scope.
Notation length := List.length.
Notation map := List.map.

(** *** _pool_sites *)
Lemma append_first_ok A (l : list A) : (0 < length l)%nat -> exists l', append_first l = Ok l' /\ length l' = S (length l) /\
  forall i, (i <= length l)%nat -> nth_error l' i = nth_error l (i mod length l).
Proof.
  destruct l as [|x l]; cbn [length]; [lia|]. intros _. eexists. split; [reflexivity|]. split; [rewrite app_length; cbn; lia|].
  intros i Hi. destruct (Nat.eq_dec i (S (length l))) as [->|N].
  - rewrite Nat.mod_same by lia. rewrite nth_error_app2 by (cbn; lia). cbn [length]. now rewrite Nat.sub_diag.
  - rewrite Nat.mod_small by lia. rewrite nth_error_app1 by (cbn; lia). reflexivity.
Qed.
Lemma mapM_spec A B (f : A -> res B) (R : A -> B -> Prop) l : (forall a, In a l -> exists b, f a = Ok b /\ R a b) -> exists l', mapM f l = Ok l' /\ Forall2 R l l'.
Proof.
  induction l as [|a l IH]; intros H; cbn; [exists []; split; [reflexivity|constructor]|].
  destruct (H a (or_introl eq_refl)) as [b [-> Hb]]. destruct IH as [l' [-> F]]; [intros; apply H; now right|]. cbn. exists (b :: l'). split; [reflexivity|now constructor].
Qed.
Lemma pool_sites_ok (arr : list (list (list Z))) d w l : shaped arr d w l -> (0 < d)%nat -> (0 < w)%nat -> (0 < l)%nat ->
  exists pool, pool_sites arr = Ok pool /\ shaped pool (S d) (S w) (S l) /\
    forall i j k, (i <= d)%nat -> (j <= w)%nat -> (k <= l)%nat -> entry pool i j k = entry arr (i mod d) (j mod w) (k mod l).
Proof.
  intros [L F] Hd Hw Hl. unfold pool_sites. destruct (@append_first_ok _ arr) as [p1 [E1 [L1 N1]]]; [lia|]. rewrite E1. cbn [bind].
  rewrite L in *.
  assert (F1 : Forall (fun p => length p = w /\ Forall (fun r => length r = l) p) p1).
  { apply Forall_forall. intros p Hp. apply In_nth_error in Hp. destruct Hp as [i Hi]. assert (i < length p1)%nat by (apply nth_error_Some; congruence).
    rewrite N1 in Hi by lia. rewrite Forall_forall in F. apply F. eapply nth_error_In; eauto. }
  destruct (@mapM_spec _ _ (@append_first (list Z)) (fun p p' => length p' = S w /\ (forall j, (j <= w)%nat -> nth_error p' j = nth_error p (j mod w)) /\ Forall (fun r => length r = l) p') p1) as [p2 [E2 F2]].
  { intros p Hp. rewrite Forall_forall in F1. destruct (F1 p Hp) as [Lp Fp]. destruct (@append_first_ok _ p) as [p' [E [L' N']]]; [lia|].
    rewrite Lp in *. exists p'. split; [assumption|]. split; [assumption|]. split; [assumption|]. apply Forall_forall. intros r Hr. apply In_nth_error in Hr. destruct Hr as [j Hj].
    assert (j < length p')%nat by (apply nth_error_Some; congruence). rewrite N' in Hj by lia. rewrite Forall_forall in Fp. apply Fp. eapply nth_error_In; eauto. }
  rewrite E2. cbn [bind].
  destruct (@mapM_spec _ _ (mapM (@append_first Z)) (fun p p' => Forall2 (fun r r' => length r' = S l /\ forall k, (k <= l)%nat -> nth_error r' k = nth_error r (k mod l)) p p') p2) as [p3 [E3 F3]].
  { intros p Hp. apply mapM_spec. intros r Hr.
    assert (Lr : length r = l). { clear - F2 Hp Hr. induction F2 as [|x y xs ys H F IH]; [easy|]. destruct Hp as [<-|Hp]; [|auto]. destruct H as [_ [_ H]]. rewrite Forall_forall in H. auto. }
    destruct (@append_first_ok _ r) as [r' [E [L' N']]]; [lia|]. rewrite Lr in *. exists r'. auto. }
  rewrite E3. exists p3. split; [reflexivity|].
  assert (L2 : length p2 = S d) by (rewrite <- L1; symmetry; eapply Forall2_len; eauto).
  assert (L3 : length p3 = S d) by (rewrite <- L2; symmetry; eapply Forall2_len; eauto).
  split.
  - split; [assumption|]. apply Forall_forall. intros p Hp. apply In_nth_error in Hp. destruct Hp as [i Hi]. assert (i < S d)%nat by (rewrite <- L3; apply nth_error_Some; congruence).
    destruct (nth_error p2 i) as [p'|] eqn:E'; [|apply nth_error_None in E'; lia]. destruct (Forall2_nth_error_l F3 E') as [p'' [X Y]]. assert (p'' = p) by congruence. subst p''.
    destruct (nth_error p1 i) as [q|] eqn:Eq; [|apply nth_error_None in Eq; lia]. destruct (Forall2_nth_error_l F2 Eq) as [q' [X' [Y1 [Y2 Y3]]]]. assert (q' = p') by congruence. subst q'.
    split; [rewrite <- Y1; symmetry; eapply Forall2_len; eauto|]. clear - Y. induction Y as [|? ? ? ? [H _] ? IH]; constructor; auto.
  - intros i j k Hi Hj Hk. unfold entry. destruct (nth_error p1 i) as [q|] eqn:Eq; [|apply nth_error_None in Eq; lia].
    rewrite <- (N1 i) by lia. rewrite Eq.
    destruct (Forall2_nth_error_l F2 Eq) as [p' [X' [Y1 [Y2 Y3]]]]. destruct (Forall2_nth_error_l F3 X') as [p'' [X Y]]. rewrite X, <- Y2 by lia.
    destruct (nth_error p' j) as [r|] eqn:Er; [|apply nth_error_None in Er; lia]. destruct (Forall2_nth_error_l Y Er) as [r' [-> [_ Z]]]. apply Z. assumption.
Qed.

(** *** argwhere *)
Lemma enumerate_In A (l : list A) i x : In (i, x) (enumerate l) <-> nth_error l i = Some x.
Proof.
  unfold enumerate, range. assert (G : forall s i, In (i, x) (combine (seq s (length l)) l) <-> (s <= i)%nat /\ nth_error l (i - s) = Some x).
  { clear i. induction l as [|y l IH]; intros s i; cbn.
    - split; [easy|]. intros [_ H]. destruct (i - s)%nat; discriminate.
    - rewrite IH. split.
      + intros [[= -> ->]|[H1 H2]]; [now rewrite Nat.sub_diag|]. split; [lia|]. now replace (i - s)%nat with (S (i - S s))%nat by lia.
      + intros [H1 H2]. destruct (Nat.eq_dec i s) as [->|N]; [rewrite Nat.sub_diag in H2; injection H2 as ->; now left|right].
        split; [lia|]. now replace (i - s)%nat with (S (i - S s))%nat in H2 by lia. }
  rewrite G, Nat.sub_0_r. split; [tauto|]. split; [lia|assumption].
Qed.
Lemma NoDup_enumerate A (l : list A) : NoDup (map fst (enumerate l)).
Proof. unfold enumerate. rewrite map_fst_combine by (unfold range; now rewrite seq_length). apply seq_NoDup. Qed.
Lemma NoDup_flat_map A B (f : A -> list B) (key : B -> nat) (k : A -> nat) l : NoDup (map k l) -> (forall a, In a l -> NoDup (f a)) ->
  (forall a b, In a l -> In b (f a) -> key b = k a) -> NoDup (flat_map f l).
Proof.
  induction l as [|a l IH]; intros ND H K; cbn; [constructor|]. inversion ND; subst. apply NoDup_app_disj.
  - apply H. now left.
  - apply IH; auto; [intros; apply H; now right|intros; apply K; auto; now right].
  - intros b Hb I. apply in_flat_map in I. destruct I as [a' [Ha' Hb']]. apply H2. rewrite <- (K a b) by (auto; now left). rewrite (K a' b) by (auto; now right). now apply in_map.
Qed.
Lemma argwhere_In a ele i j k : In (i, j, k) (argwhere a ele) <-> entry a i j k = Some ele.
Proof.
  unfold argwhere, entry. rewrite in_flat_map. split.
  - intros [[i' p] [H1 H2]]. cbn [fst snd] in H2. apply in_flat_map in H2. destruct H2 as [[j' r] [H2 H3]]. cbn [fst snd] in H3. apply in_flat_map in H3. destruct H3 as [[k' v] [H3 H4]].
    cbn [fst snd] in H4. destruct (Z.eqb_spec v ele) as [->|]; [|easy]. destruct H4 as [[= -> -> ->]|[]]. apply enumerate_In in H1, H2, H3. now rewrite H1, H2.
  - intros H. destruct (nth_error a i) as [p|] eqn:E1; [|discriminate]. destruct (nth_error p j) as [r|] eqn:E2; [|discriminate].
    exists (i, p). split; [now apply enumerate_In|]. apply in_flat_map. exists (j, r). split; [now apply enumerate_In|]. apply in_flat_map. exists (k, ele). split; [now apply enumerate_In|].
    cbn. rewrite Z.eqb_refl. now left.
Qed.
Lemma NoDup_argwhere a ele : NoDup (argwhere a ele).
Proof.
  unfold argwhere. apply (@NoDup_flat_map _ _ _ (fun t => fst (fst t)) fst); [apply NoDup_enumerate| |].
  - intros [i p] _. apply (@NoDup_flat_map _ _ _ (fun t => snd (fst t)) fst); [apply NoDup_enumerate| |].
    + intros [j r] _. apply (@NoDup_flat_map _ _ _ (fun t => snd t) fst); [apply NoDup_enumerate| |].
      * intros [k v] _. cbn. destruct (Z.eqb v ele); repeat constructor; easy.
      * intros [k v] b _. cbn. destruct (Z.eqb v ele); [|easy]. intros [<-|[]]. reflexivity.
    + intros [j r] b _ H. cbn [fst snd] in H. apply in_flat_map in H. destruct H as [[k v] [_ H]]. cbn in H. destruct (Z.eqb v ele); [|easy]. destruct H as [<-|[]]. reflexivity.
  - intros [i p] b _ H. cbn [fst snd] in H. apply in_flat_map in H. destruct H as [[j r] [_ H]]. cbn [fst snd] in H. apply in_flat_map in H. destruct H as [[k v] [_ H]].
    cbn in H. destruct (Z.eqb v ele); [|easy]. destruct H as [<-|[]]. reflexivity.
Qed.

(** *** _min_dist *)
Lemma combos1 A (l : list A) : combos l 1 = map (fun y => [y]) l.
Proof. induction l as [|x l IH]; cbn; [reflexivity|]. destruct l; cbn in *; [reflexivity|]. now rewrite IH. Qed.
Lemma combos2_FOP A (R : A -> A -> Prop) l : Forall (fun pr => match pr with [p; q] => R p q | _ => True end) (combos l 2) <-> ForallOrdPairs R l.
Proof.
  induction l as [|x l IH]; [cbn; split; intros; constructor|].
  change (combos (x :: l) 2) with (map (cons x) (combos l 1) ++ combos l 2)%list. rewrite Forall_app, IH, combos1, map_map, Forall_map. split.
  - intros [H1 H2]. constructor; [|assumption]. exact H1.
  - intros H. inversion H; subst. auto.
Qed.
Lemma min_dist_gt t points : (t < min_dist points)%Qc <-> (t < Q2Qc (9999 * 9999))%Qc /\ ForallOrdPairs (fun p q => (t < sqdist p q)%Qc) points.
Proof.
  unfold min_dist. rewrite <- (combos2_FOP (fun p q => (t < sqdist p q)%Qc)). generalize (Q2Qc (9999 * 9999)). induction (combos points 2) as [|pr l IH]; intros m; cbn.
  - split; [intros; split; [assumption|constructor]|tauto].
  - rewrite IH. clear IH. destruct pr as [|p [|q [|]]]; try (split; [intros [H1 H2]; split; [assumption|constructor; auto]|intros [H1 H2]; inversion H2; auto]; fail).
    destruct (Qcltb (sqdist p q) m) eqn:E; [apply Qcltb_lt in E|apply Qcltb_ge in E]; split; intros [H1 H2].
    + split; [eapply Qclt_trans; eauto|constructor; auto].
    + inversion H2; subst. auto.
    + split; [assumption|constructor; auto]. eapply Qclt_le_trans; eauto.
    + inversion H2; subst. auto.
Qed.
Lemma sqdist_sym p q : sqdist p q = sqdist q p.
Proof. destruct p as [p1 p2 p3], q as [q1 q2 q3]. unfold sqdist, vsub, vdot. cbn [vx vy vz]. ring. Qed.
Lemma index2coor_dist m i j k i' j' k' : sqdist (index2coor (i, j, k) m) (index2coor (i', j', k') m) =
  grid_len2 m (V3 (Z.of_nat i - Z.of_nat i') (Z.of_nat j - Z.of_nat j') (Z.of_nat k - Z.of_nat k')).
Proof.
  destruct m as [[a1 a2 a3] [b1 b2 b3] [c1 c2 c3]]. unfold sqdist, index2coor, grid_len2, vec_mat, vecZ, vmap, vscale, vadd, vsub, vdot, Nc. cbn [vx vy vz].
  rewrite !Zc_minus. ring.
Qed.

Lemma tiled_box (a : list (list (list Z))) d w l i j k : (0 < d)%nat -> (0 < w)%nat -> (0 < l)%nat ->
  tiled a d w l (Z.of_nat i) (Z.of_nat j) (Z.of_nat k) = entry a (i mod d) (j mod w) (k mod l).
Proof. intros Hd Hw Hl. unfold tiled. rewrite <- !Nat2Z.inj_mod, !Nat2Z.id. reflexivity. Qed.

Lemma C30_lemma hp s sp : live hp (c_grid s) ->
  let d := g_depth (c_grid s) in let w := g_width (c_grid s) in let l := g_length (c_grid s) in
  exists a r, to_array hp (c_grid s) = Ok a /\ shaped a d w l /\ is_speckle_disjunct hp s sp = Ok r /\
   (r = true <-> forall i j k i' j' k', in_box d w l i j k -> in_box d w l i' j' k' -> V3 i j k <> V3 i' j' k' ->
      tiled a d w l i j k = Some (sp_Z sp) -> tiled a d w l i' j' k' = Some (sp_Z sp) ->
      over_101 (c_m s) (V3 (i - i') (j - j') (k - k'))).
Proof.
  intros LV d w l. destruct (live_array LV) as [a [E [SH [Hd [Hw Hl]]]]]. fold d w l in SH, Hd, Hw, Hl.
  destruct (pool_sites_ok SH Hd Hw Hl) as [pool [EP [SP HP]]]. unfold is_speckle_disjunct. rewrite E. cbn [bind]. rewrite EP. cbn [bind].
  exists a. eexists. split; [reflexivity|]. split; [assumption|]. split; [reflexivity|].
  rewrite Qcltb_lt, min_dist_gt, FOP_nodup; [|intros p q; now rewrite sqdist_sym|apply NoDup_argwhere].
  assert (T : (Q2Qc (101 # 100) * Q2Qc (101 # 100) = Q2Qc (10201 # 10000))%Qc) by (apply Qc_is_canon; reflexivity). rewrite T.
  assert (B : forall i j k, in_box d w l i j k -> tiled a d w l i j k = Some (sp_Z sp) -> In (Z.to_nat i, Z.to_nat j, Z.to_nat k) (argwhere pool (sp_Z sp))).
  { intros i j k [Bi [Bj Bk]] Ht. apply argwhere_In. rewrite HP by lia. rewrite <- (tiled_box a (Z.to_nat i) (Z.to_nat j) (Z.to_nat k) Hd Hw Hl), !Z2Nat.id by lia. assumption. }
  split.
  - intros [_ H] i j k i' j' k' Bx Bx' N Ht Ht'. pose proof (B _ _ _ Bx Ht) as I1. pose proof (B _ _ _ Bx' Ht') as I2. destruct Bx as [B1 [B2 B3]], Bx' as [B1' [B2' B3']].
    specialize (H _ _ I1 I2). cbn beta in H. rewrite index2coor_dist, !Z2Nat.id in H by lia. apply H.
    intros [= X Y Z]. apply N. f_equal; [apply Z2Nat.inj in X; lia|apply Z2Nat.inj in Y; lia|apply Z2Nat.inj in Z; lia].
  - intros H. split; [reflexivity|]. intros [[i j] k] [[i' j'] k'] I1 I2 N. rewrite index2coor_dist.
    apply argwhere_In in I1, I2. destruct (entry_range SP I1) as [X1 [X2 X3]]. destruct (entry_range SP I2) as [Y1 [Y2 Y3]].
    rewrite HP in I1, I2 by lia. rewrite <- tiled_box in I1, I2 by assumption.
    apply H; auto; try (repeat split; lia). intros [= Z1 Z2 Z3]. apply Nat2Z.inj in Z1, Z2, Z3. subst. now apply N.
Qed.

(** consequences for the infinite crystal *)
Lemma step_in_box (d : nat) (x u : Z) : (0 < d)%nat -> -1 <= u <= 1 -> exists x', 0 <= x' <= Z.of_nat d /\ 0 <= x' + u <= Z.of_nat d /\
  x' mod Z.of_nat d = x mod Z.of_nat d /\ (x' + u) mod Z.of_nat d = (x + u) mod Z.of_nat d.
Proof.
  intros Hd Hu. set (D := Z.of_nat d). assert (HD : 0 < D) by (unfold D; lia). pose proof (Z.mod_pos_bound x D HD) as R.
  assert (K : forall y, y mod D = x mod D -> (y + u) mod D = (x + u) mod D) by (intros y Hy; rewrite (Z.add_mod y), Hy, <- Z.add_mod by lia; reflexivity).
  destruct (Z.eq_dec u (-1)) as [->|N].
  - destruct (Z.eq_dec (x mod D) 0) as [E|E].
    + exists D. assert (X : D mod D = x mod D) by (rewrite Z.mod_same by lia; auto). repeat split; try lia; auto.
    + exists (x mod D). assert (X : (x mod D) mod D = x mod D) by (apply Z.mod_mod; lia). repeat split; try lia; auto.
  - exists (x mod D). assert (X : (x mod D) mod D = x mod D) by (apply Z.mod_mod; lia). repeat split; try lia; auto.
Qed.
Lemma C30_neighbours_lemma hp s sp : live hp (c_grid s) -> is_speckle_disjunct hp s sp = Ok true ->
  exists a, to_array hp (c_grid s) = Ok a /\
  let d := g_depth (c_grid s) in let w := g_width (c_grid s) in let l := g_length (c_grid s) in
  forall i j k u1 u2 u3, -1 <= u1 <= 1 -> -1 <= u2 <= 1 -> -1 <= u3 <= 1 -> V3 u1 u2 u3 <> V3 0 0 0 ->
    tiled a d w l i j k = Some (sp_Z sp) -> tiled a d w l (i + u1) (j + u2) (k + u3) = Some (sp_Z sp) ->
    over_101 (c_m s) (V3 u1 u2 u3).
Proof.
  intros LV E. destruct (@C30_lemma hp s sp LV) as [a [r [E1 [SH [E2 R]]]]]. assert (r = true) by congruence. subst r. exists a. split; [assumption|].
  destruct (live_array LV) as [a0 [_ [_ [Hd [Hw Hl]]]]].
  intros d w l i j k u1 u2 u3 H1 H2 H3 N T1 T2. fold d w l in Hd, Hw, Hl.
  destruct (@step_in_box d i u1 Hd H1) as [i' [A1 [A2 [A3 A4]]]]. destruct (@step_in_box w j u2 Hw H2) as [j' [B1 [B2 [B3 B4]]]]. destruct (@step_in_box l k u3 Hl H3) as [k' [C1 [C2 [C3 C4]]]].
  pose proof (proj1 R eq_refl (i' + u1) (j' + u2) (k' + u3) i' j' k') as Q.
  replace (i' + u1 - i') with u1 in Q by lia. replace (j' + u2 - j') with u2 in Q by lia. replace (k' + u3 - k') with u3 in Q by lia.
  apply Q.
  - repeat split; lia.
  - repeat split; lia.
  - intros [= X Y Z]. apply N. f_equal; lia.
  - unfold tiled in *. fold d w l. now rewrite A4, B4, C4.
  - unfold tiled in *. fold d w l. now rewrite A3, B3, C3.
Qed.
