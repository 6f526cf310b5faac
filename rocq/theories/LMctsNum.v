(** Running averages with Python numbers. *)
From Verif Require Import Base BaseQ LQ MMctsNum SMctsNum.
Set Implicit Arguments.
Unset Strict Implicit.
Open Scope Z_scope.

Lemma val_add a b : val (num_add a b) = (val a + val b)%Qc.
Proof. destruct a, b; cbn; auto. apply Zc_plus. Qed.
Lemma val_sub a b : val (num_sub a b) = (val a - val b)%Qc.
Proof. destruct a, b; cbn; auto. apply Zc_minus. Qed.
Lemma val_mul a b : val (num_mul a b) = (val a * val b)%Qc.
Proof. destruct a, b; cbn; auto. apply Zc_mult. Qed.
Lemma val_div py2 a n : py2 = false \/ (exists q, a = PFloat q) -> val (num_div py2 a n) = (val a / Zc n)%Qc.
Proof. intros [->|[q ->]]; [destruct a|]; reflexivity. Qed.

Lemma Zc_S_nz n : Zc (Z.of_nat (S n)) <> 0%Qc.
Proof. rewrite <- Zc_0. intros H. apply Zc_inj in H. lia. Qed.

Lemma qsum_app a b : qsum (a ++ b) = (qsum a + qsum b)%Qc.
Proof.
  unfold qsum. induction a as [|x a IH]; cbn [app fold_right]; [ring | rewrite IH; ring].
Qed.

Definition is_float (a : num) : Prop := exists q, a = PFloat q.
Lemma sub_float a b : is_float a \/ is_float b -> is_float (num_sub a b).
Proof. intros [[q ->]|[q ->]]; [|destruct a]; eexists; reflexivity. Qed.

Lemma update_val py2 k q v : py2 = false \/ is_float q \/ is_float v ->
  val (snd (update_stat py2 (k, q) v)) = (val q + (val v - val q) / Zc (Z.of_nat (S k)))%Qc.
Proof.
  intros H. unfold update_stat. cbn [fst snd]. rewrite val_add, val_div, val_sub; auto.
  destruct H as [H|H]; auto. right. apply sub_float. tauto.
Qed.
Lemma update_float k q v py2 : is_float q \/ is_float v -> is_float (snd (update_stat py2 (k, q) v)).
Proof.
  intros H. unfold update_stat. cbn [fst snd].
  destruct (@sub_float v q) as [x ->]; [tauto|]. destruct q; eexists; reflexivity.
Qed.

Lemma stat_snoc py2 vs v : stat_after py2 (vs ++ [v]) = update_stat py2 (stat_after py2 vs) v.
Proof. unfold stat_after. now rewrite fold_left_app. Qed.
Lemma stat_count py2 vs : fst (stat_after py2 vs) = length vs.
Proof.
  induction vs as [|v vs IH] using rev_ind; auto. rewrite stat_snoc, app_length. cbn. rewrite IH. lia.
Qed.
Lemma stat_pair py2 vs : stat_after py2 vs = (length vs, snd (stat_after py2 vs)).
Proof. rewrite <- (stat_count py2 vs). apply surjective_pairing. Qed.

Lemma stat_float py2 vs : (exists x r, vs = PFloat x :: r) -> is_float (snd (stat_after py2 vs)).
Proof.
  intros (x & r & ->). induction r as [|v r IH] using rev_ind.
  - unfold stat_after. cbn [fold_left]. apply update_float. right. now exists x.
  - rewrite app_comm_cons, stat_snoc, stat_pair. apply update_float. now left.
Qed.

Lemma C93_average_lemma py2 vs : py2 = false \/ (exists x r, vs = PFloat x :: r) ->
  fst (stat_after py2 vs) = length vs /\ average (map val vs) (val (snd (stat_after py2 vs))).
Proof.
  intros H. split; [apply stat_count|]. unfold average. induction vs as [|v vs IH] using rev_ind.
  - apply Qc_is_canon. reflexivity.
  - rewrite stat_snoc, stat_pair.
    rewrite map_app, qsum_app, app_length, !map_length. cbn [map qsum fold_right length].
    rewrite update_val.
    + destruct vs as [|a vs].
      * cbn [length app Nat.add stat_after fold_left snd val]. cbn.
        replace (Zc (Z.of_nat 1)) with 1%Qc by (symmetry; apply Zc_1). rewrite Zc_0. field. discriminate.
      * assert (E : (val (snd (stat_after py2 (a :: vs))) * Zc (Z.of_nat (length (map val (a :: vs)))) = qsum (map val (a :: vs)))%Qc).
        { apply IH. destruct H as [H|(x & r & H)]; auto. right. inversion H; subst. eauto. }
        rewrite <- E. set (q := val _). rewrite map_length. replace (length (a :: vs) + 1)%nat with (S (length (a :: vs))) by lia.
        set (n := length (a :: vs)). assert (N := @Zc_S_nz n).
        replace (Zc (Z.of_nat n)) with (Zc (Z.of_nat (S n)) - 1)%Qc.
        { field. auto. }
        rewrite Nat2Z.inj_succ, <- Z.add_1_r, Zc_plus, Zc_1. ring.
    + destruct H as [H|(x & r & H)]; auto. destruct vs as [|a vs]; cbn in H; inversion H; subst.
      * right. right. now exists x.
      * right. left. apply stat_float. eauto.
Qed.

(** integers on Python 2 *)
Definition int_step (k : nat) (q v : Z) : Z := q + (v - q) / Z.of_nat (S k).
Fixpoint int_run (k : nat) (q : Z) (vs : list Z) : Z :=
  match vs with [] => q | v :: r => int_run (S k) (int_step k q v) r end.
Lemma stat_ints_from vs : forall k q, fold_left (update_stat true) (map PInt vs) (k, PInt q) = ((k + length vs)%nat, PInt (int_run k q vs)).
Proof.
  induction vs as [|v vs IH]; intros k q; cbn [map fold_left int_run length].
  - now rewrite Nat.add_0_r.
  - unfold update_stat at 2. cbn [fst snd num_sub num_div num_add]. rewrite IH. f_equal. lia.
Qed.
Lemma stat_ints vs : snd (stat_after true (map PInt vs)) = PInt (int_run 0 0 vs).
Proof. unfold stat_after. now rewrite stat_ints_from. Qed.
Lemma int_run_app vs : forall k q ws, int_run k q (vs ++ ws) = int_run (k + length vs) (int_run k q vs) ws.
Proof.
  induction vs as [|v vs IH]; intros k q ws; cbn [app int_run length]; [now rewrite Nat.add_0_r|].
  rewrite IH. f_equal. lia.
Qed.

Lemma int_step_between k q v : Z.min q v <= int_step k q v <= Z.max q v.
Proof.
  unfold int_step. set (n := Z.of_nat (S k)). assert (N : 1 <= n) by lia.
  pose proof (Z.div_mod (v - q) n ltac:(lia)) as D. pose proof (Z.mod_pos_bound (v - q) n ltac:(lia)) as B.
  set (d := (v - q) / n) in *. set (m := (v - q) mod n) in *. clearbody d m.
  destruct (Z.le_gt_cases q v); split.
  - assert (0 <= d) by nia. lia.
  - assert (d <= v - q) by nia. lia.
  - assert (v - q <= d) by nia. lia.
  - assert (d <= 0) by nia. lia.
Qed.
Lemma int_step_law k q v : Z.abs (v - q) <= Z.of_nat k -> int_step k q v = if v <? q then q - 1 else q.
Proof.
  intros H. unfold int_step. destruct (Z.ltb_spec v q).
  - replace ((v - q) / Z.of_nat (S k)) with (-1); [lia|].
    apply Z.div_unique with (v - q + Z.of_nat (S k)); lia.
  - rewrite Z.div_small; lia.
Qed.
Lemma int_run_bounded M vs : Forall (fun v => Z.abs v <= M) vs -> forall k q, Z.abs q <= M -> Z.abs (int_run k q vs) <= M.
Proof.
  induction 1 as [|v vs Hv F IH]; intros k q Q; cbn [int_run]; auto. apply IH.
  pose proof (int_step_between k q v). lia.
Qed.
Lemma int_run_down M vs : Forall (fun v => Z.abs v <= M) vs -> forall k q, Z.abs q <= M -> 2 * M <= Z.of_nat k -> int_run k q vs <= q.
Proof.
  induction 1 as [|v vs Hv F IH]; intros k q Q K; cbn [int_run]; [lia|].
  pose proof (int_step_between k q v). assert (int_step k q v <= q).
  { rewrite int_step_law by lia. destruct (v <? q); lia. }
  assert (Z.abs (int_step k q v) <= M) by lia.
  specialize (IH (S k) (int_step k q v)). lia.
Qed.

Lemma C93_law_lemma M vs v : Forall (fun v => Z.abs v <= M) (vs ++ [v]) -> 2 * M <= Z.of_nat (length vs) ->
  exists q, snd (stat_after true (map PInt vs)) = PInt q /\ Z.abs q <= M /\
    snd (stat_after true (map PInt (vs ++ [v]))) = PInt (if v <? q then q - 1 else q).
Proof.
  intros F K. apply Forall_app in F as [F F2]. inversion F2 as [|? ? Hv _]; subst.
  exists (int_run 0 0 vs). rewrite !stat_ints, int_run_app. cbn [int_run Nat.add].
  assert (B : Z.abs (int_run 0 0 vs) <= M) by (apply int_run_bounded; auto; lia).
  split; [reflexivity|split; auto]. f_equal. apply int_step_law. lia.
Qed.

Lemma C93_down_lemma M vs ws : 0 <= M -> Forall (fun v => Z.abs v <= M) (vs ++ ws) -> 2 * M <= Z.of_nat (length vs) ->
  exists q q', snd (stat_after true (map PInt vs)) = PInt q /\ snd (stat_after true (map PInt (vs ++ ws))) = PInt q' /\ -M <= q' <= q.
Proof.
  intros P F K. pose proof F as F0. apply Forall_app in F as [F F2].
  exists (int_run 0 0 vs), (int_run 0 0 (vs ++ ws)). rewrite !stat_ints. do 2 (split; [reflexivity|]).
  pose proof (@int_run_bounded M (vs ++ ws) F0 0%nat 0 ltac:(lia)).
  split; [lia|]. rewrite int_run_app. apply (@int_run_down M ws F2); [|lia]. apply int_run_bounded; auto; lia.
Qed.

Lemma first_two a b : snd (stat_after true [PInt a]) = PInt a /\ snd (stat_after true [PInt a; PInt b]) = PInt (a + (b - a) / 2).
Proof.
  pose proof (stat_ints [a]) as H1. pose proof (stat_ints [a; b]) as H2. cbn [map] in *. rewrite H1, H2.
  cbn [int_run]. unfold int_step. change (Z.of_nat 1) with 1. change (Z.of_nat 2) with 2. rewrite Z.div_1_r.
  replace (0 + (a - 0)) with a by lia. auto.
Qed.

Lemma int_run_wins m : forall k, (2 <= k)%nat -> int_run k (-1) (repeat 1 m) = -1.
Proof.
  induction m as [|m IH]; intros k K; cbn [repeat int_run]; auto.
  rewrite int_step_law by lia. cbn. apply IH. lia.
Qed.
Lemma qsum_repeat x m : qsum (repeat x m) = (x * Zc (Z.of_nat m))%Qc.
Proof.
  unfold qsum. induction m as [|m IH]; [cbn [repeat fold_right]; change (Z.of_nat 0) with 0; rewrite Zc_0; ring|]. cbn [repeat fold_right].
  rewrite IH, Nat2Z.inj_succ, <- Z.add_1_r, Zc_plus, Zc_1. ring.
Qed.
Lemma C93_refuted_lemma m : let vs := 1 :: -1 :: -1 :: repeat 1 m in
  snd (stat_after true (map PInt vs)) = PInt (-1) /\ average (map Zc vs) (Zc (Z.of_nat m - 1) / Zc (Z.of_nat m + 3))%Qc.
Proof.
  cbv zeta. split.
  - rewrite stat_ints. cbn [int_run]. change (int_step 0 0 1) with 1. change (int_step 1 1 (-1)) with 0.
    change (int_step 2 0 (-1)) with (-1). now rewrite int_run_wins by lia.
  - unfold average. rewrite map_length. cbn [length map]. rewrite repeat_length.
    assert (E : qsum (Zc 1 :: Zc (-1) :: Zc (-1) :: map Zc (repeat 1 m)) = Zc (Z.of_nat m - 1)).
    { replace (map Zc (repeat 1 m)) with (repeat (Zc 1) m) by (clear; induction m; cbn; congruence). cbn [qsum fold_right]. change (fold_right Qcplus 0%Qc ?l) with (qsum l). rewrite qsum_repeat.
      change (-1) with (Z.opp 1). rewrite Zc_minus, (Zc_opp 1), !Zc_1. ring. }
    rewrite E. replace (Z.of_nat (S (S (S m)))) with (Z.of_nat m + 3) by lia.
    field. rewrite <- Zc_0. intros H. apply Zc_inj in H. lia.
Qed.

Lemma C93_leaf_lemma lmbda v z : (0 <= val lmbda <= 1)%Qc ->
  val (leaf_num lmbda v z) = ((1 - val lmbda) * val v + val lmbda * Zc z)%Qc.
Proof.
  intros [L0 L1]. unfold leaf_num. rewrite val_add, !val_mul, val_sub. cbn [val]. rewrite Zc_1.
  destruct (Qcltb (val lmbda) 1) eqn:E1; destruct (Qcltb (Zc 0) (val lmbda)) eqn:E2;
    rewrite ?Qcltb_lt, ?Qcltb_ge, ?Zc_0 in *; auto.
  - replace (val lmbda) with 0%Qc by (apply Qcle_antisym; auto). ring.
  - replace (val lmbda) with 1%Qc by (apply Qcle_antisym; auto). cbn [val]. ring.
  - exfalso. pose proof (Qcle_trans _ _ _ E1 E2) as H. now apply H.
Qed.
Lemma C93_kind_lemma lmbda v z : (exists i, leaf_num lmbda v z = PInt i) <->
  (exists l, lmbda = PInt l) /\ ((val lmbda < 1)%Qc -> exists i, v = PInt i).
Proof.
  unfold leaf_num. rewrite Zc_1. split.
  - intros [i H]. destruct lmbda as [l|q]; [|destruct (Qcltb _ _), v; discriminate].
    split; eauto. intros L. apply Qcltb_lt in L. rewrite L in H. destruct v; [eauto|discriminate].
  - intros [[l ->] V]. destruct (Qcltb (val (PInt l)) 1) eqn:E.
    + apply Qcltb_lt in E. destruct (V E) as [i ->]. eexists. reflexivity.
    + eexists. reflexivity.
Qed.
