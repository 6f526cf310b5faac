(** When the attention of a node has reached a child; the values of a history. *)
From Verif Require Import Base LBase BaseQ LQ MMcts SMcts LMcts LMcts2 LMcts3 LMcts4 LMcts5 LMcts6 LMcts7 LExplore LExplore2.
Set Implicit Arguments.
Unset Strict Implicit.
Open Scope nat_scope.

Section L.
Context (A : Type) (aeq : forall a b : A, {a = b} + {a <> b}).
Notation through := (through aeq).
Notation ended := (ended aeq).
Notation inv := (inv aeq).
Context (fsqrt : nat -> Qc) (cp : Qc).
Hypothesis CP : (0 <= cp)%Qc.
Hypothesis FS : forall n, (0 <= fsqrt n)%Qc.
Notation attn := (attn aeq fsqrt cp).

Lemma tried_lemma hi h root L w i n a ca na : inv h root L -> attn hi h root L -> at_path h root w i -> nth_error h i = Some n ->
  (forall b cb nb, In (b, cb) (n_children n) -> nth_error h cb = Some nb -> (0 <= n_P nb)%Qc) ->
  In (a, ca) (n_children n) -> nth_error h ca = Some na -> (hi <= n_P na)%Qc ->
  (cp * sum_priors h (n_children n) * fsqrt (length (through w L)) <
   (n_P na - hi) * (Zc (Z.of_nat (length (through w L)) - Z.of_nat (length (ended w L)) - Z.of_nat (length (n_children n)))))%Qc ->
  through (w ++ [a]) L <> [].
Proof.
  intros IV AI AT En PP Ia Ea Hi LT Ta. revert LT. apply Qcle_not_lt.
  pose proof (children_sum IV AT En) as CS. destruct (in_stat IV AT En) as [Vn _]. rewrite Vn in CS. rewrite CS at 1.
  replace (Z.of_nat (length (ended w L) + sum_visits h (n_children n)) - Z.of_nat (length (ended w L)) - Z.of_nat (length (n_children n)))%Z
    with (Z.of_nat (sum_visits h (n_children n)) - Z.of_nat (length (n_children n)))%Z by lia. clear CS Vn.
  set (N := length (through w L)). set (g := (n_P na - hi)%Qc).
  assert (G0 : (0 <= g)%Qc) by (unfold g; qclra).
  assert (SUB : forall l, (forall x, In x l -> In x (n_children n)) ->
    (g * Zc (Z.of_nat (sum_visits h l) - Z.of_nat (length l)) <= cp * sum_priors h l * fsqrt N)%Qc).
  { induction l as [|[b cb] l IH]; intros SB.
    - cbn. rewrite Zc_0. replace (g * 0)%Qc with 0%Qc by ring. replace (cp * 0 * fsqrt N)%Qc with 0%Qc by ring. apply Qcle_refl.
    - specialize (IH (fun x Hx => SB x (or_intror Hx))). assert (Ib : In (b, cb) (n_children n)) by (apply SB; now left).
      assert (ATb : at_path h root (w ++ [b]) cb) by (apply at_snoc; eauto). destruct (at_node (in_shape IV) ATb) as [nb Eb].
      destruct (in_stat IV ATb Eb) as [Vb _]. pose proof (PP b cb nb Ib Eb) as Pb.
      cbn [sum_visits sum_priors fold_right snd length]. rewrite Eb, Vb. fold (sum_visits h l) (sum_priors h l).
      replace (Z.of_nat (length (through (w ++ [b]) L) + sum_visits h l) - Z.of_nat (S (length l)))%Z
        with ((Z.of_nat (length (through (w ++ [b]) L)) - 1) + (Z.of_nat (sum_visits h l) - Z.of_nat (length l)))%Z by lia.
      rewrite Zc_plus. set (S1 := Zc (Z.of_nat (sum_visits h l) - Z.of_nat (length l))) in *.
      assert (ONE : (g * Zc (Z.of_nat (length (through (w ++ [b]) L)) - 1) <= cp * n_P nb * fsqrt N)%Qc).
      { assert (X0 : (0 <= cp * n_P nb * fsqrt N)%Qc) by (apply mult_nonneg; [apply mult_nonneg; assumption|apply FS]).
        destruct (le_lt_dec 2 (length (through (w ++ [b]) L))) as [G2|L2].
        - eapply Qcle_trans; [|exact (AI w i n a ca na b cb nb AT En Ia Ib Ea Eb Pb Ta G2)]. rewrite !(Qcmult_comm g). 
          apply Qcmult_le_compat_r; [apply Zc_le; lia|exact G0].
        - apply Qcle_trans with (0%Qc); [|exact X0]. rewrite Qcmult_comm. replace 0%Qc with (0 * g)%Qc by ring. apply Qcmult_le_compat_r; [|exact G0].
          rewrite <- Zc_0. apply Zc_le. lia. }
      replace (g * (Zc (Z.of_nat (length (through (w ++ [b]) L)) - 1) + S1))%Qc with (g * Zc (Z.of_nat (length (through (w ++ [b]) L)) - 1) + g * S1)%Qc by ring.
      replace (cp * (n_P nb + sum_priors h l) * fsqrt N)%Qc with (cp * n_P nb * fsqrt N + cp * sum_priors h l * fsqrt N)%Qc by ring.
      apply Qcplus_le_compat; assumption. }
  apply SUB. auto.
Qed.

(** With a square root a number of playouts is enough. *)
Lemma square_le x y : (0 <= x -> x <= y -> x * x <= y * y)%Qc.
Proof.
  intros X XY. apply Qcle_trans with (y * x)%Qc; [|rewrite (Qcmult_comm y x)]; apply Qcmult_le_compat_r; try assumption.
  apply Qcle_trans with x; assumption.
Qed.
Lemma enough g C f (N E : nat) : (0 <= g)%Qc -> (0 <= C)%Qc -> (0 <= f)%Qc -> (f * f <= Zc (Z.of_nat N))%Qc -> 2 * E <= N ->
  (Zc 4 * (C * C) < g * g * Zc (Z.of_nat N))%Qc -> (C * f < g * Zc (Z.of_nat N - Z.of_nat E))%Qc.
Proof.
  intros G0 C0 F0 FF NE LT. apply Qcnot_le_lt. intros H. revert LT. apply Qcle_not_lt.
  set (M := Zc (Z.of_nat N)) in *.
  assert (M0 : (0 <= M)%Qc) by (unfold M; rewrite <- Zc_0; apply Zc_le; lia).
  assert (H1 : (g * M <= Zc 2 * (C * f))%Qc).
  { apply Qcle_trans with (g * (Zc 2 * Zc (Z.of_nat N - Z.of_nat E)))%Qc.
    - rewrite !(Qcmult_comm g). apply Qcmult_le_compat_r; [|exact G0]. unfold M. rewrite <- Zc_mult. apply Zc_le. lia.
    - replace (g * (Zc 2 * Zc (Z.of_nat N - Z.of_nat E)))%Qc with (g * Zc (Z.of_nat N - Z.of_nat E) * Zc 2)%Qc by ring. rewrite (Qcmult_comm (Zc 2)).
      apply Qcmult_le_compat_r; [exact H|]. rewrite <- Zc_0. apply Zc_le. lia. }
  pose proof (square_le (mult_nonneg G0 M0) H1) as H2.
  assert (H3 : (Zc 2 * (C * f) * (Zc 2 * (C * f)) <= Zc 4 * (C * C) * M)%Qc).
  { replace (Zc 4) with (Zc 2 * Zc 2)%Qc by (rewrite <- Zc_mult; reflexivity).
    replace (Zc 2 * (C * f) * (Zc 2 * (C * f)))%Qc with (f * f * (Zc 2 * Zc 2 * (C * C)))%Qc by ring.
    rewrite (Qcmult_comm _ M). apply Qcmult_le_compat_r; [exact FF|]. apply mult_nonneg; [rewrite <- Zc_mult, <- Zc_0; apply Zc_le; lia|now apply mult_nonneg]. }
  destruct (Qcle_lt_or_eq _ _ M0) as [MP|MZ].
  - apply (le_cancel MP). eapply Qcle_trans; [|exact H3]. eapply Qcle_trans; [|exact H2]. 
    replace (g * g * M * M)%Qc with (g * M * (g * M))%Qc by ring. apply Qcle_refl.
  - rewrite <- MZ. replace (g * g * 0)%Qc with 0%Qc by ring. apply mult_nonneg; [rewrite <- Zc_0; apply Zc_le; lia|now apply mult_nonneg].
Qed.

(** ** the values of a history *)
Context (py2 : bool) (order : list (A * nat) -> list (A * nat)).
Hypothesis OP : forall l, Permutation (order l) l.
Hypothesis P2 : py2 = true.
Context (St : Type) (do_move : St -> A -> St) (policy rollout : St -> list (A * Qc)) (value : St -> Qc)
  (winner current_player : St -> Z).
Notation leaf_value := (leaf_value do_move rollout value winner current_player).
Notation playout := (playout aeq py2 order fsqrt do_move policy rollout value winner current_player).
Notation playouts := (playouts aeq py2 order fsqrt do_move policy rollout value winner current_player).
Notation run := (run aeq py2 order fsqrt do_move policy rollout value winner current_player).
Notation minv := (minv aeq).

Lemma playout_value m L s d m' acts lv : minv m L -> playout m s d = Some (Ok (m', (acts, lv))) ->
  minv m' (L ++ [(acts, lv)]) /\ same_settings m m' /\ exists s', lv = leaf_value m s'.
Proof.
  intros IV E. destruct (playout_spec fsqrt OP do_move policy rollout value winner current_player s d P2 IV) as [m1 [acts1 [E1 [IV1 [_ [SS _]]]]]].
  rewrite E in E1. injection E1 as <- <- ->. split; [exact IV1|]. split; [exact SS|]. eauto.
Qed.
Lemma leaf_same m m' s : same_settings m m' -> leaf_value m' s = leaf_value m s.
Proof. intros SS. unfold MMcts.leaf_value. now rewrite SS. Qed.
Lemma advance_Forall (Q : Qc -> Prop) x (L : @log A) : Forall (fun e => Q (snd e)) L -> Forall (fun e => Q (snd e)) (advance aeq x L).
Proof.
  induction 1 as [|[acts v] L H F IH]; [constructor|]. unfold advance in *. cbn [flat_map fst snd]. apply Forall_app. split; [|exact IH].
  destruct acts as [|b t]; [constructor|]. destruct (aeq b x); constructor; [exact H|constructor].
Qed.
Lemma run_values (Q : Qc -> Prop) ops : forall m L m' L', minv m L -> (forall s, Q (leaf_value m s)) -> Forall (fun e => Q (snd e)) L ->
  run ops m L = Some (Ok (m', L')) -> Forall (fun e => Q (snd e)) L'.
Proof.
  induction ops as [|[s d|x] ops IH]; intros m L m' L' IV H F; cbn [SMcts.run].
  - intros E. now injection E as <- <-.
  - destruct (playout m s d) as [[[m1 [acts lv]]|]|] eqn:E; try discriminate. destruct (playout_value IV E) as [IV1 [SS [s' ->]]].
    apply IH; [exact IV1|intros; rewrite (leaf_same _ SS); apply H|]. apply Forall_app. split; [exact F|]. repeat constructor. apply H.
  - destruct (update_with_move aeq m x) as [m1|] eqn:E; [|discriminate]. destruct (update_with_move_spec x IV) as [m2 [E2 [IV' [SS _]]]].
    rewrite E in E2. injection E2 as <-. apply IH; [exact IV'|intros; rewrite (leaf_same _ SS); apply H|]. now apply advance_Forall.
Qed.
Lemma run_settings ops m L m' L' : minv m L -> run ops m L = Some (Ok (m', L')) -> minv m' L' /\ same_settings m m'.
Proof.
  intros IV E. destruct (run_ok fsqrt OP do_move policy rollout value winner current_player ops P2 IV) as [m1 [L1 [E1 [IV1 SS]]]]. rewrite E in E1. injection E1 as <- <-. auto.
Qed.
Lemma run_playouts s : forall k m L m' ens, minv m L -> playouts k m s = Some (Ok (m', ens)) ->
  run (repeat (Playout s (m_L m)) k) m L = Some (Ok (m', L ++ ens)).
Proof.
  induction k as [|k IH]; intros m L m' ens IV; cbn [MMcts.playouts repeat SMcts.run].
  - intros E. injection E as <- <-. now rewrite app_nil_r.
  - destruct (playout m s (m_L m)) as [[[m1 [acts lv]]|]|] eqn:E; try discriminate. destruct (playout_value IV E) as [IV1 [SS _]].
    destruct (playouts k m1 s) as [[[m2 ens']|]|] eqn:E2; try discriminate. intros E3. injection E3 as <- <-.
    apply (IH _ (L ++ [(acts, lv)])) in E2; [|exact IV1]. replace (m_L m1) with (m_L m) in E2 by (rewrite SS; reflexivity). etransitivity; [exact E2|]. rewrite <- app_assoc. reflexivity.
Qed.
End L.
