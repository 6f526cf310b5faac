From Verif Require Import Base LBase BaseQ LQ MMcts SMcts LMcts LMcts2 LMcts3.
Set Implicit Arguments.
Unset Strict Implicit.
Open Scope nat_scope.

Section L.
Context (A : Type) (aeq : forall a b : A, {a = b} + {a <> b}).
Notation through := (through aeq).
Notation ended := (ended aeq).

Definition sum_through (w : list A) (ks : list A) (L : @log A) : nat :=
  fold_right (fun a s => length (through (w ++ [a]) L) + s) 0 ks.

Lemma sum_through_nil w ks : sum_through w ks [] = 0.
Proof. induction ks as [|a ks IH]; [reflexivity|]. cbn. exact IH. Qed.
Lemma sum_through_cons w ks e L : sum_through w ks (e :: L) = sum_through w ks [e] + sum_through w ks L.
Proof.
  induction ks as [|a ks IH]; [reflexivity|]. unfold sum_through in *. cbn [fold_right]. rewrite IH.
  change (e :: L) with ([e] ++ L). rewrite through_app, app_length. lia.
Qed.

Lemma sw_snoc w a (t : list A) : starts_with aeq (w ++ [a]) (w ++ t) = match t with b :: _ => if aeq b a then true else false | [] => false end.
Proof.
  destruct t as [|b t].
  - destruct (starts_with aeq (w ++ [a]) (w ++ [])) eqn:E; [|reflexivity]. apply starts_with_app in E. destruct E as [x E].
    rewrite <- app_assoc in E. apply app_inv_head in E. discriminate.
  - destruct (aeq b a) as [->|N].
    + apply starts_with_app. exists t. now rewrite <- app_assoc.
    + destruct (starts_with aeq (w ++ [a]) (w ++ b :: t)) eqn:E; [|reflexivity]. apply starts_with_app in E. destruct E as [x E].
      rewrite <- app_assoc in E. apply app_inv_head in E. injection E as -> _. contradiction.
Qed.

Lemma through_one w e : through w [e] = if starts_with aeq w (fst e) then [e] else [].
Proof. reflexivity. Qed.

Lemma sum_one w ks e : NoDup ks ->
  (starts_with aeq w (fst e) = true -> fst e = w \/ exists a, In a ks /\ starts_with aeq (w ++ [a]) (fst e) = true) ->
  length (through w [e]) = length (ended w [e]) + sum_through w ks [e].
Proof.
  intros ND H. rewrite through_one. unfold SMcts.ended. cbn [filter]. destruct (starts_with aeq w (fst e)) eqn:E.
  - specialize (H eq_refl). apply starts_with_app in E. destruct E as [t E]. 
    assert (G : sum_through w ks [e] = match t with b :: _ => if in_dec aeq b ks then 1 else 0 | [] => 0 end).
    { clear H. induction ND as [|a ks Na ND IH]; [destruct t; reflexivity|]. unfold sum_through in *. cbn [fold_right]. rewrite IH, through_one, E, sw_snoc.
      destruct t as [|b t]; [reflexivity|]. cbn [in_dec]. destruct (aeq b a) as [->|N].
      - destruct (in_dec aeq a ks); [contradiction|]. destruct (in_dec aeq a (a :: ks)) as [|C]; [reflexivity|]. exfalso. apply C. now left.
      - destruct (in_dec aeq b ks) as [I|I], (in_dec aeq b (a :: ks)) as [J|J]; try reflexivity.
        + exfalso. apply J. now right.
        + exfalso. destruct J as [J|J]; [congruence|contradiction]. }
    rewrite G. destruct H as [H|[a [I S]]].
    + destruct (list_eq_dec aeq (fst e) w) as [_|C]; [|contradiction]. rewrite H in E. rewrite <- (app_nil_r w) in E at 1.
      apply app_inv_head in E. subst t. reflexivity.
    + rewrite E, sw_snoc in S. destruct t as [|b t]; [discriminate|]. destruct (aeq b a) as [->|]; [|discriminate].
      destruct (in_dec aeq a ks); [|contradiction]. destruct (list_eq_dec aeq (fst e) w) as [C|_]; [|reflexivity].
      rewrite C in E. rewrite <- (app_nil_r w) in E at 1. apply app_inv_head in E. discriminate.
  - destruct (list_eq_dec aeq (fst e) w) as [C|_].
    + enough (starts_with aeq w (fst e) = true) by congruence. apply starts_with_app. exists []. now rewrite app_nil_r.
    + cbn [length plus]. clear H. induction ND as [|a ks Na ND IH]; [reflexivity|]. unfold sum_through in *. cbn [fold_right]. rewrite <- IH, through_one.
      destruct (starts_with aeq (w ++ [a]) (fst e)) eqn:S; [|reflexivity]. apply starts_with_app in S. destruct S as [t S].
      enough (starts_with aeq w (fst e) = true) by congruence. apply starts_with_app. exists ([a] ++ t). now rewrite app_assoc.
Qed.

Lemma ended_app w (L L' : @log A) : ended w (L ++ L') = ended w L ++ ended w L'.
Proof. apply filter_app. Qed.

Lemma sum_all w ks L : NoDup ks ->
  (forall e, In e L -> starts_with aeq w (fst e) = true -> fst e = w \/ exists a, In a ks /\ starts_with aeq (w ++ [a]) (fst e) = true) ->
  length (through w L) = length (ended w L) + sum_through w ks L.
Proof.
  intros ND. induction L as [|e L IH]; intros H; [now rewrite sum_through_nil|].
  rewrite sum_through_cons. change (e :: L) with ([e] ++ L) at 1 2. rewrite through_app, ended_app, !app_length.
  rewrite (@sum_one w ks e ND), IH; [lia| |]; intros; apply H; auto; [now right|now left].
Qed.

(** The visits of a node: playouts that stopped there plus the visits of the children. *)
Lemma children_sum h root L w i n : inv aeq h root L -> at_path h root w i -> nth_error h i = Some n ->
  n_visits n = length (ended w L) + sum_visits h (n_children n).
Proof.
  intros IV AT En. pose proof (in_shape IV) as SH. destruct (in_stat IV AT En) as [-> _].
  rewrite (@sum_all w (map fst (n_children n)) L (sh_fst SH En)).
  - f_equal. assert (K : forall a c, In (a, c) (n_children n) -> at_path h root (w ++ [a]) c) by (intros; apply at_snoc; eauto).
    revert K. induction (n_children n) as [|[a c] kids IH]; intros K; [reflexivity|].
    unfold sum_through, sum_visits in *. cbn [map fst fold_right snd]. rewrite IH by (intros; apply K; now right).
    f_equal. specialize (K a c (or_introl eq_refl)). destruct (at_node SH K) as [m Em]. rewrite Em. destruct (in_stat IV K Em) as [-> _]. reflexivity.
  - intros e He S. apply starts_with_app in S. destruct S as [[|a t] S]; [left; now rewrite app_nil_r in S|right]. exists a.
    destruct (in_rec IV He) as [j Hj]. rewrite S in Hj. change (a :: t) with ([a] ++ t) in Hj. rewrite app_assoc in Hj.
    apply at_app in Hj. destruct Hj as [c [Hc _]]. apply at_snoc in Hc. destruct Hc as [i' [n' [H1 [H2 H3]]]].
    pose proof (at_fun SH H1 AT). subst i'. rewrite En in H2. injection H2 as <-. split; [apply (in_map fst) in H3; exact H3|].
    apply starts_with_app. exists t. rewrite S, <- app_assoc. reflexivity.
Qed.

Context (py2 : bool) (order : list (A * nat) -> list (A * nat)) (fsqrt : nat -> Qc).
Hypothesis OP : forall l, Permutation (order l) l.
Context (St : Type) (do_move : St -> A -> St) (policy rollout : St -> list (A * Qc)) (value : St -> Qc)
  (winner current_player : St -> Z).
Notation leaf_value := (leaf_value do_move rollout value winner current_player).
Notation playout := (playout aeq py2 order fsqrt do_move policy rollout value winner current_player).
Notation playouts := (playouts aeq py2 order fsqrt do_move policy rollout value winner current_player).
Notation get_move := (get_move aeq py2 order fsqrt do_move policy rollout value winner current_player).
Notation run := (run aeq py2 order fsqrt do_move policy rollout value winner current_player).
Notation minv := (minv aeq).

Lemma run_ok ops : py2 = true -> forall m L, minv m L ->
  exists m' L', run ops m L = Some (Ok (m', L')) /\ minv m' L' /\ same_settings m m'.
Proof.
  intros P2. induction ops as [|[s d|a] ops IH]; intros m L IV; cbn [SMcts.run].
  - exists m, L. split; [reflexivity|]. split; [exact IV|]. now destruct m.
  - destruct (playout_spec fsqrt OP do_move policy rollout value winner current_player s d P2 IV) as [m1 [acts [E [IV1 [_ [SS _]]]]]].
    rewrite E. destruct (IH _ _ IV1) as [m' [L' [E' [IV' SS']]]]. exists m', L'. split; [exact E'|]. split; [exact IV'|].
    eapply settings_trans; eauto.
  - destruct (update_with_move_spec a IV) as [m1 [E [IV1 [SS _]]]]. rewrite E.
    destruct (IH _ _ IV1) as [m' [L' [E' [IV' SS']]]]. exists m', L'. split; [exact E'|]. split; [exact IV'|].
    eapply settings_trans; eauto.
Qed.

Lemma playout_py3 m L s d : py2 = false -> minv m L ->
  playout m s d = Some (Raise AttributeError) \/ exists m' en, playout m s d = Some (Ok (m', en)) /\ minv m' (L ++ [en]).
Proof.
  intros P2 IV. unfold MMcts.playout.
  destruct (descend_py3 OP do_move policy d P2 s IV (at_here _ _)) as [->| ->]; [now left|right].
  set (lv := leaf_value m s).
  destruct (update_recursive_ok fsqrt lv (m_c_puct m) (in_shape IV) (at_here _ _) (Nat.lt_succ_diag_r _)) as [h2 [E2 _]].
  rewrite E2. eexists _, _. split; [reflexivity|]. unfold LMcts3.minv. cbn. exact (playout_inv IV (at_here _ _) E2).
Qed.

Lemma run_py3 ops : py2 = false -> forall m L, minv m L ->
  run ops m L = Some (Raise AttributeError) \/ exists m' L', run ops m L = Some (Ok (m', L')) /\ minv m' L'.
Proof.
  intros P2. induction ops as [|[s d|a] ops IH]; intros m L IV; cbn [SMcts.run].
  - right. eauto.
  - destruct (playout_py3 s d P2 IV) as [->|[m1 [en [-> IV1]]]]; [now left|]. apply IH. exact IV1.
  - destruct (update_with_move_spec a IV) as [m1 [E [IV1 [SS _]]]]. rewrite E. apply IH. exact IV1.
Qed.

Lemma get_move_py3 m L s : py2 = false -> minv m L -> get_move m s = Some (Raise AttributeError).
Proof.
  intros P2 IV. unfold MMcts.get_move.
  assert (K : forall k m L, minv m L -> playouts k m s = Some (Raise AttributeError) \/ exists m' L' ens, playouts k m s = Some (Ok (m', ens)) /\ minv m' L').
  { clear m L IV. induction k as [|k IH]; intros m L IV; cbn [MMcts.playouts]; [right; eauto|].
    destruct (playout_py3 s (m_L m) P2 IV) as [->|[m1 [en [-> IV1]]]]; [now left|].
    destruct (IH m1 _ IV1) as [->|[m' [L' [ens [-> IV']]]]]; [now left|right; eauto]. }
  destruct (K (m_n_playout m) m L IV) as [->|[m' [L' [ens [-> IV']]]]]; [reflexivity|].
  rewrite (proj1 (most_visited_spec py2 OP IV') P2). reflexivity.
Qed.

Lemma get_move_spec m L s : py2 = true -> minv m L ->
  exists m' ens, minv m' (L ++ ens) /\ length ens = m_n_playout m /\
    (forall acts v, In (acts, v) ens -> v = leaf_value m (fold_left do_move acts s) /\ length acts <= m_L m) /\
    ((exists a c, get_move m s = Some (Ok (m', ens, a)) /\ at_path (m_heap m') (m_root m') [a] c /\
        forall b, length (through [b] (L ++ ens)) <= length (through [a] (L ++ ens))) \/
     (get_move m s = Some (Raise ValueError) /\ (forall a c, ~ at_path (m_heap m') (m_root m') [a] c) /\
        (m_n_playout m = 0 \/ m_L m = 0 \/ policy s = []))).
Proof.
  intros P2 IV. unfold MMcts.get_move.
  destruct (playouts_spec fsqrt OP do_move policy rollout value winner current_player (m_n_playout m) P2 s IV) as [m' [ens [E [IV' [Ln [SS [Rt K]]]]]]].
  rewrite E. exists m', ens. split; [exact IV'|]. split; [exact Ln|]. split; [intros acts v I; destruct (K acts v I) as [K1 [K2 _]]; auto|].
  destruct (most_visited_spec py2 OP IV') as [_ [MV MS]].
  destruct (sh_root (in_shape IV')) as [n [En _]]. destruct (n_children n) as [|[a c] kids] eqn:Ek.
  - right. assert (NA : forall a c, ~ at_path (m_heap m') (m_root m') [a] c).
    { intros a c H. inversion H as [|i n' b d w j E' I H']; subst. rewrite En in E'. injection E' as <-. rewrite Ek in I. destruct I. }
    rewrite (MV P2 NA). split; [reflexivity|]. split; [exact NA|].
    destruct ens as [|[acts v] ens]; [left; now rewrite <- Ln|right].
    destruct (K acts v (or_introl eq_refl)) as [_ [_ Nn]]. destruct (m_L m) as [|d]; [now left|right].
    destruct (policy s) as [|ap aps]; [reflexivity|exfalso]. 
    assert (Na : acts <> []) by (apply Nn; [lia|discriminate]). destruct acts as [|a acts]; [contradiction|].
    destruct (in_rec IV' (e := (a :: acts, v))) as [i Hi]; [apply in_or_app; right; now left|]. cbn [fst] in Hi.
    change (a :: acts) with ([a] ++ acts) in Hi. apply at_app in Hi. destruct Hi as [j [Hj _]]. exact (NA a j Hj).
  - left. destruct MS as [a' [c' [E2 [H1 H2]]]]; [exact P2| |rewrite E2; cbn [bind]; eauto].
    exists a, c. econstructor; [exact En|rewrite Ek; now left|constructor].
Qed.
End L.
