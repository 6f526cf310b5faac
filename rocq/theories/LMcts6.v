(** Rollouts. *)
From Verif Require Import Base LBase BaseQ LQ MMcts SMcts.
Lemma bind_ok A B (m : res A) (f : A -> res B) b : bind m f = Ok b <-> exists a, m = Ok a /\ f a = Ok b.
Proof. destruct m as [a|e]; cbn; split; [eauto|intros (a' & [= <-] & H); exact H|discriminate|intros (a' & H & _); discriminate H]. Qed.
Set Implicit Arguments.
Unset Strict Implicit.
Open Scope nat_scope.

Lemma max_loop_first A (l : list (A * Qc)) : forall a p pre, (forall b q, In (b, q) pre -> (q <= p)%Qc) ->
  forall l0 mid, pre = l0 ++ (a, p) :: mid -> (forall b q, In (b, q) l0 -> (q < p)%Qc) ->
  first_best (pre ++ l) (max_loop a p l).
Proof.
  induction l as [|[x k] l IH]; intros a p pre H l0 mid E H0.
  - rewrite app_nil_r. cbn. exists l0, p, mid. split; [exact E|]. split; [exact H0|]. intros b q I. apply (H b). rewrite E. apply in_or_app. right. now right.
  - cbn [max_loop]. replace (pre ++ (x, k) :: l) with ((pre ++ [(x, k)]) ++ l) by (rewrite <- app_assoc; reflexivity).
    destruct (Qcltb p k) eqn:C.
    + apply Qcltb_lt in C. apply (IH x k (pre ++ [(x, k)])) with (l0 := pre) (mid := []); [|reflexivity|].
      * intros b q I. apply in_app_or in I as [I|[[= <- <-]|[]]]; [|apply Qcle_refl]. apply Qclt_le_weak. eapply Qcle_lt_trans; [eapply H; eauto|exact C].
      * intros b q I. eapply Qcle_lt_trans; [eapply H; eauto|exact C].
    + assert (K : (k <= p)%Qc). { apply Qcnot_lt_le. intros L. apply Qcltb_lt in L. congruence. }
      apply (IH a p (pre ++ [(x, k)])) with (l0 := l0) (mid := mid ++ [(x, k)]); [| |exact H0].
      * intros b q I. apply in_app_or in I as [I|[[= <- <-]|[]]]; [eapply H; eauto|exact K].
      * rewrite E, <- app_assoc. reflexivity.
Qed.
Lemma first_best_fun A (l : list (A * Qc)) a b : first_best l a -> first_best l b -> a = b.
Proof.
  intros (l1 & p & l2 & E & L & R) (m1 & q & m2 & E' & L' & R'). subst l.
  revert m1 E' L'. induction l1 as [|[x k] l1 IH]; intros m1 E' L'.
  - destruct m1 as [|[y j] m1]; cbn in E'; [injection E'; auto|]. injection E' as <- <- E'. exfalso.
    assert (p < q)%Qc by (apply (L' a); now left). assert (q <= p)%Qc by (apply (R b); rewrite E'; apply in_or_app; right; now left).
    eapply Qclt_not_le; eauto.
  - destruct m1 as [|[y j] m1]; cbn in E'.
    + injection E' as <- <- E'. exfalso. assert (k < p)%Qc by (apply (L x); now left). assert (p <= k)%Qc by (apply (R' a); rewrite <- E'; apply in_or_app; right; now left).
      eapply Qclt_not_le; eauto.
    + injection E' as <- <- E'. apply (IH) with m1; [|exact E'|]; intros; [eapply L; right; eauto|eapply L'; right; eauto].
Qed.

Section R.
Context (A S : Type) (do_move : S -> A -> S) (rollout : S -> list (A * Qc)) (winner current_player : S -> Z).
Lemma rollout_rolled limit : forall s, rolled do_move rollout limit s (rollout_loop do_move rollout limit s).
Proof.
  induction limit as [|k IH]; intros s; cbn [rollout_loop]; [constructor|].
  destruct (rollout s) as [|[a p] t] eqn:E; [now apply rolled_over|]. apply rolled_move with (max_loop a p t); [|apply IH].
  rewrite E. apply (@max_loop_first A t a p [(a, p)]) with (l0 := []) (mid := []); [|reflexivity|intros b q []].
  intros b q [[= <- <-]|[]]. apply Qcle_refl.
Qed.
Lemma rolled_fun limit s s1 s2 : rolled do_move rollout limit s s1 -> rolled do_move rollout limit s s2 -> s1 = s2.
Proof.
  intros H. revert s2. induction H as [s|k s E|k s a s' B H IH]; intros s2 H2.
  - inversion H2; reflexivity.
  - inversion H2 as [|? ? E'|? ? b ? B' H']; subst; [reflexivity|reflexivity|]. destruct B' as (l1 & p & l2 & E' & _). rewrite E in E'. destruct l1; discriminate.
  - inversion H2 as [|? ? E'|? ? b ? B' H']; subst.
    + destruct B as (l1 & p & l2 & E & _). rewrite E' in E. destruct l1; discriminate.
    + rewrite (first_best_fun B B') in IH. apply IH, H'.
Qed.
Lemma evaluate_scored s limit : scored do_move rollout winner current_player limit s (evaluate_rollout do_move rollout winner current_player s limit).
Proof.
  exists (rollout_loop do_move rollout limit s). split; [apply rollout_rolled|]. unfold evaluate_rollout, verdict.
  destruct (Z.eqb_spec (winner (rollout_loop do_move rollout limit s)) 0) as [E|N]; [left; auto|].
  destruct (Z.eqb_spec (winner (rollout_loop do_move rollout limit s)) (current_player s)) as [E'|N']; [right; left; auto|right; right; auto].
Qed.
Lemma scored_fun limit s z z' : scored do_move rollout winner current_player limit s z -> scored do_move rollout winner current_player limit s z' -> z = z'.
Proof.
  intros (s1 & R & V) (s2 & R' & V'). assert (s2 = s1) by (eapply rolled_fun; eauto). subst s2. unfold verdict in *. intuition congruence.
Qed.
End R.

(** ** expansion *)
Section E.
Context (A : Type) (aeq : forall a b : A, {a = b} + {a <> b}).
Lemma child_iff a (l : list (A * nat)) : child aeq a l = None <-> ~ In a (map fst l).
Proof.
  unfold child. destruct (find _ l) as [[b c]|] eqn:F.
  - apply find_some in F as [I E]. cbn in E. destruct (aeq b a) as [->|]; [|discriminate]. split; [discriminate|]. intros H. exfalso. apply H. now apply (in_map fst) in I.
  - split; [|reflexivity]. intros _ I. apply in_map_iff in I as ([b c] & <- & I). pose proof (find_none _ _ F _ I) as K. cbn in K. destruct (aeq b b); congruence.
Qed.
Lemma expand_all aps : forall (h : heap A) self n, nth_error h self = Some n ->
  exists h' added, expand aeq h self aps = Ok h' /\ fresh_actions (map fst (n_children n)) aps added /\
    nth_error h' self = Some (mkNode (n_parent n) (n_children n ++ combine (map fst added) (seq (length h) (length added))) (n_visits n) (n_Q n) (n_u n) (n_P n)) /\
    (forall i, i <> self -> i < length h -> nth_error h' i = nth_error h i) /\
    length h' = length h + length added /\
    (forall k a p, nth_error added k = Some (a, p) -> nth_error h' (length h + k) = Some (mkNode (Some self) [] 0 (Zc 0) p p)).
Proof.
  induction aps as [|[a p] aps IH]; intros h self n En.
  - exists h, []. cbn [expand]. split; [reflexivity|]. split; [constructor|]. cbn. rewrite app_nil_r. split; [destruct n; exact En|]. split; [auto|]. split; [lia|].
    intros k a p E. destruct k; discriminate.
  - cbn [expand]. rewrite (proj2 (get_nth_ok _ _ _) En). cbn [bind]. destruct (child aeq a (n_children n)) as [c|] eqn:C.
    + destruct (IH h self n En) as (h' & added & E & F & H). exists h', added. split; [exact E|]. split; [|exact H]. apply fresh_old; [|exact F].
      destruct (in_dec aeq a (map fst (n_children n))) as [I|N]; [exact I|]. apply child_iff in N. congruence.
    + apply child_iff in C. assert (Ls : self < length h) by (apply nth_error_Some; congruence).
      rewrite set_nth_ok by exact Ls. cbn [bind].
      set (n1 := set_children n (n_children n ++ [(a, length h)])). set (h1 := upd h self n1 ++ [TreeNode_new A (Some self) p]).
      assert (En1 : nth_error h1 self = Some n1) by (unfold h1; rewrite nth_error_app1 by (rewrite upd_length; exact Ls); rewrite nth_error_upd, Nat.eqb_refl; apply Nat.ltb_lt in Ls; rewrite Ls; reflexivity).
      assert (L1 : length h1 = S (length h)) by (unfold h1; rewrite app_length, upd_length; cbn; lia).
      destruct (IH h1 self n1 En1) as (h' & added & E & F & H1 & H2 & H3 & H4). exists h', ((a, p) :: added).
      split; [exact E|]. split; [apply fresh_new; [exact C|]; unfold n1 in F; cbn in F; rewrite map_app in F; exact F|].
      split; [|split; [|split]].
      * rewrite H1, L1. unfold n1. cbn. rewrite <- app_assoc. reflexivity.
      * intros i Ni Li. rewrite H2 by (auto; lia). unfold h1. rewrite nth_error_app1 by (rewrite upd_length; exact Li). rewrite nth_error_upd. destruct (Nat.eqb_spec self i); [congruence|reflexivity].
      * rewrite H3, L1. cbn. lia.
      * intros [|k] b q E'.
        -- injection E' as <- <-. rewrite Nat.add_0_r, H2 by lia. unfold h1. rewrite nth_error_app2 by (rewrite upd_length; lia). rewrite upd_length, Nat.sub_diag. reflexivity.
        -- cbn in E'. replace (length h + S k) with (length h1 + k) by lia. eapply H4, E'.
Qed.
End E.

(** ** length of a descent *)
Section D.
Context (A : Type) (aeq : forall a b : A, {a = b} + {a <> b}) (py2 : bool) (order : list (A * nat) -> list (A * nat)) (fsqrt : nat -> Qc).
Context (S : Type) (do_move : S -> A -> S) (policy rollout : S -> list (A * Qc)) (value : S -> Qc) (winner current_player : S -> Z).
Lemma descend_full depth : forall h nd state h' e s' acts, descend aeq py2 order do_move policy depth h nd state = Ok (h', e, s', acts) ->
  s' = fold_left do_move acts state /\ (length acts = depth \/ length acts < depth /\ policy s' = []).
Proof.
  induction depth as [|d IH]; intros h nd state h' e s' acts E; cbn [descend] in E.
  - injection E as <- <- <- <-. split; [reflexivity|now left].
  - apply bind_ok in E as (n & _ & E).
    assert (step : forall h1, (do ac <- select py2 order h1 nd; let '(action, nd') := ac in
         do r <- descend aeq py2 order do_move policy d h1 nd' (do_move state action);
         let '(h', e, s', acts) := r in Ok (h', e, s', action :: acts)) = Ok (h', e, s', acts) ->
      s' = fold_left do_move acts state /\ (length acts = Datatypes.S d \/ length acts < Datatypes.S d /\ policy s' = [])).
    { intros h1 K. apply bind_ok in K as ([a c] & _ & K). apply bind_ok in K as ([[[h2 e2] s2] acts2] & D & K). injection K as <- <- <- <-.
      destruct (IH _ _ _ _ _ _ _ D) as (-> & [L|[L P]]); cbn; (split; [reflexivity|]); [left; lia|right; split; [lia|exact P]]. }
    destruct (is_leaf n); [|exact (step _ E)]. destruct (policy state) as [|ap aps] eqn:P.
    + injection E as <- <- <- <-. split; [reflexivity|]. right. split; [cbn; lia|exact P].
    + apply bind_ok in E as (h1 & _ & E). exact (step _ E).
Qed.
Lemma playout_full m s d m' acts lv : playout aeq py2 order fsqrt do_move policy rollout value winner current_player m s d = Some (Ok (m', (acts, lv))) ->
  length acts = d \/ length acts < d /\ policy (fold_left do_move acts s) = [].
Proof.
  unfold playout. destruct (descend aeq py2 order do_move policy d (m_heap m) (m_root m) s) as [[[[h nd] s'] acts']|] eqn:E; [|discriminate].
  apply descend_full in E as (-> & H). destruct (update_recursive _ _ _ _ _ _) as [[h'|]|]; try discriminate. intros [= _ <- _]. exact H.
Qed.
End D.
