(** Which children of a node the tree search tries. *)
From Verif Require Import Base LBase BaseQ LQ MMcts SMcts LMcts LMcts2 LMcts3 LMcts4 LMcts5.
Set Implicit Arguments.
Unset Strict Implicit.
Open Scope nat_scope.

Section L.
Context (A : Type) (aeq : forall a b : A, {a = b} + {a <> b}).
Notation heap := (heap A).
Notation node := (node A).
Notation through := (through aeq).
Notation upto := (upto aeq).
Notation inv := (inv aeq).

(** ** numbers *)
Lemma total_lower lo (L : @log A) : Forall (fun e => lo <= snd e)%Qc L -> (lo * Zc (Z.of_nat (length L)) <= total L)%Qc.
Proof.
  induction 1 as [|e L H F IH]; cbn [length].
  - cbn. unfold total. cbn. rewrite Zc_0. qclra.
  - rewrite total_cons. replace (Z.of_nat (S (length L))) with (Z.of_nat (length L) + 1)%Z by lia. rewrite Zc_plus, Zc_1.
    replace (lo * (Zc (Z.of_nat (length L)) + 1))%Qc with (lo * Zc (Z.of_nat (length L)) + lo)%Qc by ring. qclra.
Qed.
Lemma total_upper hi (L : @log A) : Forall (fun e => snd e <= hi)%Qc L -> (total L <= hi * Zc (Z.of_nat (length L)))%Qc.
Proof.
  induction 1 as [|e L H F IH]; cbn [length].
  - cbn. unfold total. cbn. rewrite Zc_0. qclra.
  - rewrite total_cons. replace (Z.of_nat (S (length L))) with (Z.of_nat (length L) + 1)%Z by lia. rewrite Zc_plus, Zc_1.
    replace (hi * (Zc (Z.of_nat (length L)) + 1))%Qc with (hi * Zc (Z.of_nat (length L)) + hi)%Qc by ring. qclra.
Qed.
Lemma Zc_len_pos T (l : list T) : l <> [] -> (0 < Zc (Z.of_nat (length l)))%Qc.
Proof. intros N. rewrite <- Zc_0. apply Zc_lt. destruct l; [contradiction|cbn; lia]. Qed.
Lemma le_cancel x y k : (0 < k)%Qc -> (x * k <= y * k)%Qc -> (x <= y)%Qc.
Proof. intros K H. destruct (Qcle_lt_or_eq 0 k (Qclt_le_weak _ _ K)) as [_|E]; apply Qcnot_lt_le; intros C; apply (Qcle_not_lt _ _ H); apply Qcmult_lt_compat_r; assumption. Qed.
Lemma mean_lower lo Q (L : @log A) : L <> [] -> Forall (fun e => lo <= snd e)%Qc L -> (Q * Zc (Z.of_nat (length L)) = total L)%Qc -> (lo <= Q)%Qc.
Proof. intros N F E. apply (le_cancel (Zc_len_pos N)). rewrite E. now apply total_lower. Qed.
Lemma mean_upper hi Q (L : @log A) : L <> [] -> Forall (fun e => snd e <= hi)%Qc L -> (Q * Zc (Z.of_nat (length L)) = total L)%Qc -> (Q <= hi)%Qc.
Proof. intros N F E. apply (le_cancel (Zc_len_pos N)). rewrite E. now apply total_upper. Qed.
Lemma through_Forall (P : list A * Qc -> Prop) w L : Forall P L -> Forall P (through w L).
Proof. rewrite !Forall_forall. intros H e He. apply filter_In in He. now apply H. Qed.
Lemma mult_nonneg x y : (0 <= x -> 0 <= y -> 0 <= x * y)%Qc.
Proof. intros X Y. replace 0%Qc with (0 * y)%Qc by ring. now apply Qcmult_le_compat_r. Qed.
Lemma div_nonneg x k : (0 <= x -> 0 < k -> 0 <= x / k)%Qc.
Proof.
  intros X K. apply (le_cancel K). unfold Qcdiv. rewrite <- Qcmult_assoc, (Qcmult_comm (/ k)), Qcmult_inv_r by (intros E; rewrite E in K; now apply Qclt_not_eq in K).
  now rewrite Qcmult_0_l, Qcmult_1_r.
Qed.

(** ** priors stay *)
Definition keepsP (h h' : heap) : Prop := forall i n, nth_error h i = Some n -> exists n', nth_error h' i = Some n' /\ n_P n' = n_P n.
Lemma keepsP_refl h : keepsP h h.
Proof. intros i n E. eauto. Qed.
Lemma keepsP_trans h1 h2 h3 : keepsP h1 h2 -> keepsP h2 h3 -> keepsP h1 h3.
Proof. intros H1 H2 i n E. destruct (H1 i n E) as [n2 [E2 P2]]. destruct (H2 i n2 E2) as [n3 [E3 P3]]. exists n3. split; [exact E3|congruence]. Qed.
Lemma expand_keepsP aps : forall (h : heap) self h', expand aeq h self aps = Ok h' -> keepsP h h'.
Proof.
  induction aps as [|[a p] aps IH]; intros h self h'; cbn [expand].
  - intros E. injection E as <-. apply keepsP_refl.
  - destruct (get_nth h self) as [n|] eqn:En; [|discriminate]. cbn [bind]. apply get_nth_ok in En.
    destruct (child aeq a (n_children n)); [apply IH|].
    assert (Ls : self < length h) by (apply nth_error_Some; congruence). rewrite set_nth_ok by exact Ls. cbn [bind].
    intros E. apply IH in E. eapply keepsP_trans; [|exact E]. intros i x Ex.
    assert (Li : i < length h) by (apply nth_error_Some; congruence).
    rewrite nth_error_app1 by (now rewrite upd_length). destruct (Nat.eq_dec i self) as [->|Ni].
    + rewrite nth_error_upd, Nat.eqb_refl, (proj2 (Nat.ltb_lt _ _) Ls). eexists. split; [reflexivity|]. rewrite En in Ex. injection Ex as <-. reflexivity.
    + rewrite nth_error_upd, (proj2 (Nat.eqb_neq _ _)) by auto. eauto.
Qed.

Context (py2 : bool) (order : list (A * nat) -> list (A * nat)) (fsqrt : nat -> Qc) (cp : Qc).
Hypothesis OP : forall l, Permutation (order l) l.
Context (St : Type) (do_move : St -> A -> St) (policy rollout : St -> list (A * Qc)) (value : St -> Qc)
  (winner current_player : St -> Z).
Lemma descend_keepsP depth : forall h nd state h' e s' acts,
  descend aeq py2 order do_move policy depth h nd state = Ok (h', e, s', acts) -> keepsP h h'.
Proof.
  induction depth as [|d IH]; intros h nd state h' e s' acts; cbn [descend].
  - intros E. injection E as <- <- <- <-. apply keepsP_refl.
  - destruct (get_nth h nd) as [n|]; [|discriminate]. cbn [bind].
    assert (step : forall h1,
        (do ac <- select py2 order h1 nd; let '(action, nd') := ac in
         do r <- descend aeq py2 order do_move policy d h1 nd' (do_move state action);
         let '(h', e, s', acts) := r in Ok (h', e, s', action :: acts)) = Ok (h', e, s', acts) -> keepsP h1 h').
    { intros h1. destruct (select py2 order h1 nd) as [[a c]|]; [|discriminate]. cbn [bind].
      destruct (descend aeq py2 order do_move policy d h1 c (do_move state a)) as [[[[x1 x2] x3] x4]|] eqn:E; [|discriminate]. cbn [bind].
      intros J. injection J as <- <- <- <-. exact (IH _ _ _ _ _ _ _ E). }
    destruct (is_leaf n); [|exact (step h)].
    destruct (policy state) as [|ap aps]; [intros E; injection E as <- <- <- <-; apply keepsP_refl|].
    destruct (expand aeq h nd (ap :: aps)) as [h1|] eqn:E1; [|discriminate]. cbn [bind].
    intros E. eapply keepsP_trans; [exact (expand_keepsP E1)|exact (step h1 E)].
Qed.

Notation playout := (playout aeq py2 order fsqrt do_move policy rollout value winner current_player).
Notation bonus := (bonus aeq fsqrt cp).
Notation mbonus := (mbonus aeq fsqrt cp).
Notation minv := (minv aeq).
Notation greedy := (@greedy A).

(** One playout: the tree it chooses in, and the tree it leaves. *)
Lemma playout_split m L s d m' acts lv : py2 = true -> minv m L -> mbonus m L -> m_c_puct m = cp -> playout m s d = Some (Ok (m', (acts, lv))) ->
  exists h, inv h (m_root m) L /\ bonus h (m_root m) L /\ keeps (m_heap m) h /\ keepsP (m_heap m) h /\ greedy h (m_root m) [] acts /\
    (exists e, at_path h (m_root m) acts e) /\ same_skeleton h (m_heap m') /\ m_root m' = m_root m /\ m_c_puct m' = cp /\
    (forall v i n, at_path h (m_root m) v i -> nth_error h i = Some n -> starts_with aeq v acts = false -> nth_error (m_heap m') i = Some n) /\
    minv m' (L ++ [(acts, lv)]) /\ mbonus m' (L ++ [(acts, lv)]).
Proof.
  intros P2 IV B Ec. unfold MMcts.playout.
  destruct (descend_spec OP do_move policy d P2 (w := []) s IV (at_here _ _)) as [h' [e [s' [acts' [E [IV' [AT [Le [Es [KE [G Nn]]]]]]]]]]].
  pose proof (descend_keepsP E) as KP. destruct (descend_bonus OP (w := []) IV B (at_here _ _) E) as [_ [B1 _]].
  rewrite E. set (lv' := MMcts.leaf_value _ _ _ _ _ _ _). cbn [app] in AT.
  destruct (update_recursive_ok fsqrt lv' cp (in_shape IV') AT (Nat.lt_succ_diag_r e)) as [h2 [E2 [SK U]]]. rewrite Ec, E2.
  intros J. injection J as <- <- <-. exists h'. cbn [m_heap m_root with_tree m_c_puct].
  split; [exact IV'|]. split; [exact B1|]. split; [exact KE|]. split; [exact KP|]. split; [exact G|]. split; [eauto|]. split; [exact SK|].
  split; [reflexivity|]. split; [exact Ec|]. split.
  - intros v i n Hv En SW. destruct (U i n En) as [n' [En' [_ K]]]. rewrite En'. f_equal. apply K.
    intros [v' [t [-> Hv']]]. pose proof (at_inj (in_shape IV') Hv Hv'). subst v'.
    assert (starts_with aeq v (v ++ t) = true) by (apply starts_with_app; eauto). congruence.
  - split; [exact (playout_inv IV' AT E2)|exact (bonus_playout IV' B1 AT E2)].
Qed.
End L.
