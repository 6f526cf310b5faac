(** C97: which actions the tree search tries. *)
From Verif Require Import Base LBase BaseQ LQ MMcts SMcts LMcts LMcts2 LMcts3 LMcts4 LMcts5 LMcts6 LMcts7 LExplore LExplore2 LExplore3 PMcts.
Open Scope nat_scope.

Section P.
Context (A : Type) (aeq : forall a b : A, {a = b} + {a <> b}).
Context (order : list (A * nat) -> list (A * nat)) (fsqrt : nat -> Qc).
Context (OP : forall l, Permutation (order l) l).
Context (St : Type) (do_move : St -> A -> St) (policy rollout : St -> list (A * Qc)) (value : St -> Qc)
  (winner current_player : St -> Z).
Context (lmbda c_puct : Qc) (rollout_limit playout_depth n_playout : nat).
Let new := MCTS_new A lmbda c_puct rollout_limit playout_depth n_playout.
Notation run := (run aeq true order fsqrt do_move policy rollout value winner current_player).
Notation playout := (playout aeq true order fsqrt do_move policy rollout value winner current_player).

Lemma run_all ops m L : run ops new [] = Some (Ok (m, L)) -> minv aeq m L /\ mbonus aeq fsqrt c_puct m L /\ m_c_puct m = c_puct.
Proof.
  intros E. pose proof (new_inv aeq lmbda c_puct rollout_limit playout_depth n_playout) as N0.
  destruct (run_settings OP eq_refl N0 E) as [IV SS]. split; [exact IV|]. split; [|rewrite SS; reflexivity].
  assert (B0 : mbonus aeq fsqrt c_puct new []) by apply new_bonus.
  exact (@run_bonus A aeq fsqrt c_puct true order OP St do_move policy rollout value winner current_player ops new [] m L N0 B0 eq_refl E).
Qed.

Lemma frozen_lemma ops m L s d m' acts lv : run ops new [] = Some (Ok (m, L)) -> playout m s d = Some (Ok (m', (acts, lv))) ->
  forall w i n, at_path (m_heap m) (m_root m) w i -> nth_error (m_heap m) i = Some n -> starts_with aeq w acts = false ->
  exists n', nth_error (m_heap m') i = Some n' /\ n_visits n' = n_visits n /\ n_P n' = n_P n /\ (n_Q n' + n_u n' = n_Q n + n_u n)%Qc.
Proof.
  intros E EP w i n AT En SW. destruct (run_all _ _ _ E) as [IV [B Ec]].
  destruct (playout_split OP eq_refl IV B Ec EP) as (h & IVh & Bh & KE & KP & G & [e ATe] & SK & Rt & Ec' & FR & IV' & B').
  destruct (KE i n En) as [n1 [En1 [Vn _]]]. destruct (KP i n En) as [n2 [En2 Pn]]. rewrite En1 in En2. injection En2 as <-.
  pose proof (keeps_at KE AT) as ATh. exists n1. split; [exact (FR _ _ _ ATh En1 SW)|].
  destruct (in_stat IVh ATh En1) as [-> _]. destruct (in_stat IV AT En) as [-> _]. split; [reflexivity|]. split; [exact Pn|exact Vn].
Qed.

Lemma C97_starved_lemma : (0 <= c_puct)%Qc -> (forall n, 0 <= fsqrt n)%Qc -> forall ops m L, run ops new [] = Some (Ok (m, L)) ->
  forall w i n a ca na b cb nb lo, at_path (m_heap m) (m_root m) w i -> nth_error (m_heap m) i = Some n ->
  In (a, ca) (n_children n) -> In (b, cb) (n_children n) -> nth_error (m_heap m) ca = Some na -> nth_error (m_heap m) cb = Some nb ->
  (n_Q na + n_u na < lo)%Qc -> (0 <= n_P nb)%Qc -> through aeq (w ++ [b]) L <> [] ->
  forall ps m' L', run (map (fun sd : St * nat => Playout (fst sd) (snd sd)) ps) m L = Some (Ok (m', L')) ->
  Forall (fun e => lo <= snd e)%Qc L' -> through aeq (w ++ [a]) L' = through aeq (w ++ [a]) L.
Proof.
  intros CP FS ops m L E w i n a ca na b cb nb lo AT En Ia Ib Ea Eb Va Pb Tb ps m' L' R F. destruct (run_all _ _ _ E) as [IV [B Ec]].
  assert (H : hungry aeq m L w a b lo) by (exists i, n, ca, cb, na, nb; repeat split; auto).
  exact (starved_lemma OP eq_refl CP FS IV B Ec H R F).
Qed.

Context (hi : Qc).
Hypothesis VH : forall s z, scored do_move rollout winner current_player rollout_limit s z ->
  ((Zc 1 - lmbda) * (if Qcltb lmbda (Zc 1) then value s else Zc 0) + lmbda * (if Qcltb (Zc 0) lmbda then Zc z else Zc 0) <= hi)%Qc.
Lemma attention_lemma : (0 <= c_puct)%Qc -> (forall i j, i <= j -> (fsqrt i <= fsqrt j)%Qc) -> forall ops m L, run ops new [] = Some (Ok (m, L)) ->
  attn aeq fsqrt c_puct hi (m_heap m) (m_root m) L.
Proof.
  intros CP FM ops m L E. pose proof (new_inv aeq lmbda c_puct rollout_limit playout_depth n_playout) as N0.
  apply (@attn_run A aeq true order fsqrt c_puct OP eq_refl CP St do_move policy rollout value winner current_player FM ops hi new [] m L N0); auto.
  - apply new_bonus.
  - intros w i n a ca na b cb nb _ _ _ _ _ _ _ _ T. cbn in T. lia.
  - intros ops' mi Li _ R. apply (@run_values A aeq fsqrt true order OP eq_refl St do_move policy rollout value winner current_player (fun v => (v <= hi)%Qc) ops' new [] mi Li N0); auto.
    intros s. unfold leaf_value. cbn [m_lmbda m_rollout_limit new MCTS_new]. apply (VH s). apply evaluate_scored.
Qed.
End P.

(** A playout leaves every node off its path with the value, the prior and the visits it had:
    a node is reconsidered only through its brothers. *)
Theorem C97_frozen : forall A (aeq : forall a b : A, {a = b} + {a <> b}) order fsqrt,
  (forall l, Permutation (order l) l) ->
  forall St (do_move : St -> A -> St) policy rollout value winner current_player lmbda c_puct rollout_limit playout_depth n_playout ops m L,
  run aeq true order fsqrt do_move policy rollout value winner current_player ops
      (MCTS_new A lmbda c_puct rollout_limit playout_depth n_playout) [] = Some (Ok (m, L)) ->
  forall s d m' acts lv, playout aeq true order fsqrt do_move policy rollout value winner current_player m s d = Some (Ok (m', (acts, lv))) ->
  forall w i n, at_path (m_heap m) (m_root m) w i -> nth_error (m_heap m) i = Some n -> starts_with aeq w acts = false ->
  exists n', nth_error (m_heap m') i = Some n' /\ n_visits n' = n_visits n /\ n_P n' = n_P n /\ (n_Q n' + n_u n' = n_Q n + n_u n)%Qc.
Proof. intros. eapply frozen_lemma; eauto. Qed.
Print Assumptions C97_frozen.

(** Once a child's value is below every value propagated so far and a brother has been tried,
    no further playout goes there, however many are made. *)
Theorem C97_starved : forall A (aeq : forall a b : A, {a = b} + {a <> b}) order fsqrt,
  (forall l, Permutation (order l) l) -> (forall n, 0 <= fsqrt n)%Qc ->
  forall St (do_move : St -> A -> St) policy rollout value winner current_player lmbda c_puct rollout_limit playout_depth n_playout, (0 <= c_puct)%Qc ->
  forall ops m L,
  run aeq true order fsqrt do_move policy rollout value winner current_player ops
      (MCTS_new A lmbda c_puct rollout_limit playout_depth n_playout) [] = Some (Ok (m, L)) ->
  forall w i n a ca na b cb nb lo, at_path (m_heap m) (m_root m) w i -> nth_error (m_heap m) i = Some n ->
  In (a, ca) (n_children n) -> In (b, cb) (n_children n) -> nth_error (m_heap m) ca = Some na -> nth_error (m_heap m) cb = Some nb ->
  (n_Q na + n_u na < lo)%Qc -> (0 <= n_P nb)%Qc -> through aeq (w ++ [b]) L <> [] ->
  forall ps m' L',
  run aeq true order fsqrt do_move policy rollout value winner current_player (map (fun sd => Playout (fst sd) (snd sd)) ps) m L = Some (Ok (m', L')) ->
  Forall (fun e => lo <= snd e)%Qc L' ->
  through aeq (w ++ [a]) L' = through aeq (w ++ [a]) L.
Proof.
  intros A aeq order fsqrt OP FS St do_move policy rollout value winner current_player lm cp rl pd np CP.
  exact (C97_starved_lemma A aeq order fsqrt OP St do_move policy rollout value winner current_player lm cp rl pd np CP FS).
Qed.
Print Assumptions C97_starved.

(** While a child is untried, no brother gets more playouts than its prior pays for: with
    values at most [hi], [(P_a - hi) * n_b <= c_puct * P_b * sqrt N]. *)
Theorem C97_attention : forall A (aeq : forall a b : A, {a = b} + {a <> b}) order fsqrt,
  (forall l, Permutation (order l) l) -> (forall i j, i <= j -> (fsqrt i <= fsqrt j)%Qc) ->
  forall St (do_move : St -> A -> St) policy rollout value winner current_player lmbda c_puct rollout_limit playout_depth n_playout hi, (0 <= c_puct)%Qc ->
  (forall s z, scored do_move rollout winner current_player rollout_limit s z ->
     ((Zc 1 - lmbda) * (if Qcltb lmbda (Zc 1) then value s else Zc 0) + lmbda * (if Qcltb (Zc 0) lmbda then Zc z else Zc 0) <= hi)%Qc) ->
  forall ops m L,
  run aeq true order fsqrt do_move policy rollout value winner current_player ops
      (MCTS_new A lmbda c_puct rollout_limit playout_depth n_playout) [] = Some (Ok (m, L)) ->
  forall w i n a ca na b cb nb, at_path (m_heap m) (m_root m) w i -> nth_error (m_heap m) i = Some n ->
  In (a, ca) (n_children n) -> In (b, cb) (n_children n) -> nth_error (m_heap m) ca = Some na -> nth_error (m_heap m) cb = Some nb ->
  (0 <= n_P nb)%Qc -> through aeq (w ++ [a]) L = [] -> 2 <= length (through aeq (w ++ [b]) L) ->
  ((n_P na - hi) * Zc (Z.of_nat (length (through aeq (w ++ [b]) L))) <= c_puct * n_P nb * fsqrt (length (through aeq w L)))%Qc.
Proof.
  intros A aeq order fsqrt OP FM St do_move policy rollout value winner current_player lm cp rl pd np hi CP VH.
  exact (attention_lemma A aeq order fsqrt OP St do_move policy rollout value winner current_player lm cp rl pd np hi VH CP FM).
Qed.
Print Assumptions C97_attention.

(** Hence a child whose prior exceeds every value is tried after enough playouts. *)
Theorem C97_tried : forall A (aeq : forall a b : A, {a = b} + {a <> b}) order fsqrt,
  (forall l, Permutation (order l) l) -> (forall n, 0 <= fsqrt n)%Qc -> (forall i j, i <= j -> (fsqrt i <= fsqrt j)%Qc) ->
  forall St (do_move : St -> A -> St) policy rollout value winner current_player lmbda c_puct rollout_limit playout_depth n_playout hi, (0 <= c_puct)%Qc ->
  (forall s z, scored do_move rollout winner current_player rollout_limit s z ->
     ((Zc 1 - lmbda) * (if Qcltb lmbda (Zc 1) then value s else Zc 0) + lmbda * (if Qcltb (Zc 0) lmbda then Zc z else Zc 0) <= hi)%Qc) ->
  forall ops m L,
  run aeq true order fsqrt do_move policy rollout value winner current_player ops
      (MCTS_new A lmbda c_puct rollout_limit playout_depth n_playout) [] = Some (Ok (m, L)) ->
  forall w i n a ca na, at_path (m_heap m) (m_root m) w i -> nth_error (m_heap m) i = Some n ->
  (forall b cb nb, In (b, cb) (n_children n) -> nth_error (m_heap m) cb = Some nb -> (0 <= n_P nb)%Qc) ->
  In (a, ca) (n_children n) -> nth_error (m_heap m) ca = Some na -> (hi <= n_P na)%Qc ->
  (c_puct * sum_priors (m_heap m) (n_children n) * fsqrt (length (through aeq w L)) <
   (n_P na - hi) * Zc (Z.of_nat (length (through aeq w L)) - Z.of_nat (length (ended aeq w L)) - Z.of_nat (length (n_children n))))%Qc ->
  through aeq (w ++ [a]) L <> [].
Proof.
  intros A aeq order fsqrt OP FS FM St do_move policy rollout value winner current_player lm cp rl pd np hi CP VH ops m L E w i n a ca na AT En PP Ia Ea Hi LT.
  destruct (run_all A aeq order fsqrt OP St do_move policy rollout value winner current_player lm cp rl pd np _ _ _ E) as [IV _].
  pose proof (attention_lemma A aeq order fsqrt OP St do_move policy rollout value winner current_player lm cp rl pd np hi VH CP FM ops m L E) as AI.
  exact (tried_lemma CP FS IV AI AT En PP Ia Ea Hi LT).
Qed.
Print Assumptions C97_tried.

(** With a square root: [4 * (c_puct * sum of priors)^2 / (P_a - hi)^2] playouts are enough,
    if at least half of them go on to distinct children. *)
Theorem C97_tried_sqrt : forall A (aeq : forall a b : A, {a = b} + {a <> b}) order fsqrt,
  (forall l, Permutation (order l) l) -> (forall n, 0 <= fsqrt n)%Qc -> (forall i j, i <= j -> (fsqrt i <= fsqrt j)%Qc) ->
  (forall n, fsqrt n * fsqrt n <= Zc (Z.of_nat n))%Qc ->
  forall St (do_move : St -> A -> St) policy rollout value winner current_player lmbda c_puct rollout_limit playout_depth n_playout hi, (0 <= c_puct)%Qc ->
  (forall s z, scored do_move rollout winner current_player rollout_limit s z ->
     ((Zc 1 - lmbda) * (if Qcltb lmbda (Zc 1) then value s else Zc 0) + lmbda * (if Qcltb (Zc 0) lmbda then Zc z else Zc 0) <= hi)%Qc) ->
  forall ops m L,
  run aeq true order fsqrt do_move policy rollout value winner current_player ops
      (MCTS_new A lmbda c_puct rollout_limit playout_depth n_playout) [] = Some (Ok (m, L)) ->
  forall w i n a ca na, at_path (m_heap m) (m_root m) w i -> nth_error (m_heap m) i = Some n ->
  (forall b cb nb, In (b, cb) (n_children n) -> nth_error (m_heap m) cb = Some nb -> (0 <= n_P nb)%Qc) ->
  In (a, ca) (n_children n) -> nth_error (m_heap m) ca = Some na -> (hi <= n_P na)%Qc ->
  let N := length (through aeq w L) in let C := (c_puct * sum_priors (m_heap m) (n_children n))%Qc in let g := (n_P na - hi)%Qc in
  2 * (length (ended aeq w L) + length (n_children n)) <= N -> (Zc 4 * (C * C) < g * g * Zc (Z.of_nat N))%Qc ->
  through aeq (w ++ [a]) L <> [].
Proof.
  intros A aeq order fsqrt OP FS FM FQ St do_move policy rollout value winner current_player lm cp rl pd np hi CP VH ops m L E w i n a ca na AT En PP Ia Ea Hi N C g N2 LT.
  eapply C97_tried; eauto. fold N C g.
  replace (Z.of_nat N - Z.of_nat (length (ended aeq w L)) - Z.of_nat (length (n_children n)))%Z with (Z.of_nat N - Z.of_nat (length (ended aeq w L) + length (n_children n)))%Z by lia.
  apply enough; auto.
  - unfold g. qclra.
  - unfold C. apply mult_nonneg; [exact CP|]. clear - PP. induction (n_children n) as [|[b cb] l IH]; [cbn; rewrite Zc_0; apply Qcle_refl|].
    cbn [sum_priors fold_right snd]. fold (sum_priors (m_heap m) l).
    assert (0 <= sum_priors (m_heap m) l)%Qc by (apply IH; intros b' cb' nb I En; apply (PP b' cb' nb (or_intror I) En)).
    destruct (nth_error (m_heap m) cb) as [nb|] eqn:En; [pose proof (PP b cb nb (or_introl eq_refl) En)|rewrite Zc_0]; qclra.
Qed.
Print Assumptions C97_tried_sqrt.

(** ** more playouts need not find the better move *)
(** One move, to be chosen from two; the second leads to the better position, the policy
    prefers the first. *)
Definition tw_policy (s : option nat) : list (nat * Qc) := match s with None => [(0, Q2Qc (9#10)); (1, Q2Qc (1#10))] | Some _ => [] end.
Definition tw_do_move (s : option nat) (a : nat) : option nat := Some a.
Definition tw_value (s : option nat) : Qc := match s with Some 1 => Zc 1 | _ => Q2Qc (1#2) end.
Definition tw_player (s : option nat) : Z := 1%Z.
Definition tw_new (n : nat) := MCTS_new nat (Zc 0) (Zc 5) 10 1 n.
Definition tw_run := run Nat.eq_dec true (@rev _) nim_sqrt tw_do_move tw_policy tw_policy tw_value tw_player tw_player.
Definition tw_get_move := get_move Nat.eq_dec true (@rev _) nim_sqrt tw_do_move tw_policy tw_policy tw_value tw_player tw_player.

Lemma rev_perm T (l : list T) : Permutation (rev l) l.
Proof. apply Permutation_sym, Permutation_rev. Qed.
Lemma nim_sqrt_nonneg n : (0 <= nim_sqrt n)%Qc.
Proof.
  unfold nim_sqrt, Qcle. rewrite !this_Q2Qc. unfold Qle. cbn [Qnum Qden]. pose proof (Z.sqrt_nonneg (Z.of_nat n * 1000000)). lia.
Qed.
Lemma tw_half s : (Q2Qc (1#2) <= leaf_value tw_do_move tw_policy tw_value tw_player tw_player (tw_new 0) s)%Qc.
Proof. destruct s as [[|[|k]]|]; vm_compute; discriminate. Qed.

(** The state after one playout, without the number of playouts. *)
Lemma tw_first n : exists m1 lv, playout Nat.eq_dec true (@rev _) nim_sqrt tw_do_move tw_policy tw_policy tw_value tw_player tw_player (tw_new n) None 1 = Some (Ok (m1, ([0], lv))) /\
  exists i r ca cb na nb, at_path (m_heap m1) (m_root m1) [] i /\ nth_error (m_heap m1) i = Some r /\ n_children r = [(0, cb); (1, ca)] /\
  nth_error (m_heap m1) ca = Some na /\ nth_error (m_heap m1) cb = Some nb /\ (n_Q na + n_u na < Q2Qc (1#2))%Qc /\ (0 <= n_P nb)%Qc.
Proof.
  eexists _, _. split; [vm_compute; reflexivity|]. eexists 0, _, 2, 1, _, _. cbn [m_heap m_root]. split; [constructor|]. split; [reflexivity|]. split; [reflexivity|].
  split; [reflexivity|]. split; [reflexivity|]. split; [vm_compute; reflexivity|vm_compute; discriminate].
Qed.

(** However many playouts, at least one: the first move is returned and the second never tried. *)
Theorem C97_refuted : (tw_value (tw_do_move None 0) < tw_value (tw_do_move None 1))%Qc /\
  forall n, 0 < n -> exists m ens, tw_get_move (tw_new n) None = Some (Ok (m, ens, 0)) /\ length ens = n /\ through Nat.eq_dec [1] ens = [].
Proof.
  split; [vm_compute; reflexivity|]. intros [|n] Hn; [lia|]. clear Hn. pose proof (rev_perm (nat * nat)) as OP.
  destruct (C64_get_move nat Nat.eq_dec (@rev _) nim_sqrt OP (option nat) tw_do_move tw_policy tw_policy tw_value tw_player tw_player (Zc 0) (Zc 5) 10 1 (S n) [] _ _ eq_refl None)
    as (m' & ens & _ & Ln & K). destruct K as [(a & c & E & AT & MV)|(_ & _ & [C|[C|C]])]; [|discriminate C..]. cbn [app] in MV.
  change (tw_get_move (tw_new (S n)) None = Some (Ok (m', ens, a))) in E. pose proof E as E0. unfold tw_get_move, get_move in E. 
  change (m_n_playout (tw_new (S n))) with (S n) in E. 
  destruct (playouts _ _ _ _ _ _ _ _ _ _ (S n) (tw_new (S n)) None) as [[[m2 ens2]|]|] eqn:EP; try discriminate.
  assert (m2 = m' /\ ens2 = ens) as [-> ->] by (destruct (most_visited _ _ m2); cbn in E; [injection E; auto|discriminate]). clear E.
  pose proof (new_inv Nat.eq_dec (Zc 0) (Zc 5) 10 1 (S n)) as N0. pose proof (run_playouts OP eq_refl N0 EP) as R. cbn [app] in R.
  change (m_L (MCTS_new nat (Zc 0) (Zc 5) 10 1 (S n))) with 1 in R.
  assert (HV : Forall (fun e => Q2Qc (1#2) <= snd e)%Qc ens).
  { apply (run_values OP eq_refl (Q := fun v => (Q2Qc (1#2) <= v)%Qc) N0 tw_half (Forall_nil _) R). }
  pose proof (C79_tree nat Nat.eq_dec true (@rev _) nim_sqrt OP (option nat) tw_do_move tw_policy tw_policy tw_value tw_player tw_player (Zc 0) (Zc 5) 10 1 (S n) _ _ _ R) as G.
  destruct (tw_first (S n)) as (m1 & lv & E1 & i & r & ca & cb & na & nb & A1 & Er & Ck & Ea & Eb & Va & Pb).
  cbn [repeat run] in R. change (MCTS_new nat (Zc 0) (Zc 5) 10 1 (S n)) with (tw_new (S n)) in R. rewrite E1 in R.
  assert (R1 : tw_run [Playout None 1] (tw_new (S n)) [] = Some (Ok (m1, [([0], lv)]))) by (unfold tw_run; cbn [run]; rewrite E1; reflexivity).
  assert (ER : repeat (@Playout nat (option nat) None 1) n = map (fun sd => Playout (fst sd) (snd sd)) (repeat (None, 1) n)) by (clear; induction n as [|n IH]; [reflexivity|cbn; now rewrite IH]).
  rewrite ER in R.
  assert (T : through Nat.eq_dec [1] ens = []).
  { apply (C97_starved nat Nat.eq_dec (@rev _) nim_sqrt OP nim_sqrt_nonneg (option nat) tw_do_move tw_policy tw_policy tw_value tw_player tw_player (Zc 0) (Zc 5) 10 1 (S n)
      ltac:(vm_compute; discriminate) [Playout None 1] m1 [([0], lv)] R1 [] i r 1 ca na 0 cb nb (Q2Qc (1#2)) A1 Er) with (ps := repeat (None, 1) n) (m' := m'); auto.
    - rewrite Ck. right. now left.
    - rewrite Ck. now left.
    - discriminate. }
  exists m', ens. split; [|split; [exact Ln|exact T]].
  assert (P0 : 0 < length (through Nat.eq_dec [0] ens)).
  { destruct (run_prefix R) as [R' ->]. cbn. lia. }
  specialize (MV 0). assert (N1 : a <> 1) by (intros ->; rewrite T in MV; cbn in MV; lia).
  inversion AT as [|i' n' b d w j En I AT']; subst. assert (NE : n_children n' <> []) by (intros Q; rewrite Q in I; destruct I).
  destruct (G [] _ n' (at_here _ _) En NE) as (s & v & added & IO & FA & F2).
  assert (HO : s = None /\ v = []).
  { clear - IO. assert (K : forall k O, (forall x, In x O -> x = (None, [])) -> In (s, v) (origins (repeat (@Playout nat (option nat) None 1) k) O) -> (s, v) = (None, [])).
    { induction k as [|k IH]; intros O HO; cbn; [apply HO|]. apply IH. intros x Hx. apply in_app_or in Hx. destruct Hx as [Hx|[<-|[]]]; [now apply HO|reflexivity]. }
    specialize (K (S n) [] (fun x F => match F with end) IO). injection K as -> ->. auto. }
  destruct HO as [-> ->]. cbn in FA.
  assert (IA : exists p, In (a, p) added).
  { clear - F2 I. induction F2 as [|[x y] [x' y'] l l' [F _] F2 IH]; [destruct I|]. cbn in F. subst x'. destruct I as [I|I]; [injection I as -> _; exists y'; now left|].
    destruct (IH I) as [p Hp]. exists p. now right. }
  destruct IA as [p IA]. assert (a = 0 \/ a = 1) as [->| ->]; [|exact E0|contradiction].
  { clear - FA IA. inversion FA as [|? ? ? ? ? C _|? ? ? ? ? _ FA1]; subst; [destruct C|]. destruct IA as [IA|IA]; [injection IA; auto|].
    inversion FA1 as [|? ? ? ? ? C FA2|? ? ? ? ? _ FA2]; subst; inversion FA2; subst; cbn in IA; [tauto|]. destruct IA as [IA|[]]. injection IA; auto. }
Qed.
Print Assumptions C97_refuted.
Example C97_ex : match tw_get_move (tw_new 12) None with
  | Some (Ok (_, ens, a)) => (map fst ens, a) = (repeat [0] 12, 0)
  | _ => False
  end.
Proof. vm_compute. reflexivity. Qed.

(** Three moves whose priors exceed the value of every position: six playouts try them all. *)
Lemma nim_sqrt_mono i j : i <= j -> (nim_sqrt i <= nim_sqrt j)%Qc.
Proof.
  intros H. unfold nim_sqrt, Qcle. rewrite !this_Q2Qc. unfold Qle. cbn [Qnum Qden].
  assert (Z.sqrt (Z.of_nat i * 1000000) <= Z.sqrt (Z.of_nat j * 1000000))%Z by (apply Z.sqrt_le_mono; lia). lia.
Qed.
Lemma nim_sqrt_square n : (nim_sqrt n * nim_sqrt n <= Zc (Z.of_nat n))%Qc.
Proof.
  unfold nim_sqrt, Qcle. rewrite this_mult, this_Zc, !this_Q2Qc. unfold Qle, inject_Z, Qmult. cbn [Qnum Qden].
  destruct (Z.sqrt_spec (Z.of_nat n * 1000000) ltac:(lia)) as [H _]. change (Z.pos (1000 * 1000)) with 1000000%Z. rewrite Z.mul_1_r. exact H.
Qed.
Definition th_policy (s : option nat) : list (nat * Qc) := match s with None => [(0, Q2Qc (1#2)); (1, Q2Qc (3#10)); (2, Q2Qc (1#5))] | Some _ => [] end.
Definition th_value (s : option nat) : Qc := match s with Some 0 => Zc 0 | _ => Zc (-1) end.
Notation th_run := (run Nat.eq_dec true (@rev _) nim_sqrt tw_do_move th_policy th_policy th_value tw_player tw_player (repeat (Playout None 1) 6)
  (MCTS_new nat (Zc 0) (Q2Qc (1#10)) 10 1 6) []).
Lemma th_facts : exists m L n ca na, th_run = Some (Ok (m, L)) /\ at_path (m_heap m) (m_root m) [] (m_root m) /\ nth_error (m_heap m) (m_root m) = Some n /\
    (forall b cb nb, In (b, cb) (n_children n) -> nth_error (m_heap m) cb = Some nb -> (0 <= n_P nb)%Qc) /\
    In (2, ca) (n_children n) /\ nth_error (m_heap m) ca = Some na /\ (Zc 0 <= n_P na)%Qc /\
    2 * (length (ended Nat.eq_dec [] L) + length (n_children n)) <= length (through Nat.eq_dec [] L) /\
    (Zc 4 * (Q2Qc (1#10) * sum_priors (m_heap m) (n_children n) * (Q2Qc (1#10) * sum_priors (m_heap m) (n_children n))) <
      (n_P na - Zc 0) * (n_P na - Zc 0) * Zc (Z.of_nat (length (through Nat.eq_dec [] L))))%Qc.
Proof.
  eexists _, _, _, 3, _. split; [vm_compute; reflexivity|]. cbn [m_heap m_root]. split; [constructor|]. split; [reflexivity|].
    split; [intros b cb nb [I|[I|[I|[]]]] En; injection I as <- <-; cbn in En; injection En as <-; vm_compute; discriminate|].
    split; [right; right; now left|]. split; [reflexivity|]. split; [vm_compute; discriminate|]. split; [vm_compute; lia|vm_compute; reflexivity].
Qed.
Example C97_tried_ex : exists m L, th_run = Some (Ok (m, L)) /\ through Nat.eq_dec [2] L <> [].
Proof.
  destruct th_facts as (m & L & n & ca & na & E & AT & En & PP & Ia & Ea & Hi & N2 & LT). exists m, L. split; [exact E|].
  refine (C97_tried_sqrt nat Nat.eq_dec (@rev _) nim_sqrt (rev_perm _) nim_sqrt_nonneg nim_sqrt_mono nim_sqrt_square (option nat) tw_do_move th_policy th_policy th_value tw_player tw_player
    (Zc 0) (Q2Qc (1#10)) 10 1 6 (Zc 0) _ _ _ m L E [] (m_root m) n 2 ca na AT En PP Ia Ea Hi N2 LT); [vm_compute; discriminate|].
  intros s z _. destruct s as [[|k]|]; vm_compute; discriminate.
Qed.
