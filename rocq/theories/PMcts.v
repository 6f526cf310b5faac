(** C63, C64, C73: Monte-Carlo tree search.
    [run] performs any sequence of playouts and game moves and keeps a log of what the
    playouts did; the theorems compare the tree with the log. *)
From Verif Require Import Base LBase BaseQ LQ MMcts SMcts LMcts LMcts2 LMcts3 LMcts4 LMcts5 LMcts6 LMcts7.
Open Scope nat_scope.

Section P.
Context (A : Type) (aeq : forall a b : A, {a = b} + {a <> b}).
Context (py2 : bool) (order : list (A * nat) -> list (A * nat)) (fsqrt : nat -> Qc).
Context (OP : forall l, Permutation (order l) l).
Context (St : Type) (do_move : St -> A -> St) (policy rollout : St -> list (A * Qc)) (value : St -> Qc)
  (winner current_player : St -> Z).
Context (lmbda c_puct : Qc) (rollout_limit playout_depth n_playout : nat).
Let new := MCTS_new A lmbda c_puct rollout_limit playout_depth n_playout.
Notation run := (run aeq py2 order fsqrt do_move policy rollout value winner current_player).
Notation playout := (playout aeq py2 order fsqrt do_move policy rollout value winner current_player).
Notation get_move := (get_move aeq py2 order fsqrt do_move policy rollout value winner current_player).

Lemma run_inv ops m L : run ops new [] = Some (Ok (m, L)) -> minv aeq m L /\ (py2 = true -> same_settings new m).
Proof.
  intros E. pose proof (new_inv aeq lmbda c_puct rollout_limit playout_depth n_playout) as N0. destruct py2 eqn:P2.
  - destruct (run_ok fsqrt OP do_move policy rollout value winner current_player ops eq_refl N0) as [m' [L' [E' [IV SS]]]].
    fold new in E'. rewrite E in E'. injection E' as <- <-. auto.
  - split; [|discriminate]. destruct (run_py3 fsqrt OP do_move policy rollout value winner current_player ops eq_refl N0) as [E'|[m' [L' [E' IV]]]];
      fold new in E'; rewrite E in E'; [discriminate|]. injection E' as <- <-. exact IV.
Qed.

(** Every history runs to its end, and every node has as many visits as playouts passed
    through its position and the mean of their values. *)
Lemma C63_history_lemma : py2 = true -> forall ops, exists m L, run ops new [] = Some (Ok (m, L)) /\
  recorded (m_heap m) (m_root m) L /\ statistics aeq (m_heap m) (m_root m) L.
Proof.
  intros P2 ops. pose proof (new_inv aeq lmbda c_puct rollout_limit playout_depth n_playout) as N0.
  destruct (run_ok fsqrt OP do_move policy rollout value winner current_player ops P2 N0) as [m' [L' [E' [IV SS]]]].
  exists m', L'. split; [exact E'|]. split; [exact (in_rec IV)|exact (in_stat IV)].
Qed.

Lemma C63_children_lemma ops m L w i n : run ops new [] = Some (Ok (m, L)) -> at_path (m_heap m) (m_root m) w i ->
  nth_error (m_heap m) i = Some n ->
  n_visits n = length (ended aeq w L) + sum_visits (m_heap m) (n_children n).
Proof. intros E. apply run_inv in E. destruct E as [IV _]. intros AT En. exact (children_sum IV AT En). Qed.

(** The log is truthful: the moves lead to the state whose value was propagated. *)
Lemma C63_entry_lemma ops m L s d : py2 = true -> run ops new [] = Some (Ok (m, L)) ->
  exists m' acts lv, playout m s d = Some (Ok (m', (acts, lv))) /\
    let s' := fold_left do_move acts s in
    (length acts = d \/ length acts < d /\ policy s' = []) /\
    exists z, scored do_move rollout winner current_player rollout_limit s' z /\
    lv = ((Zc 1 - lmbda) * (if Qcltb lmbda (Zc 1) then value s' else Zc 0) + lmbda * (if Qcltb (Zc 0) lmbda then Zc z else Zc 0))%Qc.
Proof.
  intros P2 E. apply run_inv in E. destruct E as [IV SS]. specialize (SS P2).
  destruct (playout_spec fsqrt OP do_move policy rollout value winner current_player s d P2 IV) as [m1 [acts [E [_ [Le _]]]]].
  exists m1, acts. eexists. split; [exact E|]. cbv zeta. split; [exact (playout_full E)|].
  eexists. split; [apply evaluate_scored|]. rewrite SS. reflexivity.
Qed.

(** The descent takes a child of largest value at every step. *)
Lemma C64_greedy_lemma ops m L s d : py2 = true -> run ops new [] = Some (Ok (m, L)) ->
  exists h e s' acts, descend aeq py2 order do_move policy d (m_heap m) (m_root m) s = Ok (h, e, s', acts) /\
    at_path h (m_root m) acts e /\ s' = fold_left do_move acts s /\
    (forall v a t, acts = v ++ a :: t -> exists i n c k, at_path h (m_root m) v i /\ nth_error h i = Some n /\
       In (a, c) (n_children n) /\ nth_error h c = Some k /\
       forall b c' k', In (b, c') (n_children n) -> nth_error h c' = Some k' -> (n_Q k' + n_u k' <= n_Q k + n_u k)%Qc).
Proof.
  intros P2 E. apply run_inv in E. destruct E as [IV _].
  destruct (descend_spec OP do_move policy d P2 (w := []) s IV (at_here _ _)) as [h' [e [s' [acts [E [_ [AT [_ [Es [_ [G _]]]]]]]]]]].
  exists h', e, s', acts. split; [exact E|]. split; [exact AT|]. split; [exact Es|]. exact G.
Qed.

Lemma C64_get_move_lemma ops m L s : py2 = true -> run ops new [] = Some (Ok (m, L)) ->
  exists m' ens, statistics aeq (m_heap m') (m_root m') (L ++ ens) /\ length ens = n_playout /\
    ((exists a c, get_move m s = Some (Ok (m', ens, a)) /\ at_path (m_heap m') (m_root m') [a] c /\
        forall b, length (through aeq [b] (L ++ ens)) <= length (through aeq [a] (L ++ ens))) \/
     (get_move m s = Some (Raise ValueError) /\ (forall a c, ~ at_path (m_heap m') (m_root m') [a] c) /\
        (n_playout = 0 \/ playout_depth = 0 \/ policy s = []))).
Proof.
  intros P2 E. apply run_inv in E. destruct E as [IV SS]. specialize (SS P2).
  destruct (get_move_spec fsqrt OP do_move policy rollout value winner current_player s P2 IV) as [m' [ens [IV' [Ln [_ K]]]]].
  exists m', ens. split; [exact (in_stat IV')|]. assert (En : m_n_playout m = n_playout) by (rewrite SS; reflexivity).
  assert (El : m_L m = playout_depth) by (rewrite SS; reflexivity). split; [congruence|].
  destruct K as [K|[K1 [K2 K3]]]; [left; exact K|right]. split; [exact K1|]. split; [exact K2|]. rewrite En, El in K3. exact K3.
Qed.

Lemma C64_update_with_move_lemma ops m L a : run ops new [] = Some (Ok (m, L)) ->
  exists m', update_with_move aeq m a = Ok m' /\ statistics aeq (m_heap m') (m_root m') (advance aeq a L) /\
    ((exists c, at_path (m_heap m) (m_root m) [a] c /\ m_root m' = c /\
        forall w i, at_path (m_heap m') c w i <-> at_path (m_heap m) (m_root m) (a :: w) i) \/
     ((forall c, ~ at_path (m_heap m) (m_root m) [a] c) /\ advance aeq a L = [] /\
        nth_error (m_heap m') (m_root m') = Some (TreeNode_new A None (Zc 1)))) /\
    (forall i n, nth_error (m_heap m) i = Some n -> exists n', nth_error (m_heap m') i = Some n' /\
       (i = m_root m' -> n' = clear_parent n) /\ (i <> m_root m' -> n' = n)).
Proof.
  intros E. apply run_inv in E. destruct E as [IV _]. 
  destruct (update_with_move_spec a IV) as [m' [E [IV' [SS [K H]]]]]. exists m'. split; [exact E|]. split; [exact (in_stat IV')|]. split; [|exact H].
  destruct K as [[c [AT Rt]]|K]; [left|right; exact K]. exists c. split; [exact AT|]. split; [exact Rt|].
  assert (C1 : forall j x, nth_error (m_heap m) j = Some x -> exists x', nth_error (m_heap m') j = Some x' /\ n_children x' = n_children x).
  { intros j x Ex. destruct (H j x Ex) as [x' [Ex' [H1 H2]]]. exists x'. split; [exact Ex'|].
    destruct (Nat.eq_dec j (m_root m')) as [e|N]; [rewrite (H1 e)|rewrite (H2 N)]; reflexivity. }
  assert (Lh : length (m_heap m') = length (m_heap m)).
  { revert E. unfold update_with_move. destruct (get_nth (m_heap m) (m_root m)) as [n|] eqn:En; [|discriminate]. cbn [bind].
    destruct (child aeq a (n_children n)) as [c'|] eqn:Ec.
    - destruct (get_nth (m_heap m) c') as [nc|] eqn:Enc; [|discriminate]. cbn [bind].
      apply get_nth_ok in Enc. rewrite set_nth_ok by (apply nth_error_Some; congruence). cbn [bind]. intros E. injection E as <-. cbn. apply upd_length.
    - intros _. exfalso. inversion AT as [|i n' b d w j E I H']; subst. apply get_nth_ok in En. rewrite En in E. injection E as <-.
      apply child_None in Ec. apply Ec. apply (in_map fst) in I. exact I. }
  assert (C2 : forall j x, nth_error (m_heap m') j = Some x -> exists x', nth_error (m_heap m) j = Some x' /\ n_children x' = n_children x).
  { intros j x Ex. destruct (nth_error (m_heap m) j) as [y|] eqn:Ey.
    - destruct (C1 j y Ey) as [y' [Ey' Cy]]. rewrite Ex in Ey'. injection Ey' as <-. eauto.
    - exfalso. apply nth_error_None in Ey. assert (j < length (m_heap m')) by (apply nth_error_Some; congruence). lia. }
  intros w i. change (a :: w) with ([a] ++ w). rewrite at_app. split.
  - intros K. exists c. split; [exact AT|]. exact (at_path_ext C2 K).
  - intros [j [K1 K2]]. pose proof (at_fun (in_shape IV) K1 AT). subst j. exact (at_path_ext C1 K2).
Qed.

(** Where dictionaries have no [iteritems], no history ends in a move. *)
Lemma C64_python3_lemma ops m L s : py2 = false -> run ops new [] = Some (Ok (m, L)) ->
  get_move m s = Some (Raise AttributeError).
Proof. intros P2 E. apply run_inv in E. destruct E as [IV _]. exact (get_move_py3 fsqrt OP do_move policy rollout value winner current_player s P2 IV). Qed.
End P.

(** ** the theorems *)
Theorem C63_history : forall A (aeq : forall a b : A, {a = b} + {a <> b}) order fsqrt,
  (forall l, Permutation (order l) l) ->
  forall St (do_move : St -> A -> St) policy rollout value winner current_player lmbda c_puct rollout_limit playout_depth n_playout ops,
  exists m L,
    run aeq true order fsqrt do_move policy rollout value winner current_player ops
      (MCTS_new A lmbda c_puct rollout_limit playout_depth n_playout) [] = Some (Ok (m, L)) /\
    recorded (m_heap m) (m_root m) L /\
    (forall w i n, at_path (m_heap m) (m_root m) w i -> nth_error (m_heap m) i = Some n ->
       n_visits n = length (through aeq w L) /\
       (through aeq w L = [] -> n_Q n = Zc 0) /\
       (n_Q n * Zc (Z.of_nat (length (through aeq w L))) = total (through aeq w L))%Qc).
Proof. intros. exact (C63_history_lemma A aeq true order fsqrt H St do_move policy rollout value winner current_player lmbda c_puct rollout_limit playout_depth n_playout eq_refl ops). Qed.
Print Assumptions C63_history.

Theorem C63_children : forall A (aeq : forall a b : A, {a = b} + {a <> b}) py2 order fsqrt,
  (forall l, Permutation (order l) l) ->
  forall St (do_move : St -> A -> St) policy rollout value winner current_player lmbda c_puct rollout_limit playout_depth n_playout ops m L,
  run aeq py2 order fsqrt do_move policy rollout value winner current_player ops
      (MCTS_new A lmbda c_puct rollout_limit playout_depth n_playout) [] = Some (Ok (m, L)) ->
  forall w i n, at_path (m_heap m) (m_root m) w i -> nth_error (m_heap m) i = Some n ->
  n_visits n = length (ended aeq w L) + sum_visits (m_heap m) (n_children n).
Proof. intros. eapply C63_children_lemma; eauto. Qed.
Print Assumptions C63_children.

Theorem C63_entry : forall A (aeq : forall a b : A, {a = b} + {a <> b}) order fsqrt,
  (forall l, Permutation (order l) l) ->
  forall St (do_move : St -> A -> St) policy rollout value winner current_player lmbda c_puct rollout_limit playout_depth n_playout ops m L,
  run aeq true order fsqrt do_move policy rollout value winner current_player ops
      (MCTS_new A lmbda c_puct rollout_limit playout_depth n_playout) [] = Some (Ok (m, L)) ->
  forall s d, exists m' acts lv,
    playout aeq true order fsqrt do_move policy rollout value winner current_player m s d = Some (Ok (m', (acts, lv))) /\
    let s' := fold_left do_move acts s in
    (length acts = d \/ length acts < d /\ policy s' = []) /\
    exists z, scored do_move rollout winner current_player rollout_limit s' z /\
    lv = ((Zc 1 - lmbda) * (if Qcltb lmbda (Zc 1) then value s' else Zc 0) + lmbda * (if Qcltb (Zc 0) lmbda then Zc z else Zc 0))%Qc.
Proof. intros. eapply C63_entry_lemma; eauto. Qed.
Print Assumptions C63_entry.

Theorem C64_greedy : forall A (aeq : forall a b : A, {a = b} + {a <> b}) order fsqrt,
  (forall l, Permutation (order l) l) ->
  forall St (do_move : St -> A -> St) policy rollout value winner current_player lmbda c_puct rollout_limit playout_depth n_playout ops m L,
  run aeq true order fsqrt do_move policy rollout value winner current_player ops
      (MCTS_new A lmbda c_puct rollout_limit playout_depth n_playout) [] = Some (Ok (m, L)) ->
  forall s d, exists h e s' acts, descend aeq true order do_move policy d (m_heap m) (m_root m) s = Ok (h, e, s', acts) /\
    at_path h (m_root m) acts e /\ s' = fold_left do_move acts s /\
    (forall v a t, acts = v ++ a :: t -> exists i n c k, at_path h (m_root m) v i /\ nth_error h i = Some n /\
       In (a, c) (n_children n) /\ nth_error h c = Some k /\
       forall b c' k', In (b, c') (n_children n) -> nth_error h c' = Some k' -> (n_Q k' + n_u k' <= n_Q k + n_u k)%Qc).
Proof. intros. eapply C64_greedy_lemma; eauto. Qed.
Print Assumptions C64_greedy.

Theorem C64_get_move : forall A (aeq : forall a b : A, {a = b} + {a <> b}) order fsqrt,
  (forall l, Permutation (order l) l) ->
  forall St (do_move : St -> A -> St) policy rollout value winner current_player lmbda c_puct rollout_limit playout_depth n_playout ops m L,
  run aeq true order fsqrt do_move policy rollout value winner current_player ops
      (MCTS_new A lmbda c_puct rollout_limit playout_depth n_playout) [] = Some (Ok (m, L)) ->
  forall s, exists m' ens, statistics aeq (m_heap m') (m_root m') (L ++ ens) /\ length ens = n_playout /\
    ((exists a c, get_move aeq true order fsqrt do_move policy rollout value winner current_player m s = Some (Ok (m', ens, a)) /\
        at_path (m_heap m') (m_root m') [a] c /\
        forall b, length (through aeq [b] (L ++ ens)) <= length (through aeq [a] (L ++ ens))) \/
     (get_move aeq true order fsqrt do_move policy rollout value winner current_player m s = Some (Raise ValueError) /\
        (forall a c, ~ at_path (m_heap m') (m_root m') [a] c) /\
        (n_playout = 0 \/ playout_depth = 0 \/ policy s = []))).
Proof. intros. eapply C64_get_move_lemma; eauto. Qed.
Print Assumptions C64_get_move.

Theorem C64_update_with_move : forall A (aeq : forall a b : A, {a = b} + {a <> b}) py2 order fsqrt,
  (forall l, Permutation (order l) l) ->
  forall St (do_move : St -> A -> St) policy rollout value winner current_player lmbda c_puct rollout_limit playout_depth n_playout ops m L,
  run aeq py2 order fsqrt do_move policy rollout value winner current_player ops
      (MCTS_new A lmbda c_puct rollout_limit playout_depth n_playout) [] = Some (Ok (m, L)) ->
  forall a, exists m', update_with_move aeq m a = Ok m' /\ statistics aeq (m_heap m') (m_root m') (advance aeq a L) /\
    ((exists c, at_path (m_heap m) (m_root m) [a] c /\ m_root m' = c /\
        forall w i, at_path (m_heap m') c w i <-> at_path (m_heap m) (m_root m) (a :: w) i) \/
     ((forall c, ~ at_path (m_heap m) (m_root m) [a] c) /\ advance aeq a L = [] /\
        nth_error (m_heap m') (m_root m') = Some (TreeNode_new A None (Zc 1)))) /\
    (forall i n, nth_error (m_heap m) i = Some n -> exists n', nth_error (m_heap m') i = Some n' /\
       (i = m_root m' -> n' = clear_parent n) /\ (i <> m_root m' -> n' = n)).
Proof. intros. eapply C64_update_with_move_lemma; eauto. Qed.
Print Assumptions C64_update_with_move.

Theorem C64_python3 : forall A (aeq : forall a b : A, {a = b} + {a <> b}) order fsqrt,
  (forall l, Permutation (order l) l) ->
  forall St (do_move : St -> A -> St) policy rollout value winner current_player lmbda c_puct rollout_limit playout_depth n_playout ops m L,
  run aeq false order fsqrt do_move policy rollout value winner current_player ops
      (MCTS_new A lmbda c_puct rollout_limit playout_depth n_playout) [] = Some (Ok (m, L)) ->
  forall s, get_move aeq false order fsqrt do_move policy rollout value winner current_player m s = Some (Raise AttributeError).
Proof. intros. eapply C64_python3_lemma; eauto. Qed.
Print Assumptions C64_python3.

(** The exploration bonus of a node uses its parent's visits at the time of the node's last
    visit; a node never visited keeps its prior as bonus. *)
Theorem C73_bonus : forall A (aeq : forall a b : A, {a = b} + {a <> b}) py2 order fsqrt,
  (forall l, Permutation (order l) l) ->
  forall St (do_move : St -> A -> St) policy rollout value winner current_player lmbda c_puct rollout_limit playout_depth n_playout ops m L,
  run aeq py2 order fsqrt do_move policy rollout value winner current_player ops
      (MCTS_new A lmbda c_puct rollout_limit playout_depth n_playout) [] = Some (Ok (m, L)) ->
  forall w a i n, at_path (m_heap m) (m_root m) (w ++ [a]) i -> nth_error (m_heap m) i = Some n ->
    (through aeq (w ++ [a]) L = [] -> n_u n = n_P n) /\
    (through aeq (w ++ [a]) L <> [] ->
       n_u n = (c_puct * n_P n * fsqrt (length (through aeq w (upto aeq (w ++ [a]) L)))
                / Zc (1 + Z.of_nat (length (through aeq (w ++ [a]) L))))%Qc).
Proof.
  intros. eapply (run_bonus (cp := c_puct) (A := A) (aeq := aeq)); eauto; [apply new_inv|apply new_bonus|reflexivity].
Qed.
Print Assumptions C73_bonus.

(** ** a small game: take one or two stones; the player who takes the last one wins *)
Definition nim_St := (nat * Z)%type.
Definition nim_moves (s : nim_St) : list (nat * Qc) :=
  match fst s with 0 => [] | 1 => [(1, Zc 1)] | _ => [(1, Q2Qc (1#2)); (2, Q2Qc (1#2))] end.
Definition nim_do_move (s : nim_St) (a : nat) : nim_St := (fst s - a, (- snd s)%Z).
Definition nim_winner (s : nim_St) : Z := (- snd s)%Z.
Definition nim_value (s : nim_St) : Qc := Q2Qc (Z.of_nat (fst s) # 10).
Definition nim_sqrt (n : nat) : Qc := Q2Qc (Z.sqrt (Z.of_nat n * 1000000) # 1000).
Definition nim_new := MCTS_new nat (Q2Qc (1#2)) (Zc 5) 10 3 5.
Definition nim_go ops := run Nat.eq_dec true (@rev _) nim_sqrt nim_do_move nim_moves nim_moves nim_value nim_winner (@snd nat Z) ops nim_new [].
(** the moves of the playouts, then (visits of the root, of its children) *)
Definition nim_look (r : option (res (mcts nat * log))) : option (list (list nat) * list nat * list nat) :=
  match r with
  | Some (Ok (m, L)) => match nth_error (m_heap m) (m_root m) with
      | Some n => Some (map fst L, [n_visits n], map (fun ac => match nth_error (m_heap m) (snd ac) with Some k => n_visits k | None => 0 end) (n_children n))
      | None => None end
  | _ => None
  end.
Example C63_ex : nim_look (nim_go (repeat (Playout (5, 1%Z) 3) 12)) =
  Some (repeat [2; 2; 1] 5 ++ repeat [1; 2; 2] 5 ++ repeat [1; 1; 2] 2, [12], [7; 5]).
Proof. vm_compute. reflexivity. Qed.
Example C64_ex : nim_look (nim_go (repeat (Playout (5, 1%Z) 3) 12 ++ [Advance 1])) =
  Some (repeat [2; 2] 5 ++ repeat [1; 2] 2, [7], [2; 5]).
Proof. vm_compute. reflexivity. Qed.
(** five playouts are run, then the most visited action is returned *)
Example C64_get_move_ex :
  match get_move Nat.eq_dec true (@rev _) nim_sqrt nim_do_move nim_moves nim_moves nim_value nim_winner (@snd nat Z) nim_new (5, 1%Z) with
  | Some (Ok (_, ens, a)) => (map fst ens, a) = (repeat [2; 2; 1] 5, 2)
  | _ => False
  end.
Proof. vm_compute. reflexivity. Qed.

(** So the bonus is not that of the current visit counts. *)
Definition nim_after (k : nat) := nim_go (repeat (Playout (5, 1%Z) 3) k).
Definition nim_kids (k : nat) : list (nat * (nat * Qc * Qc)) :=
  match nim_after k with
  | Some (Ok (m, _)) => match nth_error (m_heap m) (m_root m) with
      | Some n => flat_map (fun ac => match nth_error (m_heap m) (snd ac) with Some x => [(fst ac, (n_visits x, n_u x, n_P x))] | None => [] end) (n_children n)
      | None => [] end
  | _ => []
  end.
Theorem C73_current_refuted : exists k m L n a c x,
  nim_after k = Some (Ok (m, L)) /\
  nth_error (m_heap m) (m_root m) = Some n /\ In (a, c) (n_children n) /\ nth_error (m_heap m) c = Some x /\
  n_u x <> (Zc 5 * n_P x * nim_sqrt (n_visits n) / Zc (1 + Z.of_nat (n_visits x)))%Qc.
Proof.
  destruct (nim_after 5) as [[[m L]|]|] eqn:E; try (vm_compute in E; discriminate).
  exists 5, m, L. 
  assert (K : exists n, nth_error (m_heap m) (m_root m) = Some n /\ n_visits n = 5 /\ exists c x, In (1, c) (n_children n) /\ nth_error (m_heap m) c = Some x /\ n_visits x = 0 /\ n_u x = Q2Qc (1#2) /\ n_P x = Q2Qc (1#2)).
  { vm_compute in E. injection E as <- <-. eexists. split; [reflexivity|]. split; [reflexivity|]. eexists _, _. split; [now left|].
    split; [reflexivity|]. split; [reflexivity|]. split; apply Qc_is_canon; reflexivity. }
  destruct K as [n [En [Vn [c [x [I [Ex [Vx [Ux Px]]]]]]]]]. exists n, 1, c, x. split; [exact E|]. split; [exact En|]. split; [exact I|]. split; [exact Ex|].
  rewrite Ux, Px, Vn, Vx. intros C. apply (f_equal (fun q => Qceqb q (Q2Qc (1#2)))) in C. vm_compute in C. discriminate.
Qed.
Print Assumptions C73_current_refuted.
(** the child never visited keeps the bonus 1/2 after five visits of its parent *)
Example C73_ex : map (fun x => (fst x, fst (fst (snd x)))) (nim_kids 5) = [(1, 0); (2, 5)] /\
  forallb (fun x => if Nat.eqb (fst x) 1 then Qceqb (snd (fst (snd x))) (Q2Qc (1#2)) else true) (nim_kids 5) = true.
Proof. vm_compute. split; reflexivity. Qed.

(** C79: expansion of a node, and the rollout. *)
Theorem C79_expand : forall A (aeq : forall a b : A, {a = b} + {a <> b}) aps (h : heap A) self n, nth_error h self = Some n ->
  exists h' added, expand aeq h self aps = Ok h' /\ fresh_actions (map fst (n_children n)) aps added /\
    nth_error h' self = Some (mkNode (n_parent n) (n_children n ++ combine (map fst added) (seq (length h) (length added))) (n_visits n) (n_Q n) (n_u n) (n_P n)) /\
    (forall i, i <> self -> i < length h -> nth_error h' i = nth_error h i) /\
    length h' = length h + length added /\
    (forall k a p, nth_error added k = Some (a, p) -> nth_error h' (length h + k) = Some (mkNode (Some self) [] 0 (Zc 0) p p)).
Proof. intros A aeq aps h self n. exact (@expand_all A aeq aps h self n). Qed.
Print Assumptions C79_expand.

(** The children of every node of every reachable tree are the actions of the policy in the
    position of the node, with its priors. *)
Theorem C79_tree : forall A (aeq : forall a b : A, {a = b} + {a <> b}) py2 order fsqrt,
  (forall l, Permutation (order l) l) ->
  forall St (do_move : St -> A -> St) policy rollout value winner current_player lmbda c_puct rollout_limit playout_depth n_playout ops m L,
  run aeq py2 order fsqrt do_move policy rollout value winner current_player ops
      (MCTS_new A lmbda c_puct rollout_limit playout_depth n_playout) [] = Some (Ok (m, L)) ->
  grown do_move policy (m_heap m) (m_root m) (origins ops []).
Proof.
  intros A aeq py2 order fsqrt OP St do_move policy rollout value winner current_player lm cp rl pd np ops m L E.
  eapply run_grown; [exact OP|apply (new_inv aeq lm cp rl pd np)| |exact E].
  intros w i n AT En Ne. exfalso. cbn in En. destruct i as [|[|i]]; cbn in En; [|discriminate|discriminate]. injection En as <-. now apply Ne.
Qed.
Print Assumptions C79_tree.
(** In every reachable tree the root, and no other node below it, is a root. *)
Theorem C79_root : forall A (aeq : forall a b : A, {a = b} + {a <> b}) py2 order fsqrt,
  (forall l, Permutation (order l) l) ->
  forall St (do_move : St -> A -> St) policy rollout value winner current_player lmbda c_puct rollout_limit playout_depth n_playout ops m L w i n,
  run aeq py2 order fsqrt do_move policy rollout value winner current_player ops
      (MCTS_new A lmbda c_puct rollout_limit playout_depth n_playout) [] = Some (Ok (m, L)) ->
  at_path (m_heap m) (m_root m) w i -> nth_error (m_heap m) i = Some n -> is_root n = true <-> i = m_root m.
Proof.
  intros A aeq py2 order fsqrt OP St do_move policy rollout value winner current_player lm cp rl pd np ops m L w i n E AT En.
  apply run_inv in E; [|exact OP]. destruct E as [IV _]. pose proof (in_shape IV) as SH. destruct (sh_root SH) as (r & Er & Pr). unfold is_root. split.
  - intros H. destruct w as [|a w] using rev_ind; [now inversion AT|]. exfalso. apply at_snoc in AT. destruct AT as (j & m' & AT & Em & I).
    rewrite (sh_par SH AT Em I En) in H. discriminate.
  - intros ->. assert (r = n) by congruence. subst r. now rewrite Pr.
Qed.
Print Assumptions C79_root.

Theorem C79_rollout : forall A S (do_move : S -> A -> S) rollout winner current_player limit s z,
  evaluate_rollout do_move rollout winner current_player s limit = z <-> scored do_move rollout winner current_player limit s z.
Proof.
  intros. split; [intros <-; apply evaluate_scored|]. intros H. eapply scored_fun; [apply evaluate_scored|exact H].
Qed.
Print Assumptions C79_rollout.

(** from five stones: one, one, one, one, one are taken; the player who began has the last *)
Example C79_ex : evaluate_rollout nim_do_move nim_moves nim_winner (@snd nat Z) (5, 1%Z) 10 = 1%Z /\
  evaluate_rollout nim_do_move nim_moves nim_winner (@snd nat Z) (4, 1%Z) 10 = (-1)%Z.
Proof. vm_compute. split; reflexivity. Qed.
(** two known actions and a repeated one *)
Example C79_ex_expand : match expand Nat.eq_dec [mkNode None [(7, 1)] 0 (Zc 0) (Zc 1) (Zc 1); TreeNode_new nat (Some 0) (Zc 1)] 0
    [(8, Zc 2); (7, Zc 3); (8, Zc 4); (9, Zc 5)] with
  | Ok h => match nth_error h 0 with Some n => n_children n = [(7, 1); (8, 2); (9, 3)] | None => False end /\
            map (fun n => this (n_P n)) h = [1; 1; 2; 5]%Q
  | Raise _ => False end.
Proof. vm_compute. split; reflexivity. Qed.
(** after twelve playouts and a move the root offers what the policy offers with four stones left *)
Example C79_ex_tree : match nim_go (repeat (Playout (5, 1%Z) 3) 12 ++ [Advance 1]) with
  | Some (Ok (m, _)) => match nth_error (m_heap m) (m_root m) with
      | Some n => map fst (n_children n) = map fst (nim_moves (4, (-1)%Z)) /\ n_children n <> []
      | None => False end
  | _ => False end /\
  In ((5, 1%Z), [1]) (origins (repeat (Playout (5, 1%Z) 3) 12 ++ [Advance 1]) []) /\ fold_left nim_do_move [1] (5, 1%Z) = (4, (-1)%Z).
Proof. vm_compute. split; [split; [reflexivity|discriminate]|]. split; [now left|reflexivity]. Qed.
