(** C79: the tree grows from the policy. *)
From Verif Require Import Base LBase BaseQ LQ MMcts SMcts LMcts LMcts2 LMcts3 LMcts6.
Set Implicit Arguments.
Unset Strict Implicit.
Open Scope nat_scope.

Section L.
Context (A : Type) (aeq : forall a b : A, {a = b} + {a <> b}).
Context (py2 : bool) (order : list (A * nat) -> list (A * nat)) (fsqrt : nat -> Qc).
Hypothesis OP : forall l, Permutation (order l) l.
Context (St : Type) (do_move : St -> A -> St) (policy rollout : St -> list (A * Qc)) (value : St -> Qc)
  (winner current_player : St -> Z).
Notation grown := (grown do_move policy).
Notation inv := (inv aeq).
Notation heap := (heap A).

(** the node [n] of [h] looks like [added] *)
Definition fits (h : heap) (kids : list (A * nat)) (added : list (A * Qc)) : Prop :=
  Forall2 (fun ac ap => fst ac = fst ap /\ exists k, nth_error h (snd ac) = Some k /\ n_P k = snd ap) kids added.

Lemma fits_mono (h h' : heap) kids added : (forall c k, In c (map snd kids) -> nth_error h c = Some k -> exists k', nth_error h' c = Some k' /\ n_P k' = n_P k) ->
  fits h kids added -> fits h' kids added.
Proof.
  intros H F. induction F as [|[a c] [b p] kids added [E (k & Ek & P)] F IH]; constructor.
  - split; [exact E|]. cbn [snd] in *. destruct (H c k) as (k' & Ek' & P'); [now left|exact Ek|]. exists k'. split; [exact Ek'|congruence].
  - apply IH. intros c' k' I. apply H. now right.
Qed.

Lemma grown_incl (h : heap) root O O' : (forall x, In x O -> In x O') -> grown h root O -> grown h root O'.
Proof. intros I G w i n AT En Ne. destruct (G w i n AT En Ne) as (s & v & ad & J & F). exists s, v, ad. split; [now apply I|exact F]. Qed.

Lemma grown_skel (h h' : heap) root O : same_skeleton h h' -> grown h root O -> grown h' root O.
Proof.
  intros SK G w i n AT En Ne. pose proof (skel_sym SK) as KS. apply (skel_at KS) in AT.
  destruct (proj2 KS i n En) as (m & Em & _ & C & _). rewrite <- C in Ne |- *.
  destruct (G w i m AT Em Ne) as (s & v & ad & J & F & T). exists s, v, ad. split; [exact J|]. split; [exact F|].
  apply (fits_mono (h := h)); [|exact T]. intros c k _ Ek. destruct (proj2 SK c k Ek) as (k' & Ek' & _ & _ & P). eauto.
Qed.

Lemma fits_new (h : heap) base added : (forall k a p, nth_error added k = Some (a, p) -> exists n, nth_error h (base + k) = Some n /\ n_P n = p) ->
  fits h (combine (map fst added) (seq base (length added))) added.
Proof.
  revert base. induction added as [|[a p] added IH]; intros base H; [constructor|]. cbn [map length seq combine]. constructor.
  - split; [reflexivity|]. destruct (H 0 a p eq_refl) as (n & En & P). rewrite Nat.add_0_r in En. exists n. auto.
  - apply IH. intros k b q E. destruct (H (S k) b q E) as (n & En & P). exists n. split; [|exact P]. now replace (S base + k) with (base + S k) by lia.
Qed.

Lemma grown_expand (h : heap) root self n w0 L O s v aps h' : inv h root L -> grown h root O -> at_path h root w0 self -> nth_error h self = Some n ->
  n_children n = [] -> In (s, v) O -> policy (fold_left do_move (v ++ w0) s) = aps -> expand aeq h self aps = Ok h' -> grown h' root O.
Proof.
  intros IV G AT En Lf IO Ep E. pose proof (in_shape IV) as SH.
  destruct (expand_all aeq aps En) as (h2 & added & E2 & F & Es & Eo & Ln & Ea). rewrite E in E2. injection E2 as <-.
  rewrite Lf in F, Es. cbn [app map] in F, Es.
  assert (Ls : self < length h) by (apply nth_error_Some; congruence).
  assert (EX0 : expanded h h self n).
  { assert (Ec : set_children n [] = n) by (destruct n; cbn in Lf; subst; reflexivity).
    constructor; [lia| |intros j Hj; lia|reflexivity].
    exists []. rewrite Ec. split; [exact En|]. split; [intros a c []|]. split; constructor. }
  destruct (expand_spec aeq aps Ls EX0) as [h2 [E2 [EX _]]]. rewrite E in E2. injection E2 as <-.
  intros w i m H Em Ne.
  destruct (@ex_at_inv _ aeq h root self n w0 L IV AT h' EX _ _ H) as [K|[b [Ew [Li _]]]].
  - pose proof (at_bound SH K) as Bi. destruct (Nat.eq_dec i self) as [->|Ni].
    + rewrite Es in Em. injection Em as <-. cbn [n_children] in *. pose proof (at_inj SH K AT). subst w.
      exists s, v, added. split; [exact IO|]. split; [rewrite Ep; exact F|]. apply fits_new. intros k a p Ek. eexists. split; [exact (Ea k a p Ek)|reflexivity].
    + rewrite Eo in Em by (auto; lia). destruct (G w i m K Em Ne) as (s' & v' & ad & J & F' & T). exists s', v', ad. split; [exact J|]. split; [exact F'|].
      apply (fits_mono (h := h)); [|exact T]. intros c k Ic Ek. apply in_map_iff in Ic as ([a c'] & <- & Ic). cbn [snd] in *.
      destruct (Nat.eq_dec c' self) as [->|Nc].
      * rewrite En in Ek. injection Ek as <-. eexists. split; [exact Es|reflexivity].
      * exists k. split; [|reflexivity]. rewrite Eo; [exact Ek|exact Nc|]. apply nth_error_Some. congruence.
  - destruct (ex_new EX (j := i)) as [P N]; [split; [exact Li|apply nth_error_Some; congruence]|]. rewrite N in Em. injection Em as <-. now destruct Ne.
Qed.

Lemma descend_grown depth : forall h root L O s0 v w nd state h' e s' acts, inv h root L -> grown h root O -> at_path h root w nd ->
  In (s0, v) O -> state = fold_left do_move (v ++ w) s0 ->
  descend aeq py2 order do_move policy depth h nd state = Ok (h', e, s', acts) ->
  inv h' root L /\ grown h' root O /\ at_path h' root (w ++ acts) e.
Proof.
  induction depth as [|d IH]; intros h root L O s0 v w nd state h' e s' acts IV G AT IO Es; cbn [descend].
  - intros E. injection E as <- <- <- <-. rewrite app_nil_r. auto.
  - destruct (at_node (in_shape IV) AT) as [n En]. rewrite (proj2 (get_nth_ok _ _ _) En). cbn [bind].
    assert (step : forall h1 n1, inv h1 root L -> grown h1 root O -> at_path h1 root w nd -> nth_error h1 nd = Some n1 -> n_children n1 <> [] ->
        (do ac <- select py2 order h1 nd; let '(action, nd') := ac in
         do r <- descend aeq py2 order do_move policy d h1 nd' (do_move state action);
         let '(h', e, s', acts) := r in Ok (h', e, s', action :: acts)) = Ok (h', e, s', acts) ->
        inv h' root L /\ grown h' root O /\ at_path h' root (w ++ acts) e).
    { intros h1 n1 IV1 G1 AT1 En1 Ne.
      destruct (select_spec py2 OP (in_shape IV1) AT1 En1 Ne) as [[_ ->]|[_ [[a c] [m [-> [I [Em Mx]]]]]]]; [discriminate|].
      cbn [bind]. assert (ATc : at_path h1 root (w ++ [a]) c) by (apply at_snoc; eauto).
      destruct (descend aeq py2 order do_move policy d h1 c (do_move state a)) as [[[[x1 x2] x3] x4]|] eqn:E; [|discriminate]. cbn [bind].
      intros J. injection J as <- <- <- <-.
      assert (Es1 : do_move state a = fold_left do_move (v ++ (w ++ [a])) s0) by (rewrite app_assoc, fold_left_app, <- Es; reflexivity).
      destruct (IH _ _ _ _ _ _ _ _ _ _ _ _ _ IV1 G1 ATc IO Es1 E) as [Y1 [Y2 Y3]].
      rewrite <- app_assoc in Y3. auto. }
    unfold is_leaf. destruct (n_children n) as [|kc kids] eqn:Ek.
    + destruct (policy state) as [|ap aps] eqn:Ep.
      * intros E. injection E as <- <- <- <-. rewrite app_nil_r. auto.
      * destruct (@expand_leaf A aeq h root nd n w L (ap :: aps)) as [h1 [n1 [E1 [IV1 [AT1 [En1 Ne]]]]]]; auto; [discriminate|].
        rewrite E1. cbn [bind]. rewrite Es in Ep. exact (step h1 n1 IV1 (grown_expand IV G AT En Ek IO Ep E1) AT1 En1 Ne).
    + apply (step h n IV G AT En). congruence.
Qed.

Lemma grown_advance m L O a m' : minv aeq m L -> grown (m_heap m) (m_root m) O -> update_with_move aeq m a = Ok m' ->
  grown (m_heap m') (m_root m') (map (fun sv => (fst sv, snd sv ++ [a])) O).
Proof.
  intros IV G E. pose proof (in_shape IV) as SH.
  destruct (update_with_move_spec a IV) as [m2 [E2 [IV' [_ [K H]]]]]. rewrite E in E2. injection E2 as <-.
  destruct K as [[c [AT Rt]]|[NA [AN Er]]].
  - assert (Lh : length (m_heap m') = length (m_heap m)).
    { revert E. unfold update_with_move. destruct (get_nth (m_heap m) (m_root m)) as [n|] eqn:En; [|discriminate]. cbn [bind].
      destruct (child aeq a (n_children n)) as [c'|] eqn:Ec.
      - destruct (get_nth (m_heap m) c') as [nc|] eqn:Enc; [|discriminate]. cbn [bind].
        apply get_nth_ok in Enc. rewrite set_nth_ok by (apply nth_error_Some; congruence). cbn [bind]. intros E. injection E as <-. cbn. apply upd_length.
      - intros _. exfalso. inversion AT as [|i n' b d w j E I H']; subst. apply get_nth_ok in En. rewrite En in E. injection E as <-.
        apply child_None in Ec. apply Ec. apply (in_map fst) in I. exact I. }
    assert (C1 : forall j y, nth_error (m_heap m) j = Some y -> exists y', nth_error (m_heap m') j = Some y' /\ n_P y' = n_P y).
    { intros j y Ey. destruct (H j y Ey) as [y' [Ey' [H1 H2]]]. exists y'. split; [exact Ey'|].
      destruct (Nat.eq_dec j (m_root m')) as [e|N]; [rewrite (H1 e)|rewrite (H2 N)]; reflexivity. }
    assert (C2 : forall j x, nth_error (m_heap m') j = Some x -> exists x', nth_error (m_heap m) j = Some x' /\ n_children x' = n_children x).
    { intros j x Ex. destruct (nth_error (m_heap m) j) as [y|] eqn:Ey.
      - destruct (H j y Ey) as [y' [Ey' [H1 H2]]]. rewrite Ex in Ey'. injection Ey' as <-. exists y. split; [reflexivity|].
        destruct (Nat.eq_dec j (m_root m')) as [e|N]; [rewrite (H1 e)|rewrite (H2 N)]; auto.
      - exfalso. apply nth_error_None in Ey. assert (j < length (m_heap m')) by (apply nth_error_Some; congruence). lia. }
    intros w i x K Ex Ne. rewrite Rt in K.
    assert (K' : at_path (m_heap m) (m_root m) (a :: w) i).
    { change (a :: w) with ([a] ++ w). apply at_app. exists c. split; [exact AT|].
      apply (at_path_ext (h := m_heap m')); [|exact K]. exact C2. }
    destruct (C2 i x Ex) as [y [Ey Cy]]. rewrite <- Cy in Ne |- *. destruct (G _ _ _ K' Ey Ne) as (s & v & ad & J & F & T).
    exists s, (v ++ [a]), ad. split; [apply in_map_iff; exists (s, v); auto|]. split; [rewrite <- app_assoc; exact F|].
    apply (fits_mono (h := m_heap m)); [|exact T]. intros d k _ Ek. apply C1, Ek.
  - intros w i x K Ex Ne. exfalso. inversion K as [|i' n' b d w' j E' I' K']; subst.
    + rewrite Er in Ex. injection Ex as <-. now apply Ne.
    + rewrite Er in E'. injection E' as <-. destruct I'.
Qed.

Notation run := (run aeq py2 order fsqrt do_move policy rollout value winner current_player).
Lemma run_grown ops : forall m L O m' L', minv aeq m L -> grown (m_heap m) (m_root m) O -> run ops m L = Some (Ok (m', L')) ->
  grown (m_heap m') (m_root m') (origins ops O).
Proof.
  induction ops as [|o ops IH]; intros m L O m' L' IV G; cbn [SMcts.run origins].
  - intros E. injection E as <- <-. exact G.
  - destruct o as [s d|a].
    + unfold playout. destruct (descend aeq py2 order do_move policy d (m_heap m) (m_root m) s) as [[[[h nd] s'] acts]|] eqn:E; [|discriminate].
      set (lv := leaf_value _ _ _ _ _ _ _).
      assert (G0 : grown (m_heap m) (m_root m) (O ++ [(s, [])])) by (apply (grown_incl (O := O)); [intros x Ix; apply in_or_app; now left|exact G]).
      assert (I0 : In (s, @nil A) (O ++ [(s, [])])) by (apply in_or_app; right; now left).
      destruct (descend_grown (w := []) (v := []) IV G0 (at_here _ _) I0 eq_refl E) as [IV1 [G1 AT1]].
      cbn [app] in AT1. destruct (update_recursive_ok fsqrt lv (m_c_puct m) (in_shape IV1) AT1 (Nat.lt_succ_diag_r nd)) as [h2 [E2 [SK _]]].
      rewrite E2. intros R. apply (IH (with_tree m h2 (m_root m)) (L ++ [(acts, lv)])) with (L' := L'); [|exact (grown_skel SK G1)|exact R].
      exact (playout_inv IV1 AT1 E2).
    + destruct (update_with_move_spec a IV) as [m2 [E2 [IV' _]]]. rewrite E2. intros R.
      exact (IH _ _ _ _ _ IV' (grown_advance IV G E2) R).
Qed.
End L.
