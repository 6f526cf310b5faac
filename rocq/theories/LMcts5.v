(** C73: the exploration bonus. *)
From Verif Require Import Base LBase BaseQ LQ MMcts SMcts LMcts LMcts2 LMcts3.
Set Implicit Arguments.
Unset Strict Implicit.
Open Scope nat_scope.

Section L.
Context (A : Type) (aeq : forall a b : A, {a = b} + {a <> b}).
Notation heap := (heap A).
Notation node := (node A).
Notation through := (through aeq).
Notation upto := (upto aeq).
Notation inv := (inv aeq).
Context (fsqrt : nat -> Qc) (cp : Qc).

Definition bonus (h : heap) (root : nat) (L : log) : Prop :=
  forall w a i n, at_path h root (w ++ [a]) i -> nth_error h i = Some n ->
    (through (w ++ [a]) L = [] -> n_u n = n_P n) /\
    (through (w ++ [a]) L <> [] ->
       n_u n = (cp * n_P n * fsqrt (length (through w (upto (w ++ [a]) L))) / Zc (1 + Z.of_nat (length (through (w ++ [a]) L))))%Qc).

Lemma upto_snoc w (L : @log A) e : upto w (L ++ [e]) = if starts_with aeq w (fst e) then L ++ [e] else upto w L.
Proof.
  unfold SMcts.upto. rewrite rev_app_distr. cbn [rev app drop_until]. destruct (starts_with aeq w (fst e)); [|reflexivity].
  cbn [rev]. now rewrite rev_involutive.
Qed.

Lemma bonus_expand h root self n w0 L h' : inv h root L -> bonus h root L -> at_path h root w0 self -> nth_error h self = Some n ->
  n_children n = [] -> expanded h h' self n -> bonus h' root L.
Proof.
  intros IV B AT En Lf EX w a i m H Em. pose proof (in_shape IV) as SH.
  destruct (ex_self EX) as [kids [Ek _]].
  destruct (@ex_at_inv _ aeq h root self n w0 L IV AT h' EX _ _ H) as [K|[b [Ew [Li _]]]].
  - pose proof (at_bound SH K) as Bi. destruct (Nat.eq_dec i self) as [->|Ni].
    + rewrite Ek in Em. injection Em as <-. exact (B w a self n K En).
    + rewrite (ex_old EX) in Em by (auto; lia). exact (B w a i m K Em).
  - apply app_inj_tail in Ew. destruct Ew as [-> ->].
    assert (T : through (w0 ++ [b]) L = []).
    { eapply through_none; [exact (in_rec IV)|]. intros j Hj. apply at_snoc in Hj. destruct Hj as [s [m' [H1 [H2 H3]]]].
      rewrite (at_fun SH H1 AT), En in H2. injection H2 as <-. rewrite Lf in H3. destruct H3. }
    destruct (ex_new EX (j := i)) as [P F]; [split; [exact Li|apply nth_error_Some; congruence]|].
    rewrite F in Em. injection Em as <-. split; [reflexivity|congruence].
Qed.

(** The bonus written on the way up. *)
Lemma update_recursive_u (h : heap) root lv : shape h root -> forall (w : list A) self fuel, at_path h root w self -> self < fuel ->
  exists h', update_recursive fsqrt fuel h self lv cp = Some (Ok h') /\
    forall (v : list A) a t i (n n' : node) p (np : node), w = (v ++ [a]) ++ t -> at_path h root (v ++ [a]) i -> nth_error h i = Some n -> nth_error h' i = Some n' ->
      at_path h root v p -> nth_error h p = Some np ->
      n_u n' = (cp * n_P n * fsqrt (S (n_visits np)) / Zc (1 + Z.of_nat (S (n_visits n))))%Qc.
Proof.
  intros SH. induction w as [|b w IH] using rev_ind; intros self fuel AT F.
  - destruct (update_recursive_ok fsqrt lv cp SH AT F) as [h' [E _]]. exists h'. split; [exact E|].
    intros v a t i n n' p np Ew. apply (f_equal (@length A)) in Ew. rewrite !app_length in Ew. cbn in Ew. lia.
  - destruct fuel as [|fuel]; [lia|]. destruct (at_node SH AT) as [n0 En0].
    pose proof (proj1 (at_snoc _ _ _ _ _) AT) as [q [nq [Hq [Eq Iq]]]]. pose proof (sh_par SH Hq Eq Iq En0) as Pn.
    pose proof (sh_kids SH Eq Iq) as Lt. cbn [update_recursive]. rewrite (proj2 (get_nth_ok _ _ _) En0), Pn.
    destruct (IH q fuel Hq ltac:(lia)) as [h1 [E1 U1]]. 
    destruct (update_recursive_ok fsqrt lv cp SH Hq (fuel := fuel) ltac:(lia)) as [h1' [E1' [SK1 K1]]]. rewrite E1 in E1'. injection E1' as <-.
    rewrite E1. destruct (K1 self n0 En0) as [n1 [En1 [_ Kn1]]].
    assert (n1 = n0).
    { apply Kn1. intros [v [t [Ev K]]]. assert (v = w ++ [b]) by exact (at_inj SH K AT). subst v.
      apply (f_equal (@length A)) in Ev. rewrite !app_length in Ev. cbn in Ev. lia. }
    subst n1. destruct (K1 q nq Eq) as [nq1 [Eq1 [Kq _]]]. destruct Kq as [Vq _]; [exists w, []; rewrite app_nil_r; auto|].
    destruct (@update_ok _ fsqrt h1 self n0 lv cp En1) as [h' [E [SK [[m' [Em' [_ Um]]] O]]]].
    { intros x Ex. rewrite Pn in Ex. injection Ex as <-. destruct SK1 as [L1 _]. rewrite L1. apply nth_error_Some. congruence. }
    exists h'. split; [now rewrite E|]. intros v a t i n n' p np Ew Hi Ei Ei' Hp Ep.
    destruct (Nat.eq_dec i self) as [->|Ni].
    + rewrite En0 in Ei. injection Ei as <-. rewrite Em' in Ei'. injection Ei' as <-. rewrite Um, Pn, Eq1, Vq.
      pose proof (at_inj SH Hi AT) as Ev. apply app_inj_tail in Ev. destruct Ev as [-> ->].
      pose proof (at_fun SH Hp Hq). subst p. rewrite Eq in Ep. injection Ep as <-. reflexivity.
    + rewrite O in Ei' by exact Ni. destruct t as [|c t _] using rev_ind.
      * exfalso. apply Ni. rewrite app_nil_r in Ew. rewrite <- Ew in Hi. exact (at_fun SH Hi AT).
      * rewrite app_assoc in Ew. apply app_inj_tail in Ew. destruct Ew as [Ew _].
        exact (U1 v a t i n n' p np Ew Hi Ei Ei' Hp Ep).
Qed.

Lemma bonus_playout h h' root L acts e lv : inv h root L -> bonus h root L -> at_path h root acts e ->
  update_recursive fsqrt (S e) h e lv cp = Some (Ok h') -> bonus h' root (L ++ [(acts, lv)]).
Proof.
  intros IV B AT E. pose proof (in_shape IV) as SH.
  destruct (update_recursive_ok fsqrt lv cp SH AT (Nat.lt_succ_diag_r e)) as [h2 [E2 [SK U]]]. rewrite E in E2. injection E2 as <-.
  destruct (update_recursive_u lv SH AT (Nat.lt_succ_diag_r e)) as [h2 [E2 UU]]. rewrite E in E2. injection E2 as <-.
  intros w a i n' H En'. apply (skel_at (skel_sym SK)) in H. destruct (at_node SH H) as [n En].
  destruct (U i n En) as [n2 [En2 [K1 K2]]]. rewrite En' in En2. injection En2 as <-.
  destruct (proj2 SK i n En) as [n3 [En3 [_ [_ EP]]]]. rewrite En' in En3. injection En3 as <-.
  rewrite through_snoc, upto_snoc. cbn [fst]. destruct (starts_with aeq (w ++ [a]) acts) eqn:S.
  - split; [intros C; destruct (through (w ++ [a]) L); discriminate|]. intros _.
    apply starts_with_app in S. destruct S as [t S].
    pose proof (proj1 (at_snoc _ _ _ _ _) H) as [p [np [Hp [Ep _]]]].
    rewrite (UU w a t i n n' p np S H En En' Hp Ep), EP. 
    destruct (in_stat IV H En) as [S1 _]. destruct (in_stat IV Hp Ep) as [S2 _].
    rewrite through_snoc. assert (Sw : starts_with aeq w acts = true).
    { apply starts_with_app. exists ([a] ++ t). now rewrite app_assoc. }
    rewrite Sw, !app_length, S1, S2. cbn [length]. rewrite !Nat.add_1_r. reflexivity.
  - rewrite app_nil_r. assert (n' = n).
    { apply K2. intros [v [t [Ea K]]]. pose proof (at_inj SH K H). subst v.
      enough (starts_with aeq (w ++ [a]) acts = true) by congruence. apply starts_with_app. eauto. }
    subst n'. exact (B w a i n H En).
Qed.

Context (py2 : bool) (order : list (A * nat) -> list (A * nat)).
Hypothesis OP : forall l, Permutation (order l) l.
Context (St : Type) (do_move : St -> A -> St) (policy rollout : St -> list (A * Qc)) (value : St -> Qc)
  (winner current_player : St -> Z).

Lemma bonus_expand_leaf h root self n w0 L aps h' : inv h root L -> bonus h root L -> at_path h root w0 self -> nth_error h self = Some n ->
  n_children n = [] -> expand aeq h self aps = Ok h' -> bonus h' root L.
Proof.
  intros IV B AT En Lf E. assert (Ls : self < length h) by (apply nth_error_Some; congruence).
  assert (EX0 : expanded h h self n).
  { assert (Es : set_children n [] = n) by (destruct n; cbn in Lf; subst; reflexivity).
    constructor; [lia| |intros j Hj; lia|reflexivity].
    exists []. rewrite Es. split; [exact En|]. split; [intros a c []|]. split; constructor. }
  destruct (expand_spec aeq aps Ls EX0) as [h2 [E2 [EX _]]]. rewrite E in E2. injection E2 as <-.
  eapply bonus_expand; eauto.
Qed.

Lemma descend_bonus depth : forall h root L w nd state h' e s' acts, inv h root L -> bonus h root L -> at_path h root w nd ->
  descend aeq py2 order do_move policy depth h nd state = Ok (h', e, s', acts) ->
  inv h' root L /\ bonus h' root L /\ at_path h' root (w ++ acts) e.
Proof.
  induction depth as [|d IH]; intros h root L w nd state h' e s' acts IV B AT; cbn [descend].
  - intros E. injection E as <- <- <- <-. rewrite app_nil_r. auto.
  - destruct (at_node (in_shape IV) AT) as [n En]. rewrite (proj2 (get_nth_ok _ _ _) En). cbn [bind].
    assert (step : forall h1 n1, inv h1 root L -> bonus h1 root L -> at_path h1 root w nd -> nth_error h1 nd = Some n1 -> n_children n1 <> [] ->
        (do ac <- select py2 order h1 nd; let '(action, nd') := ac in
         do r <- descend aeq py2 order do_move policy d h1 nd' (do_move state action);
         let '(h', e, s', acts) := r in Ok (h', e, s', action :: acts)) = Ok (h', e, s', acts) ->
        inv h' root L /\ bonus h' root L /\ at_path h' root (w ++ acts) e).
    { intros h1 n1 IV1 B1 AT1 En1 Ne.
      destruct (select_spec py2 OP (in_shape IV1) AT1 En1 Ne) as [[_ ->]|[_ [[a c] [m [-> [I [Em Mx]]]]]]]; [discriminate|].
      cbn [bind]. assert (ATc : at_path h1 root (w ++ [a]) c) by (apply at_snoc; eauto).
      destruct (descend aeq py2 order do_move policy d h1 c (do_move state a)) as [[[[x1 x2] x3] x4]|] eqn:E; [|discriminate]. cbn [bind].
      intros J. injection J as <- <- <- <-. destruct (IH _ _ _ _ _ _ _ _ _ _ IV1 B1 ATc E) as [Y1 [Y2 Y3]].
      rewrite <- app_assoc in Y3. auto. }
    unfold is_leaf. destruct (n_children n) as [|kc kids] eqn:Ek.
    + destruct (policy state) as [|ap aps] eqn:Ep.
      * intros E. injection E as <- <- <- <-. rewrite app_nil_r. auto.
      * destruct (@expand_leaf A aeq h root nd n w L (ap :: aps)) as [h1 [n1 [E1 [IV1 [AT1 [En1 Ne]]]]]]; auto; [discriminate|].
        rewrite E1. cbn [bind]. exact (step h1 n1 IV1 (bonus_expand_leaf IV B AT En Ek E1) AT1 En1 Ne).
    + apply (step h n IV B AT En). congruence.
Qed.

Notation run := (run aeq py2 order fsqrt do_move policy rollout value winner current_player).
Notation minv := (minv aeq).
Definition mbonus (m : mcts A) (L : log) : Prop := bonus (m_heap m) (m_root m) L.

(** log prefixes under a change of the root *)
Lemma advance_app a (L L' : @log A) : advance aeq a (L ++ L') = advance aeq a L ++ advance aeq a L'.
Proof. unfold advance. apply flat_map_app. Qed.

Lemma sw_cons a (w t : list A) : starts_with aeq (a :: w) (a :: t) = starts_with aeq w t.
Proof.
  apply Bool.eq_iff_eq_true. rewrite !starts_with_app. split; intros [x Hx]; exists x; [injection Hx as ->; reflexivity|now rewrite Hx].
Qed.

Lemma upto_advance a w (L : @log A) : exists R, upto w (advance aeq a L) = advance aeq a (upto (a :: w) L ++ R) /\ advance aeq a R = [].
Proof.
  exists []. rewrite app_nil_r. split; [|reflexivity].
  induction L as [|[acts v] L IH] using rev_ind; [reflexivity|]. rewrite advance_app, upto_snoc. cbn [fst].
  assert (E : advance aeq a [(acts, v)] = match acts with b :: t => if aeq b a then [(t, v)] else [] | [] => [] end) by (unfold advance; cbn; now rewrite app_nil_r).
  rewrite E. destruct acts as [|b t].
  - rewrite app_nil_r, IH. destruct (starts_with aeq (a :: w) []) eqn:S; [|reflexivity]. apply starts_with_app in S. destruct S as [x S]. discriminate.
  - destruct (aeq b a) as [->|N].
    + rewrite upto_snoc. cbn [fst]. rewrite sw_cons. destruct (starts_with aeq w t); [|exact IH].
      rewrite advance_app, E. destruct (aeq a a); [reflexivity|contradiction].
    + rewrite app_nil_r, IH. destruct (starts_with aeq (a :: w) (b :: t)) eqn:S; [|reflexivity].
      apply starts_with_app in S. destruct S as [x S]. injection S as -> _. contradiction.
Qed.

Lemma bonus_advance m L a m' : minv m L -> mbonus m L -> update_with_move aeq m a = Ok m' -> mbonus m' (advance aeq a L).
Proof.
  intros IV B E. pose proof (in_shape IV) as SH.
  destruct (update_with_move_spec a IV) as [m2 [E2 [IV' [_ [K H]]]]]. rewrite E in E2. injection E2 as <-.
  destruct K as [[c [AT Rt]]|[NA [AN Er]]].
  - assert (Lh : length (m_heap m') = length (m_heap m)).
    { revert E. unfold update_with_move. destruct (get_nth (m_heap m) (m_root m)) as [n|] eqn:En; [|discriminate]. cbn [bind].
      destruct (child aeq a (n_children n)) as [c'|] eqn:Ec.
      - destruct (get_nth (m_heap m) c') as [nc|] eqn:Enc; [|discriminate]. cbn [bind].
        apply get_nth_ok in Enc. rewrite set_nth_ok by (apply nth_error_Some; congruence). cbn [bind]. intros E. injection E as <-. cbn. apply upd_length.
      - intros _. exfalso. inversion AT as [|i n' b d w j E I H']; subst. apply get_nth_ok in En. rewrite En in E. injection E as <-.
        apply child_None in Ec. apply Ec. apply (in_map fst) in I. exact I. }
    assert (C2 : forall j x, nth_error (m_heap m') j = Some x -> exists x', nth_error (m_heap m) j = Some x' /\ n_children x' = n_children x /\ n_u x' = n_u x /\ n_P x' = n_P x).
    { intros j x Ex. destruct (nth_error (m_heap m) j) as [y|] eqn:Ey.
      - destruct (H j y Ey) as [y' [Ey' [H1 H2]]]. rewrite Ex in Ey'. injection Ey' as <-. exists y. split; [reflexivity|].
        destruct (Nat.eq_dec j (m_root m')) as [e|N]; [rewrite (H1 e)|rewrite (H2 N)]; auto.
      - exfalso. apply nth_error_None in Ey. assert (j < length (m_heap m')) by (apply nth_error_Some; congruence). lia. }
    intros w b i x K Ex. rewrite Rt in K.
    assert (K' : at_path (m_heap m) (m_root m) ((a :: w) ++ [b]) i).
    { change ((a :: w) ++ [b]) with ([a] ++ (w ++ [b])). apply at_app. exists c. split; [exact AT|].
      apply (at_path_ext (h := m_heap m')); [|exact K]. intros j y Ey. destruct (C2 j y Ey) as [y' [Ey' [Cy _]]]. eauto. }
    destruct (C2 i x Ex) as [y [Ey [_ [<- <-]]]]. destruct (B _ _ _ _ K' Ey) as [B1 B2].
    destruct (through_advance aeq a (w ++ [b]) L) as [T1 _]. cbn [app] in B1, B2.
    split.
    + intros Z. apply B1. apply length_zero_iff_nil. now rewrite <- T1, Z.
    + intros Z. rewrite B2; [|intros C; apply Z; apply length_zero_iff_nil; now rewrite T1, C].
      rewrite T1. destruct (upto_advance a (w ++ [b]) L) as [R [-> ER]].
      rewrite advance_app, ER, app_nil_r. destruct (through_advance aeq a w (upto (a :: w ++ [b]) L)) as [-> _]. reflexivity.
  - intros w b i x K Ex. exfalso. destruct w as [|y w]; cbn [app] in K; inversion K as [|i' n' b' d w' j E' I K'2]; subst; rewrite Er in E'; injection E' as <-; destruct I.
Qed.

Lemma new_bonus lm rl pd np : mbonus (MCTS_new A lm cp rl pd np) [].
Proof.
  intros w b i x K Ex. exfalso. destruct w as [|y w]; cbn [app] in K; inversion K as [|i' n' b' d w' j E' I K'2]; subst; cbn in E'; injection E' as <-; destruct I.
Qed.

Lemma run_bonus ops : forall m L m' L', minv m L -> mbonus m L -> m_c_puct m = cp -> run ops m L = Some (Ok (m', L')) -> mbonus m' L'.
Proof.
  induction ops as [|[s d|a] ops IH]; intros m L m' L' IV B Ec; cbn [SMcts.run].
  - intros E. injection E as <- <-. exact B.
  - unfold MMcts.playout. destruct (descend aeq py2 order do_move policy d (m_heap m) (m_root m) s) as [[[[h e] s'] acts]|] eqn:E; [|discriminate].
    destruct (descend_bonus (w := []) IV B (at_here _ _) E) as [IV1 [B1 AT1]]. cbn [app] in AT1. rewrite Ec.
    set (lv := MMcts.leaf_value _ _ _ _ _ _ _).
    destruct (update_recursive_ok fsqrt lv cp (in_shape IV1) AT1 (Nat.lt_succ_diag_r e)) as [h2 [E2 _]]. rewrite E2.
    apply IH; [exact (playout_inv IV1 AT1 E2)|exact (bonus_playout IV1 B1 AT1 E2)|exact Ec].
  - destruct (update_with_move_spec a IV) as [m1 [E [IV1 [SS _]]]]. rewrite E. apply IH; [exact IV1|exact (bonus_advance IV B E)|].
    rewrite SS. exact Ec.
Qed.
End L.
