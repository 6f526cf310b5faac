From Verif Require Import Base LBase BaseQ LQ MMcts SMcts LMcts LMcts2.
Set Implicit Arguments.
Unset Strict Implicit.
Open Scope nat_scope.

Section L.
Context (A : Type) (aeq : forall a b : A, {a = b} + {a <> b}).
Notation heap := (heap A).
Notation node := (node A).
Notation through := (through aeq).
Notation inv := (inv aeq).

Lemma Zc_nat_pos k : Zc (Z.of_nat (S k)) <> Zc 0.
Proof. intros E. apply Zc_inj in E. lia. Qed.

(** The running mean. *)
Lemma mean_step (Q lv : Qc) k :
  ((Q + (lv - Q) / Zc (Z.of_nat (S k))) * Zc (Z.of_nat (S k)) = Q * Zc (Z.of_nat k) + lv)%Qc.
Proof.
  assert (E : Zc (Z.of_nat (S k)) = (Zc (Z.of_nat k) + 1)%Qc).
  { replace (Z.of_nat (S k)) with (Z.of_nat k + 1)%Z by lia. now rewrite Zc_plus. }
  pose proof (@Zc_nat_pos k) as N. change (Zc 0) with (Q2Qc 0) in N. rewrite E in *. field. exact N.
Qed.

Lemma through_snoc w (L : @log A) acts v : through w (L ++ [(acts, v)]) = through w L ++ (if starts_with aeq w acts then [(acts, v)] else []).
Proof. rewrite through_app. reflexivity. Qed.

(** Adding one playout. *)
Lemma playout_inv h h' root L acts e lv cp fsqrt : inv h root L -> at_path h root acts e ->
  update_recursive fsqrt (S e) h e lv cp = Some (Ok h') -> inv h' root (L ++ [(acts, lv)]).
Proof.
  intros IV AT E. pose proof (in_shape IV) as SH.
  destruct (update_recursive_ok fsqrt lv cp SH AT (Nat.lt_succ_diag_r e)) as [h2 [E2 [SK U]]]. rewrite E in E2. injection E2 as <-.
  constructor.
  - exact (skel_shape SK SH).
  - intros x I. apply in_app_or in I. destruct I as [I|[<-|[]]].
    + destruct (in_rec IV I) as [i Hi]. exists i. exact (skel_at SK Hi).
    + exists e. exact (skel_at SK AT).
  - intros w i n' H En'. apply (skel_at (skel_sym SK)) in H. destruct (at_node SH H) as [n En].
    destruct (U i n En) as [n2 [En2 [K1 K2]]]. rewrite En' in En2. injection En2 as <-.
    destruct (in_stat IV H En) as [S1 [S2 S3]]. rewrite through_snoc.
    destruct (starts_with aeq w acts) eqn:St.
    + apply starts_with_app in St. destruct St as [t St]. destruct K1 as [V Qn]; [exists w, t; auto|].
      rewrite V, S1, app_length. cbn [length]. split; [lia|]. split; [intros C; destruct (through w L); discriminate|].
      rewrite total_app, Qn, Nat.add_1_r, S1, mean_step, S3. unfold total at 2. cbn [fold_right snd].
      f_equal. symmetry. exact (Qcplus_0_r lv).
    + rewrite app_nil_r. rewrite K2; [auto|]. intros [v [t [Ea K]]]. pose proof (at_inj SH K H). subst v.
      enough (starts_with aeq w acts = true) by congruence. apply starts_with_app. eauto.
Qed.

(** ** descending *)
Definition keeps (h h' : heap) : Prop :=
  forall i n, nth_error h i = Some n -> exists n', nth_error h' i = Some n' /\ get_value n' = get_value n /\
    (n_children n <> [] -> n_children n' = n_children n).
Lemma keeps_refl h : keeps h h.
Proof. intros i n E. eauto. Qed.
Lemma keeps_trans h1 h2 h3 : keeps h1 h2 -> keeps h2 h3 -> keeps h1 h3.
Proof.
  intros H1 H2 i n E. destruct (H1 i n E) as [n2 [E2 [V2 C2]]]. destruct (H2 i n2 E2) as [n3 [E3 [V3 C3]]].
  exists n3. split; [exact E3|]. split; [congruence|]. intros N. rewrite C3, C2; auto. now rewrite C2.
Qed.
Lemma keeps_at h h' r w i : keeps h h' -> at_path h r w i -> at_path h' r w i.
Proof.
  intros H K. induction K as [i|i n a c w j E I K IH]; [constructor|].
  destruct (H i n E) as [n' [E' [_ C]]]. econstructor; [exact E'| |exact IH]. rewrite C; [exact I|]. intros N. rewrite N in I. destruct I.
Qed.

Context (py2 : bool) (order : list (A * nat) -> list (A * nat)) (fsqrt : nat -> Qc).
Hypothesis OP : forall l, Permutation (order l) l.
Context (St : Type) (do_move : St -> A -> St) (policy rollout : St -> list (A * Qc)) (value : St -> Qc)
  (winner current_player : St -> Z).

(** Each move taken has the largest value among the siblings. *)
Definition greedy (h : heap) (root : nat) (w acts : list A) : Prop :=
  forall v a t, acts = v ++ a :: t -> exists i n c m, at_path h root (w ++ v) i /\ nth_error h i = Some n /\
    In (a, c) (n_children n) /\ nth_error h c = Some m /\
    forall b d md, In (b, d) (n_children n) -> nth_error h d = Some md -> (get_value md <= get_value m)%Qc.

Lemma expand_leaf_keeps h root self n w0 L aps : inv h root L -> at_path h root w0 self -> nth_error h self = Some n ->
  n_children n = [] -> forall h', expand aeq h self aps = Ok h' -> keeps h h'.
Proof.
  intros IV AT En Lf h' E. assert (Ls : self < length h) by (apply nth_error_Some; congruence).
  assert (EX0 : expanded h h self n).
  { assert (Es : set_children n [] = n) by (destruct n; cbn in Lf; subst; reflexivity).
    constructor; [lia| |intros j Hj; lia|reflexivity].
    exists []. rewrite Es. split; [exact En|]. split; [intros a c []|]. split; constructor. }
  destruct (expand_spec aeq aps Ls EX0) as [h2 [E2 [EX _]]]. rewrite E in E2. injection E2 as <-.
  intros i m Em. destruct (Nat.eq_dec i self) as [->|Ni].
  - rewrite En in Em. injection Em as <-. destruct (ex_self EX) as [kids [Ek _]]. exists (set_children n kids).
    split; [exact Ek|]. split; [reflexivity|]. congruence.
  - exists m. rewrite (ex_old EX); auto. apply nth_error_Some. congruence.
Qed.

Lemma descend_spec depth : py2 = true -> forall h root L w nd state, inv h root L -> at_path h root w nd ->
  exists h' e s' acts, descend aeq py2 order do_move policy depth h nd state = Ok (h', e, s', acts) /\
    inv h' root L /\ at_path h' root (w ++ acts) e /\ length acts <= depth /\ s' = fold_left do_move acts state /\
    keeps h h' /\ greedy h' root w acts /\ (0 < depth -> policy state <> [] -> acts <> []).
Proof.
  intros P2. induction depth as [|d IH]; intros h root L w nd state IV AT.
  - exists h, nd, state, []. cbn. rewrite app_nil_r. split; [reflexivity|]. split; [exact IV|]. split; [exact AT|].
    split; [lia|]. split; [reflexivity|]. split; [apply keeps_refl|]. split; [intros [|? ?] ? ? C; discriminate|lia].
  - cbn [descend]. destruct (at_node (in_shape IV) AT) as [n En]. rewrite (proj2 (get_nth_ok _ _ _) En). cbn [bind].
    assert (step : forall h1 n1, inv h1 root L -> at_path h1 root w nd -> nth_error h1 nd = Some n1 -> n_children n1 <> [] -> keeps h h1 ->
      exists h' e s' acts,
        (do ac <- select py2 order h1 nd; let '(action, nd') := ac in
         do r <- descend aeq py2 order do_move policy d h1 nd' (do_move state action);
         let '(h', e, s', acts) := r in Ok (h', e, s', action :: acts)) = Ok (h', e, s', acts) /\
        inv h' root L /\ at_path h' root (w ++ acts) e /\ length acts <= S d /\ s' = fold_left do_move acts state /\
        keeps h h' /\ greedy h' root w acts /\ (0 < S d -> policy state <> [] -> acts <> [])).
    { intros h1 n1 IV1 AT1 En1 Ne KE1.
      destruct (select_spec py2 OP (in_shape IV1) AT1 En1 Ne) as [[C _]|[_ [[a c] [m [Es [I [Em Mx]]]]]]]; [congruence|].
      rewrite Es. cbn [bind]. cbn [snd] in *.
      assert (ATc : at_path h1 root (w ++ [a]) c) by (apply at_snoc; eauto).
      destruct (IH h1 root L _ c (do_move state a) IV1 ATc) as [h' [e [s' [acts [E [IV' [AT' [Le [Es' [KE [G Nn]]]]]]]]]]].
      rewrite E. cbn [bind]. exists h', e, s', (a :: acts). split; [reflexivity|]. split; [exact IV'|].
      rewrite <- app_assoc in AT'. split; [exact AT'|]. split; [cbn; lia|]. split; [exact Es'|].
      split; [eapply keeps_trans; eauto|]. split; [|discriminate].
      intros v b t Ev. destruct v as [|x v].
      - injection Ev as <- <-. destruct (KE _ _ En1) as [n' [En' [_ Cn]]]. destruct (KE _ _ Em) as [m' [Em' [Vm _]]].
        exists nd, n', c, m'. rewrite app_nil_r. split; [exact (keeps_at KE AT1)|]. split; [exact En'|]. rewrite (Cn Ne).
        split; [exact I|]. split; [exact Em'|]. intros b d' md J Ed. pose proof (sh_kids (in_shape IV1) En1 J) as Bd.
        destruct (nth_error h1 d') as [md1|] eqn:Ed1; [|apply nth_error_None in Ed1; lia].
        destruct (KE _ _ Ed1) as [md' [Ed' [Vd _]]]. rewrite Ed in Ed'. injection Ed' as <-. rewrite Vd, Vm. apply (Mx (b, d') md1 J Ed1).
      - injection Ev as <- Ev. destruct (G v b t Ev) as [i [ni [ci [mi H]]]]. exists i, ni, ci, mi. rewrite <- app_assoc in H. exact H. }
    unfold is_leaf. destruct (n_children n) as [|kc kids] eqn:Ek.
    + destruct (policy state) as [|ap aps] eqn:Ep.
      * exists h, nd, state, []. rewrite app_nil_r. split; [reflexivity|]. split; [exact IV|]. split; [exact AT|].
        split; [cbn; lia|]. split; [reflexivity|]. split; [apply keeps_refl|]. split; [intros [|? ?] ? ? C; discriminate|congruence].
      * destruct (@expand_leaf A aeq h root nd n w L (ap :: aps)) as [h1 [n1 [E1 [IV1 [AT1 [En1 Ne]]]]]]; auto; [discriminate|].
        rewrite E1. cbn [bind]. apply (step h1 n1); auto. eapply expand_leaf_keeps; eauto.
    + apply (step h n); auto; [congruence|apply keeps_refl].
Qed.

(** Without [iteritems] a descent that needs a selection raises, and no other exception occurs. *)
Lemma descend_py3 depth : py2 = false -> forall h root L w nd state, inv h root L -> at_path h root w nd ->
  descend aeq py2 order do_move policy depth h nd state = Raise AttributeError \/
  descend aeq py2 order do_move policy depth h nd state = Ok (h, nd, state, []).
Proof.
  intros P2 h root L w nd state IV AT. destruct depth as [|d]; [now right|]. cbn [descend].
  destruct (at_node (in_shape IV) AT) as [n En]. rewrite (proj2 (get_nth_ok _ _ _) En). cbn [bind].
  unfold is_leaf. destruct (n_children n) as [|kc kids] eqn:Ek.
  - destruct (policy state) as [|ap aps] eqn:Ep; [now right|left].
    destruct (@expand_leaf A aeq h root nd n w L (ap :: aps)) as [h1 [n1 [E1 [IV1 [AT1 [En1 Ne]]]]]]; auto; [discriminate|].
    rewrite E1. cbn [bind]. destruct (select_spec py2 OP (in_shape IV1) AT1 En1 Ne) as [[_ ->]|[C _]]; [reflexivity|congruence].
  - left. destruct (select_spec py2 OP (in_shape IV) AT En) as [[_ ->]|[C _]]; [congruence|reflexivity|congruence].
Qed.

Notation leaf_value := (leaf_value do_move rollout value winner current_player).
Notation playout := (playout aeq py2 order fsqrt do_move policy rollout value winner current_player).
Notation playouts := (playouts aeq py2 order fsqrt do_move policy rollout value winner current_player).
Notation get_move := (get_move aeq py2 order fsqrt do_move policy rollout value winner current_player).
Notation mcts := (mcts A).

Definition minv (m : mcts) (L : log) : Prop := inv (m_heap m) (m_root m) L.
Definition same_settings (m m' : mcts) : Prop := m' = with_tree m (m_heap m') (m_root m').

(** One playout: never fails; its record is truthful; the tree accounts for it. *)
Lemma playout_spec m L state depth : py2 = true -> minv m L ->
  exists m' acts, playout m state depth = Some (Ok (m', (acts, leaf_value m (fold_left do_move acts state)))) /\
    minv m' (L ++ [(acts, leaf_value m (fold_left do_move acts state))]) /\ length acts <= depth /\
    same_settings m m' /\ m_root m' = m_root m /\ (0 < depth -> policy state <> [] -> acts <> []).
Proof.
  intros P2 IV. unfold MMcts.playout.
  destruct (descend_spec depth P2 (w := []) state IV (at_here _ _)) as [h' [e [s' [acts [E [IV' [AT [Le [-> [KE [G Nn]]]]]]]]]]].
  rewrite E. set (lv := leaf_value m _).
  destruct (update_recursive_ok fsqrt lv (m_c_puct m) (in_shape IV') AT (Nat.lt_succ_diag_r e)) as [h2 [E2 _]]. cbn [app] in *.
  rewrite E2. exists (with_tree m h2 (m_root m)), acts. split; [reflexivity|]. split; [|split; [exact Le|]].
  - unfold minv. cbn. exact (playout_inv IV' AT E2).
  - split; [reflexivity|]. split; [reflexivity|exact Nn].
Qed.

Lemma leaf_value_settings m m' s : same_settings m m' -> leaf_value m' s = leaf_value m s.
Proof. intros ->. reflexivity. Qed.
Lemma settings_trans m1 m2 m3 : same_settings m1 m2 -> same_settings m2 m3 -> same_settings m1 m3.
Proof. unfold same_settings. intros H1 H2. rewrite H2, H1. reflexivity. Qed.

Lemma playouts_spec count : py2 = true -> forall m L state, minv m L ->
  exists m' ens, playouts count m state = Some (Ok (m', ens)) /\ minv m' (L ++ ens) /\ length ens = count /\
    same_settings m m' /\ m_root m' = m_root m /\
    forall acts v, In (acts, v) ens -> v = leaf_value m (fold_left do_move acts state) /\ length acts <= m_L m /\
       (0 < m_L m -> policy state <> [] -> acts <> []).
Proof.
  intros P2. induction count as [|k IH]; intros m L state IV.
  - exists m, []. rewrite app_nil_r. split; [reflexivity|]. split; [exact IV|]. split; [reflexivity|].
    split; [destruct m; reflexivity|]. split; [reflexivity|easy].
  - cbn [MMcts.playouts]. destruct (playout_spec state (m_L m) P2 IV) as [m1 [acts [E [IV1 [Le [SS [Rt Nn]]]]]]]. rewrite E.
    destruct (IH m1 _ state IV1) as [m' [ens [E' [IV' [Ln [SS' [Rt' K]]]]]]]. rewrite E'. eexists m', (_ :: ens). split; [reflexivity|].
    rewrite <- app_assoc in IV'. split; [exact IV'|]. split; [cbn; now rewrite Ln|]. split; [eapply settings_trans; eauto|].
    split; [congruence|]. intros acts' v [J|J].
    + injection J as <- <-. auto.
    + destruct (K acts' v J) as [K1 K2]. rewrite (leaf_value_settings _ SS) in K1. split; [exact K1|].
      rewrite SS in K2. exact K2.
Qed.

(** *** moving the root *)
Lemma through_advance a w (L : @log A) :
  length (through w (advance aeq a L)) = length (through (a :: w) L) /\
  total (through w (advance aeq a L)) = total (through (a :: w) L).
Proof.
  induction L as [|[acts v] L [IH1 IH2]]; [split; reflexivity|].
  assert (E : advance aeq a ((acts, v) :: L) =
     match acts with b :: t => if aeq b a then [(t, v)] else [] | [] => [] end ++ advance aeq a L) by reflexivity.
  rewrite E, through_app. clear E.
  assert (F : through (a :: w) ((acts, v) :: L) = (if starts_with aeq (a :: w) acts then [(acts, v)] else []) ++ through (a :: w) L).
  { unfold SMcts.through. cbn [filter fst]. now destruct (starts_with aeq (a :: w) acts). }
  rewrite F, !app_length, !total_app, IH1, IH2. clear F IH1 IH2.
  assert (K : length (through w (match acts with b :: t => if aeq b a then [(t, v)] else [] | [] => [] end)) =
              length (if starts_with aeq (a :: w) acts then [(acts, v)] else []) /\
              total (through w (match acts with b :: t => if aeq b a then [(t, v)] else [] | [] => [] end)) =
              total (if starts_with aeq (a :: w) acts then [(acts, v)] else [])); [|destruct K as [K1 K2]; split; [apply (f_equal (fun x => x + _) K1)|apply (f_equal (fun x => (x + _)%Qc) K2)]].
  destruct acts as [|b t].
  - destruct (starts_with aeq (a :: w) []) eqn:S; [|split; reflexivity].
    apply starts_with_app in S. destruct S as [t S]. discriminate.
  - destruct (aeq b a) as [->|N].
    + unfold SMcts.through. cbn [filter fst].
      assert (Eq : starts_with aeq (a :: w) (a :: t) = starts_with aeq w t).
      { apply Bool.eq_iff_eq_true. rewrite !starts_with_app. split; intros [x Hx]; exists x; [injection Hx as ->; reflexivity|now rewrite Hx]. }
      rewrite Eq. now destruct (starts_with aeq w t).
    + destruct (starts_with aeq (a :: w) (b :: t)) eqn:S; [|split; reflexivity].
      apply starts_with_app in S. destruct S as [x S]. injection S as -> _. contradiction.
Qed.

Lemma advance_In a (L : @log A) t v : In (t, v) (advance aeq a L) <-> In (a :: t, v) L.
Proof.
  unfold advance. rewrite in_flat_map. split.
  - intros [[acts u] [I J]]. cbn [fst snd] in J. destruct acts as [|b t']; [destruct J|]. destruct (aeq b a) as [->|]; [|destruct J].
    destruct J as [J|[]]. injection J as -> ->. exact I.
  - intros I. exists (a :: t, v). split; [exact I|]. cbn. destruct (aeq a a); [now left|contradiction].
Qed.

Lemma at_path_ext (h h' : heap) r w i : (forall j n, nth_error h j = Some n -> exists n', nth_error h' j = Some n' /\ n_children n' = n_children n) ->
  at_path h r w i -> at_path h' r w i.
Proof.
  intros H K. induction K as [i|i n a c w j E I K IH]; [constructor|].
  destruct (H i n E) as [n' [E' C]]. econstructor; [exact E'|rewrite C; exact I|exact IH].
Qed.

Lemma child_some a (kids : list (A * nat)) c : NoDup (map fst kids) -> (child aeq a kids = Some c <-> In (a, c) kids).
Proof.
  intros ND. split; [apply child_In|]. intros I. destruct (child aeq a kids) as [c'|] eqn:E.
  - apply child_In in E. f_equal. revert ND I E. induction kids as [|[b d] kids IH]; cbn; [easy|]. intros ND.
    inversion ND as [|? ? Nb ND']; subst. intros [J|J] [J'|J'].
    + congruence.
    + exfalso. apply Nb. apply (in_map fst) in J'. cbn in J'. congruence.
    + exfalso. apply Nb. apply (in_map fst) in J. cbn in J. congruence.
    + auto.
  - exfalso. apply child_None in E. apply E. apply (in_map fst) in I. exact I.
Qed.

(** [update_with_move]: the playouts that began with the move remain; the subtree is untouched. *)
Lemma update_with_move_spec m L a : minv m L ->
  exists m', update_with_move aeq m a = Ok m' /\ minv m' (advance aeq a L) /\ same_settings m m' /\
    ((exists c, at_path (m_heap m) (m_root m) [a] c /\ m_root m' = c) \/
     ((forall c, ~ at_path (m_heap m) (m_root m) [a] c) /\ advance aeq a L = [] /\
      nth_error (m_heap m') (m_root m') = Some (TreeNode_new A None (Zc 1)))) /\
    (forall i n, nth_error (m_heap m) i = Some n -> exists n', nth_error (m_heap m') i = Some n' /\
       (i = m_root m' -> n' = clear_parent n) /\ (i <> m_root m' -> n' = n)).
Proof.
  intros IV. pose proof (in_shape IV) as SH. destruct (sh_root SH) as [n [En Pn]]. unfold update_with_move.
  rewrite (proj2 (get_nth_ok _ _ _) En). cbn [bind]. destruct (child aeq a (n_children n)) as [c|] eqn:Ec.
  - apply child_In in Ec. pose proof (sh_kids SH En Ec) as Bc.
    assert (ATc : at_path (m_heap m) (m_root m) [a] c) by (econstructor; [exact En|exact Ec|constructor]).
    destruct (at_node SH ATc) as [nc Enc]. rewrite (proj2 (get_nth_ok _ _ _) Enc). cbn [bind].
    rewrite set_nth_ok by lia. cbn [bind]. set (h' := upd _ _ _).
    assert (U : forall i, nth_error h' i = if Nat.eqb c i then Some (clear_parent nc) else nth_error (m_heap m) i).
    { intros i. unfold h'. rewrite nth_error_upd. destruct (Nat.eqb c i); [|reflexivity]. destruct (Nat.ltb_spec c (length (m_heap m))); [reflexivity|lia]. }
    assert (Lh : length h' = length (m_heap m)) by apply upd_length.
    assert (C1 : forall j x, nth_error (m_heap m) j = Some x -> exists x', nth_error h' j = Some x' /\ n_children x' = n_children x).
    { intros j x E. rewrite U. destruct (Nat.eqb_spec c j) as [<-|N]; [|eauto]. rewrite Enc in E. injection E as <-. eauto. }
    assert (C2 : forall j x, nth_error h' j = Some x -> exists x', nth_error (m_heap m) j = Some x' /\ n_children x' = n_children x).
    { intros j x E. rewrite U in E. destruct (Nat.eqb_spec c j) as [<-|N]; [|eauto]. injection E as <-. eauto. }
    assert (P : forall w i, at_path h' c w i <-> at_path (m_heap m) (m_root m) (a :: w) i).
    { intros w i. change (a :: w) with ([a] ++ w). rewrite at_app. split.
      - intros K. exists c. split; [exact ATc|]. exact (at_path_ext C2 K).
      - intros [j [K1 K2]]. pose proof (at_fun SH K1 ATc). subst j. exact (at_path_ext C1 K2). }
    exists (with_tree m h' c). split; [reflexivity|]. split; [|split; [reflexivity|split]].
    + unfold minv. cbn. constructor.
      * constructor.
        -- exists (clear_parent nc). split; [now rewrite U, Nat.eqb_refl|reflexivity].
        -- intros i x b d E I. destruct (C2 i x E) as [x' [E' <-]] in I |- *. rewrite Lh. exact (sh_kids SH E' I).
        -- intros i x E. destruct (C2 i x E) as [x' [E' <-]]. apply (sh_fst SH E').
        -- intros i x E. destruct (C2 i x E) as [x' [E' <-]]. apply (sh_snd SH E').
        -- intros w i x b d y K E I Ey. destruct (C2 i x E) as [x' [E' Cx]]. rewrite <- Cx in I.
           apply P in K. pose proof (sh_kids SH E' I) as Bd. pose proof (at_bound SH K) as Bi.
           assert (ci : c <= i).
           { change (a :: w) with ([a] ++ w) in K. apply at_app in K. destruct K as [j [K1 K2]]. pose proof (at_fun SH K1 ATc). subst j.
             clear - K2 SH. induction K2 as [|i n b c' w j E I K IH]; [lia|]. pose proof (sh_kids SH E I). lia. }
           rewrite U in Ey. destruct (Nat.eqb_spec c d); [lia|]. apply (sh_par SH K E' I Ey).
      * intros [t v] I. apply advance_In in I. destruct (in_rec IV I) as [i Hi]. exists i. apply P. exact Hi.
      * intros w i x K E. apply P in K. destruct (through_advance a w L) as [T1 T2]. 
        assert (Ex : exists x', nth_error (m_heap m) i = Some x' /\ n_visits x' = n_visits x /\ n_Q x' = n_Q x).
        { rewrite U in E. destruct (Nat.eqb_spec c i) as [<-|N]; [|eauto]. injection E as <-. eauto. }
        destruct Ex as [x' [E' [<- <-]]]. destruct (in_stat IV K E') as [S1 [S2 S3]].
        rewrite T1, T2. split; [exact S1|]. split; [|exact S3]. intros Z. apply S2. apply length_zero_iff_nil. now rewrite <- T1, Z.
    + left. exists c. split; [exact ATc|reflexivity].
    + cbn. intros i x E. rewrite U. destruct (Nat.eqb_spec c i) as [<-|N].
      * rewrite Enc in E. injection E as <-. eexists. split; [reflexivity|]. split; [reflexivity|congruence].
      * exists x. split; [exact E|]. split; [congruence|reflexivity].
  - assert (NA : forall c, ~ at_path (m_heap m) (m_root m) [a] c).
    { intros c K. inversion K as [|i n' b d w j E I K']; subst. rewrite En in E. injection E as <-.
      apply child_None in Ec. apply Ec. apply (in_map fst) in I. exact I. }
    assert (AN : advance aeq a L = []).
    { destruct (advance aeq a L) as [|[t v] r] eqn:E; [reflexivity|]. exfalso.
      assert (I : In (t, v) (advance aeq a L)) by (rewrite E; now left). apply advance_In in I.
      destruct (in_rec IV I) as [i Hi]. cbn [fst] in Hi. change (a :: t) with ([a] ++ t) in Hi. apply at_app in Hi.
      destruct Hi as [j [Hj _]]. exact (NA j Hj). }
    set (h := m_heap m) in *. set (nn := TreeNode_new A None (Zc 1)).
    assert (U : forall i x, nth_error (h ++ [nn]) i = Some x -> (i < length h /\ nth_error h i = Some x) \/ (i = length h /\ x = nn)).
    { intros i x E. destruct (Nat.lt_ge_cases i (length h)) as [Hi|Hi].
      - left. rewrite nth_error_app1 in E by exact Hi. auto.
      - right. rewrite nth_error_app2 in E by exact Hi. destruct (i - length h) as [|k] eqn:Ek; cbn in E; [|now destruct k].
        injection E as <-. split; [lia|reflexivity]. }
    assert (Er : nth_error (h ++ [nn]) (length h) = Some nn) by (rewrite nth_error_app2, Nat.sub_diag by lia; reflexivity).
    exists (with_tree m (h ++ [nn]) (length h)). split; [reflexivity|]. split; [|split; [reflexivity|split]].
    + unfold minv. cbn. rewrite AN. 
      assert (only : forall w i, at_path (h ++ [nn]) (length h) w i -> w = [] /\ i = length h).
      { intros w i K. inversion K as [|i' n' b d w' j E I K']; subst; [auto|]. rewrite Er in E. injection E as <-. destruct I. }
      constructor.
      * constructor.
        -- exists nn. auto.
        -- intros i x b d E I. rewrite app_length. cbn. destruct (U i x E) as [[_ E']|[-> ->]]; [pose proof (sh_kids SH E' I); unfold h in *; lia|destruct I].
        -- intros i x E. destruct (U i x E) as [[_ E']|[-> ->]]; [apply (sh_fst SH E')|constructor].
        -- intros i x E. destruct (U i x E) as [[_ E']|[-> ->]]; [apply (sh_snd SH E')|constructor].
        -- intros w i x b d y K E I Ey. destruct (only w i K) as [-> ->]. rewrite Er in E. injection E as <-. destruct I.
      * intros e [].
      * intros w i x K E. destruct (only w i K) as [-> ->]. rewrite Er in E. injection E as <-. cbn. split; [reflexivity|]. split; reflexivity.
    + right. split; [exact NA|]. split; [exact AN|exact Er].
    + cbn. intros i x E. exists x. assert (i < length h) by (apply nth_error_Some; fold h in E; congruence).
      rewrite nth_error_app1 by assumption. split; [exact E|]. split; [lia|reflexivity].
Qed.

Lemma new_inv lm cp rl pd np : minv (MCTS_new A lm cp rl pd np) [].
Proof.
  unfold minv. cbn.
  assert (only : forall w i, at_path [TreeNode_new A None (Zc 1)] 0 w i -> w = [] /\ i = 0).
  { intros w i K. inversion K as [|i' n' b d w' j E I K']; subst; [auto|]. cbn in E. injection E as <-. destruct I. }
  assert (one : forall i x, nth_error [TreeNode_new A None (Zc 1)] i = Some x -> x = TreeNode_new A None (Zc 1)).
  { intros [|[|i]] x E; cbn in E; congruence. }
  constructor.
  - constructor.
    + eexists. split; reflexivity.
    + intros i x b d E I. apply one in E. subst. destruct I.
    + intros i x E. apply one in E. subst. constructor.
    + intros i x E. apply one in E. subst. constructor.
    + intros w i x b d y K E I Ey. apply one in E. subst. destruct I.
  - intros e [].
  - intros w i x K E. apply one in E. subst. cbn. split; [reflexivity|]. split; reflexivity.
Qed.

(** *** the most visited action *)
Lemma most_visited_spec m L : minv m L -> 
  (py2 = false -> most_visited py2 order m = Raise AttributeError) /\
  (py2 = true -> (forall a c, ~ at_path (m_heap m) (m_root m) [a] c) -> most_visited py2 order m = Raise ValueError) /\
  (py2 = true -> (exists a c, at_path (m_heap m) (m_root m) [a] c) ->
     exists a c, most_visited py2 order m = Ok a /\ at_path (m_heap m) (m_root m) [a] c /\
       forall b, length (through [b] L) <= length (through [a] L)).
Proof.
  intros IV. pose proof (in_shape IV) as SH. destruct (sh_root SH) as [n [En Pn]]. unfold most_visited, iteritems.
  rewrite (proj2 (get_nth_ok _ _ _) En). cbn [bind]. split; [intros ->; reflexivity|].
  assert (K : forall a c, In (a, c) (n_children n) <-> at_path (m_heap m) (m_root m) [a] c).
  { intros a c. split.
    - intros I. econstructor; [exact En|exact I|constructor].
    - intros H. inversion H as [|i n' b d w j E I H']; subst. rewrite En in E. injection E as <-. inversion H'; subst. exact I. }
  split.
  - intros -> N. cbn [bind]. assert (Ek : n_children n = []).
    { destruct (n_children n) as [|[a c] r]; [reflexivity|]. exfalso. apply (N a c). apply K. now left. }
    assert (Eo : order (n_children n) = []) by (rewrite Ek; apply Permutation_nil, Permutation_sym, OP).
    rewrite Eo. reflexivity.
  - intros -> [a0 [c0 H0]]. cbn [bind].
    assert (Ne : n_children n <> []) by (intros C; apply K in H0; rewrite C in H0; destruct H0).
    destruct (max_child OP (fun x => Zc (Z.of_nat (n_visits x))) SH (at_here _ _) En Ne) as [ks [[a c] [E [E2 [I [x [Ex Mx]]]]]]].
    rewrite E. cbn [bind]. rewrite E2. cbn [bind fst snd] in *. exists a, c. split; [reflexivity|]. 
    pose proof (proj1 (K a c) I) as Ha. split; [exact Ha|]. destruct (in_stat IV Ha Ex) as [Sa _].
    intros b. destruct (through [b] L) as [|e r] eqn:Eb; [cbn; lia|]. rewrite <- Eb.
    assert (Hb : exists d, at_path (m_heap m) (m_root m) [b] d).
    { assert (J : In e (through [b] L)) by (rewrite Eb; now left). unfold SMcts.through in J. apply filter_In in J. destruct J as [J1 J2].
      apply starts_with_app in J2. destruct J2 as [t J2]. destruct (in_rec IV J1) as [i Hi]. rewrite J2 in Hi. apply at_app in Hi.
      destruct Hi as [j [Hj _]]. eauto. }
    destruct Hb as [d Hb]. destruct (at_node SH Hb) as [y Ey]. destruct (in_stat IV Hb Ey) as [Sb _].
    pose proof (Mx (b, d) y (proj2 (K b d) Hb) Ey) as Le. apply (proj1 (Zc_le _ _)) in Le. rewrite <- Sa, <- Sb. lia.
Qed.
End L.
