(** Starvation and attention. *)
From Verif Require Import Base LBase BaseQ LQ MMcts SMcts LMcts LMcts2 LMcts3 LMcts4 LMcts5 LExplore.
Set Implicit Arguments.
Unset Strict Implicit.
Open Scope nat_scope.

Section L.
Context (A : Type) (aeq : forall a b : A, {a = b} + {a <> b}).
Notation heap := (heap A).
Notation node := (node A).
Notation through := (through aeq).
Notation upto := (upto aeq).
Notation inv := (inv aeq).
Context (py2 : bool) (order : list (A * nat) -> list (A * nat)) (fsqrt : nat -> Qc) (cp : Qc).
Hypothesis OP : forall l, Permutation (order l) l.
Hypothesis P2 : py2 = true.
Hypothesis CP : (0 <= cp)%Qc.
Hypothesis FS : forall n, (0 <= fsqrt n)%Qc.
Context (St : Type) (do_move : St -> A -> St) (policy rollout : St -> list (A * Qc)) (value : St -> Qc)
  (winner current_player : St -> Z).
Notation playout := (playout aeq py2 order fsqrt do_move policy rollout value winner current_player).
Notation run := (run aeq py2 order fsqrt do_move policy rollout value winner current_player).
Notation bonus := (bonus aeq fsqrt cp).
Notation mbonus := (mbonus aeq fsqrt cp).
Notation minv := (minv aeq).

Lemma kid_fun h root w i n a c c' : inv h root [] \/ (exists L, inv h root L) -> at_path h root w i -> nth_error h i = Some n ->
  In (a, c) (n_children n) -> In (a, c') (n_children n) -> c = c'.
Proof.
  intros IV AT En I I'. assert (SH : shape h root) by (destruct IV as [IV|[L IV]]; exact (in_shape IV)).
  apply (at_fun SH (w := w ++ [a])); apply at_snoc; eauto.
Qed.

(** The value of a child tried before is at least the least value seen there. *)
Lemma tried_lower h root L w b cb nb lo : inv h root L -> bonus h root L -> at_path h root (w ++ [b]) cb -> nth_error h cb = Some nb ->
  through (w ++ [b]) L <> [] -> Forall (fun e => lo <= snd e)%Qc L -> (0 <= n_P nb)%Qc -> (lo <= get_value nb)%Qc.
Proof.
  intros IV B AT En T F P. destruct (in_stat IV AT En) as [_ [_ S]]. pose proof (mean_lower T (through_Forall aeq (w ++ [b]) F) S) as M.
  destruct (B w b cb nb AT En) as [_ U]. specialize (U T).
  assert (0 <= n_u nb)%Qc.
  { rewrite U. apply div_nonneg; [apply mult_nonneg; [apply mult_nonneg; [exact CP|exact P]|apply FS]|]. rewrite <- Zc_0. apply Zc_lt. lia. }
  unfold get_value. qclra.
Qed.

(** A child below every value seen at a brother already tried. *)
Definition hungry (m : mcts A) (L : @log A) (w : list A) (a b : A) (lo : Qc) : Prop :=
  exists i n ca cb na nb, at_path (m_heap m) (m_root m) w i /\ nth_error (m_heap m) i = Some n /\
    In (a, ca) (n_children n) /\ In (b, cb) (n_children n) /\ nth_error (m_heap m) ca = Some na /\ nth_error (m_heap m) cb = Some nb /\
    (get_value na < lo)%Qc /\ (0 <= n_P nb)%Qc /\ through (w ++ [b]) L <> [].

Lemma hungry_step m L w a b lo s d m' acts lv : minv m L -> mbonus m L -> m_c_puct m = cp -> hungry m L w a b lo ->
  Forall (fun e => lo <= snd e)%Qc L -> playout m s d = Some (Ok (m', (acts, lv))) ->
  starts_with aeq (w ++ [a]) acts = false /\ hungry m' (L ++ [(acts, lv)]) w a b lo.
Proof.
  intros IV B Ec (i & n & ca & cb & na & nb & AT & En & Ia & Ib & Ea & Eb & Va & Pb & Tb) F E.
  destruct (playout_split OP P2 IV B Ec E) as (h & IVh & Bh & KE & KP & G & [e ATe] & SK & Rt & Ec' & FR & IV' & B').
  pose proof (keeps_at KE AT) as ATh. destruct (KE i n En) as [n' [En' [_ Cn]]]. assert (NEc : n_children n <> []) by (intros C; rewrite C in Ia; destruct Ia). specialize (Cn NEc). rewrite <- Cn in Ia, Ib.
  destruct (KE ca na Ea) as [na' [Ea' [Vna _]]]. destruct (KE cb nb Eb) as [nb' [Eb' [Vnb _]]].
  destruct (KP cb nb Eb) as [nb2 [Eb2 Pnb]]. rewrite Eb' in Eb2. injection Eb2 as <-.
  assert (ATa : at_path h (m_root m) (w ++ [a]) ca) by (apply at_snoc; eauto).
  assert (ATb : at_path h (m_root m) (w ++ [b]) cb) by (apply at_snoc; eauto).
  assert (Vb : (lo <= get_value nb')%Qc) by (apply (tried_lower IVh Bh ATb Eb' Tb F); congruence).
  assert (N : starts_with aeq (w ++ [a]) acts = false).
  { destruct (starts_with aeq (w ++ [a]) acts) eqn:SW; [exfalso|reflexivity]. apply starts_with_app in SW. destruct SW as [t SW]. rewrite <- app_assoc in SW.
    destruct (G w a t SW) as (j & nj & c & mc & AJ & Ej & Ic & Emc & MX). cbn [app] in AJ.
    pose proof (at_fun (in_shape IVh) ATh AJ). subst j. rewrite En' in Ej. injection Ej as <-.
    assert (c = ca) by (apply (@kid_fun h (m_root m) w i n' a c ca); eauto). subst c. rewrite Ea' in Emc. injection Emc as <-.
    specialize (MX b cb nb' Ib Eb'). rewrite Vna in MX. qclra. }
  split; [exact N|].
  destruct (proj2 SK i n' En') as [n2 [En2 [_ [Cn2 _]]]]. destruct (proj2 SK cb nb' Eb') as [nb3 [Eb3 [_ [_ Pb3]]]].
  exists i, n2, ca, cb, na', nb3. rewrite Rt, Cn2.
  split; [exact (skel_at SK ATh)|]. split; [exact En2|]. split; [exact Ia|]. split; [exact Ib|].
  split; [exact (FR _ _ _ ATa Ea' N)|]. split; [exact Eb3|]. split; [congruence|]. split; [congruence|].
  rewrite through_snoc. destruct (through (w ++ [b]) L); [contradiction|discriminate].
Qed.

Lemma run_prefix ps : forall m L m' L', run (map (fun sd : St * nat => Playout (fst sd) (snd sd)) ps) m L = Some (Ok (m', L')) -> exists R', L' = L ++ R'.
Proof.
  induction ps as [|[s d] ps IH]; intros m L m' L'; cbn [map SMcts.run fst snd].
  - intros R. injection R as <- <-. exists []. now rewrite app_nil_r.
  - destruct (playout m s d) as [[[m2 en]|]|]; try discriminate. intros R. destruct (IH _ _ _ _ R) as [R' ->]. exists ([en] ++ R'). now rewrite app_assoc.
Qed.
Lemma starved_lemma ps : forall m L w a b lo m' L', minv m L -> mbonus m L -> m_c_puct m = cp -> hungry m L w a b lo ->
  run (map (fun sd : St * nat => Playout (fst sd) (snd sd)) ps) m L = Some (Ok (m', L')) -> Forall (fun e => lo <= snd e)%Qc L' ->
  through (w ++ [a]) L' = through (w ++ [a]) L.
Proof.
  induction ps as [|[s d] ps IH]; intros m L w a b lo m' L' IV B Ec H; cbn [map SMcts.run fst snd].
  - intros E _. now injection E as <- <-.
  - destruct (playout m s d) as [[[m1 [acts lv]]|]|] eqn:E; try discriminate. intros R F.
    assert (PRE : exists R', L' = (L ++ [(acts, lv)]) ++ R').
    { exact (run_prefix R). }
    destruct PRE as [R' PRE]. assert (F1 : Forall (fun e => lo <= snd e)%Qc L) by (rewrite PRE in F; apply Forall_app in F; destruct F as [F _]; apply Forall_app in F; apply F).
    destruct (hungry_step IV B Ec H F1 E) as [N H'].
    destruct (playout_split OP P2 IV B Ec E) as (h & _ & _ & _ & _ & _ & _ & _ & _ & Ec' & _ & IV' & B').
    rewrite (IH _ _ _ _ _ _ _ _ IV' B' Ec' H' R F), through_snoc, N. apply app_nil_r.
Qed.

(** ** attention *)
Hypothesis FM : forall i j, i <= j -> (fsqrt i <= fsqrt j)%Qc.
Lemma upto_prefix w (L : @log A) : exists R, L = upto w L ++ R.
Proof.
  induction L as [|e L IH] using rev_ind; [now exists []|]. rewrite upto_snoc. destruct (starts_with aeq w (fst e)).
  - exists []. now rewrite app_nil_r.
  - destruct IH as [R E]. exists (R ++ [e]). now rewrite app_assoc, <- E.
Qed.
Lemma upto_le w v (L : @log A) : length (through w (upto v L)) <= length (through w L).
Proof. destruct (upto_prefix v L) as [R E]. rewrite E at 2. rewrite through_app, app_length. lia. Qed.

Definition attn (hi : Qc) (h : heap) (root : nat) (L : log) : Prop :=
  forall w i n a ca na b cb nb, at_path h root w i -> nth_error h i = Some n -> In (a, ca) (n_children n) -> In (b, cb) (n_children n) ->
    nth_error h ca = Some na -> nth_error h cb = Some nb -> (0 <= n_P nb)%Qc -> through (w ++ [a]) L = [] -> 2 <= length (through (w ++ [b]) L) ->
    ((n_P na - hi) * Zc (Z.of_nat (length (through (w ++ [b]) L))) <= cp * n_P nb * fsqrt (length (through w L)))%Qc.

Lemma bonus_mono p i j : (0 <= p)%Qc -> i <= j -> (cp * p * fsqrt i <= cp * p * fsqrt j)%Qc.
Proof. intros P H. rewrite !(Qcmult_comm (cp * p)). apply Qcmult_le_compat_r; [now apply FM|]. now apply mult_nonneg. Qed.

Lemma attn_step hi m L s d m' acts lv : minv m L -> mbonus m L -> m_c_puct m = cp -> attn hi (m_heap m) (m_root m) L ->
  Forall (fun e => snd e <= hi)%Qc L -> playout m s d = Some (Ok (m', (acts, lv))) -> attn hi (m_heap m') (m_root m') (L ++ [(acts, lv)]).
Proof.
  intros IV B Ec AI F E.
  destruct (playout_split OP P2 IV B Ec E) as (h & IVh & Bh & KE & KP & G & [e ATe] & SK & Rt & Ec' & FR & IV' & B').
  intros w i n a ca na b cb nb AT En Ia Ib Ea Eb Pb Ta Tb. rewrite Rt in AT.
  pose proof (skel_sym SK) as KS. apply (skel_at KS) in AT. destruct (proj2 KS i n En) as [n1 [En1 [_ [Cn1 _]]]].
  destruct (proj2 KS ca na Ea) as [na1 [Ea1 [_ [_ Pa1]]]]. destruct (proj2 KS cb nb Eb) as [nb1 [Eb1 [_ [_ Pb1]]]].
  rewrite <- Cn1 in Ia, Ib. rewrite <- Pa1, <- Pb1. rewrite <- Pb1 in Pb. clear dependent n. clear dependent na. clear dependent nb.
  rewrite through_snoc in Ta. apply app_eq_nil in Ta. destruct Ta as [Ta Sa].
  assert (ATa : at_path h (m_root m) (w ++ [a]) ca) by (apply at_snoc; eauto).
  assert (ATb : at_path h (m_root m) (w ++ [b]) cb) by (apply at_snoc; eauto).
  assert (LW : length (through w L) <= length (through w (L ++ [(acts, lv)]))) by (rewrite through_app, app_length; lia).
  rewrite (through_snoc aeq (w ++ [b])), app_length in Tb |- *. destruct (starts_with aeq (w ++ [b]) acts) eqn:SW.
  - cbn [length] in *. assert (T1 : through (w ++ [b]) L <> []) by (intros C; rewrite C in Tb; cbn in Tb; lia).
    apply starts_with_app in SW. destruct SW as [t SW]. rewrite <- app_assoc in SW.
    destruct (G w b t SW) as (j & nj & c & mc & AJ & Ej & Ic & Emc & MX). cbn [app] in AJ.
    pose proof (at_fun (in_shape IVh) AT AJ). subst j. rewrite En1 in Ej. injection Ej as <-.
    assert (c = cb) by (apply (@kid_fun h (m_root m) w i n1 b c cb); eauto). subst c. rewrite Eb1 in Emc. injection Emc as <-.
    specialize (MX a ca na1 Ia Ea1). unfold get_value in MX.
    destruct (Bh w a ca na1 ATa Ea1) as [Ua _]. rewrite (Ua Ta) in MX. destruct (in_stat IVh ATa Ea1) as [_ [Qa _]]. rewrite (Qa Ta), Zc_0 in MX.
    destruct (Bh w b cb nb1 ATb Eb1) as [_ Ub]. rewrite (Ub T1) in MX. destruct (in_stat IVh ATb Eb1) as [_ [_ Sb]].
    pose proof (mean_upper T1 (through_Forall aeq (w ++ [b]) F) Sb) as M.
    set (k := length (through (w ++ [b]) L)) in *. set (X := (cp * n_P nb1 * fsqrt (length (through w (upto (w ++ [b]) L))))%Qc) in *.
    replace (Z.of_nat (k + 1)) with (1 + Z.of_nat k)%Z by lia. set (K := Zc (1 + Z.of_nat k)) in *.
    assert (KP' : (0 < K)%Qc) by (unfold K; rewrite <- Zc_0; apply Zc_lt; lia).
    assert (X1 : (X / K * K = X)%Qc) by (unfold Qcdiv; rewrite <- Qcmult_assoc, (Qcmult_comm (/ K)), Qcmult_inv_r; [ring|intros C; rewrite C in KP'; now apply Qclt_not_eq in KP']).
    apply Qcle_trans with X.
    + rewrite <- X1. apply Qcmult_le_compat_r; [|now apply Qclt_le_weak]. set (Y := (X / K)%Qc) in *. qclra.
    + apply bonus_mono; [exact Pb|]. etransitivity; [apply upto_le|exact LW].
  - cbn [length] in *. rewrite Nat.add_0_r in *.
    assert (T1 : through (w ++ [b]) L <> []) by (intros C; rewrite C in Tb; cbn in Tb; lia).
    assert (OLD : exists cb', at_path (m_heap m) (m_root m) (w ++ [b]) cb').
    { destruct (through (w ++ [b]) L) as [|x l] eqn:Ex; [contradiction|]. assert (Ix : In x (through (w ++ [b]) L)) by (rewrite Ex; now left).
      apply filter_In in Ix. destruct Ix as [Ix Sx]. apply starts_with_app in Sx. destruct Sx as [t Sx]. destruct (in_rec IV Ix) as [j Hj].
      rewrite Sx in Hj. apply at_app in Hj. destruct Hj as [q [Hq _]]. eauto. }
    destruct OLD as [cb' AO]. pose proof (at_fun (in_shape IVh) (keeps_at KE AO) ATb). subst cb'.
    apply at_snoc in AO. destruct AO as [j [nj [AJ [Ej Ij]]]]. pose proof (at_fun (in_shape IVh) (keeps_at KE AJ) AT). subst j.
    destruct (KE i nj Ej) as [n' [En' [_ Cn']]]. rewrite En1 in En'. injection En' as <-. assert (NEc : n_children nj <> []) by (intros C; rewrite C in Ij; destruct Ij). specialize (Cn' NEc). rewrite Cn' in Ia, Ib.
    assert (AOa : at_path (m_heap m) (m_root m) (w ++ [a]) ca) by (apply at_snoc; eauto).
    assert (AOb : at_path (m_heap m) (m_root m) (w ++ [b]) cb) by (apply at_snoc; eauto).
    destruct (at_node (in_shape IV) AOa) as [na0 Ena0]. destruct (at_node (in_shape IV) AOb) as [nb0 Enb0].
    destruct (KP ca na0 Ena0) as [x [Ex Px]]. rewrite Ea1 in Ex. injection Ex as <-.
    destruct (KP cb nb0 Enb0) as [x [Ex Px']]. rewrite Eb1 in Ex. injection Ex as <-. rewrite Px' in Pb. rewrite Px, Px'.
    eapply Qcle_trans; [exact (AI w i nj a ca na0 b cb nb0 AJ Ej Ia Ib Ena0 Enb0 Pb Ta Tb)|]. now apply bonus_mono.
Qed.

Lemma length_nil T (l : list T) : length l = 0 <-> l = [].
Proof. destruct l; cbn; split; congruence || easy. Qed.
Lemma attn_advance hi m L x m' : minv m L -> attn hi (m_heap m) (m_root m) L -> update_with_move aeq m x = Ok m' ->
  attn hi (m_heap m') (m_root m') (advance aeq x L).
Proof.
  intros IV AI E. destruct (update_with_move_spec x IV) as [m2 [E2 [IV' [_ [K H]]]]]. rewrite E in E2. injection E2 as <-.
  pose proof (in_shape IV) as SH. destruct K as [[c [AT Rt]]|[NA [AN Er]]].
  - assert (NODE : forall i n', i < length (m_heap m) -> nth_error (m_heap m') i = Some n' -> exists n, nth_error (m_heap m) i = Some n /\ n_children n' = n_children n /\ n_P n' = n_P n).
    { intros i n' Hi En'. destruct (nth_error (m_heap m) i) as [n|] eqn:En; [|apply nth_error_None in En; lia]. exists n. split; [reflexivity|].
      destruct (H i n En) as [n2 [En2 [H1 H2]]]. rewrite En' in En2. injection En2 as <-. destruct (Nat.eq_dec i (m_root m')) as [e|N]; [rewrite (H1 e)|rewrite (H2 N)]; auto. }
    assert (BACK : forall r w i, at_path (m_heap m') r w i -> r < length (m_heap m) -> at_path (m_heap m) r w i /\ i < length (m_heap m)).
    { intros r w i HP. induction HP as [i|i n a c' w j En I HP IH]; intros Hr; [split; [constructor|exact Hr]|].
      destruct (NODE i n Hr En) as [n0 [En0 [Cn _]]]. rewrite Cn in I. destruct (IH (proj2 (sh_kids SH En0 I))) as [Q1 Q2]. split; [econstructor; eauto|exact Q2]. }
    assert (Hc : c < length (m_heap m)) by apply (at_bound SH AT).
    intros w i n a ca na b cb nb ATw En Ia Ib Ea Eb Pb Ta Tb. rewrite Rt in ATw. destruct (BACK _ _ _ ATw Hc) as [ATm Hi].
    destruct (NODE i n Hi En) as [n0 [En0 [Cn _]]]. rewrite Cn in Ia, Ib.
    destruct (NODE ca na (proj2 (sh_kids SH En0 Ia)) Ea) as [na0 [Ea0 [_ Pa0]]]. destruct (NODE cb nb (proj2 (sh_kids SH En0 Ib)) Eb) as [nb0 [Eb0 [_ Pb0]]].
    rewrite Pa0, Pb0. rewrite Pb0 in Pb. apply length_nil in Ta. rewrite (proj1 (through_advance aeq x _ L)) in Ta. apply length_nil in Ta. rewrite (proj1 (through_advance aeq x _ L)) in Tb. rewrite !(proj1 (through_advance aeq x _ L)).
    assert (AX : at_path (m_heap m) (m_root m) (x :: w) i) by (change (x :: w) with ([x] ++ w); apply at_app; eauto).
    exact (AI (x :: w) i n0 a ca na0 b cb nb0 AX En0 Ia Ib Ea0 Eb0 Pb Ta Tb).
  - intros w i n a ca na b cb nb _ _ _ _ _ _ _ _ Tb. rewrite AN in Tb. cbn in Tb. lia.
Qed.

Lemma attn_run ops hi : forall m L m' L', minv m L -> mbonus m L -> m_c_puct m = cp -> attn hi (m_heap m) (m_root m) L ->
  (forall ops' mi Li, (exists ops2, ops = ops' ++ ops2) -> run ops' m L = Some (Ok (mi, Li)) -> Forall (fun e => snd e <= hi)%Qc Li) ->
  run ops m L = Some (Ok (m', L')) -> attn hi (m_heap m') (m_root m') L'.
Proof.
  induction ops as [|[s d|x] ops IH]; intros m L m' L' IV B Ec AI F; cbn [SMcts.run].
  - intros E. now injection E as <- <-.
  - destruct (playout m s d) as [[[m1 [acts lv]]|]|] eqn:E; try discriminate.
    pose proof (F [] m L (ex_intro _ _ eq_refl) eq_refl) as F0.
    destruct (playout_split OP P2 IV B Ec E) as (h & _ & _ & _ & _ & _ & _ & _ & _ & Ec' & _ & IV' & B').
    apply IH; auto; [exact (attn_step IV B Ec AI F0 E)|]. intros ops' mi Li [ops2 EO] R. apply (F (Playout s d :: ops') mi Li); [exists ops2; cbn; now rewrite EO|].
    cbn [SMcts.run]. now rewrite E.
  - destruct (update_with_move aeq m x) as [m1|] eqn:E; [|discriminate].
    destruct (update_with_move_spec x IV) as [m2 [E2 [IV' [SS _]]]]. rewrite E in E2. injection E2 as <-.
    apply IH; auto; [exact (bonus_advance IV B E)|rewrite SS; exact Ec|exact (attn_advance IV AI E)|].
    intros ops' mi Li [ops2 EO] R. apply (F (Advance x :: ops') mi Li); [exists ops2; cbn; now rewrite EO|]. cbn [SMcts.run]. now rewrite E.
Qed.
End L.
