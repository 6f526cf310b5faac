From Verif Require Import Base LBase BaseQ LQ MMcts SMcts LMcts.
Set Implicit Arguments.
Unset Strict Implicit.
Open Scope nat_scope.

Section L.
Context (A : Type) (aeq : forall a b : A, {a = b} + {a <> b}).
Notation heap := (heap A).
Notation node := (node A).
Notation through := (through aeq).

Record inv (h : heap) (root : nat) (L : log) : Prop := mkInv {
  in_shape : shape h root;
  in_rec : recorded h root L;
  in_stat : statistics aeq h root L
}.

(** ** expanding a leaf *)
Section Expand.
Context (h : heap) (root self : nat) (n : node) (w0 : list A) (L : @log A).
Hypothesis IV : inv h root L.
Hypothesis AT : at_path h root w0 self.
Hypothesis En : nth_error h self = Some n.
Hypothesis Lf : n_children n = [].
Context (h' : heap) (EX : expanded h h' self n).

Lemma ex_at_old w i : at_path h root w i -> at_path h' root w i.
Proof.
  generalize root. intros r H. induction H as [i|i m a c w j E I H IH]; [constructor|].
  assert (Ni : i <> self) by (intros ->; rewrite En in E; injection E as <-; rewrite Lf in I; destruct I).
  econstructor; [|exact I|exact IH]. rewrite (ex_old EX); [exact E| |exact Ni]. apply nth_error_Some. congruence.
Qed.

Lemma ex_at_inv w i : at_path h' root w i -> at_path h root w i \/
  exists a, w = w0 ++ [a] /\ length h <= i /\ exists kids, nth_error h' self = Some (set_children n kids) /\ In (a, i) kids.
Proof.
  pose proof (in_shape IV) as SH. destruct (ex_self EX) as [kids [Ek [B _]]].
  revert i. induction w as [|a w IH] using rev_ind; intros i H.
  - inversion H; subst. left. constructor.
  - apply at_snoc in H. destruct H as [j [m [H [Em I]]]]. destruct (IH j H) as [K|[b [Ew [Lj _]]]].
    + pose proof (at_bound SH K) as Bj. destruct (Nat.eq_dec j self) as [->|Nj].
      * right. rewrite Ek in Em. injection Em as <-. cbn in I. exists a. split; [f_equal; apply (at_inj SH K AT)|].
        split; [apply (B a i I)|]. exists kids. auto.
      * left. rewrite (ex_old EX) in Em by (auto; lia). apply at_snoc. eauto.
    + exfalso. destruct (ex_new EX (j := j)) as [P E].
      * split; [exact Lj|]. apply nth_error_Some. congruence.
      * rewrite E in Em. injection Em as <-. destruct I.
Qed.

Lemma ex_inv : inv h' root L.
Proof.
  pose proof (in_shape IV) as SH. destruct (ex_self EX) as [kids [Ek [B [N1 N2]]]].
  assert (Ls : self < length h) by (apply nth_error_Some; congruence).
  assert (cases : forall i m, nth_error h' i = Some m -> (i < length h /\ i <> self /\ nth_error h i = Some m) \/
     (i = self /\ m = set_children n kids) \/ (length h <= i < length h' /\ exists P, m = TreeNode_new A (Some self) P)).
  { intros i m E. destruct (Nat.lt_ge_cases i (length h)) as [Hi|Hi].
    - destruct (Nat.eq_dec i self) as [->|Ni]; [right; left; split; [reflexivity|congruence]|left].
      rewrite (ex_old EX) in E by auto. auto.
    - right; right. assert (Hi' : length h <= i < length h') by (split; [exact Hi|apply nth_error_Some; congruence]).
      split; [exact Hi'|]. destruct (ex_new EX Hi') as [P F]. exists P. congruence. }
  constructor.
  - constructor.
    + destruct (sh_root SH) as [m [E P]]. destruct (Nat.eq_dec root self) as [->|N].
      * exists (set_children n kids). split; [exact Ek|]. cbn. congruence.
      * exists m. split; [|exact P]. rewrite (ex_old EX); auto. apply nth_error_Some. congruence.
    + intros i m a c E I. destruct (cases i m E) as [[Hi [Ni F]]|[[-> ->]|[Hi [P ->]]]].
      * pose proof (sh_kids SH F I). pose proof (ex_len EX). lia.
      * cbn in I. specialize (B a c I). lia.
      * destruct I.
    + intros i m E. destruct (cases i m E) as [[Hi [Ni F]]|[[-> ->]|[Hi [P ->]]]]; [apply (sh_fst SH F)|exact N1|constructor].
    + intros i m E. destruct (cases i m E) as [[Hi [Ni F]]|[[-> ->]|[Hi [P ->]]]]; [apply (sh_snd SH F)|exact N2|constructor].
    + intros w i m a c mc H E I Ec. destruct (cases i m E) as [[Hi [Ni F]]|[[-> ->]|[Hi [P ->]]]].
      * destruct (ex_at_inv H) as [K|[b [_ [Lb _]]]]; [|lia]. pose proof (sh_kids SH F I) as Hc.
        destruct (Nat.eq_dec c self) as [->|Nc].
        -- rewrite Ek in Ec. injection Ec as <-. cbn. apply (sh_par SH K F I En).
        -- rewrite (ex_old EX) in Ec by (auto; lia). apply (sh_par SH K F I Ec).
      * cbn in I. destruct (ex_new EX (B a c I)) as [P G]. rewrite G in Ec. injection Ec as <-. reflexivity.
      * destruct I.
  - intros e He. destruct (in_rec IV He) as [i Hi]. exists i. now apply ex_at_old.
  - intros w i m H E. destruct (ex_at_inv H) as [K|[a [-> [Li [kids' [Ek' I]]]]]].
    + pose proof (at_bound SH K) as Bi. destruct (Nat.eq_dec i self) as [->|Ni].
      * rewrite Ek in E. injection E as <-. apply (in_stat IV K En).
      * rewrite (ex_old EX) in E by (auto; lia). apply (in_stat IV K E).
    + assert (T : through (w0 ++ [a]) L = []).
      { eapply through_none; [exact (in_rec IV)|]. intros j Hj. apply at_snoc in Hj. destruct Hj as [s [m' [H1 [H2 H3]]]].
        rewrite (at_fun SH H1 AT), En in H2. injection H2 as <-. rewrite Lf in H3. destruct H3. }
      destruct (ex_new EX (j := i)) as [P F]; [split; [exact Li|apply nth_error_Some; congruence]|].
      rewrite F in E. injection E as <-. rewrite T. cbn. split; [reflexivity|]. split; [reflexivity|]. reflexivity.
Qed.
End Expand.

Lemma expand_leaf h root self n w0 L aps : inv h root L -> at_path h root w0 self -> nth_error h self = Some n ->
  n_children n = [] -> aps <> [] ->
  exists h' n', expand aeq h self aps = Ok h' /\ inv h' root L /\ at_path h' root w0 self /\
    nth_error h' self = Some n' /\ n_children n' <> [].
Proof.
  intros IV AT En Lf Na. assert (Ls : self < length h) by (apply nth_error_Some; congruence).
  assert (EX0 : expanded h h self n).
  { assert (Es : set_children n [] = n) by (destruct n; cbn in Lf; subst; reflexivity).
    constructor; [lia| |intros j Hj; lia|reflexivity].
    exists []. rewrite Es. split; [exact En|]. split; [intros a c []|]. split; constructor. }
  destruct (expand_spec aeq aps Ls EX0) as [h' [E [EX K]]].
  assert (Es : nth_error h self = Some (set_children n [])) by (rewrite En; destruct n; cbn in Lf; subst; reflexivity).
  destruct (K [] Es) as [kids' [Ek G]]. exists h', (set_children n kids'). split; [exact E|].
  split; [exact (ex_inv IV AT En Lf EX)|]. split; [exact (ex_at_old En Lf EX AT)|]. split; [exact Ek|].
  cbn. destruct aps as [|[a p] aps]; [contradiction|]. intros ->. apply (G a). cbn. auto.
Qed.

(** ** selecting *)
Lemma max_loop_In T (l : list (T * Qc)) b kb : max_loop b kb l = b \/ In (max_loop b kb l) (map fst l).
Proof.
  revert b kb. induction l as [|[x k] l IH]; intros b kb; cbn; [now left|]. destruct (Qcltb kb k).
  - destruct (IH x k) as [->|H]; auto.
  - destruct (IH b kb) as [H|H]; auto.
Qed.

Lemma py_max_spec T (l : list (T * Qc)) : l <> [] ->
  exists x k, py_max l = Ok x /\ In (x, k) l /\ forall y k', In (y, k') l -> (k' <= k)%Qc.
Proof.
  destruct l as [|[x k] l]; [contradiction|]. intros _. cbn [py_max].
  assert (K : exists k', In (max_loop x k l, k') ((x, k) :: l) /\ (k <= k')%Qc /\ forall y k2, In (y, k2) l -> (k2 <= k')%Qc).
  { revert x k. induction l as [|[y ky] l IH]; intros x k; cbn [max_loop].
    - exists k. split; [now left|]. split; [apply Qcle_refl|easy].
    - destruct (Qcltb k ky) eqn:E.
      + apply Qcltb_lt in E. destruct (IH y ky) as [k' [I [L1 L2]]]. exists k'. split; [now right|].
        split; [apply Qclt_le_weak; eapply Qclt_le_trans; eauto|]. intros z kz [J|J]; [injection J as <- <-; exact L1|eauto].
      + destruct (IH x k) as [k' [I [L1 L2]]]. exists k'. split; [destruct I as [I|I]; [now left|right; now right]|]. split; [exact L1|].
        assert (Ek : (ky <= k)%Qc) by (apply Qcnot_lt_le; intros C; apply Qcltb_lt in C; congruence).
        intros z kz [J|J]; [injection J as <- <-; eapply Qcle_trans; eauto|eauto]. }
  destruct K as [k' [I [L1 L2]]]. exists (max_loop x k l), k'. split; [reflexivity|]. split; [exact I|].
  intros y k2 [J|J]; [injection J as <- <-; exact L1|eauto].
Qed.

Context (py2 : bool) (order : list (A * nat) -> list (A * nat)) (fsqrt : nat -> Qc).
Hypothesis OP : forall l, Permutation (order l) l.

Lemma keyed_ok (h : heap) key l : (forall ai, In ai l -> exists n, nth_error h (snd ai) = Some n) ->
  exists ks, keyed h key l = Ok ks /\ map fst ks = l /\
    forall ai k, In (ai, k) ks -> exists n, nth_error h (snd ai) = Some n /\ k = key n.
Proof.
  unfold keyed. induction l as [|ai l IH]; intros H; cbn [mapM].
  - exists []. split; [reflexivity|]. split; [reflexivity|easy].
  - destruct (H ai (or_introl eq_refl)) as [n En]. rewrite (proj2 (get_nth_ok _ _ _) En). cbn [bind].
    destruct IH as [ks [E [M K]]]; [intros; apply H; now right|]. rewrite E. cbn [bind].
    exists ((ai, key n) :: ks). split; [reflexivity|]. split; [cbn; now rewrite M|].
    intros a k [J|J]; [injection J as <- <-; eauto|eauto].
Qed.

(** The children of a node in iteration order with a key: a maximum exists and is a child. *)
Lemma max_child h root w self n key : shape h root -> at_path h root w self -> nth_error h self = Some n ->
  n_children n <> [] -> 
  exists ks ac, keyed h key (order (n_children n)) = Ok ks /\ py_max ks = Ok ac /\ In ac (n_children n) /\
    exists m, nth_error h (snd ac) = Some m /\
      forall bc m', In bc (n_children n) -> nth_error h (snd bc) = Some m' -> (key m' <= key m)%Qc.
Proof.
  intros SH AT En Ne.
  assert (Ok : forall ai, In ai (order (n_children n)) -> exists m, nth_error h (snd ai) = Some m).
  { intros [a c] I. apply (Permutation_in _ (OP _)) in I. pose proof (sh_kids SH En I).
    cbn. destruct (nth_error h c) eqn:E; [eauto|]. apply nth_error_None in E. lia. }
  destruct (keyed_ok key Ok) as [ks [E [M K]]].
  assert (Nk : ks <> []).
  { intros ->. cbn in M. apply Ne. apply Permutation_nil. rewrite M. apply OP. }
  destruct (py_max_spec Nk) as [ac [k [E2 [I L]]]]. exists ks, ac. split; [exact E|]. split; [exact E2|].
  assert (Iac : In ac (n_children n)).
  { apply (Permutation_in _ (OP _)). rewrite <- M. apply (in_map fst) in I. exact I. }
  split; [exact Iac|]. destruct (K ac k I) as [m [Em ->]]. exists m. split; [exact Em|].
  intros bc m' J Em'. apply (Permutation_in _ (Permutation_sym (OP _))) in J. rewrite <- M in J. apply in_map_iff in J.
  destruct J as [[bc2 k2] [Eb J]]. cbn in Eb. subst bc2. destruct (K bc k2 J) as [m2 [F ->]]. rewrite Em' in F. injection F as <-.
  apply (L bc _ J).
Qed.

Lemma select_spec h root w self n : shape h root -> at_path h root w self -> nth_error h self = Some n -> n_children n <> [] ->
  (py2 = false /\ select py2 order h self = Raise AttributeError) \/
  (py2 = true /\ exists ac m, select py2 order h self = Ok ac /\ In ac (n_children n) /\ nth_error h (snd ac) = Some m /\
     forall bc m', In bc (n_children n) -> nth_error h (snd bc) = Some m' -> (get_value m' <= get_value m)%Qc).
Proof.
  intros SH AT En Ne. unfold select, iteritems. rewrite (proj2 (get_nth_ok _ _ _) En). cbn [bind].
  destruct py2; [right|left; split; [reflexivity|reflexivity]]. split; [reflexivity|]. cbn [bind].
  destruct (max_child (@get_value A) SH AT En Ne) as [ks [ac [E [E2 [I [m [Em L]]]]]]]. rewrite E. cbn [bind].
  exists ac, m. auto.
Qed.

(** ** update *)
(** Same addresses, parents, children and priors. *)
Definition same_skeleton (h h' : heap) : Prop :=
  length h' = length h /\
  forall i n, nth_error h i = Some n -> exists n', nth_error h' i = Some n' /\
    n_parent n' = n_parent n /\ n_children n' = n_children n /\ n_P n' = n_P n.

Lemma skel_refl h : same_skeleton h h.
Proof. split; [reflexivity|]. intros i n E. exists n. auto. Qed.
Lemma skel_trans h1 h2 h3 : same_skeleton h1 h2 -> same_skeleton h2 h3 -> same_skeleton h1 h3.
Proof.
  intros [L1 H1] [L2 H2]. split; [congruence|]. intros i n E. destruct (H1 i n E) as [n2 [E2 [P [C Q]]]].
  destruct (H2 i n2 E2) as [n3 [E3 [P' [C' Q']]]]. exists n3. split; [exact E3|]. split; [congruence|]. split; congruence.
Qed.
Lemma skel_sym h1 h2 : same_skeleton h1 h2 -> same_skeleton h2 h1.
Proof.
  intros [L H]. split; [congruence|]. intros i n E.
  destruct (nth_error h1 i) as [m|] eqn:F.
  - destruct (H i m F) as [m' [E2 [P [C Q]]]]. rewrite E in E2. injection E2 as <-. exists m. auto.
  - exfalso. apply nth_error_None in F. assert (i < length h2) by (apply nth_error_Some; congruence). lia.
Qed.
Lemma skel_at h h' r w i : same_skeleton h h' -> at_path h r w i -> at_path h' r w i.
Proof.
  intros [_ H] K. induction K as [i|i n a c w j E I K IH]; [constructor|].
  destruct (H i n E) as [n' [E' [_ [C _]]]]. econstructor; [exact E'|rewrite C; exact I|exact IH].
Qed.
Lemma skel_shape h h' r : same_skeleton h h' -> shape h r -> shape h' r.
Proof.
  intros SK SH. pose proof (skel_sym SK) as KS. destruct SK as [L H], KS as [_ H'].
  constructor.
  - destruct (sh_root SH) as [n [E P]]. destruct (H _ _ E) as [n' [E' [P' _]]]. exists n'. split; [exact E'|congruence].
  - intros i n' a c E I. destruct (H' i n' E) as [n [E2 [_ [C _]]]]. rewrite L. apply (sh_kids SH E2 (a := a)). now rewrite C.
  - intros i n' E. destruct (H' i n' E) as [n [E2 [_ [C _]]]]. rewrite <- C. apply (sh_fst SH E2).
  - intros i n' E. destruct (H' i n' E) as [n [E2 [_ [C _]]]]. rewrite <- C. apply (sh_snd SH E2).
  - intros w i n' a c nc' K E I Ec. destruct (H' i n' E) as [n [E2 [_ [C _]]]]. destruct (H' c nc' Ec) as [nc [E3 [P _]]].
    rewrite <- P. eapply (sh_par SH (w := w) (a := a)); [|exact E2|rewrite C; exact I|exact E3].
    apply (skel_at (h := h')); [|exact K]. split; [congruence|exact H'].
Qed.

Definition bumped (lv : Qc) (n n' : node) : Prop :=
  n_visits n' = S (n_visits n) /\ n_Q n' = (n_Q n + (lv - n_Q n) / Zc (Z.of_nat (S (n_visits n))))%Qc.
Definition same_stats (n n' : node) : Prop := n' = n.

Lemma update_ok h self n lv cp : nth_error h self = Some n ->
  (forall p, n_parent n = Some p -> p < length h) ->
  exists h', update fsqrt h self lv cp = Ok h' /\ same_skeleton h h' /\
    (exists n', nth_error h' self = Some n' /\ bumped lv n n' /\
       n_u n' = match n_parent n with
         | None => n_u n
         | Some p => (cp * n_P n * fsqrt (match nth_error h p with Some m => n_visits m | None => 0 end) / Zc (1 + Z.of_nat (S (n_visits n))))%Qc
         end) /\
    (forall i, i <> self -> nth_error h' i = nth_error h i).
Proof.
  intros En Hp. assert (Ls : self < length h) by (apply nth_error_Some; congruence).
  assert (G : forall n', n_parent n' = n_parent n -> n_children n' = n_children n -> n_P n' = n_P n ->
    same_skeleton h (upd h self n') /\ nth_error (upd h self n') self = Some n' /\
    (forall i, i <> self -> nth_error (upd h self n') i = nth_error h i)).
  { intros n' E1 E2 E3. assert (U : forall i, nth_error (upd h self n') i = if Nat.eqb self i then Some n' else nth_error h i).
    { intros i. rewrite nth_error_upd. destruct (Nat.eqb self i); [|reflexivity]. destruct (Nat.ltb_spec self (length h)); [reflexivity|lia]. }
    split; [|split].
    - split; [apply upd_length|]. intros i m E. rewrite U. destruct (Nat.eqb_spec self i) as [<-|N]; [|eauto].
      rewrite En in E. injection E as <-. exists n'. auto.
    - now rewrite U, Nat.eqb_refl.
    - intros i Ni. rewrite U. destruct (Nat.eqb_spec self i); [congruence|reflexivity]. }
  unfold update. rewrite (proj2 (get_nth_ok _ _ _) En). cbn [bind]. destruct (n_parent n) as [p|] eqn:Ep.
  - specialize (Hp p eq_refl). destruct (nth_error h p) as [m|] eqn:Em; [|apply nth_error_None in Em; lia].
    rewrite (proj2 (get_nth_ok _ _ _) Em). cbn [bind]. rewrite set_nth_ok by exact Ls.
    eexists. split; [reflexivity|].
    match goal with |- same_skeleton _ (upd _ _ ?x) /\ _ => destruct (G x) as [G1 [G2 G3]] end; try reflexivity.
    split; [exact G1|]. split; [|exact G3]. eexists. split; [exact G2|]. split; [split; reflexivity|reflexivity].
  - rewrite set_nth_ok by exact Ls. eexists. split; [reflexivity|].
    match goal with |- same_skeleton _ (upd _ _ ?x) /\ _ => destruct (G x) as [G1 [G2 G3]] end; try reflexivity.
    split; [exact G1|]. split; [|exact G3]. eexists. split; [exact G2|]. split; [split; reflexivity|reflexivity].
Qed.

(** Every node on the path is updated once, all others keep everything. *)
Lemma update_recursive_ok h root lv cp : shape h root -> forall w self fuel, at_path h root w self -> self < fuel ->
  exists h', update_recursive fsqrt fuel h self lv cp = Some (Ok h') /\ same_skeleton h h' /\
    forall i n, nth_error h i = Some n ->
      exists n', nth_error h' i = Some n' /\
        ((exists v t, w = v ++ t /\ at_path h root v i) -> bumped lv n n') /\
        (~ (exists v t, w = v ++ t /\ at_path h root v i) -> n' = n).
Proof.
  intros SH. induction w as [|a w IH] using rev_ind; intros self fuel AT F.
  - destruct fuel as [|fuel]; [lia|]. inversion AT; subst. destruct (sh_root SH) as [n [En Pn]].
    cbn [update_recursive]. rewrite (proj2 (get_nth_ok _ _ _) En), Pn.
    destruct (@update_ok h self n lv cp En) as [h' [E [SK [[n' [En' [B _]]] O]]]]; [congruence|].
    exists h'. split; [now rewrite E|]. split; [exact SK|]. intros i m Em. destruct (Nat.eq_dec i self) as [->|Ni].
    + rewrite En in Em. injection Em as <-. exists n'. split; [exact En'|]. split; [auto|].
      intros N. exfalso. apply N. exists [], []. split; [reflexivity|constructor].
    + exists m. rewrite O by exact Ni. split; [exact Em|]. split; [|reflexivity].
      intros [v [t [Ev K]]]. destruct v; [|discriminate]. inversion K; subst. congruence.
  - destruct fuel as [|fuel]; [lia|]. destruct (at_node SH AT) as [n En].
    pose proof (proj1 (at_snoc _ _ _ _ _) AT) as [p [np [Hp [Ep Ip]]]]. pose proof (sh_par SH Hp Ep Ip En) as Pn.
    pose proof (sh_kids SH Ep Ip) as Lt. cbn [update_recursive]. rewrite (proj2 (get_nth_ok _ _ _) En), Pn.
    destruct (IH p fuel Hp ltac:(lia)) as [h1 [E1 [SK1 U1]]]. rewrite E1.
    destruct (U1 self n En) as [n1 [En1 [_ Kn1]]].
    assert (n1 = n).
    { apply Kn1. intros [v [t [Ev K]]]. assert (v = w ++ [a]) by exact (at_inj SH K AT). subst v.
      apply (f_equal (@length A)) in Ev. rewrite !app_length in Ev. cbn in Ev. lia. }
    subst n1. destruct (@update_ok h1 self n lv cp En1) as [h' [E [SK [[n' [En' [B _]]] O]]]].
    { intros q Eq. rewrite Pn in Eq. injection Eq as <-. destruct SK1 as [L1 _]. rewrite L1. apply nth_error_Some. congruence. }
    exists h'. split; [now rewrite E|]. split; [eapply skel_trans; eauto|]. intros i m Em.
    destruct (Nat.eq_dec i self) as [->|Ni].
    + rewrite En in Em. injection Em as <-. exists n'. split; [exact En'|]. split; [auto|].
      intros N. exfalso. apply N. exists (w ++ [a]), []. rewrite app_nil_r. auto.
    + destruct (U1 i m Em) as [m' [Em' [K1 K2]]]. exists m'. rewrite O by exact Ni. split; [exact Em'|]. split.
      * intros [v [t [Ev K]]]. apply K1. destruct t as [|b t _] using rev_ind.
        -- rewrite app_nil_r in Ev. subst v. exfalso. apply Ni. exact (at_fun SH K AT).
        -- rewrite app_assoc in Ev. apply app_inj_tail in Ev. destruct Ev as [-> _]. eauto.
      * intros N. apply K2. intros [v [t [-> K]]]. apply N. exists v, (t ++ [a]). rewrite app_assoc. auto.
Qed.
End L.
