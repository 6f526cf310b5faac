(** Level-by-level enumeration gives the same list in the same order. *)
From Coq Require Import String Sorted.
From Verif Require Import Base LBase BaseQ MGeneralCell SGeneralCell LGeneralCell MComb SSubst LComb SSym LSym MSogen LFilter SOcc SEnum LDup LLevels SOrder LSort LOrder LOrder2.
Set Implicit Arguments.
Unset Strict Implicit.
Open Scope nat_scope.
Local Arguments Nat.ltb : simpl never.

(** *** inserting a site into a set *)
Fixpoint ins (x : nat) (A : list nat) : list nat :=
  match A with [] => [x] | a :: t => if x <? a then x :: a :: t else a :: ins x t end.
Lemma ins_In x A i : In i (ins x A) <-> x = i \/ In i A.
Proof.
  induction A as [|a A IH]; cbn [ins In]; [tauto|].
  destruct (x <? a); cbn [In]; [tauto|]. rewrite IH. tauto.
Qed.
Lemma ins_length x A : length (ins x A) = S (length A).
Proof. induction A as [|a A IH]; cbn; [reflexivity|]. destruct (x <? a); cbn; congruence. Qed.
Lemma ins_increasing x A : increasing A -> ~ In x A -> increasing (ins x A).
Proof.
  unfold increasing. induction A as [|a A IH]; cbn; intros S N; [repeat constructor|].
  inversion S as [|? ? S1 S2]; subst. destruct (Nat.ltb_spec x a) as [L|L].
  - constructor; [assumption|]. constructor; [assumption|]. rewrite Forall_forall in *. intros y Hy. specialize (S2 y Hy). lia.
  - constructor; [apply IH; tauto|]. rewrite Forall_forall in *. intros y Hy. apply ins_In in Hy. destruct Hy as [<-|Hy]; [|auto].
    destruct (Nat.eq_dec x a); [|lia]. exfalso. apply N. now left.
Qed.
Lemma ins_before x b A' A : length A' = length A -> before A' A -> before (ins x A') (A ++ [b]).
Proof.
  intros _ H. induction H as [i j s t L|i s t H IH]; cbn.
  - destruct (Nat.ltb_spec x i); apply before_head; lia.
  - destruct (Nat.ltb_spec x i); [apply before_head; lia|now apply before_tail].
Qed.
Lemma ins_before_self x i A : ~ In x A -> x < i -> before (ins x A) (A ++ [i]).
Proof.
  intros N L. induction A as [|a A IH]; cbn; [now apply before_head|].
  destruct (Nat.ltb_spec x a); [now apply before_head|]. apply before_tail. apply IH. intros K. apply N. now right.
Qed.
Lemma increasing_snoc A i : increasing (A ++ [i]) <-> increasing A /\ Forall (fun a => a < i) A.
Proof.
  unfold increasing. induction A as [|a A IH]; cbn.
  - split; [intros _; split; constructor|intros _; repeat constructor].
  - split.
    + intros S. inversion S as [|? ? S1 S2]; subst. apply IH in S1. destruct S1 as [S1 S3]. apply Forall_app in S2. destruct S2 as [S2 S4].
      split; [now constructor|]. inversion S4; subst. now constructor.
    + intros [S F]. inversion S as [|? ? S1 S2]; subst. inversion F; subst. constructor; [now apply IH|]. apply Forall_app. split; [assumption|now constructor].
Qed.
Lemma snoc_last (S : list nat) k : length S = Datatypes.S k -> exists B b, S = B ++ [b] /\ length B = k.
Proof.
  intros L. destruct (exists_last (l := S)) as [B [b ->]]; [intros ->; discriminate|]. exists B, b. split; [reflexivity|].
  rewrite app_length in L. cbn in L. lia.
Qed.
Lemma before_snoc A B i j : length A = length B -> before A B -> before (A ++ [i]) (B ++ [j]).
Proof. intros _ H. induction H; cbn; now constructor. Qed.
Lemma before_snoc_same A i j : i < j -> before (A ++ [i]) (A ++ [j]).
Proof. intros L. induction A; cbn; now constructor. Qed.

(** order of (set, added site) *)
Definition beforeP (a b : list nat * nat) : Prop := before (fst a) (fst b) \/ fst a = fst b /\ snd a < snd b.
Lemma beforeP_irr a : ~ beforeP a a.
Proof. intros [H|[_ H]]; [exact (before_irr H)|lia]. Qed.
Lemma beforeP_trans a b c : beforeP a b -> beforeP b c -> beforeP a c.
Proof.
  intros [H|[E H]] [K|[F K]].
  - left. eapply before_trans; eauto.
  - left. now rewrite <- F.
  - left. now rewrite E.
  - right. split; [congruence|lia].
Qed.
Lemma beforeP_total a b : length (fst a) = length (fst b) -> a = b \/ beforeP a b \/ beforeP b a.
Proof.
  destruct a as [A i], b as [B j]; cbn. intros L. unfold beforeP; cbn. destruct (before_total L) as [->|[H|H]]; [|tauto|tauto].
  destruct (lt_eq_lt_dec i j) as [[H| ->]|H]; tauto.
Qed.

Section Level.
Context (init : list Z) (P : nat -> Prop) (v : Z) (G : list (list nat)).
Hypothesis PN : forall i, P i -> site_not init v i.
Hypothesis HG : perm_group (length init) G.
Hypothesis Inv : invariant G P.
Let f S := puts init S v.
Let R a b := equivalent G (f a) (f b).

Lemma P_lt i : P i -> i < length init.
Proof. intros H. destruct (PN H) as [a [Ha _]]. apply nth_error_Some. congruence. Qed.
Lemma choice_in n S : site_choice P n S -> forall i, In i S -> i < length init.
Proof. intros [_ [_ F]] i Hi. rewrite Forall_forall in F. apply P_lt. auto. Qed.
Lemma f_length S : length (f S) = length init.
Proof. apply puts_length. Qed.
Lemma R_refl a : R a a.
Proof. apply (equivalent_refl HG). apply f_length. Qed.
Lemma R_sym a b : R a b -> R b a.
Proof. apply (equivalent_sym HG). apply f_length. Qed.
Lemma R_trans a b c : R a b -> R b c -> R a c.
Proof. apply (equivalent_trans HG). apply f_length. Qed.
Lemma f_same n S S' : site_choice P n S -> (forall i, In i S <-> In i S') -> f S' = f S.
Proof.
  intros C E. apply (list_ext_nth _ _ 0%Z); [now rewrite !f_length|]. intros i Hi. unfold f.
  assert (B : forall j, In j S -> j < length init) by exact (choice_in C).
  rewrite (@nth_puts init S v i 0%Z B). rewrite nth_puts by (intros j Hj; apply B, E, Hj).
  destruct (in_dec Nat.eq_dec i S') as [I|I], (in_dec Nat.eq_dec i S) as [J|J]; try reflexivity; exfalso; [apply J, E, I|apply I, E, J].
Qed.
Lemma f_snoc n A i : site_choice P n A -> P i -> f (A ++ [i]) = upd (f A) i v.
Proof.
  intros C Hi. unfold f, puts. rewrite fold_left_app. reflexivity.
Qed.
Lemma f_ins n A i : site_choice P n A -> P i -> ~ In i A -> f (A ++ [i]) = f (ins i A) /\ site_choice P (S n) (ins i A).
Proof.
  intros C Hi N.
  assert (C' : site_choice P (S n) (ins i A)).
  { destruct C as [I [L F]]. split; [now apply ins_increasing|]. split; [now rewrite ins_length, L|].
    rewrite Forall_forall in *. intros j Hj. apply ins_In in Hj. destruct Hj as [<-|Hj]; auto. }
  split; [|assumption]. apply (f_same C'). intros j. rewrite ins_In, in_app_iff. cbn. tauto.
Qed.

(** adding corresponding sites to equivalent sets *)
Lemma extend n A B i : site_choice P n A -> site_choice P n B -> R A B -> P i -> ~ In i A ->
  exists j, P j /\ ~ In j B /\ R (A ++ [i]) (B ++ [j]).
Proof.
  intros CA CB [p [Hp Rp]] Hi N. pose proof HG as [HP _]. pose proof (HP p Hp) as Pp.
  destruct (perm_surj Pp (P_lt Hi)) as [j [Hj Ej]]. assert (Pj : P j) by now apply (Inv Hp Ej).
  assert (Yj : nth_error (f B) j = nth_error (f A) i) by (now rewrite (reordered_nth j Rp), Ej).
  assert (NB : ~ In j B).
  { intros K. destruct (@puts_substituted init B v (choice_in CB)) as [_ HB]. destruct (@puts_substituted init A v (choice_in CA)) as [_ HA].
    destruct (PN Pj) as [b [Hb _]]. destruct (PN Hi) as [a [Ha Na]]. destruct (HB j b Hb) as [E1 _]. destruct (HA i a Ha) as [_ E2].
    unfold f in Yj. rewrite (E1 K), (E2 N) in Yj. congruence. }
  exists j. split; [assumption|]. split; [assumption|]. exists p. split; [assumption|].
  rewrite (f_snoc CA Hi), (f_snoc CB Pj). apply reordered_intro.
  - rewrite upd_length. apply (reordered_length Rp).
  - intros m q Em. rewrite !LLevels.nth_error_upd by (rewrite f_length; now apply P_lt).
    destruct (Nat.eqb_spec j m) as [<-|Njm].
    + rewrite Ej in Em. injection Em as <-. rewrite Nat.eqb_refl. eauto.
    + destruct (Nat.eqb_spec i q) as [<-|Niq]; [exfalso; apply Njm; apply (perm_inj Pp Ej Em)|].
      rewrite (reordered_nth m Rp), Em.
      destruct (nth_error (f A) q) as [a|] eqn:Eq; [eauto|]. exfalso. apply nth_error_None in Eq. rewrite f_length in Eq.
      pose proof (perm_lt Pp Em). lia.
Qed.

Definition top n S := site_choice P n S /\ forall T, site_choice P n T -> before T S -> ~ R T S.

(** a leader without its last site is a leader *)
Lemma top_prefix n B b : top (S n) (B ++ [b]) -> top n B /\ P b /\ Forall (fun a => a < b) B.
Proof.
  intros [[I [L F]] H]. apply increasing_snoc in I. destruct I as [I I2]. apply Forall_app in F. destruct F as [F Fb].
  assert (Pb : P b) by (inversion Fb; assumption). rewrite app_length in L. cbn in L.
  assert (CB : site_choice P n B) by (split; [assumption|split; [lia|assumption]]).
  split; [|split; assumption]. split; [assumption|]. intros T CT BT RT.
  assert (N : ~ In b B) by (intros K; rewrite Forall_forall in I2; specialize (I2 b K); lia).
  destruct (@extend n B T b CB CT (R_sym RT) Pb N) as [j [Pj [Nj Rj]]].
  destruct (f_ins CT Pj Nj) as [E C']. apply (H (ins j T) C').
  - apply ins_before; [|assumption]. destruct CT as [_ [L1 _]], CB as [_ [L2 _]]. congruence.
  - unfold R. rewrite <- E. now apply R_sym.
Qed.

Context (T : list nat).
Hypothesis ST : StronglySorted lt T.
Hypothesis PT : forall i, In i T <-> P i.

Lemma R_dec a b : R a b \/ ~ R a b.
Proof.
  unfold R, equivalent. pose proof HG as [HP _]. assert (I : incl G G) by apply incl_refl. revert I. generalize G at 1 3 4 as l.
  induction l as [|p l IH]; intros I; [right; intros [p [[] _]]|].
  assert (Pp : Permutation p (seq 0 (length init))) by (apply HP, I; now left).
  destruct (list_eq_dec Z.eq_dec (act_perm (f a) p) (f b)) as [E|N].
  - left. exists p. split; [now left|]. rewrite <- E. apply act_perm_reordered with (length init); [assumption|apply f_length].
  - destruct IH as [[q [Hq Rq]]|K]; [intros q Hq; apply I; now right|left; exists q; split; [now right|assumption]|].
    right. intros [q [[<-|Hq] Rq]]; [|apply K; eauto]. apply N. apply (reordered_fun (act_perm_reordered Pp (f_length a)) Rq).
Qed.
Lemma top_exists n S : site_choice P n S -> exists S', top n S' /\ R S' S.
Proof.
  intros C. assert (M : forall l, StronglySorted before l -> (exists U, In U l /\ R U S) ->
    exists U, In U l /\ R U S /\ forall W, In W l -> before W U -> ~ R W S).
  { induction l as [|U l IH]; intros Sl [W [HW RW]]; [easy|]. inversion Sl as [|? ? S1 S2]; subst. rewrite Forall_forall in S2.
    destruct (R_dec U S) as [RU|NU].
    - exists U. split; [now left|]. split; [assumption|]. intros W' [<-|HW'] BW; [destruct (before_irr BW)|].
      destruct (before_irr (before_trans (S2 W' HW') BW)).
    - destruct HW as [->|HW]; [contradiction|]. destruct (IH S1) as [U' [H1 [H2 H3]]]; [eauto|]. exists U'. split; [now right|]. split; [assumption|].
      intros W' [<-|HW'] BW; [assumption|auto]. }
  destruct (M (combos T n) (combos_sorted n ST)) as [U [H1 [H2 H3]]].
  { exists S. split; [now apply (combos_choice n S ST PT)|apply R_refl]. }
  exists U. split; [|assumption]. split; [now apply (combos_choice n U ST PT)|]. intros W CW BW RW.
  apply (H3 W); [now apply (combos_choice n W ST PT)|assumption|]. now apply R_trans with U.
Qed.

(** *** one level *)
Definition children A := map (fun i => (A, i)) (filter (fun i => negb (existsb (Nat.eqb i) A)) T).
Lemma children_In A a : In a (children A) <-> fst a = A /\ P (snd a) /\ ~ In (snd a) A.
Proof.
  unfold children. rewrite in_map_iff. destruct a as [B i]; cbn.
  assert (E : forall i, negb (existsb (Nat.eqb i) A) = true <-> ~ In i A).
  { intros j. rewrite negb_true_iff, <- not_true_iff_false, existsb_exists. split; intros H K; apply H.
    - exists j. split; [assumption|apply Nat.eqb_refl].
    - destruct K as [m [Hm Em]]. apply Nat.eqb_eq in Em. congruence. }
  split.
  - intros [j [K Hj]]. injection K as -> ->. apply filter_In in Hj. rewrite E, PT in Hj. tauto.
  - intros [-> [H1 H2]]. exists i. split; [reflexivity|]. apply filter_In. rewrite E, PT. tauto.
Qed.
Lemma children_sorted A : StronglySorted beforeP (children A).
Proof.
  unfold children. apply sorted_map with lt; [|now apply StronglySorted_filter]. intros i j _ _ L. right. cbn. auto.
Qed.
Lemma tags_sorted As : StronglySorted before As -> StronglySorted beforeP (flat_map children As).
Proof.
  apply sorted_flat; [intros A _; apply children_sorted|]. intros A B u w _ _ L Hu Hw. apply children_In in Hu, Hw.
  left. destruct Hu as [-> _], Hw as [-> _]. exact L.
Qed.

Lemma next_level n As kept : (forall A, In A As <-> top n A) -> StronglySorted before As -> StronglySorted beforeP kept ->
  (forall a, In a kept <-> In a (flat_map children As) /\ forall b, In b (flat_map children As) -> beforeP b a -> ~ R (fst b ++ [snd b]) (fst a ++ [snd a])) ->
  StronglySorted before (map (fun a => fst a ++ [snd a]) kept) /\
  forall S', In S' (map (fun a => fst a ++ [snd a]) kept) <-> top (S n) S'.
Proof.
  intros HA SA SK HK.
  assert (HT : forall a, In a (flat_map children As) <-> top n (fst a) /\ P (snd a) /\ ~ In (snd a) (fst a)).
  { intros [A i]. rewrite in_flat_map. cbn. split.
    - intros [B [HB K]]. apply children_In in K. cbn in K. destruct K as [-> K]. split; [now apply HA|assumption].
    - intros [H K]. exists A. split; [now apply HA|]. apply children_In. cbn. auto. }
  assert (BK : forall B b, top (S n) (B ++ [b]) -> In (B, b) kept).
  { intros B b HT'. pose proof (top_prefix HT') as [HB [Pb Fb]]. destruct HT' as [CS HS].
    assert (Nb : ~ In b B) by (intros K; rewrite Forall_forall in Fb; specialize (Fb b K); lia).
    apply HK. split; [apply HT; cbn; auto|]. intros [A i] Hb BA. apply HT in Hb. cbn in Hb. cbn [fst snd]. destruct Hb as [[CA _] [Pi Ni]].
    destruct (f_ins CA Pi Ni) as [E C']. unfold R. rewrite E. apply (HS _ C'). destruct BA as [BA|[EA BA]]; cbn in *.
    - apply ins_before; [|assumption]. destruct CA as [_ [L1 _]], HB as [[_ [L2 _]] _]. congruence.
    - subst A. now apply ins_before_self. }
  assert (KT : forall a, In a kept -> top (S n) (fst a ++ [snd a])).
  { intros a Ha. pose proof (proj1 (HK a) Ha) as [Ha1 Ha2]. pose proof (proj1 (HT a) Ha1) as [[CA TA] [Pa Na]].
    destruct (f_ins CA Pa Na) as [E C']. destruct (top_exists C') as [S' [TS RS]].
    pose proof TS as [[_ [LS _]] _]. destruct (snoc_last LS) as [B [b [-> LB]]].
    pose proof (BK B b TS) as Hb. pose proof (proj1 (HK _) Hb) as [Hb1 Hb2]. cbn [fst snd] in Hb2.
    assert (Rab : R (B ++ [b]) (fst a ++ [snd a])) by (unfold R; now rewrite E).
    assert (LA : length (fst a) = length (fst (B, b))) by (destruct CA as [_ [L _]]; cbn; congruence).
    destruct (beforeP_total LA) as [->|[K|K]]; [exact TS| |].
    - destruct (Hb2 a Ha1 K (R_sym Rab)).
    - destruct (Ha2 (B, b) Hb1 K). exact Rab. }
  split.
  - apply sorted_map with beforeP; [|assumption]. intros a b Ha Hb [L|[E L]].
    + apply before_snoc; [|assumption]. apply KT in Ha, Hb. destruct Ha as [[_ [L1 _]] _], Hb as [[_ [L2 _]] _].
      rewrite app_length in L1, L2. cbn in L1, L2. lia.
    + rewrite E. now apply before_snoc_same.
  - intros S'. rewrite in_map_iff. split.
    + intros [a [<- Ha]]. auto.
    + intros TS. pose proof TS as [[_ [LS _]] _]. destruct (snoc_last LS) as [B [b [-> LB]]]. exists (B, b). split; [reflexivity|]. auto.
Qed.
End Level.
