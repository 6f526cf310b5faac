From Verif Require Import Base LBase BaseQ LQ MSort SSort.
From Coq Require Import Sorted.
Set Implicit Arguments.

Section S.
Context (A : Type) (leb : A -> A -> bool).
Hypothesis tot : forall x y, leb x y = true \/ leb y x = true.
Hypothesis trans : forall x y z, leb x y = true -> leb y z = true -> leb x z = true.

Lemma insert_perm x l : Permutation (insert leb x l) (x :: l).
Proof.
  induction l as [|y l IH]; cbn; [reflexivity|].
  destruct (leb x y); [reflexivity|]. rewrite IH. apply perm_swap.
Qed.

Lemma isort_perm l : Permutation (isort leb l) l.
Proof. induction l as [|x l IH]; cbn; [reflexivity|]. rewrite insert_perm. now constructor. Qed.

Lemma isort_length l : length (isort leb l) = length l.
Proof. apply Permutation_length, isort_perm. Qed.

Lemma insert_In x y l : In y (insert leb x l) <-> y = x \/ In y l.
Proof.
  split; intros H.
  - apply (Permutation_in _ (insert_perm x l)) in H. destruct H; auto.
  - apply (Permutation_in _ (Permutation_sym (insert_perm x l))). destruct H; [left|right]; auto.
Qed.

Lemma insert_sorted x l :
  StronglySorted (fun a b => leb a b = true) l -> StronglySorted (fun a b => leb a b = true) (insert leb x l).
Proof.
  induction 1 as [|y l Hl IH Hy]; cbn; [repeat constructor|].
  destruct (leb x y) eqn:E.
  - constructor; [now constructor|]. constructor; [assumption|].
    eapply Forall_impl; [|exact Hy]. intros z. cbn. now apply trans.
  - constructor; [assumption|]. apply Forall_forall. intros z Hz. apply insert_In in Hz.
    destruct Hz as [->|Hz].
    + destruct (tot x y); congruence.
    + rewrite Forall_forall in Hy. auto.
Qed.

Lemma isort_sorted l : StronglySorted (fun a b => leb a b = true) (isort leb l).
Proof. induction l; cbn; [constructor|]. now apply insert_sorted. Qed.

Lemma isort_id l : StronglySorted (fun a b => leb a b = true) l -> isort leb l = l.
Proof.
  induction 1 as [|x l Hl IH Hx]; cbn; [reflexivity|]. rewrite IH.
  destruct l as [|y l]; cbn; [reflexivity|]. inversion Hx; subst. now rewrite H1.
Qed.

(** stability: [lt] any relation along which the input is strictly ordered *)
Context (lt : A -> A -> Prop).
Definition strict x y := leb x y = true /\ (leb y x = true -> lt x y).

Lemma insert_stable x l :
  Forall (lt x) l -> StronglySorted strict l -> StronglySorted strict (insert leb x l).
Proof.
  intros Hlt. induction 1 as [|y l Hl IH Hy]; cbn; [repeat constructor|].
  inversion Hlt as [|? ? Hxy Hxl]; subst.
  destruct (leb x y) eqn:E.
  - constructor; [now constructor|]. apply Forall_forall. intros z [<-|Hz].
    + split; auto.
    + rewrite Forall_forall in Hy, Hxl. destruct (Hy z Hz). split; [eauto|]. auto.
  - constructor; [auto|]. apply Forall_forall. intros z Hz. apply insert_In in Hz.
    destruct Hz as [->|Hz].
    + split; [destruct (tot x y); congruence|congruence].
    + rewrite Forall_forall in Hy. auto.
Qed.

Lemma isort_stable l : StronglySorted lt l -> StronglySorted strict (isort leb l).
Proof.
  induction 1 as [|x l Hl IH Hx]; cbn; [constructor|].
  apply insert_stable; [|assumption].
  rewrite Forall_forall in *. intros y Hy. apply Hx.
  eapply Permutation_in; [apply isort_perm|exact Hy].
Qed.
End S.

Lemma sorted_unique A (R : A -> A -> Prop) l l' :
  (forall x y, R x y -> R y x -> False) ->
  StronglySorted R l -> StronglySorted R l' -> Permutation l l' -> l = l'.
Proof.
  intros asym H. revert l'. induction H as [|x l Hl IH Hx]; intros l' H' P.
  - apply Permutation_nil in P. congruence.
  - destruct H' as [|y l' Hl' Hy].
    + apply Permutation_sym, Permutation_nil in P. discriminate.
    + assert (E : x = y).
      { assert (In x (y :: l')) as [->|I1] by (apply (Permutation_in _ P); now left); [reflexivity|].
        assert (In y (x :: l)) as [->|I2] by (apply (Permutation_in _ (Permutation_sym P)); now left); [reflexivity|].
        rewrite Forall_forall in Hx, Hy. exfalso. eauto. }
      subst y. f_equal. apply IH; [assumption|]. eapply Permutation_cons_inv; eauto.
Qed.

(** as [sorted_unique] with antisymmetry *)
Lemma sorted_unique_antisym A (R : A -> A -> Prop) l l' :
  (forall x y, In x l -> In y l -> R x y -> R y x -> x = y) ->
  StronglySorted R l -> StronglySorted R l' -> Permutation l l' -> l = l'.
Proof.
  intros asym H. revert l' asym. induction H as [|x l Hl IH Hx]; intros l' asym H' P.
  - apply Permutation_nil in P. congruence.
  - destruct H' as [|y l' Hl' Hy].
    + apply Permutation_sym, Permutation_nil in P. discriminate.
    + assert (E : x = y).
      { assert (In x (y :: l')) as [->|I1] by (apply (Permutation_in _ P); now left); [reflexivity|].
        assert (In y (x :: l)) as [->|I2] by (apply (Permutation_in _ (Permutation_sym P)); now left); [reflexivity|].
        rewrite Forall_forall in Hx, Hy. apply asym; [now left|now right|auto|auto]. }
      subst y. f_equal. apply IH; [|assumption|].
      * intros a b Ha Hb. apply asym; now right.
      * eapply Permutation_cons_inv; eauto.
Qed.

Lemma StronglySorted_nth A (R : A -> A -> Prop) l a b x y :
  StronglySorted R l -> (a < b)%nat -> nth_error l a = Some x -> nth_error l b = Some y -> R x y.
Proof.
  intros H. revert a b. induction H as [|z l Hl IH Hz]; intros a b L Ha Hb.
  - destruct a; discriminate.
  - destruct b as [|b]; [lia|]. cbn in Hb. destruct a as [|a]; cbn in Ha.
    + injection Ha as <-. rewrite Forall_forall in Hz. apply Hz. eapply nth_error_In; eauto.
    + eapply IH; [|eauto..]. lia.
Qed.

Lemma nth_StronglySorted A (R : A -> A -> Prop) l :
  (forall a b x y, (a < b)%nat -> nth_error l a = Some x -> nth_error l b = Some y -> R x y) ->
  StronglySorted R l.
Proof.
  induction l as [|z l IH]; intros H; constructor.
  - apply IH. intros a b x y L Ha Hb. apply (H (S a) (S b)); [lia|assumption..].
  - apply Forall_forall. intros y Hy. apply In_nth_error in Hy. destruct Hy as [b Hb].
    apply (H 0%nat (S b)); [lia|reflexivity|assumption].
Qed.

Lemma seq_sorted s n : StronglySorted lt (seq s n).
Proof.
  revert s; induction n as [|n IH]; intros s; cbn; constructor; [apply IH|].
  apply Forall_forall. intros y Hy. apply in_seq in Hy. lia.
Qed.

(** vleb *)
Lemma Qc_trich (x y : Qc) : (x < y)%Qc \/ x = y \/ (y < x)%Qc.
Proof.
  destruct (Qc_dec x y) as [[H|H]|H]; auto.
Qed.

Lemma vleb_iff a b : vleb a b = true <-> vlt a b \/ a = b.
Proof.
  unfold vleb, vlt. destruct a as [ax ay az], b as [bx by_ bz]; cbn.
  destruct (Qcltb ax bx) eqn:E1; [apply Qcltb_lt in E1; tauto|]. apply Qcltb_ge in E1.
  destruct (Qcltb bx ax) eqn:E2.
  { apply Qcltb_lt in E2. split; [discriminate|]. intros [[H|[H _]]|H]; exfalso.
    - qclra. - qclra. - injection H as H _ _. qclra. }
  apply Qcltb_ge in E2. assert (ax = bx) as -> by (apply Qcle_antisym; assumption).
  destruct (Qcltb ay by_) eqn:E3; [apply Qcltb_lt in E3; tauto|]. apply Qcltb_ge in E3.
  destruct (Qcltb by_ ay) eqn:E4.
  { apply Qcltb_lt in E4. split; [discriminate|]. intros [[H|[_ [H|[H _]]]]|H]; exfalso; try qclra.
    injection H as H _. qclra. }
  apply Qcltb_ge in E4. assert (ay = by_) as -> by (apply Qcle_antisym; assumption).
  rewrite Qcleb_le. split.
  - intros H. apply Qcle_lt_or_eq in H. destruct H as [H|H]; [left; right; auto|right; now subst].
  - intros [[H|[_ [H|[_ H]]]]|H].
    + exfalso; qclra.
    + exfalso; qclra.
    + now apply Qclt_le_weak.
    + injection H as ->. apply Qcle_refl.
Qed.

Lemma vlt_trans a b c : vlt a b -> vlt b c -> vlt a c.
Proof.
  unfold vlt. destruct a as [ax ay az], b as [bx by_ bz], c as [cx cy cz]; cbn.
  intros [H|[<- [H|[<- H]]]] [K|[<- [K|[<- K]]]];
    solve [ left; qclra | right; split; [reflexivity|left; qclra]
          | right; split; [reflexivity|right; split; [reflexivity|qclra]] ].
Qed.

Lemma vlt_irrefl a : ~ vlt a a.
Proof. unfold vlt. intros [H|[_ [H|[_ H]]]]; qclra. Qed.

Lemma vlt_total a b : vlt a b \/ a = b \/ vlt b a.
Proof.
  unfold vlt. destruct a as [ax ay az], b as [bx by_ bz]; cbn.
  destruct (Qc_trich ax bx) as [H|[->|H]]; [tauto| |tauto].
  destruct (Qc_trich ay by_) as [H|[->|H]]; [tauto| |tauto].
  destruct (Qc_trich az bz) as [H|[->|H]]; tauto.
Qed.

Lemma vleb_total a b : vleb a b = true \/ vleb b a = true.
Proof. rewrite !vleb_iff. destruct (vlt_total a b) as [|[|]]; auto. Qed.

Lemma vleb_trans a b c : vleb a b = true -> vleb b c = true -> vleb a c = true.
Proof.
  rewrite !vleb_iff. intros [H| ->] [K| <-]; auto. left. eapply vlt_trans; eauto.
Qed.

Lemma vleb_antisym a b : vleb a b = true -> vleb b a = true -> a = b.
Proof.
  rewrite !vleb_iff. intros [H| ->] [K|K]; auto.
  exfalso. apply (@vlt_irrefl a). eapply vlt_trans; eauto.
Qed.

(** lexsort *)
Lemma lexsort_perm ks : Permutation (lexsort ks) (seq 0 (length ks)).
Proof. apply isort_perm. Qed.

Lemma lexsort_length ks : length (lexsort ks) = length ks.
Proof. unfold lexsort. rewrite isort_length. apply seq_length. Qed.

Definition idx_lt (ks : list (vec Qc)) (i j : nat) : Prop :=
  vlt (key_at ks i) (key_at ks j) \/ (key_at ks i = key_at ks j /\ (i < j)%nat).

Lemma lexsort_sorted ks : StronglySorted (idx_lt ks) (lexsort ks).
Proof.
  assert (H : StronglySorted (strict (fun i j => vleb (key_at ks i) (key_at ks j)) lt) (lexsort ks)).
  { apply isort_stable.
    - intros x y. apply vleb_total.
    - intros x y z. apply vleb_trans.
    - apply seq_sorted. }
  apply nth_StronglySorted. intros a b x y L Ha Hb.
  destruct (StronglySorted_nth H L Ha Hb) as [H1 H2].
  apply vleb_iff in H1 as H3. destruct H3 as [H3|H3]; [now left|]. right. split; [assumption|].
  apply H2. apply vleb_iff. now right.
Qed.

Lemma idx_lt_asym ks i j : idx_lt ks i j -> idx_lt ks j i -> False.
Proof.
  intros [H|[H1 H2]] [K|[K1 K2]].
  - eapply vlt_irrefl, vlt_trans; eauto.
  - rewrite K1 in H. eapply vlt_irrefl; eauto.
  - rewrite H1 in K. eapply vlt_irrefl; eauto.
  - lia.
Qed.

Lemma lexsort_unique ks r :
  Permutation r (seq 0 (length ks)) -> StronglySorted (idx_lt ks) r -> lexsort ks = r.
Proof.
  intros P H. apply (sorted_unique (@idx_lt_asym ks)); [apply lexsort_sorted|assumption|].
  rewrite lexsort_perm. now symmetry.
Qed.

Lemma key_at_nth ks i k : nth_error ks i = Some k -> key_at ks i = k.
Proof. intros H. unfold key_at. apply nth_error_nth with (1 := H). Qed.

Lemma lexsort_spec ks : stable_argsort ks (lexsort ks).
Proof.
  split; [apply lexsort_perm|]. intros a b i j ki kj L Ha Hb Hi Hj.
  pose proof (StronglySorted_nth (lexsort_sorted ks) L Ha Hb) as H.
  unfold idx_lt in H. rewrite (key_at_nth _ _ Hi), (key_at_nth _ _ Hj) in H. exact H.
Qed.

Lemma stable_argsort_unique ks r : stable_argsort ks r -> r = lexsort ks.
Proof.
  intros [P H]. symmetry. apply lexsort_unique; [assumption|].
  apply nth_StronglySorted. intros a b x y L Ha Hb.
  assert (forall a i, nth_error r a = Some i -> exists k, nth_error ks i = Some k) as F.
  { intros c i Hc. apply nth_error_In in Hc. apply (Permutation_in _ P) in Hc.
    apply in_seq in Hc. destruct (nth_error ks i) eqn:E; eauto.
    apply nth_error_None in E. lia. }
  destruct (F _ _ Ha) as [kx Hx], (F _ _ Hb) as [ky Hy].
  unfold idx_lt. rewrite (key_at_nth _ _ Hx), (key_at_nth _ _ Hy). eapply H; eauto.
Qed.

Lemma lexsort_In ks i : In i (lexsort ks) <-> (i < length ks)%nat.
Proof.
  split; intros H.
  - apply (Permutation_in _ (lexsort_perm ks)), in_seq in H. lia.
  - apply (Permutation_in _ (Permutation_sym (lexsort_perm ks))), in_seq. lia.
Qed.

(** lexsort of keys already sorted (weakly) is the identity *)
Lemma lexsort_id ks :
  StronglySorted (fun a b => vleb a b = true) ks -> lexsort ks = seq 0 (length ks).
Proof.
  intros H. apply lexsort_unique; [reflexivity|]. apply nth_StronglySorted.
  intros a b x y L Ha Hb.
  assert (La : (a < length ks)%nat) by (erewrite <- seq_length; apply nth_error_Some; rewrite Ha; discriminate).
  assert (Lb : (b < length ks)%nat) by (erewrite <- seq_length; apply nth_error_Some; rewrite Hb; discriminate).
  rewrite nth_error_nth' with (d := 0%nat) in Ha, Hb by (rewrite seq_length; lia).
  rewrite seq_nth in Ha, Hb by lia. cbn in Ha, Hb.
  injection Ha as <-. injection Hb as <-.
  destruct (nth_error ks a) as [ka|] eqn:Ea; [|apply nth_error_None in Ea; lia].
  destruct (nth_error ks b) as [kb|] eqn:Eb; [|apply nth_error_None in Eb; lia].
  pose proof (StronglySorted_nth H L Ea Eb) as K. cbn in K. apply vleb_iff in K.
  unfold idx_lt. rewrite (key_at_nth _ _ Ea), (key_at_nth _ _ Eb). destruct K; auto.
Qed.

Lemma lexsort_keys_sorted ks :
  StronglySorted (fun a b => vleb a b = true) (List.map (key_at ks) (lexsort ks)).
Proof.
  apply nth_StronglySorted. intros a b x y L Ha Hb.
  rewrite nth_error_map in Ha, Hb.
  destruct (nth_error (lexsort ks) a) eqn:Ea; [|discriminate].
  destruct (nth_error (lexsort ks) b) eqn:Eb; [|discriminate].
  cbn in Ha, Hb. injection Ha as <-. injection Hb as <-.
  apply vleb_iff. destruct (StronglySorted_nth (lexsort_sorted ks) L Ea Eb) as [H|[H _]]; auto.
Qed.
