(** C25 (composition), C26 (pigeonhole), an injective hash for examples. *)
From Coq Require Import String.
From Verif Require Import Base LBase BaseQ MGeneralCell SGeneralCell LGeneralCell MComb SSubst LComb SSym LSym MSogen LFilter SOcc SEnum LDup LLevels.
Set Implicit Arguments.
Unset Strict Implicit.
Open Scope nat_scope.

Lemma count_occ_upd (x : list Z) i a v w : nth_error x i = Some a ->
  count_occ Z.eq_dec (upd x i v) w + (if Z.eq_dec a w then 1 else 0) = count_occ Z.eq_dec x w + (if Z.eq_dec v w then 1 else 0).
Proof.
  revert i. induction x as [|b x IH]; intros [|i] H; cbn in H; try discriminate.
  - injection H as ->. cbn. destruct (Z.eq_dec v w), (Z.eq_dec a w); lia.
  - cbn. specialize (IH i H). destruct (Z.eq_dec b w); lia.
Qed.

(** Sites holding [e] replaced by [v]: exact change of every species count. *)
Lemma kfold_counts init (P : nat -> Prop) v : (forall i, P i -> site_not init v i) ->
  forall k x, k_fold init P k v x ->
    count_occ Z.eq_dec x v = count_occ Z.eq_dec init v + k /\
    (forall w, w <> v -> count_occ Z.eq_dec x w <= count_occ Z.eq_dec init w) /\
    (forall e, (forall i, P i -> site_holds init e i) -> e <> v -> count_occ Z.eq_dec x e + k = count_occ Z.eq_dec init e) /\
    (forall w, w <> v -> (forall i, P i -> ~ site_holds init w i) -> count_occ Z.eq_dec x w = count_occ Z.eq_dec init w).
Proof.
  intros PN. induction k as [|k IH]; intros x Hx.
  - apply kfold_zero in Hx. subst. split; [lia|]. split; [auto|]. split; [lia|auto].
  - destruct (kfold_remove PN Hx) as [i [b [Pi [Xi [Bi [Nb Hx']]]]]]. destruct (IH _ Hx') as [C1 [C2 [C3 C4]]].
    assert (U : forall w, count_occ Z.eq_dec (upd x i b) w + (if Z.eq_dec v w then 1 else 0) = count_occ Z.eq_dec x w + (if Z.eq_dec b w then 1 else 0))
      by (intros w; apply count_occ_upd; assumption).
    split; [|split; [|split]].
    + specialize (U v). destruct (Z.eq_dec v v); [|congruence]. destruct (Z.eq_dec b v); [congruence|]. lia.
    + intros w Hw. specialize (U w). specialize (C2 w Hw). destruct (Z.eq_dec v w); [congruence|]. destruct (Z.eq_dec b w); lia.
    + intros e He Hev. specialize (U e). specialize (C3 e He Hev). destruct (Z.eq_dec v e); [congruence|].
      assert (b = e) by (specialize (He i Pi); unfold site_holds in He; congruence). destruct (Z.eq_dec b e); [lia|congruence].
    + intros w Hw Hn. specialize (U w). specialize (C4 w Hw Hn). destruct (Z.eq_dec v w); [congruence|].
      destruct (Z.eq_dec b w) as [->|]; [|lia]. exfalso. apply (Hn i Pi). exact Bi.
Qed.

(** *** C26 *)
Lemma NoDup_range_length (l : list Z) (M : Z) : NoDup l -> (forall z, In z l -> (0 <= z < M)%Z) -> (Z.of_nat (length l) <= Z.max 0 M)%Z.
Proof.
  intros ND H. assert (L : length (map Z.to_nat l) <= length (seq 0 (Z.to_nat M))).
  { apply NoDup_incl_length.
    - clear - ND H. induction ND as [|a l N ND IH]; cbn; constructor; [|apply IH; intros; apply H; now right].
      intros I. apply in_map_iff in I. destruct I as [b [E Hb]]. apply N.
      replace a with b; [assumption|]. apply Z2Nat.inj; [destruct (H b); [now right|lia]|destruct (H a); [now left|lia]|assumption].
    - intros n Hn. apply in_map_iff in Hn. destruct Hn as [z [<- Hz]]. specialize (H z Hz). apply in_seq. lia. }
  rewrite map_length, seq_length in L. lia.
Qed.

Lemma C26_lemma h o n dup (M : Z) : (forall x, (0 <= h x < M)%Z) -> perm_group n (sym_perm o) ->
  (forall c, In c (items dup) -> length (numbers c) = n) ->
  (Z.of_nat (length (items (gen_2nodup_gen h o dup))) <= M)%Z.
Proof.
  intros HR [HP [HI _]] HL. destruct (nodup_loop_hash_distinct h (stop dup) HP HI HL []) as [ND _].
  apply NoDup_range_length with (M := M) in ND.
  - rewrite map_length in ND. unfold gen_2nodup_gen, gen_2nodup_gen_with. specialize (HR []). lia.
  - intros z Hz. apply in_map_iff in Hz. destruct Hz as [c [<- _]]. apply HR.
Qed.

Lemma transversal_le A (E : A -> A -> Prop) (D : A -> Prop) (X Y : list A) :
  (forall a b c, D a -> D b -> D c -> E a c -> E b c -> E a b) ->
  Forall D X -> Forall D Y ->
  ForallOrdPairs (fun a b => ~ E a b /\ ~ E b a) X ->
  (forall a, In a X -> exists y, In y Y /\ E a y) -> length X <= length Y.
Proof.
  intros T. revert Y. induction X as [|a X IH]; intros Y DX DY HP HX; cbn; [lia|].
  inversion HP as [|? ? Ha HP']; subst. inversion DX as [|? ? Da DX']; subst.
  destruct (HX a) as [y [Hy Eay]]; [now left|]. apply in_split in Hy. destruct Hy as [Y1 [Y2 ->]].
  rewrite app_length. cbn. rewrite Forall_app in DY. destruct DY as [DY1 DY2]. inversion DY2 as [|? ? Dy DY2']; subst.
  specialize (IH (Y1 ++ Y2)). rewrite app_length in IH.
  assert (length X <= length Y1 + length Y2); [|lia]. apply IH; auto.
  - now apply Forall_app.
  - intros b Hb. destruct (HX b) as [z [Hz Ebz]]; [now right|]. exists z. split; [|assumption].
    apply in_app_iff in Hz. apply in_app_iff. destruct Hz as [Hz|[<-|Hz]]; auto. exfalso.
    rewrite Forall_forall in Ha. destruct (Ha b Hb) as [N _]. apply N. rewrite Forall_forall in DX'. eapply T; eauto.
Qed.

Lemma transversal_length n G (D : list Z -> Prop) X Y : perm_group n G -> (forall x, D x -> length x = n) ->
  transversal (equivalent G) D X -> transversal (equivalent G) D Y -> length X = length Y.
Proof.
  intros HG HL [X1 [X2 X3]] [Y1 [Y2 Y3]].
  assert (T : forall a b c, D a -> D b -> D c -> equivalent G a c -> equivalent G b c -> equivalent G a b).
  { intros a b c Da Db Dc E1 E2. apply (equivalent_trans HG (HL a Da) E1). apply (equivalent_sym HG (HL b Db) E2). }
  apply Nat.le_antisymm; eapply transversal_le; eauto.
  - intros a Ha. apply Y2. rewrite Forall_forall in X1. auto.
  - intros a Ha. apply X2. rewrite Forall_forall in Y1. auto.
Qed.

Lemma C26_incomplete h o n dup (M : Z) (D : list Z -> Prop) reps : (forall x, (0 <= h x < M)%Z) -> perm_group n (sym_perm o) ->
  (forall c, In c (items dup) -> length (numbers c) = n) -> (forall x, D x -> length x = n) ->
  transversal (equivalent (sym_perm o)) D reps -> (M < Z.of_nat (length reps))%Z ->
  ~ transversal (equivalent (sym_perm o)) D (map numbers (items (gen_2nodup_gen h o dup))).
Proof.
  intros HR HG HL HD T HM T'. pose proof (transversal_length HG HD T T') as E. rewrite map_length in E.
  pose proof (C26_lemma HR HG HL). lia.
Qed.

(** *** an injective hash on small numbers *)
Fixpoint poly (x : list Z) : Z := match x with [] => 0 | z :: t => z + 1000 * poly t end%Z.
Lemma poly_inj x : forall y, length x = length y -> Forall (fun z => 0 <= z < 1000)%Z x -> Forall (fun z => 0 <= z < 1000)%Z y ->
  poly x = poly y -> x = y.
Proof.
  induction x as [|a x IH]; intros [|b y] L Fx Fy E; try discriminate; [reflexivity|].
  inversion Fx; inversion Fy; subst. cbn [poly] in E. assert (a = b /\ poly x = poly y) by lia. f_equal; [tauto|]. apply IH; auto. tauto.
Qed.
Lemma kfold_poly init P k v : Forall (fun z => 0 <= z < 1000)%Z (v :: init) -> collision_free poly (k_fold init P k v).
Proof.
  intros F x y Hx Hy E.
  assert (B : forall x, k_fold init P k v x -> length x = length init /\ Forall (fun z => 0 <= z < 1000)%Z x).
  { clear x y Hx Hy E. intros x [S [_ [L H]]]. split; [assumption|]. apply Forall_forall. intros z Hz.
    apply In_nth_error in Hz. destruct Hz as [i Hi]. assert (i < length init) by (rewrite <- L; apply nth_error_Some; congruence).
    destruct (nth_error init i) as [a|] eqn:Ea; [|apply nth_error_None in Ea; lia].
    inversion F as [|? ? Fv Fi]; subst. rewrite Forall_forall in Fi. destruct (H i a Ea) as [H1 H2].
    destruct (in_dec Nat.eq_dec i S) as [I|I].
    - rewrite (H1 I) in Hi. injection Hi as <-. exact Fv.
    - rewrite (H2 I) in Hi. injection Hi as <-. apply Fi. eapply nth_error_In; eauto. }
  destruct (B x Hx), (B y Hy). apply poly_inj; auto. congruence.
Qed.
Lemma two_fold_poly init n1 v1 n2 v2 : Forall (fun z => 0 <= z < 1000)%Z (v1 :: v2 :: init) -> collision_free poly (two_fold init n1 v1 n2 v2).
Proof.
  intros F x y Hx Hy E.
  assert (B : forall x, two_fold init n1 v1 n2 v2 x -> length x = length init /\ Forall (fun z => 0 <= z < 1000)%Z x).
  { clear x y Hx Hy E. intros x [S1 [S2 [_ [_ [_ [L H]]]]]]. split; [assumption|]. apply Forall_forall. intros z Hz.
    apply In_nth_error in Hz. destruct Hz as [i Hi]. assert (i < length init) by (rewrite <- L; apply nth_error_Some; congruence).
    destruct (nth_error init i) as [a|] eqn:Ea; [|apply nth_error_None in Ea; lia].
    inversion F as [|? ? Fv Fi]; subst. inversion Fi as [|? ? Fv2 Fi2]; subst. rewrite Forall_forall in Fi2. destruct (H i a Ea) as [H1 [H2 H3]].
    destruct (in_dec Nat.eq_dec i S1) as [I|I]; [rewrite (H1 I) in Hi; injection Hi as <-; exact Fv|].
    destruct (in_dec Nat.eq_dec i S2) as [J|J]; [rewrite (H2 J) in Hi; injection Hi as <-; exact Fv2|].
    rewrite (H3 I J) in Hi. injection Hi as <-. apply Fi2. eapply nth_error_In; eauto. }
  destruct (B x Hx), (B y Hy). apply poly_inj; auto. congruence.
Qed.
