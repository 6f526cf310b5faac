(** Inherited sequence methods of ModifiedCell. *)
From Verif Require Import Base LBase BaseQ LQ SElement MElement LElement MGeneralCell LGeneralCell MModCell SModCell LModCell LModCell2 LModCell3 LModCell4 LModCell5 MSeq SSeq.
Set Implicit Arguments.
Unset Strict Implicit.
Open Scope Z_scope.
Open Scope list_scope.
Notation length := List.length.

Ltac flat := repeat (progress (cbn [app]; rewrite <- ?app_assoc)).
Lemma Qc3_eqb_iff a b : Qc3_eqb a b = true <-> a = b.
Proof.
  unfold Qc3_eqb. rewrite !andb_true_iff, !Qceqb_eq. destruct a, b; cbn. split; [intros [[-> ->] ->]; reflexivity|intros [= -> -> ->]; auto].
Qed.
Lemma is_or_eq_iff h a b : is_site h a -> is_site h b -> is_or_eq h a b = true <-> same_site h a b.
Proof.
  intros A B. unfold is_or_eq, site_eqb, sp_eqb. rewrite orb_true_iff, andb_true_iff, Nat.eqb_eq, Qc3_eqb_iff, Z.eqb_eq.
  assert (Ea : nth_error (h_site h) a = Some (site_at h a)) by (apply nth_error_nth'; exact A).
  assert (Eb : nth_error (h_site h) b = Some (site_at h b)) by (apply nth_error_nth'; exact B).
  split.
  - intros [->|[P Q]]; [exists (site_at h b), (site_at h b); auto|exists (site_at h a), (site_at h b); auto].
  - intros (s & t & E1 & E2 & P & Q). right. rewrite E1 in Ea. rewrite E2 in Eb. injection Ea as <-. injection Eb as <-. auto.
Qed.

Lemma with_list_only h c l : wf_heap h -> is_cell h c -> Forall (is_site h) l -> only_list h c l (with_list h c l).
Proof.
  intros W C F. pose proof (wf_with_list c W F) as W'. split; [exact W'|]. split; [apply holds_iff; [exact W'|]; split; [exact C|symmetry; now apply refs_with_list]|].
  split; [reflexivity|]. split.
  - intros lat ss X. apply contains_iff in X; [|exact W]. destruct X as (_ & -> & _). eexists. apply contains_iff; [exact W'|]. split; [exact C|]. split; [reflexivity|reflexivity].
  - intros d rd N X. apply holds_iff in X; [|exact W]. destruct X as [D ->]. apply holds_iff; [exact W'|]. split; [exact D|]. symmetry. now apply refs_with_list_other.
Qed.
Lemma only_same h c : wf_heap h -> is_cell h c -> only_list h c (refs h c) h.
Proof.
  intros W C. split; [exact W|]. split; [now apply holds_iff|]. split; [reflexivity|]. split; [intros lat ss X; now exists ss|auto].
Qed.
Lemma with_list_twice h c l m : wf_heap h -> is_cell h c -> with_list (with_list h c l) c m = with_list h c m.
Proof.
  intros W C. unfold with_list. cbn [h_site h_list h_cell]. f_equal. unfold cell_at. cbn [h_cell].
  generalize (mc_list (nth c (h_cell h) dummy_cell)). generalize (h_list h). induction l0 as [|x l0 IH]; intros [|k]; cbn; try reflexivity. now rewrite IH.
Qed.

Lemma upd_same A (l : list A) k d : upd l k (nth k l d) = l.
Proof. revert k. induction l as [|x l IH]; intros [|k]; cbn; try reflexivity. now rewrite IH. Qed.
Lemma with_list_same h c : with_list h c (refs h c) = h.
Proof. unfold with_list, refs, list_at. rewrite upd_same. now destruct h. Qed.

(** *** index *)
Lemma getitem_nat h c k : snd (mc_getitem c (Z.of_nat k) h) = match nth_error (refs h c) k with Some a => Ok a | None => Raise IndexError end.
Proof.
  unfold mc_getitem. cbn [snd]. destruct (nth_error (refs h c) k) as [a|] eqn:E.
  - apply py_get_index with (j := k); [|exact E]. split; [apply nth_error_Some; congruence|now left].
  - apply py_get_no. right. apply nth_error_None in E. lia.
Qed.
Lemma index_loop_spec h c v e : forall fuel k, (length (refs h c) - k < fuel)%nat ->
  (exists i a, (k <= i)%nat /\ (forall x, e = Some x -> Z.of_nat i < x) /\ nth_error (refs h c) i = Some a /\ is_or_eq h a v = true /\
     (forall j b, (k <= j < i)%nat -> nth_error (refs h c) j = Some b -> is_or_eq h b v = false) /\ index_loop fuel h c v e (Z.of_nat k) = Some (Ok (Z.of_nat i))) \/
  ((forall j b, (k <= j)%nat -> (forall x, e = Some x -> Z.of_nat j < x) -> nth_error (refs h c) j = Some b -> is_or_eq h b v = false) /\
     index_loop fuel h c v e (Z.of_nat k) = Some (Raise ValueError)).
Proof.
  induction fuel as [|f IH]; intros k F; [lia|]. cbn [index_loop].
  assert (T : (forall x, e = Some x -> Z.of_nat k < x) /\ match e with None => true | Some e => Z.of_nat k <? e end = true \/
              (exists x, e = Some x /\ x <= Z.of_nat k) /\ match e with None => true | Some e => Z.of_nat k <? e end = false).
  { destruct e as [x|]; [destruct (Z.ltb_spec (Z.of_nat k) x); [left|right]|left]; split; auto; [intros y [= <-]; assumption|exists x; auto|intros y [=]]. }
  destruct T as [[T1 ->]|[(x & -> & T1) ->]].
  - rewrite getitem_nat. destruct (nth_error (refs h c) k) as [a|] eqn:E.
    + destruct (is_or_eq h a v) eqn:Q; [left; exists k, a; split; [lia|]; split; [exact T1|]; split; [exact E|]; split; [exact Q|]; split; [intros j b L; lia|reflexivity]|].
      assert (k < length (refs h c))%nat by (apply nth_error_Some; congruence). replace (Z.of_nat k + 1) with (Z.of_nat (S k)) by lia.
      destruct (IH (S k) ltac:(lia)) as [(i & b & I1 & I2 & I3 & I4 & I5 & I6)|[I1 I2]]; [left; exists i, b|right].
      * split; [lia|]. repeat (split; [assumption|]). split; [|exact I6]. intros j b' L N. destruct (Nat.eq_dec j k) as [->|D]; [congruence|apply (I5 j); [lia|exact N]].
      * split; [|exact I2]. intros j b L X N. destruct (Nat.eq_dec j k) as [->|D]; [congruence|apply (I1 j); [lia|exact X|exact N]].
    + right. split; [|reflexivity]. intros j b L _ N. apply nth_error_None in E. assert (j < length (refs h c))%nat by (apply nth_error_Some; congruence). lia.
  - right. split; [|reflexivity]. intros j b L X _. specialize (X x eq_refl). lia.
Qed.
Lemma index_spec h c v start stop fuel lo hi : (length (refs h c) < fuel)%nat ->
  from_bound (length (refs h c)) start lo -> upto_bound (length (refs h c)) stop hi ->
  (exists i a, lo <= Z.of_nat i < hi /\ nth_error (refs h c) i = Some a /\ is_or_eq h a v = true /\
     (forall j b, lo <= Z.of_nat j < Z.of_nat i -> nth_error (refs h c) j = Some b -> is_or_eq h b v = false) /\ mc_index fuel h c v start stop = Some (Ok (Z.of_nat i))) \/
  ((forall j b, lo <= Z.of_nat j < hi -> nth_error (refs h c) j = Some b -> is_or_eq h b v = false) /\ mc_index fuel h c v start stop = Some (Raise ValueError)).
Proof.
  intros F LO HI. unfold mc_index, mc_len. set (n := length (refs h c)) in *.
  set (e := match stop with Some e => Some (if e <? 0 then e + Z.of_nat n else e) | None => None end).
  assert (ES : (if start <? 0 then Z.max (Z.of_nat n + start) 0 else start) = lo).
  { unfold from_bound in LO. destruct (Z.ltb_spec start 0); lia. }
  rewrite ES. assert (L0 : 0 <= lo) by (unfold from_bound in LO; lia). set (k := Z.to_nat lo). assert (EK : lo = Z.of_nat k) by (unfold k; lia). rewrite EK.
  assert (EE : forall j b, nth_error (refs h c) j = Some b -> ((forall x, e = Some x -> Z.of_nat j < x) <-> Z.of_nat j < hi)).
  { intros j b N. assert (j < n)%nat by (apply nth_error_Some; congruence). unfold e, upto_bound in *. destruct stop as [s|].
    - destruct (Z.ltb_spec s 0); split; try (intros X; specialize (X _ eq_refl); lia); intros X x [= <-]; lia.
    - split; [lia|intros _ x [=]]. }
  destruct (@index_loop_spec h c v e fuel k ltac:(fold n; lia)) as [(i & a & I1 & I2 & I3 & I4 & I5 & I6)|[I1 I2]]; [left; exists i, a|right].
  - split; [split; [lia|exact (proj1 (EE i a I3) I2)]|]. split; [exact I3|]. split; [exact I4|]. split; [|exact I6]. intros j b L N. apply (I5 j); [lia|exact N].
  - split; [|exact I2]. intros j b L N. apply (I1 j); [lia|exact (proj2 (EE j b N) (proj2 L))|exact N].
Qed.

(** *** reversed, reverse *)
Lemma reversed_spec h c : mc_reversed h c = Ok (rev (refs h c)).
Proof.
  unfold mc_reversed, mc_len. assert (G : forall l, (forall i, In i l -> (i < length (refs h c))%nat) ->
    mapM (fun i => snd (mc_getitem c (Z.of_nat i) h)) l = Ok (map (fun i => nth i (refs h c) 0%nat) l)).
  { induction l as [|i l IH]; intros H; [reflexivity|]. cbn [mapM map]. rewrite getitem_nat.
    rewrite (nth_error_nth' (refs h c) 0%nat) by (apply H; now left). cbn [bind]. rewrite IH by (intros; apply H; now right). reflexivity. }
  rewrite G by (intros i I; apply in_rev, in_seq in I; lia). rewrite map_rev. f_equal. f_equal.
  apply nth_ext with (d := 0%nat) (d' := 0%nat); rewrite map_length, seq_length; [reflexivity|]. intros i I.
  rewrite nth_indep with (d' := nth 0 (refs h c) 0%nat) by (now rewrite map_length, seq_length).
  change (nth 0 (refs h c) 0%nat) with ((fun i => nth i (refs h c) 0%nat) 0%nat). rewrite map_nth, seq_nth by assumption. reflexivity.
Qed.
Lemma getitem_mid h c l1 x l2 : refs h c = l1 ++ x :: l2 -> mc_getitem c (Z.of_nat (length l1)) h = (h, Ok x).
Proof.
  intros E. unfold mc_getitem. f_equal. pose proof (getitem_nat h c (length l1)) as G. unfold mc_getitem in G. cbn [snd] in G. rewrite G, E, nth_error_app2, Nat.sub_diag by lia. reflexivity.
Qed.
Lemma setitem_mid h c l1 x l2 y : refs h c = l1 ++ x :: l2 -> mc_setitem c (Z.of_nat (length l1)) y h = (with_list h c (l1 ++ y :: l2), Ok tt).
Proof.
  intros E. unfold mc_setitem. rewrite E. destruct (py_set_spec (l1 ++ x :: l2) (Z.of_nat (length l1)) y) as [(k1 & z & k2 & E1 & [I1 I2] & ->)|[N _]].
  - assert (L : length k1 = length l1). { rewrite app_length in I1, I2. cbn in I1, I2. lia. }
    apply app_mid_eq in E1; [|now symmetry]. destruct E1 as (-> & _ & ->). reflexivity.
  - rewrite app_length in N. cbn in N. unfold no_index in N. lia.
Qed.
(** After the first [k] swaps: both ends exchanged, the middle as before. *)
Lemma reverse_loop c : forall m h a x b, wf_heap h -> is_cell h c -> refs h c = a ++ x ++ b -> length a = length b -> m = (Nat.div (length x) 2) ->
  exists h', citer (mc_swap c (Z.of_nat (length (a ++ x ++ b)))) (seq (length a) m) h = (h', Ok tt) /\ h' = with_list h c (a ++ rev x ++ b).
Proof.
  induction m as [|m IH]; intros h a x b W C R LAB M.
  - cbn [seq citer]. exists h. split; [reflexivity|]. assert (LX : (length x < 2)%nat) by (apply Nat.div_small_iff; lia).
    assert (EX : rev x = x) by (destruct x as [|p [|q x]]; [reflexivity|reflexivity|cbn in LX; lia]). rewrite EX, <- R.
    symmetry. apply with_list_same.
  - assert (LX : (2 <= length x)%nat). { destruct (le_lt_dec 2 (length x)) as [H|H]; [exact H|]. rewrite Nat.div_small in M by exact H. discriminate M. }
    destruct x as [|p x]; [cbn in LX; lia|]. destruct (@exists_last _ x) as (y & q & ->); [destruct x; [cbn in LX; lia|discriminate]|].
    assert (MY : m = Nat.div (length y) 2).
    { cbn [length] in M. rewrite app_length in M. cbn [length] in M. replace (S (length y + 1)) with (length y + 1 * 2)%nat in M by lia. rewrite Nat.div_add in M by lia. lia. }
    set (n := length (a ++ (p :: y ++ [q]) ++ b)). cbn [seq citer].
    assert (NI : Z.of_nat n - Z.of_nat (length a) - 1 = Z.of_nat (length (a ++ p :: y))).
    { unfold n. repeat (rewrite app_length; cbn [length]). lia. }
    assert (R1 : refs h c = (a ++ p :: y) ++ q :: b) by (rewrite R; flat; reflexivity).
    assert (R2 : refs h c = a ++ p :: (y ++ q :: b)) by (rewrite R; flat; reflexivity).
    assert (FS : Forall (is_site h) (a ++ q :: (y ++ p :: b))).
    { apply Forall_forall. intros z I. apply (wf_refs_site W C). rewrite R2. repeat (rewrite in_app_iff in *; cbn [In] in * ). tauto. }
    assert (SW : mc_swap c (Z.of_nat n) (length a) h = (with_list h c (a ++ q :: (y ++ p :: b)), Ok tt)).
    { unfold mc_swap, cbind. rewrite NI, (getitem_mid R1), (getitem_mid R2), (setitem_mid q R2).
      assert (W1 : refs (with_list h c (a ++ q :: y ++ q :: b)) c = (a ++ q :: y) ++ q :: b) by (rewrite refs_with_list by assumption; flat; reflexivity).
      replace (length (a ++ p :: y)) with (length (a ++ q :: y)) by (rewrite !app_length; reflexivity).
      rewrite (setitem_mid p W1), with_list_twice by assumption. flat. reflexivity. }
    unfold cbind at 1. rewrite SW.
    destruct (IH (with_list h c (a ++ q :: (y ++ p :: b))) (a ++ [q]) y (p :: b)) as (h' & E & ->).
    + now apply wf_with_list.
    + exact C.
    + rewrite refs_with_list by assumption. rewrite <- app_assoc. reflexivity.
    + rewrite app_length. cbn. lia.
    + exact MY.
    + exists (with_list h c (a ++ rev (p :: y ++ [q]) ++ b)). split; [|reflexivity].
      assert (EN : length ((a ++ [q]) ++ y ++ p :: b) = n) by (unfold n; repeat (rewrite app_length; cbn [length]); lia).
      assert (EA : length (a ++ [q]) = S (length a)) by (rewrite app_length; cbn; lia). rewrite EN, EA in E.
      rewrite E, with_list_twice by assumption. f_equal. f_equal. cbn [rev]. rewrite rev_app_distr. flat. reflexivity.
Qed.
Lemma reverse_spec h c : wf_heap h -> is_cell h c -> mc_reverse c h = (with_list h c (rev (refs h c)), Ok tt).
Proof.
  intros W C. unfold mc_reverse, mc_len. destruct (@reverse_loop c (Nat.div (length (refs h c)) 2) h [] (refs h c) [] W C) as (h' & E & ->); try reflexivity.
  - now rewrite app_nil_r.
  - rewrite app_nil_r in E. cbn in E. rewrite app_nil_r in E. exact E.
Qed.

(** *** clear, remove *)
Lemma clear_spec c : forall n fuel h, wf_heap h -> is_cell h c -> length (refs h c) = n -> (n < fuel)%nat -> mc_clear fuel c h = Some (with_list h c [], Ok tt).
Proof.
  induction n as [|n IH]; intros [|fuel] h W C L F; try lia; cbn [mc_clear]; unfold mc_pop.
  - destruct (py_del_spec (refs h c) (-1)) as [(l1 & x & l2 & E & _)|(_ & -> & ->)]; [rewrite E, app_length in L; cbn in L; lia|].
    f_equal. f_equal. destruct (refs h c) as [|] eqn:R; [|discriminate L]. rewrite <- R. symmetry. apply with_list_same.
  - destruct (py_del_spec (refs h c) (-1)) as [(l1 & x & l2 & E & [I1 I2] & -> & ->)|(N & _)]; [|unfold no_index in N; lia].
    assert (LL : length (refs h c) = (length l1 + S (length l2))%nat) by (rewrite E, app_length; reflexivity).
    assert (L2 : l2 = []) by (destruct l2; [reflexivity|cbn [length] in LL; lia]). subst l2. rewrite app_nil_r.
    change (put_list (mc_list (cell_at h c)) l1 h) with (with_list h c l1, @Ok unit tt). cbv iota.
    assert (FS : Forall (is_site h) l1). { apply Forall_forall. intros z I. apply (wf_refs_site W C). rewrite E, in_app_iff. now left. }
    rewrite (IH fuel (with_list h c l1)); [now rewrite with_list_twice|now apply wf_with_list|exact C| |lia].
    rewrite refs_with_list by assumption. rewrite E, app_length in L. cbn in L. lia.
Qed.
Lemma remove_spec h c v fuel : wf_heap h -> is_cell h c -> (length (refs h c) < fuel)%nat ->
  (exists l1 a l2, refs h c = l1 ++ a :: l2 /\ is_or_eq h a v = true /\ Forall (fun b => is_or_eq h b v = false) l1 /\ mc_remove fuel c v h = Some (with_list h c (l1 ++ l2), Ok tt)) \/
  (Forall (fun b => is_or_eq h b v = false) (refs h c) /\ mc_remove fuel c v h = Some (h, Raise ValueError)).
Proof.
  intros W C F. unfold mc_remove.
  destruct (@index_spec h c v 0 None fuel 0 (Z.of_nat (length (refs h c))) F) as [(i & a & I1 & I2 & I3 & I4 & ->)|[I1 ->]]; [left; lia|reflexivity|left|right].
  - assert (Li : (i < length (refs h c))%nat) by (apply nth_error_Some; congruence). destruct (split_at Li) as (l1 & x & l2 & E & L). subst i.
    assert (x = a) by (rewrite E, nth_error_app2, Nat.sub_diag in I2 by lia; now injection I2). subst x.
    exists l1, a, l2. split; [exact E|]. split; [exact I3|]. split.
    + apply Forall_forall. intros b Ib. apply In_nth_error in Ib as (j & Ej). assert (j < length l1)%nat by (apply nth_error_Some; congruence).
      apply (I4 j); [lia|]. rewrite E, nth_error_app1 by assumption. exact Ej.
    + unfold mc_delitem. destruct (py_del_spec (refs h c) (Z.of_nat (length l1))) as [(k1 & z & k2 & E1 & [J1 J2] & -> & _)|(N & _)]; [|unfold no_index in N; lia].
      assert (LK : length k1 = length l1) by lia. rewrite E in E1. apply app_mid_eq in E1; [|now symmetry]. destruct E1 as (-> & _ & ->). reflexivity.
  - split; [|reflexivity]. apply Forall_forall. intros b Ib. apply In_nth_error in Ib as (j & Ej). apply (I1 j); [|exact Ej].
    assert (j < length (refs h c))%nat by (apply nth_error_Some; congruence). lia.
Qed.
