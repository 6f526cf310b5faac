(** Lemmas for [RandomPopSet] and the random walk. *)
From Verif Require Import Base LBase MArrange SArrange.
Set Implicit Arguments.
Unset Strict Implicit.
Open Scope nat_scope.

Lemma nth_error_upd_eq A (l : list A) i v : i < length l -> nth_error (upd l i v) i = Some v.
Proof. revert i; induction l; intros [|i] H; cbn in *; try lia; [reflexivity|apply IHl; lia]. Qed.
Lemma nth_error_upd_neq A (l : list A) i j v : i <> j -> nth_error (upd l i v) j = nth_error l j.
Proof. revert i j; induction l; intros [|i] [|j] H; cbn; try reflexivity; try lia. apply IHl. lia. Qed.
Lemma upd_app_l A (l : list A) z i v : i < length l -> upd (l ++ [z]) i v = upd l i v ++ [z].
Proof. revert i; induction l; intros [|i] H; cbn in *; try lia; [reflexivity|]. f_equal. apply IHl. lia. Qed.
Lemma upd_app_last A (l : list A) z v : upd (l ++ [z]) (length l) v = l ++ [v].
Proof. induction l; cbn; [reflexivity|]. now f_equal. Qed.
Lemma norm_last n : norm_index (n + 1) (-1) = Some n.
Proof.
  unfold norm_index. change (0 <=? -1)%Z with false. cbv iota.
  destruct (Z.leb_spec 0 (-1 + Z.of_nat (n + 1))) as [H|H]; [|lia]. f_equal. lia.
Qed.
Lemma py_get_last A (l : list A) z : py_get (l ++ [z]) (-1) = Ok z.
Proof.
  unfold py_get. rewrite app_length. cbn [length]. rewrite norm_last. unfold get_nth.
  rewrite nth_error_app2, Nat.sub_diag by lia. reflexivity.
Qed.
Lemma py_set_last A (l : list A) z v : py_set (l ++ [z]) (-1) v = Ok (l ++ [v]).
Proof.
  unfold py_set. rewrite app_length. cbn [length]. rewrite norm_last, set_nth_ok.
  - now rewrite upd_app_last.
  - rewrite app_length; cbn; lia.
Qed.

Section S.
Variable V : Type.
Variable eqb : V -> V -> bool.
Hypothesis eqb_eq : forall a b, eqb a b = true <-> a = b.
Variable none : V.

Lemma eqb_refl x : eqb x x = true. Proof. now apply eqb_eq. Qed.
Lemma eqb_neq a b : eqb a b = false <-> a <> b.
Proof. rewrite <- eqb_eq. destruct (eqb a b); intuition congruence. Qed.
Lemma V_dec (a b : V) : a = b \/ a <> b.
Proof. destruct (eqb a b) eqn:E; [left; now apply eqb_eq | right; now apply eqb_neq]. Qed.

Notation get := (dict_get eqb).
Notation dset := (dict_set eqb).
Notation del := (dict_del eqb).

Lemma get_set d k v x : get (dset d k v) x = if eqb k x then Some v else get d x.
Proof.
  induction d as [|[a b] d IH]; cbn [dict_set dict_get]; [reflexivity|].
  destruct (eqb a k) eqn:E; cbn [dict_get].
  - apply eqb_eq in E. subst. now destruct (eqb k x).
  - rewrite IH. destruct (eqb a x) eqn:F; [|reflexivity].
    apply eqb_eq in F. subst a. rewrite (proj2 (eqb_neq k x)); [reflexivity|].
    intros ->. rewrite eqb_refl in E. discriminate.
Qed.
Lemma get_del d k x : get (del d k) x = if eqb k x then None else get d x.
Proof.
  induction d as [|[a b] d IH]; cbn; [now destruct (eqb k x)|].
  destruct (eqb a k) eqn:E; cbn.
  - fold (del d k). rewrite IH. apply eqb_eq in E. subst. now destruct (eqb k x).
  - fold (del d k). rewrite IH. destruct (eqb a x) eqn:F; [|reflexivity].
    apply eqb_eq in F. subst a. rewrite (proj2 (eqb_neq k x)); [reflexivity|].
    intros ->. rewrite eqb_refl in E. discriminate.
Qed.
Lemma get_keys d x : In x (map fst d) <-> get d x <> None.
Proof.
  induction d as [|[a b] d IH]; cbn; [tauto|].
  destruct (eqb a x) eqn:E.
  - apply eqb_eq in E. subst. split; [intros _; congruence|now left].
  - apply eqb_neq in E. rewrite <- IH. tauto.
Qed.
Lemma keys_set d k v : NoDup (map fst d) -> NoDup (map fst (dset d k v)).
Proof.
  induction d as [|[a b] d IH]; cbn; intros H; [repeat constructor; easy|].
  inversion H; subst. destruct (eqb a k) eqn:E; cbn; [now constructor|]. constructor; auto.
  rewrite get_keys, get_set. apply eqb_neq in E.
  rewrite (proj2 (eqb_neq k a)) by congruence. now rewrite <- get_keys.
Qed.
Lemma keys_del d k : NoDup (map fst d) -> NoDup (map fst (del d k)).
Proof.
  unfold dict_del. induction d as [|[a b] d IH]; cbn; intros H; [constructor|].
  inversion H; subst. destruct (eqb a k) eqn:E; cbn; [auto|]. constructor; auto.
  intros K. apply H2. apply in_map_iff in K as ([u w] & <- & K). apply filter_In in K as [K _].
  apply in_map_iff. now exists (u, w).
Qed.

Definition good (s : rps V) : Prop :=
  NoDup (map fst (r_map s)) /\ NoDup (r_list s) /\
  forall x i, get (r_map s) x = Some i <-> nth_error (r_list s) i = Some x.

Lemma good_empty : good rps_empty.
Proof. split; [constructor|split; [constructor|]]. intros x [|i]; cbn; split; discriminate. Qed.

Lemma good_contains s x : good s -> rp_contains eqb s x = true <-> In x (r_list s).
Proof.
  intros (K & N & G). unfold rp_contains, dict_mem. destruct (get (r_map s) x) as [i|] eqn:E.
  - split; [|reflexivity]. intros _. apply G in E. eapply nth_error_In; eauto.
  - split; [discriminate|]. intros H. apply In_nth_error in H as [i H]. apply G in H. congruence.
Qed.
Lemma good_len s : good s -> rp_len s = length (r_list s).
Proof.
  intros (K & N & G). unfold rp_len. rewrite <- (map_length fst). apply Permutation_length.
  apply NoDup_Permutation; auto. intros x. rewrite get_keys. split.
  - intros H. destruct (get (r_map s) x) as [i|] eqn:E; [|congruence]. apply G in E. eapply nth_error_In; eauto.
  - intros H. apply In_nth_error in H as [i H]. apply G in H. congruence.
Qed.

Lemma NoDup_snoc (l : list V) x : NoDup l -> ~ In x l -> NoDup (l ++ [x]).
Proof.
  intros N H. apply NoDup_rev in N. rewrite <- (rev_involutive l), <- (rev_involutive [x]), <- rev_app_distr.
  apply NoDup_rev. cbn. constructor; [now rewrite <- in_rev|assumption].
Qed.

Lemma add_good s x : good s -> good (rp_add eqb s x) /\ forall y, In y (r_list (rp_add eqb s x)) <-> y = x \/ In y (r_list s).
Proof.
  intros H. pose proof (good_contains x H) as C. unfold rp_contains in C. unfold rp_add.
  destruct (dict_mem eqb (r_map s) x) eqn:E.
  - split; [assumption|]. intros y. split; [now right|]. intros [->|?]; [now apply C|assumption].
  - assert (NI : ~ In x (r_list s)) by (rewrite <- C; discriminate).
    destruct H as (K & N & G). split.
    + split; [|split]; cbn [r_map r_list].
      * now apply keys_set.
      * now apply NoDup_snoc.
      * intros y i. rewrite get_set. destruct (eqb x y) eqn:F.
        -- apply eqb_eq in F. subst y. split.
           ++ intros [= <-]. rewrite nth_error_app2, Nat.sub_diag by lia. reflexivity.
           ++ intros Hn. destruct (Nat.lt_ge_cases i (length (r_list s))) as [L|L].
              ** rewrite nth_error_app1 in Hn by assumption. apply nth_error_In in Hn. contradiction.
              ** assert (i < length (r_list s ++ [x])) by (apply nth_error_Some; congruence).
                 rewrite app_length in *; cbn in *. f_equal. lia.
        -- apply eqb_neq in F. rewrite G. split.
           ++ intros Hn. rewrite nth_error_app1; [assumption|]. apply nth_error_Some. congruence.
           ++ intros Hn. destruct (Nat.lt_ge_cases i (length (r_list s))) as [L|L].
              ** now rewrite nth_error_app1 in Hn by assumption.
              ** rewrite nth_error_app2 in Hn by assumption.
                 destruct (i - length (r_list s)) as [|[|k]]; cbn in Hn; congruence.
    + intros y. cbn [r_list]. rewrite in_app_iff. cbn. intuition congruence.
Qed.

Lemma discard_good s x : good s -> exists s', rp_discard eqb s x = Ok s' /\ good s' /\
  (forall y, In y (r_list s') <-> In y (r_list s) /\ y <> x).
Proof.
  intros H. pose proof H as (K & N & G). unfold rp_discard.
  destruct (get (r_map s) x) as [i|] eqn:E.
  2:{ exists s. split; [reflexivity|]. split; [assumption|]. intros y. split; [|tauto].
      intros I. split; [assumption|]. intros ->. apply In_nth_error in I as [j J]. apply G in J. congruence. }
  apply G in E. assert (L : i < length (r_list s)) by (apply nth_error_Some; congruence).
  destruct (exists_last (l := r_list s)) as (l0 & z & El). { intros Q. rewrite Q in L. cbn in L. lia. }
  rewrite El in *. rewrite py_get_last. cbn [bind]. unfold get_nth at 1. rewrite E. cbn [bind].
  rewrite set_nth_ok by assumption. cbn [bind].
  rewrite app_length in L. cbn [length] in L.
  destruct (NoDup_remove _ _ _ N) as [N0 Z0]. rewrite app_nil_r in N0, Z0.
  destruct (Nat.eq_dec i (length l0)) as [->|Ne].
  - rewrite nth_error_app2, Nat.sub_diag in E by lia. cbn in E. injection E as ->.
    rewrite upd_app_last, py_set_last. cbn [bind]. unfold get_nth. rewrite nth_error_app2, Nat.sub_diag by lia.
    cbn [nth_error bind]. rewrite removelast_last. unfold dict_mem. rewrite get_set, eqb_refl.
    eexists. split; [reflexivity|]. split; [split; [|split]|]; cbn [r_map r_list].
    + now apply keys_del, keys_set.
    + assumption.
    + intros y j. rewrite get_del, get_set. destruct (eqb x y) eqn:F.
      * apply eqb_eq in F. subst y. split; [discriminate|]. intros Q. apply nth_error_In in Q. contradiction.
      * rewrite G. apply eqb_neq in F. split; intros Q.
        -- destruct (Nat.lt_ge_cases j (length l0)) as [B|B]; [now rewrite nth_error_app1 in Q by assumption|].
           rewrite nth_error_app2 in Q by assumption.
           destruct (j - length l0) as [|[|k]]; cbn in Q; congruence.
        -- rewrite nth_error_app1; [assumption|]. apply nth_error_Some. congruence.
    + intros y. rewrite in_app_iff. cbn. split; [|intuition congruence].
      intros I. split; [now left|]. intros ->. contradiction.
  - assert (L0 : i < length l0) by lia.
    rewrite upd_app_l by assumption. rewrite py_set_last. cbn [bind].
    unfold get_nth. rewrite nth_error_app1 by (rewrite upd_length; assumption).
    rewrite nth_error_upd_eq by assumption. cbn [bind]. rewrite removelast_last.
    rewrite nth_error_app1 in E by assumption.
    assert (XZ : x <> z) by (intros ->; apply nth_error_In in E; contradiction).
    unfold dict_mem. rewrite get_set. rewrite (proj2 (eqb_neq z x)) by congruence.
    assert (Gx : get (r_map s) x = Some i). { apply G. now rewrite nth_error_app1. }
    rewrite Gx. eexists. split; [reflexivity|].
    assert (Inv : forall y j, get (del (dset (r_map s) z i) x) y = Some j <-> nth_error (upd l0 i z) j = Some y).
    { intros y j. rewrite get_del, get_set. destruct (eqb x y) eqn:F.
      - apply eqb_eq in F. subst y. split; [discriminate|]. intros Q.
        destruct (Nat.eq_dec i j) as [<-|D].
        + rewrite nth_error_upd_eq in Q by assumption. congruence.
        + rewrite nth_error_upd_neq in Q by assumption. exfalso. apply D.
          apply (proj1 (NoDup_nth_error l0) N0); [assumption|congruence].
      - apply eqb_neq in F. destruct (eqb z y) eqn:F2.
        + apply eqb_eq in F2. subst y. split.
          * intros [= <-]. now apply nth_error_upd_eq.
          * intros Q. destruct (Nat.eq_dec i j) as [<-|D]; [reflexivity|].
            rewrite nth_error_upd_neq in Q by assumption. apply nth_error_In in Q. contradiction.
        + apply eqb_neq in F2. rewrite G. destruct (Nat.eq_dec i j) as [<-|D].
          * rewrite nth_error_upd_eq, nth_error_app1 by assumption. rewrite E. split; congruence.
          * rewrite nth_error_upd_neq by assumption.
            destruct (Nat.lt_ge_cases j (length l0)) as [B|B]; [now rewrite nth_error_app1 by assumption|].
            rewrite nth_error_app2 by assumption.
            rewrite (proj2 (nth_error_None l0 j)) by assumption.
            destruct (j - length l0) as [|[|k]]; cbn; split; congruence. }
    assert (Mem : forall y, In y (upd l0 i z) <-> (In y (l0 ++ [z]) /\ y <> x)).
    { intros y. split.
      - intros I. apply In_nth_error in I as [j J]. apply Inv in J. rewrite get_del, get_set in J.
        destruct (eqb x y) eqn:F; [discriminate|]. apply eqb_neq in F.
        destruct (eqb z y) eqn:F2.
        + apply eqb_eq in F2. subst y. split; [apply in_app_iff; right; now left|congruence].
        + apply G in J. split; [now apply nth_error_In in J|congruence].
      - intros [I D]. apply In_nth_error in I as [j J]. apply G in J.
        assert (Q : get (del (dset (r_map s) z i) x) y <> None).
        { rewrite get_del, get_set. rewrite (proj2 (eqb_neq x y)) by congruence. destruct (eqb z y); congruence. }
        destruct (get (del (dset (r_map s) z i) x) y) as [k|] eqn:Q2; [|congruence].
        apply Inv in Q2. now apply nth_error_In in Q2. }
    split; [split; [|split]|]; cbn [r_map r_list].
    + now apply keys_del, keys_set.
    + apply NoDup_nth_error. intros a b A B. rewrite upd_length in A.
      destruct (nth_error (upd l0 i z) a) as [u|] eqn:U.
      2:{ apply nth_error_None in U. rewrite upd_length in U. lia. }
      symmetry in B. apply Inv in U, B. congruence.
    + exact Inv.
    + exact Mem.
Qed.

Lemma pop_good s r : good s ->
  exists s' v, random_pop eqb none s r = Ok (s', v) /\ good s' /\
  ((r_list s = [] /\ v = none /\ r_list s' = []) \/
   (In v (r_list s) /\ forall y, In y (r_list s') <-> In y (r_list s) /\ y <> v)).
Proof.
  intros H. unfold random_pop, get_random. destruct (r_list s) as [|a l] eqn:E.
  - cbn [bind]. destruct (discard_good none H) as (s' & D & G' & M). rewrite D. cbn [bind].
    exists s', none. split; [reflexivity|]. split; [assumption|]. left. split; [reflexivity|]. split; [reflexivity|].
    destruct (r_list s') as [|b l']; [reflexivity|]. exfalso.
    destruct (proj1 (M b) (or_introl eq_refl)) as [Q _]. rewrite E in Q. exact Q.
  - rewrite <- E. assert (L : r mod length (r_list s) < length (r_list s)).
    { apply Nat.mod_upper_bound. rewrite E. cbn. lia. }
    unfold get_nth. destruct (nth_error (r_list s) (r mod length (r_list s))) as [v|] eqn:Q.
    2:{ apply nth_error_None in Q. lia. }
    cbn [bind]. destruct (discard_good v H) as (s' & D & G' & M). rewrite D. cbn [bind].
    exists s', v. split; [reflexivity|]. split; [assumption|]. right.
    split; [now apply nth_error_In in Q|assumption].
Qed.

(** every element can be drawn *)
Lemma pop_any s v : good s -> In v (r_list s) -> exists r s', random_pop eqb none s r = Ok (s', v).
Proof.
  intros H I. apply In_nth_error in I as [i Q]. exists i.
  assert (L : i < length (r_list s)) by (apply nth_error_Some; congruence).
  unfold random_pop, get_random. destruct (r_list s) eqn:E; [cbn in L; lia|]. rewrite <- E in *.
  rewrite Nat.mod_small by assumption. unfold get_nth. rewrite Q. cbn [bind].
  destruct (discard_good v H) as (s' & D & _). rewrite D. eexists. reflexivity.
Qed.

Lemma mpop_good s : good s ->
  (r_list s = [] /\ rp_pop eqb s = Raise KeyError) \/
  exists s' v, rp_pop eqb s = Ok (s', v) /\ good s' /\ In v (r_list s) /\
    length (r_list s) = S (length (r_list s')) /\
    forall y, In y (r_list s') <-> In y (r_list s) /\ y <> v.
Proof.
  intros H. unfold rp_pop. destruct (r_list s) as [|v l] eqn:E; [now left|]. right.
  destruct (discard_good v H) as (s' & D & G' & M). rewrite D. cbn [bind].
  exists s', v. split; [reflexivity|]. split; [assumption|]. split; [now left|]. rewrite E in M. split; [|assumption].
  destruct H as (_ & N & _), G' as (_ & N' & _). rewrite E in N. inversion N; subst. cbn. f_equal.
  apply Permutation_length, NoDup_Permutation; auto. intros y. rewrite M. cbn. intuition congruence.
Qed.

Lemma clear_loop_good f : forall s, good s -> length (r_list s) < f ->
  exists s', rp_clear_loop eqb f s = Ok s' /\ good s' /\ r_list s' = [].
Proof.
  induction f as [|f IH]; intros s H L; [lia|]. cbn [rp_clear_loop].
  destruct (mpop_good H) as [[E ->]|(s' & v & -> & G' & _ & Len & _)].
  - exists s. auto.
  - apply IH; [assumption|lia].
Qed.

Lemma ior_good l : forall s, good s -> good (rp_ior eqb s l) /\ forall y, In y (r_list (rp_ior eqb s l)) <-> In y l \/ In y (r_list s).
Proof.
  unfold rp_ior. induction l as [|a l IH]; intros s H; cbn; [split; [assumption|tauto]|].
  destruct (add_good a H) as [G M]. destruct (IH _ G) as [G2 M2]. split; [assumption|].
  intros y. rewrite M2, M. intuition congruence.
Qed.

Definition matches (s : rps V) (h : list (op V * res V)) : Prop :=
  good s /\ (forall x, In x (r_list s) <-> mem_after h x) /\ valid_history none h.

Lemma step_matches s h o s' r : matches s h -> step eqb none s o = (s', r) -> matches s' ((o, r) :: h).
Proof.
  intros (G & M & W) E. unfold matches. destruct o; cbn [step] in E.
  - injection E as <- <-. destruct (add_good x G) as [G' M']. split; [assumption|]. split.
    + intros y. cbn. rewrite M', M. tauto.
    + cbn. auto.
  - injection E as <- <-. destruct (add_good x G) as [G' M']. split; [assumption|]. split.
    + intros y. cbn. unfold rp_push. rewrite M', M. tauto.
    + cbn. auto.
  - destruct (discard_good x G) as (t & D & G' & M'). rewrite D in E. injection E as <- <-.
    split; [assumption|]. split; [|cbn; auto]. intros y. cbn. rewrite M', M. tauto.
  - destruct (pop_good r0 G) as (t & v & D & G' & C). rewrite D in E. injection E as <- <-.
    split; [assumption|]. destruct C as [(E0 & -> & E1)|(I & M')].
    + split.
      * intros y. cbn. rewrite <- M, E0, E1. cbn. tauto.
      * cbn. split; [|assumption]. right. split; [|reflexivity]. intros v. rewrite <- M, E0. auto.
    + split.
      * intros y. cbn. rewrite <- M. apply M'.
      * cbn. split; [|assumption]. left. exists v. split; [now apply M|reflexivity].
  - unfold rp_remove in E. pose proof (good_contains x G) as C. destruct (rp_contains eqb s x).
    + destruct (discard_good x G) as (t & D & G' & M'). rewrite D in E. injection E as <- <-.
      split; [assumption|]. split; [intros y; cbn; rewrite M', M; tauto|].
      cbn. split; [|assumption]. left. split; [|reflexivity]. apply M. now apply C.
    + injection E as <- <-. split; [assumption|]. split; [assumption|].
      cbn. split; [|assumption]. right. split; [|reflexivity]. rewrite <- M, <- C. discriminate.
  - destruct (mpop_good G) as [[E0 D]|(t & v & D & G' & I & _ & M')]; rewrite D in E; injection E as <- <-.
    + split; [assumption|]. split; [assumption|]. cbn. split; [|assumption]. right. split; [|reflexivity].
      intros v. rewrite <- M, E0. auto.
    + split; [assumption|]. split; [intros y; cbn; rewrite <- M; apply M'|].
      cbn. split; [|assumption]. left. exists v. split; [now apply M|reflexivity].
  - destruct (clear_loop_good (f := S (length (r_list s))) G) as (t & D & G' & E0); [lia|].
    unfold rp_clear in E. rewrite D in E. injection E as <- <-. split; [assumption|]. split; [|cbn; auto].
    intros y. cbn. now rewrite E0.
  - injection E as <- <-. destruct (ior_good l G) as [G' M']. split; [assumption|]. split; [|cbn; auto].
    intros y. cbn. rewrite M', M. tauto.
Qed.

Lemma run_matches ops : forall s h s' h', matches s h -> run_ops eqb none s h ops = (s', h') -> matches s' h'.
Proof.
  induction ops as [|o ops IH]; intros s h s' h' H E; cbn [run_ops] in E; [now injection E as <- <-|].
  destruct (step eqb none s o) as [s1 r] eqn:F. eapply IH; [|exact E]. eapply step_matches; eauto.
Qed.

Lemma rp_eq_spec s t : good s -> good t -> rp_eq eqb s t = true <-> (forall x, In x (r_list s) <-> In x (r_list t)).
Proof.
  intros G H. unfold rp_eq, rp_le. rewrite (good_len G), (good_len H), !andb_true_iff, forallb_forall, Nat.eqb_eq, Nat.leb_le.
  unfold rp_iter. split.
  - intros (L & _ & F) x. assert (I1 : incl (r_list s) (r_list t)).
    { intros y I. apply (good_contains y H). now apply F. }
    split; [apply I1|]. apply NoDup_length_incl; [apply G|lia|assumption].
  - intros F. assert (L : length (r_list s) = length (r_list t)).
    { apply Permutation_length, NoDup_Permutation; [apply G|apply H|assumption]. }
    split; [assumption|]. split; [lia|]. intros x I. apply (good_contains x H). now apply F.
Qed.
End S.
