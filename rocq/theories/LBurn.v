(** Burnside's lemma for the transversals of the enumerations. *)
From Verif Require Import Base LBase BaseQ SGeneralCell SSym LSym SBurn LFilter LHnf.
Set Implicit Arguments.
Unset Strict Implicit.
Open Scope nat_scope.

Lemma rel_le A B (R : A -> B -> Prop) (la : list A) : NoDup la -> forall lb : list B,
  (forall a, In a la -> exists b, In b lb /\ R a b) ->
  (forall a a' b, In a la -> In a' la -> R a b -> R a' b -> a = a') -> length la <= length lb.
Proof.
  induction 1 as [|a la N ND IH]; intros lb HT HI; cbn; [lia|].
  destruct (HT a) as (b & Hb & Rab); [now left|]. apply in_split in Hb. destruct Hb as (l1 & l2 & ->).
  assert (length la <= length (l1 ++ l2)) as Le.
  { apply IH.
    - intros a' Ha'. destruct (HT a') as (b' & Hb' & Rab'); [now right|]. exists b'. split; [|assumption].
      apply in_app_iff in Hb'. apply in_app_iff. destruct Hb' as [?|[<-|?]]; auto.
      exfalso. apply N. assert (a = a') as -> by (apply (HI a a' b); auto; [now left|now right]). assumption.
    - intros x y z Hx Hy. apply HI; now right. }
  rewrite app_length in *. cbn. lia.
Qed.

Lemma lists_once_length A (D : A -> Prop) l l' : lists_once D l -> lists_once D l' -> length l = length l'.
Proof.
  intros [N H] [N' H']. apply Nat.le_antisymm; apply NoDup_incl_length; auto; intros x Hx.
  - now apply H', H.
  - now apply H, H'.
Qed.

Definition comp (p q : list nat) : list nat := map (fun j => nth j p 0) q.

Section B.
Context (n : nat) (G : list (list nat)).
Hypothesis HG : perm_group n G.
Let Gs := nodup (list_eq_dec Nat.eq_dec) G.

Lemma Gs_once : lists_once (fun p => In p G) Gs.
Proof. split; [apply NoDup_nodup|]. intros x. apply nodup_In. Qed.

Lemma G_perm p : In p G -> Permutation p (seq 0 n).
Proof. apply HG. Qed.

Lemma act_comp x p q : Permutation p (seq 0 n) -> Permutation q (seq 0 n) ->
  act_perm x (comp p q) = act_perm (act_perm x p) q.
Proof.
  intros Pp Pq. unfold act_perm, comp. rewrite map_map. apply map_ext_in. intros j Hj.
  apply (Permutation_in _ Pq), in_seq in Hj.
  rewrite (@nth_indep _ (map (fun i => nth i x 0%Z) p) j 0%Z (nth 0 x 0%Z)) by (rewrite map_length, (perm_length Pp); lia).
  symmetry. apply (map_nth (fun i => nth i x 0%Z)).
Qed.
Lemma comp_assoc p q r : Permutation p (seq 0 n) -> Permutation q (seq 0 n) -> Permutation r (seq 0 n) ->
  comp (comp p q) r = comp p (comp q r).
Proof.
  intros Pp Pq Pr. unfold comp. rewrite map_map. apply map_ext_in. intros j Hj.
  apply (Permutation_in _ Pr), in_seq in Hj.
  rewrite (@nth_indep _ (map (fun i => nth i p 0) q) j 0 (nth 0 p 0)) by (rewrite map_length, (perm_length Pq); lia).
  apply (map_nth (fun i => nth i p 0)).
Qed.
Lemma comp_nth p q i j : nth_error q i = Some j -> nth_error (comp p q) i = Some (nth j p 0).
Proof. intros E. unfold comp. rewrite nth_error_map, E. reflexivity. Qed.

Lemma comp_in p q : In p G -> In q G -> In (comp p q) G.
Proof.
  intros Hp Hq. destruct HG as [HP [_ [HC _]]]. destruct (HC p q Hp Hq) as (r & Hr & E).
  assert (comp p q = r) as ->; [|assumption].
  assert (L : length r = length q) by (rewrite (perm_length (HP r Hr)), (perm_length (HP q Hq)); reflexivity).
  apply list_ext. intros i. destruct (nth_error q i) as [j|] eqn:F.
  - rewrite (comp_nth p F), (E i j F).
    symmetry. apply nth_error_nth'. rewrite (perm_length (HP p Hp)). apply (perm_lt (HP q Hq) F).
  - apply nth_error_None in F. transitivity (@None nat); [|symmetry]; apply nth_error_None; [|lia].
    unfold comp. rewrite map_length. assumption.
Qed.

Lemma comp_inv p : In p G -> exists r, In r G /\ comp p r = seq 0 n /\ comp r p = seq 0 n.
Proof.
  intros Hp. destruct HG as [HP [_ [_ HI]]]. destruct (HI p Hp) as (r & Hr & E). exists r. split; [assumption|].
  assert (Lp := perm_length (HP p Hp)). assert (Lr := perm_length (HP r Hr)).
  assert (E' : forall i j, nth_error r i = Some j -> nth_error p j = Some i).
  { intros i j F. destruct (perm_surj (HP p Hp) (j := i)) as (k & Hk & Ek).
    - rewrite <- Lr. apply nth_error_Some. congruence.
    - rewrite (E _ _ Ek) in F. now injection F as <-. }
  split; apply list_ext; intros i; rewrite nth_error_seq, Nat.add_0_l.
  - destruct (nth_error r i) as [j|] eqn:F.
    + rewrite (comp_nth p F). assert (i < n) by (rewrite <- Lr; apply nth_error_Some; congruence).
      destruct (Nat.ltb_spec i n); [|lia]. f_equal. apply nth_error_nth. auto.
    + apply nth_error_None in F. destruct (Nat.ltb_spec i n); [lia|]. apply nth_error_None. unfold comp. rewrite map_length. lia.
  - destruct (nth_error p i) as [j|] eqn:F.
    + rewrite (comp_nth r F). assert (i < n) by (rewrite <- Lp; apply nth_error_Some; congruence).
      destruct (Nat.ltb_spec i n); [|lia]. f_equal. apply nth_error_nth. auto.
    + apply nth_error_None in F. destruct (Nat.ltb_spec i n); [lia|]. apply nth_error_None. unfold comp. rewrite map_length. lia.
Qed.

Lemma comp_id_l p : Permutation p (seq 0 n) -> comp (seq 0 n) p = p.
Proof.
  intros Pp. unfold comp. rewrite <- (map_id p) at 2. apply map_ext_in. intros j Hj.
  apply (Permutation_in _ Pp), in_seq in Hj. rewrite seq_nth; lia.
Qed.

Lemma seq_perm : Permutation (seq 0 n) (seq 0 n).
Proof. apply Permutation_refl. Qed.
Lemma act_id (x : list Z) : length x = n -> act_perm x (seq 0 n) = x.
Proof. intros L. apply (reordered_fun (act_perm_reordered seq_perm L)). rewrite <- L. apply reordered_id. Qed.

Lemma act_iff x p y : In p G -> length x = n -> (reordered x p y <-> act_perm x p = y).
Proof.
  intros Hp L. pose proof (act_perm_reordered (G_perm Hp) L) as R. split.
  - intros R'. apply (reordered_fun R R').
  - intros <-. assumption.
Qed.

Context (D : list Z -> Prop) (out : list (list Z)).
Hypothesis HL : forall x, D x -> length x = n.
Hypothesis HC : forall x y, D x -> equivalent G x y -> D y.
Hypothesis T : transversal (equivalent G) D out.

(** a permutation carrying [r] onto [x] *)
Definition to (r x : list Z) : list nat :=
  match find (fun p => if list_eq_dec Z.eq_dec (act_perm r p) x then true else false) Gs with Some p => p | None => [] end.
Lemma to_ok r x : length r = n -> equivalent G r x -> In (to r x) G /\ act_perm r (to r x) = x.
Proof.
  intros L (p & Hp & R). apply (act_iff x Hp L) in R. unfold to.
  destruct (find _ Gs) as [q|] eqn:F.
  - apply find_some in F. destruct F as [Hq E]. apply nodup_In in Hq. split; [assumption|].
    destruct (list_eq_dec Z.eq_dec (act_perm r q) x); [assumption|discriminate].
  - exfalso. apply (find_none _ _ F p) in R || idtac.
    assert (In p Gs) as I by (now apply nodup_In). pose proof (find_none _ _ F p I) as N. cbn in N.
    destruct (list_eq_dec Z.eq_dec (act_perm r p) x); [discriminate|contradiction].
Qed.

Let Ds := nodup (list_eq_dec Z.eq_dec) (flat_map (fun r => map (act_perm r) Gs) out).
Let Fs := filter (fun f => if list_eq_dec Z.eq_dec (act_perm (snd f) (fst f)) (snd f) then true else false) (list_prod Gs Ds).

Lemma out_D r : In r out -> D r.
Proof. destruct T as [F _]. rewrite Forall_forall in F. apply F. Qed.

Lemma Ds_once : lists_once D Ds.
Proof.
  split; [apply NoDup_nodup|]. intros x. unfold Ds. rewrite nodup_In, in_flat_map. split.
  - intros (r & Hr & Hx). apply in_map_iff in Hx. destruct Hx as (p & <- & Hp). apply nodup_In in Hp.
    apply HC with r; [now apply out_D|]. exists p. split; [assumption|]. apply act_perm_reordered with n; auto using G_perm, out_D.
  - intros Dx. destruct T as [_ [C _]]. destruct (C x Dx) as (r & Hr & E). exists r. split; [assumption|].
    apply (equivalent_sym HG (HL Dx)) in E. destruct E as (p & Hp & R). apply in_map_iff. exists p.
    split; [|now apply nodup_In]. apply act_iff; auto using out_D.
Qed.

Lemma NoDup_prod A B (a : list A) (b : list B) : NoDup a -> NoDup b -> NoDup (list_prod a b).
Proof.
  intros Ha Hb. induction Ha as [|x a N Ha IH]; cbn; [constructor|]. apply NoDup_app_disj; auto.
  - apply FinFun.Injective_map_NoDup; [|assumption]. intros u v [= ->]. reflexivity.
  - intros [u v] I J. apply in_map_iff in I. destruct I as (w & [= <- <-] & _). apply in_prod_iff in J. tauto.
Qed.

Lemma Fs_once : lists_once (fixed_pair G D) Fs.
Proof.
  split.
  - apply NoDup_filter, NoDup_prod; apply NoDup_nodup.
  - intros [p x]. unfold Fs. rewrite filter_In, in_prod_iff. unfold fixed_pair. cbn [fst snd].
    rewrite (proj2 Ds_once x), (proj2 Gs_once p). split.
    + intros [[Hp Dx] E]. split; [assumption|]. split; [assumption|]. apply act_iff; auto.
      destruct (list_eq_dec Z.eq_dec (act_perm x p) x); [assumption|discriminate].
    + intros (Hp & Dx & R). split; [auto|]. apply act_iff in R; auto.
      destruct (list_eq_dec Z.eq_dec (act_perm x p) x); [reflexivity|contradiction].
Qed.

Lemma same_rep r r' x : In r out -> In r' out -> equivalent G r x -> equivalent G r' x -> r = r'.
Proof.
  intros Hr Hr' E E'. destruct T as [_ [_ FO]].
  assert (Q : equivalent G r r').
  { apply (equivalent_trans HG (HL (out_D Hr)) E). apply (equivalent_sym HG (HL (out_D Hr')) E'). }
  destruct (ForallOrdPairs_In FO _ _ Hr Hr') as [H|[H|H]]; [assumption|exfalso; now apply H|exfalso; now apply H].
Qed.
Lemma FOP_NoDup l : Forall D l -> ForallOrdPairs (fun a b => ~ equivalent G a b /\ ~ equivalent G b a) l -> NoDup l.
Proof.
  clear T. intros F FO. induction FO as [|a l Ha FO IH]; constructor; inversion F; subst; auto.
  intros I. rewrite Forall_forall in Ha. destruct (Ha a I) as [N _]. apply N. apply (equivalent_refl HG). auto.
Qed.
Lemma out_NoDup : NoDup out.
Proof. destruct T as (F & _ & FO). now apply FOP_NoDup. Qed.

Lemma burnside : burnside_count G D (length out).
Proof.
  exists Gs, Fs. split; [apply Gs_once|]. split; [apply Fs_once|].
  rewrite Nat.mul_comm, <- prod_length. apply Nat.le_antisymm.
  - apply (rel_le (R := fun rg px => snd px = act_perm (fst rg) (snd rg) /\ comp (to (fst rg) (snd px)) (fst px) = snd rg)).
    + apply NoDup_prod; [apply out_NoDup|apply NoDup_nodup].
    + intros [r g] I. apply in_prod_iff in I. destruct I as [Hr Hg]. apply nodup_In in Hg. cbn [fst snd].
      assert (Lr := HL (out_D Hr)).
      assert (E : equivalent G r (act_perm r g)).
      { exists g. split; [assumption|]. apply act_perm_reordered with n; auto using G_perm. }
      destruct (to_ok Lr E) as [Ht Et]. set (x := act_perm r g) in *. set (t := to r x) in *.
      destruct (comp_inv Ht) as (ti & Hti & E1 & E2). exists (comp ti g, x). cbn [fst snd].
      split; [|split; [reflexivity|]].
      * apply (proj2 Fs_once). unfold fixed_pair. cbn [fst snd]. assert (Dx : D x) by (apply HC with r; auto using out_D).
        split; [now apply comp_in|]. split; [assumption|]. apply act_iff; [now apply comp_in|auto|].
        rewrite act_comp by auto using G_perm.
        assert (act_perm x ti = r) as ->; [|reflexivity].
        transitivity (act_perm (act_perm r t) ti); [now rewrite Et|].
        rewrite <- (act_comp r (G_perm Ht) (G_perm Hti)), E1. now apply act_id.
      * fold t. rewrite <- (comp_assoc (G_perm Ht) (G_perm Hti) (G_perm Hg)), E1. apply comp_id_l. now apply G_perm.
    + intros [r g] [r' g'] [p x] I I'. apply in_prod_iff in I, I'. destruct I as [Hr Hg], I' as [Hr' Hg'].
      apply nodup_In in Hg, Hg'. cbn [fst snd].
      intros [Ex Eg] [Ex' Eg'].
      assert (r = r') as ->.
      { apply same_rep with x; auto.
        - exists g. split; [assumption|]. apply act_iff; auto using out_D.
        - exists g'. split; [assumption|]. apply act_iff; auto using out_D. }
      congruence.
  - apply (rel_le (R := fun px rg => In (fst rg) out /\ equivalent G (fst rg) (snd px) /\ snd rg = comp (to (fst rg) (snd px)) (fst px))).
    + apply Fs_once.
    + intros [p x] I. apply (proj2 Fs_once) in I. destruct I as (Hp & Dx & R). cbn [fst snd] in *.
      destruct T as [_ [C _]]. destruct (C x Dx) as (r & Hr & E). apply (equivalent_sym HG (HL Dx)) in E.
      destruct (to_ok (HL (out_D Hr)) E) as [Ht Et].
      exists (r, comp (to r x) p). cbn [fst snd]. split; [|auto]. apply in_prod_iff. split; [assumption|]. apply nodup_In. now apply comp_in.
    + intros [p x] [p' x'] [r g] I I'. apply (proj2 Fs_once) in I, I'. destruct I as (Hp & Dx & R), I' as (Hp' & Dx' & R').
      cbn [fst snd] in *. intros (Hr & E & Eg) (_ & E' & Eg').
      assert (Lr := HL (out_D Hr)).
      destruct (to_ok Lr E) as [Ht Et]. destruct (to_ok Lr E') as [Ht' Et'].
      apply act_iff in R; auto. apply act_iff in R'; auto.
      assert (x = act_perm r g) as X by (rewrite Eg, act_comp, Et by auto using G_perm; auto).
      assert (x' = act_perm r g) as X' by (rewrite Eg', act_comp, Et' by auto using G_perm; auto).
      assert (x = x') as <- by congruence. f_equal.
      destruct (comp_inv Ht) as (ti & Hti & _ & E2).
      rewrite <- (comp_id_l (G_perm Hp)), <- (comp_id_l (G_perm Hp')), <- E2, !comp_assoc by auto using G_perm. congruence.
Qed.

Lemma burnside_lower Xs : lists_once D Xs -> exists Gs', lists_once (fun p => In p G) Gs' /\ length Xs <= length Gs' * length out.
Proof.
  intros O. exists Gs. split; [apply Gs_once|]. rewrite (lists_once_length O Ds_once).
  assert (length Ds <= length (flat_map (fun r => map (act_perm r) Gs) out)) as Le.
  { apply NoDup_incl_length; [apply NoDup_nodup|]. intros x Hx. now apply nodup_In in Hx. }
  assert (E : length (flat_map (fun r => map (act_perm r) Gs) out) = length out * length Gs).
  { clear. induction out as [|r l IH]; cbn; [reflexivity|]. rewrite app_length, map_length, IH. reflexivity. }
  lia.
Qed.
End B.
