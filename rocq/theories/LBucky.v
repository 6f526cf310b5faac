(** C61, C62: buckyball enumeration. *)
From Verif Require Import Base LBase BaseQ MComb SSubst LComb SSym LSym MSogen LFilter SOcc SEnum LDup LLevels
  MGeneralCell SGeneralCell MBuckyTable MBucky SBucky.
Set Implicit Arguments.
Unset Strict Implicit.
Open Scope nat_scope.

Section Bucky.
Context (h : list Z -> Z) (n : nat) (G : list (list nat)).
Hypothesis HG : perm_group n G.

Lemma HPG p : In p G -> Permutation p (seq 0 n).
Proof. destruct HG as [H _]. apply H. Qed.

(** ** the filter *)
Lemma b_update_isoset_ok iso x perms : incl perms G -> length x = n ->
  b_update_isoset h iso x perms = Ok (rev (map (fun p => h (act_perm x p)) perms) ++ iso).
Proof.
  revert iso. induction perms as [|p perms IH]; intros iso I L; cbn; [reflexivity|].
  rewrite (take_idx_act (HPG (I p (or_introl eq_refl))) L). cbn. rewrite IH; [|intros q Hq; apply I; now right|assumption].
  cbn. now rewrite <- app_assoc.
Qed.

Lemma b_nodup_spec iso dup fin : (forall x, In x dup -> length x = n) ->
  exists out, b_nodup_loop h G iso dup fin = mkTrace out fin /\
    subseq out dup /\
    ForallOrdPairs (fun a b => ~ equivalent G a b) out /\
    (forall x, In x out -> ~ In (h x) iso) /\
    (forall x, In x dup -> In (h x) iso \/ In x out \/
       exists x' p, In x' out /\ In p G /\ h (act_perm x' p) = h x).
Proof.
  intros HL. revert iso. induction dup as [|c dup IH]; intros iso; cbn.
  - exists []. repeat split; try constructor; easy.
  - assert (HL' : forall x, In x dup -> length x = n) by (intros; apply HL; now right).
    specialize (IH HL'). destruct (memZ (h c) iso) eqn:Em.
    + apply memZ_In in Em. destruct (IH iso) as [out [E [H1 [H2 [H3 H4]]]]].
      exists out. rewrite E. split; [reflexivity|]. split; [now constructor|]. split; [assumption|]. split; [assumption|].
      intros d [<-|Hd]; auto.
    + apply memZ_false in Em.
      assert (Lc : length c = n) by (apply HL; now left).
      rewrite (b_update_isoset_ok iso (incl_refl G) Lc).
      set (iso' := _ ++ iso).
      assert (Hiso : forall z, In z iso' <-> In z iso \/ exists p, In p G /\ z = h (act_perm c p)).
      { intros z. unfold iso'. rewrite in_app_iff, <- in_rev, in_map_iff. split.
        - intros [[p [<- Hp]]|H]; eauto.
        - intros [H|[p [Hp ->]]]; eauto. }
      destruct (IH iso') as [out [E [H1 [H2 [H3 H4]]]]]. rewrite E. cbn.
      exists (c :: out). split; [reflexivity|]. split; [now constructor|]. split; [|split].
      * constructor; [|assumption]. apply Forall_forall. intros d Hd [p [Hp R]].
        apply (H3 d Hd). apply Hiso. right. exists p. split; [assumption|].
        f_equal. apply (reordered_fun R). apply (act_perm_reordered (HPG Hp) Lc).
      * intros d [<-|Hd]; [assumption|]. intros I. apply (H3 d Hd). apply Hiso. now left.
      * intros d [<-|Hd]; [right; left; now left|].
        destruct (H4 d Hd) as [K|[K|[c' [p [K1 [K2 K3]]]]]].
        -- apply Hiso in K. destruct K as [K|[p [Hp K]]]; [now left|].
           right; right. exists c, p. split; [now left|]. auto.
        -- right; left; now right.
        -- right; right. exists c', p. split; [now right|]. auto.
Qed.

Lemma b_filter dup fin : (forall x, In x dup -> length x = n) ->
  exists out, b_nodup_loop h G [] dup fin = mkTrace out fin /\ subseq out dup /\
    ForallOrdPairs (fun a b => ~ equivalent G a b /\ ~ equivalent G b a) out /\
    forall D : list Z -> Prop, (forall x, In x dup -> D x) -> collision_free h (images G D) ->
      forall x, In x dup -> exists y, In y out /\ equivalent G x y.
Proof.
  intros HL. destruct (b_nodup_spec [] fin HL) as [out [E [H1 [H2 [_ H4]]]]].
  exists out. split; [exact E|]. split; [exact H1|].
  assert (HL' : forall c, In c out -> length c = n) by (intros c Hc; apply HL; now apply (subseq_incl H1)).
  split.
  - clear - H2 HG HL'. induction H2 as [|a l Ha H IH]; constructor.
    + rewrite Forall_forall in *. intros b Hb. split; [auto|]. intros Eq. apply (Ha b Hb).
      apply (equivalent_sym HG); [apply HL'; now right|assumption].
    + apply IH. intros c Hc. apply HL'. now right.
  - intros D HD CF x Hx. destruct (H4 x Hx) as [[]|[K|[x' [p [K1 [K2 K3]]]]]].
    + exists x. split; [assumption|]. apply (equivalent_refl HG). now apply HL.
    + exists x'. split; [assumption|]. assert (Hx' : In x' dup) by now apply (subseq_incl H1).
      assert (R : reordered x' p (act_perm x' p)) by (apply act_perm_reordered with n; auto; now apply HPG).
      assert (Ex : act_perm x' p = x).
      { apply CF; [exists x'; split; [auto|exists p; auto]| |assumption].
        exists x. split; [auto|]. apply (equivalent_refl HG). now apply HL. }
      apply (equivalent_sym HG); [now apply HL|]. exists p. split; [assumption|]. now rewrite <- Ex.
Qed.

(** ** adding one speckle *)
Lemma b_add_inner_spec v x entries db : (forall i a, In (i, a) entries -> i < length x) ->
  exists l db', b_add_inner h x v db entries = (l, db', None) /\
    (forall c, In c l -> exists i a, In (i, a) entries /\ a <> v /\ c = upd x i v) /\
    (forall z, In z db' <-> In z db \/ exists c, In c l /\ h c = z) /\
    (forall i a, In (i, a) entries -> a <> v -> In (h (upd x i v)) db').
Proof.
  revert db. induction entries as [|[i a] es IH]; intros db HE; cbn [b_add_inner].
  - exists [], db. split; [reflexivity|]. split; [easy|]. split; [|easy]. intros z. split; [auto|]. intros [H|[c [[] _]]]; auto.
  - assert (HE' : forall i a, In (i, a) es -> i < length x) by (intros j b Hj; apply (HE j b); now right).
    destruct (Z.eqb_spec a v) as [Ea|Ea]; cbn [negb].
    + destruct (IH db HE') as [l [db' [E [H1 [H2 H3]]]]]. exists l, db'. split; [exact E|]. split; [|split].
      * intros c Hc. destruct (H1 c Hc) as [j [b [K1 K2]]]. exists j, b. split; [now right|assumption].
      * exact H2.
      * intros j b [K|K] C; [|eauto]. congruence.
    + rewrite set_nth_ok by (apply (HE i a); now left).
      destruct (memZ (h (upd x i v)) db) eqn:Em.
      * destruct (IH db HE') as [l [db' [E [H1 [H2 H3]]]]]. exists l, db'. split; [exact E|]. split; [|split].
        -- intros c Hc. destruct (H1 c Hc) as [j [b [K1 K2]]]. exists j, b. split; [now right|assumption].
        -- exact H2.
        -- intros j b [K|K] C; [|eauto]. injection K as <- <-. apply H2. left. now apply memZ_In.
      * destruct (IH (h (upd x i v) :: db) HE') as [l [db' [E [H1 [H2 H3]]]]].
        rewrite E. exists (upd x i v :: l), db'. split; [reflexivity|]. split; [|split].
        -- intros c [<-|Hc]; [exists i, a; split; [now left|auto]|].
           destruct (H1 c Hc) as [j [b [K1 K2]]]. exists j, b. split; [now right|assumption].
        -- intros z. rewrite H2. split.
           ++ intros [[<-|K]|[c [Hc K]]]; [right|now left|right].
              ** exists (upd x i v). split; [now left|reflexivity].
              ** exists c. split; [now right|assumption].
           ++ intros [K|[c [[<-|Hc] K]]]; [left; now right|left; left; exact K|right; eauto].
        -- intros j b [K|K] C; [|eauto]. injection K as <- <-. apply H2. left. now left.
Qed.

Lemma b_add_outer_spec v xs db fin :
  exists l, b_add_outer h v db xs fin = mkTrace l fin /\
    (forall c, In c l -> exists x i a, In x xs /\ nth_error x i = Some a /\ a <> v /\ c = upd x i v) /\
    (forall x i a, In x xs -> nth_error x i = Some a -> a <> v ->
       In (h (upd x i v)) db \/ exists c, In c l /\ h c = h (upd x i v)).
Proof.
  revert db. induction xs as [|x xs IH]; intros db; cbn [b_add_outer].
  - exists []. split; [reflexivity|]. split; easy.
  - destruct (@b_add_inner_spec v x (enumerate x) db) as [l [db' [E [H1 [H2 H3]]]]].
    { intros i a K. apply In_enumerate in K. apply nth_error_Some. congruence. }
    rewrite E. destruct (IH db') as [l' [E' [K1 K2]]].
    rewrite E'. cbn [items stop]. exists (l ++ l'). split; [reflexivity|]. split.
    + intros c Hc. apply in_app_iff in Hc. destruct Hc as [Hc|Hc].
      * destruct (H1 c Hc) as [i [a [A1 [A2 A3]]]]. exists x, i, a. apply In_enumerate in A1. split; [now left|auto].
      * destruct (K1 c Hc) as [y [i [a [A1 A2]]]]. exists y, i, a. split; [now right|assumption].
    + intros y i a [<-|Hy] N C.
      * assert (I : In (h (upd x i v)) db') by (apply H3 with a; [now apply In_enumerate|assumption]).
        apply H2 in I. destruct I as [I|[c [Hc I]]]; [now left|]. right. exists c. split; [apply in_app_iff; now left|assumption].
      * destruct (K2 y i a Hy N C) as [I|[c [Hc I]]].
        -- apply H2 in I. destruct I as [I|[c [Hc I]]]; [now left|]. right. exists c. split; [apply in_app_iff; now left|assumption].
        -- right. exists c. split; [apply in_app_iff; now right|assumption].
Qed.

(** ** one level *)
Context (init : list Z) (v : Z).
Hypothesis Li : length init = n.
Let P := site_not init v.

Lemma CO_b k x i a : k_fold init P k v x -> nth_error x i = Some a -> (cond_unitary v i a = true <-> P i /\ a <> v).
Proof.
  intros [S [_ [Lx Hx]]] Ha. unfold cond_unitary, P, site_not. rewrite negb_true_iff, Z.eqb_neq. split.
  - intros N. split; [|congruence]. assert (Hi : i < length x) by (apply nth_error_Some; congruence). rewrite Lx in Hi.
    destruct (nth_error init i) as [b|] eqn:Hb; [|apply nth_error_None in Hb; lia].
    exists b. split; [reflexivity|]. destruct (Hx i b Hb) as [E1 E2].
    destruct (in_dec Nat.eq_dec i S) as [I|I]; [rewrite (E1 I) in Ha|rewrite (E2 I) in Ha]; congruence.
  - intros [_ N]. congruence.
Qed.
Lemma PN_b i : P i -> site_not init v i.
Proof. auto. Qed.

Lemma b_kfold_add k x i a : k_fold init P k v x -> nth_error x i = Some a -> a <> v -> k_fold init P (S k) v (upd x i v).
Proof.
  intros Hk Ha N. apply (kfold_add PN_b CO_b (k := k) (a := a)); [assumption|assumption|].
  unfold cond_unitary. apply negb_true_iff, Z.eqb_neq. congruence.
Qed.

Definition b_sound k (t : trace (list Z)) := Forall (k_fold init P k v) (items t) /\ stop t = None /\
  ForallOrdPairs (fun a b => ~ equivalent G a b /\ ~ equivalent G b a) (items t).

Definition b_step t := b_nodup_loop h G [] (items (b_add_outer h v [] (items t) (stop t)))
  (stop (b_add_outer h v [] (items t) (stop t))).

Lemma b_step_sound k t : b_sound k t -> b_sound (S k) (b_step t).
Proof.
  intros [F [St _]]. rewrite Forall_forall in F. unfold b_step.
  destruct (b_add_outer_spec v (items t) [] (stop t)) as [l [El [H1 _]]]. rewrite El. cbn [items stop].
  assert (HD : forall c, In c l -> k_fold init P (S k) v c).
  { intros c Hc. destruct (H1 c Hc) as [x [i [a [A1 [A2 [A3 ->]]]]]]. eapply b_kfold_add; eauto. }
  destruct (b_filter (dup := l) (stop t)) as [out [E [S1 [S2 _]]]].
  { intros x Hx. rewrite <- Li. eapply kfold_length; eauto. }
  unfold b_sound. rewrite E. cbn [items stop]. split; [|split; [exact St|exact S2]].
  apply Forall_forall. intros x Hx. apply HD. now apply (subseq_incl S1).
Qed.

Lemma b_step_transversal k t : b_sound k t ->
  transversal (equivalent G) (k_fold init P k v) (items t) ->
  collision_free h (images G (k_fold init P (S k) v)) ->
  transversal (equivalent G) (k_fold init P (S k) v) (items (b_step t)).
Proof.
  intros Sd [_ [T2 _]] CF. pose proof (b_step_sound Sd) as [F' [_ S2']]. split; [exact F'|]. split; [|exact S2'].
  destruct Sd as [F [St _]]. rewrite Forall_forall in F. unfold b_step in *.
  destruct (b_add_outer_spec v (items t) [] (stop t)) as [l [El [H1 H2]]]. rewrite El. cbn [items stop].
  assert (HD : forall c, In c l -> k_fold init P (S k) v c).
  { intros c Hc. destruct (H1 c Hc) as [x [i [a [A1 [A2 [A3 ->]]]]]]. eapply b_kfold_add; eauto. }
  assert (LD : forall k x, k_fold init P k v x -> length x = n) by (intros ? x Hx; rewrite <- Li; eapply kfold_length; eauto).
  destruct (b_filter (dup := l) (stop t)) as [out [E [S1 [_ S3]]]]; [intros x Hx; eauto|].
  rewrite E. cbn [items]. specialize (S3 _ HD CF).
  intros x Hx. destruct (kfold_remove PN_b Hx) as [i [b [Pi [Xi [Bi [Nb Hx']]]]]].
  assert (Lx : length x = n) by eauto.
  assert (Hi : i < n) by (rewrite <- Li; apply nth_error_Some; congruence).
  destruct (T2 (upd x i b) Hx') as [y [Hy [p [Hp R]]]].
  pose proof (HPG Hp) as Pp. destruct (perm_surj Pp Hi) as [j [Hj Ej]].
  assert (Yj : nth_error y j = Some b).
  { rewrite (reordered_nth j R), Ej, nth_error_upd by lia. now rewrite Nat.eqb_refl. }
  assert (Eq : equivalent G x (upd y j v)).
  { exists p. split; [assumption|]. apply reordered_intro.
    - rewrite upd_length. apply (reordered_length R).
    - intros m q Em. rewrite nth_error_upd by (rewrite (reordered_length R), (perm_length Pp); assumption).
      destruct (Nat.eqb_spec j m) as [<-|Njm].
      + rewrite Ej in Em. injection Em as <-. eauto.
      + rewrite (reordered_nth m R), Em, nth_error_upd by lia.
        destruct (Nat.eqb_spec i q) as [<-|Niq]; [exfalso; apply Njm; apply (perm_inj Pp Ej Em)|].
        destruct (nth_error x q) as [a|] eqn:Eq; [eauto|]. exfalso. apply nth_error_None in Eq.
        pose proof (perm_lt Pp Em). lia. }
  assert (KY : k_fold init P (S k) v (upd y j v)) by (apply b_kfold_add with b; auto).
  destruct (H2 y j b Hy Yj Nb) as [[]|[c [Hc Hh]]].
  assert (Ec : c = upd y j v).
  { apply CF; [| |exact Hh].
    - exists c. split; [auto|]. apply (equivalent_refl HG). eauto.
    - exists (upd y j v). split; [auto|]. apply (equivalent_refl HG). eauto. }
  subst c. destruct (S3 _ Hc) as [z [Hz Ez]]. exists z. split; [assumption|].
  apply (equivalent_trans HG) with (upd y j v); auto.
Qed.

Lemma b_levels_sound count k t j lt : b_sound k t -> nth_error (b_levels b_step count t) j = Some lt -> b_sound (k + S j) lt.
Proof.
  revert k t j. induction count as [|count IH]; intros k t j St; cbn [b_levels]; [destruct j; discriminate|].
  apply b_step_sound in St. destruct j as [|j]; cbn.
  - intros E. injection E as <-. now rewrite Nat.add_1_r.
  - intros E. replace (k + S (S j)) with (S k + S j) by lia. eapply IH; eauto.
Qed.

Lemma b_levels_transversal count k t j lt : b_sound k t ->
  transversal (equivalent G) (k_fold init P k v) (items t) ->
  (forall m, m <= k + count -> collision_free h (images G (k_fold init P m v))) ->
  nth_error (b_levels b_step count t) j = Some lt ->
  transversal (equivalent G) (k_fold init P (k + S j) v) (items lt).
Proof.
  revert k t j. induction count as [|count IH]; intros k t j S1 T CF; cbn [b_levels]; [destruct j; discriminate|].
  assert (T2 := b_step_transversal S1 T (CF (S k) ltac:(lia))). pose proof (b_step_sound S1) as S3.
  destruct j as [|j]; cbn.
  - intros E. injection E as <-. now rewrite Nat.add_1_r.
  - intros E. replace (k + S (S j)) with (S k + S j) by lia. eapply IH; eauto. intros m Hm. apply CF. lia.
Qed.

Lemma b_init_sound : b_sound 0 (mkTrace [init] None).
Proof.
  split; [constructor; [now apply kfold_zero|constructor]|]. split; [reflexivity|]. constructor; [constructor|constructor].
Qed.
Lemma b_init_transversal : transversal (equivalent G) (k_fold init P 0 v) [init].
Proof.
  split; [constructor; [now apply kfold_zero|constructor]|]. split.
  - intros x Hx. apply kfold_zero in Hx. subst x. exists init. split; [now left|]. now apply (equivalent_refl HG).
  - constructor; [constructor|constructor].
Qed.
End Bucky.

Lemma b_levels_length step count t : length (b_levels step count t) = count.
Proof. revert t; induction count; intros t; cbn; auto. Qed.

Lemma b_speckle_num_spec s sp : b_speckle_num s sp = count_occ Z.eq_dec (b_numbers s) sp.
Proof.
  unfold b_speckle_num.
  assert (E : forall l k, fold_left (fun n x => if Z.eqb x sp then S n else n) l k = k + count_occ Z.eq_dec l sp).
  { induction l as [|a l IH]; intros k; cbn; [lia|]. rewrite IH.
    destruct (Z.eqb_spec a sp), (Z.eq_dec a sp); try contradiction; lia. }
  now rewrite E.
Qed.

Section Final.
Context (h : list Z -> Z) (s : bucky) (n : nat) (sp : Z).
Hypothesis HG : perm_group n (b_sym_perm s).
Hypothesis Ls : length (b_numbers s) = n.
Let init := b_numbers s.
Let D k := k_fold init (site_not init sp) k sp.

Lemma b_all_length n_max : length (b_all_speckle_gen h s n_max sp) = S (Z.to_nat (n_max - Z.of_nat (count_occ Z.eq_dec init sp))).
Proof. unfold b_all_speckle_gen. cbn [length]. now rewrite b_levels_length, b_speckle_num_spec. Qed.

Lemma b_all_sound n_max k t : nth_error (b_all_speckle_gen h s n_max sp) k = Some t ->
  Forall (D k) (items t) /\ stop t = None /\
  ForallOrdPairs (fun a b => ~ equivalent (b_sym_perm s) a b /\ ~ equivalent (b_sym_perm s) b a) (items t).
Proof.
  unfold b_all_speckle_gen. destruct k as [|k]; cbn [nth_error].
  - intros E. injection E as <-. apply b_init_sound.
  - intros E. apply (b_levels_sound HG Ls (k := 0) (t := mkTrace [init] None)) in E; [exact E|apply b_init_sound].
Qed.

Lemma b_all_transversal n_max k t :
  (forall k, k < length (b_all_speckle_gen h s n_max sp) -> collision_free h (images (b_sym_perm s) (D k))) ->
  nth_error (b_all_speckle_gen h s n_max sp) k = Some t ->
  transversal (equivalent (b_sym_perm s)) (D k) (items t).
Proof.
  rewrite b_all_length. intros CF. unfold b_all_speckle_gen. rewrite b_speckle_num_spec. fold init. destruct k as [|k]; cbn [nth_error].
  - intros E. injection E as <-. apply (@b_init_transversal n); assumption.
  - intros E. apply (b_levels_transversal HG Ls (k := 0) (t := mkTrace [init] None)) in E; [exact E|apply b_init_sound| |].
    + apply (@b_init_transversal n); assumption.
    + intros m Hm. apply CF. fold init. lia.
Qed.
End Final.
