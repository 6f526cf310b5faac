(** The duplicate filter gen_2nodup_gen. *)
From Verif Require Import Base LBase BaseQ MGeneralCell SGeneralCell LGeneralCell MComb SSubst LComb SSym LSym MSogen.
Set Implicit Arguments.
Unset Strict Implicit.
Open Scope nat_scope.

Definition act_perm (x : list Z) (p : list nat) : list Z := map (fun i => nth i x 0%Z) p.

Lemma take_idx_act x p n : Permutation p (seq 0 n) -> length x = n -> take_idx x p = Ok (act_perm x p).
Proof.
  intros P L. apply take_idx_ok. intros i Hi. apply (Permutation_in _ P), in_seq in Hi. lia.
Qed.

Lemma act_perm_reordered x p n : Permutation p (seq 0 n) -> length x = n -> reordered x p (act_perm x p).
Proof. intros P L. apply take_idx_reordered. eapply take_idx_act; eauto. Qed.

Lemma act_perm_length x p n : Permutation p (seq 0 n) -> length (act_perm x p) = n.
Proof. intros P. unfold act_perm. rewrite map_length. now apply perm_length. Qed.

Section Filter.
Context (h : list Z -> Z) (n : nat) (G : list (list nat)).
Hypothesis HP : forall p, In p G -> Permutation p (seq 0 n).

Lemma update_isoset_ok iso x perms : incl perms G -> length x = n ->
  update_isoset h iso x perms = Ok (rev (map (fun p => h (act_perm x p)) perms) ++ iso).
Proof.
  revert iso. induction perms as [|p perms IH]; intros iso I L; cbn; [reflexivity|].
  rewrite (take_idx_act (HP (I p (or_introl eq_refl))) L). cbn. rewrite IH; [|intros q Hq; apply I; now right|assumption].
  cbn. now rewrite <- app_assoc.
Qed.

Lemma update_isoset_In iso x z : length x = n -> exists iso', update_isoset h iso x G = Ok iso' /\
  (In z iso' <-> In z iso \/ exists p, In p G /\ z = h (act_perm x p)).
Proof.
  intros L. eexists. split; [apply update_isoset_ok; [apply incl_refl|assumption]|].
  rewrite in_app_iff, <- in_rev, in_map_iff. split.
  - intros [[p [<- Hp]]|H]; eauto.
  - intros [H|[p [Hp ->]]]; eauto.
Qed.

Lemma nodup_loop_spec act iso cells fin :
  (forall c, In c cells -> length (numbers c) = n) ->
  (forall c, numbers (act c) = numbers c) ->
  exists out, nodup_loop h G act iso cells fin = mkTrace out fin /\
    subseq out cells /\
    ForallOrdPairs (fun a b => ~ equivalent G (numbers a) (numbers b)) out /\
    (forall c, In c out -> ~ In (h (numbers c)) iso) /\
    (forall c, In c cells -> In (h (numbers c)) iso \/ In c out \/
       exists c' p, In c' out /\ In p G /\ h (act_perm (numbers c') p) = h (numbers c)).
Proof.
  intros HL HA. revert iso. induction cells as [|c cells IH]; intros iso; cbn.
  - exists []. repeat split; try constructor; easy.
  - assert (HL' : forall c, In c cells -> length (numbers c) = n) by (intros; apply HL; now right).
    specialize (IH HL'). unfold cell_id. destruct (memZ (h (numbers c)) iso) eqn:Em.
    + apply memZ_In in Em. destruct (IH iso) as [out [E [H1 [H2 [H3 H4]]]]].
      exists out. rewrite E. split; [reflexivity|]. split; [now constructor|]. split; [assumption|]. split; [assumption|].
      intros d [<-|Hd]; auto.
    + apply memZ_false in Em. rewrite HA.
      assert (Lc : length (numbers c) = n) by (apply HL; now left).
      rewrite (update_isoset_ok iso (incl_refl G) Lc).
      set (iso' := _ ++ iso).
      assert (Hiso : forall z, In z iso' <-> In z iso \/ exists p, In p G /\ z = h (act_perm (numbers c) p)).
      { intros z. unfold iso'. rewrite in_app_iff, <- in_rev, in_map_iff. split.
        - intros [[p [<- Hp]]|H]; eauto.
        - intros [H|[p [Hp ->]]]; eauto. }
      destruct (IH iso') as [out [E [H1 [H2 [H3 H4]]]]]. rewrite E. cbn.
      exists (c :: out). split; [reflexivity|]. split; [now constructor|]. split; [|split].
      * constructor; [|assumption]. apply Forall_forall. intros d Hd [p [Hp R]].
        apply (H3 d Hd). apply Hiso. right. exists p. split; [assumption|].
        f_equal. apply (reordered_fun R). apply (act_perm_reordered (HP Hp) Lc).
      * intros d [<-|Hd]; [assumption|]. intros I. apply (H3 d Hd). apply Hiso. now left.
      * intros d [<-|Hd]; [right; left; now left|].
        destruct (H4 d Hd) as [K|[K|[c' [p [K1 [K2 K3]]]]]].
        -- apply Hiso in K. destruct K as [K|[p [Hp K]]]; [now left|].
           right; right. exists c, p. split; [now left|]. auto.
        -- right; left; now right.
        -- right; right. exists c', p. split; [now right|]. auto.
Qed.
End Filter.

Lemma subseq_map A B (f : A -> B) a l : subseq a l -> subseq (map f a) (map f l).
Proof. induction 1; cbn; now constructor. Qed.

(** C18: never two equivalent structures, whatever the hash. *)
Lemma C18_lemma h o n dup : perm_group n (sym_perm o) ->
  (forall c, In c (items dup) -> length (numbers c) = n) ->
  subseq (items (gen_2nodup_gen h o dup)) (items dup) /\
  stop (gen_2nodup_gen h o dup) = stop dup /\
  ForallOrdPairs (fun a b => ~ equivalent (sym_perm o) (numbers a) (numbers b) /\
                             ~ equivalent (sym_perm o) (numbers b) (numbers a))
    (items (gen_2nodup_gen h o dup)).
Proof.
  intros HG HL. pose proof HG as [HP _]. unfold gen_2nodup_gen, gen_2nodup_gen_with.
  destruct (nodup_loop_spec h HP [] (stop dup) HL (fun c => eq_refl)) as [out [E [H1 [H2 _]]]].
  rewrite E. cbn. split; [assumption|]. split; [reflexivity|].
  assert (HL' : forall c, In c out -> length (numbers c) = n) by (intros c Hc; apply HL; now apply (subseq_incl H1)).
  clear - H2 HG HL'. induction H2 as [|a l Ha H IH]; constructor.
  - rewrite Forall_forall in *. intros b Hb. split; [auto|]. intros Eq. apply (Ha b Hb).
    apply (equivalent_sym HG); [apply HL'; now right|assumption].
  - apply IH. intros c Hc. apply HL'. now right.
Qed.

(** Completeness of the filter on a stream. *)
Lemma filter_complete h o n dup (D : list Z -> Prop) : perm_group n (sym_perm o) ->
  (forall c, In c (items dup) -> length (numbers c) = n /\ D (numbers c)) ->
  (forall x y, D x -> equivalent (sym_perm o) x y -> D y) ->
  collision_free h D ->
  forall c, In c (items dup) -> exists c', In c' (items (gen_2nodup_gen h o dup)) /\
    equivalent (sym_perm o) (numbers c) (numbers c').
Proof.
  intros HG HD HC CF c Hc. pose proof HG as [HP _].
  assert (HL : forall c, In c (items dup) -> length (numbers c) = n) by (intros d Hd; now apply HD).
  unfold gen_2nodup_gen, gen_2nodup_gen_with.
  destruct (nodup_loop_spec h HP [] (stop dup) HL (fun c => eq_refl)) as [out [E [H1 [H2 [_ H4]]]]].
  rewrite E. cbn. destruct (H4 c Hc) as [[]|[K|[c' [p [K1 [K2 K3]]]]]].
  - exists c. split; [assumption|]. apply (equivalent_refl HG). now apply HL.
  - exists c'. split; [assumption|]. assert (Hc' : In c' (items dup)) by now apply (subseq_incl H1).
    assert (R : reordered (numbers c') p (act_perm (numbers c') p)) by (apply act_perm_reordered with n; auto).
    assert (EqP : equivalent (sym_perm o) (numbers c') (act_perm (numbers c') p)) by (exists p; auto).
    assert (Ex : act_perm (numbers c') p = numbers c).
    { apply CF; [|now apply HD|assumption]. apply HC with (numbers c'); [now apply HD|assumption]. }
    rewrite Ex in EqP. apply (equivalent_sym HG); [now apply HL|assumption].
Qed.

(** C19 in general form: a stream of members of [D] that meets every class of [D]. *)
Lemma filter_transversal h o n dup (D : list Z -> Prop) : perm_group n (sym_perm o) ->
  (forall x, D x -> length x = n) ->
  (forall c, In c (items dup) -> D (numbers c)) ->
  (forall x y, D x -> equivalent (sym_perm o) x y -> D y) ->
  collision_free h D ->
  (forall x, D x -> exists c, In c (items dup) /\ equivalent (sym_perm o) x (numbers c)) ->
  transversal (equivalent (sym_perm o)) D (map numbers (items (gen_2nodup_gen h o dup))).
Proof.
  intros HG HL HD HC CF HA.
  assert (HDL : forall c, In c (items dup) -> length (numbers c) = n) by auto.
  destruct (C18_lemma h HG HDL) as [S1 [_ S2]]. split; [|split].
  - apply Forall_forall. intros x Hx. apply in_map_iff in Hx. destruct Hx as [c [<- Hc]].
    apply HD. now apply (subseq_incl S1).
  - intros x Hx. destruct (HA x Hx) as [c [Hc E]].
    destruct (@filter_complete h o n dup D HG) with (c := c) as [c' [Hc' E']]; auto.
    exists (numbers c'). split; [now apply in_map|].
    apply (equivalent_trans HG) with (numbers c); auto.
  - clear - S2. induction S2 as [|a l Ha H IH]; cbn; constructor; [|assumption].
    rewrite Forall_forall in *. intros b Hb. apply in_map_iff in Hb. destruct Hb as [c [<- Hc]]. auto.
Qed.

(** is_equivalent *)
Lemma C16_lemma o n a b : (forall p, In p (sym_perm o) -> Permutation p (seq 0 n)) -> length (numbers a) = n ->
  exists r, is_equivalent o a b = Ok r /\ (r = true <-> equivalent (sym_perm o) (numbers a) (numbers b)).
Proof.
  intros HP L. unfold is_equivalent, equivalent.
  assert (I : incl (sym_perm o) (sym_perm o)) by apply incl_refl. revert I. generalize (sym_perm o) at 1 3 4 as perms.
  induction perms as [|p perms IH]; intros I; cbn.
  - exists false. split; [reflexivity|]. split; [discriminate|]. intros [p [[] _]].
  - assert (Pp : Permutation p (seq 0 n)) by (apply HP, I; now left).
    rewrite (take_idx_act Pp L). cbn. unfold array_equal. destruct (list_eq_dec Z.eq_dec (act_perm (numbers a) p) (numbers b)) as [E|N].
    + exists true. split; [reflexivity|]. split; [|reflexivity]. intros _. exists p. split; [now left|].
      rewrite <- E. eapply act_perm_reordered; eauto.
    + destruct IH as [r [E H]]; [intros q Hq; apply I; now right|]. exists r. split; [assumption|]. rewrite H. split.
      * intros [q [Hq R]]. exists q. split; [now right|assumption].
      * intros [q [[<-|Hq] R]]; [|exists q; auto]. exfalso. apply N.
        apply (reordered_fun (act_perm_reordered Pp L) R).
Qed.

(** The number of emitted structures is bounded by the number of hash values (C26). *)
Lemma nodup_loop_hash_distinct h n G cells fin : (forall p, In p G -> Permutation p (seq 0 n)) -> In (seq 0 n) G ->
  (forall c, In c cells -> length (numbers c) = n) ->
  forall iso, NoDup (map (fun c => h (numbers c)) (items (nodup_loop h G (fun c => c) iso cells fin))) /\
    (forall c, In c (items (nodup_loop h G (fun c => c) iso cells fin)) -> ~ In (h (numbers c)) iso).
Proof.
  intros HP HI HL. induction cells as [|c cells IH]; intros iso; cbn; [split; [constructor|easy]|].
  assert (HL' : forall c, In c cells -> length (numbers c) = n) by (intros; apply HL; now right).
  specialize (IH HL'). unfold cell_id. destruct (memZ (h (numbers c)) iso) eqn:Em; [apply IH|].
  apply memZ_false in Em. assert (Lc : length (numbers c) = n) by (apply HL; now left).
  rewrite (update_isoset_ok h HP iso (incl_refl G) Lc). cbn. set (iso' := _ ++ iso).
  destruct (IH iso') as [H1 H2]. split.
  - constructor; [|assumption]. intros I. apply in_map_iff in I. destruct I as [d [E Hd]].
    apply (H2 d Hd). rewrite E. unfold iso'. apply in_app_iff. left. apply -> in_rev. apply in_map_iff.
    exists (seq 0 n). split; [|assumption]. f_equal. unfold act_perm. rewrite <- Lc. apply map_nth_seq.
  - intros d [<-|Hd]; [assumption|]. intros I. apply (H2 d Hd). unfold iso'. apply in_app_iff. now right.
Qed.
