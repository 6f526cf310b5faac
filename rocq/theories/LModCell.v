(** Lemmas for ModifiedCell: heap bookkeeping and list behaviour. *)
From Verif Require Import Base LBase BaseQ LQ MElement MGeneralCell MHnf MRestrict MModCell SModCell.
Set Implicit Arguments.
Unset Strict Implicit.
Open Scope list_scope.
Notation length := List.length.

Lemma cell_at_nth h c : is_cell h c -> nth_error (h_cell h) c = Some (cell_at h c).
Proof. intros H. unfold cell_at. apply nth_error_nth'. exact H. Qed.
Lemma cell_at_eq h c m : nth_error (h_cell h) c = Some m -> cell_at h c = m.
Proof. intros H. unfold cell_at. apply nth_error_nth with (1 := H). Qed.
Lemma nth_is_cell h c m : nth_error (h_cell h) c = Some m -> is_cell h c.
Proof. intros H. apply nth_error_Some. congruence. Qed.

Lemma wf_list_lt h c : wf_heap h -> is_cell h c -> (mc_list (cell_at h c) < length (h_list h))%nat.
Proof. intros W C. apply W. eapply nth_error_In. apply cell_at_nth. exact C. Qed.

Lemma wf_refs_site h c a : wf_heap h -> is_cell h c -> In a (refs h c) -> is_site h a.
Proof.
  intros W C I. eapply (proj2 (proj2 W)); [|exact I]. unfold refs, list_at.
  apply nth_In. apply wf_list_lt; assumption.
Qed.

Lemma wf_list_inj h c d : wf_heap h -> is_cell h c -> is_cell h d ->
  mc_list (cell_at h c) = mc_list (cell_at h d) -> c = d.
Proof.
  intros W C D E. destruct W as (_ & N & _).
  rewrite NoDup_nth_error in N. apply N.
  - rewrite map_length. exact C.
  - rewrite !nth_error_map, !cell_at_nth by assumption. cbn. congruence.
Qed.

Lemma holds_iff h c rs : wf_heap h -> holds h c rs <-> is_cell h c /\ rs = refs h c.
Proof.
  intros W. split.
  - intros (m & E & F). pose proof (nth_is_cell E) as C. split; [exact C|].
    unfold refs. rewrite (cell_at_eq E). symmetry. unfold list_at. apply nth_error_nth with (1 := F).
  - intros [C ->]. exists (cell_at h c). split; [apply cell_at_nth; exact C|].
    unfold refs, list_at. apply nth_error_nth'. apply wf_list_lt; assumption.
Qed.

Lemma Forall2_sites h rs : Forall (is_site h) rs ->
  forall ss, Forall2 (fun a s => nth_error (h_site h) a = Some s) rs ss <-> ss = map (site_at h) rs.
Proof.
  induction 1 as [|a rs A _ IH]; intros ss; cbn.
  - split; [intros H; inversion H; reflexivity|intros ->; constructor].
  - assert (K : nth_error (h_site h) a = Some (site_at h a)) by (apply nth_error_nth'; exact A).
    split.
    + intros H. inversion H; subst. f_equal; [congruence|]. apply IH. assumption.
    + intros ->. constructor; [exact K|]. apply IH. reflexivity.
Qed.

Lemma contains_iff h c lat ss : wf_heap h ->
  contains h c lat ss <-> is_cell h c /\ lat = mc_lattice (cell_at h c) /\ ss = map (site_at h) (refs h c).
Proof.
  intros W. split.
  - intros (m & rs & E & L & F & G). pose proof (nth_is_cell E) as C.
    assert (rs = refs h c). { apply (proj1 (holds_iff c rs W)). exists m. auto. }
    subst rs. rewrite (cell_at_eq E). repeat split; [exact C|congruence|].
    apply Forall2_sites; [|exact G]. apply Forall_forall. intros a I. eapply wf_refs_site; eauto.
  - intros (C & -> & ->). exists (cell_at h c), (refs h c). repeat apply conj; auto.
    + apply cell_at_nth; exact C.
    + unfold refs, list_at. apply nth_error_nth'. apply wf_list_lt; assumption.
    + apply Forall2_sites; [|reflexivity]. apply Forall_forall. intros a I. eapply wf_refs_site; eauto.
Qed.

(** ** list objects *)
Definition with_list (h : heap) (c : nat) (v : list nat) : heap :=
  mkHeap (h_site h) (upd (h_list h) (mc_list (cell_at h c)) v) (h_cell h).

Lemma refs_with_list h c v : wf_heap h -> is_cell h c -> refs (with_list h c v) c = v.
Proof.
  intros W C. unfold refs, list_at, with_list, cell_at; cbn. fold (cell_at h c).
  rewrite nth_upd by (apply wf_list_lt; assumption). rewrite Nat.eqb_refl. reflexivity.
Qed.
Lemma refs_with_list_other h c v d : wf_heap h -> is_cell h c -> is_cell h d -> d <> c ->
  refs (with_list h c v) d = refs h d.
Proof.
  intros W C D N. unfold refs, list_at, with_list, cell_at; cbn. fold (cell_at h c) (cell_at h d).
  rewrite nth_upd by (apply wf_list_lt; assumption).
  destruct (Nat.eqb_spec (mc_list (cell_at h c)) (mc_list (cell_at h d))) as [E|E]; [|reflexivity].
  apply wf_list_inj in E; congruence.
Qed.
Lemma In_upd A (l : list A) i v x : In x (upd l i v) -> x = v \/ In x l.
Proof.
  revert i. induction l as [|y l IH]; intros [|i]; cbn; auto.
  - intros [->|H]; auto.
  - intros [->|H]; auto. apply IH in H. tauto.
Qed.
Lemma wf_with_list h c v : wf_heap h -> Forall (is_site h) v -> wf_heap (with_list h c v).
Proof.
  intros (W1 & W2 & W3) F. split; [|split]; cbn.
  - intros m I. rewrite upd_length. apply W1. exact I.
  - exact W2.
  - intros l a I J. unfold is_site; cbn. apply In_upd in I. destruct I as [->|I].
    + rewrite Forall_forall in F. apply F. exact J.
    + eapply W3; eauto.
Qed.

(** ** Python indices *)
Lemma norm_index_spec n i : 
  match norm_index n i with Some j => py_index n i j | None => no_index n i end.
Proof.
  unfold norm_index, py_index, no_index.
  destruct (Z.leb_spec 0 i).
  - destruct (Z.ltb_spec i (Z.of_nat n)); lia.
  - destruct (Z.leb_spec 0 (i + Z.of_nat n)); lia.
Qed.
Lemma py_index_unique n i j k : py_index n i j -> py_index n i k -> j = k.
Proof. unfold py_index. lia. Qed.
Lemma py_index_not n i j : py_index n i j -> no_index n i -> False.
Proof. unfold py_index, no_index. lia. Qed.

Lemma split_at A (l : list A) j : (j < length l)%nat -> exists l1 x l2, l = l1 ++ x :: l2 /\ length l1 = j.
Proof.
  intros H. destruct (nth_error l j) as [x|] eqn:E.
  - apply nth_error_split in E. destruct E as (l1 & l2 & -> & L). eauto.
  - apply nth_error_None in E. lia.
Qed.

Lemma py_get_spec A (l : list A) i :
  (exists l1 x l2, l = l1 ++ x :: l2 /\ py_index (length l) i (length l1) /\ py_get l i = Ok x) \/
  (no_index (length l) i /\ py_get l i = Raise IndexError).
Proof.
  unfold py_get. pose proof (norm_index_spec (length l) i) as H.
  destruct (norm_index (length l) i) as [j|]; [left|right; auto].
  destruct (split_at (proj1 H)) as (l1 & x & l2 & -> & L). exists l1, x, l2. subst j.
  repeat split; auto; try apply H. unfold get_nth. rewrite nth_error_app2 by lia. rewrite Nat.sub_diag. reflexivity.
Qed.

Lemma py_set_spec A (l : list A) i s :
  (exists l1 x l2, l = l1 ++ x :: l2 /\ py_index (length l) i (length l1) /\ py_set l i s = Ok (l1 ++ s :: l2)) \/
  (no_index (length l) i /\ py_set l i s = Raise IndexError).
Proof.
  unfold py_set. pose proof (norm_index_spec (length l) i) as H.
  destruct (norm_index (length l) i) as [j|]; [left|right; auto].
  destruct (split_at (proj1 H)) as (l1 & x & l2 & -> & L). exists l1, x, l2. subst j.
  repeat split; auto; try apply H. clear H. induction l1 as [|y l1 IH]; cbn; [reflexivity|]. rewrite IH. reflexivity.
Qed.

Lemma py_del_spec A (l : list A) i :
  (exists l1 x l2, l = l1 ++ x :: l2 /\ py_index (length l) i (length l1) /\ py_del l i = Ok (l1 ++ l2) /\ py_get l i = Ok x) \/
  (no_index (length l) i /\ py_del l i = Raise IndexError /\ py_get l i = Raise IndexError).
Proof.
  unfold py_del, py_get. pose proof (norm_index_spec (length l) i) as H.
  destruct (norm_index (length l) i) as [j|]; [left|right; auto].
  destruct (split_at (proj1 H)) as (l1 & x & l2 & -> & L). exists l1, x, l2. subst j.
  repeat split; auto; try apply H; clear H.
  - rewrite firstn_app, firstn_all, Nat.sub_diag, skipn_app. cbn [firstn]. rewrite app_nil_r.
    rewrite skipn_all2 by lia. replace (S (length l1) - length l1)%nat with 1%nat by lia. reflexivity.
  - unfold get_nth. rewrite nth_error_app2 by lia. rewrite Nat.sub_diag. reflexivity.
Qed.

Lemma py_insert_spec A (l : list A) i s :
  exists l1 l2, l = l1 ++ l2 /\ insert_index (length l) i (length l1) /\ py_insert l i s = l1 ++ s :: l2.
Proof.
  unfold py_insert. set (j := Z.to_nat _).
  exists (firstn j l), (skipn j l). split; [symmetry; apply firstn_skipn|]. split; [|reflexivity].
  rewrite firstn_length. unfold insert_index, j. clear j. destruct (Z.ltb_spec i 0); lia.
Qed.

(** ** append in a loop *)
Lemma citer_append c l : forall h, wf_heap h -> is_cell h c -> Forall (is_site h) l ->
  exists h', citer (mc_append c) l h = (h', Ok tt) /\ wf_heap h' /\ h_site h' = h_site h /\ h_cell h' = h_cell h /\
    refs h' c = refs h c ++ l /\ (forall d, is_cell h d -> d <> c -> refs h' d = refs h d).
Proof.
  induction l as [|a l IH]; intros h W C F.
  - exists h. rewrite app_nil_r. repeat split; auto; apply W.
  - inversion F as [|? ? A F']; subst.
    change (citer (mc_append c) (a :: l) h) with (citer (mc_append c) l (with_list h c (refs h c ++ [a]))).
    destruct (IH (with_list h c (refs h c ++ [a]))) as (h' & E & W' & S' & C' & R & O).
    + apply wf_with_list; [exact W|]. apply Forall_app. split; [|constructor; auto].
      apply Forall_forall. intros x X. eapply wf_refs_site; eauto.
    + exact C.
    + exact F'.
    + exists h'. split; [exact E|]. split; [exact W'|]. split; [exact S'|]. split; [exact C'|]. split.
      * rewrite R, refs_with_list by assumption. rewrite <- app_assoc. reflexivity.
      * intros d D N. rewrite O by assumption. apply refs_with_list_other; assumption.
Qed.

(** ** remove_sites *)
Lemma kept_except_filter bad l : forall k,
  kept_except bad (Z.of_nat k) l
    (map snd (filter (fun ia => negb (memZ (Z.of_nat (fst ia)) bad)) (combine (seq k (length l)) l))).
Proof.
  induction l as [|x l IH]; intros k; cbn -[memZ]; [constructor|].
  specialize (IH (S k)). replace (Z.of_nat (S k)) with (Z.of_nat k + 1)%Z in IH by lia.
  destruct (memZ (Z.of_nat k) bad) eqn:M; cbn.
  - apply ke_drop; [apply memZ_In; exact M|exact IH].
  - apply ke_keep; [apply memZ_false; exact M|exact IH].
Qed.
Lemma kept_except_sub bad l : forall k l', kept_except bad k l l' -> incl l' l.
Proof.
  induction l as [|x l IH]; intros k l' H; inversion H; subst; intros y Y; auto.
  - right. eapply IH; eauto.
  - destruct Y as [->|Y]; [left; reflexivity|right; eapply IH; eauto].
Qed.

Lemma remove_sites_spec c idx h : wf_heap h -> is_cell h c ->
  exists h', remove_sites c idx h = (h', Ok c) /\ wf_heap h' /\ h_site h' = h_site h /\
    length (h_cell h') = length (h_cell h) /\ (forall d, mc_lattice (cell_at h' d) = mc_lattice (cell_at h d)) /\
    kept_except idx 0 (refs h c) (refs h' c) /\ (forall d, is_cell h d -> d <> c -> refs h' d = refs h d) /\
    (forall i, (i < length (h_list h))%nat -> list_at h' i = list_at h i).
Proof.
  intros W C. unfold remove_sites. set (kept := map snd _).
  assert (K : kept_except idx 0 (refs h c) kept) by apply (kept_except_filter idx (refs h c) 0).
  cbn. eexists. split; [reflexivity|].
  set (h' := mkHeap _ _ _).
  assert (CE : cell_at h' c = mkMC (mc_lattice (cell_at h c)) (length (h_list h))).
  { unfold h', cell_at; cbn. rewrite nth_upd by exact C. rewrite Nat.eqb_refl. reflexivity. }
  assert (CO : forall d, d <> c -> cell_at h' d = cell_at h d).
  { intros d D. unfold h', cell_at; cbn. rewrite nth_upd by exact C. destruct (Nat.eqb_spec c d); [congruence|reflexivity]. }
  assert (LO : forall i, (i < length (h_list h))%nat -> list_at h' i = list_at h i).
  { intros i I. unfold list_at, h'; cbn. rewrite app_nth1 by exact I. reflexivity. }
  repeat apply conj.
  - unfold h'; cbn. intros m I. rewrite app_length; cbn. apply In_upd in I. destruct I as [->|I]; cbn; [lia|].
    apply (proj1 W) in I. lia.
  - unfold h'; cbn. apply NoDup_nth_error. rewrite map_length, upd_length. intros i j I E.
    rewrite !nth_error_map, !nth_error_upd in E.
    destruct W as (W1 & W2 & _).
    assert (B : forall k m, nth_error (h_cell h) k = Some m -> (mc_list m < length (h_list h))%nat).
    { intros k m H. apply W1. eapply nth_error_In; eauto. }
    apply NoDup_nth_error with (l := map mc_list (h_cell h)); auto; [rewrite map_length; exact I|].
    rewrite !nth_error_map. replace (c <? length (h_cell h))%nat with true in E by (symmetry; apply Nat.ltb_lt; exact C).
    revert E. destruct (Nat.eqb_spec c i) as [EI|NI], (Nat.eqb_spec c j) as [EJ|NJ]; try (subst; auto; fail).
    + destruct (nth_error (h_cell h) j) eqn:E2; cbn; [|discriminate]. intros E. injection E as E. apply B in E2. lia.
    + destruct (nth_error (h_cell h) i) eqn:E2; cbn; [|discriminate]. intros E. injection E as E. apply B in E2. lia.
  - unfold h'; cbn. intros l a I J. unfold is_site; cbn. apply in_app_or in I. destruct I as [I|[<-|[]]].
    + eapply (proj2 (proj2 W)); eauto.
    + apply (wf_refs_site W C). eapply kept_except_sub; eauto.
  - reflexivity.
  - unfold h'; cbn. apply upd_length.
  - intros d. destruct (Nat.eq_dec d c) as [->|N]; [rewrite CE; reflexivity|rewrite CO by exact N; reflexivity].
  - unfold refs at 2. rewrite CE; cbn. unfold list_at, h'; cbn. rewrite app_nth2, Nat.sub_diag by lia. exact K.
  - intros d D N. unfold refs. rewrite CO by exact N. apply LO. apply wf_list_lt; assumption.
  - exact LO.
Qed.

(** ** one list operation *)
Lemma do_list_op_spec c o h : wf_heap h -> is_cell h c -> (forall a, In a (op_args o) -> is_site h a) ->
  exists h' x, do_list_op c o h = (h', x) /\ wf_heap h' /\ h_site h' = h_site h /\
    length (h_cell h') = length (h_cell h) /\ (forall d, mc_lattice (cell_at h' d) = mc_lattice (cell_at h d)) /\
    list_effect o (refs h c) (refs h' c) x /\ (forall d, is_cell h d -> d <> c -> refs h' d = refs h d).
Proof.
  intros W C A.
  assert (RS : Forall (is_site h) (refs h c)).
  { apply Forall_forall. intros a I. eapply wf_refs_site; eauto. }
  assert (WL : forall v x, Forall (is_site h) v -> list_effect o (refs h c) v x ->
    exists h' y, (with_list h c v, x) = (h', y) /\ wf_heap h' /\ h_site h' = h_site h /\
    length (h_cell h') = length (h_cell h) /\ (forall d, mc_lattice (cell_at h' d) = mc_lattice (cell_at h d)) /\
    list_effect o (refs h c) (refs h' c) y /\ (forall d, is_cell h d -> d <> c -> refs h' d = refs h d)).
  { intros v x Fv E. exists (with_list h c v), x. split; [reflexivity|]. split; [apply wf_with_list; assumption|].
    repeat (split; [reflexivity|]). split; [rewrite refs_with_list by assumption; exact E|].
    intros d D N. apply refs_with_list_other; assumption. }
  assert (SM : forall x, list_effect o (refs h c) (refs h c) x ->
    exists h' y, (h, x) = (h', y) /\ wf_heap h' /\ h_site h' = h_site h /\
    length (h_cell h') = length (h_cell h) /\ (forall d, mc_lattice (cell_at h' d) = mc_lattice (cell_at h d)) /\
    list_effect o (refs h c) (refs h' c) y /\ (forall d, is_cell h d -> d <> c -> refs h' d = refs h d)).
  { intros x E. exists h, x. repeat (split; [reflexivity || assumption|]). reflexivity. }
  assert (EX : forall l y, Forall (is_site h) l -> list_effect o (refs h c) (refs h c ++ l) y ->
    exists h' x, (fst (citer (mc_append c) l h), y) = (h', x) /\ wf_heap h' /\ h_site h' = h_site h /\
    length (h_cell h') = length (h_cell h) /\ (forall d, mc_lattice (cell_at h' d) = mc_lattice (cell_at h d)) /\
    list_effect o (refs h c) (refs h' c) x /\ (forall d, is_cell h d -> d <> c -> refs h' d = refs h d)).
  { intros l y Fl E. destruct (citer_append W C Fl) as (h' & E' & W' & S' & C' & R & O).
    rewrite E'. exists h', y. split; [reflexivity|]. split; [exact W'|]. split; [exact S'|]. split; [congruence|].
    split; [unfold cell_at; rewrite C'; reflexivity|]. split; [rewrite R; exact E|exact O]. }
  destruct o as [s|i s|i|l|i s|i|i|s|i|l|l]; cbn [do_list_op]; cbn [op_args] in A.
  - apply WL; [|constructor]. apply Forall_app. split; auto. constructor; auto. apply A. left. reflexivity.
  - destruct (py_insert_spec (refs h c) i s) as (l1 & l2 & E & I & P).
    unfold mc_insert. rewrite P. apply WL.
    + rewrite E in RS. apply Forall_app in RS. destruct RS. apply Forall_app. split; auto. constructor; auto.
      apply A. left. reflexivity.
    + rewrite E. apply le_insert. rewrite <- E. exact I.
  - unfold mc_pop. destruct (py_del_spec (refs h c) i) as [(l1 & x & l2 & E & I & P & G)|(N & P & G)]; rewrite P, G.
    + cbn. apply WL.
      * rewrite E in RS. apply Forall_app in RS. destruct RS as [R1 R2]. inversion R2; subst. apply Forall_app. auto.
      * rewrite E. apply le_pop. rewrite <- E. exact I.
    + apply SM. apply le_pop_err. exact N.
  - unfold mc_extend. assert (Fl : Forall (is_site h) l) by (apply Forall_forall; exact A).
    destruct (EX l RNone) as (h' & x & E & H); [exact Fl|constructor|].
    destruct (citer_append W C Fl) as (h2 & E2 & _). rewrite E2 in *. cbn in *. eauto 10.
  - unfold mc_setitem. destruct (py_set_spec (refs h c) i s) as [(l1 & x & l2 & E & I & P)|(N & P)]; rewrite P.
    + apply WL.
      * rewrite E in RS. apply Forall_app in RS. destruct RS as [R1 R2]. inversion R2; subst. apply Forall_app. split; auto.
        constructor; auto. apply A. left. reflexivity.
      * rewrite E. apply le_set. rewrite <- E. exact I.
    + apply SM. apply le_set_err. exact N.
  - unfold mc_getitem. destruct (py_get_spec (refs h c) i) as [(l1 & x & l2 & E & I & P)|(N & P)]; rewrite P.
    + apply SM. rewrite E. apply le_get. rewrite <- E. exact I.
    + apply SM. apply le_get_err. exact N.
  - unfold mc_delitem. destruct (py_del_spec (refs h c) i) as [(l1 & x & l2 & E & I & P & G)|(N & P & G)]; rewrite P.
    + apply WL.
      * rewrite E in RS. apply Forall_app in RS. destruct RS as [R1 R2]. inversion R2; subst. apply Forall_app. auto.
      * rewrite E. apply le_del. rewrite <- E. exact I.
    + apply SM. apply le_del_err. exact N.
  - apply WL; [|constructor]. apply Forall_app. split; auto. constructor; auto. apply A. left. reflexivity.
  - unfold remove_site, cbind, mc_pop.
    destruct (py_del_spec (refs h c) i) as [(l1 & x & l2 & E & I & P & G)|(N & P & G)]; rewrite P, G.
    + cbn. apply WL.
      * rewrite E in RS. apply Forall_app in RS. destruct RS as [R1 R2]. inversion R2; subst. apply Forall_app. auto.
      * rewrite E. apply le_remove_site. rewrite <- E. exact I.
    + apply SM. apply le_remove_site_err. exact N.
  - destruct (remove_sites_spec l W C) as (h' & E & W' & S' & L' & K & R & O & _).
    rewrite E. exists h', RSelf. repeat (split; [reflexivity || assumption|]). split; [constructor; exact R|exact O].
  - unfold append_sites, cbind, mc_extend. assert (Fl : Forall (is_site h) l) by (apply Forall_forall; exact A).
    destruct (EX l RSelf) as (h' & x & E & H); [exact Fl|constructor|].
    destruct (citer_append W C Fl) as (h2 & E2 & _). rewrite E2 in *. cbn in *. eauto 10.
Qed.

Lemma is_site_eq h h' a : h_site h' = h_site h -> is_site h a -> is_site h' a.
Proof. unfold is_site. congruence. Qed.
Lemma is_cell_eq h h' a : length (h_cell h') = length (h_cell h) -> is_cell h a <-> is_cell h' a.
Proof. unfold is_cell. intros ->. reflexivity. Qed.

Lemma run_list_ops_spec os c : forall h, wf_heap h -> is_cell h c ->
  (forall o a, In o os -> In a (op_args o) -> is_site h a) ->
  exists h' xs, run_list_ops c os h = (h', xs) /\ wf_heap h' /\ h_site h' = h_site h /\
    length (h_cell h') = length (h_cell h) /\ (forall d, mc_lattice (cell_at h' d) = mc_lattice (cell_at h d)) /\
    list_history os (refs h c) (refs h' c) xs /\ (forall d, is_cell h d -> d <> c -> refs h' d = refs h d).
Proof.
  induction os as [|o os IH]; intros h W C A.
  - exists h, []. cbn. repeat (split; [reflexivity || assumption|]). split; [constructor|reflexivity].
  - destruct (@do_list_op_spec c o h W C) as (h1 & x & E1 & W1 & S1 & L1 & K1 & F1 & O1).
    { intros a I. apply (A o); [left; reflexivity|exact I]. }
    destruct (IH h1 W1) as (h2 & xs & E2 & W2 & S2 & L2 & K2 & F2 & O2).
    { rewrite <- is_cell_eq; eauto. }
    { intros o' a I J. eapply is_site_eq; [exact S1|]. apply (A o'); [right; exact I|exact J]. }
    exists h2, (x :: xs). cbn. rewrite E1, E2. split; [reflexivity|]. split; [exact W2|].
    split; [congruence|]. split; [congruence|]. split; [intros; rewrite K2; apply K1|].
    split; [econstructor; eauto|]. intros d D N. rewrite O2; [apply O1; assumption| |exact N].
    rewrite <- is_cell_eq; eauto.
Qed.

(** The relations determine list and value. *)
Lemma app_mid_eq (l1 l2 k1 k2 : list nat) x y : l1 ++ x :: l2 = k1 ++ y :: k2 -> length l1 = length k1 ->
  l1 = k1 /\ x = y /\ l2 = k2.
Proof.
  revert k1. induction l1 as [|a l1 IH]; intros [|b k1] E L; cbn in *; try discriminate.
  - injection E. auto.
  - injection E as -> E. apply IH in E; [|lia]. destruct E as (-> & -> & ->). auto.
Qed.
Lemma app_eq_len (l1 l2 k1 k2 : list nat) : l1 ++ l2 = k1 ++ k2 -> length l1 = length k1 -> l1 = k1 /\ l2 = k2.
Proof.
  revert k1. induction l1 as [|a l1 IH]; intros [|b k1] E L; cbn in *; try discriminate; auto.
  injection E as -> E. apply IH in E; [|lia]. destruct E as (-> & ->). auto.
Qed.
Lemma kept_except_fun bad l : forall k l1 l2, kept_except bad k l l1 -> kept_except bad k l l2 -> l1 = l2.
Proof.
  induction l as [|x l IH]; intros k l1 l2 H1 H2; inversion H1; subst; inversion H2; subst; try contradiction; auto.
  - eapply IH; eauto.
  - f_equal. eapply IH; eauto.
Qed.
Lemma list_effect_fun o l l1 l2 x1 x2 : list_effect o l l1 x1 -> list_effect o l l2 x2 -> l1 = l2 /\ x1 = x2.
Proof.
  intros H1. revert l2 x2.
  assert (IX : forall (l1 : list nat) x l2 k1 y k2 i, l1 ++ x :: l2 = k1 ++ y :: k2 ->
     py_index (length (l1 ++ x :: l2)) i (length l1) -> py_index (length (k1 ++ y :: k2)) i (length k1) ->
     l1 = k1 /\ x = y /\ l2 = k2).
  { intros a x b k y m i E I J. apply app_mid_eq; [exact E|]. rewrite <- E in J. eapply py_index_unique; eauto. }
  destruct H1 as [s l|i s a b I|i a x b I|i l N|xs l|i s a x b I|i s l N|i a x b I|i l N|i a x b I|i l N|s l|i a x b I|i l N|bad l l' K|xs l];
    intros l2 x2 H2; inversion H2; subst; auto;
    try (match goal with
         | E : ?k1 ++ ?y :: ?k2 = ?a ++ ?x :: ?b |- _ =>
             destruct (IX _ _ _ _ _ _ _ E ltac:(eassumption) ltac:(eassumption)) as (-> & -> & ->); auto
         end);
    try (exfalso; match goal with
         | I : py_index ?n ?i _, N : no_index ?n ?i |- _ => exact (py_index_not I N)
         end).
  - match goal with E : ?k1 ++ ?k2 = a ++ b |- _ => destruct (@app_eq_len k1 k2 a b E) as (-> & ->); auto;
      match goal with J : insert_index (length (k1 ++ k2)) _ _ |- _ => rewrite E in J; unfold insert_index in I, J; lia end end.
  - split; auto. eapply kept_except_fun; eauto.
Qed.
Lemma list_history_fun os : forall l l1 l2 x1 x2, list_history os l l1 x1 -> list_history os l l2 x2 -> l1 = l2 /\ x1 = x2.
Proof.
  induction os as [|o os IH]; intros l l1 l2 x1 x2 H1 H2; inversion H1; subst; inversion H2; subst; auto.
  match goal with A : list_effect o l _ _, B : list_effect o l _ _ |- _ => destruct (list_effect_fun A B) as [<- <-] end.
  match goal with A : list_history os _ _ _, B : list_history os _ _ _ |- _ => destruct (IH _ _ _ _ _ A B) as [<- <-] end. auto.
Qed.
