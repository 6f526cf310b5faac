(** Property C81: the methods ModifiedCell inherits from MutableSequence behave like those of
    a list of sites compared by position and atomic number. *)
From Coq Require Import String.
From Verif Require Import Base LBase BaseQ LQ SElement MElement LElement MGeneralCell LGeneralCell MModCell SModCell LModCell LModCell2 LModCell3 LModCell4 LModCell5
  MSeq SSeq LSeq PModCell.
Open Scope Z_scope.
Open Scope list_scope.
Notation length := List.length.

(** index: the first item between the bounds that equals the given site, else ValueError. *)
Theorem C81_index : forall h c rs v start stop fuel lo hi, wf_heap h -> holds h c rs -> is_site h v -> (length rs < fuel)%nat ->
  from_bound (length rs) start lo -> upto_bound (length rs) stop hi ->
  (exists i a, mc_index fuel h c v start stop = Some (Ok (Z.of_nat i)) /\ lo <= Z.of_nat i < hi /\ nth_error rs i = Some a /\ same_site h a v /\
     forall j b, lo <= Z.of_nat j < Z.of_nat i -> nth_error rs j = Some b -> ~ same_site h b v) \/
  (mc_index fuel h c v start stop = Some (Raise ValueError) /\ forall j b, lo <= Z.of_nat j < hi -> nth_error rs j = Some b -> ~ same_site h b v).
Proof.
  intros h c rs v start stop fuel lo hi W H V F LO HI. apply holds_iff in H; [|exact W]. destruct H as [C ->].
  assert (Q : forall j b, nth_error (refs h c) j = Some b -> is_or_eq h b v = true <-> same_site h b v).
  { intros j b N. apply is_or_eq_iff; [|exact V]. apply (wf_refs_site W C). eapply nth_error_In; eauto. }
  destruct (index_spec v F LO HI) as [(i & a & I1 & I2 & I3 & I4 & I5)|[I1 I2]]; [left; exists i, a|right].
  - split; [exact I5|]. split; [exact I1|]. split; [exact I2|]. split; [exact (proj1 (Q i a I2) I3)|].
    intros j b L N S. apply (Q j b N) in S. rewrite (I4 j b L N) in S. discriminate S.
  - split; [exact I2|]. intros j b L N S. apply (Q j b N) in S. rewrite (I1 j b L N) in S. discriminate S.
Qed.
Print Assumptions C81_index.

(** count and membership. *)
Theorem C81_count : forall h c rs v, wf_heap h -> holds h c rs -> is_site h v ->
  (exists rest, without (fun a => same_site h a v) rs rest /\ (mc_count h c v + length rest = length rs)%nat) /\
  (mc_contains h c v = true <-> exists a, In a rs /\ same_site h a v) /\
  (mc_contains h c v = true <-> (0 < mc_count h c v)%nat).
Proof.
  intros h c rs v W H V. apply holds_iff in H; [|exact W]. destruct H as [C ->].
  assert (Q : forall b, In b (refs h c) -> is_or_eq h b v = true <-> same_site h b v).
  { intros b I. apply is_or_eq_iff; [|exact V]. exact (wf_refs_site W C I). }
  unfold mc_count, mc_contains. split; [|split].
  - exists (filter (fun a => negb (is_or_eq h a v)) (refs h c)). clear W C. induction (refs h c) as [|a l IH]; [split; [constructor|reflexivity]|].
    destruct IH as [I1 I2]; [intros b I; apply Q; now right|]. cbn [filter]. destruct (is_or_eq h a v) eqn:E; cbn [negb length].
    + split; [constructor; [apply (Q a); [now left|exact E]|exact I1]|lia].
    + split; [constructor; [|exact I1]|cbn; lia]. intros S. apply (Q a) in S; [congruence|now left].
  - rewrite existsb_exists. split; intros (a & I & E); exists a; (split; [exact I|]); now apply Q.
  - rewrite existsb_exists. split.
    + intros (a & I & E). assert (J : In a (filter (fun v0 => is_or_eq h v0 v) (refs h c))) by (apply filter_In; auto). destruct (filter _ _); [destruct J|cbn; lia].
    + destruct (filter (fun v0 => is_or_eq h v0 v) (refs h c)) as [|a l] eqn:E; [cbn; lia|]. intros _. exists a. apply (filter_In (fun v0 => is_or_eq h v0 v)). rewrite E. now left.
Qed.
Print Assumptions C81_count.

(** reversed() yields the items backwards; reverse() turns the list round in place. *)
Theorem C81_reverse : forall h c rs, wf_heap h -> holds h c rs ->
  mc_reversed h c = Ok (rev rs) /\ exists h', mc_reverse c h = (h', Ok tt) /\ only_list h c (rev rs) h'.
Proof.
  intros h c rs W H. apply holds_iff in H; [|exact W]. destruct H as [C ->]. split; [apply reversed_spec|]. eexists. split; [exact (reverse_spec W C)|].
  apply with_list_only; auto. apply Forall_forall. intros a I. apply in_rev in I. exact (wf_refs_site W C I).
Qed.
Print Assumptions C81_reverse.

(** clear() always ends and leaves an empty cell. *)
Theorem C81_clear : forall h c rs fuel, wf_heap h -> holds h c rs -> (length rs < fuel)%nat ->
  exists h', mc_clear fuel c h = Some (h', Ok tt) /\ only_list h c [] h'.
Proof.
  intros h c rs fuel W H F. apply holds_iff in H; [|exact W]. destruct H as [C ->]. eexists. split; [exact (@clear_spec c _ fuel h W C eq_refl F)|]. now apply with_list_only.
Qed.
Print Assumptions C81_clear.

(** remove(site): the first equal site goes, or ValueError and nothing changes. *)
Theorem C81_remove : forall h c rs v fuel, wf_heap h -> holds h c rs -> is_site h v -> (length rs < fuel)%nat ->
  (exists l1 a l2 h', rs = l1 ++ a :: l2 /\ same_site h a v /\ (forall b, In b l1 -> ~ same_site h b v) /\
     mc_remove fuel c v h = Some (h', Ok tt) /\ only_list h c (l1 ++ l2) h') \/
  ((forall b, In b rs -> ~ same_site h b v) /\ mc_remove fuel c v h = Some (h, Raise ValueError)).
Proof.
  intros h c rs v fuel W H V F. apply holds_iff in H; [|exact W]. destruct H as [C ->].
  assert (Q : forall b, In b (refs h c) -> is_or_eq h b v = true <-> same_site h b v).
  { intros b I. apply is_or_eq_iff; [|exact V]. exact (wf_refs_site W C I). }
  destruct (remove_spec v W C F) as [(l1 & a & l2 & E & I1 & I2 & I3)|[I1 I2]]; [left|right].
  - exists l1, a, l2, (with_list h c (l1 ++ l2)). split; [exact E|]. split; [apply Q; [rewrite E, in_app_iff; right; now left|exact I1]|]. split.
    + intros b I S. rewrite Forall_forall in I2. apply Q in S; [rewrite (I2 b I) in S; discriminate S|rewrite E, in_app_iff; now left].
    + split; [exact I3|]. apply with_list_only; auto. apply Forall_forall. intros b I. apply (wf_refs_site W C). rewrite E. rewrite in_app_iff in *. cbn. tauto.
  - split; [|exact I2]. intros b I S. rewrite Forall_forall in I1. apply Q in S; [rewrite (I1 b I) in S; discriminate S|exact I].
Qed.
Print Assumptions C81_remove.

(** c += d appends the sites of another cell and is c again; c += c never ends, although the
    library's own extend would have doubled the list. *)
Theorem C81_iadd : forall h c d rc rd fuel, wf_heap h -> holds h c rc -> holds h d rd -> (length rd < fuel)%nat ->
  (c <> d -> exists h', mc_iadd fuel c d h = Some (h', Ok c) /\ holds h' c (rc ++ rd) /\ h_site h' = h_site h /\
     forall e re, e <> c -> holds h e re -> holds h' e re) /\
  (c = d -> rc <> [] -> mc_iadd fuel c d h = None).
Proof.
  intros h c d rc rd fuel W H K F. unfold mc_iadd. split.
  - intros N. destruct (C67_extend_other h c d rc rd fuel W H K N F) as (h' & -> & R). exists h'. split; [reflexivity|exact R].
  - intros <- N. now rewrite (C67_extend_self_diverges h c rc fuel W H N).
Qed.
Print Assumptions C81_iadd.

(** *** Example: boron, carbon, boron, and a fourth site object equal to the first *)
Definition h81 : heap := fst ((let! v := lift (Site_new (diag 0 1) (EleNum 5)) in new_site v) h3).
Example C81_ex : wf_heap h81 /\ holds h81 0 [0; 1; 2]%nat /\ is_site h81 3 /\ same_site h81 0 3 /\
  mc_index 9 h81 0 3 0 None = Some (Ok 0) /\ mc_index 9 h81 0 3 1 None = Some (Raise ValueError) /\ mc_index 9 h81 0 1 (-2) (Some (-1)) = Some (Ok 1) /\
  mc_count h81 0 3 = 1%nat /\ mc_contains h81 0 3 = true /\ mc_reversed h81 0 = Ok [2; 1; 0]%nat /\
  refs (fst (mc_reverse 0 h81)) 0 = [2; 1; 0]%nat /\
  option_map (fun x => refs (fst x) 0) (mc_remove 9 0 3 h81) = Some [1; 2]%nat /\
  option_map (fun x => refs (fst x) 0) (mc_clear 9 0 h81) = Some [] /\ mc_iadd 50 0 0 h81 = None.
Proof.
  split.
  - unfold wf_heap. destruct wf_h3 as (W1 & W2 & W3). split; [exact W1|]. split; [exact W2|]. intros l a I J. specialize (W3 l a I J).
    unfold is_site in *. change (length (h_site h81)) with (S (length (h_site h3))). lia.
  - split; [exists (mkMC unit_lat 0); split; reflexivity|]. split; [unfold is_site; vm_compute; lia|].
    split; [eexists _, _; split; [reflexivity|]; split; [reflexivity|]; split; reflexivity|]. vm_compute. repeat split.
Qed.
