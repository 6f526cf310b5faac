From Coq Require Import String Sorted.
From Verif Require Import Base LBase BaseQ LQ MElement SElement LElement MSort SSort LSort MGeneralCell SGeneralCell.
Set Implicit Arguments.
Open Scope Z_scope.

(** ** Rounding and wrapping *)
Lemma nearest_even_round y : nearest_even y (round_even y).
Proof.
  unfold nearest_even, round_even. set (f := Qcfloor y). destruct (Qcfloor_spec y) as [H1 H2]. fold f in H1, H2.
  rewrite Zc_plus, Zc_1 in H2. cbv zeta.
  destruct (Qcltb _ _) eqn:E1.
  - apply Qcltb_lt in E1. left. split; qclra.
  - apply Qcltb_ge in E1. destruct (Qceqb _ _) eqn:E2.
    + apply Qceqb_eq in E2. right. destruct (Z.even f) eqn:Ev.
      * split; [right; qclra|assumption].
      * split; [left; rewrite Zc_plus, Zc_1; qclra|]. rewrite Z.even_add, Ev. reflexivity.
    + apply Qceqb_neq in E2. left. rewrite Zc_plus, Zc_1.
      assert (Q2Qc (1#2) < y - Zc f)%Qc.
      { apply Qcle_lt_or_eq in E1. destruct E1 as [E1|E1]; [assumption|]. exfalso. congruence. }
      split; qclra.
Qed.

Lemma nearest_even_unique y m : nearest_even y m -> m = round_even y.
Proof.
  intros H. pose proof (nearest_even_round y) as K. revert K. generalize (round_even y) as k. intros k K.
  destruct H as [[H1 H2]|[H E]].
  - assert (round_even y = m) by now apply round_even_unique.
    destruct K as [[K1 K2]|[K F]].
    + assert (round_even y = k) by now apply round_even_unique. congruence.
    + exfalso.
      destruct K as [K|K]; rewrite K in H1, H2.
      * assert (Zc m < Zc k)%Qc by qclra. assert (Zc k < Zc (m + 1))%Qc by (rewrite Zc_plus, Zc_1; qclra).
        rewrite Zc_lt in *. lia.
      * assert (Zc k < Zc m)%Qc by qclra. assert (Zc m < Zc (k + 1))%Qc by (rewrite Zc_plus, Zc_1; qclra).
        rewrite Zc_lt in *. lia.
  - destruct K as [[K1 K2]|[K F]].
    + exfalso. destruct H as [H|H]; rewrite H in K1, K2.
      * assert (Zc k < Zc m)%Qc by qclra. assert (Zc m < Zc (k + 1))%Qc by (rewrite Zc_plus, Zc_1; qclra).
        rewrite Zc_lt in *. lia.
      * assert (Zc m < Zc k)%Qc by qclra. assert (Zc k < Zc (m + 1))%Qc by (rewrite Zc_plus, Zc_1; qclra).
        rewrite Zc_lt in *. lia.
    + assert (C : m = k \/ m = k + 1 \/ k = m + 1).
      { destruct H as [H|H], K as [K|K]; rewrite H in K.
        - left. apply Zc_inj. qclra.
        - right; left. apply Zc_inj. rewrite Zc_plus, Zc_1. qclra.
        - right; right. apply Zc_inj. rewrite Zc_plus, Zc_1. qclra.
        - left. apply Zc_inj. qclra. }
      destruct C as [C|[C|C]]; [assumption|subst..]; rewrite Z.even_add in *;
        match goal with A : Z.even ?x = true |- _ => rewrite A in * end; discriminate.
Qed.

Lemma mod1_frac n d : mod1 (Q2Qc (n # d)) = Q2Qc ((n mod Zpos d) # d).
Proof.
  unfold mod1.
  assert (F : Qcfloor (Q2Qc (n # d)) = n / Zpos d).
  { unfold Qcfloor. rewrite this_Q2Qc. reflexivity. }
  rewrite F. apply Qc_is_canon. rewrite this_minus, this_Zc, !this_Q2Qc.
  unfold Qeq, Qminus, Qplus, Qopp, inject_Z; cbn.
  pose proof (Z_div_mod_eq_full n (Zpos d)) as E. nia.
Qed.

Lemma tofrac1_eq x : tofrac1 x = Q2Qc ((round_even (x * Zc 1000)%Qc mod 1000) # 1000).
Proof.
  unfold tofrac1. unfold around at 2. change (pow10 3) with 1000%positive.
  rewrite mod1_frac. exact (around_frac 3 _).
Qed.

Lemma tofrac1_wrap3 x k : wrap3 x k <-> k = tofrac1 x.
Proof.
  rewrite tofrac1_eq. split.
  - intros [m [H ->]]. apply nearest_even_unique in H. now subst.
  - intros ->. exists (round_even (x * Zc 1000)%Qc). split; [apply nearest_even_round|reflexivity].
Qed.

Lemma tofrac_vwrap3 p k : vwrap3 p k <-> k = tofrac p.
Proof.
  unfold vwrap3. rewrite !tofrac1_wrap3. destruct k as [a b c]; cbn. unfold tofrac, vmap. split.
  - intros [-> [-> ->]]. reflexivity.
  - intros E. injection E as -> -> ->. auto.
Qed.

Lemma Forall2_vwrap3 pos ks : Forall2 vwrap3 pos ks <-> ks = List.map tofrac pos.
Proof.
  split.
  - induction 1; cbn; [reflexivity|]. apply tofrac_vwrap3 in H. congruence.
  - intros ->. induction pos; cbn; constructor; auto. now apply tofrac_vwrap3.
Qed.

Lemma tofrac1_shift x z : tofrac1 (x + Zc z)%Qc = tofrac1 x.
Proof.
  rewrite !tofrac1_eq. f_equal. f_equal.
  replace ((x + Zc z) * Zc 1000)%Qc with (x * Zc 1000 + Zc (z * 1000))%Qc by (rewrite Zc_mult; ring).
  rewrite round_even_add_even.
  - now rewrite Z.mod_add.
  - rewrite Z.even_mul. now rewrite orb_true_r.
Qed.

Lemma tofrac_shift p q : int_shift p q -> tofrac q = tofrac p.
Proof.
  intros [a [b [c ->]]]. unfold tofrac, vmap; cbn. now rewrite !tofrac1_shift.
Qed.

(** ** reordering *)
Lemma reordered_map A (x : list A) r d : (forall i, In i r -> (i < length x)%nat) ->
  reordered x r (List.map (fun i => nth i x d) r).
Proof.
  unfold reordered. induction r as [|i r IH]; intros H; cbn; constructor.
  - apply nth_error_nth'. apply H. now left.
  - apply IH. intros j Hj. apply H. now right.
Qed.

Lemma reordered_eq A (x : list A) r y d : reordered x r y -> y = List.map (fun i => nth i x d) r.
Proof.
  unfold reordered. induction 1; cbn; [reflexivity|].
  f_equal; [|assumption]. symmetry. now apply nth_error_nth.
Qed.

Lemma take_idx_reordered A (x : list A) r y : take_idx x r = Ok y <-> reordered x r y.
Proof.
  unfold take_idx, reordered. rewrite mapM_ok_forall2. split; intros H.
  - induction H; constructor; auto. now apply get_nth_ok.
  - induction H; constructor; auto. now apply get_nth_ok.
Qed.

Definition order_of (pos : list (vec Qc)) : list nat := lexsort (List.map tofrac pos).

Lemma order_of_perm pos : Permutation (order_of pos) (seq 0 (length pos)).
Proof. unfold order_of. rewrite <- (map_length tofrac pos). apply lexsort_perm. Qed.

Lemma order_of_In pos i : In i (order_of pos) <-> (i < length pos)%nat.
Proof. unfold order_of. rewrite lexsort_In, map_length. reflexivity. Qed.

Lemma order_of_length pos : length (order_of pos) = length pos.
Proof. unfold order_of. now rewrite lexsort_length, map_length. Qed.

Lemma get_new_id_seq_ok pos : pos <> [] -> get_new_id_seq pos = Ok (order_of pos).
Proof. destruct pos; [congruence|reflexivity]. Qed.

Definition sortp (pos : list (vec Qc)) := List.map (fun i => nth i pos v0) (order_of pos).
Definition sortn (pos : list (vec Qc)) (nums : list Z) := List.map (fun i => nth i nums 0) (order_of pos).

Lemma GeneralCell_new_ok lat pos nums :
  pos <> [] -> (length pos <= length nums)%nat ->
  GeneralCell_new lat pos nums =
    Ok (mkG lat (sortp pos) (sortn pos nums) (lat, sortp pos, sortn pos nums) (length nums)).
Proof.
  intros N L. unfold GeneralCell_new. rewrite get_new_id_seq_ok by assumption. cbn.
  rewrite take_idx_ok with (d := v0) by (intros i Hi; now apply order_of_In). cbn.
  rewrite take_idx_ok with (d := 0).
  - reflexivity.
  - intros i Hi. apply order_of_In in Hi. lia.
Qed.

Lemma GeneralCell_new_empty lat nums : GeneralCell_new lat [] nums = Raise ValueError.
Proof. reflexivity. Qed.

Lemma mapM_raise A B (f : A -> res B) l e :
  (exists x, In x l /\ f x = Raise e) -> (forall x e', In x l -> f x = Raise e' -> e' = e) -> mapM f l = Raise e.
Proof.
  induction l as [|x l IH]; intros [y [Hy E]] U; [easy|]. cbn.
  destruct (f x) as [b|e'] eqn:Ex.
  - destruct Hy as [->|Hy]; [congruence|]. cbn.
    rewrite IH; [reflexivity|eauto|]. intros z e' Hz. apply U. now right.
  - cbn. f_equal. eapply U; [now left|eassumption].
Qed.

Lemma GeneralCell_new_few_numbers lat pos nums :
  (length nums < length pos)%nat -> GeneralCell_new lat pos nums = Raise IndexError.
Proof.
  intros L. unfold GeneralCell_new. rewrite get_new_id_seq_ok by (destruct pos; [cbn in L; lia|discriminate]). cbn.
  rewrite take_idx_ok with (d := v0) by (intros i Hi; now apply order_of_In). cbn.
  unfold take_idx. rewrite mapM_raise with (e := IndexError).
  - reflexivity.
  - exists (length nums). split; [now apply order_of_In|]. unfold get_nth.
    destruct (nth_error nums (length nums)) eqn:E; [|reflexivity].
    assert (nth_error nums (length nums) <> None) by congruence. apply nth_error_Some in H. lia.
  - intros x e' _. unfold get_nth. destruct (nth_error nums x); congruence.
Qed.

Lemma GeneralCell_new_inv lat pos nums c : GeneralCell_new lat pos nums = Ok c ->
  pos <> [] /\ (length pos <= length nums)%nat.
Proof.
  intros H. split.
  - intros ->. discriminate.
  - destruct (Nat.le_gt_cases (length pos) (length nums)) as [L|L]; [assumption|].
    rewrite GeneralCell_new_few_numbers in H by assumption. discriminate.
Qed.

Lemma sortp_length pos : length (sortp pos) = length pos.
Proof. unfold sortp. now rewrite map_length, order_of_length. Qed.
Lemma sortn_length pos nums : length (sortn pos nums) = length pos.
Proof. unfold sortn. now rewrite map_length, order_of_length. Qed.

(** ** C08 *)
Lemma C08_lemma lat pos nums : pos <> [] -> length pos = length nums ->
  exists c ks r,
    GeneralCell_new lat pos nums = Ok c /\ lattice c = lat /\
    Forall2 vwrap3 pos ks /\ stable_argsort ks r /\
    reordered pos r (positions c) /\ reordered nums r (numbers c) /\
    spg_cell c = (lat, positions c, numbers c) /\ num_count c = length nums.
Proof.
  intros N L. eexists _, (List.map tofrac pos), (order_of pos).
  split; [apply GeneralCell_new_ok; [assumption|lia]|]. cbn.
  split; [reflexivity|]. split; [now apply Forall2_vwrap3|]. split; [apply lexsort_spec|].
  split; [apply reordered_map; intros i Hi; now apply order_of_In|].
  split; [apply reordered_map; intros i Hi; apply order_of_In in Hi; lia|].
  split; reflexivity.
Qed.

Lemma combine_map_map A B C (f : A -> B) (g : A -> C) l :
  combine (List.map f l) (List.map g l) = List.map (fun i => (f i, g i)) l.
Proof. induction l; cbn; congruence. Qed.

Lemma sort_pairs pos nums : length pos = length nums ->
  combine (sortp pos) (sortn pos nums) =
  List.map (fun i => nth i (combine pos nums) (v0, 0)) (order_of pos).
Proof.
  intros L. unfold sortp, sortn. rewrite combine_map_map. apply map_ext. intros i.
  now rewrite combine_nth.
Qed.

Lemma sort_pairs_perm pos nums : length pos = length nums ->
  Permutation (combine (sortp pos) (sortn pos nums)) (combine pos nums).
Proof.
  intros L. rewrite sort_pairs by assumption. rewrite order_of_perm.
  pose proof (map_nth_seq (combine pos nums) (v0, 0)) as E.
  rewrite combine_length, <- L, Nat.min_id in E. now rewrite E.
Qed.

Lemma C08_pairs lat pos nums c : length pos = length nums ->
  GeneralCell_new lat pos nums = Ok c ->
  Permutation (combine (positions c) (numbers c)) (combine pos nums).
Proof.
  intros L H. destruct (GeneralCell_new_inv _ _ _ H) as [N _].
  rewrite GeneralCell_new_ok in H by (auto; lia). injection H as <-. now apply sort_pairs_perm.
Qed.

(** ** C09 *)
Lemma keys_sortp pos : List.map tofrac (sortp pos) = List.map (key_at (List.map tofrac pos)) (order_of pos).
Proof.
  unfold sortp. rewrite map_map. apply map_ext_in. intros i Hi. apply order_of_In in Hi.
  unfold key_at. rewrite (nth_indep (List.map tofrac pos) v0 (tofrac v0)) by (now rewrite map_length).
  now rewrite map_nth.
Qed.

Lemma order_of_sortp pos : order_of (sortp pos) = seq 0 (length pos).
Proof.
  unfold order_of at 1. rewrite keys_sortp. unfold order_of.
  rewrite lexsort_id; [|apply lexsort_keys_sorted].
  now rewrite map_length, lexsort_length, map_length.
Qed.

Lemma sorted_positions_order pos : order_of (sortp pos) = seq 0 (length (sortp pos)).
Proof. rewrite order_of_sortp. now rewrite sortp_length. Qed.

(** A cell whose positions are in canonical order. *)
Definition canonical (pos : list (vec Qc)) : Prop := order_of pos = seq 0 (length pos).

Lemma canonical_new lat pos nums : canonical pos -> pos <> [] -> length pos = length nums ->
  GeneralCell_new lat pos nums = Ok (mkG lat pos nums (lat, pos, nums) (length nums)).
Proof.
  intros C N L. rewrite GeneralCell_new_ok by (auto; lia).
  assert (E1 : sortp pos = pos) by (unfold sortp; rewrite C; apply map_nth_seq).
  assert (E2 : sortn pos nums = nums) by (unfold sortn; rewrite C, L; apply map_nth_seq).
  now rewrite E1, E2.
Qed.

Lemma C09_idempotent lat pos nums c : length pos = length nums ->
  GeneralCell_new lat pos nums = Ok c ->
  GeneralCell_new (lattice c) (positions c) (numbers c) = Ok c.
Proof.
  intros L H. destruct (GeneralCell_new_inv _ _ _ H) as [N _].
  rewrite GeneralCell_new_ok in H by (auto; lia). injection H as <-. cbn.
  rewrite canonical_new.
  - now rewrite sortn_length, L.
  - apply sorted_positions_order.
  - intros E. apply (f_equal (@length _)) in E. rewrite sortp_length in E. destruct pos; [congruence|discriminate].
  - now rewrite sortp_length, sortn_length.
Qed.

Definition pair_lt (a b : vec Qc * Z) : Prop := vlt (tofrac (fst a)) (tofrac (fst b)).

Lemma distinct_sorted pos nums : length pos = length nums -> NoDup (List.map tofrac pos) ->
  StronglySorted pair_lt (combine (sortp pos) (sortn pos nums)).
Proof.
  intros L ND. unfold sortp, sortn. rewrite combine_map_map. apply nth_StronglySorted.
  intros a b x y Lab Ha Hb. rewrite nth_error_map in Ha, Hb.
  destruct (nth_error (order_of pos) a) as [i|] eqn:Ea; [|discriminate].
  destruct (nth_error (order_of pos) b) as [j|] eqn:Eb; [|discriminate].
  cbn in Ha, Hb. injection Ha as <-. injection Hb as <-. unfold pair_lt; cbn.
  assert (Hi : (i < length pos)%nat) by (apply order_of_In; eapply nth_error_In; eauto).
  assert (Hj : (j < length pos)%nat) by (apply order_of_In; eapply nth_error_In; eauto).
  pose proof (StronglySorted_nth (lexsort_sorted (List.map tofrac pos)) Lab Ea Eb) as H.
  unfold idx_lt in H.
  assert (K : forall i, (i < length pos)%nat -> key_at (List.map tofrac pos) i = tofrac (nth i pos v0)).
  { intros k Hk. unfold key_at. rewrite (nth_indep (List.map tofrac pos) v0 (tofrac v0)) by (now rewrite map_length). now rewrite map_nth. }
  rewrite !K in H by assumption. destruct H as [H|[H H']]; [assumption|]. exfalso.
  assert (i = j); [|lia].
  rewrite <- !K in H by assumption. unfold key_at in H.
  apply (proj1 (NoDup_nth (List.map tofrac pos) v0) ND); rewrite ?map_length; assumption.
Qed.

Lemma combine_inj A B (a a' : list A) (b b' : list B) :
  length a = length b -> length a' = length b' -> combine a b = combine a' b' -> a = a' /\ b = b'.
Proof.
  intros L L' E. split.
  - rewrite <- (map_fst_combine a b L), E, (map_fst_combine _ _ L'). reflexivity.
  - rewrite <- (map_snd_combine a b L), E, (map_snd_combine _ _ L'). reflexivity.
Qed.

Lemma C09_order_independent lat pos nums pos' nums' :
  length pos = length nums -> length pos' = length nums' ->
  Permutation (combine pos nums) (combine pos' nums') ->
  (forall ks, Forall2 vwrap3 pos ks -> NoDup ks) ->
  GeneralCell_new lat pos nums = GeneralCell_new lat pos' nums'.
Proof.
  intros L L' P ND. specialize (ND (List.map tofrac pos) (proj2 (Forall2_vwrap3 _ _) eq_refl)).
  assert (LL : length pos = length pos').
  { apply Permutation_length in P. rewrite !combine_length in P. lia. }
  destruct pos as [|p pos0] eqn:Ep.
  { destruct pos'; [reflexivity|discriminate]. }
  rewrite <- Ep in *. assert (N : pos <> []) by (subst; discriminate). clear Ep p pos0.
  assert (N' : pos' <> []) by (destruct pos'; [destruct pos; [congruence|discriminate]|discriminate]).
  rewrite !GeneralCell_new_ok by (auto; lia).
  assert (ND' : NoDup (List.map tofrac pos')).
  { eapply Permutation_NoDup; [|exact ND]. apply Permutation_map.
    apply (Permutation_map fst) in P. now rewrite !map_fst_combine in P by assumption. }
  assert (E : combine (sortp pos) (sortn pos nums) = combine (sortp pos') (sortn pos' nums')).
  { apply (@sorted_unique _ pair_lt).
    - intros x y H K. eapply vlt_irrefl, vlt_trans; eauto.
    - now apply distinct_sorted.
    - now apply distinct_sorted.
    - rewrite !sort_pairs_perm by assumption. exact P. }
  apply combine_inj in E; [|now rewrite sortp_length, sortn_length..].
  destruct E as [E1 E2]. rewrite E1, E2. replace (length nums') with (length nums) by lia. reflexivity.
Qed.

Lemma C09_shift lat pos pos' nums c : Forall2 int_shift pos pos' ->
  GeneralCell_new lat pos nums = Ok c ->
  exists c', GeneralCell_new lat pos' nums = Ok c' /\ numbers c' = numbers c /\
             Forall2 int_shift (positions c) (positions c').
Proof.
  intros S H. destruct (GeneralCell_new_inv _ _ _ H) as [N L].
  assert (LL : length pos = length pos') by (eapply Forall2_len; eauto).
  assert (E : List.map tofrac pos' = List.map tofrac pos).
  { clear - S. induction S; cbn; [reflexivity|]. rewrite IHS. f_equal. now apply tofrac_shift. }
  rewrite GeneralCell_new_ok in H by assumption. injection H as <-.
  eexists. split; [apply GeneralCell_new_ok; [|lia]|].
  { intros ->. destruct pos; [congruence|discriminate]. }
  cbn. unfold sortn, sortp, order_of. rewrite E. split; [reflexivity|].
  assert (F : forall r, (forall i, In i r -> (i < length pos)%nat) ->
     Forall2 int_shift (List.map (fun i => nth i pos v0) r) (List.map (fun i => nth i pos' v0) r)).
  { intros r Hr. induction r as [|i r IH]; cbn; constructor.
    - assert (Hi : (i < length pos)%nat) by (apply Hr; now left). clear - S Hi.
      revert i Hi. induction S; intros [|i] Hi; cbn in *; try lia; [assumption|]. apply IHS. lia.
    - apply IH. intros j Hj. apply Hr. now right. }
  apply F. intros i Hi. now apply order_of_In.
Qed.

(** ** C10 *)
Lemma C10_lemma lat pos nums :
  (pos = [] -> GeneralCell_new lat pos nums = Raise ValueError) /\
  ((length nums < length pos)%nat -> GeneralCell_new lat pos nums = Raise IndexError) /\
  (pos <> [] -> (length pos <= length nums)%nat -> exists c, GeneralCell_new lat pos nums = Ok c /\
     length (positions c) = length pos /\ length (numbers c) = length pos /\
     Permutation (numbers c) (firstn (length pos) nums) /\ num_count c = length nums).
Proof.
  split; [intros ->; reflexivity|]. split; [apply GeneralCell_new_few_numbers|].
  intros N L. eexists. split; [now apply GeneralCell_new_ok|]. cbn.
  split; [apply sortp_length|]. split; [apply sortn_length|]. split; [|reflexivity].
  unfold sortn. rewrite order_of_perm.
  assert (F : length (firstn (length pos) nums) = length pos) by (rewrite firstn_length; lia).
  rewrite <- (map_nth_seq (firstn (length pos) nums) 0), F.
  erewrite map_ext_in; [reflexivity|]. intros i Hi. apply in_seq in Hi. cbn.
  rewrite <- (firstn_skipn (length pos) nums) at 1. rewrite app_nth1 by lia. reflexivity.
Qed.

(** ** C12: composition formula *)
Definition get_count (k : string) (d : list (string * nat)) : nat :=
  match find (fun kv => String.eqb (fst kv) k) d with Some kv => snd kv | None => 0%nat end.

Lemma counter_add_keys k d :
  NoDup (List.map fst d) -> NoDup (List.map fst (counter_add k d)) /\
  (forall x, In x (List.map fst (counter_add k d)) <-> x = k \/ In x (List.map fst d)).
Proof.
  induction d as [|[k' v] d IH]; cbn; intros ND.
  - split; [repeat constructor; easy|]. intros x. intuition congruence.
  - inversion ND as [|? ? N ND']; subst. destruct (String.eqb_spec k k') as [->|D]; cbn.
    + split; [assumption|]. intros x. intuition congruence.
    + destruct (IH ND') as [IH1 IH2]. split.
      * constructor; [|assumption]. rewrite IH2. intros [E|E]; congruence.
      * intros x. rewrite IH2. intuition congruence.
Qed.

Lemma counter_add_get k d x :
  get_count x (counter_add k d) = if String.eqb k x then S (get_count x d) else get_count x d.
Proof.
  unfold get_count. induction d as [|[k' v] d IH]; cbn.
  - destruct (String.eqb k x); reflexivity.
  - destruct (String.eqb_spec k k') as [->|D]; cbn.
    + destruct (String.eqb k' x); reflexivity.
    + destruct (String.eqb_spec k' x) as [->|D'].
      * destruct (String.eqb_spec k x); congruence.
      * exact IH.
Qed.

Lemma counter_spec names :
  NoDup (List.map fst (counter names)) /\
  (forall x, In x (List.map fst (counter names)) <-> In x names) /\
  (forall x, get_count x (counter names) = count_occ string_dec names x).
Proof.
  unfold counter.
  enough (G : forall d, NoDup (List.map fst d) ->
    NoDup (List.map fst (fold_left (fun d k => counter_add k d) names d)) /\
    (forall x, In x (List.map fst (fold_left (fun d k => counter_add k d) names d)) <-> In x (List.map fst d) \/ In x names) /\
    (forall x, get_count x (fold_left (fun d k => counter_add k d) names d) = (get_count x d + count_occ string_dec names x)%nat)).
  { destruct (G []) as [G1 [G2 G3]]; [constructor|]. split; [assumption|]. split.
    - intros x. rewrite G2. cbn. tauto.
    - intros x. rewrite G3. reflexivity. }
  induction names as [|k names IH]; intros d ND; cbn.
  - split; [assumption|]. split; intros x; [tauto|lia].
  - destruct (counter_add_keys k d ND) as [K1 K2]. destruct (IH _ K1) as [H1 [H2 H3]].
    split; [assumption|]. split; intros x.
    + rewrite H2, K2. intuition congruence.
    + rewrite H3, counter_add_get. destruct (string_dec k x) as [->|D].
      * rewrite String.eqb_refl. lia.
      * destruct (String.eqb_spec k x); [congruence|]. lia.
Qed.

Lemma get_count_In k v d : NoDup (List.map fst d) -> In (k, v) d -> get_count k d = v.
Proof.
  unfold get_count. induction d as [|[k' v'] d IH]; cbn; intros ND H; [easy|].
  inversion ND as [|? ? N ND']; subst. destruct H as [E|H].
  - injection E as -> ->. rewrite String.eqb_refl. reflexivity.
  - destruct (String.eqb_spec k' k) as [->|D]; [|auto].
    exfalso. apply N. apply in_map_iff. exists (k, v). auto.
Qed.

Lemma name_Z_element z s : is_element z s -> name_Z s = z.
Proof. intros H. unfold name_Z. destruct (Specie_new_total H) as [sp [-> E]]. exact E. Qed.

Lemma names_count nums names z s : Forall2 is_element nums names -> is_element z s ->
  count_occ string_dec names s = count_occ Z.eq_dec nums z.
Proof.
  intros F Hz. induction F as [|a b nums names Hab F IH]; cbn; [reflexivity|].
  destruct (string_dec b s) as [->|D], (Z.eq_dec a z) as [->|D'].
  - lia.
  - exfalso. apply D'. eapply element_inj; eauto.
  - exfalso. apply D. eapply element_fun; eauto.
  - assumption.
Qed.

Lemma names_In nums names s : Forall2 is_element nums names -> In s names ->
  exists z, In z nums /\ is_element z s.
Proof.
  induction 1; intros H1; [easy|]. destruct H1 as [<-|H1].
  - exists x. split; [now left|assumption].
  - destruct (IHForall2 H1) as [z [Hz Hs]]. exists z. split; [now right|assumption].
Qed.

Lemma nums_In nums names z : Forall2 is_element nums names -> In z nums ->
  exists s, In s names /\ is_element z s.
Proof.
  induction 1; intros H1; [easy|]. destruct H1 as [<-|H1].
  - exists y. split; [now left|assumption].
  - destruct (IHForall2 H1) as [s [Hz Hs]]. exists s. split; [now right|assumption].
Qed.

Lemma mapM_to_name nums : Forall supported nums -> exists names, mapM to_name nums = Ok names /\ Forall2 is_element nums names.
Proof.
  induction 1 as [|z nums Hz H IH]; cbn; [exists []; split; [reflexivity|constructor]|].
  destruct IH as [names [E F]]. apply supported_iff in Hz. destruct Hz as [s Hs].
  apply to_name_spec in Hs as T. rewrite T, E. cbn. exists (s :: names). split; [reflexivity|]. now constructor.
Qed.

Lemma mapM_to_name_err nums : ~ Forall supported nums -> mapM to_name nums = Raise IndexError.
Proof.
  intros H. apply mapM_raise.
  - assert (D : forall z, {supported z} + {~ supported z}).
    { intros z. unfold supported. destruct (Z_le_gt_dec 0 z), (Z_le_gt_dec z 56), (Z_le_gt_dec 72 z), (Z_le_gt_dec z 88);
      solve [left; lia | right; lia]. }
    apply neg_Forall_Exists_neg in H; [|exact D]. apply Exists_exists in H. destruct H as [z [Hz Hn]].
    exists z. split; [assumption|]. now apply to_name_err.
  - intros z e Hz E. destruct (Z.eq_dec z 0) as [->|N]; [discriminate|].
    unfold to_name in E. destruct (Z.eqb_spec z 0); [congruence|].
    destruct (key_of_num_cases z) as [K|[s K]]; congruence.
Qed.

Lemma StronglySorted_filter A (R : A -> A -> Prop) f l : StronglySorted R l -> StronglySorted R (List.filter f l).
Proof.
  induction 1 as [|x l H IH Hx]; cbn; [constructor|]. destruct (f x); [|assumption].
  constructor; [assumption|]. rewrite Forall_forall in *. intros y Hy. apply filter_In in Hy. apply Hx. tauto.
Qed.

Lemma comment_spec c : Forall supported (numbers c) -> exists s, comment c = Ok s /\ formula (numbers c) s.
Proof.
  intros S. unfold comment. destruct (mapM_to_name S) as [names [E F]]. rewrite E. cbn [bind].
  set (le := fun a b : string * nat => Z.leb (name_Z (fst a)) (name_Z (fst b))).
  set (l := List.filter _ (isort le (counter names))).
  eexists. split; [reflexivity|].
  destruct (counter_spec names) as [C1 [C2 C3]].
  assert (InL : forall k v, In (k, v) l <-> In (k, v) (counter names) /\ k <> "G"%string).
  { intros k v. unfold l. rewrite filter_In. cbn. rewrite negb_true_iff, String.eqb_neq. split; intros [H1 H2]; (split; [|assumption]).
    - eapply Permutation_in; [apply isort_perm|exact H1].
    - eapply Permutation_in; [symmetry; apply isort_perm|exact H1]. }
  assert (El : forall k v, In (k, v) l -> exists z, In z (numbers c) /\ is_element z k /\ z <> 0 /\ v = count_occ Z.eq_dec (numbers c) z).
  { intros k v H. apply InL in H. destruct H as [H Hk].
    assert (In k names) by (apply C2; apply in_map_iff; exists (k, v); auto).
    destruct (names_In _ F H0) as [z [Hz Hzk]]. exists z. split; [assumption|]. split; [assumption|]. split.
    - intros ->. apply element_0 in Hzk. congruence.
    - rewrite <- (names_count F Hzk), <- C3. symmetry. now apply get_count_In. }
  exists (List.map (fun kv => name_Z (fst kv)) l), (List.map (fun kv => String.append (fst kv) (dec (snd kv))) l).
  assert (ND : NoDup l).
  { apply NoDup_filter. eapply Permutation_NoDup; [symmetry; apply isort_perm|]. now apply NoDup_map_inv in C1. }
  split; [|split; [|split]].
  - assert (SS : StronglySorted (fun a b => le a b = true) l).
    { apply StronglySorted_filter, isort_sorted.
      - intros x y. unfold le. rewrite !Z.leb_le. lia.
      - intros x y z. unfold le. rewrite !Z.leb_le. lia. }
    assert (Ninj : forall k v k' v', In (k, v) l -> In (k', v') l -> name_Z k = name_Z k' -> (k, v) = (k', v')).
    { intros k v k' v' H H' EZ. destruct (El _ _ H) as [z [_ [Hz [_ Hv]]]], (El _ _ H') as [z' [_ [Hz' [_ Hv']]]].
      rewrite (name_Z_element Hz), (name_Z_element Hz') in EZ. subst z'.
      rewrite (element_fun Hz Hz'). congruence. }
    clear - SS ND Ninj. induction SS as [|x l H IH Hx]; cbn; constructor.
    + inversion ND; subst. apply IH; [assumption|]. intros. eapply Ninj; eauto; now right.
    + apply Forall_forall. intros y Hy. apply in_map_iff in Hy. destruct Hy as [kv [<- Hkv]].
      rewrite Forall_forall in Hx. specialize (Hx _ Hkv). unfold le in Hx. apply Z.leb_le in Hx.
      destruct (Z.eq_dec (name_Z (fst x)) (name_Z (fst kv))) as [EZ|NZ]; [|lia].
      exfalso. inversion ND; subst. apply H2. destruct x as [k v], kv as [k' v'].
      rewrite (Ninj k v k' v'); [assumption|now left|now right|assumption].
  - intros z. rewrite in_map_iff. split.
    + intros [[k v] [<- H]]. destruct (El _ _ H) as [z [H1 [H2 [H3 _]]]]. cbn. rewrite (name_Z_element H2). auto.
    + intros [Hz N0]. destruct (nums_In _ F Hz) as [s [Hs Hel]].
      apply C2 in Hs. apply in_map_iff in Hs. destruct Hs as [[k v] [Hk Hkv]]. cbn in Hk. subst k.
      exists (s, v). split; [cbn; now apply name_Z_element|]. apply InL. split; [assumption|].
      intros ->. apply N0. apply (element_inj Hel). now apply element_0.
  - clear - El.
    assert (G : forall l', incl l' l -> Forall2 (fun z p => exists sym, is_element z sym /\ p = String.append sym
             (DecimalString.NilEmpty.string_of_uint (Nat.to_uint (count_occ Z.eq_dec (numbers c) z))))
             (List.map (fun kv => name_Z (fst kv)) l') (List.map (fun kv => String.append (fst kv) (dec (snd kv))) l')).
    { induction l' as [|[k v] l' IH]; intros I; cbn; constructor.
      - destruct (El k v) as [z [H1 [H2 [H3 H4]]]]; [apply I; now left|].
        exists k. rewrite (name_Z_element H2). split; [assumption|]. unfold dec. now rewrite H4.
      - apply IH. intros x Hx. apply I. now right. }
    apply G. apply incl_refl.
  - reflexivity.
Qed.

Lemma formula_perm nums nums' s : Permutation nums nums' -> formula nums s -> formula nums' s.
Proof.
  intros P [zs [parts [H1 [H2 [H3 H4]]]]]. exists zs, parts. split; [assumption|]. split; [|split; [|assumption]].
  - intros z. rewrite H2. split; intros [H H']; (split; [|assumption]).
    + eapply Permutation_in; eauto.
    + eapply Permutation_in; [symmetry|]; eauto.
  - clear - H3 P. induction H3 as [|z p zs parts [sym [Hs ->]] H IH]; constructor; [|assumption].
    exists sym. split; [assumption|]. do 3 f_equal. now apply Permutation_count_occ.
Qed.

Lemma formula_unique nums s s' : formula nums s -> formula nums s' -> s = s'.
Proof.
  intros [zs [parts [H1 [H2 [H3 ->]]]]] [zs' [parts' [H1' [H2' [H3' ->]]]]].
  assert (zs = zs').
  { apply (@sorted_unique _ Z.lt); [intros; lia|assumption..|].
    assert (forall l, StronglySorted Z.lt l -> NoDup l) as ND.
    { induction 1 as [|a l H IH Ha]; constructor; [|assumption]. intros I. rewrite Forall_forall in Ha. specialize (Ha _ I). lia. }
    apply NoDup_Permutation; [auto..|]. intros z. rewrite H2, H2'. tauto. }
  subst zs'. f_equal. clear - H3 H3'. revert parts' H3'. induction H3 as [|z p zs parts [sym [Hs ->]] H IH]; intros parts' H'.
  - inversion H'; reflexivity.
  - inversion H' as [|? p' ? ? [sym' [Hs' ->]] H'']; subst. rewrite (element_fun Hs Hs'). f_equal. now apply IH.
Qed.

Lemma comment_order_independent c c' : Permutation (numbers c) (numbers c') -> comment c = comment c'.
Proof.
  intros P.
  assert (D : Forall supported (numbers c) \/ ~ Forall supported (numbers c)).
  { destruct (Forall_dec supported) with (l := numbers c) as [H|H]; auto.
    intros z. unfold supported. destruct (Z_le_gt_dec 0 z), (Z_le_gt_dec z 56), (Z_le_gt_dec 72 z), (Z_le_gt_dec z 88);
      solve [left; lia | right; lia]. }
  destruct D as [D|D].
  - assert (D' : Forall supported (numbers c')) by (eapply Permutation_Forall; eauto).
    destruct (comment_spec _ D) as [s [E F]], (comment_spec _ D') as [s' [E' F']].
    rewrite E, E'. f_equal. eapply formula_unique; [|exact F']. eapply formula_perm; eauto.
  - assert (D' : ~ Forall supported (numbers c')).
    { intros H. apply D. eapply Permutation_Forall; [|exact H]. now symmetry. }
    unfold comment. now rewrite !mapM_to_name_err.
Qed.

(** ** C11 *)
Definition consistent (c : gcell) : Prop := views_agree (lattice c) (positions c) (numbers c) (spg_cell c).

Lemma C11_exact c arr : views_agree (lattice c) (positions c) (numbers c) (spg_cell c) ->
  (views_agree (lattice (set_numbers c arr)) (positions (set_numbers c arr)) (numbers (set_numbers c arr)) (spg_cell (set_numbers c arr))
   <-> arr = numbers c).
Proof. unfold views_agree. cbn. intros ->. split; congruence. Qed.

Lemma GeneralCell_new_views lat pos nums c : GeneralCell_new lat pos nums = Ok c ->
  views_agree (lattice c) (positions c) (numbers c) (spg_cell c).
Proof.
  intros H. destruct (GeneralCell_new_inv _ _ _ H). rewrite GeneralCell_new_ok in H by assumption.
  injection H as <-. reflexivity.
Qed.

Lemma get_speckle_num_spec c z : get_speckle_num c z = count_occ Z.eq_dec (numbers c) z.
Proof.
  unfold get_speckle_num. change (count_occ Z.eq_dec (numbers c) z) with (0 + count_occ Z.eq_dec (numbers c) z)%nat.
  generalize 0%nat. induction (numbers c) as [|x l IH]; intros n; cbn; [lia|]. rewrite IH.
  destruct (Z.eqb_spec x z), (Z.eq_dec x z); try congruence; lia.
Qed.

Lemma C11_frame c arr : numbers (set_numbers c arr) = arr /\ lattice (set_numbers c arr) = lattice c /\
  positions (set_numbers c arr) = positions c /\ spg_cell (set_numbers c arr) = spg_cell c /\
  num_count (set_numbers c arr) = num_count c /\
  (forall h, cell_id h (set_numbers c arr) = h arr) /\
  (forall z, get_speckle_num (set_numbers c arr) z = count_occ Z.eq_dec arr z) /\
  (forall ops, get_symmetry_permutation ops (set_numbers c arr) = get_symmetry_permutation ops c).
Proof. repeat split. intros z. apply get_speckle_num_spec. Qed.
