From Verif Require Import Base LBase MComb SSubst.
Set Implicit Arguments.


Lemma combos_In A (l : list A) k c : In c (combos l k) <-> subseq c l /\ length c = k.
Proof.
  revert k c; induction l as [|x l IH]; intros k c.
  - destruct k; cbn.
    + split; [intros [<-|[]]; split; [constructor|reflexivity]|].
      intros [_ H]. destruct c; [now left|discriminate].
    + split; [easy|]. intros [H1 H2]. inversion H1; subst; discriminate.
  - destruct k as [|k]; cbn [combos].
    + split; [intros [<-|[]]; split; [constructor|reflexivity]|].
      intros [_ H]. destruct c; [now left|discriminate].
    + rewrite in_app_iff, in_map_iff. split.
      * intros [[c' [<- H]]|H]; apply IH in H; destruct H as [H1 H2].
        -- split; [now constructor|cbn; congruence].
        -- split; [now constructor|assumption].
      * intros [H1 H2]. inversion H1; subst; [discriminate| |].
        -- left. exists a. split; [reflexivity|]. apply IH. cbn in H2. split; [assumption|congruence].
        -- right. apply IH. auto.
Qed.

Lemma subseq_incl A (c l : list A) : subseq c l -> incl c l.
Proof.
  induction 1; intros y Hy.
  - easy.
  - destruct Hy; [now left|right; auto].
  - right; auto.
Qed.

Lemma subseq_NoDup A (c l : list A) : subseq c l -> NoDup l -> NoDup c.
Proof.
  induction 1; intros ND; inversion ND; subst; try constructor; auto.
  intros Hx. apply (subseq_incl H) in Hx. easy.
Qed.

Lemma subseq_refl A (l : list A) : subseq l l.
Proof. induction l; now constructor. Qed.

Lemma subseq_cons_inv A x (c l : list A) : subseq (x :: c) l -> subseq c l.
Proof.
  intros H. remember (x :: c) as d eqn:E. revert c E. induction H; intros c E; try discriminate.
  - injection E as -> ->. now apply sub_skip.
  - apply sub_skip. now apply IHsubseq.
Qed.

(** subsequences of a duplicate-free list are determined by their element set *)
Lemma subseq_set_eq A (c c' l : list A) :
  NoDup l -> subseq c l -> subseq c' l -> (forall x, In x c <-> In x c') -> c = c'.
Proof.
  intros ND H. revert c' ND. induction H as [l|x c l H IH|x c l H IH]; intros c' ND H' E.
  - destruct c' as [|y c']; [reflexivity|]. exfalso. apply (E y). now left.
  - inversion ND as [|? ? Nx ND']; subst. inversion H'; subst.
    + exfalso. apply (E x). now left.
    + f_equal. apply IH; [assumption..|]. intros y. split; intros Hy.
      * destruct (proj1 (E y)) as [->|]; [now right| |assumption].
        exfalso. apply Nx. apply (subseq_incl H). assumption.
      * destruct (proj2 (E y)) as [->|]; [now right| |assumption].
        exfalso. apply Nx. apply (subseq_incl H2). assumption.
    + exfalso. apply Nx. apply (subseq_incl H2). apply E. now left.
  - inversion ND as [|? ? Nx ND']; subst. inversion H'; subst.
    + destruct c as [|y c]; [reflexivity|]. exfalso. apply (E y). now left.
    + exfalso. apply Nx. apply (subseq_incl H). apply E. now left.
    + apply IH; assumption.
Qed.

(** every subset is represented by a subsequence *)
Lemma subset_subseq (P : nat -> Prop) (T S : list nat) k :
  NoDup T -> (forall i, P i -> In i T) -> subset_of_size P k S -> exists c, subseq c T /\ length c = k /\ (forall i, In i S <-> In i c).
Proof.
  intros NT PT [NS [L I]]. exists (filter (fun i => existsb (Nat.eqb i) S) T).
  assert (E : forall i, In i S <-> In i (filter (fun i => existsb (Nat.eqb i) S) T)).
  { intros i. rewrite filter_In, existsb_exists. split.
    - intros H. split; [auto|]. exists i. split; [assumption|apply Nat.eqb_refl].
    - intros [_ [j [Hj Ej]]]. apply Nat.eqb_eq in Ej. congruence. }
  split; [|split; [|exact E]].
  - clear. induction T as [|x T IH]; cbn; [constructor|].
    destruct (existsb _ _); now constructor.
  - rewrite <- L. apply Permutation_length. apply NoDup_Permutation.
    + now apply NoDup_filter.
    + assumption.
    + intros i. symmetry. apply E.
Qed.

Lemma combos_NoDup A (l : list A) k : NoDup l -> NoDup (combos l k).
Proof.
  revert k; induction l as [|x l IH]; intros k ND.
  - destruct k; cbn; repeat constructor. easy.
  - inversion ND as [|? ? Nx ND']; subst. destruct k as [|k]; cbn; [repeat constructor; easy|].
    assert (D : forall c, In c (List.map (cons x) (combos l k)) -> ~ In c (combos l (S k))).
    { intros c Hc Hc'. apply in_map_iff in Hc. destruct Hc as [c' [<- _]].
      apply combos_In in Hc'. destruct Hc' as [Hc' _]. apply subseq_incl in Hc'.
      apply Nx. apply Hc'. now left. }
    assert (NM : NoDup (List.map (cons x) (combos l k))).
    { apply FinFun.Injective_map_NoDup; [|auto]. intros a b E. congruence. }
    specialize (IH (S k) ND'). revert NM D IH. generalize (combos l (S k)) as b.
    generalize (List.map (cons x) (combos l k)) as a. clear.
    induction a as [|y a IHa]; intros b NM D NB; cbn; [assumption|].
    inversion NM; subst. constructor.
    + rewrite in_app_iff. intros [H|H]; [easy|]. apply (D y); [now left|assumption].
    + apply IHa; [assumption| |assumption]. intros c Hc. apply D. now right.
Qed.

Lemma combos_length A (l : list A) k : length (combos l k) = binom (length l) k.
Proof.
  revert k; induction l as [|x l IH]; intros [|k]; cbn; try reflexivity.
  rewrite app_length, map_length, !IH. reflexivity.
Qed.

Lemma combos_pairs (T : list nat) k : NoDup T ->
  ForallOrdPairs (fun a b => ~ same_set a b) (combos T k).
Proof.
  intros ND. pose proof (combos_NoDup k ND) as NC.
  assert (H : forall c, In c (combos T k) -> subseq c T) by (intros c Hc; now apply combos_In in Hc).
  revert NC H. generalize (combos T k). induction l as [|c l IH]; intros NC H; constructor.
  - inversion NC; subst. apply Forall_forall. intros c' Hc' E.
    assert (c = c').
    { apply (subseq_set_eq ND); [apply H; now left|apply H; now right|exact E]. }
    subst. easy.
  - inversion NC; subst. apply IH; [assumption|]. intros c' Hc'. apply H. now right.
Qed.

Lemma combos_all_subsets (P : nat -> Prop) (T : list nat) k : NoDup T -> (forall i, In i T <-> P i) ->
  all_subsets_once P k (combos T k).
Proof.
  intros ND PT. split; [|split].
  - apply Forall_forall. intros c Hc. apply combos_In in Hc. destruct Hc as [H L].
    split; [apply (subseq_NoDup H ND)|]. split; [assumption|]. intros i Hi. apply PT. now apply (subseq_incl H).
  - intros S HS. destruct (subset_subseq ND (fun i => proj2 (PT i)) HS) as [c [H1 [H2 H3]]].
    exists c. split; [|exact H3]. apply combos_In. auto.
  - now apply combos_pairs.
Qed.

(** substitution loop *)
Definition puts (init : list Z) (c : list nat) (v : Z) : list Z := fold_left (fun x i => upd x i v) c init.

Lemma puts_length init c v : length (puts init c v) = length init.
Proof.
  revert init; induction c as [|i c IH]; intros init; cbn; [reflexivity|].
  unfold puts in IH. rewrite IH. apply upd_length.
Qed.

Lemma put_ok init c v : (forall i, In i c -> (i < length init)%nat) -> put init c v = Ok (puts init c v).
Proof.
  unfold put, puts. revert init; induction c as [|i c IH]; intros init H; cbn; [reflexivity|].
  rewrite set_nth_ok by (apply H; now left). cbn. apply IH.
  intros j Hj. rewrite upd_length. apply H. now right.
Qed.

Lemma nth_puts init c v j d : (forall i, In i c -> (i < length init)%nat) ->
  nth j (puts init c v) d = if in_dec Nat.eq_dec j c then v else nth j init d.
Proof.
  revert init; induction c as [|i c IH]; intros init H; [reflexivity|].
  change (puts init (i :: c) v) with (puts (upd init i v) c v).
  rewrite IH by (intros k Hk; rewrite upd_length; apply H; now right).
  rewrite nth_upd by (apply H; now left).
  destruct (in_dec Nat.eq_dec j c) as [I|I], (in_dec Nat.eq_dec j (i :: c)) as [J|J];
    destruct (Nat.eqb_spec i j); try reflexivity; subst; exfalso; cbn in J.
  all: first [now (destruct J; auto) | apply J; auto with datatypes].
Qed.

Lemma substituted_nth init S v x : substituted init S v x <->
  length x = length init /\ forall i, (i < length init)%nat ->
    nth i x 0%Z = if in_dec Nat.eq_dec i S then v else nth i init 0%Z.
Proof.
  unfold substituted. split; intros [L H]; (split; [exact L|]).
  - intros i Hi. destruct (H i (nth i init 0%Z)) as [H1 H2]; [now apply nth_error_nth'|].
    destruct (in_dec _ i S) as [I|I].
    + apply nth_error_nth. auto.
    + apply nth_error_nth. auto.
  - intros i a Ha. assert (Hi : (i < length init)%nat) by (apply nth_error_Some; congruence).
    specialize (H i Hi). rewrite (nth_error_nth' x 0%Z) by lia. rewrite H.
    apply (nth_error_nth init i 0%Z) in Ha.
    destruct (in_dec _ i S) as [I|I]; split; intros K; try easy; congruence.
Qed.

Lemma puts_substituted init c v : (forall i, In i c -> (i < length init)%nat) ->
  substituted init c v (puts init c v).
Proof.
  intros H. apply substituted_nth. split; [apply puts_length|].
  intros i Hi. now apply nth_puts.
Qed.

Lemma substituted_fun init S S' v x y : same_set S S' ->
  substituted init S v x -> substituted init S' v y -> x = y.
Proof.
  intros E Hx Hy. apply substituted_nth in Hx, Hy. destruct Hx as [Lx Hx], Hy as [Ly Hy].
  apply (list_ext_nth _ _ 0%Z); [congruence|]. intros i Hi. rewrite Hx, Hy by lia.
  destruct (in_dec _ i S) as [I|I], (in_dec _ i S') as [J|J]; try reflexivity.
  - exfalso. apply J, E, I.
  - exfalso. apply I, E, J.
Qed.
