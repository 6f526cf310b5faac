(** Lemmas for ModifiedCell: what statements leave alone, copying, moving sites. *)
From Verif Require Import Base LBase BaseQ LQ SElement MElement LElement MGeneralCell LGeneralCell MHnf MRestrict MModCell SModCell LModCell.
Set Implicit Arguments.
Unset Strict Implicit.
Open Scope list_scope.
Notation length := List.length.

(** Effect of a statement with target [t] that hands over the objects [A]. *)
Definition framed (t : option nat) (A : list nat) (h h' : heap) : Prop :=
  wf_heap h' /\ (length (h_site h) <= length (h_site h'))%nat /\ (length (h_cell h) <= length (h_cell h'))%nat /\
  (forall d, is_cell h d -> mc_lattice (cell_at h' d) = mc_lattice (cell_at h d)) /\
  (forall d, is_cell h d -> t <> Some d -> refs h' d = refs h d) /\
  (forall c a, t = Some c -> In a (refs h' c) -> In a (refs h c) \/ In a A) /\
  (forall a, is_site h a -> (forall c, t = Some c -> ~ In a (refs h c)) -> site_at h' a = site_at h a) /\
  (forall d a, ~ is_cell h d -> is_cell h' d -> In a (refs h' d) -> ~ is_site h a).

Lemma framed_refl t A h : wf_heap h -> framed t A h h.
Proof. intros W. repeat apply conj; auto; try apply W; intros; contradiction. Qed.

Lemma framed_trans t h h1 h2 : (forall c, t = Some c -> is_cell h c) -> wf_heap h ->
  framed t [] h h1 -> framed t [] h1 h2 -> framed t [] h h2.
Proof.
  intros T W (W1 & S1 & C1 & L1 & R1 & A1 & V1 & N1) (W2 & S2 & C2 & L2 & R2 & A2 & V2 & N2).
  assert (CC : forall d, is_cell h d -> is_cell h1 d) by (unfold is_cell; intros; lia).
  assert (SS : forall d, is_site h d -> is_site h1 d) by (unfold is_site; intros; lia).
  split; [exact W2|]. split; [lia|]. split; [lia|]. split; [|split; [|split; [|split]]].
  - intros d D. rewrite L2, L1; auto.
  - intros d D N. rewrite R2, R1; auto.
  - intros c a E I. apply (A2 c a E) in I. destruct I as [I|[]]. apply (A1 c a E) in I. exact I.
  - intros a I N. rewrite V2, V1; auto. intros c E J. apply (A1 c a E) in J. destruct J as [J|[]]. eapply N; eauto.
  - intros d a D D2 I S. destruct (Nat.lt_ge_cases d (length (h_cell h1))) as [D1|D1].
    + rewrite R2 in I; [|exact D1|].
      * apply (N1 d a D D1 I S).
      * intros E. apply D. apply T. exact E.
    + apply (N2 d a); auto. unfold is_cell. lia.
Qed.

Lemma framed_list c o h : wf_heap h -> is_cell h c -> (forall a, In a (op_args o) -> is_site h a) ->
  framed (Some c) (op_args o) h (fst (do_list_op c o h)).
Proof.
  intros W C A. destruct (do_list_op_spec W C A) as (h' & x & E & W' & S' & L' & K & F & O).
  rewrite E; cbn. split; [exact W'|]. split; [rewrite S'; lia|]. split; [lia|]. split; [auto|]. split; [|split; [|split]].
  - intros d D N. apply O; congruence.
  - intros c' a [= <-] I. revert I F. clear. intros I F.
    inversion F; subst; repeat match goal with H : _ = refs _ _ |- _ => rewrite <- H in * end; cbn;
      repeat rewrite in_app_iff in *; cbn in *; repeat rewrite in_app_iff in *; try tauto.
    left. eapply kept_except_sub; eauto.
  - intros a _ _. unfold site_at. rewrite S'. reflexivity.
  - intros d a D D'. unfold is_cell in *. lia.
Qed.

Lemma put_site_frame c a s h : wf_heap h -> is_cell h c -> In a (refs h c) ->
  framed (Some c) [] h (fst (put_site a s h)).
Proof.
  intros W C I. unfold put_site; cbn. set (h' := mkHeap _ _ _).
  assert (W' : wf_heap h').
  { destruct W as (W1 & W2 & W3). split; [|split]; auto. intros l x X Y. unfold is_site, h'; cbn. rewrite upd_length. eapply W3; eauto. }
  split; [exact W'|]. split; [unfold h'; cbn; rewrite upd_length; lia|]. split; [unfold h'; cbn; lia|].
  split; [reflexivity|]. split; [reflexivity|]. split; [|split].
  - intros c' x [= <-] X. left. exact X.
  - intros x X N. unfold site_at, h'; cbn.
    assert (NE : a <> x) by (intros ->; exact (N c eq_refl I)).
    rewrite nth_upd by exact (wf_refs_site W C I). destruct (Nat.eqb_spec a x); [contradiction|reflexivity].
  - intros d x D D'. unfold is_cell in *. cbn in D'. contradiction.
Qed.

Lemma getitem_In c i h a : snd (mc_getitem c i h) = Ok a -> In a (refs h c).
Proof.
  unfold mc_getitem; cbn. unfold py_get. destruct (norm_index _ _); [|discriminate].
  intros H. apply get_nth_ok in H. eapply nth_error_In; eauto.
Qed.

(** moving one site *)
Lemma translate_frame c i v h : wf_heap h -> is_cell h c -> framed (Some c) [] h (fst (translate_sites c i v h)).
Proof.
  intros W C. unfold translate_sites, cbind. destruct (mc_getitem c i h) as [h1 [a|e]] eqn:E.
  - assert (h1 = h) by (unfold mc_getitem in E; congruence). subst h1.
    assert (I : In a (refs h c)) by (apply (getitem_In (i := i)); rewrite E; reflexivity).
    destruct (frac_from_cart _ _) as [f|e]; cbn.
    + apply put_site_frame; assumption.
    + apply framed_refl. exact W.
  - assert (h1 = h) by (unfold mc_getitem in E; congruence). subst h1. apply framed_refl. exact W.
Qed.

Lemma perturb_frame c dist : forall k i rnd h h' x, wf_heap h -> is_cell h c ->
  perturb_loop c dist k i rnd h = Some (h', x) -> framed (Some c) [] h h'.
Proof.
  induction k as [|k IH]; intros i rnd h h' x W C; cbn [perturb_loop].
  - intros [= <- <-]. apply framed_refl. exact W.
  - destruct (get_rand_vec dist rnd) as [[v rnd']|]; [|discriminate].
    pose proof (@translate_frame c (Z.of_nat i) v h W C) as F.
    destruct (translate_sites c (Z.of_nat i) v h) as [h1 [u|e]]; cbn in F; [|intros [= <- <-]; exact F].
    intros E. eapply framed_trans; [|exact W|exact F|].
    + intros c' [= <-]. exact C.
    + eapply IH; [apply F| |exact E]. unfold is_cell in *. pose proof (proj1 (proj2 (proj2 F))). lia.
Qed.

Lemma clarify_frame c r ele cs : forall h, wf_heap h -> is_cell h c ->
  framed (Some c) [] h (fst (citer (fun center h =>
          let dsites := points_insphere h c center r ele in
          cbind (remove_sites c (List.map (fun ia => Z.of_nat (fst ia)) dsites)) (fun _ => ret tt) h) cs h)).
Proof.
  induction cs as [|ce cs IH]; intros h W C; cbn [citer].
  - apply framed_refl. exact W.
  - unfold cbind at 1. cbv zeta. unfold cbind at 1.
    set (idx := List.map _ _).
    pose proof (@framed_list c (ORemoveSites idx) h W C (fun a H => match H with end)) as F. cbn [do_list_op op_args] in F.
    destruct (remove_sites_spec idx W C) as (h1 & E & _). rewrite E in *. cbn [out_self fst] in F. cbn [ret].
    eapply framed_trans; [|exact W|exact F|].
    + intros c' [= <-]. exact C.
    + apply IH; [apply F|]. unfold is_cell in *. pose proof (proj1 (proj2 (proj2 F))). lia.
Qed.

(** creating objects *)
Lemma NoDup_app_singleton_aux A (l : list A) x : NoDup l -> ~ In x l -> NoDup (l ++ [x]).
Proof.
  intros N I. induction N as [|y l Y N IH]; cbn.
  - constructor; [intros []|constructor].
  - constructor.
    + rewrite in_app_iff. intros [H|[->|[]]]; [auto|]. apply I. left. reflexivity.
    + apply IH. intros H. apply I. right. exact H.
Qed.
Lemma alloc_frame h ns nl (ncs : list mcell) : wf_heap h ->
  (forall m, In m ncs -> mc_list m = length (h_list h) /\ length nl = 1%nat) -> (length ncs <= 1)%nat ->
  (forall l a, In l nl -> In a l -> (length (h_site h) <= a < length (h_site h) + length ns)%nat) ->
  framed None [] h (mkHeap (h_site h ++ ns) (h_list h ++ nl) (h_cell h ++ ncs)).
Proof.
  intros W N1 N2 N3. set (h' := mkHeap _ _ _).
  assert (CA : forall d, is_cell h d -> cell_at h' d = cell_at h d).
  { intros d D. unfold cell_at, h'; cbn. apply app_nth1. exact D. }
  assert (LA : forall d, (d < length (h_list h))%nat -> list_at h' d = list_at h d).
  { intros d D. unfold list_at, h'; cbn. apply app_nth1. exact D. }
  assert (W' : wf_heap h').
  { destruct W as (W1 & W2 & W3). unfold h'. split; [|split]; cbn.
    - intros m I. rewrite app_length. apply in_app_or in I. destruct I as [I|I]; [apply W1 in I; lia|].
      apply N1 in I. lia.
    - rewrite map_app. destruct ncs as [|m [|m2 ncs]]; cbn in *; [rewrite app_nil_r; exact W2| |lia].
      rewrite (proj1 (N1 m (or_introl eq_refl))).
      apply NoDup_app_singleton_aux.
      exact W2. intros I. apply in_map_iff in I. destruct I as (m' & E & I). apply W1 in I. lia.
    - intros l a I J. unfold is_site; cbn. rewrite app_length. apply in_app_or in I. destruct I as [I|I].
      + pose proof (W3 l a I J) as K. unfold is_site in K. lia.
      + pose proof (N3 l a I J). lia. }
  split; [exact W'|]. split; [unfold h'; cbn; rewrite app_length; lia|]. split; [unfold h'; cbn; rewrite app_length; lia|].
  split; [intros; rewrite CA; auto|]. split; [|split; [|split]].
  - intros d D _. unfold refs. rewrite CA by exact D. apply LA. apply wf_list_lt; assumption.
  - intros c a [=].
  - intros a A _. unfold site_at, h'; cbn. apply app_nth1. exact A.
  - intros d a D D' I. unfold refs in I.
    assert (M : In (cell_at h' d) ncs).
    { unfold cell_at, h'; cbn. unfold is_cell in *. cbn in D'. rewrite app_length in D'.
      rewrite app_nth2 by lia. apply nth_In. lia. }
    destruct (N1 _ M) as [E L]. rewrite E in I. unfold list_at, h' in I; cbn in I.
    rewrite app_nth2, Nat.sub_diag in I by lia. destruct nl as [|l [|? ?]]; try discriminate. cbn in I.
    pose proof (N3 l a (or_introl eq_refl) I). unfold is_site. lia.
Qed.
