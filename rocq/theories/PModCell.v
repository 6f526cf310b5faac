(** Properties C42-C50 and C67: ModifiedCell, shared Site objects, clarifiers. *)
From Coq Require Import String Sorted.
From Verif Require Import Base LBase BaseQ LQ SElement MElement LElement MGeneralCell LGeneralCell MHnf MRestrict MModCell SModCell
  LModCell LModCell2 LModCell3 LModCell4 LModCell5.
Open Scope Z_scope.
Open Scope list_scope.
Notation length := List.length.

(** ** C42: list behaviour *)
Theorem C42_list_behaviour : forall os h c l, wf_heap h -> holds h c l ->
  (forall o a, In o os -> In a (op_args o) -> is_site h a) ->
  exists h' xs l', run_list_ops c os h = (h', xs) /\ wf_heap h' /\ holds h' c l' /\ list_history os l l' xs /\
    h_site h' = h_site h /\
    (forall lat ss, contains h c lat ss -> exists ss', contains h' c lat ss') /\
    (forall d lat ss, d <> c -> contains h d lat ss -> contains h' d lat ss).
Proof.
  intros os h c l W H A. apply holds_iff in H; [|exact W]. destruct H as [C ->].
  destruct (@run_list_ops_spec os c h W C A) as (h' & xs & E & W' & S & L & K & F & O).
  assert (CC : forall d, is_cell h d <-> is_cell h' d) by (intros; apply is_cell_eq; exact L).
  exists h', xs, (refs h' c). split; [exact E|]. split; [exact W'|].
  split; [apply holds_iff; auto; split; [apply CC; exact C|reflexivity]|]. split; [exact F|]. split; [exact S|]. split.
  - intros lat ss X. apply contains_iff in X; [|exact W]. destruct X as (_ & -> & _).
    exists (map (site_at h') (refs h' c)). apply contains_iff; auto. rewrite K. repeat split; auto. apply CC. exact C.
  - intros d lat ss N X. apply contains_iff in X; [|exact W]. destruct X as (D & -> & ->).
    apply contains_iff; auto. rewrite K, O by assumption. split; [apply CC; exact D|]. split; [reflexivity|].
    apply map_ext. intros a. unfold site_at. rewrite S. reflexivity.
Qed.
Print Assumptions C42_list_behaviour.

(** The specification leaves no freedom: list and values are determined. *)
Theorem C42_determined : forall os l l1 l2 x1 x2,
  list_history os l l1 x1 -> list_history os l l2 x2 -> l1 = l2 /\ x1 = x2.
Proof. exact list_history_fun. Qed.
Print Assumptions C42_determined.

(** Without positions and numbers the new cell has one site, at the origin, of number 0. *)
Theorem C42_default : forall lat h, wf_heap h -> exists h' c p, ModifiedCell_default lat h = (h', Ok c) /\ wf_heap h' /\ ~ is_cell h c /\
  contains h' c lat [p] /\ s_pos p = v0 /\ sp_Z (s_ele p) = 0 /\ (forall d l ss, contains h d l ss -> contains h' d l ss).
Proof. exact default_lemma. Qed.
Print Assumptions C42_default.

Definition q (a : Z) (b : positive) : Qc := Q2Qc (a # b).
Definition unit_lat : mat Qc := V3 (V3 1 0 0)%Qc (V3 0 1 0)%Qc (V3 0 0 1)%Qc.
Definition h_empty : heap := mkHeap [] [] [].
(** A cell with boron, carbon and boron on the diagonal, and its objects. *)
Definition diag (a : Z) (b : positive) : vec Qc := V3 (q a b) (q a b) (q a b).
Definition h3 : heap := fst (ModifiedCell_new unit_lat [diag 0 1; diag 1 3; diag 1 2] [5; 6; 5] h_empty).

Lemma wf_empty : wf_heap h_empty.
Proof. split; [intros m []|split; [constructor|intros l a []]]. Qed.
Lemma wf_h3 : wf_heap h3.
Proof.
  unfold h3. destruct (ModifiedCell_new_spec unit_lat [diag 0 1; diag 1 3; diag 1 2] [5; 6; 5] wf_empty) as [(_ & h' & E & F & _)|(_ & h' & E & F & _)];
    rewrite E; apply F.
Qed.

Definition ops42 : list list_op :=
  [OInsert (-1) 0%nat; OPop (-4); OSet 7 1%nat; ODel 0; ORemoveSites [1; -1; 9]; OExtend [2; 2]%nat; OPop 0].
Example C42_ex : holds h3 0 [0; 1; 2]%nat /\ refs (fst (run_list_ops 0 ops42 h3)) 0 = [2; 2]%nat /\
  snd (run_list_ops 0 ops42 h3) = [RNone; RSite 0%nat; RExn IndexError; RNone; RSelf; RNone; RSite 0%nat].
Proof.
  split.
  - exists (mkMC unit_lat 0). split; reflexivity.
  - split; vm_compute; reflexivity.
Qed.

(** ** C43: conversion *)
Theorem C43_round_trip : forall h lat pos nums g, wf_heap h -> length pos = length nums ->
  GeneralCell_new lat pos nums = Ok g -> Forall supported nums ->
  exists h' c, from_gcell g h = (h', Ok c) /\ to_gcell h' c = Ok g.
Proof.
  intros h lat pos nums g W L G S.
  pose proof (@C08_pairs _ _ _ _ L G) as P.
  assert (LN : length (positions g) = length (numbers g) /\ positions g <> []).
  { pose proof (GeneralCell_new_inv _ _ _ G) as [NE _]. rewrite GeneralCell_new_ok in G by (auto; lia). injection G as <-. cbn.
    rewrite sortp_length, sortn_length. split; [reflexivity|]. intros X. apply (f_equal (@length _)) in X. rewrite sortp_length in X.
    destruct pos; [congruence|discriminate]. }
  destruct LN as [LN NE].
  destruct (@from_to_gcell h g W NE LN) as (h' & c & E & E1 & E2 & E3 & _).
  - apply Forall_forall. intros z Z. rewrite Forall_forall in S. apply S.
    assert (I : In z (map snd (combine (positions g) (numbers g)))) by (rewrite map_snd_combine by exact LN; exact Z).
    apply (Permutation_in z (Permutation_map snd P)) in I. rewrite map_snd_combine in I by exact L. exact I.
  - exists h', c. split; [exact E|]. unfold to_gcell. rewrite E1, E2, E3. exact (@C09_idempotent _ _ _ _ L G).
Qed.
Print Assumptions C43_round_trip.

Theorem C43_to_gcell : forall h c lat ss, wf_heap h -> contains h c lat ss ->
  (ss = [] -> to_gcell h c = Raise ValueError) /\
  (ss <> [] -> exists g, to_gcell h c = Ok g /\ lattice g = lat /\ length (positions g) = length (numbers g) /\
     Permutation (combine (positions g) (numbers g)) (map (fun s => (s_pos s, sp_Z (s_ele s))) ss)).
Proof.
  intros h c lat ss W C. apply contains_iff in C; [|exact W]. destruct C as (C & -> & ->).
  unfold to_gcell. split.
  - intros E. apply map_eq_nil in E. unfold mc_positions. rewrite E. reflexivity.
  - intros N. assert (L : length (mc_positions h c) = length (mc_numbers h c)) by (unfold mc_positions, mc_numbers; rewrite !map_length; reflexivity).
    assert (NE : mc_positions h c <> []).
    { unfold mc_positions. intros E. apply map_eq_nil in E. apply N. rewrite E. reflexivity. }
    destruct (GeneralCell_new (mc_lattice (cell_at h c)) (mc_positions h c) (mc_numbers h c)) as [g|e] eqn:G.
    + exists g. split; [reflexivity|]. pose proof (@C08_pairs _ _ _ _ L G) as P.
      rewrite GeneralCell_new_ok in G by (auto; lia). injection G as <-. cbn in *. split; [reflexivity|].
      split; [rewrite sortp_length, sortn_length; reflexivity|].
      replace (map _ (map (site_at h) (refs h c))) with (combine (mc_positions h c) (mc_numbers h c)); [exact P|].
      unfold mc_positions, mc_numbers. rewrite map_map. apply combine_map_map.
    + exfalso. rewrite GeneralCell_new_ok in G by (auto; lia). discriminate.
Qed.
Print Assumptions C43_to_gcell.

(** An atomic number without an element makes the conversion raise; no cell is built. *)
Theorem C43_unknown : forall h g, wf_heap h -> length (positions g) = length (numbers g) -> ~ Forall supported (numbers g) ->
  exists h', from_gcell g h = (h', Raise IndexError) /\ h_cell h' = h_cell h.
Proof.
  intros h g W L N. unfold from_gcell.
  destruct (ModifiedCell_new_spec (lattice g) (positions g) (numbers g) W) as [(S & _)|(_ & h' & E & _ & C)]; [|eauto].
  exfalso. apply N. apply Forall_forall. intros z Z.
  rewrite <- (map_snd_combine _ _ L) in Z. apply in_map_iff in Z. destruct Z as (pz & <- & I). rewrite Forall_forall in S. apply S. exact I.
Qed.
Print Assumptions C43_unknown.

Example C43_ex : exists g, GeneralCell_new unit_lat [diag 1 2; diag 1 3; diag 0 1] [5; 6; 7] = Ok g /\
  numbers g = [7; 6; 5] /\ Forall supported [5; 6; 7].
Proof.
  assert (H : match GeneralCell_new unit_lat [diag 1 2; diag 1 3; diag 0 1] [5; 6; 7] with Ok g => numbers g = [7; 6; 5] | _ => False end)
    by (vm_compute; reflexivity).
  destruct (GeneralCell_new _ _ _) as [g|]; [|contradiction]. exists g. split; [reflexivity|]. split; [exact H|].
  repeat constructor; unfold supported; lia.
Qed.
Example C43_unknown_ex : ~ Forall supported [5; 60].
Proof. intros H. inversion H as [|? ? ? H2]; subst. inversion H2 as [|? ? S]; subst. unfold supported in S. lia. Qed.

(** ** C44: copies *)
Theorem C44_copy_equal : forall h c rs, wf_heap h -> holds h c rs ->
  exists h' d rd, mc_copy c h = (h', Ok d) /\ ~ is_cell h d /\ wf_heap h' /\ holds h' d rd /\
    (forall lat ss, contains h c lat ss -> contains h' c lat ss /\ contains h' d lat ss) /\
    (forall a, In a rd -> ~ is_site h a) /\
    (forall i j, nth_error rd i = nth_error rd j <-> nth_error rs i = nth_error rs j).
Proof.
  intros h c rs W H. apply holds_iff in H; [|exact W]. destruct H as [C ->].
  destruct (mc_copy_spec W C) as (h' & E & F & D & L & V & N & S).
  exists h', (length (h_cell h)), (refs h' (length (h_cell h))). split; [exact E|].
  split; [unfold is_cell; lia|]. split; [apply F|]. split; [apply holds_iff; auto; apply F|]. split; [|auto].
  intros lat ss X. apply contains_iff in X; [|exact W]. destruct X as (_ & -> & ->).
  destruct F as (W' & S' & C' & L' & R' & _ & V' & _). split.
  - apply contains_iff; [exact W'|]. rewrite L', R' by (assumption || discriminate). split; [unfold is_cell in *; lia|].
    split; [reflexivity|]. apply map_ext_in. intros a I. symmetry. apply V'; [eapply wf_refs_site; eauto|discriminate].
  - apply contains_iff; [exact W'|]. rewrite L, V. auto.
Qed.
Print Assumptions C44_copy_equal.

(** Whatever is done to the copy (or to cells made later), the original stays. *)
Theorem C44_original_safe : forall h c rs h' d ss, wf_heap h -> holds h c rs -> mc_copy c h = (h', Ok d) ->
  prog_ok ss h' ->
  (forall s e, In s ss -> stmt_target s = Some e -> e = d \/ ~ is_cell h' e) ->
  (forall s a, In s ss -> In a (stmt_args s) -> ~ In a rs) ->
  forall lat vs, contains h c lat vs -> contains (exec_all ss h') c lat vs.
Proof.
  intros h c rs h' d ss W H E P T A lat vs X.
  destruct (C44_copy_equal h c rs W H) as (h2 & d2 & rd & E2 & ND & W' & HD & K & FR & _).
  assert (h2 = h' /\ d2 = d) as [-> ->] by (split; congruence).
  apply holds_iff in H; [|exact W]. destruct H as [C ->].
  pose proof (proj1 (K lat vs X)) as X'. pose proof X' as Y. apply contains_iff in Y; [|exact W']. destruct Y as (C' & _ & _).
  assert (RC : refs h' c = refs h c).
  { destruct (mc_copy_spec W C) as (h3 & E3 & F & _). assert (h3 = h') by congruence. subst h3.
    apply F; [exact C|discriminate]. }
  apply (@history_frame ss c (refs h c) (fun e => e = d \/ ~ is_cell h' e) h'); auto.
  - intros e Ce [->|N] a I J; [|contradiction].
    apply holds_iff in HD; [|exact W']. destruct HD as [_ ->]. apply (FR a I). eapply wf_refs_site; [exact W|exact C|exact J].
  - apply Forall_forall. intros s I. split.
    + intros e Te. pose proof (T s e I Te) as Q. split; [|exact Q]. destruct Q as [->|Q]; intros ->; [|contradiction].
      apply ND. exact C.
    + intros a. apply A. exact I.
Qed.
Print Assumptions C44_original_safe.

(** Whatever is done to the original or to any other cell, the copy stays. *)
Theorem C44_copy_safe : forall h c rs h' d rd ss, wf_heap h -> holds h c rs -> mc_copy c h = (h', Ok d) -> holds h' d rd ->
  prog_ok ss h' ->
  (forall s, In s ss -> stmt_target s <> Some d) ->
  (forall s a, In s ss -> In a (stmt_args s) -> ~ In a rd) ->
  forall lat vs, contains h c lat vs -> contains (exec_all ss h') d lat vs.
Proof.
  intros h c rs h' d rd ss W H E HD P T A lat vs X.
  destruct (C44_copy_equal h c rs W H) as (h2 & d2 & rd2 & E2 & ND & W' & HD2 & K & FR & _).
  assert (h2 = h' /\ d2 = d) as [-> ->] by (split; congruence).
  apply holds_iff in HD; [|exact W']. destruct HD as [D ->]. apply holds_iff in HD2; [|exact W']. destruct HD2 as [_ ->].
  apply holds_iff in H; [|exact W]. destruct H as [C ->].
  destruct (mc_copy_spec W C) as (h3 & E3 & F & _). assert (h3 = h') by congruence. subst h3.
  assert (d = length (h_cell h)) by congruence. subst d.
  apply (@history_frame ss (length (h_cell h)) (refs h' (length (h_cell h))) (fun e => e <> length (h_cell h)) h'); auto.
  - intros e Ce N a I J. apply (FR a J).
    destruct F as (_ & _ & _ & _ & R' & _). 
    assert (e < length (h_cell h))%nat.
    { assert (LL : length (h_cell h') = S (length (h_cell h))).
      { unfold mc_copy, cbind in E. destruct (deepcopy_sites [] (refs h c) h) as [hx [ys|ex]] eqn:DS; [|discriminate].
        destruct (@deepcopy_spec h (refs h c) [] h) as (ns & ys' & memo & E4 & _); auto.
        { split; [constructor|intros ? ? []]. }
        { apply Forall_forall. intros x Hx. eapply wf_refs_site; eauto. }
        rewrite E4 in DS. injection DS as <- <-. cbn in E. injection E as <-. cbn. rewrite app_length. cbn. lia. }
      unfold is_cell in Ce. lia. }
    rewrite R' in I by (assumption || discriminate). eapply wf_refs_site; [exact W| |exact I]. assumption.
  - apply Forall_forall. intros s I. split.
    + intros e Te. assert (e <> length (h_cell h)) by (intros ->; exact (T s I Te)). auto.
    + intros a. apply A. exact I.
  - apply K. exact X.
Qed.
Print Assumptions C44_copy_safe.

Definition h3c : heap := fst (mc_copy 0 h3).
Definition prog44 : list stmt :=
  [STranslate 1 0 (V3 1 1 1)%Qc; SPerturb 1 (q 1 5) [((V3 0 0 0)%Qc, 0%Qc); (V3 (q 3 1) (q 4 1) 0%Qc, q 5 1); (V3 (q 3 1) (q 4 1) 0%Qc, q 5 1); (V3 (q 3 1) (q 4 1) 0%Qc, q 5 1)];
   SSetElement 1 (-1) GhostSpecie_new; SList 1 (OPop 0); SNewSite (diag 1 7) (EleSym "Fe"); SList 1 (OAppend 6%nat)].
Example C44_ex : mc_copy 0 h3 = (h3c, Ok 1%nat) /\ prog_ok prog44 h3c /\
  (forall s e, In s prog44 -> stmt_target s = Some e -> e = 1%nat \/ ~ is_cell h3c e) /\
  (forall s a, In s prog44 -> In a (stmt_args s) -> ~ In a [0; 1; 2]%nat) /\
  mc_numbers (exec_all prog44 h3c) 1 = [6; 0; 26] /\ mc_numbers (exec_all prog44 h3c) 0 = [5; 6; 5].
Proof.
  split; [reflexivity|]. split; [|split; [|split; [|split; vm_compute; reflexivity]]].
  - cbn [prog_ok prog44]. unfold stmt_ok, is_cell, is_site.
    repeat (split; [split; [intros c [= <-] || intros c [=]; vm_compute; lia|split; [intros a H; vm_compute in H; vm_compute; lia|intros c [=]]]|]).
    exact I.
  - intros s e I. cbn in I. decompose [or] I; subst; cbn; try contradiction; intros [= <-]; auto.
  - intros s a I. cbn in I. decompose [or] I; subst; cbn; try tauto; intuition lia.
Qed.

(** ** C45: shared sites *)
(** translate_sites through one occurrence moves every occurrence, in every cell, and
    nothing else. *)
Theorem C45_shared_moves : forall h c i v rs j a lat ss, wf_heap h -> holds h c rs -> contains h c lat ss ->
  py_index (length rs) i j -> nth_error rs j = Some a -> volume lat <> 0%Qc ->
  exists h' s', translate_sites c i v h = (h', Ok tt) /\ wf_heap h' /\
    (forall s, nth_error ss j = Some s -> displaced lat v s s') /\
    forall d rd lat' vs, holds h d rd -> contains h d lat' vs ->
      holds h' d rd /\ exists vs', contains h' d lat' vs' /\
      forall k b, nth_error rd k = Some b ->
        (b = a -> nth_error vs' k = Some s') /\ (b <> a -> nth_error vs' k = nth_error vs k).
Proof.
  intros h c i v rs j a lat ss W H X I N V. apply holds_iff in H; [|exact W]. destruct H as [C ->].
  apply contains_iff in X; [|exact W]. destruct X as (_ & -> & ->).
  destruct (@translate_spec c i v h j a W C I N V) as (s' & E & D).
  assert (A : is_site h a) by (eapply wf_refs_site; [exact W|exact C|eapply nth_error_In; eauto]).
  pose proof (wf_with_site a s' W) as W'.
  exists (with_site h a s'), s'. split; [exact E|]. split; [exact W'|]. split.
  { intros s S. rewrite nth_error_map, N in S. cbn in S. injection S as <-. exact D. }
  intros d rd lat' vs H X. apply holds_iff in H; [|exact W]. destruct H as [Cd ->].
  apply contains_iff in X; [|exact W]. destruct X as (_ & -> & ->).
  split; [apply holds_iff; auto|]. exists (map (site_at (with_site h a s')) (refs h d)). split.
  { apply contains_iff; auto. }
  intros k b B. rewrite !nth_error_map, B. cbn [option_map]. rewrite site_at_with_site by exact A. split.
  - intros ->. rewrite Nat.eqb_refl. reflexivity.
  - intros NE. destruct (Nat.eqb_spec a b); [congruence|reflexivity].
Qed.
Print Assumptions C45_shared_moves.

(** Histories: a cell none of whose Site objects is held by the cells worked on, or handed
    to them, is not affected by any program that does not work on it. *)
Theorem C45_unshared_safe : forall ss h c rs, wf_heap h -> holds h c rs -> prog_ok ss h ->
  (forall s d, In s ss -> stmt_target s = Some d -> d <> c /\ (is_cell h d -> unshared h c d)) ->
  (forall s a, In s ss -> In a (stmt_args s) -> ~ In a rs) ->
  holds (exec_all ss h) c rs /\ forall lat vs, contains h c lat vs -> contains (exec_all ss h) c lat vs.
Proof.
  intros ss h c rs W H P T A. apply holds_iff in H; [|exact W]. destruct H as [C ->].
  destruct (@history_frame ss c (refs h c) (fun d => is_cell h d -> unshared h c d) h) as [K1 K2]; auto.
  - intros d D U a I J. apply (U D (refs h c) (refs h d) a); auto; apply holds_iff; auto.
  - apply Forall_forall. intros s I. split; [intros d Td; apply (T s d I Td)|intros a; apply A; exact I].
Qed.
Print Assumptions C45_unshared_safe.

(** One Site handed to two cells (or twice to one): moving the last item of the second
    moves the last item of the first. *)
Theorem C45_append_twice : forall h c d a v lat lat' ss vs s, wf_heap h -> contains h c lat ss -> contains h d lat' vs ->
  is_site h a -> nth_error (h_site h) a = Some s -> volume lat' <> 0%Qc ->
  exists s' ss', displaced lat' v s s' /\
    contains (exec_all [SList c (OAppend a); SList d (OAppend a); STranslate d (-1) v] h) c lat (ss' ++ [s']) /\
    (c <> d -> length ss' = length ss).
Proof.
  intros h c d a v lat lat' ss vs s W X Y A S V.
  apply contains_iff in X; [|exact W]. destruct X as (C & -> & ->).
  apply contains_iff in Y; [|exact W]. destruct Y as (D & -> & ->).
  set (h1 := with_list h c (refs h c ++ [a])).
  assert (FS : forall e, is_cell h e -> Forall (is_site h) (refs h e)).
  { intros e Ce. apply Forall_forall. intros x Hx. eapply wf_refs_site; eauto. }
  assert (W1 : wf_heap h1) by (apply wf_with_list; [exact W|]; apply Forall_app; split; [auto|constructor; auto]).
  set (h2 := with_list h1 d (refs h1 d ++ [a])).
  assert (FS1 : Forall (is_site h1) (refs h1 d)).
  { apply Forall_forall. intros x Hx. eapply (@wf_refs_site h1 d); eauto. }
  assert (W2 : wf_heap h2) by (apply wf_with_list; [exact W1|]; apply Forall_app; split; [exact FS1|constructor; auto]).
  assert (R2 : refs h2 d = refs h1 d ++ [a]) by (apply refs_with_list; auto).
  destruct (@translate_spec d (-1) v h2 (length (refs h1 d)) a W2 D) as (s' & E & Dsp).
  { rewrite R2, app_length. cbn. split; [lia|right; lia]. }
  { rewrite R2, nth_error_app2, Nat.sub_diag by lia. reflexivity. }
  { exact V. }
  assert (RC : exists l, refs h2 c = l ++ [a] /\ (c <> d -> length l = length (refs h c))).
  { destruct (Nat.eq_dec c d) as [->|N].
    - exists (refs h1 d). split; [exact R2|congruence].
    - exists (refs h c). split; [|reflexivity]. unfold h2. rewrite refs_with_list_other by auto. apply refs_with_list; auto. }
  destruct RC as (l & RC & LC).
  assert (SA : site_at h a = s) by (unfold site_at; apply nth_error_nth with (1 := S)).
  exists s', (map (site_at (with_site h2 a s')) l). split; [|split].
  - change (site_at h2 a) with (site_at h a) in Dsp. rewrite SA in Dsp. exact Dsp.
  - change (exec_all _ h) with (fst (translate_sites d (-1) v h2)). rewrite E. cbn [fst].
    apply contains_iff; [apply wf_with_site; exact W2|]. split; [exact C|]. split; [reflexivity|].
    change (refs (with_site h2 a s') c) with (refs h2 c). rewrite RC, map_app. cbn [map].
    rewrite site_at_with_site by exact A. rewrite Nat.eqb_refl. reflexivity.
  - intros N. rewrite !map_length. apply LC. exact N.
Qed.
Print Assumptions C45_append_twice.

(** Two cells; the first site of the first is handed to the second. *)
Definition h33 : heap := fst (ModifiedCell_new unit_lat [diag 1 4] [6] h3).
Example C45_ex : let h := exec_all [SList 1 (OAppend 0%nat); STranslate 1 (-1) (V3 1 0 0)%Qc] h33 in
  nth_error (mc_positions h 0) 0 = Some (V3 1 0 0)%Qc /\ nth_error (mc_positions h3 0) 0 = Some (diag 0 1) /\
  unshared h33 0 1.
Proof.
  split; [vm_compute; reflexivity|]. split; [vm_compute; reflexivity|].
  intros rc rd a (m & M & L) (m' & M' & L') I J. vm_compute in M, M'. injection M as <-. injection M' as <-.
  vm_compute in L, L'. injection L as <-. injection L' as <-. cbn in I, J. lia.
Qed.

(** ** C46: displacements *)
Theorem C46_translate : forall h c i v rs j a lat ss, wf_heap h -> holds h c rs -> NoDup rs -> contains h c lat ss ->
  py_index (length rs) i j -> nth_error rs j = Some a -> volume lat <> 0%Qc ->
  exists h' ss', translate_sites c i v h = (h', Ok tt) /\ contains h' c lat ss' /\ length ss' = length ss /\
    forall k s, nth_error ss k = Some s -> exists s', nth_error ss' k = Some s' /\
      (k = j -> displaced lat v s s') /\ (k <> j -> s' = s).
Proof.
  intros h c i v rs j a lat ss W H ND X I N V.
  destruct (C45_shared_moves h c i v rs j a lat ss W H X I N V) as (h' & s' & E & W' & D & K).
  destruct (K c rs lat ss H X) as (_ & vs' & X' & M).
  apply holds_iff in H; [|exact W]. destruct H as [C ->]. apply contains_iff in X; [|exact W]. destruct X as (_ & -> & ->).
  assert (LL : length vs' = length (map (site_at h) (refs h c))).
  { apply contains_iff in X'; [|exact W']. destruct X' as (_ & _ & ->). rewrite !map_length.
    destruct (@translate_spec c i v h j a W C I N V) as (s2 & E2 & _). rewrite E in E2. injection E2 as ->. reflexivity. }
  exists h', vs'. split; [exact E|]. split; [exact X'|]. split; [exact LL|].
  intros k s S. rewrite nth_error_map in S. destruct (nth_error (refs h c) k) as [b|] eqn:B; [|discriminate].
  cbn in S. destruct (M k b B) as [M1 M2]. destruct (Nat.eq_dec k j) as [->|NE].
  - exists s'. assert (b = a) by congruence. split; [auto|]. split; [|congruence]. intros _. apply D.
    rewrite nth_error_map, B. exact S.
  - exists s. split; [|split; [congruence|reflexivity]]. rewrite M2.
    + rewrite nth_error_map, B. exact S.
    + intros ->. apply NE. apply (proj1 (NoDup_nth_error (refs h c)) ND); [apply nth_error_Some; congruence|congruence].
Qed.
Print Assumptions C46_translate.

Theorem C46_errors : forall h c i v rs lat ss, wf_heap h -> holds h c rs -> contains h c lat ss ->
  (no_index (length rs) i -> translate_sites c i v h = (h, Raise IndexError)) /\
  (forall j, py_index (length rs) i j -> volume lat = 0%Qc -> translate_sites c i v h = (h, Raise LinAlgError)).
Proof.
  intros h c i v rs lat ss W H X. apply holds_iff in H; [|exact W]. destruct H as [C ->].
  apply contains_iff in X; [|exact W]. destruct X as (_ & -> & _). split.
  - apply translate_no_index.
  - intros j. apply translate_singular.
Qed.
Print Assumptions C46_errors.

(** perturb: the k-th site moves by the k-th random vector of nonzero norm, rescaled to
    the requested distance.  [us]: the draws that are not rejected. *)
Theorem C46_perturb : forall h c rs lat ss distance rnd us, wf_heap h -> holds h c rs -> NoDup rs -> contains h c lat ss ->
  volume lat <> 0%Qc -> without (fun d : vec Qc * Qc => snd d = 0%Qc) rnd us -> (length rs <= length us)%nat ->
  exists h' ss', perturb c distance rnd h = Some (h', Ok tt) /\ contains h' c lat ss' /\ length ss' = length ss /\
    forall k s, nth_error ss k = Some s -> exists s' v n, nth_error ss' k = Some s' /\ nth_error us k = Some (v, n) /\
      displaced lat (rescaled distance n v) s s' /\
      (n * n = length2 v -> length2 (rescaled distance n v) = distance * distance)%Qc.
Proof.
  intros h c rs lat ss distance rnd us W H ND X V U L. apply holds_iff in H; [|exact W]. destruct H as [C ->].
  apply contains_iff in X; [|exact W]. destruct X as (_ & -> & ->).
  pose proof (@perturb_loop_spec c distance (length (refs h c)) 0 rnd us h W C ND V eq_refl U) as K.
  destruct (Nat.leb_spec (length (refs h c)) (length us)); [|lia].
  destruct K as (h' & E & W' & HL & HC & HS & O & M).
  assert (RC : refs h' c = refs h c) by (unfold refs, list_at, cell_at; rewrite HL, HC; reflexivity).
  exists h', (map (site_at h') (refs h c)). split; [exact E|]. split; [|split].
  - apply contains_iff; [exact W'|]. unfold is_cell, cell_at. rewrite HC, RC. auto.
  - rewrite !map_length. reflexivity.
  - intros k s S. rewrite nth_error_map in S. destruct (nth_error (refs h c) k) as [b|] eqn:B; [|discriminate].
    cbn in S. injection S as <-. destruct (M k b B) as (v & n & E1 & Nn & D). exists (site_at h' b), v, n.
    split; [rewrite nth_error_map, B; reflexivity|]. split; [exact E1|]. split; [exact D|].
    intros Q. unfold length2, rescaled in *; cbn.
    transitivity ((vx v * vx v + vy v * vy v + vz v * vz v) / (n * n) * (distance * distance))%Qc; [field; exact Nn|].
    rewrite <- Q. field. exact Nn.
Qed.
Print Assumptions C46_perturb.

Example C46_ex : (length [0; 1; 2]%nat <= 3)%nat /\ volume unit_lat <> 0%Qc /\ (q 5 1 * q 5 1 = length2 (V3 (q 3 1) (q 4 1) 0))%Qc /\
  exists h', perturb 0 (q 1 5) [(V3 (q 3 1) (q 4 1) 0%Qc, q 5 1); ((V3 0 0 0)%Qc, 0%Qc); (V3 (q 3 1) (q 4 1) 0%Qc, q 5 1); (V3 0%Qc 0%Qc (q 2 1), q 2 1)] h3 = Some (h', Ok tt) /\
  mc_positions h' 0 = [V3 (q 3 25) (q 4 25) 0%Qc; V3 (q 34 75) (q 37 75) (q 1 3); V3 (q 1 2) (q 1 2) (q 7 10)].
Proof.
  split; [cbn; lia|]. split; [intros E; apply Qceqb_eq in E; vm_compute in E; discriminate|].
  split; [apply Qc_is_canon; vm_compute; reflexivity|].
  eexists. split; [reflexivity|]. vm_compute. repeat f_equal; apply Qc_is_canon; reflexivity.
Qed.

(** A Site held twice is moved twice: the displacement is not of the requested length. *)
Theorem C46_shared_refuted : exists h c ss h' ss' s s', wf_heap h /\ contains h c unit_lat ss /\
  perturb c (q 1 1) [(V3 1 0 0, 1); (V3 1 0 0, 1)]%Qc h = Some (h', Ok tt) /\ contains h' c unit_lat ss' /\
  nth_error ss 0 = Some s /\ nth_error ss' 0 = Some s' /\ displaced unit_lat (V3 (q 2 1) 0 0)%Qc s s'.
Proof.
  set (h0 := exec_all [SNewCell unit_lat [v0] [5]; SList 0 (OAppend 0%nat)] h_empty).
  assert (W : wf_heap h0).
  { apply prog_wf; [exact wf_empty|]. cbn [prog_ok]. unfold stmt_ok. cbn [stmt_target stmt_args op_args].
    split; [split; [intros c [=]|split; [intros a []|intros c [=]]]|].
    split; [|exact I]. split; [intros c [= <-]; vm_compute; lia|]. split; [intros a [<-|[]]; vm_compute; lia|intros c [=]]. }
  exists h0, 0%nat. eexists [_; _]. eexists. eexists [_; _]. eexists. eexists. split; [exact W|].
  split; [exists (mkMC unit_lat 0), [0; 0]%nat; repeat (split; [reflexivity|]); repeat constructor; reflexivity|].
  split; [vm_compute; reflexivity|].
  split; [exists (mkMC unit_lat 0), [0; 0]%nat; repeat (split; [reflexivity|]); repeat constructor; reflexivity|].
  split; [reflexivity|]. split; [reflexivity|]. split; [reflexivity|]. vm_compute. f_equal; apply Qc_is_canon; reflexivity.
Qed.
Print Assumptions C46_shared_refuted.

(** ** C47: sphere *)
Theorem C47_sphere : forall h c lat rs ss ce r ele, wf_heap h -> holds h c rs -> contains h c lat ss ->
  StronglySorted lt (map fst (points_insphere h c ce r ele)) /\
  forall i a, In (i, a) (points_insphere h c ce r ele) <->
    nth_error rs i = Some a /\ exists s, nth_error ss i = Some s /\ near_image lat (s_pos s) ce r /\ of_species ele s.
Proof.
  intros h c lat rs ss ce r ele W H X. apply holds_iff in H; [|exact W]. destruct H as [C ->].
  apply contains_iff in X; [|exact W]. destruct X as (_ & -> & ->).
  split; [apply points_insphere_sorted|]. intros i a. rewrite points_insphere_In. split.
  - intros (N & P & Q). split; [exact N|]. exists (site_at h a). rewrite nth_error_map, N. auto.
  - intros (N & s & S & P & Q). rewrite nth_error_map, N in S. cbn in S. injection S as <-. auto.
Qed.
Print Assumptions C47_sphere.
Example C47_ex : points_insphere h3 0 (diag 9 10) (q 2 5) (Some (mkSpecie "B" 5 0 0)) = [(0, 0)]%nat /\
  points_insphere h3 0 (diag 9 10) (q 7 10) None = [(0, 0); (2, 2)]%nat /\
  points_insphere h3 0 (diag 0 1) (q 0 1) None = [].
Proof. repeat split; vm_compute; reflexivity. Qed.

(** ** C48: AtomRemoveClarifier *)
Definition removed_near (lat : mat Qc) (centers : list (vec Qc)) (r : Qc) (ele : option specie) (s : site) : Prop :=
  of_species ele s /\ exists ce, In ce centers /\ near_image lat (s_pos s) ce r.

Theorem C48_removes : forall h c lat ss centers r ele, wf_heap h -> contains h c lat ss ->
  exists h' ss', atom_remove_clarify centers r ele (AModified c) h = (h', Ok c) /\ wf_heap h' /\
    contains h' c lat ss' /\ without (removed_near lat centers r ele) ss ss' /\
    h_site h' = h_site h /\ (forall d lat' vs, d <> c -> contains h d lat' vs -> contains h' d lat' vs).
Proof.
  intros h c lat ss centers r ele W X. apply contains_iff in X; [|exact W]. destruct X as (C & -> & ->).
  destruct (@clarify_reduced c r ele centers h W C) as (h' & E & R).
  destruct (reduced_contains W C R) as [K1 K2].
  eexists h', _. split; [unfold atom_remove_clarify; unfold cbind at 1; setoid_rewrite E; reflexivity|]. split; [apply R|].
  split; [exact K2|]. split; [|split; [apply R|exact K1]].
  apply (@without_filter (removed_near (mc_lattice (cell_at h c)) centers r ele)
           (fun s => existsb (fun ce => in_sphere (mc_lattice (cell_at h c)) ce r ele s) centers)).
  intros s. rewrite existsb_exists. unfold removed_near. split.
  - intros (ce & I & S). apply in_sphere_spec in S. destruct S. split; [assumption|]. exists ce. auto.
  - intros (O & ce & I & S). exists ce. split; [exact I|]. apply in_sphere_spec. auto.
Qed.
Print Assumptions C48_removes.

(** The order (and repetition) of the centers does not matter; doing it again changes
    nothing; other arguments are refused. *)
Theorem C48_order_irrelevant : forall h c lat ss cs cs' r ele h1 h2 s1 s2, wf_heap h -> contains h c lat ss ->
  (forall ce, In ce cs <-> In ce cs') ->
  atom_remove_clarify cs r ele (AModified c) h = (h1, Ok c) -> atom_remove_clarify cs' r ele (AModified c) h = (h2, Ok c) ->
  contains h1 c lat s1 -> contains h2 c lat s2 -> s1 = s2.
Proof.
  intros h c lat ss cs cs' r ele h1 h2 s1 s2 W X S E1 E2 C1 C2.
  destruct (C48_removes h c lat ss cs r ele W X) as (h1' & t1 & F1 & W1 & D1 & K1 & _).
  destruct (C48_removes h c lat ss cs' r ele W X) as (h2' & t2 & F2 & W2 & D2 & K2 & _).
  assert (h1' = h1) by congruence. assert (h2' = h2) by congruence. subst.
  apply contains_iff in C1, C2, D1, D2; auto.
  destruct C1 as (_ & _ & ->), C2 as (_ & _ & ->), D1 as (_ & _ & ->), D2 as (_ & _ & ->).
  eapply without_fun; [exact K1|]. eapply without_ext; [|exact K2].
  intros s. unfold removed_near. split; intros (O & ce & I & N); split; auto; exists ce; (split; [apply S; exact I|exact N]).
Qed.
Print Assumptions C48_order_irrelevant.

Theorem C48_idempotent : forall h c lat ss cs r ele h1 h2 s1, wf_heap h -> contains h c lat ss ->
  atom_remove_clarify cs r ele (AModified c) h = (h1, Ok c) -> atom_remove_clarify cs r ele (AModified c) h1 = (h2, Ok c) ->
  contains h1 c lat s1 -> contains h2 c lat s1.
Proof.
  intros h c lat ss cs r ele h1 h2 s1 W X E1 E2 C1.
  destruct (C48_removes h c lat ss cs r ele W X) as (h1' & t1 & F1 & W1 & D1 & K1 & _).
  assert (h1' = h1) by congruence. subst.
  destruct (C48_removes h1 c lat s1 cs r ele W1 C1) as (h2' & t2 & F2 & W2 & D2 & K2 & _).
  assert (h2' = h2) by congruence. subst.
  assert (s1 = t1) as ->.
  { apply contains_iff in C1, D1; auto. destruct C1 as (_ & _ & ->), D1 as (_ & _ & ->). reflexivity. }
  apply without_again in K1. rewrite (without_fun K1 K2). exact D2.
Qed.
Print Assumptions C48_idempotent.

Theorem C48_other_argument : forall cs r ele h, atom_remove_clarify cs r ele AOther h = (h, Raise ValueError).
Proof. reflexivity. Qed.
Print Assumptions C48_other_argument.

Example C48_ex : let h' := fst (atom_remove_clarify [diag 9 10; diag 1 3] (q 1 5) None (AModified 0) h3) in
  mc_numbers h' 0 = [5] /\ mc_positions h' 0 = [diag 1 2].
Proof. vm_compute. split; [reflexivity|]. repeat f_equal; apply Qc_is_canon; reflexivity. Qed.

(** ** C49: VerboseAtomRemoveClarifier *)
Theorem C49_removes : forall h c lat ss eto r ele fuel, wf_heap h -> contains h c lat ss -> (length ss < fuel)%nat ->
  exists h' ss', verbose_clarify fuel eto r ele (AModified c) h = Some (h', Ok c) /\ wf_heap h' /\
    contains h' c lat ss' /\
    without (fun s => of_species ele s /\ exists ce, In ce ss /\ sp_Z (s_ele ce) = sp_Z eto /\
                      near_image lat (s_pos s) (s_pos ce) r) ss ss' /\
    h_site h' = h_site h /\ (forall d lat' vs, d <> c -> contains h d lat' vs -> contains h' d lat' vs).
Proof.
  intros h c lat ss eto r ele fuel W X F. apply contains_iff in X; [|exact W]. destruct X as (C & -> & ->).
  rewrite map_length in F.
  destruct (@verbose_loop c r ele eto h (mc_list (cell_at h c)) (refs h c) C (length (refs h c)) 0 fuel h (refs h c)) as (h' & E & R);
    auto using reduced_refl, wf_list_lt.
  destruct (reduced_contains W C R) as [K1 K2].
  eexists h', _. split; [unfold verbose_clarify; setoid_rewrite E; reflexivity|]. split; [apply R|].
  split; [exact K2|]. split; [|split; [apply R|exact K1]]. cbn [skipn].
  apply (@without_filter _ (fun s => existsb (fun b => sp_eqb (s_ele (site_at h b)) eto &&
           in_sphere (mc_lattice (cell_at h c)) (s_pos (site_at h b)) r ele s) (refs h c))).
  intros s. rewrite existsb_exists. split.
  - intros (b & I & S). apply andb_true_iff in S. destruct S as [S1 S2]. apply in_sphere_spec in S2. destruct S2 as [S2 S3].
    split; [exact S3|]. exists (site_at h b). split; [apply in_map; exact I|]. split; [apply Z.eqb_eq; exact S1|exact S2].
  - intros (O & ce & I & S1 & S2). apply in_map_iff in I. destruct I as (b & <- & I). exists b. split; [exact I|].
    apply andb_true_iff. split; [apply Z.eqb_eq; exact S1|]. apply in_sphere_spec. auto.
Qed.
Print Assumptions C49_removes.

Theorem C49_other_argument : forall fuel eto r ele h, verbose_clarify fuel eto r ele AOther h = Some (h, Raise ValueError).
Proof. reflexivity. Qed.
Print Assumptions C49_other_argument.

(** Borons at 0 and 1/4, carbon at 9/20, radius 3/10.  The first boron removes the second;
    the second is still used as a center and removes the carbon. *)
Definition h49 : heap := fst (ModifiedCell_new unit_lat [V3 0 0 0; V3 (q 1 4) 0 0; V3 (q 9 20) 0 0]%Qc [5; 5; 6] h_empty).
Example C49_ex : exists h', verbose_clarify 4 (mkSpecie "B" 5 0 0) (q 3 10) None (AModified 0) h49 = Some (h', Ok 0%nat) /\
  mc_numbers h' 0 = [] /\ in_euclid unit_lat (V3 (q 9 20) 0 0)%Qc (V3 0 0 0)%Qc (q 3 10) = false.
Proof. eexists. split; [reflexivity|]. split; vm_compute; reflexivity. Qed.

(** ** C50: equality *)
Theorem C50_exact : forall h c d L M ss ts, wf_heap h -> contains h c L ss -> contains h d M ts ->
  (mc_eq h c d = Ok true <-> lat_close L M /\ paired site_close ss ts) /\
  (mc_eq h c d = Raise ValueError <-> lat_close L M /\ ~ comparable (length ss) (length ts)) /\
  ((exists b, mc_eq h c d = Ok b) \/ mc_eq h c d = Raise ValueError).
Proof.
  intros h c d L M ss ts W X Y. destruct (@mc_eq_spec h c d L M ss ts W X Y) as (H1 & H2 & H3).
  assert (DL : lat_close L M \/ ~ lat_close L M).
  { destruct (mclose L M) eqn:E; [left; apply mclose_spec; exact E|right; rewrite <- mclose_spec; congruence]. }
  assert (DC : comparable (length ss) (length ts) \/ ~ comparable (length ss) (length ts)) by (unfold comparable; lia).
  assert (PC : paired site_close ss ts -> comparable (length ss) (length ts)).
  { unfold comparable. intros [K|[(x & -> & N & _)|(y & -> & N & _)]].
    - left. apply Forall2_len in K. exact K.
    - right. left. split; [reflexivity|]. destruct ts; [congruence|discriminate].
    - right. right. split; [reflexivity|]. destruct ss; [congruence|discriminate]. }
  destruct DC as [Q|Q].
  - destruct (H3 Q) as (v & E & V). rewrite E. split; [|split].
    + rewrite <- V. split; congruence.
    + split; [discriminate|tauto].
    + left. eauto.
  - destruct DL as [D|D].
    + rewrite (H2 D Q). split; [|split]; [split; [discriminate|]|tauto|auto]. intros [_ P]. exfalso. auto.
    + rewrite (H1 D). split; [|split]; [split; [discriminate|tauto]|split; [discriminate|tauto]|left; eauto].
Qed.
Print Assumptions C50_exact.

(** With as many sites on both sides, and supported species, == compares sites in order. *)
Theorem C50_same_length : forall h c d L M ss ts, wf_heap h -> contains h c L ss -> contains h d M ts -> length ss = length ts ->
  Forall (fun s => supported (sp_Z (s_ele s))) ts ->
  (mc_eq h c d = Ok true <-> lat_close L M /\ Forall2 (fun s t => vec_close (s_pos s) (s_pos t) /\ sp_Z (s_ele s) = sp_Z (s_ele t)) ss ts).
Proof.
  intros h c d L M ss ts W X Y LL S. rewrite (proj1 (C50_exact h c d L M ss ts W X Y)).
  assert (K : paired site_close ss ts <-> Forall2 site_close ss ts).
  { split; [|intros; left; assumption]. intros [H|[(x & -> & N & F)|(y & -> & N & F)]]; [exact H| |].
    - destruct ts as [|t [|? ?]]; try discriminate. inversion F; subst. constructor; [assumption|constructor].
    - destruct ss as [|t [|? ?]]; try discriminate. inversion F; subst. constructor; [assumption|constructor]. }
  rewrite K. assert (E : Forall2 site_close ss ts <-> Forall2 (fun s t => vec_close (s_pos s) (s_pos t) /\ sp_Z (s_ele s) = sp_Z (s_ele t)) ss ts).
  { clear -S. revert ss. induction S as [|t ts St S IH]; intros [|s ss]; split; intros H; inversion H as [|? ? ? ? H1 H2]; subst; constructor.
    - destruct H1 as [P N]. split; [exact P|]. apply numbers_close in N; [exact N|unfold supported in St; lia].
    - apply IH. exact H2.
    - destruct H1 as [P N]. split; [exact P|]. apply numbers_close; [unfold supported in St; lia|exact N].
    - apply IH. exact H2. }
  rewrite E. reflexivity.
Qed.
Print Assumptions C50_same_length.

Definition h50 : heap := exec_all [SNewCell unit_lat [v0] [5]; SNewCell unit_lat [v0; v0] [5; 5]; SNewCell unit_lat [v0; v0; v0] [5; 5; 5];
  SNewCell (V3 (V3 (q 99998999 100000000) 0 0) (V3 0 1 0) (V3 0 0 1))%Qc [v0] [5]] h_empty.
Lemma wf_h50 : wf_heap h50.
Proof.
  apply prog_wf; [exact wf_empty|]. cbn [prog_ok]. unfold stmt_ok. cbn [stmt_target stmt_args].
  repeat (split; [split; [intros c [=]|split; [intros a []|intros c [=]]]|]). exact I.
Qed.

(** A one-site cell equals a two-site cell; comparing two and three sites raises; == is
    not symmetric. *)
Theorem C50_refuted : exists h, wf_heap h /\
  (exists c d L M ss ts, contains h c L ss /\ contains h d M ts /\ length ss <> length ts /\ mc_eq h c d = Ok true) /\
  (exists c d, is_cell h c /\ is_cell h d /\ mc_eq h c d = Raise ValueError) /\
  (exists c d, is_cell h c /\ is_cell h d /\ mc_eq h c d = Ok true /\ mc_eq h d c = Ok false).
Proof.
  exists h50. split; [exact wf_h50|]. split; [|split].
  - exists 0%nat, 1%nat, unit_lat, unit_lat. eexists [_]. eexists [_; _].
    split; [exists (mkMC unit_lat 0), [0]%nat; repeat (split; [reflexivity|]); repeat constructor; reflexivity|].
    split; [exists (mkMC unit_lat 1), [1; 2]%nat; repeat (split; [reflexivity|]); repeat constructor; reflexivity|].
    split; [discriminate|vm_compute; reflexivity].
  - exists 1%nat, 2%nat. unfold is_cell. split; [vm_compute; lia|]. split; [vm_compute; lia|]. vm_compute. reflexivity.
  - exists 3%nat, 0%nat. unfold is_cell. split; [vm_compute; lia|]. split; [vm_compute; lia|]. split; vm_compute; reflexivity.
Qed.
Print Assumptions C50_refuted.

(** ** C67: extend with a cell *)
Theorem C67_extend_other : forall h c d rc rd fuel, wf_heap h -> holds h c rc -> holds h d rd -> c <> d -> (length rd < fuel)%nat ->
  exists h', mc_extend_cell fuel c d h = Some (h', Ok tt) /\ holds h' c (rc ++ rd) /\ h_site h' = h_site h /\
    forall e re, e <> c -> holds h e re -> holds h' e re.
Proof.
  intros h c d rc rd fuel W H K N F. apply holds_iff in H; [|exact W]. destruct H as [C ->].
  apply holds_iff in K; [|exact W]. destruct K as [D ->].
  destruct (@extend_other c d (length (refs h d)) N fuel h 0 W C D eq_refl F) as (h' & E & W' & S & CC & R & O).
  exists h'. split; [exact E|]. cbn [skipn] in R.
  assert (IC : forall e, is_cell h e -> is_cell h' e) by (unfold is_cell; rewrite CC; auto).
  split; [apply holds_iff; auto|]. split; [exact S|].
  intros e re Ne He. apply holds_iff in He; [|exact W]. destruct He as [Ce ->]. apply holds_iff; auto. split; [auto|].
  symmetry. apply O; assumption.
Qed.
Print Assumptions C67_extend_other.

(** c.extend(c) never ends (a plain list would be doubled), unless c is empty. *)
Theorem C67_extend_self_diverges : forall h c rc fuel, wf_heap h -> holds h c rc -> rc <> [] ->
  mc_extend_cell fuel c c h = None.
Proof.
  intros h c rc fuel W H N. apply holds_iff in H; [|exact W]. destruct H as [C ->].
  apply extend_self_diverges; auto.
  - apply Forall_forall. intros a I. eapply wf_refs_site; eauto.
  - destruct (refs h c); [congruence|cbn; lia].
Qed.
Print Assumptions C67_extend_self_diverges.
Example C67_ex : mc_extend_cell 100 0 0 h3 = None /\ exists h', mc_extend_cell 4 1 0 h33 = Some (h', Ok tt) /\ holds h' 1 [3; 0; 1; 2]%nat.
Proof. split; [reflexivity|]. eexists. split; [reflexivity|]. eexists. split; reflexivity. Qed.
