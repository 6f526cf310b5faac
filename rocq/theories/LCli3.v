(** ocumaker and ocubiter: one file per symmetry class. *)
From Coq Require Import String Ascii.
From Verif Require Import Base BaseQ LBase SElement MElement LElement MGeneralCell SGeneralCell LGeneralCell MHnf MRestrict MSogen MText LText MIO SIO
  SSubst SSym LSym LComb LFilter SOcc SEnum LDup LLevels LMisc LSogen SCli MCli SCliApp LCli LCli2.
Set Implicit Arguments.
Unset Strict Implicit.
Open Scope list_scope.
Open Scope nat_scope.
Notation length := List.length.
Notation "a +++ b" := (String.append a b) (at level 60, right associativity).

Lemma frame_decorated c0 c : same_frame c0 c -> c = decorated c0 (numbers c).
Proof.
  intros (L & P & N & _ & V). unfold views_agree in V. destruct c as [l p x s n]. cbn in *. subst. reflexivity.
Qed.
Lemma FOP_subseq A (R : A -> A -> Prop) k l : subseq k l -> ForallOrdPairs R l -> ForallOrdPairs R k.
Proof.
  intros S. induction S as [|x a l S IH|x a l S IH]; intros F; [constructor| |]; inversion F; subst; [|auto].
  constructor; [|auto]. apply Forall_forall. intros y I. rewrite Forall_forall in H1. apply H1. exact (subseq_incl S _ I).
Qed.
Lemma FOP_app A (R : A -> A -> Prop) l m : ForallOrdPairs R l -> ForallOrdPairs R m -> (forall a b, In a l -> In b m -> R a b) -> ForallOrdPairs R (l ++ m).
Proof.
  intros F G H. induction F as [|x l HX F IH]; cbn; [exact G|]. constructor.
  - apply Forall_app. split; [exact HX|]. apply Forall_forall. intros b I. apply H; [now left|exact I].
  - apply IH. intros a b I J. apply H; [now right|exact J].
Qed.

Lemma selected_transversal c0 E (D V : list Z -> Prop) (W : gcell -> Prop) l kept :
  Forall (same_frame c0) l -> (forall x, V x <-> W (decorated c0 x)) ->
  transversal E D (map numbers l) -> selected W l kept ->
  (forall x y, D x -> D y -> E x y -> V x -> V y) ->
  Forall (same_frame c0) kept /\ transversal E (fun x => D x /\ V x) (map numbers kept).
Proof.
  intros F HV (T1 & T2 & T3) S INV. rewrite Forall_forall in F, T1.
  pose proof (subseq_incl (selected_subseq S)) as I.
  assert (WV : forall c, In c l -> W c <-> V (numbers c)).
  { intros c H. rewrite HV, <- (frame_decorated (F c H)). tauto. }
  split; [apply Forall_forall; auto|]. split; [|split].
  - apply Forall_forall. intros x H. apply in_map_iff in H as (c & <- & H). split; [apply T1, in_map; auto|]. apply WV; [auto|].
    now apply (selected_in c S).
  - intros x [HD Hx]. destruct (T2 x HD) as (y & Iy & Exy). apply in_map_iff in Iy as (c & <- & Ic). exists (numbers c). split; [|exact Exy].
    apply in_map. apply (selected_in c S). split; [exact Ic|]. apply WV; [exact Ic|]. apply (INV x); auto. apply T1, in_map, Ic.
  - eapply FOP_subseq; [|exact T3]. apply subseq_map. exact (selected_subseq S).
Qed.

Section Names.
Context (refine : gcell -> res gcell) (dump : ydoc -> string).
Lemma distinct_paths refined mode dir suffix kept ws m : (forall k, String.length (suffix k) = m) ->
  suffixes_distinct refine refined suffix kept ->
  indexed (fun k => structure_file refine dump refined mode dir (suffix k)) kept ws -> NoDup (map fst ws).
Proof.
  intros L SD [EL H]. apply NoDup_nth_error. intros i j Hi E. rewrite map_length in Hi.
  assert (K : forall i j, i < j -> j < length ws -> nth_error (map fst ws) i <> nth_error (map fst ws) j).
  { clear i j Hi E. intros i j LT Hj E.
    destruct (nth_error ws i) as [p|] eqn:Ep; [|apply nth_error_None in Ep; lia].
    destruct (nth_error ws j) as [q|] eqn:Eq; [|apply nth_error_None in Eq; lia].
    destruct (nth_error kept i) as [c|] eqn:Ec; [|apply nth_error_None in Ec; lia].
    destruct (nth_error kept j) as [d|] eqn:Ed; [|apply nth_error_None in Ed; lia].
    rewrite !nth_error_map, Ep, Eq in E. cbn in E. injection E as E.
    destruct (H _ _ _ Ec Ep) as (c' & com & f & C1 & C2 & C3 & _). destruct (H _ _ _ Ed Eq) as (d' & com' & f' & D1 & D2 & D3 & _).
    rewrite C3, D3 in E. apply path_inj in E as [-> ES]; [|now rewrite !L].
    apply (SD i j c d c' d' LT Ec Ed C1 D1); [congruence|exact ES]. }
  destruct (Nat.lt_trichotomy i j) as [LT|[->|LT]]; [exfalso|reflexivity|exfalso].
  - apply (K i j LT); [|exact E]. destruct (Nat.lt_ge_cases j (length ws)); [assumption|]. exfalso.
    assert (N : nth_error (map fst ws) j = None) by (apply nth_error_None; rewrite map_length; lia).
    rewrite N in E. apply nth_error_None in E. rewrite map_length in E. lia.
  - apply (K j i LT Hi). congruence.
Qed.
End Names.

Section Classes.
Context (spg_ops : gcell -> list symop) (spg_wyckoffs : gcell -> list string)
  (psize : mat Qc * list (vec Qc) * list Z -> nat)
  (standardize : mat Qc * list (vec Qc) * list Z -> mat Qc * list (vec Qc) * list Z)
  (h : list Z -> Z) (dump : ydoc -> string).
Notation refine := (get_refined_pcell standardize).

Lemma class_generic a gens cwd rd suffix fs ds o tr D : ds (structures_dir cwd (a_comment a) rd) = false ->
  make_occ spg_ops spg_wyckoffs (a_cell a) = Ok o -> restriction_of (a_tr a) = Ok tr ->
  class_inputs psize standardize a tr o D ->
  Forall (fun t => stop t = None) (gens o) ->
  Forall (same_frame (a_cell a)) (List.flat_map (@items gcell) (gens o)) ->
  transversal (equivalent (sym_perm o)) D (map numbers (List.flat_map (@items gcell) (gens o))) ->
  class_result psize standardize dump a tr o D (structures_dir cwd (a_comment a) rd) suffix fs
    (run_app spg_ops spg_wyckoffs psize standardize dump a gens cwd rd suffix fs ds).
Proof.
  intros DS MO RT (M & HW & HM & INV) F FR T.
  assert (EX : o_exn (run_app spg_ops spg_wyckoffs psize standardize dump a gens cwd rd suffix fs ds) = None).
  { eapply run_app_total; eauto. intros c I.
    assert (Dc : D (numbers c)) by (destruct T as (T & _); rewrite Forall_forall in T; apply T, in_map, I).
    rewrite Forall_forall in FR. rewrite (frame_decorated (FR c I)). split; [apply HW, Dc|]. intros z d. apply HM, Dc. }
  split; [exact EX|].
  destruct (@run_app_spec spg_ops spg_wyckoffs psize standardize dump a gens cwd rd suffix fs ds o tr DS MO RT) as ((d & rest & kept & ws & E1 & E2 & E3 & E4 & E5) & _).
  rewrite (E5 EX), app_nil_r in E1. subst d.
  destruct (selected_transversal (V := fun x => wanted psize (a_mpr a) tr (decorated (a_cell a) x)) FR (fun x => iff_refl _) T E2 INV) as [K1 K2].
  exists kept, ws. auto.
Qed.

Lemma make_occ_cell c o : make_occ spg_ops spg_wyckoffs c = Ok o -> init_cell o = c.
Proof. unfold make_occ, OccupyGenerator_new. intros H. apply bind_ok in H as (p & _ & [= <-]). reflexivity. Qed.

Lemma biter_classes a n cwd rd suffix fs ds o tr :
  let D := k_fold (numbers (a_cell a)) (site_holds (numbers (a_cell a)) (a_ele a)) n (a_speckle a) in
  ds (structures_dir cwd (a_comment a) rd) = false ->
  make_occ spg_ops spg_wyckoffs (a_cell a) = Ok o -> restriction_of (a_tr a) = Ok tr -> a_n a = Z.of_nat n ->
  from_constructor (a_cell a) -> perm_group (length (numbers (a_cell a))) (sym_perm o) -> preserves (sym_perm o) (numbers (a_cell a)) ->
  collision_free h D -> class_inputs psize standardize a tr o D ->
  class_result psize standardize dump a tr o D (structures_dir cwd (a_comment a) rd) suffix fs
    (biter_run spg_ops spg_wyckoffs psize standardize h dump a cwd rd suffix fs ds).
Proof.
  intros D DS MO RT EN FC HG PR CF CI. pose proof (make_occ_cell MO) as EC. rewrite <- EC in FC, HG, PR.
  unfold D in *. rewrite <- EC in CF.
  destruct (C19_ele FC HG PR CF) as (S1 & S2 & S3). rewrite EC in S2, S3.
  unfold biter_run. eapply class_generic; eauto; cbv beta; rewrite EN.
  - constructor; [exact S1|constructor].
  - cbn [List.flat_map]. rewrite app_nil_r. exact S2.
  - cbn [List.flat_map]. rewrite app_nil_r. exact S3.
Qed.

(** All levels together. *)
Lemma reordered_map (x y : list Z) p : reordered x p y -> y = map (fun i => nth i x 0%Z) p.
Proof. intros R. induction R; cbn; [reflexivity|]. f_equal; [|assumption]. symmetry. now apply nth_error_nth. Qed.
Lemma map_nth_seq (x : list Z) : map (fun i => nth i x 0%Z) (seq 0 (length x)) = x.
Proof.
  apply nth_ext with (d := 0%Z) (d' := 0%Z); rewrite map_length, seq_length; [reflexivity|]. intros i Hi.
  rewrite nth_indep with (d' := nth 0 x 0%Z) by (now rewrite map_length, seq_length).
  change (nth 0 x 0%Z) with ((fun i => nth i x 0%Z) 0). rewrite map_nth, seq_nth by assumption. reflexivity.
Qed.
Lemma equivalent_perm G n (x y : list Z) : perm_group n G -> length x = n -> equivalent G x y -> Permutation y x.
Proof.
  intros (P & _) L (p & Ip & R). specialize (P p Ip). subst n. rewrite (reordered_map R).
  eapply perm_trans; [exact (Permutation_map _ P)|]. rewrite map_nth_seq. apply Permutation_refl.
Qed.

Lemma levels_union c0 (E : list Z -> list Z -> Prop) lv : forall (Dk : nat -> list Z -> Prop),
  (forall k t, nth_error lv k = Some t -> stop t = None /\ Forall (same_frame c0) (items t) /\ transversal E (Dk k) (map numbers (items t))) ->
  (forall j k x y, j <> k -> Dk j x -> Dk k y -> ~ E x y) ->
  Forall (fun t => stop t = None) lv /\ Forall (same_frame c0) (List.flat_map (@items gcell) lv) /\
  transversal E (fun x => exists k, k < length lv /\ Dk k x) (map numbers (List.flat_map (@items gcell) lv)).
Proof.
  induction lv as [|t lv IH]; intros Dk H NE.
  - split; [constructor|]. split; [constructor|]. split; [constructor|]. split; [|constructor]. intros x (k & LT & _). cbn in LT. lia.
  - destruct (H 0 t eq_refl) as (S0 & F & T1 & T2 & T3).
    destruct (IH (fun k => Dk (S k))) as (S' & F' & U1 & U2 & U3).
    { intros k u Hu. exact (H (Datatypes.S k) u Hu). }
    { intros j k x y N. apply NE. congruence. }
    split; [now constructor|]. cbn [List.flat_map length]. split; [apply Forall_app; auto|]. rewrite map_app.
    split; [|split].
    + apply Forall_app. split.
      * eapply Forall_impl; [|exact T1]. intros x Hx. exists 0. split; [lia|exact Hx].
      * eapply Forall_impl; [|exact U1]. cbv beta. intros x (k & LT & Hx). exists (Datatypes.S k). split; [lia|exact Hx].
    + intros x ([|k] & LT & Hx).
      * destruct (T2 x Hx) as (y & I & Exy). exists y. split; [apply in_app_iff; now left|exact Exy].
      * destruct (U2 x) as (y & I & Exy); [exists k; split; [lia|exact Hx]|]. exists y. split; [apply in_app_iff; now right|exact Exy].
    + apply FOP_app; [exact T3|exact U3|]. intros a b Ia Ib. rewrite Forall_forall in T1, U1.
      destruct (U1 b Ib) as (k & LT & Hb). split; [apply (NE 0 (Datatypes.S k)); auto|apply (NE (Datatypes.S k) 0); auto].
Qed.

Lemma maker_classes a cwd rd suffix fs ds o tr :
  ds (structures_dir cwd (a_comment a) rd) = false ->
  make_occ spg_ops spg_wyckoffs (a_cell a) = Ok o -> restriction_of (a_tr a) = Ok tr ->
  from_constructor (a_cell a) -> perm_group (length (numbers (a_cell a))) (sym_perm o) -> preserves (sym_perm o) (numbers (a_cell a)) ->
  (forall k, k <= Z.to_nat (a_n a - Z.of_nat (count_occ Z.eq_dec (numbers (a_cell a)) (a_speckle a))) ->
     collision_free h (k_fold (numbers (a_cell a)) (fun i => site_holds (numbers (a_cell a)) (a_ele a) i /\ site_not (numbers (a_cell a)) (a_speckle a) i) k (a_speckle a))) ->
  class_inputs psize standardize a tr o (maker_set a) ->
  class_result psize standardize dump a tr o (maker_set a) (structures_dir cwd (a_comment a) rd) suffix fs
    (maker_run spg_ops spg_wyckoffs psize standardize h dump a cwd rd suffix fs ds).
Proof.
  intros DS MO RT FC HG PR CF CI. pose proof (make_occ_cell MO) as EC. rewrite <- EC in FC, HG, PR, CF.
  destruct (C23_lemma FC HG PR CF) as (LL & LV). rewrite EC in LL, LV.
  set (P := fun i => site_holds (numbers (a_cell a)) (a_ele a) i /\ site_not (numbers (a_cell a)) (a_speckle a) i) in *.
  destruct (@levels_union (a_cell a) (equivalent (sym_perm o)) (all_speckle_gen_of_ele h o (a_n a) (a_ele a) (a_speckle a))
    (fun k => k_fold (numbers (a_cell a)) P (S k) (a_speckle a))) as (A1 & A2 & A3).
  { intros k t Hk. destruct (LV k t Hk) as (S1 & S2 & S3). rewrite EC in S2, S3. auto. }
  { intros j k x y N Hx Hy EQ.
    assert (PN : forall i, P i -> site_not (numbers (a_cell a)) (a_speckle a) i) by (intros i [_ H]; exact H).
    destruct (kfold_counts PN Hx) as (C1 & _). destruct (kfold_counts PN Hy) as (C2 & _).
    apply (equivalent_perm HG) in EQ.
    - apply (Permutation_count_occ Z.eq_dec) with (x := a_speckle a) in EQ. lia.
    - rewrite EC. exact (kfold_length Hx). }
  rewrite LL in A3. unfold maker_run. eapply class_generic; eauto.
Qed.
End Classes.
