(** ocumaker: files of different levels have different names. *)
From Coq Require Import String.
From Verif Require Import Base LBase BaseQ SLattice SGeneralCell MGeneralCell LGeneralCell SSubst SSym SOcc SEnum MSogen SBurn LMisc LDup LSogen LBurn MElement LElement SIO MIO SCli MCli LCli LCli2 LCli3 LCli4 LCli7 SCliApp SCliOne LListing
  SFileCount LFileCount SFileCount2 LFileCount2 SFileCount3 LFormula PFormula.
From Verif Require LHnf.
Set Implicit Arguments.
Unset Strict Implicit.
Open Scope list_scope.
Open Scope nat_scope.

Notation ndl l := (List.length (nodup string_dec l)).
Lemma ndl_once (l S : list string) : lists_once (fun p => In p l) S -> ndl l = List.length S.
Proof. intros O. refine (lists_once_length _ O). split; [apply NoDup_nodup|]. intros x. apply nodup_In. Qed.
Lemma ndl_app (a b : list string) : (forall p, In p a -> ~ In p b) -> ndl (a ++ b) = ndl a + ndl b.
Proof.
  intros D. rewrite <- app_length. apply ndl_once. split.
  - apply LHnf.NoDup_app_disj; try apply NoDup_nodup. intros x I J. apply nodup_In in I, J. exact (D x I J).
  - intros x. rewrite !in_app_iff, !nodup_In. reflexivity.
Qed.
Lemma all_count dir fs ws (fs' : files) : nothing_below dir fs -> Forall (fun w => below dir (fst w)) ws -> after_writes fs ws fs' ->
  files_below dir fs' (ndl (map fst ws)).
Proof.
  intros NB B [A1 A2]. exists (nodup string_dec (map fst ws)). split; [apply NoDup_nodup|]. split; [reflexivity|]. intros p. rewrite nodup_In. split.
  - intros I. split.
    + apply in_map_iff in I as (w & <- & I). rewrite Forall_forall in B. now apply B.
    + destruct (last_write I) as (l1 & t & l2 & E & Nl). rewrite (A2 _ _ _ _ E Nl). discriminate.
  - intros [Hb P]. destruct (in_dec string_dec p (map fst ws)) as [I|I]; [exact I|]. rewrite (A1 p I) in P. now apply NB in Hb.
Qed.
Lemma indexed_app_inv A B (R : nat -> A -> B -> Prop) l l' ws : indexed R (l ++ l') ws ->
  exists wa wb, ws = wa ++ wb /\ indexed R l wa /\ indexed (fun k => R (List.length l + k)) l' wb.
Proof.
  intros [L H]. rewrite app_length in L. exists (firstn (List.length l) ws), (skipn (List.length l) ws). split; [symmetry; apply firstn_skipn|].
  assert (LA : List.length (firstn (List.length l) ws) = List.length l) by (rewrite firstn_length; lia). split; split.
  - symmetry. exact LA.
  - intros k x y Ex Ey. apply (H k).
    + rewrite nth_error_app1; [exact Ex|]. apply nth_error_Some. congruence.
    + rewrite <- (firstn_skipn (List.length l) ws), nth_error_app1; [exact Ey|]. apply nth_error_Some. congruence.
  - rewrite skipn_length. lia.
  - intros k x y Ex Ey. apply H.
    + rewrite nth_error_app2 by lia. replace (List.length l + k - List.length l) with k by lia. exact Ex.
    + rewrite <- (firstn_skipn (List.length l) ws), nth_error_app2 by lia. rewrite LA. replace (List.length l + k - List.length l) with k by lia. exact Ey.
Qed.

Section One.
Context (refine : gcell -> res gcell) (dump : ydoc -> string) (mode dir : string).
Notation file := (structure_file refine dump false mode dir).
Lemma block_names suffix kept ws : (forall c c', In c kept -> In c' kept -> comment c = comment c') -> indexed (fun k => file (suffix k)) kept ws ->
  exists com, forall k w, nth_error ws k = Some w -> fst w = (dir ++ "/STRUCTURE_" ++ com ++ "_" ++ suffix k ++ "." ++ mode)%string.
Proof.
  intros CM [L H]. destruct kept as [|c0 kept].
  - exists ""%string. intros k w E. destruct ws; [|discriminate]. destruct k; discriminate.
  - destruct ws as [|w0 ws]; [discriminate|]. destruct (H 0 c0 w0 eq_refl eq_refl) as (c0' & com & f0 & W0 & C0 & _).
    cbn in W0. subst c0'. exists com. intros k w E.
    destruct (nth_error (c0 :: kept) k) as [c|] eqn:Ec.
    + destruct (H k c w Ec E) as (c' & com' & f & W & C & P & _). cbn in W. subst c'.
      assert (com' = com) as -> by (pose proof (CM c c0 (nth_error_In _ _ Ec) (or_introl eq_refl)); congruence). exact P.
    + exfalso. apply nth_error_None in Ec. assert (k < List.length (w0 :: ws)) by (apply nth_error_Some; congruence). lia.
Qed.
Lemma block_count suffix kept ws : (forall c c', In c kept -> In c' kept -> comment c = comment c') -> indexed (fun k => file (suffix k)) kept ws ->
  different_draws suffix (List.length kept) (ndl (map fst ws)).
Proof.
  intros CM I. destruct (block_names CM I) as (com & NM). destruct I as [L _]. rewrite L.
  exists (draws suffix (List.length ws)). split; [apply draws_once|].
  set (nm := fun s => (dir ++ "/STRUCTURE_" ++ com ++ "_" ++ s ++ "." ++ mode)%string).
  rewrite <- (map_length nm). symmetry. apply ndl_once. split.
  - apply FinFun.Injective_map_NoDup; [|apply NoDup_nodup]. intros s t E. unfold nm in E. do 4 apply app_inj_l in E. now apply app_inj_r in E.
  - intros p. rewrite (names_list (f := fun k => nm (suffix k)) NM), !in_map_iff. split.
    + intros (s & <- & J). apply (proj2 (draws_once suffix (List.length ws))) in J as (i & Hi & ->). exists i. split; [reflexivity|]. apply in_seq. lia.
    + intros (i & <- & J). exists (suffix i). split; [reflexivity|]. apply (proj2 (draws_once suffix (List.length ws))). exists i. apply in_seq in J. split; [lia|reflexivity].
Qed.

Context (init : list Z) (ele sp : Z).
Hypothesis NE : ele <> sp.
Lemma blocks_count suffix m : (forall k, String.length (suffix k) = m) -> forall ls s b ws,
  (forall k l c, nth_error ls k = Some l -> In c l -> swapped init ele sp (b + k) (numbers c)) ->
  indexed (fun k => file (suffix (s + k))) (List.concat ls) ws ->
  exists js, drawn_in_blocks suffix s (map (@List.length gcell) ls) js /\ ndl (map fst ws) = list_sum js.
Proof.
  intros LS. induction ls as [|l ls IH]; intros s b ws SW I.
  - exists []. destruct I as [L _]. destruct ws; [|discriminate]. split; [constructor|reflexivity].
  - cbn [List.concat] in I. apply indexed_app_inv in I as (wa & wb & -> & IA & IB).
    assert (SL : forall c, In c l -> swapped init ele sp b (numbers c)) by (intros c Hc; rewrite <- (Nat.add_0_r b); apply (SW 0 l c eq_refl Hc)).
    assert (CM : forall c c', In c l -> In c' l -> comment c = comment c').
    { intros c c' H H'. apply comment_order_independent. exact (swapped_perm NE (SL c H) (SL c' H')). }
    pose proof (block_count CM IA) as D.
    destruct (IH (s + List.length l) (S b) wb) as (js & J1 & J2).
    { intros k l' c El Hc. replace (S b + k) with (b + S k) by lia. apply (SW (S k) l' c El Hc). }
    { destruct IB as [LB HB]. split; [exact LB|]. intros k x y Ex Ey. rewrite <- Nat.add_assoc. exact (HB k x y Ex Ey). }
    exists (ndl (map fst wa) :: js). split; [constructor; [exact D|exact J1]|].
    rewrite map_app, ndl_app.
    + cbn [list_sum fold_right]. rewrite J2. reflexivity.
    + intros p Ia Ib. apply in_map_iff in Ia as ([pa ta] & Ea & Ia). apply in_map_iff in Ib as ([pb tb] & Eb & Ib). cbn in Ea, Eb. subst pa pb.
      apply In_nth_error in Ia as (ka & Ka). apply In_nth_error in Ib as (kb & Kb).
      destruct IA as [LA HA], IB as [LB HB].
      destruct (nth_error l ka) as [ca|] eqn:Ca; [|apply nth_error_None in Ca; assert (ka < List.length wa) by (apply nth_error_Some; congruence); lia].
      destruct (nth_error (List.concat ls) kb) as [cb|] eqn:Cb; [|apply nth_error_None in Cb; assert (kb < List.length wb) by (apply nth_error_Some; congruence); lia].
      pose proof (HA ka ca _ Ca Ka) as FA. pose proof (HB kb cb _ Cb Kb) as FB. cbv beta in FA, FB.
      assert (LL : String.length (suffix (s + ka)) = String.length (suffix (s + (List.length l + kb)))) by (rewrite !LS; reflexivity).
      destruct (C115_files _ _ _ _ _ _ _ _ _ _ _ _ LL FA FB) as (_ & w & w' & W & W' & CC). cbn in W, W'. subst w w'.
      apply nth_error_In in Ca, Cb. apply in_concat in Cb as (l' & Il & Ic). apply In_nth_error in Il as (k' & Ek').
      pose proof (SL ca Ca) as (A1 & A2 & _). pose proof (SW (S k') l' cb Ek' Ic) as (B1 & B2 & _).
      destruct (Z.eq_dec sp 0) as [Z0|NZ].
      * assert (N0 : ele <> 0%Z) by congruence. pose proof (CC ele N0). lia.
      * pose proof (CC sp NZ). lia.
Qed.
End One.

Section Maker.
Context (spg_ops : gcell -> list symop) (spg_wyckoffs : gcell -> list string).
Context (psize : mat Qc * list (vec Qc) * list Z -> nat) (std : mat Qc * list (vec Qc) * list Z -> mat Qc * list (vec Qc) * list Z) (h : list Z -> Z) (dump : ydoc -> string).
Lemma maker_draws a cwd rd suffix m fs ds o tr :
  let P := fun i => site_holds (numbers (a_cell a)) (a_ele a) i /\ site_not (numbers (a_cell a)) (a_speckle a) i in
  let n := Z.to_nat (a_n a - Z.of_nat (count_occ Z.eq_dec (numbers (a_cell a)) (a_speckle a))) in
  let dir := structures_dir cwd (a_comment a) rd in
  a_refined a = false -> a_ele a <> a_speckle a -> (forall k, String.length (suffix k) = m) -> nothing_below dir fs ->
  ds dir = false ->
  make_occ spg_ops spg_wyckoffs (a_cell a) = Ok o -> restriction_of (a_tr a) = Ok tr ->
  from_constructor (a_cell a) -> perm_group (List.length (numbers (a_cell a))) (sym_perm o) -> preserves (sym_perm o) (numbers (a_cell a)) ->
  (forall k, k <= n -> collision_free h (k_fold (numbers (a_cell a)) P k (a_speckle a))) ->
  class_inputs psize std a tr o (maker_set a) ->
  exists ks js, List.length ks = n /\
    (forall k c, nth_error ks k = Some c ->
       burnside_count (sym_perm o) (fun x => k_fold (numbers (a_cell a)) P (S k) (a_speckle a) x /\ wanted psize (a_mpr a) tr (decorated (a_cell a) x)) c) /\
    drawn_in_blocks suffix 0 ks js /\ files_below dir (o_files (maker_run spg_ops spg_wyckoffs psize std h dump a cwd rd suffix fs ds)) (list_sum js).
Proof.
  intros P n dir UR NE LS NB DS MO RT FC HG PR CF CI.
  destruct (@maker_classes spg_ops spg_wyckoffs psize std h dump a cwd rd suffix fs ds o tr DS MO RT FC HG PR CF CI) as (EX & _).
  destruct (@run_app_spec spg_ops spg_wyckoffs psize std dump a (fun o => all_speckle_gen_of_ele h o (a_n a) (a_ele a) (a_speckle a)) cwd rd suffix fs ds o tr DS MO RT) as (R & _).
  destruct R as (d & rest & kept & ws & E & SEL & I & W & N). rewrite (N EX), app_nil_r in E. subst d.
  pose proof (make_occ_cell MO) as EC. pose proof HG as HG'. pose proof PR as PR'. rewrite <- EC in FC, HG, PR. unfold P, n in CF. rewrite <- EC in CF.
  destruct (C23_lemma FC HG PR CF) as (LL & LV). rewrite EC in LL, LV.
  destruct (selected_flat SEL) as (ls & L & K & HL).
  assert (T : forall k l, nth_error ls k = Some l -> transversal (equivalent (sym_perm o))
    (fun x => k_fold (numbers (a_cell a)) P (S k) (a_speckle a) x /\ wanted psize (a_mpr a) tr (decorated (a_cell a) x)) (map numbers l)).
  { intros k l El. destruct (HL k l El) as (t & Et & St). destruct (LV k t Et) as (_ & S2 & S3). rewrite EC in S2, S3.
    refine (proj2 (selected_transversal (V := fun x => wanted psize (a_mpr a) tr (decorated (a_cell a) x)) S2 (fun x => iff_refl _) S3 St _)).
    assert (Hk : k < n) by (unfold n; rewrite <- LL; apply nth_error_Some; congruence).
    intros x y Dx Dy Q. destruct CI as (_ & _ & _ & IW). apply (IW x y); [exists k; split; assumption|exists k; split; assumption|exact Q]. }
  assert (PN : forall i, P i -> site_not (numbers (a_cell a)) (a_speckle a) i) by (intros i [_ H]; exact H).
  assert (SW : forall k l c, nth_error ls k = Some l -> In c l -> swapped (numbers (a_cell a)) (a_ele a) (a_speckle a) (1 + k) (numbers c)).
  { intros k l c El Hc. destruct (T k l El) as (F & _). rewrite Forall_forall in F. destruct (F (numbers c) (in_map numbers _ _ Hc)) as [Dx _].
    destruct (kfold_counts PN Dx) as [C1 [_ [C3 C4]]]. split; [exact C1|]. split.
    - apply C3; [|congruence]. intros i [H _]. exact H.
    - intros w W1 W2. apply C4; [assumption|]. intros i [H _] H'. unfold site_holds in *. congruence. }
  rewrite UR in I. rewrite K in I.
  destruct (@blocks_count (get_refined_pcell std) dump (a_outmode a) dir (numbers (a_cell a)) (a_ele a) (a_speckle a) NE suffix m LS ls 0 1 ws SW I) as (js & J1 & J2).
  exists (map (@List.length gcell) ls), js. split; [rewrite map_length, L; exact LL|]. split; [|split; [exact J1|]].
  - intros k c Ec. rewrite nth_error_map in Ec. destruct (nth_error ls k) as [l|] eqn:El; [|discriminate]. injection Ec as <-.
    rewrite <- (map_length numbers). apply (burnside HG'); [| |exact (T k l El)].
    + intros x [Dx _]. exact (kfold_length Dx).
    + assert (Hk : k < n) by (unfold n; rewrite <- LL, <- L; apply nth_error_Some; congruence).
      intros x y [Dx Wx] Q.
      assert (Dy : k_fold (numbers (a_cell a)) P (S k) (a_speckle a) y).
      { apply (@kfold_closed _ _ _ _ _ _ x y HG' eq_refl PR' (inv_and (inv_holds (a_ele a) PR') (inv_not (a_speckle a) PR')) (fun i Hi => holds_lt (proj1 Hi)) Dx Q). }
      split; [exact Dy|]. destruct CI as (_ & _ & _ & IW). apply (IW x y); [exists k; split; assumption|exists k; split; assumption|exact Q|exact Wx].
  - rewrite <- J2. apply (all_count NB (structures_below I) W).
Qed.
End Maker.
