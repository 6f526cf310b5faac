(** As many files as different suffixes. *)
From Coq Require Import String.
From Verif Require Import Base LBase BaseQ SLattice SGeneralCell MGeneralCell SSubst SSym SOcc SEnum MSogen SBurn LMisc LDup LBurn MElement LElement SIO MIO LGeneralCell SCli MCli LCli LCli2 LCli3 LCli4 LCli7 SCliApp SCliOne LListing SFileCount LFileCount SFileCount2.
Set Implicit Arguments.
Unset Strict Implicit.
Open Scope list_scope.
Open Scope nat_scope.

Definition draws (suffix : nat -> string) (k : nat) : list string := nodup string_dec (map suffix (seq 0 k)).
Lemma draws_once suffix k : lists_once (fun s => exists i, i < k /\ s = suffix i) (draws suffix k).
Proof.
  split; [apply NoDup_nodup|]. intros s. unfold draws. rewrite nodup_In, in_map_iff. split.
  - intros (i & <- & I). apply in_seq in I. exists i. split; [lia|reflexivity].
  - intros (i & L & ->). exists i. split; [reflexivity|]. apply in_seq. lia.
Qed.
Lemma draws_le suffix k j : different_draws suffix k j -> j <= k.
Proof.
  intros (S & O & <-). rewrite (lists_once_length O (draws_once suffix k)).
  rewrite <- (seq_length k 0) at 2. rewrite <- (map_length suffix (seq 0 k)). apply NoDup_incl_length; [apply NoDup_nodup|]. intros s I. now apply nodup_In in I.
Qed.
Lemma draws_all suffix k j : different_draws suffix k j -> (j = k <-> draws_differ suffix k).
Proof.
  intros (S & O & <-). rewrite (lists_once_length O (draws_once suffix k)). clear S O. split.
  - intros E i j [Hij Hj] Q. unfold draws in E.
    assert (ND : NoDup (map suffix (seq 0 k))).
    { apply (NoDup_incl_NoDup (NoDup_nodup string_dec (map suffix (seq 0 k)))).
      - rewrite E, map_length, seq_length. lia.
      - intros s I. now apply nodup_In in I. }
    assert (K : i = j); [|lia]. apply (proj1 (NoDup_nth_error _) ND).
    + rewrite map_length, seq_length. lia.
    + rewrite !nth_error_map, !(nth_error_nth' _ 0), !seq_nth by (rewrite ?seq_length; lia). cbn. now rewrite Q.
  - intros DD. assert (ND : NoDup (map suffix (seq 0 k))).
    { apply NoDup_nth_error. intros i j Hi Q. rewrite map_length, seq_length in Hi. rewrite !nth_error_map in Q.
      rewrite (nth_error_nth' _ 0), seq_nth in Q by (rewrite ?seq_length; lia). cbn in Q.
      destruct (nth_error (seq 0 k) j) as [j'|] eqn:Ej; [|discriminate].
      assert (j < k) by (rewrite <- (seq_length k 0); apply nth_error_Some; congruence).
      rewrite (nth_error_nth' _ 0), seq_nth in Ej by (rewrite ?seq_length; lia). injection Ej as <-. cbn in Q. injection Q as Q.
      destruct (Nat.lt_trichotomy i j) as [L|[L|L]]; [exfalso; apply (DD i j); auto|exact L|exfalso; apply (DD j i); auto]. }
    unfold draws. rewrite nodup_fixed_point by exact ND. rewrite map_length, seq_length. reflexivity.
Qed.
Lemma draws_few suffix m k j : (forall i, suffix_word m (suffix i)) -> different_draws suffix k j -> (Z.of_nat j <= 36 ^ Z.of_nat m)%Z.
Proof.
  intros W (S & [ND H] & <-). rewrite <- words_length. apply inj_le. apply NoDup_incl_length; [exact ND|].
  intros s I. apply H in I as (i & _ & ->). apply words_In, W.
Qed.

(** files named after their suffixes *)
Lemma named_count dir (nm : string -> string) suffix fs ws (fs' : files) : nothing_below dir fs -> (forall s, below dir (nm s)) -> (forall s t, nm s = nm t -> s = t) ->
  map fst ws = map (fun k => nm (suffix k)) (seq 0 (List.length ws)) -> after_writes fs ws fs' ->
  exists j, different_draws suffix (List.length ws) j /\ files_below dir fs' j.
Proof.
  intros NB HB HI N [A1 A2]. exists (List.length (draws suffix (List.length ws))). split.
  - exists (draws suffix (List.length ws)). split; [apply draws_once|reflexivity].
  - exists (map nm (draws suffix (List.length ws))). split; [apply FinFun.Injective_map_NoDup; [exact HI|apply NoDup_nodup]|]. split; [apply map_length|].
    intros p. assert (K : In p (map nm (draws suffix (List.length ws))) <-> In p (map fst ws)).
    { rewrite N. rewrite !in_map_iff. split.
      - intros (s & <- & I). apply (proj2 (draws_once suffix (List.length ws))) in I as (i & Hi & ->). exists i. split; [reflexivity|]. apply in_seq. lia.
      - intros (i & <- & I). exists (suffix i). split; [reflexivity|]. apply (proj2 (draws_once suffix (List.length ws))). exists i. apply in_seq in I. split; [lia|reflexivity]. }
    rewrite K. split.
    + intros I. split.
      * rewrite N in I. apply in_map_iff in I as (i & <- & _). apply HB.
      * destruct (last_write I) as (l1 & t & l2 & E & Nl). rewrite (A2 _ _ _ _ E Nl). discriminate.
    + intros [B P]. destruct (in_dec string_dec p (map fst ws)) as [I|I]; [exact I|]. rewrite (A1 p I) in P. now apply NB in B.
Qed.
Lemma names_list A B (f : nat -> A) (ws : list (A * B)) : (forall k w, nth_error ws k = Some w -> fst w = f k) -> map fst ws = map f (seq 0 (List.length ws)).
Proof.
  intros H. apply nth_error_same. intros k. rewrite !nth_error_map. destruct (nth_error ws k) as [w|] eqn:E.
  - assert (k < List.length ws) by (apply nth_error_Some; congruence). rewrite (nth_error_nth' _ 0), seq_nth by (rewrite ?seq_length; lia). cbn. f_equal. now apply H.
  - apply nth_error_None in E. rewrite (proj2 (nth_error_None _ _)) by (rewrite seq_length; lia). reflexivity.
Qed.

Lemma holds_swapped init ele sp n x : ele <> sp -> k_fold init (site_holds init ele) n sp x -> swapped init ele sp n x.
Proof.
  intros N (S & (ND & L & HS) & Sub).
  assert (H : k_fold init (fun i => site_holds init ele i /\ site_not init sp i) n sp x).
  { exists S. split; [|exact Sub]. split; [exact ND|]. split; [exact L|]. intros i I. split; [now apply HS|]. exists ele. split; [now apply HS|exact N]. }
  assert (PN : forall i, site_holds init ele i /\ site_not init sp i -> site_not init sp i) by (intros i [_ K]; exact K).
  destruct (kfold_counts PN H) as [C1 [_ [C3 C4]]]. split; [exact C1|]. split.
  - apply C3; [|congruence]. intros i [K _]. exact K.
  - intros w W1 W2. apply C4; [assumption|]. intros i [K _] K'. unfold site_holds in *. congruence.
Qed.

Section One.
Context (psize : mat Qc * list (vec Qc) * list Z -> nat) (std : mat Qc * list (vec Qc) * list Z -> mat Qc * list (vec Qc) * list Z) (dump : ydoc -> string).
Lemma biter_draws a tr o n dir suffix fs r : let D := k_fold (numbers (a_cell a)) (site_holds (numbers (a_cell a)) (a_ele a)) n (a_speckle a) in
  a_refined a = false -> a_ele a <> a_speckle a ->
  perm_group (List.length (numbers (a_cell a))) (sym_perm o) -> (forall x y, D x -> equivalent (sym_perm o) x y -> D y) ->
  class_inputs psize std a tr o D -> class_result psize std dump a tr o D dir suffix fs r -> nothing_below dir fs ->
  exists k j, burnside_count (sym_perm o) (fun x => D x /\ wanted psize (a_mpr a) tr (decorated (a_cell a) x)) k /\
    different_draws suffix k j /\ files_below dir (o_files r) j.
Proof.
  intros D UR NE PG DC (_ & _ & _ & IW) (_ & kept & ws & _ & T & I & AW) NB. exists (List.length kept).
  assert (B : burnside_count (sym_perm o) (fun x => D x /\ wanted psize (a_mpr a) tr (decorated (a_cell a) x)) (List.length kept)).
  { rewrite <- (map_length numbers). apply (burnside PG); [| |exact T].
    - intros x [Dx _]. exact (kfold_length Dx).
    - intros x y [Dx Wx] E. split; [eauto|]. apply (IW x y); eauto. }
  assert (SW : forall c, In c kept -> swapped (numbers (a_cell a)) (a_ele a) (a_speckle a) n (numbers c)).
  { intros c Hc. apply (holds_swapped NE). destruct T as [F _]. rewrite Forall_forall in F. apply (F (numbers c)). now apply in_map. }
  assert (CM : forall c c', In c kept -> In c' kept -> comment c = comment c').
  { intros c c' H H'. apply comment_order_independent. exact (swapped_perm NE (SW c H) (SW c' H')). }
  assert (NM : exists com, forall k w, nth_error ws k = Some w -> fst w = (dir ++ "/STRUCTURE_" ++ com ++ "_" ++ suffix k ++ "." ++ a_outmode a)%string).
  { destruct I as [L H]. destruct kept as [|c0 kept].
    - exists ""%string. intros k w E. destruct ws; [|discriminate]. destruct k; discriminate.
    - destruct ws as [|w0 ws]; [discriminate|]. destruct (H 0 c0 w0 eq_refl eq_refl) as (c0' & com & f0 & W0 & C0 & _).
      rewrite UR in W0. cbn in W0. subst c0'. exists com. intros k w E.
      destruct (nth_error (c0 :: kept) k) as [c|] eqn:Ec.
      + destruct (H k c w Ec E) as (c' & com' & f & W & C & P & _). rewrite UR in W. cbn in W. subst c'.
        assert (com' = com) as -> by (pose proof (CM c c0 (nth_error_In _ _ Ec) (or_introl eq_refl)); congruence). exact P.
      + exfalso. apply nth_error_None in Ec. assert (k < List.length (w0 :: ws)) by (apply nth_error_Some; congruence). lia. }
  destruct NM as (com & NM). destruct I as [L _]. rewrite L in *.
  destruct (@named_count dir (fun s => (dir ++ "/STRUCTURE_" ++ com ++ "_" ++ s ++ "." ++ a_outmode a)%string) suffix fs ws (o_files r) NB) as (j & J1 & J2); auto.
  - intros s. exists ("STRUCTURE_" ++ com ++ "_" ++ s ++ "." ++ a_outmode a)%string. reflexivity.
  - intros s t E. do 4 apply app_inj_l in E. now apply app_inj_r in E.
  - exact (names_list NM).
  - exists j. auto.
Qed.
End One.

Lemma suplat_draws dump mode d v u suffix b fs fs0 hs ws (fs' : files) : emptied b d fs fs0 ->
  indexed (fun k => superlattice_file dump mode d v u (suffix k)) hs ws -> (b = false -> nothing_below d fs) -> after_writes fs0 ws fs' ->
  exists j, different_draws suffix (List.length hs) j /\ files_below d fs' j.
Proof.
  intros EM [L H] NB AW. rewrite L. apply (@named_count d (fun s => (d ++ "/SUPLAT_" ++ str_int v ++ "_" ++ s ++ "." ++ mode)%string) suffix fs0 ws fs'); auto.
  - intros p Hp. destruct b.
    + now apply EM.
    + rewrite (proj2 (EM p)) by (intros [[=] _]). now apply NB.
  - intros s. exists ("SUPLAT_" ++ str_int v ++ "_" ++ s ++ "." ++ mode)%string. reflexivity.
  - intros s t E. do 4 apply app_inj_l in E. now apply app_inj_r in E.
  - apply names_list. intros k w E. destruct (nth_error hs k) as [m|] eqn:Em.
    + destruct (H k m w Em E) as (c & g & f & K). destruct K as (_ & _ & _ & _ & _ & _ & _ & P & _). exact P.
    + exfalso. apply nth_error_None in Em. assert (k < List.length ws) by (apply nth_error_Some; congruence). lia.
Qed.
