(** Counting the files. *)
From Coq Require Import String.
From Verif Require Import Base LBase BaseQ SLattice SCount SGeneralCell MGeneralCell SSubst SSym SOcc MSogen SBurn LDup LBurn MElement MIO SCli MCli LCli LCli3 SCliApp SCliOne SFileCount.
Set Implicit Arguments.
Unset Strict Implicit.
Open Scope list_scope.
Open Scope nat_scope.

Lemma files_below_fun dir fs k k' : files_below dir fs k -> files_below dir fs k' -> k = k'.
Proof.
  intros (l & N & <- & H) (l' & N' & <- & H'). apply Nat.le_antisymm; apply NoDup_incl_length; auto; intros p Hp.
  - now apply H', H.
  - now apply H, H'.
Qed.
Lemma burnside_fun G D k k' : G <> [] -> burnside_count G D k -> burnside_count G D k' -> k = k'.
Proof.
  intros NE (Gs & Fs & A & B & E) (Gs' & Fs' & A' & B' & E').
  rewrite (lists_once_length A' A), (lists_once_length B' B), <- E in E'.
  destruct G as [|g G]; [contradiction|]. assert (List.length Gs <> 0).
  { destruct Gs; [|discriminate]. destruct (proj2 A g) as [_ I]. destruct (I (or_introl eq_refl)). }
  apply Nat.mul_cancel_l in E'; auto.
Qed.
Lemma lattice_fun G D k k' : G <> [] -> lattice_count G D k -> lattice_count G D k' -> k = k'.
Proof.
  intros NE (Gs & Fs & A & B & E) (Gs' & Fs' & A' & B' & E').
  rewrite (lists_once_length A' A), (lists_once_length B' B), <- E in E'.
  destruct G as [|g G]; [contradiction|]. assert (List.length Gs <> 0).
  { destruct Gs; [|discriminate]. destruct (proj2 A g) as [_ I]. destruct (I (or_introl eq_refl)). }
  apply Nat.mul_cancel_l in E'; auto.
Qed.

Lemma written_count dir fs ws (fs' : files) : nothing_below dir fs -> Forall (fun w => below dir (fst w)) ws ->
  each_has_its_file fs ws fs' -> files_below dir fs' (List.length ws).
Proof.
  intros E B (ND & W & O). exists (map fst ws). split; [exact ND|]. split; [apply map_length|]. intros p. split.
  - intros I. apply in_map_iff in I as ([q t] & <- & I). cbn. split.
    + rewrite Forall_forall in B. exact (B _ I).
    + rewrite (W q t I). discriminate.
  - intros [Hb N]. destruct (in_dec string_dec p (map fst ws)) as [I|I]; [exact I|]. rewrite (O p I) in N. now apply E in Hb.
Qed.
Lemma structures_below refine dump refined mode dir suffix kept ws :
  indexed (fun k => structure_file refine dump refined mode dir (suffix k)) kept ws -> Forall (fun w => below dir (fst w)) ws.
Proof.
  intros [L H]. apply Forall_forall. intros w I. apply In_nth_error in I as (k & Ek).
  destruct (nth_error kept k) as [c|] eqn:Ec.
  - destruct (H k c w Ec Ek) as (c' & com & f & _ & _ & P & _). rewrite P. exists ("STRUCTURE_" ++ com ++ "_" ++ suffix k ++ "." ++ mode)%string. reflexivity.
  - exfalso. apply nth_error_None in Ec. assert (k < List.length ws) by (apply nth_error_Some; congruence). lia.
Qed.

Section One.
Context (psize : mat Qc * list (vec Qc) * list Z -> nat) (std : mat Qc * list (vec Qc) * list Z -> mat Qc * list (vec Qc) * list Z) (dump : ydoc -> string).
Lemma class_count a tr o (D : list Z -> Prop) dir suffix m fs r : perm_group (List.length (numbers (a_cell a))) (sym_perm o) ->
  (forall x, D x -> List.length x = List.length (numbers (a_cell a))) -> (forall x y, D x -> equivalent (sym_perm o) x y -> D y) ->
  class_inputs psize std a tr o D -> class_result psize std dump a tr o D dir suffix fs r ->
  (forall k, String.length (suffix k) = m) -> nothing_below dir fs ->
  exists k, burnside_count (sym_perm o) (fun x => D x /\ wanted psize (a_mpr a) tr (decorated (a_cell a) x)) k /\
    (draws_differ suffix k -> files_below dir (o_files r) k).
Proof.
  intros PG DL DC (_ & _ & _ & IW) (_ & kept & ws & _ & T & I & AW) LS NB. exists (List.length kept). split.
  - rewrite <- (map_length numbers). apply (burnside PG); [| |exact T].
    + intros x [Dx _]. auto.
    + intros x y [Dx Wx] E. split; [eauto|]. apply (IW x y); eauto.
  - intros DD. replace (List.length kept) with (List.length ws) by (symmetry; apply I). apply (written_count NB (structures_below I)).
    apply (aw_each AW). apply (distinct_paths LS) with (2 := I).
    intros i j c d c' d' Hij Hi Hj _ _ _. apply DD. split; [exact Hij|]. apply nth_error_Some. congruence.
Qed.

Lemma ternary_below a comps (out : nat * nat -> list gcell) dir ws :
  Forall2 (fun cn w => ternary_file (get_refined_pcell std) dump (t_refined a) (t_outmode a) dir
                           (Z.of_nat (t_size a) - Z.of_nat (fst (snd cn)) - Z.of_nat (snd (snd cn)))%Z (Z.of_nat (fst (snd cn))) (Z.of_nat (snd (snd cn))) (fst cn) w)
      (List.flat_map (fun n => map (fun c => (c, n)) (out n)) comps) ws -> Forall (fun w => below dir (fst w)) ws.
Proof.
  induction 1 as [|cn w l l' H _ IH]; constructor; [|exact IH].
  destruct H as (c' & x & _ & _ & P). rewrite P. eexists. reflexivity.
Qed.
Lemma ternary_count N a tr o v1 v2 comps dir fs r : perm_group (List.length (numbers (t_cell a))) (sym_perm o) -> preserves (sym_perm o) (numbers (t_cell a)) ->
  ternary_inputs psize std a tr o v1 v2 comps -> ternary_result psize std dump N a tr o v1 v2 comps dir fs r -> nothing_below dir fs ->
  exists ks, Forall2 (fun n k => burnside_count (sym_perm o) (fun x => two_fold (numbers (t_cell a)) (fst n) v1 (snd n) v2 x /\ wanted psize (t_mpr a) tr (decorated (t_cell a) x)) k) comps ks /\
    (forall f, files_at_most fs f -> f + list_sum ks <= N -> files_below dir (o_files r) (list_sum ks)).
Proof.
  intros PG PR TI (_ & out & ws & HO & F & NR) NB. exists (map (fun n => List.length (out n)) comps). split.
  - clear F NR. assert (HI := TI). clear TI. induction comps as [|[n1 n2] comps IH]; constructor.
    + cbn [fst snd]. rewrite <- (map_length numbers). destruct (HI n1 n2 (or_introl eq_refl)) as (_ & _ & IW). destruct (HO n1 n2 (or_introl eq_refl)) as [_ T].
      apply (burnside PG); [| |exact T].
      * intros x [(S1 & S2 & _ & _ & _ & L & _) _]. exact L.
      * intros x y [Dx Wx] E. assert (Dy : two_fold (numbers (t_cell a)) n1 v1 n2 v2 y) by (eapply two_fold_closed; eauto).
        split; [exact Dy|]. exact (IW x y Dx Dy E Wx).
    + apply IH; intros; [apply HO|red; intros; apply HI]; now right.
  - assert (LW : List.length ws = list_sum (map (fun n => List.length (out n)) comps)).
    { rewrite <- (Forall2_len F). clear. induction comps as [|n l IH]; cbn; [reflexivity|]. rewrite app_length, map_length, IH. reflexivity. }
    intros f AM RM. rewrite <- LW in *. apply (written_count NB (ternary_below F)). apply (NR f AM RM).
Qed.
End One.

(** suplat: the directory is emptied if it exists *)
Lemma suplat_count dump mode d v u suffix b fs fs0 hs ws (fs' : files) : emptied b d fs fs0 ->
  indexed (fun k => superlattice_file dump mode d v u (suffix k)) hs ws -> (b = false -> nothing_below d fs) ->
  each_has_its_file fs0 ws fs' -> files_below d fs' (List.length hs).
Proof.
  intros EM [L H] NB EF. rewrite L. refine (written_count _ _ EF).
  - intros p Hp. destruct b.
    + now apply EM.
    + rewrite (proj2 (EM p)) by (intros [[=] _]). now apply NB.
  - apply Forall_forall. intros w I. apply In_nth_error in I as (k & Ek). destruct (nth_error hs k) as [m|] eqn:Em.
    + destruct (H k m w Em Ek) as (c & g & f & K). destruct K as (_ & _ & _ & _ & _ & _ & _ & P & _). rewrite P.
      exists ("SUPLAT_" ++ str_int v ++ "_" ++ suffix k ++ "." ++ mode)%string. reflexivity.
    + exfalso. apply nth_error_None in Em. assert (k < List.length ws) by (apply nth_error_Some; congruence). lia.
Qed.
