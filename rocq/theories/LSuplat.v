(** Supercells exactly, and the files of suplat one by one. *)
From Coq Require Import String Ascii Sorted Permutation.
From Verif Require Import Base LBase BaseQ LQ SElement MElement SLattice SSubst SSym SGeneralCell LGeneralCell MGeneralCell MHnf LMat3 LHnf LSuper LSuper2 LFrac LCrystal PHnf PSuper
  SOcc MIO SIO LIO5 LIO6 SModCell SShape LShape SCli MCli LCli LCli2 SCliOne LCli7 LCli8 SOrder SOrder2 LOrder SExact LExact SListing LListing SSuplat LGrid.
Set Implicit Arguments.
Unset Strict Implicit.
Open Scope list_scope.
Open Scope Z_scope.
Notation length := List.length.
Notation "a +++ b" := (String.append a b) (at level 60, right associativity).

Lemma inv_mul_r H p : zdet H <> 0 -> vec_mat (vec_mat p (matZ H)) (mdiv (zadj H) (zdet H)) = p.
Proof. intros N. rewrite vec_mat_mul, mul_mdiv, zmul_adj_r, mdiv_scale by exact N. apply vec_mat_id. Qed.
Lemma frac_points H : nonneg_mat H -> 0 < Z.abs (zdet H) < 100000 ->
  exists pts, get_frac_from_mat H = Ok pts /\ NoDup pts /\ Z.of_nat (length pts) = Z.abs (zdet H) /\ forall t, In t pts <-> inner_point H t.
Proof.
  intros NN B. assert (N : zdet H <> 0) by lia. destruct (get_frac_spec NN B) as (pts & G & ND & LN & I01 & IV & CL). exists pts.
  split; [exact G|]. split; [exact ND|]. split; [exact LN|]. intros t. split; [intros T; split; auto|].
  intros [I (v & V)]. rewrite get_frac_ok in G by (trivial; lia). injection G as <-. apply in_map_iff. exists v.
  assert (E : vdiv (coef H v) (zdet H) = t).
  { rewrite <- (inv_mul_r t N), V. unfold coef. now rewrite vec_mdiv. }
  split; [exact E|]. apply In_inpts; trivial; try lia. subst t. destruct I as (I1 & I2 & I3). unfold vdiv, vmap in *. cbn [vx vy vz] in *.
  rewrite <- infund_01 in I1, I2, I3 by exact N. repeat split; assumption || apply I1 || apply I2 || apply I3.
Qed.

Lemma blocks_combine (o : list (vec Qc)) n (P : list (vec Qc)) (nums : list Z) : length o = n -> length P = length nums ->
  combine (concat (List.map (fun x => List.map (fun y => vadd x y) o) P)) (concat (List.map (fun x => repeat x n) nums)) =
  concat (List.map (fun a => List.map (fun t => (vadd (fst a) t, snd a)) o) (combine P nums)).
Proof.
  intros O. revert nums. induction P as [|x P IH]; intros [|y nums] L; try discriminate; [reflexivity|]. cbn [List.map concat combine].
  rewrite combine_app by (now rewrite map_length, repeat_length). rewrite combine_repeat by (now rewrite map_length). rewrite map_map.
  f_equal. apply IH. now injection L.
Qed.
Lemma build_exact (u : gcell) H : positions u <> [] -> length (positions u) = length (numbers u) ->
  nonneg_mat H -> 0 < Z.abs (zdet H) < 100000 -> diag_prod H = Z.abs (zdet H) ->
  exists c, build_supercell (lattice u) (positions u) (numbers u) H = Ok c /\ exact_supercell u H c.
Proof.
  intros NE L NN B DP. assert (N : zdet H <> 0) by lia.
  destruct (frac_points NN B) as (pts & G & ND & LN & IP).
  unfold build_supercell. rewrite inv_matZ by exact N. cbn [bind]. rewrite G. cbn [bind].
  set (si := mdiv (zadj H) (zdet H)). set (P := List.map (fun p => vec_mat p si) (positions u)).
  assert (CC : np_concatenate (List.map (fun x => List.map (fun y => vadd x y) pts) P) = Ok (concat (List.map (fun x => List.map (fun y => vadd x y) pts) P))).
  { unfold P. destruct (positions u); [congruence|reflexivity]. }
  rewrite CC. cbn [bind]. unfold np_repeat. rewrite DP. destruct (Z.abs (zdet H) <? 0) eqn:E; [apply Z.ltb_lt in E; lia|]. cbn [bind].
  set (n := Z.to_nat (Z.abs (zdet H))). assert (PN : length pts = n) by (unfold n; lia).
  set (pp := concat (List.map (fun x => List.map (fun y => vadd x y) pts) P)).
  set (nn := concat (List.map (fun x => repeat x n) (numbers u))).
  assert (LP : length P = length (positions u)) by (unfold P; apply map_length).
  assert (Lpp : length pp = (length (positions u) * n)%nat) by (unfold pp; rewrite blocks_length; congruence).
  assert (Lnn : length nn = (length (positions u) * n)%nat) by (unfold nn; rewrite repeats_length; congruence).
  assert (n <> 0)%nat by lia. assert (length (positions u) <> 0)%nat by (destruct (positions u); [congruence|cbn; lia]).
  assert (NEp : pp <> []). { intros E'. rewrite E' in Lpp. cbn in Lpp. symmetry in Lpp. apply Nat.eq_mul_0 in Lpp. tauto. }
  assert (Lpn : length pp = length nn) by congruence.
  destruct (GeneralCell_new (mat_mul (matZ H) (lattice u)) pp nn) as [c|e] eqn:EC.
  2:{ rewrite GeneralCell_new_ok in EC; [discriminate|exact NEp|lia]. }
  exists c. split; [reflexivity|]. pose proof (C08_pairs _ _ _ Lpn EC) as PERM.
  split; [exists (mat_mul (matZ H) (lattice u)), pp, nn; auto|].
  split; [rewrite GeneralCell_new_ok in EC by (trivial; lia); injection EC as <-; reflexivity|].
  exists pts, (List.map (fun a => List.map (fun t => (vadd (fst a) t, snd a)) pts) (combine P (numbers u))).
  split; [exact ND|]. split; [exact IP|]. split; [|unfold pp, nn in PERM; rewrite blocks_combine in PERM by congruence; exact PERM].
  unfold P. clear - N. revert si. intros si. generalize (numbers u). intros m. revert m. generalize (positions u). intros l.
  induction l as [|p l IH]; intros [|z m]; cbn [List.map combine]; try constructor; [|apply IH]. clear IH.
  induction pts as [|t ts IH]; cbn [List.map]; constructor; [|exact IH]. cbn [fst snd]. split; [reflexivity|].
  rewrite vec_mat_add. unfold si. now rewrite inv_mul.
Qed.

(** *** uniqueness *)
Lemma blocks_fun (H : mat Z) (as_ : list (vec Qc * Z)) ts ts' b b' : zdet H <> 0 -> Permutation ts ts' ->
  Forall2 (fun (a : vec Qc * Z) block => Forall2 (fun t (b : vec Qc * Z) => snd b = snd a /\ vec_mat (fst b) (matZ H) = vadd (fst a) (vec_mat t (matZ H))) ts block) as_ b ->
  Forall2 (fun (a : vec Qc * Z) block => Forall2 (fun t (b : vec Qc * Z) => snd b = snd a /\ vec_mat (fst b) (matZ H) = vadd (fst a) (vec_mat t (matZ H))) ts' block) as_ b' ->
  Permutation (concat b) (concat b').
Proof.
  intros N P F. revert b'. set (si := mdiv (zadj H) (zdet H)).
  assert (K : forall (a : vec Qc * Z) l block, Forall2 (fun t (b : vec Qc * Z) => snd b = snd a /\ vec_mat (fst b) (matZ H) = vadd (fst a) (vec_mat t (matZ H))) l block ->
    block = List.map (fun t => (vec_mat (vadd (fst a) (vec_mat t (matZ H))) si, snd a)) l).
  { intros a l block F0. induction F0 as [|t [q z] l block [E1 E2] F0 IH]; [reflexivity|]. cbn in *. rewrite <- IH, <- E2, E1. unfold si. now rewrite inv_mul_r. }
  induction F as [|a block as_ b F0 F IH]; intros b' F'; inversion F'; subst; [constructor|]. cbn [concat]. apply Permutation_app; [|auto].
  rewrite (K _ _ _ F0). match goal with X : Forall2 _ ts' _ |- _ => rewrite (K _ _ _ X) end. now apply Permutation_map.
Qed.
Lemma supercell_unique u H c c' : zdet H <> 0 -> SSym.distinct_sites (positions c) -> exact_supercell u H c -> exact_supercell u H c' -> c = c'.
Proof.
  intros N D (FC & LC & ts & b & ND & IT & F & P) (FC' & LC' & ts' & b' & ND' & IT' & F' & P').
  assert (PT : Permutation ts ts') by (apply NoDup_Permutation; [exact ND|exact ND'|]; intros t; rewrite IT, IT'; tauto).
  pose proof (blocks_fun N PT F F') as PB. destruct (constructor_again FC) as (G & L & _). destruct (constructor_again FC') as (G' & L' & _).
  assert (E : GeneralCell_new (lattice c) (positions c) (numbers c) = GeneralCell_new (lattice c) (positions c') (numbers c')).
  { apply C09_order_independent; [exact L|exact L'| |exact D]. rewrite P, PB. now symmetry. }
  rewrite LC in E at 2. rewrite <- LC' in E. rewrite G, G' in E. now injection E.
Qed.
Lemma shape_fun std c g g' : exact_shape std c g -> exact_shape std c g' -> g = g'.
Proof.
  intros (lat & pos & idx & nums & S & F & G) (lat' & pos' & idx' & nums' & S' & F' & G').
  rewrite S in S'. injection S' as <- <- <-.
  assert (nums = nums'). { eapply Forall2_fun; [|exact F|exact F']. intros i z z' _ A B. congruence. }
  subst nums'. congruence.
Qed.
Lemma exact_suplat_fun std dump mode dir v u suffix h p p' : zdet h <> 0 ->
  (forall c, exact_supercell u h c -> SSym.distinct_sites (positions c)) ->
  exact_suplat std dump mode dir v u suffix h p -> exact_suplat std dump mode dir v u suffix h p' -> p = p'.
Proof.
  intros N D (c & g & sv & com & C & G & I & F & NM & Y & V) (c1 & g1 & sv1 & com1 & C1 & G1 & I1 & F1 & NM1 & Y1 & V1).
  assert (c1 = c) by (symmetry; exact (supercell_unique N (D c C) C C1)). subst c1.
  assert (g1 = g) by exact (shape_fun G1 G). subst g1.
  assert (sv1 = sv) by exact (int_text_fun I1 I). subst sv1.
  assert (com1 = com) by exact (formula_unique F1 F). subst com1.
  destruct p as [a t], p' as [a' t']. cbn [fst snd] in *. assert (EA : a' = a) by congruence. clear NM1. subst a'. f_equal.
  destruct (yaml_named_dec a None) as [K|K].
  - destruct (Y K) as (d & D1 & ->). destruct (Y1 K) as (d' & D' & ->). now rewrite (six_doc_fun D1 D').
  - exact (poscar_exact_fun (V K) (V1 K)).
Qed.
Lemma firsts_fun A (R : A -> A -> Prop) seen l o o' : firsts R seen l o -> firsts R seen l o' -> o = o'.
Proof.
  intros F. revert o'. induction F as [seen|seen x l out H F IH|seen x l out y I HR F IH]; intros o' F'; inversion F'; subst; [reflexivity|f_equal; auto| | |auto].
  - exfalso. eapply H; eauto.
  - exfalso. match goal with X : forall y, In y seen -> ~ R y x |- _ => exact (X _ I HR) end.
Qed.

(** *** text *)
Lemma render_exact dump path f g t : length (positions g) = length (numbers g) -> choose path None = Some f -> render dump f g = Ok t ->
  exists com, formula (numbers g) com /\
    (yaml_named path None -> exists d, six_doc g com d /\ t = dump d) /\
    (~ yaml_named path None -> poscar_exact (lattice g) (positions g) (numbers g) 1 "direct" t).
Proof.
  intros L CH R.
  assert (M : exists names, mapM to_name (numbers g) = Ok names).
  { destruct (mapM to_name (numbers g)) as [names|] eqn:M; [eauto|]. exfalso.
    destruct f; cbn [render] in R; [unfold yaml_doc in R|unfold VaspOutput_new in R]; rewrite M in R; discriminate. }
  destruct M as (names & M). assert (C : comment g = Ok (comment_of (ordered_atoms names))) by (unfold comment; rewrite M; reflexivity).
  destruct (comment_supported C) as (S & F). exists (comment_of (ordered_atoms names)). split; [exact F|].
  destruct (choose_spec path None) as (A & B & _). split; intros K.
  - assert (f = Fyaml) by (apply A in K; congruence). subst f. cbn [render] in R. unfold yaml_doc in R. rewrite M in R. cbn [bind] in R. injection R as R.
    eexists. split; [|symmetry; exact R]. unfold six_doc. cbn [y_comment y_lattice y_positions y_numbers y_zoom].
    split; [reflexivity|]. split; [repeat split; apply around_rounded|]. split; [|auto].
    clear. induction (positions g) as [|q l IH]; cbn; [constructor|]. constructor; [repeat split; apply around_rounded|exact IH].
  - destruct f; [exfalso; apply K, A; exact CH|]. cbn [render] in R. destruct (exact_text (g := g) 1 true S L) as (v & V & T).
    rewrite V in R. cbn [bind] in R. injection R as <-. exact T.
Qed.
Lemma shape_exact std c g : length (positions c) = length (numbers c) ->
  standardized (labelled (lattice c) (positions c) (length (positions c))) (std (labelled (lattice c) (positions c) (length (positions c)))) ->
  get_shaped_cell std c = Ok g -> exact_shape std c g.
Proof.
  intros L. unfold get_shaped_cell, exact_shape. rewrite <- L. set (n := length (positions c)).
  change (lattice c, positions c, map Z.of_nat (range n)) with (labelled (lattice c) (positions c) n).
  change (lattice c, positions c, map Z.of_nat (seq 0 n)) with (labelled (lattice c) (positions c) n).
  destruct (std (labelled (lattice c) (positions c) n)) as [[lat pos] idx]. intros ST.
  pose proof (@idx_label (lattice c) (positions c) n lat pos idx eq_refl ST) as IL.
  set (nm := fun z => nth (Z.to_nat z) (numbers c) 0%Z).
  assert (MM : mapM (fun i => py_get (numbers c) i) idx = Ok (map nm idx)).
  { apply mapM_ok_map. intros z I. destruct (IL z I) as (k & K & ->). unfold nm. rewrite Nat2Z.id.
    rewrite (@py_get_denotes _ (numbers c) (Z.of_nat k) k); [apply get_nth_nth; lia|]. split; [lia|auto]. }
  rewrite MM. cbn [bind]. intros G. exists lat, pos, idx, (map nm idx). split; [reflexivity|]. split; [|exact G].
  clear - IL L. assert (K : forall z, In z idx -> nth_error (numbers c) (Z.to_nat z) = Some (nm z)).
  { intros z I. destruct (IL z I) as (k & K & ->). unfold nm. apply nth_error_nth'. rewrite Nat2Z.id. lia. }
  clear IL. induction idx as [|z l IH]; cbn; constructor; [apply K; now left|]. apply IH. intros y I. apply K. now right.
Qed.
Lemma shape_lengths std c g : exact_shape std c g -> length (positions g) = length (numbers g).
Proof. intros (lat & pos & idx & nums & _ & _ & G). exact (GeneralCell_lengths G). Qed.

(** *** suplat *)
Section Suplat.
Variables (std : cell3 -> cell3) (dump : ydoc -> string) (rots : list (mat Z)) (u : gcell) (v : Z).
Hypothesis NE : positions u <> [].
Hypothesis LU : length (positions u) = length (numbers u).
Hypothesis SU : Forall supported (numbers u).
Hypothesis V : (v < 100000)%Z.
Hypothesis ST : forall h c, is_hnf v h -> supercell u h = Ok c ->
  standardized (labelled (lattice c) (positions c) (length (positions c))) (std (labelled (lattice c) (positions c) (length (positions c)))).

Lemma hnf_exact h : is_hnf v h -> exists c, supercell u h = Ok c /\ exact_supercell u h c.
Proof.
  intros Hh. pose proof (hnf_det Hh) as D.
  assert (K : nonneg_mat h /\ diag_prod h = v /\ 0 < v).
  { destruct Hh as (a & b & c & d & e & f & -> & ?). unfold nonneg_mat, diag_prod. cbn [vx vy vz]. nia. }
  destruct K as (NN & DP & N0). apply build_exact; auto; lia.
Qed.
Lemma suplat_exact a cwd suffix fs ds : Forall (made_of rots u v) (s_hnfs a) -> s_v a = v -> s_outmode a = "vasp"%string \/ s_outmode a = "yaml"%string ->
  let d := (cwd +++ "/SUPLAT_" +++ s_comment a) in
  let r := suplat_run std dump a cwd suffix fs ds in
  o_exn r = None /\ exists fs0 ws, emptied (ds d) d fs fs0 /\ after_writes fs0 ws (o_files r) /\
    indexed (fun k => exact_suplat std dump (s_outmode a) d v u (suffix k)) (map sl_H (s_hnfs a)) ws.
Proof.
  intros F EV M. cbv zeta. rewrite Forall_forall in F.
  assert (X : o_exn (suplat_run std dump a cwd suffix fs ds) = None).
  { apply suplat_run_total; [exact M|]. intros c I. destruct (@made_shape std rots u v NE LU SU V ST c (F c I)) as (c1 & g & E1 & E2 & E3 & _). eauto. }
  split; [exact X|].
  destruct (suplat_run_spec std dump a cwd suffix fs ds) as (fs0 & done & rest & ws & E1 & E2 & E3 & E4 & E5 & E6).
  rewrite (E5 X), app_nil_r in E2. subst done. exists fs0, ws. split; [exact E1|]. split; [exact E4|].
  destruct E3 as [L N]. split; [rewrite map_length; exact L|]. intros k h w H W. rewrite nth_error_map in H.
  destruct (nth_error (s_hnfs a) k) as [s|] eqn:Es; [|discriminate]. injection H as <-.
  destruct (N k s w Es W) as (c & g & f & F1 & F2 & F3 & F4 & F5). destruct (F s (nth_error_In _ _ Es)) as [ES HS].
  destruct (hnf_exact HS) as (c' & C0 & CX). assert (c' = c) by (rewrite ES in F1; unfold to_general_cell, supercell in *; cbn in F1; congruence). subst c'.
  assert (LC : length (positions c) = length (numbers c)) by (destruct CX as (FC & _); exact (proj1 (proj2 (constructor_again FC)))).
  pose proof (shape_exact LC (ST HS C0) F2) as SX.
  destruct (render_exact (shape_lengths SX) F4 F5) as (com & FO & TX).
  exists c, g, (str_int v), com. rewrite EV in F3. split; [exact CX|]. split; [exact SX|]. split; [apply str_int_text|]. split; [exact FO|]. split; [exact F3|]. exact TX.
Qed.
End Suplat.

Lemma firsts_incl A (R : A -> A -> Prop) seen l o x : firsts R seen l o -> In x o -> In x l.
Proof. intros F. induction F; cbn; [tauto|intros [->|I]; auto|intros I; auto]. Qed.
Lemma prefix_dec d p : below d p \/ ~ below d p.
Proof. pose proof (prefix_below d p) as H. destruct (String.prefix (d +++ "/") p); [left; now apply H|right; intros K; apply H in K; discriminate]. Qed.
Lemma emptied_fun b d fs fs0 fs1 : emptied b d fs fs0 -> emptied b d fs fs1 -> forall p, fs0 p = fs1 p.
Proof.
  intros E E' p. destruct (E p) as [A B], (E' p) as [A' B']. destruct b.
  - destruct (prefix_dec d p) as [K|K]; [rewrite A, A' by auto; reflexivity|rewrite B, B' by tauto; reflexivity].
  - rewrite B, B' by (intros [[=] _]). reflexivity.
Qed.
Lemma after_writes_ext (fs fs' : string -> option string) ws f f' : (forall p, fs p = fs' p) -> after_writes fs ws f -> after_writes fs' ws f' -> forall p, f p = f' p.
Proof.
  intros H (A & B) (A' & B') p. destruct (in_dec string_dec p (map fst ws)) as [I|I].
  - destruct (last_write I) as (l1 & t & l2 & E & N). now rewrite (B _ _ _ _ E N), (B' _ _ _ _ E N).
  - now rewrite (A _ I), (A' _ I), H.
Qed.
Lemma suplat_determined std dump mode d v u (suffix : nat -> string) rots all hs hs' b fs fs0 fs0' ws ws' f f' :
  firsts (lat_equiv rots) [] all hs -> firsts (lat_equiv rots) [] all hs' ->
  (forall h, In h all -> zdet h <> 0%Z /\ forall c, exact_supercell u h c -> SSym.distinct_sites (positions c)) ->
  indexed (fun k => exact_suplat std dump mode d v u (suffix k)) hs ws -> indexed (fun k => exact_suplat std dump mode d v u (suffix k)) hs' ws' ->
  emptied b d fs fs0 -> emptied b d fs fs0' -> after_writes fs0 ws f -> after_writes fs0' ws' f' ->
  hs = hs' /\ ws = ws' /\ forall p, f p = f' p.
Proof.
  intros F F' D I I' E E' W W'. assert (hs' = hs) by exact (firsts_fun F' F). subst hs'.
  assert (ws' = ws).
  { eapply indexed_fun with (R := fun k h w => In h all /\ exact_suplat std dump mode d v u (suffix k) h w) (l := hs).
    - cbv beta. intros k h w w' [IH H1] [_ H2]. destruct (D h IH) as [N DS]. exact (exact_suplat_fun N DS H1 H2).
    - destruct I' as [L H]. split; [exact L|]. intros k h w A B. split; [exact (firsts_incl F (nth_error_In _ _ A))|exact (H k h w A B)].
    - destruct I as [L H]. split; [exact L|]. intros k h w A B. split; [exact (firsts_incl F (nth_error_In _ _ A))|exact (H k h w A B)]. }
  subst ws'. split; [reflexivity|]. split; [reflexivity|]. exact (after_writes_ext (emptied_fun E E') W W').
Qed.
