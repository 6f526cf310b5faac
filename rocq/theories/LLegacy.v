(** Proofs for the grid-based generator (sogen.py:245-353). *)
From Coq Require Import Sorted String.
From Verif Require Import Base LBase BaseQ LQ MElement SElement MGeneralCell MSort SSort LSort SGeneralCell LGeneralCell SSym LSym MComb SSubst LComb MGrid SGrid LGrid LGrid2 LMisc LFilter MLegacy SLegacy LStr LLegacyKey.
Set Implicit Arguments.
Unset Strict Implicit.
Open Scope nat_scope.
Open Scope list_scope.
Notation length := List.length.

Definition carries_perm (o : symop) (pos : list (vec Qc)) (r : list nat) : Prop :=
  Permutation r (seq 0 (length pos)) /\
  forall i j, nth_error r i = Some j -> exists p q, nth_error pos j = Some p /\ nth_error pos i = Some q /\ carries_exactly o p q.

Section Key.
Variable K : vec Qc -> vec Qc.
Hypothesis KS : forall p q, int_shift p q -> K q = K p.
Lemma key_nodup pos : StronglySorted vlt (List.map K pos) -> NoDup (List.map K pos).
Proof.
  generalize (List.map K pos). intros l H. induction H as [|x l H IH F]; constructor; auto. intros I. rewrite Forall_forall in F. apply (@vlt_irrefl x). auto.
Qed.
Lemma key_perm_spec o pos : StronglySorted vlt (List.map K pos) -> permutes_sites o pos ->
  carries_perm o pos (lexsort (List.map K (List.map (apply_op o) pos))).
Proof.
  intros S [M1 M2]. pose proof (key_nodup S) as ND. set (ks := List.map K pos). set (ks' := List.map K (List.map (apply_op o) pos)).
  assert (L : length ks' = length pos) by (unfold ks'; now rewrite !map_length).
  assert (P : Permutation (lexsort ks') (seq 0 (length pos))) by (rewrite <- L; apply lexsort_perm).
  assert (PK : Permutation ks' ks).
  { symmetry. apply NoDup_Permutation_bis; [assumption|unfold ks; rewrite L, map_length; lia|].
    intros k Hk. apply in_map_iff in Hk. destruct Hk as [q [<- Hq]]. destruct (M2 q Hq) as [p [Hp C]].
    unfold carries_exactly in C. rewrite <- apply_op_image in C. rewrite (KS C). apply in_map, in_map. assumption. }
  assert (S1 : List.map (key_at ks') (lexsort ks') = ks).
  { apply (@sorted_unique_antisym _ (fun a b => vleb a b = true)).
    - intros x y _ _. apply vleb_antisym.
    - apply lexsort_keys_sorted.
    - apply nth_StronglySorted. intros a b x y Lab Ha Hb. apply vleb_iff. left. eapply StronglySorted_nth; eauto.
    - transitivity ks'; [|assumption]. rewrite <- (map_nth_seq ks' v0) at 3. apply Permutation_map. apply lexsort_perm. }
  split; [exact P|]. intros i j E.
  assert (Hj : j < length pos) by (apply (perm_lt P E)).
  assert (Hi : i < length pos) by (rewrite <- (perm_length P); apply nth_error_Some; congruence).
  destruct (nth_error pos j) as [p|] eqn:Ep; [|apply nth_error_None in Ep; lia].
  destruct (nth_error pos i) as [q|] eqn:Eq; [|apply nth_error_None in Eq; lia].
  exists p, q. split; [reflexivity|]. split; [reflexivity|].
  assert (K1 : nth_error (List.map (key_at ks') (lexsort ks')) i = Some (key_at ks' j)) by (rewrite nth_error_map, E; reflexivity).
  rewrite S1 in K1. unfold ks in K1. rewrite nth_error_map, Eq in K1. cbn in K1. injection K1 as K1.
  assert (K2 : key_at ks' j = K (apply_op o p)) by (apply key_at_nth; unfold ks'; now rewrite !nth_error_map, Ep).
  destruct (M1 p (nth_error_In _ _ Ep)) as [q' [Hq' C]]. assert (EK : K q' = K q).
  { rewrite K1, K2. rewrite apply_op_image. apply KS. exact C. }
  apply In_nth_error in Hq'. destruct Hq' as [i' Ei'].
  assert (i' = i). { apply (proj1 (NoDup_nth_error ks) ND); [unfold ks; rewrite map_length; apply nth_error_Some; congruence|]. unfold ks. rewrite !nth_error_map, Ei', Eq. cbn. congruence. }
  subst i'. congruence.
Qed.
End Key.

Lemma carries_exactly_fun (K : vec Qc -> vec Qc) (KS : forall p q, int_shift p q -> K q = K p) o pos i i' j p q q' : NoDup (List.map K pos) ->
  nth_error pos j = Some p -> nth_error pos i = Some q -> nth_error pos i' = Some q' ->
  carries_exactly o p q -> carries_exactly o p q' -> i = i'.
Proof.
  intros ND Ej Ei Ei' C C'. apply (proj1 (NoDup_nth_error (List.map K pos)) ND); [rewrite map_length; apply nth_error_Some; congruence|].
  rewrite !nth_error_map, Ei, Ei'. cbn. f_equal. unfold carries_exactly in C, C'. now rewrite (KS _ _ C), (KS _ _ C').
Qed.
Lemma carries_perm_uniq (K : vec Qc -> vec Qc) (KS : forall p q, int_shift p q -> K q = K p) o pos r r' : NoDup (List.map K pos) ->
  carries_perm o pos r -> carries_perm o pos r' -> r = r'.
Proof.
  intros ND [P H] [P' H']. apply list_ext. intros i.
  destruct (Nat.lt_ge_cases i (length pos)) as [Hi|Hi].
  - destruct (nth_error r i) as [j|] eqn:E; [|apply nth_error_None in E; rewrite (perm_length P) in E; lia].
    destruct (H i j E) as [p [q [Ep [Eq C]]]]. destruct (perm_surj P' (perm_lt P E)) as [i' [Hi' E']].
    destruct (H' i' j E') as [p' [q' [Ep' [Eq' C']]]]. assert (p' = p) by congruence. subst p'.
    assert (i = i') by (eapply (carries_exactly_fun KS ND Ep Eq Eq' C C')). subst i'. congruence.
  - rewrite !(proj2 (nth_error_None _ _)); [reflexivity| |]; rewrite (perm_length P) || rewrite (perm_length P'); assumption.
Qed.

(** exact space groups *)
Lemma exact_permutes ops pos o : exact_space_group ops pos -> In o ops -> permutes_sites o pos.
Proof.
  intros E Ho. pose proof E as E'. destruct E' as [_ [_ [XI X]]]. split.
  - intros p Hp. destruct (X o p Ho Hp) as [q [Hq C]]. eauto.
  - intros q Hq. destruct (XI o Ho) as [b [Hb Sb]]. destruct (XI b Hb) as [b' [Hb' Sb']].
    destruct (X b q Hb Hq) as [p [Hp C]]. exists p. split; [assumption|].
    unfold carries_exactly in *.
    assert (T1 : forall x, int_shift (op_image (fst b) (snd b) (op_image (fst o) (snd o) x)) x).
    { intros x. rewrite <- op_comp_image. rewrite <- (op_id_image x) at 2. now apply same_op_image. }
    assert (T2 : forall x, int_shift (op_image (fst b') (snd b') (op_image (fst b) (snd b) x)) x).
    { intros x. rewrite <- op_comp_image. rewrite <- (op_id_image x) at 2. now apply same_op_image. }
    assert (T3 : forall x, int_shift (op_image (fst o) (snd o) x) (op_image (fst b') (snd b') x)).
    { intros x. apply int_shift_trans with (op_image (fst b') (snd b') (op_image (fst b) (snd b) (op_image (fst o) (snd o) x))).
      - apply int_shift_sym, T2.
      - apply op_image_shift, T1. }
    apply int_shift_trans with (op_image (fst b') (snd b') p); [apply T3|].
    apply int_shift_trans with (op_image (fst b') (snd b') (op_image (fst b) (snd b) q)); [|apply T2].
    apply op_image_shift. now apply int_shift_sym.
Qed.
Lemma wrap_shift3 p q : int_shift p q -> wrap_key 3 q = wrap_key 3 p.
Proof. apply (@wrap_key_shift 2). Qed.
Lemma exact_perm_group n ops pos : (forall p q, int_shift p q -> wrap_key n q = wrap_key n p) ->
  StronglySorted vlt (List.map (wrap_key n) pos) -> StronglySorted vlt (List.map (wrap_key 3) pos) ->
  exact_space_group ops pos -> pos <> [] ->
  perm_group (length pos) (List.map (fun o => lexsort (List.map (wrap_key n) (List.map (apply_op o) pos))) ops).
Proof.
  intros KS S S3 E NE. set (c := mkG (V3 v0 v0 v0) pos (List.map (fun _ => 0%Z) pos) (V3 v0 v0 v0, pos, []) 0).
  assert (T : List.map tofrac pos = List.map (wrap_key 3) pos) by reflexivity.
  assert (ND : NoDup (List.map tofrac pos)) by (rewrite T; now apply key_nodup).
  replace (List.map (fun o => lexsort (List.map (wrap_key n) (List.map (apply_op o) pos))) ops)
    with (List.map (fun o => order_of (List.map (apply_op o) pos)) ops).
  - apply (@C14_exact ops c); auto.
    + unfold canonical, c; cbn. unfold order_of. rewrite <- (map_length tofrac pos). apply lexsort_id. rewrite T.
      apply nth_StronglySorted. intros a b x y Lab Ha Hb. apply vleb_iff. left. eapply StronglySorted_nth; eauto.
    + unfold c; cbn. now apply distinct_keys.
    + exact (mapM_gsp_ok (c := c) ops NE).
  - apply map_ext_in. intros o Ho. pose proof (exact_permutes E Ho) as M.
    apply (@carries_perm_uniq (wrap_key 3) wrap_shift3 o pos); [now rewrite <- T| |].
    + exact (@key_perm_spec (wrap_key 3) wrap_shift3 o pos S3 M).
    + now apply key_perm_spec.
Qed.

(** *** reordering of the flat array = moving the decoration *)
Lemma flat_nth (a : list (list (list Z))) d w l i j k : shaped a d w l -> in_grid d w l i j k ->
  nth_error (concat (concat a)) ((i * w + j) * l + k) = entry a i j k.
Proof. intros SH [_ [Hj Hk]]. now apply nth_concat2 with (d := d). Qed.
Lemma idx_lt d w l i j k : in_grid d w l i j k -> (i * w + j) * l + k < d * w * l.
Proof.
  intros [Hi [Hj Hk]]. assert (S (i * w + j) <= d * w).
  { replace (S (i * w + j)) with (i * w + S j) by lia. assert (S i * w <= d * w) by (apply Nat.mul_le_mono_r; lia). cbn in *. lia. }
  assert (S (i * w + j) * l <= d * w * l) by (apply Nat.mul_le_mono_r; assumption). cbn in *. lia.
Qed.
Lemma idx_inj d w l i j k i' j' k' : in_grid d w l i j k -> in_grid d w l i' j' k' -> (i * w + j) * l + k = (i' * w + j') * l + k' -> i = i' /\ j = j' /\ k = k'.
Proof.
  intros [_ [J K]] [_ [J' K']] E. destruct (digit_eq K K' E) as [E1 ->]. destruct (digit_eq J J' E1) as [-> ->]. auto.
Qed.
Lemma reordered_moved o d w l r a b : d <= 990 -> w <= 990 -> l <= 990 ->
  carries_perm o (all_sites d w l) r -> shaped a d w l -> shaped b d w l ->
  (reordered (concat (concat a)) r (concat (concat b)) <-> moved_by o d w l a b).
Proof.
  intros Bd Bw Bl [P H] SA SB. rewrite all_sites_length in P.
  pose proof (proj1 (shaped_concat SA)) as LA. pose proof (proj1 (shaped_concat SB)) as LB.
  assert (FA : length (concat (concat a)) = d * w * l) by apply (shaped_concat SA).
  assert (FB : length (concat (concat b)) = d * w * l) by apply (shaped_concat SB).
  split.
  - intros R i j k i' j' k' G G' C.
    rewrite <- (flat_nth SA G), <- (flat_nth SB G'). rewrite (reordered_nth _ R).
    destruct (nth_error r ((i' * w + j') * l + k')) as [m|] eqn:E.
    + destruct (H _ _ E) as [p [q [Ep [Eq C']]]]. rewrite (all_sites_nth G') in Eq. injection Eq as <-.
      destruct (perm_surj P (idx_lt G)) as [n' [Ln' En']]. destruct (H _ _ En') as [p2 [q2 [Ep2 [Eq2 C2]]]].
      rewrite (all_sites_nth G) in Ep2. injection Ep2 as <-.
      assert (n' = (i' * w + j') * l + k').
      { apply (@carries_exactly_fun (wrap_key 3) wrap_shift3 o (all_sites d w l) n' _ _ _ _ _) with (2 := all_sites_nth G) (3 := Eq2) (4 := all_sites_nth G') (5 := C2) (6 := C).
        apply key_nodup. apply all_sites_keys; auto. }
      subst n'. rewrite E in En'. now injection En' as ->.
    + apply nth_error_None in E. rewrite (perm_length P) in E. pose proof (idx_lt G'). lia.
  - intros M. apply reordered_intro; [now rewrite FB, (perm_length P)|]. intros n' m E. destruct (H _ _ E) as [p [q [Ep [Eq C]]]].
    pose proof (perm_lt P E) as Lm. assert (Ln : n' < d * w * l) by (rewrite <- (perm_length P); apply nth_error_Some; congruence).
    destruct (split_index Lm) as [i [j [k [G Em]]]]. destruct (split_index Ln) as [i' [j' [k' [G' En]]]]. subst m n'.
    rewrite (all_sites_nth G) in Ep. rewrite (all_sites_nth G') in Eq. injection Ep as <-. injection Eq as <-.
    rewrite (flat_nth SA G), (flat_nth SB G'). rewrite (M _ _ _ _ _ _ G G' C). destruct G as [G1 [G2 G3]].
    destruct (entry_Some SA G1 G2 G3) as [v ->]. eauto.
Qed.

(** *** get_cell of a live grid *)
Lemma live_array hp g : live hp g -> exists arr, to_array hp g = Ok arr /\ shaped arr (g_depth g) (g_width g) (g_length g) /\
  0 < g_depth g /\ 0 < g_width g /\ 0 < g_length g.
Proof.
  intros LV. pose proof (live_inv LV) as I. destruct (contents_spec I) as [c [Ec [SH _]]]. pose proof I as [P1 [P2 [P3 _]]].
  eexists. split; [apply (to_array_of Ec SH P1 P2 P3)|]. split; [now apply shaped_map|auto].
Qed.
Lemma get_cell_sites hp s arr : to_array hp (c_grid s) = Ok arr ->
  exists bas, get_cell hp s = Ok (bas, all_sites (g_depth (c_grid s)) (g_width (c_grid s)) (g_length (c_grid s)), concat (concat arr)).
Proof.
  intros E. unfold get_cell. rewrite E. cbn [bind].
  match goal with |- context [List.map ?f (yield_position ?d ?w ?l)] => replace (List.map f (yield_position d w l)) with (all_sites d w l) end; [eexists; reflexivity|].
  rewrite all_sites_planes, yield_position_planes.
  apply map_ext. intros [[c b] a]. unfold site, Qcdiv. change (Zc (Z.of_nat c)) with (Nc c). change (Zc (Z.of_nat b)) with (Nc b). change (Zc (Z.of_nat a)) with (Nc a).
  unfold Nc. f_equal; ring.
Qed.
Lemma shaped_unique A (a : list (list (list A))) d w l d' w' l' : shaped a d w l -> shaped a d' w' l' -> 0 < d -> 0 < w -> d = d' /\ w = w' /\ l = l'.
Proof.
  intros [L F] [L' F'] Hd Hw. split; [congruence|]. destruct a as [|p a]; [cbn in L; lia|].
  inversion F as [|? ? [P1 P2] _]; inversion F' as [|? ? [P1' P2'] _]; subst. split; [reflexivity|].
  destruct p as [|r p]; [cbn in Hw; lia|]. inversion P2; inversion P2'; subst. reflexivity.
Qed.

(** *** the loop *)
Section Loop.
Variables (np2 : bool) (hp : heap) (n : nat) (G : list (list nat)).
Hypothesis HP : forall p, In p G -> Permutation p (seq 0 n).
Let ID := seq_identifier np2.
Lemma mem_str_In s l : mem_str s l = true <-> In s l.
Proof.
  unfold mem_str. rewrite existsb_exists. split.
  - intros [t [H E]]. apply String.eqb_eq in E. now subst.
  - intros H. exists s. split; [assumption|apply String.eqb_refl].
Qed.
Lemma update_str_ok iso x perms : incl perms G -> length x = n ->
  update_isoset_str np2 iso x perms = Ok (rev (map (fun p => ID (act_perm x p)) perms) ++ iso).
Proof.
  revert iso. induction perms as [|p perms IH]; intros iso I L; cbn; [reflexivity|].
  rewrite (take_idx_act (HP (I p (or_introl eq_refl))) L). cbn. rewrite IH; [|intros q Hq; apply I; now right|assumption].
  cbn. now rewrite <- app_assoc.
Qed.
Lemma loop_spec iso cs fin :
  (forall c x, In (c, x) cs -> (exists b p, get_cell hp c = Ok (b, p, x)) /\ length x = n) ->
  exists out, nodup_cstru_loop np2 hp G iso (map fst cs) fin = mkTrace (map fst out) fin /\ subseq out cs /\
    ForallOrdPairs (fun a b => ~ equivalent G (snd a) (snd b)) out /\
    (forall c, In c out -> ~ In (ID (snd c)) iso) /\
    (forall c, In c cs -> In (ID (snd c)) iso \/ In c out \/ exists c' p, In c' out /\ In p G /\ act_perm (snd c') p = snd c).
Proof.
  revert iso. induction cs as [|[c x] cs IH]; intros iso HL.
  - exists []. cbn. repeat split; try constructor; easy.
  - assert (HL' : forall c x, In (c, x) cs -> (exists b p, get_cell hp c = Ok (b, p, x)) /\ length x = n) by (intros; apply HL; now right).
    destruct (HL c x (or_introl eq_refl)) as [[b [ps Ec]] Lx]. cbn [map fst nodup_cstru_loop]. rewrite Ec. fold (ID x).
    destruct (mem_str (ID x) iso) eqn:Em.
    + apply mem_str_In in Em. destruct (IH iso HL') as [out [E [H1 [H2 [H3 H4]]]]].
      exists out. rewrite E. split; [reflexivity|]. split; [now constructor|]. split; [assumption|]. split; [assumption|].
      intros d [<-|Hd]; auto.
    + assert (Nm : ~ In (ID x) iso) by (rewrite <- mem_str_In; congruence).
      rewrite (update_str_ok iso (incl_refl G) Lx).
      set (iso' := (rev _ ++ iso)%list).
      assert (Hiso : forall z, In z iso' <-> In z iso \/ exists p, In p G /\ z = ID (act_perm x p)).
      { intros z. unfold iso'. rewrite in_app_iff, <- in_rev, in_map_iff. split.
        - intros [[p [<- Hp]]|H]; eauto.
        - intros [H|[p [Hp ->]]]; eauto. }
      destruct (IH iso' HL') as [out [E [H1 [H2 [H3 H4]]]]]. rewrite E. cbn [items stop].
      exists ((c, x) :: out). split; [reflexivity|]. split; [now constructor|]. split; [|split].
      * constructor; [|assumption]. apply Forall_forall. intros d Hd [p [Hp R]].
        apply (H3 d Hd). apply Hiso. right. exists p. split; [assumption|].
        f_equal. apply (reordered_fun R). apply (act_perm_reordered (HP Hp) Lx).
      * intros d [<-|Hd]; [assumption|]. intros I. apply (H3 d Hd). apply Hiso. now left.
      * intros d [<-|Hd]; [right; left; now left|].
        destruct (H4 d Hd) as [K|[K|[c' [p [K1 [K2 K3]]]]]].
        -- apply Hiso in K. destruct K as [K|[p [Hp K]]]; [now left|].
           right; right. exists (c, x), p. split; [now left|]. split; [assumption|]. cbn. symmetry. now apply (@seq_identifier_inj np2).
        -- right; left; now right.
        -- right; right. exists c', p. split; [now right|]. auto.
Qed.
End Loop.

Lemma wrap_shift5 p q : int_shift p q -> wrap_key 5 q = wrap_key 5 p.
Proof. apply (@wrap_key_shift 4). Qed.
Lemma wrap_shift10 p q : int_shift p q -> wrap_key 10 q = wrap_key 10 p.
Proof. apply (@wrap_key_shift 9). Qed.
Lemma all_sites_ne d w l : 0 < d -> 0 < w -> 0 < l -> all_sites d w l <> [].
Proof.
  intros Hd Hw Hl E. pose proof (@all_sites_nth d w l 0 0 0) as N. rewrite E in N. cbn in N. specialize (N (conj Hd (conj Hw Hl))). discriminate.
Qed.
Lemma new_id_seq_ok n ps : ps <> [] -> new_id_seq n ps = Ok (lexsort (List.map (wrap_key n) ps)).
Proof. destruct ps; [congruence|reflexivity]. Qed.

Lemma sea_ok hp d w l sp : 0 < d -> 0 < w -> 0 < l -> exists g hp' arr, sea hp d w l sp = Ok (g, hp') /\ live hp' g /\ g_depth g = d /\ g_width g = w /\ g_length g = l /\
  (exists ext, hp' = hp ++ ext) /\ to_array hp' g = Ok arr.
Proof.
  intros Hd Hw Hl.
  assert (SH : shaped (repeat (repeat (repeat sp l) w) d) d w l).
  { split; [apply repeat_length|]. apply Forall_forall. intros p Hp. apply repeat_spec in Hp. subst p. split; [apply repeat_length|].
    apply Forall_forall. intros r Hr. apply repeat_spec in Hr. subst r. apply repeat_length. }
  destruct (@grid_of_spec hp _ d w l SH Hd Hw) as [g [hp' [E [X [D1 [D2 [D3 [C _]]]]]]]].
  exists g, hp'. eexists. split; [exact E|]. split; [eapply live_sea; [exact E|assumption]|]. repeat (split; [assumption|]). split; [eauto|].
  apply (to_array_of C SH Hd Hw Hl).
Qed.
Lemma C28_lemma np2 ops hp m ssp sp d w l noa : 0 < d <= 990 -> 0 < w <= 990 -> 0 < l <= 990 ->
  supported (sp_Z ssp) -> supported (sp_Z sp) -> sp_Z ssp <> sp_Z sp ->
  exact_space_group ops (all_sites d w l) ->
  let (t, hp') := gen_nodup_cstru np2 ops hp m ssp (d, w, l) sp (Z.of_nat noa) in
  stop t = None /\ Forall (fun c => c_m c = m /\ live hp' (c_grid c)) (items t) /\
  exists arrs, mapM (fun c => to_array hp' (c_grid c)) (items t) = Ok arrs /\
    transversal (grid_equiv ops d w l) (placement d w l (sp_Z ssp) (sp_Z sp) noa) arrs.
Proof.
  intros [Hd Bd] [Hw Bw] [Hl Bl] S1 S2 NE XG. unfold gen_nodup_cstru.
  destruct (@sea_ok hp d w l ssp Hd Hw Hl) as [g0 [hp1 [arr0 [E0 [L0 [D1 [D2 [D3 [_ A0]]]]]]]]]. rewrite E0.
  destruct (@get_cell_sites hp1 (mkCStru m g0) arr0 A0) as [bas0 C0]. rewrite C0. cbn [c_grid]. rewrite D1, D2, D3. cbn [bind fst snd].
  set (pos := all_sites d w l) in *. assert (NEp : pos <> []) by now apply all_sites_ne.
  assert (EG : get_permutation_cell ops pos = Ok (List.map (fun o => lexsort (List.map (wrap_key 5) (List.map (apply_op o) pos))) ops)).
  { apply mapM_ok_map. intros o _. apply new_id_seq_ok. intros E. apply NEp. eapply map_eq_nil; eauto. }
  rewrite EG. set (G := List.map (fun o : symop => lexsort (List.map (wrap_key 5) (List.map (apply_op o) pos))) ops).
  assert (S5 : StronglySorted vlt (List.map (wrap_key 5) pos)) by (apply all_sites_keys; auto).
  assert (S3 : StronglySorted vlt (List.map (wrap_key 3) pos)) by (apply all_sites_keys; auto).
  assert (PG : perm_group (d * w * l) G).
  { replace (d * w * l) with (length pos) by apply all_sites_length. apply exact_perm_group; auto. exact wrap_shift5. }
  assert (CP : forall o, In o ops -> carries_perm o pos (lexsort (List.map (wrap_key 5) (List.map (apply_op o) pos)))).
  { intros o Ho. apply key_perm_spec; auto; [exact wrap_shift5|]. eapply exact_permutes; eauto. }
  unfold cstru_gen_speckle. pose proof (@C03_lemma hp1 ssp sp d w l noa Hd Hw Hl S1 S2 NE) as G3.
  destruct (gen_speckle hp1 ssp (d, w, l) sp (Z.of_nat noa)) as [t hp2]. destruct G3 as [T1 [_ [T2 [arrs [T3 [T4 [T5 [T6 _]]]]]]]].
  cbn [items stop].
  apply mapM_Forall2 in T3. assert (LC : length (items t) = length arrs) by (eapply Forall2_len; eauto).
  set (cs := combine (List.map (mkCStru m) (items t)) (List.map (fun a => concat (concat a)) arrs)).
  assert (F1 : List.map (mkCStru m) (items t) = List.map fst cs).
  { unfold cs. rewrite (map_fst_combine _ _); [reflexivity|]. now rewrite !map_length. }
  assert (HC : forall c x, In (c, x) cs -> exists a, In a arrs /\ x = concat (concat a) /\ c_m c = m /\ live hp2 (c_grid c) /\ to_array hp2 (c_grid c) = Ok a).
  { intros c x H. unfold cs in H. clear - H T2 T3. induction T3 as [|g a gs arrs E F IH]; cbn in H; [easy|]. inversion T2; subst.
    destruct H as [H|H].
    - injection H as <- <-. exists a. cbn. auto 6.
    - destruct (IH H3 H) as [a' [I1 I2]]. exists a'. split; [now right|assumption]. }
  assert (HA : forall a, In a arrs -> exists c, In (c, concat (concat a)) cs).
  { intros a H. unfold cs. clear - H T3. induction T3 as [|g a0 gs arrs E F IH]; cbn in *; [easy|]. destruct H as [<-|H].
    - eexists. left. reflexivity.
    - destruct (IH H) as [c Hc]. exists c. now right. }
  rewrite Forall_forall in T4.
  destruct (@loop_spec np2 hp2 (d * w * l) G (proj1 PG) [] cs (stop t)) as [out [E [H1 [H2 [_ H4]]]]].
  { intros c x H. destruct (HC c x H) as [a [Ia [-> [_ [_ Ea]]]]]. destruct (get_cell_sites Ea) as [bas Eb]. split; [eauto|].
    apply (shaped_concat (proj1 (T4 a Ia))). }
  rewrite F1, E. cbn [items stop]. split; [assumption|]. split.
  { apply Forall_map, Forall_forall. intros [c x] H. destruct (HC c x (subseq_incl H1 _ H)) as [a [_ [_ [Q1 [Q2 _]]]]]. auto. }
  assert (HO : exists arrs', mapM (fun c => to_array hp2 (c_grid c)) (map fst out) = Ok arrs' /\ map snd out = map (fun a => concat (concat a)) arrs' /\ incl arrs' arrs).
  { assert (Io : incl out cs) by (intros z; apply (subseq_incl H1)). clear - HC Io. induction out as [|[c x] out IH]; cbn.
    - exists []. repeat split. intros z [].
    - destruct IH as [arrs' [E1 [E2 E3]]]; [intros z Hz; apply Io; now right|]. destruct (HC c x (Io _ (or_introl eq_refl))) as [a [Ia [-> [_ [_ Ea]]]]].
      rewrite Ea, E1. cbn. exists (a :: arrs'). cbn. rewrite E2. repeat split. intros z [<-|Hz]; auto. }
  destruct HO as [arrs' [O1 [O2 O3]]]. exists arrs'. split; [assumption|].
  assert (EQ : forall a b, In a arrs -> In b arrs -> (equivalent G (concat (concat a)) (concat (concat b)) <-> grid_equiv ops d w l a b)).
  { intros a b Ia Ib. unfold equivalent, grid_equiv. split.
    - intros [p [Hp R]]. apply in_map_iff in Hp. destruct Hp as [o [<- Ho]]. exists o. split; [assumption|].
      apply (reordered_moved Bd Bw Bl (CP o Ho) (proj1 (T4 a Ia)) (proj1 (T4 b Ib))). assumption.
    - intros [o [Ho M]]. eexists. split; [apply in_map; exact Ho|].
      apply (reordered_moved Bd Bw Bl (CP o Ho) (proj1 (T4 a Ia)) (proj1 (T4 b Ib))). assumption. }
  split; [|split].
  - apply Forall_forall. intros a Ha. apply T4. auto.
  - intros a Pa. pose proof (T5 a Pa) as Ia. destruct (HA a Ia) as [c Hc].
    assert (La : length (concat (concat a)) = d * w * l) by apply (shaped_concat (proj1 Pa)).
    destruct (H4 _ Hc) as [[]|[K|[[c' x'] [p [K1 [K2 K3]]]]]].
    + assert (I : In (concat (concat a)) (map snd out)) by (apply in_map_iff; exists (c, concat (concat a)); auto). rewrite O2 in I. apply in_map_iff in I. destruct I as [a' [Ea' Ia']].
      exists a'. split; [assumption|]. apply EQ; auto. rewrite Ea'. now apply (equivalent_refl PG).
    + assert (I : In x' (map snd out)) by (apply in_map_iff; exists (c', x'); auto). rewrite O2 in I. apply in_map_iff in I. destruct I as [a' [Ea' Ia']].
      cbn [snd] in K3. exists a'. split; [assumption|]. apply EQ; auto.
      assert (La' : length (concat (concat a')) = d * w * l) by apply (shaped_concat (proj1 (T4 a' (O3 _ Ia')))).
      apply (equivalent_sym PG La'). exists p. split; [assumption|]. rewrite Ea', <- K3. apply act_perm_reordered with (d * w * l); [now apply PG|congruence].
  - assert (X : ForallOrdPairs (fun x y => ~ equivalent G x y) (map snd out)).
    { clear - H2. induction H2 as [|z out F H IH]; cbn; constructor; auto. rewrite Forall_forall in *. intros y Hy. apply in_map_iff in Hy. destruct Hy as [v [<- Hv]]. auto. }
    rewrite O2 in X. clear - X EQ O3 PG T4. induction arrs' as [|a arrs' IH]; [constructor|]. cbn in X. inversion X as [|? ? F X']; subst. constructor.
    + rewrite Forall_forall in *. intros b Hb. assert (N : ~ equivalent G (concat (concat a)) (concat (concat b))) by (apply F; apply (in_map (fun a => concat (concat a))); assumption).
      assert (Ia : In a arrs) by (apply O3; now left). assert (Ib : In b arrs) by (apply O3; now right).
      split; intros Q; apply N.
      * now apply EQ.
      * apply EQ in Q; auto. apply (equivalent_sym PG) in Q; [assumption|]. apply (shaped_concat (proj1 (T4 b Ib))).
    + apply IH; auto. intros z Hz. apply O3. now right.
Qed.

(** *** is_stru_equal *)
Section Equal.
Variables (pad : list string -> nat -> string) (LP : layout pad).
Variables (d w l : nat).
Hypotheses (Hd : 0 < d <= 990) (Hw : 0 < w <= 990) (Hl : 0 < l <= 990).
Let pos := all_sites d w l.
Let perm_of (o : symop) := lexsort (List.map (wrap_key 10) (List.map (apply_op o) pos)).
Lemma eq_sorted : StronglySorted vlt (List.map (wrap_key 10) pos).
Proof. apply all_sites_keys; lia. Qed.
Lemma eq_ne : pos <> [].
Proof. apply all_sites_ne; lia. Qed.
Lemma id_self x : length x = d * w * l -> get_id_seq pad pos x = Ok (np_str pad x).
Proof.
  intros L. unfold get_id_seq. rewrite (new_id_seq_ok 10 eq_ne). cbn [bind].
  rewrite lexsort_id by (apply nth_StronglySorted; intros a b u v Lab Ha Hb; apply vleb_iff; left; eapply StronglySorted_nth; eauto; exact eq_sorted).
  rewrite map_length. unfold pos. rewrite all_sites_length, <- L. rewrite (take_idx_ok _ _ 0%Z) by (intros i Hi; apply in_seq in Hi; lia).
  cbn [bind]. now rewrite map_nth_seq.
Qed.
Lemma id_moved o x : permutes_sites o pos -> length x = d * w * l -> get_id_seq pad (List.map (apply_op o) pos) x = Ok (np_str pad (act_perm x (perm_of o))).
Proof.
  intros M L. unfold get_id_seq. rewrite new_id_seq_ok by (intros E; apply eq_ne; eapply map_eq_nil; eauto). cbn [bind]. fold (perm_of o).
  destruct (@key_perm_spec (wrap_key 10) wrap_shift10 o pos eq_sorted M) as [P _]. fold (perm_of o) in P. unfold pos in P. rewrite all_sites_length in P.
  now rewrite (take_idx_act P L).
Qed.
Lemma eq_loop ops x y is_eq : (forall o, In o ops -> permutes_sites o pos) -> length x = d * w * l ->
  exists r, stru_equal_loop pad ops pos x (np_str pad y) is_eq = Ok r /\
   (r = true <-> is_eq = true \/ exists o, In o ops /\ shown (act_perm x (perm_of o)) = shown y).
Proof.
  intros H L. revert is_eq. induction ops as [|o ops IH]; intros is_eq; cbn.
  - exists is_eq. split; [reflexivity|]. split; [auto|]. intros [E|[o [[] _]]]; auto.
  - rewrite (id_moved (H o (or_introl eq_refl)) L). cbn [bind].
    destruct (IH (fun o' Ho => H o' (or_intror Ho)) (if String.eqb (np_str pad (act_perm x (perm_of o))) (np_str pad y) then true else is_eq)) as [r [E R]].
    exists r. split; [assumption|]. rewrite R. clear IH E R.
    destruct (String.eqb_spec (np_str pad (act_perm x (perm_of o))) (np_str pad y)) as [E|N].
    + rewrite (np_str_shown _ _ LP) in E. split; [intros _; right; exists o; auto|auto].
    + assert (N' : shown (act_perm x (perm_of o)) <> shown y) by (intros E; apply N; now apply np_str_shown).
      split; [intros [E|[o' [Ho' E]]]; [auto|right; exists o'; auto]|].
      intros [E|[o' [[<-|Ho'] E]]]; [auto|congruence|right; exists o'; auto].
Qed.
Lemma stru_equal_shown hp A B ops a b : live hp (c_grid A) -> live hp (c_grid B) ->
  to_array hp (c_grid A) = Ok a -> to_array hp (c_grid B) = Ok b -> shaped a d w l -> shaped b d w l ->
  (forall o, In o ops -> permutes_sites o pos) ->
  exists r, is_stru_equal pad hp A B ops = Ok r /\
   (r = true <-> exists o b', In o ops /\ shaped b' d w l /\ moved_by o d w l b b' /\ shown (concat (concat b')) = shown (concat (concat a))).
Proof.
  intros LA LB EA EB SA SB H. destruct (get_cell_sites EA) as [basA CA]. destruct (get_cell_sites EB) as [basB CB].
  destruct (live_array LA) as [a' [EA' [SA' [A1 [A2 A3]]]]]. rewrite EA in EA'. injection EA' as <-.
  destruct (live_array LB) as [b' [EB' [SB' [B1 [B2 B3]]]]]. rewrite EB in EB'. injection EB' as <-.
  destruct (shaped_unique SA' SA A1 A2) as [Q1 [Q2 Q3]]. destruct (shaped_unique SB' SB B1 B2) as [Q4 [Q5 Q6]].
  rewrite Q1, Q2, Q3 in CA. rewrite Q4, Q5, Q6 in CB. unfold is_stru_equal. rewrite CA. cbn [bind]. rewrite CB. cbn [bind]. fold pos.
  assert (FA : length (concat (concat a)) = d * w * l) by apply (shaped_concat SA).
  assert (FB : length (concat (concat b)) = d * w * l) by apply (shaped_concat SB).
  rewrite (id_self FA). cbn [bind].
  destruct (@eq_loop ops (concat (concat b)) (concat (concat a)) false H FB) as [r [E R]]. exists r. split; [assumption|].
  rewrite R. split.
  - intros [X|[o [Ho S]]]; [discriminate|]. pose proof (@key_perm_spec (wrap_key 10) wrap_shift10 o pos eq_sorted (H o Ho)) as CP. fold (perm_of o) in CP.
    pose proof (proj1 CP) as P. unfold pos in P. rewrite all_sites_length in P.
    destruct (@reshape_shaped _ d w l (act_perm (concat (concat b)) (perm_of o)) (act_perm_length _ P)) as [R1 R2].
    exists o, (reshape d w l (act_perm (concat (concat b)) (perm_of o))). split; [assumption|]. split; [assumption|]. split; [|now rewrite R2].
    apply (reordered_moved (proj2 Hd) (proj2 Hw) (proj2 Hl) CP SB R1). rewrite R2. now apply act_perm_reordered with (d * w * l).
  - intros [o [b' [Ho [S' [M S]]]]]. right. exists o. split; [assumption|].
    pose proof (@key_perm_spec (wrap_key 10) wrap_shift10 o pos eq_sorted (H o Ho)) as CP. fold (perm_of o) in CP.
    pose proof (proj1 CP) as P. unfold pos in P. rewrite all_sites_length in P.
    apply (reordered_moved (proj2 Hd) (proj2 Hw) (proj2 Hl) CP SB S') in M.
    rewrite (reordered_fun (act_perm_reordered P FB) M). assumption.
Qed.
Lemma C29_complete_lemma hp A B ops a b : live hp (c_grid A) -> live hp (c_grid B) ->
  to_array hp (c_grid A) = Ok a -> to_array hp (c_grid B) = Ok b -> shaped a d w l -> shaped b d w l ->
  d * w * l <= 1000 -> (forall o, In o ops -> permutes_sites o pos) ->
  exists r, is_stru_equal pad hp A B ops = Ok r /\ (r = true <-> exists o, In o ops /\ moved_by o d w l b a).
Proof.
  intros LA LB EA EB SA SB SZ H. destruct (stru_equal_shown LA LB EA EB SA SB H) as [r [E R]]. exists r. split; [assumption|].
  rewrite R. split.
  - intros [o [b' [Ho [S' [M S]]]]]. exists o. split; [assumption|].
    assert (Z1 : length (concat (concat b')) = d * w * l) by apply (shaped_concat S').
    assert (Z2 : length (concat (concat a)) = d * w * l) by apply (shaped_concat SA).
    apply shown_short in S; [|lia|lia]. apply (shaped_inj S' SA) in S. now subst.
  - intros [o [Ho M]]. exists o, a. auto.
Qed.
Lemma C29_abbreviated_lemma hp A B ops a b : live hp (c_grid A) -> live hp (c_grid B) ->
  to_array hp (c_grid A) = Ok a -> to_array hp (c_grid B) = Ok b -> shaped a d w l -> shaped b d w l ->
  1000 < d * w * l -> (forall o, In o ops -> permutes_sites o pos) ->
  exists r, is_stru_equal pad hp A B ops = Ok r /\
   (r = true <-> exists o b', In o ops /\ shaped b' d w l /\ moved_by o d w l b b' /\
      forall i j k, in_grid d w l i j k -> (i * w + j) * l + k < 3 \/ d * w * l - 3 <= (i * w + j) * l + k -> entry b' i j k = entry a i j k).
Proof.
  intros LA LB EA EB SA SB SZ H. destruct (stru_equal_shown LA LB EA EB SA SB H) as [r [E R]]. exists r. split; [assumption|].
  rewrite R. 
  assert (Z2 : length (concat (concat a)) = d * w * l) by apply (shaped_concat SA).
  split; intros [o [b' [Ho [S' [M S]]]]]; exists o, b'; (split; [assumption|]); (split; [assumption|]); (split; [assumption|]);
    (assert (Z1 : length (concat (concat b')) = d * w * l) by apply (shaped_concat S')).
  - pose proof (proj1 (@shown_long (concat (concat b')) (concat (concat a)) (eq_trans Z1 (eq_sym Z2)) (eq_ind_r (fun n => 1000 < n) SZ Z1)) S) as S2. clear S. intros i j k G C. rewrite <- (flat_nth S' G), <- (flat_nth SA G). apply S2. now rewrite Z1.
  - apply (proj2 (@shown_long (concat (concat b')) (concat (concat a)) (eq_trans Z1 (eq_sym Z2)) (eq_ind_r (fun n => 1000 < n) SZ Z1))). intros n C. rewrite Z1 in C.
    destruct (Nat.lt_ge_cases n (d * w * l)) as [Ln|Ln].
    + destruct (split_index Ln) as [i [j [k [G ->]]]]. rewrite (flat_nth S' G), (flat_nth SA G). now apply S.
    + rewrite !(proj2 (nth_error_None _ _)) by lia. reflexivity.
Qed.
End Equal.

Lemma permutes_id pos : permutes_sites op_id pos.
Proof.
  split; intros p Hp; exists p; (split; [assumption|]); unfold carries_exactly; rewrite op_id_image; apply int_shift_refl.
Qed.

Lemma moved_id d w l a : d <= 990 -> w <= 990 -> l <= 990 -> moved_by op_id d w l a a.
Proof.
  intros Bd Bw Bl i j k i' j' k' G G' C.
  assert (ND : NoDup (List.map (wrap_key 3) (all_sites d w l))) by (apply key_nodup, all_sites_keys; auto).
  assert (C0 : carries_exactly op_id (site d w l i j k) (site d w l i j k)) by (unfold carries_exactly; rewrite op_id_image; apply int_shift_refl).
  pose proof (carries_exactly_fun wrap_shift3 ND (all_sites_nth G) (all_sites_nth G) (all_sites_nth G') C0 C) as E.
  destruct (idx_inj G G' E) as [-> [-> ->]]. reflexivity.
Qed.
Definition big_a : list (list (list Z)) := reshape 7 11 13 (repeat 5%Z 1001).
Definition big_b : list (list (list Z)) := reshape 7 11 13 (repeat 5%Z 500 ++ [6%Z] ++ repeat 5%Z 500).
Lemma C29_refuted_lemma : exists hp A B ops a b d w l, live hp (c_grid A) /\ live hp (c_grid B) /\
  to_array hp (c_grid A) = Ok a /\ to_array hp (c_grid B) = Ok b /\ shaped a d w l /\ shaped b d w l /\
  (forall o, In o ops -> permutes_sites o (all_sites d w l)) /\
  (forall pad, layout pad -> is_stru_equal pad hp A B ops = Ok true) /\
  ~ (exists o, In o ops /\ moved_by o d w l b a).
Proof.
  assert (SA : shaped big_a 7 11 13 /\ concat (concat big_a) = repeat 5%Z 1001) by (apply reshape_shaped; now rewrite repeat_length).
  assert (SB : shaped big_b 7 11 13 /\ concat (concat big_b) = repeat 5%Z 500 ++ [6%Z] ++ repeat 5%Z 500) by (apply reshape_shaped; rewrite !app_length, !repeat_length; reflexivity).
  destruct SA as [SA FA], SB as [SB FB].
  assert (ZA : forall z, In z (concat (concat big_a)) -> supported z).
  { rewrite FA. intros z Hz. apply repeat_spec in Hz. subst. unfold supported. lia. }
  assert (ZB : forall z, In z (concat (concat big_b)) -> supported z).
  { rewrite FB. intros z Hz. rewrite !in_app_iff in Hz. unfold supported. destruct Hz as [Hz|[[Hz|[]]|Hz]]; [apply repeat_spec in Hz| |apply repeat_spec in Hz]; subst; lia. }
  destruct (@from_array_ok [] big_a 7 11 13 SA) as [gA [hp1 [cA [A1 [A2 [A3 [A4 [A5 [A6 [_ [A7 [A8 A9]]]]]]]]]]]]; auto; try lia.
  destruct (@from_array_ok hp1 big_b 7 11 13 SB) as [gB [hp2 [cB [B1 [B2 [B3 [B4 [B5 [B6 [[ext B7] [B8 [B9 B10]]]]]]]]]]]]; auto; try lia.
  set (m := V3 v0 v0 v0). exists hp2, (mkCStru m gA), (mkCStru m gB), [op_id], big_a, big_b, 7, 11, 13. cbn [c_grid].
  assert (LA : live hp2 gA) by (eapply live_new_array; eauto).
  assert (TA : to_array hp2 gA = Ok big_a).
  { subst hp2. rewrite (to_array_of (contents_app ext A2) A3) by lia. now rewrite A4. }
  split; [assumption|]. split; [assumption|]. split; [assumption|]. split; [assumption|]. split; [assumption|]. split; [assumption|].
  assert (PS : forall o, In o [op_id] -> permutes_sites o (all_sites 7 11 13)) by (intros o [<-|[]]; apply permutes_id).
  split; [exact PS|]. split.
  - intros pad LP. destruct (@C29_abbreviated_lemma pad LP 7 11 13 ltac:(lia) ltac:(lia) ltac:(lia) hp2 (mkCStru m gA) (mkCStru m gB) [op_id] big_a big_b LA B6 TA B5 SA SB ltac:(lia) PS) as [r [E R]].
    rewrite E. f_equal. apply R. exists op_id, big_b. split; [now left|]. split; [assumption|]. split; [apply moved_id; lia|].
    intros i j k G C. rewrite <- (flat_nth SA G), <- (flat_nth SB G), FA, FB. pose proof (idx_lt G) as LT.
    revert LT C. generalize ((i * 11 + j) * 13 + k). intros n LT C.
    assert (NA : nth_error (repeat 5%Z 1001) n = Some 5%Z) by (apply nth_error_repeat'; lia). rewrite NA.
    destruct (Nat.lt_ge_cases n 500) as [L|L].
    + rewrite nth_error_app1 by (rewrite repeat_length; lia). now apply nth_error_repeat'.
    + rewrite nth_error_app2, repeat_length by (rewrite repeat_length; lia). rewrite nth_error_app2 by (cbn; lia). cbn [length]. apply nth_error_repeat'. lia.
  - intros [o [[<-|[]] M]]. specialize (M 3 5 6 3 5 6). assert (G : in_grid 7 11 13 3 5 6) by (unfold in_grid; lia).
    specialize (M G G). rewrite <- (flat_nth SA G), <- (flat_nth SB G), FA, FB in M.
    assert (C0 : carries_exactly op_id (site 7 11 13 3 5 6) (site 7 11 13 3 5 6)) by (unfold carries_exactly; rewrite op_id_image; apply int_shift_refl).
    specialize (M C0). vm_compute in M. discriminate.
Qed.
