(** The grid-based generator and [OccupyGenerator] run in step. *)
From Coq Require Import Sorted String.
From Verif Require Import Base LBase BaseQ LQ MElement SElement MSort SSort LSort MGeneralCell SGeneralCell LGeneralCell MComb SSubst LComb MGrid SGrid LGrid LGrid2 MGrid2 SSym LSym MSogen SOcc LFilter LDup MLegacy SLegacy LStr LLegacyKey LLegacy.
Set Implicit Arguments.
Unset Strict Implicit.
Open Scope list_scope.
Open Scope nat_scope.
Notation length := List.length.

Section Step.
Variables (np2 : bool) (hp : heap) (h : list Z -> Z) (n : nat) (G : list (list nat)) (D : list Z -> Prop).
Hypothesis HP : forall p, In p G -> Permutation p (seq 0 n).
Hypothesis DL : forall x, D x -> length x = n.
Hypothesis DC : forall x y, D x -> equivalent G x y -> D y.
Hypothesis CF : collision_free h D.

Lemma in_step fin ss cs : Forall2 (fun s c => D (numbers c) /\ exists b p, get_cell hp s = Ok (b, p, numbers c)) ss cs ->
  forall iso isoZ, (forall x, D x -> In (seq_identifier np2 x) iso <-> In (h x) isoZ) ->
  stop (nodup_cstru_loop np2 hp G iso ss fin) = fin /\ stop (nodup_loop h G (fun c => c) isoZ cs fin) = fin /\
  forall R : cstru -> gcell -> Prop, Forall2 R ss cs -> Forall2 R (items (nodup_cstru_loop np2 hp G iso ss fin)) (items (nodup_loop h G (fun c => c) isoZ cs fin)).
Proof.
  induction 1 as [|s c ss cs [Dc [b [p E]]] F IH]; intros iso isoZ I; cbn [nodup_cstru_loop nodup_loop].
  - cbn. auto.
  - rewrite E. unfold cell_id. pose proof (I _ Dc) as Ic.
    assert (M : mem_str (seq_identifier np2 (numbers c)) iso = memZ (h (numbers c)) isoZ).
    { destruct (mem_str _ iso) eqn:E1, (memZ _ isoZ) eqn:E2; try reflexivity; exfalso.
      - apply memZ_false in E2. apply mem_str_In in E1. tauto.
      - apply memZ_In in E2. assert (~ In (seq_identifier np2 (numbers c)) iso) by (rewrite <- mem_str_In; congruence). tauto. }
    rewrite M. destruct (memZ (h (numbers c)) isoZ).
    + destruct (IH iso isoZ I) as [I1 [I2 I3]]. split; [assumption|]. split; [assumption|]. intros R FR. inversion FR; subst. auto.
    + rewrite (@update_str_ok np2 n G HP iso _ G (incl_refl G) (DL Dc)), (@update_isoset_ok h n G HP isoZ _ G (incl_refl G) (DL Dc)).
      match goal with |- context [nodup_cstru_loop _ _ _ ?i ss fin] => set (iso' := i) end.
      match goal with |- context [nodup_loop _ _ _ ?i cs fin] => set (isoZ' := i) end.
      destruct (IH iso' isoZ') as [I1 [I2 I3]].
      { intros x Dx. unfold iso', isoZ'. rewrite !in_app_iff, <- !in_rev, !in_map_iff, (I x Dx).
        assert (K : forall q, In q G -> D (act_perm (numbers c) q)).
        { intros q Hq. apply (DC Dc). exists q. split; [assumption|]. eapply act_perm_reordered; eauto. }
        split; (intros [[q [Eq Hq]]|H]; [left; exists q; split; [|assumption]|now right]).
        - f_equal. now apply (@seq_identifier_inj np2).
        - f_equal. apply CF; auto. }
      cbn [items stop]. split; [assumption|]. split; [assumption|]. intros R FR. inversion FR; subst. constructor; auto.
Qed.
End Step.

Lemma sea_array hp d w l sp : 0 < d -> 0 < w -> 0 < l -> exists g hp' arr, sea hp d w l sp = Ok (g, hp') /\ g_depth g = d /\ g_width g = w /\ g_length g = l /\
  to_array hp' g = Ok arr /\ concat (concat arr) = repeat (sp_Z sp) (d * w * l).
Proof.
  intros Hd Hw Hl.
  assert (SH : shaped (repeat (repeat (repeat sp l) w) d) d w l).
  { split; [apply repeat_length|]. apply Forall_forall. intros p Hp. apply repeat_spec in Hp. subst p. split; [apply repeat_length|].
    apply Forall_forall. intros r Hr. apply repeat_spec in Hr. subst r. apply repeat_length. }
  destruct (@grid_of_spec hp _ d w l SH Hd Hw) as [g [hp' [E [X [D1 [D2 [D3 [C _]]]]]]]].
  exists g, hp'. eexists. split; [exact E|]. repeat (split; [assumption|]). split; [apply (to_array_of C SH Hd Hw Hl)|].
  assert (K0 : forall A B (f : A -> B) v a, map f (repeat v a) = repeat (f v) a).
  { intros A B f v a. induction a as [|a IH]; cbn; [reflexivity|]. now rewrite IH. }
  assert (K : forall A (v : A) a b, concat (repeat (repeat v a) b) = repeat v (b * a)).
  { intros A v a b. induction b as [|b IH]; cbn; [reflexivity|]. now rewrite IH, <- repeat_app. }
  rewrite !K0, !K. f_equal; lia.
Qed.

Lemma preserves_repeat A n (v : A) G : (forall p, In p G -> Permutation p (seq 0 n)) -> preserves G (repeat v n).
Proof.
  intros HP p Hp. specialize (HP p Hp). apply reordered_intro; [now rewrite repeat_length, (perm_length HP)|].
  intros i j E. exists v. pose proof (perm_lt HP E). split; apply nth_error_repeat'; auto. rewrite <- (perm_length HP). apply nth_error_Some. congruence.
Qed.

Definition basis_of (m : mat Qc) (d w l : nat) : mat Qc := V3 (vscale (Nc d) (vx m)) (vscale (Nc w) (vy m)) (vscale (Nc l) (vz m)).
Lemma get_cell_exact hp s arr d w l : to_array hp (c_grid s) = Ok arr -> g_depth (c_grid s) = d -> g_width (c_grid s) = w -> g_length (c_grid s) = l ->
  get_cell hp s = Ok (basis_of (c_m s) d w l, all_sites d w l, concat (concat arr)).
Proof.
  intros E <- <- <-. destruct (get_cell_sites E) as [bas C]. rewrite C. unfold get_cell in C. rewrite E in C. cbn [bind] in C.
  injection C as C _. rewrite <- C. reflexivity.
Qed.

Lemma agree_lemma np2 ops wy hp m ssp sp d w l noa h : 0 < d <= 990 -> 0 < w <= 990 -> 0 < l <= 990 ->
  supported (sp_Z ssp) -> supported (sp_Z sp) -> exact_space_group ops (all_sites d w l) ->
  exists g hp1 c o, sea hp d w l ssp = Ok (g, hp1) /\ get_gcell hp1 (mkCStru m g) = Ok c /\ OccupyGenerator_new ops wy c = Ok o /\
  (collision_free h (k_fold (numbers c) (any_site (numbers c)) noa (sp_Z sp)) ->
   let (t, hp') := gen_nodup_cstru np2 ops hp m ssp (d, w, l) sp (Z.of_nat noa) in
   let t' := gen_nodup_unitary h o (Z.of_nat noa) (sp_Z sp) in
   stop t = None /\ stop t' = None /\ Forall2 (fun s x => get_gcell hp' s = Ok x) (items t) (items t')).
Proof.
  intros [Hd Bd] [Hw Bw] [Hl Bl] S1 S2 XG.
  destruct (@sea_array hp d w l ssp Hd Hw Hl) as [g0 [hp1 [arr0 [E0 [D1 [D2 [D3 [A0 V0]]]]]]]].
  pose proof (@get_cell_exact hp1 (mkCStru m g0) arr0 d w l A0 D1 D2 D3) as C0. cbn [c_m] in C0. rewrite V0 in C0.
  set (bas0 := basis_of m d w l) in *.
  set (pos := all_sites d w l) in *. set (N := d * w * l) in *. set (init := repeat (sp_Z ssp) N) in *.
  assert (NEp : pos <> []) by now apply all_sites_ne.
  assert (Lp : length pos = N) by apply all_sites_length.
  assert (Li : length init = N) by apply repeat_length.
  assert (S5 : StronglySorted vlt (List.map (wrap_key 5) pos)) by (apply all_sites_keys; auto).
  assert (S3 : StronglySorted vlt (List.map (wrap_key 3) pos)) by (apply all_sites_keys; auto).
  assert (CAN : canonical pos).
  { unfold canonical, order_of. rewrite <- (map_length tofrac pos). apply lexsort_id. change (List.map tofrac pos) with (List.map (wrap_key 3) pos).
    apply nth_StronglySorted. intros a b x y Lab Ha Hb. apply vleb_iff. left. eapply StronglySorted_nth; eauto. }
  set (c := mkG bas0 pos init (bas0, pos, init) (length init)).
  assert (EC : get_gcell hp1 (mkCStru m g0) = Ok c).
  { unfold get_gcell. rewrite C0. cbn [bind]. apply canonical_new; auto. congruence. }
  set (G := List.map (fun o : symop => lexsort (List.map (wrap_key 5) (List.map (apply_op o) pos))) ops).
  assert (EG3 : List.map (fun o => order_of (List.map (apply_op o) pos)) ops = G).
  { apply map_ext_in. intros o Ho. pose proof (exact_permutes XG Ho) as M.
    apply (@carries_perm_uniq (wrap_key 3) wrap_shift3 o pos); [now apply key_nodup| |].
    + exact (@key_perm_spec (wrap_key 3) wrap_shift3 o pos S3 M).
    + now apply (@key_perm_spec (wrap_key 5) wrap_shift5). }
  assert (PG : perm_group N G). { rewrite <- Lp. apply exact_perm_group; auto. exact wrap_shift5. }
  exists g0, hp1, c, (mkOcc c G wy). split; [assumption|]. split; [assumption|]. split.
  { unfold OccupyGenerator_new. rewrite (@mapM_gsp_ok ops c) by exact NEp. cbn [bind positions c]. now rewrite EG3. }
  cbn [numbers c]. intros CF.
  unfold gen_nodup_cstru. rewrite E0, C0. cbn [bind fst snd].
  assert (EG : get_permutation_cell ops pos = Ok G).
  { apply mapM_ok_map. intros o _. apply new_id_seq_ok. intros E. apply NEp. eapply map_eq_nil; eauto. }
  rewrite EG. unfold cstru_gen_speckle, gen_speckle, gen_nodup_unitary, gen_2nodup_gen, gen_2nodup_gen_with, gen_dup_unitary.
  cbn [init_cell sym_perm numbers c]. rewrite Li. fold N. unfold combinations. destruct (Z.ltb_spec (Z.of_nat noa) 0); [lia|]. rewrite Nat2Z.id. cbn [gen_of].
  assert (HS : forall S, In S (combos (range N) noa) -> subset_of_size (fun i => i < N) noa S).
  { destruct (@combos_all_subsets (fun i => i < N) (range N) noa) as [A1 _]; [apply seq_NoDup|intros i; unfold range; rewrite in_seq; lia|].
    now apply Forall_forall. }
  pose proof (@gen_speckle_loop_spec d w l (sp_Z ssp) (sp_Z sp) Hd Hw Hl S1 S2 (combos (range N) noa)) as GL.
  specialize (GL (fun S Hs => proj2 (proj2 (HS S Hs))) hp1).
  destruct (gen_speckle_loop hp1 (sp_Z ssp) (sp_Z sp) d w l (combos (range N) noa)) as [t hp2]. destruct GL as [T1 [_ [_ [T2 T3]]]].
  fold N in T3. fold init in T3.
  assert (FC : from_constructor c) by (exists bas0, pos, init; split; [congruence|]; apply canonical_new; auto; congruence).
  rewrite (@gen_map_ok _ _ (put_cell (mkOcc c G wy) (sp_Z sp)) (fun S => cellof c (puts init S (sp_Z sp)))).
  2: { intros S Hs. apply (@put_cell_ok (mkOcc c G wy) FC). cbn. rewrite Li. apply (HS S Hs). }
  cbn [items stop]. rewrite T1.
  apply mapM_Forall2 in T3. 
  set (D := k_fold init (any_site init) noa (sp_Z sp)).
  assert (FR : Forall2 (fun s x => D (numbers x) /\ (exists b p, get_cell hp2 s = Ok (b, p, numbers x)) /\ get_gcell hp2 s = Ok x)
    (List.map (mkCStru m) (items t)) (map (fun S => cellof c (puts init S (sp_Z sp))) (combos (range N) noa))).
  { assert (SUB : forall S, In S (combos (range N) noa) -> substituted init S (sp_Z sp) (puts init S (sp_Z sp))).
    { intros S Hs. apply puts_substituted. intros i Hi. rewrite Li. now apply (HS S Hs). }
    clear - T2 T3 HS SUB Hd Hw Hl CAN NEp Lp Li. revert T2 T3. generalize (items t) as gs.
    induction (combos (range N) noa) as [|S Ss IH]; intros gs T2 T3; inversion T3 as [|g a gs' as' Ea T3']; subst; [constructor|].
    inversion T2 as [|? ? LV T2']; subst. cbn [map]. constructor.
    - assert (Lx : length (puts init S (sp_Z sp)) = d * w * l) by (now rewrite puts_length).
      destruct (reshape_shaped Lx) as [R1 R2]. destruct (live_array LV) as [a' [Ea' [SH [P1 [P2 P3]]]]].
      assert (a' = reshape d w l (puts init S (sp_Z sp))) by congruence. subst a'.
      destruct (shaped_unique R1 SH Hd Hw) as [Q1 [Q2 Q3]].
      pose proof (@get_cell_exact hp2 (mkCStru m g) _ d w l Ea (eq_sym Q1) (eq_sym Q2) (eq_sym Q3)) as C. rewrite R2 in C. cbn [c_m] in C.
      cbn [numbers cellof]. split; [|split].
      + exists S. split; [|apply SUB; now left]. destruct (HS S (or_introl eq_refl)) as [X1 [X2 X3]]. split; [assumption|]. split; [assumption|].
        unfold any_site. now rewrite Li.
      + eauto.
      + unfold get_gcell. rewrite C. cbn [bind]. unfold cellof. cbn [lattice positions c]. apply canonical_new; auto. rewrite Lx. exact Lp.
    - apply IH; auto; intros S' Hs'; [apply HS|apply SUB]; now right. }
  destruct (@in_step np2 hp2 h N G D (proj1 PG)) with (fin := @None exn) (ss := List.map (mkCStru m) (items t))
    (cs := map (fun S => cellof c (puts init S (sp_Z sp))) (combos (range N) noa)) (iso := @nil string) (isoZ := @nil Z) as [Q1 [Q2 Q3]].
  - intros x Hx. rewrite (kfold_length Hx). exact Li.
  - intros x y Dx Exy. apply (@kfold_closed N G init (any_site init) noa (sp_Z sp) x y PG Li); auto.
    + apply preserves_repeat. apply PG.
    + eapply inv_any; eauto.
    + unfold any_site. rewrite Li. auto.
  - exact CF.
  - eapply Forall2_imp; [|exact FR]. cbn. tauto.
  - cbn. tauto.
  - split; [assumption|]. split; [assumption|]. apply Q3. eapply Forall2_imp; [|exact FR]. cbn. tauto.
Qed.

Lemma dup_lemma hp m ssp sp d w l noa : 0 < d <= 990 -> 0 < w <= 990 -> 0 < l <= 990 -> supported (sp_Z ssp) -> supported (sp_Z sp) ->
  exists g hp1 c, sea hp d w l ssp = Ok (g, hp1) /\ get_gcell hp1 (mkCStru m g) = Ok c /\
  forall perms wy,
   let (t, hp') := cstru_gen_speckle hp1 m ssp (d, w, l) sp (Z.of_nat noa) in
   let t' := gen_dup_unitary (mkOcc c perms wy) (Z.of_nat noa) (sp_Z sp) in
   stop t = None /\ stop t' = None /\ Forall2 (fun s x => get_gcell hp' s = Ok x) (items t) (items t').
Proof.
  intros [Hd Bd] [Hw Bw] [Hl Bl] S1 S2.
  destruct (@sea_array hp d w l ssp Hd Hw Hl) as [g0 [hp1 [arr0 [E0 [D1 [D2 [D3 [A0 V0]]]]]]]].
  pose proof (@get_cell_exact hp1 (mkCStru m g0) arr0 d w l A0 D1 D2 D3) as C0. cbn [c_m] in C0. rewrite V0 in C0.
  set (bas0 := basis_of m d w l) in *.
  set (pos := all_sites d w l) in *. set (N := d * w * l) in *. set (init := repeat (sp_Z ssp) N) in *.
  assert (NEp : pos <> []) by now apply all_sites_ne.
  assert (Lp : length pos = N) by apply all_sites_length.
  assert (Li : length init = N) by apply repeat_length.
  assert (S3 : StronglySorted vlt (List.map (wrap_key 3) pos)) by (apply all_sites_keys; auto).
  assert (CAN : canonical pos).
  { unfold canonical, order_of. rewrite <- (map_length tofrac pos). apply lexsort_id. change (List.map tofrac pos) with (List.map (wrap_key 3) pos).
    apply nth_StronglySorted. intros a b x y Lab Ha Hb. apply vleb_iff. left. eapply StronglySorted_nth; eauto. }
  set (c := mkG bas0 pos init (bas0, pos, init) (length init)).
  assert (EC : get_gcell hp1 (mkCStru m g0) = Ok c).
  { unfold get_gcell. rewrite C0. cbn [bind]. apply canonical_new; auto. congruence. }
  exists g0, hp1, c. split; [assumption|]. split; [assumption|]. intros perms wy.
  unfold cstru_gen_speckle, gen_speckle, gen_dup_unitary.
  cbn [init_cell numbers c]. rewrite Li. fold N. unfold combinations. destruct (Z.ltb_spec (Z.of_nat noa) 0); [lia|]. rewrite Nat2Z.id. cbn [gen_of].
  assert (HS : forall S, In S (combos (range N) noa) -> subset_of_size (fun i => i < N) noa S).
  { destruct (@combos_all_subsets (fun i => i < N) (range N) noa) as [A1 _]; [apply seq_NoDup|intros i; unfold range; rewrite in_seq; lia|].
    now apply Forall_forall. }
  pose proof (@gen_speckle_loop_spec d w l (sp_Z ssp) (sp_Z sp) Hd Hw Hl S1 S2 (combos (range N) noa)) as GL.
  specialize (GL (fun S Hs => proj2 (proj2 (HS S Hs))) hp1).
  destruct (gen_speckle_loop hp1 (sp_Z ssp) (sp_Z sp) d w l (combos (range N) noa)) as [t hp2]. destruct GL as [T1 [_ [_ [T2 T3]]]].
  fold N in T3. fold init in T3.
  assert (FC : from_constructor c) by (exists bas0, pos, init; split; [congruence|]; apply canonical_new; auto; congruence).
  rewrite (@gen_map_ok _ _ (put_cell (mkOcc c perms wy) (sp_Z sp)) (fun S => cellof c (puts init S (sp_Z sp)))).
  2: { intros S Hs. apply (@put_cell_ok (mkOcc c perms wy) FC). cbn. rewrite Li. apply (HS S Hs). }
  cbn [items stop]. rewrite T1.
  apply mapM_Forall2 in T3. 
  set (D := k_fold init (any_site init) noa (sp_Z sp)).
  assert (FR : Forall2 (fun s x => D (numbers x) /\ (exists b p, get_cell hp2 s = Ok (b, p, numbers x)) /\ get_gcell hp2 s = Ok x)
    (List.map (mkCStru m) (items t)) (map (fun S => cellof c (puts init S (sp_Z sp))) (combos (range N) noa))).
  { assert (SUB : forall S, In S (combos (range N) noa) -> substituted init S (sp_Z sp) (puts init S (sp_Z sp))).
    { intros S Hs. apply puts_substituted. intros i Hi. rewrite Li. now apply (HS S Hs). }
    clear - T2 T3 HS SUB Hd Hw Hl CAN NEp Lp Li. revert T2 T3. generalize (items t) as gs.
    induction (combos (range N) noa) as [|S Ss IH]; intros gs T2 T3; inversion T3 as [|g a gs' as' Ea T3']; subst; [constructor|].
    inversion T2 as [|? ? LV T2']; subst. cbn [map]. constructor.
    - assert (Lx : length (puts init S (sp_Z sp)) = d * w * l) by (now rewrite puts_length).
      destruct (reshape_shaped Lx) as [R1 R2]. destruct (live_array LV) as [a' [Ea' [SH [P1 [P2 P3]]]]].
      assert (a' = reshape d w l (puts init S (sp_Z sp))) by congruence. subst a'.
      destruct (shaped_unique R1 SH Hd Hw) as [Q1 [Q2 Q3]].
      pose proof (@get_cell_exact hp2 (mkCStru m g) _ d w l Ea (eq_sym Q1) (eq_sym Q2) (eq_sym Q3)) as C. rewrite R2 in C. cbn [c_m] in C.
      cbn [numbers cellof]. split; [|split].
      + exists S. split; [|apply SUB; now left]. destruct (HS S (or_introl eq_refl)) as [X1 [X2 X3]]. split; [assumption|]. split; [assumption|].
        unfold any_site. now rewrite Li.
      + eauto.
      + unfold get_gcell. rewrite C. cbn [bind]. unfold cellof. cbn [lattice positions c]. apply canonical_new; auto. rewrite Lx. exact Lp.
    - apply IH; auto; intros S' Hs'; [apply HS|apply SUB]; now right. }
  split; [reflexivity|]. split; [reflexivity|]. eapply Forall2_imp; [|exact FR]. cbn. tauto.
Qed.
