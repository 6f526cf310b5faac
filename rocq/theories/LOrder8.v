(** The grid-based generator in order. *)
From Coq Require Import Sorted String.
From Verif Require Import Base LBase BaseQ LQ MElement SElement MSort SSort LSort MGeneralCell SGeneralCell LGeneralCell MComb SSubst LComb MGrid SGrid LGrid LGrid2 MGrid2 SSym LSym MSogen SOcc LFilter LDup MLegacy SLegacy LStr LLegacyKey LLegacy LAgree SOrder LOrder LOrder2 LMisc.
Set Implicit Arguments.
Unset Strict Implicit.
Open Scope list_scope.
Open Scope nat_scope.
Notation length := List.length.


Lemma grid_ready ops wy hp m ssp d w l : 0 < d <= 990 -> 0 < w <= 990 -> 0 < l <= 990 ->
  supported (sp_Z ssp) -> exact_space_group ops (all_sites d w l) ->
  exists g hp1 c o, sea hp d w l ssp = Ok (g, hp1) /\ get_gcell hp1 (mkCStru m g) = Ok c /\ OccupyGenerator_new ops wy c = Ok o /\
  init_cell o = c /\ from_constructor c /\ numbers c = repeat (sp_Z ssp) (d * w * l) /\ perm_group (d * w * l) (sym_perm o).
Proof.
  intros [Hd Bd] [Hw Bw] [Hl Bl] S1 XG.
  destruct (@sea_array hp d w l ssp Hd Hw Hl) as [g0 [hp1 [arr0 [E0 [D1 [D2 [D3 [A0 V0]]]]]]]].
  pose proof (@get_cell_exact hp1 (mkCStru m g0) arr0 d w l A0 D1 D2 D3) as C0. cbn [c_m] in C0. rewrite V0 in C0.
  set (bas0 := basis_of m d w l) in *.
  set (pos := all_sites d w l) in *. set (N := d * w * l) in *. set (init := repeat (sp_Z ssp) N) in *.
  assert (NEp : pos <> []) by now apply all_sites_ne.
  assert (Lp : length pos = N) by apply all_sites_length.
  assert (Li : length init = N) by apply repeat_length.
  assert (S5 : StronglySorted vlt (List.map (wrap_key 5) pos)) by (apply all_sites_keys; auto).
  assert (S3 : StronglySorted vlt (List.map (wrap_key 3) pos)) by (apply all_sites_keys; auto).
  assert (CAN : canonical pos).
  { unfold canonical, order_of. rewrite <- (map_length tofrac pos). apply lexsort_id. change (List.map tofrac pos) with (List.map (wrap_key 3) pos).
    apply nth_StronglySorted. intros a b x y Lab Ha Hb. apply vleb_iff. left. eapply StronglySorted_nth; eauto. }
  set (c := mkG bas0 pos init (bas0, pos, init) (length init)).
  assert (EC : get_gcell hp1 (mkCStru m g0) = Ok c).
  { unfold get_gcell. rewrite C0. cbn [bind]. apply canonical_new; auto. congruence. }
  set (G := List.map (fun o : symop => lexsort (List.map (wrap_key 5) (List.map (apply_op o) pos))) ops).
  assert (EG3 : List.map (fun o => order_of (List.map (apply_op o) pos)) ops = G).
  { apply map_ext_in. intros o Ho. pose proof (exact_permutes XG Ho) as M.
    apply (@carries_perm_uniq (wrap_key 3) wrap_shift3 o pos); [now apply key_nodup| |].
    + exact (@key_perm_spec (wrap_key 3) wrap_shift3 o pos S3 M).
    + now apply (@key_perm_spec (wrap_key 5) wrap_shift5). }
  assert (PG : perm_group N G). { rewrite <- Lp. apply exact_perm_group; auto. exact wrap_shift5. }
  exists g0, hp1, c, (mkOcc c G wy). split; [assumption|]. split; [assumption|]. split.
  { unfold OccupyGenerator_new. rewrite (@mapM_gsp_ok ops c) by exact NEp. cbn [bind positions c]. now rewrite EG3. }
  split; [reflexivity|]. split; [|split; [reflexivity|exact PG]].
  exists bas0, pos, init; split; [congruence|]; apply canonical_new; auto; congruence.
Qed.

Lemma grid_in_order np2 ops wy hp m ssp sp d w l noa g hp1 c o : 0 < d <= 990 -> 0 < w <= 990 -> 0 < l <= 990 ->
  supported (sp_Z ssp) -> supported (sp_Z sp) -> exact_space_group ops (all_sites d w l) ->
  sea hp d w l ssp = Ok (g, hp1) -> get_gcell hp1 (mkCStru m g) = Ok c -> OccupyGenerator_new ops wy c = Ok o ->
  let (t, hp') := gen_nodup_cstru np2 ops hp m ssp (d, w, l) sp (Z.of_nat noa) in
  exists cells, in_order o (sp_Z sp) (leader (sym_perm o) (numbers c) (any_site (numbers c)) noa (sp_Z sp)) (mkTrace cells None) /\
    stop t = None /\ Forall2 (fun s x => get_gcell hp' s = Ok x) (items t) cells.
Proof.
  intros Hd Hw Hl S1 S2 X ES EC EO.
  destruct (@grid_ready ops wy hp m ssp d w l Hd Hw Hl S1 X) as (g1 & hp2 & c1 & o1 & E1 & E2 & E3 & EI & FC & EN & PG).
  assert (A : (g1, hp2) = (g, hp1)) by congruence. injection A as -> ->. assert (B1 : c1 = c) by congruence. subst c1. assert (B2 : o1 = o) by congruence. subst o1.
  destruct (@agree_lemma np2 ops wy hp m ssp sp d w l noa poly Hd Hw Hl S1 S2 X) as (g2 & hp3 & c2 & o2 & ES2 & EC2 & EO2 & HA).
  assert (A : (g2, hp3) = (g, hp1)) by congruence. injection A as -> ->. assert (B : c2 = c) by congruence. subst c2. assert (B : o2 = o) by congruence. subst o2.
  subst c.
  assert (CF : collision_free poly (k_fold (numbers (init_cell o)) (any_site (numbers (init_cell o))) noa (sp_Z sp))).
  { apply kfold_poly. constructor; [unfold supported in S2; lia|]. rewrite EN. apply Forall_forall. intros z Hz. apply repeat_spec in Hz. subst z.
    unfold supported in S1; lia. }
  specialize (HA CF). destruct (gen_nodup_cstru np2 ops hp m ssp (d, w, l) sp (Z.of_nat noa)) as [t hp']. destruct HA as [H1 [H2 H3]].
  assert (HG : perm_group (length (numbers (init_cell o))) (sym_perm o)) by (rewrite EN, repeat_length; exact PG).
  assert (Pr : preserves (sym_perm o) (numbers (init_cell o))) by (rewrite EN; apply preserves_repeat; apply PG).
  pose proof (nodup_in_order FC (seq_sorted 0 _) (any_list _) (fun i H => H) HG Pr (inv_any HG eq_refl) CF) as K.
  exists (items (gen_nodup_unitary poly o (Z.of_nat noa) (sp_Z sp))). split; [|split; assumption].
  destruct K as [Ss [K1 [K2 [K3 K4]]]]. exists Ss. split; [assumption|]. split; [assumption|]. split; [reflexivity|exact K4].
Qed.
