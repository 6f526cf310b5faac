(** C86: what the arguments of the enumerating commands mean. *)
From Coq Require Import String.
From Verif Require Import Base BaseQ LQ MElement SElement LElement MGeneralCell SGeneralCell SLattice SSym SSubst MSogen SEnum MHnf MIO MCli SCliApp SCliArgs LCliArgs LSymDec PSogen.
Open Scope list_scope.
Notation length := List.length.

(** ocubiter: the attributes of the application, exactly.  Without [nspeckle] just more than half of
    the atoms of the element are replaced. *)
Theorem C86_ocubiter_arguments : forall cell com element speckle nspeckle trs refined outmode mpr a, Forall supported (numbers cell) ->
  biter_new cell com element speckle nspeckle trs refined outmode mpr = Ok a <->
  a_cell a = cell /\ comment_chosen (numbers cell) com (a_comment a) /\ element_chosen (numbers cell) element (a_ele a) /\ species_chosen speckle (a_speckle a) /\
  a_n a = match nspeckle with Some n => n | None => (Z.of_nat (count_occ Z.eq_dec (numbers cell) (a_ele a)) / 2 + 1)%Z end /\
  a_tr a = List.hd_error trs /\ a_refined a = refined /\ a_outmode a = outmode /\ a_mpr a = mpr.
Proof. intros cell com element speckle nspeckle trs refined outmode mpr a S. exact (App_new_spec biter_default com element speckle nspeckle trs refined outmode mpr a S). Qed.
Print Assumptions C86_ocubiter_arguments.

(** ocumaker: the number is the largest one; only primitive structures are kept. *)
Theorem C86_ocumaker_arguments : forall cell com element speckle nspeckle trs refined outmode a, Forall supported (numbers cell) ->
  maker_new cell com element speckle nspeckle trs refined outmode = Ok a <->
  a_cell a = cell /\ comment_chosen (numbers cell) com (a_comment a) /\ element_chosen (numbers cell) element (a_ele a) /\ species_chosen speckle (a_speckle a) /\
  a_n a = match nspeckle with Some n => n | None => (Z.of_nat (count_occ Z.eq_dec (numbers cell) (a_ele a)) - 1)%Z end /\
  a_tr a = List.hd_error trs /\ a_refined a = refined /\ a_outmode a = outmode /\ a_mpr a = true.
Proof. intros cell com element speckle nspeckle trs refined outmode a S. exact (App_new_spec maker_default com element speckle nspeckle trs refined outmode true a S). Qed.
Print Assumptions C86_ocumaker_arguments.

(** Which errors are raised: an unknown symbol is a KeyError. *)
Theorem C86_unknown_symbol : forall default cell com element speckle nspeckle trs refined outmode mpr, Forall supported (numbers cell) ->
  ((exists e, element = Some e /\ ~ exists z, is_element z e) ->
     App_new default cell com element speckle nspeckle trs refined outmode mpr = Raise KeyError) /\
  ((exists s, speckle = Some s /\ ~ exists z, is_element z s) -> (exists z, element_chosen (numbers cell) element z) ->
     App_new default cell com element speckle nspeckle trs refined outmode mpr = Raise KeyError).
Proof. exact unknown_symbol. Qed.
Print Assumptions C86_unknown_symbol.

(** Only the first restriction is used; the further ones have no effect. *)
Theorem C86_only_first_restriction : forall cell com element speckle nspeckle r rs refined outmode mpr,
  biter_new cell com element speckle nspeckle (r :: rs) refined outmode mpr = biter_new cell com element speckle nspeckle [r] refined outmode mpr /\
  maker_new cell com element speckle nspeckle (r :: rs) refined outmode = maker_new cell com element speckle nspeckle [r] refined outmode.
Proof. split; reflexivity. Qed.

(** The default of ocumaker: with a species that is not in the cell yet, one level for every number
    of replaced atoms from one to all but one. *)
Theorem C86_default_levels : forall cell com element speckle trs refined outmode a x, Forall supported (numbers cell) ->
  maker_new cell com element speckle None trs refined outmode = Ok a ->
  maker_set a x <-> exists k, (1 <= k)%nat /\ (k + count_occ Z.eq_dec (numbers cell) (a_speckle a) < count_occ Z.eq_dec (numbers cell) (a_ele a))%nat /\
    k_fold (numbers cell) (fun i => site_holds (numbers cell) (a_ele a) i /\ site_not (numbers cell) (a_speckle a) i) k (a_speckle a) x.
Proof. exact default_levels. Qed.
Print Assumptions C86_default_levels.

(** If the species is already there, fewer levels are made: in B3C1 replacing boron by carbon only one
    boron is ever replaced, not two. *)
Definition b3c_cell : gcell := mkG sq_lat sq_pos [5; 5; 5; 6]%Z (sq_lat, sq_pos, [5; 5; 5; 6]%Z) 4.
Theorem C86_default_levels_refuted : exists cell a x, maker_new cell None (Some "B"%string) (Some "C"%string) None [] false "vasp" = Ok a /\
  count_occ Z.eq_dec (numbers cell) 5%Z = 3%nat /\ k_fold (numbers cell) (site_holds (numbers cell) 5) 2 6 x /\ ~ maker_set a x.
Proof.
  exists b3c_cell. eexists. exists [6; 6; 5; 6]%Z. split; [vm_compute; reflexivity|]. split; [reflexivity|]. split.
  - exists [0; 1]%nat. split; [split; [repeat constructor; cbn; intuition discriminate|split; [reflexivity|intros i [<- |[<- |[]]]; reflexivity]]|].
    split; [reflexivity|]. intros i z E. destruct i as [|[|[|[|i]]]]; cbn in E; try (injection E as <-); try (now destruct i);
      (split; intros H; try reflexivity; exfalso; cbn in H; intuition discriminate).
  - intros (k & Hk & K). cbn in Hk. assert (k = 0)%nat by lia. subst k. destruct K as (S & (ND & L & F) & LX & H).
    destruct (H 0%nat 5%Z eq_refl) as [_ H0]. destruct (H 1%nat 5%Z eq_refl) as [_ H1].
    destruct (in_dec Nat.eq_dec 0 S) as [I0|I0]; [|specialize (H0 I0); discriminate]. destruct (in_dec Nat.eq_dec 1 S) as [I1|I1]; [|specialize (H1 I1); discriminate].
    destruct S as [|u [|? ?]]; try discriminate. destruct I0 as [-> |[]], I1 as [I1|[]]. discriminate.
Qed.
Print Assumptions C86_default_levels_refuted.

(** ocutenter, ocumakert: attributes exactly.  The default element is that of the second atom of the
    file, not of the sorted cell. *)
Theorem C86_ternary_arguments : forall lat pos nums zoom com element s1 s2 trs refined outmode mpr a,
  Tapp_new lat pos nums zoom com element s1 s2 trs refined outmode mpr = Ok a <->
  GeneralCell_new (vmap (vscale zoom) lat) pos nums = Ok (t_cell a) /\ t_comment a = com /\ element_chosen nums element (t_ele a) /\
  t_size a = count_occ Z.eq_dec nums (t_ele a) /\ t_s1 a = s1 /\ t_s2 a = s2 /\ t_tr a = List.hd_error trs /\
  t_refined a = refined /\ t_outmode a = outmode /\ t_mpr a = mpr.
Proof. exact Tapp_new_spec. Qed.
Print Assumptions C86_ternary_arguments.

(** [zoom] scales the whole crystal. *)
Theorem C86_zoom : forall lat pos nums zoom com element s1 s2 trs refined outmode mpr a z v, pos <> [] -> length pos = length nums ->
  Tapp_new lat pos nums zoom com element s1 s2 trs refined outmode mpr = Ok a ->
  crystal_atom (lattice (t_cell a)) (positions (t_cell a)) (numbers (t_cell a)) z v <-> exists u, crystal_atom lat pos nums z u /\ v = vscale zoom u.
Proof.
  intros lat pos nums zoom com element s1 s2 trs refined outmode mpr a z v NE L E. apply Tapp_new_spec in E. exact (zoomed_crystal z v NE L (proj1 E)).
Qed.
Print Assumptions C86_zoom.

(** Two files that list the same atoms in another order give the same cell but different elements. *)
Theorem C86_default_element_refuted : exists lat pos nums pos' nums' a a',
  Permutation (combine pos nums) (combine pos' nums') /\
  Tapp_new lat pos nums 1 "x" None "C" "O" [] false "yaml" false = Ok a /\ Tapp_new lat pos' nums' 1 "x" None "C" "O" [] false "yaml" false = Ok a' /\
  t_cell a = t_cell a' /\ t_ele a <> t_ele a'.
Proof.
  exists sq_lat, sq_pos, [5; 5; 7; 7]%Z, (rev sq_pos), [7; 7; 5; 5]%Z. eexists. eexists. split.
  - change (combine (rev sq_pos) [7; 7; 5; 5]%Z) with (rev (combine sq_pos [5; 5; 7; 7]%Z)). apply Permutation_rev.
  - split; [vm_compute; reflexivity|]. split; [vm_compute; reflexivity|]. split; [reflexivity|discriminate].
Qed.
Print Assumptions C86_default_element_refuted.

(** suplat: only primitive cells; the comment "default" unless one is given. *)
Theorem C86_suplat_arguments : forall psize gen u com v mode a,
  suplat_new psize gen u com v mode = Ok a <->
  psize (spg_cell u) = length (snd (spg_cell u)) /\ gen u v = Ok (s_hnfs a) /\ s_v a = v /\ s_outmode a = mode /\
  s_comment a = match com with Some s => if String.eqb s "" then "default"%string else s | None => "default"%string end.
Proof. exact suplat_new_spec. Qed.
Print Assumptions C86_suplat_arguments.

(** The hypotheses are met: B4 on a square; nothing given but the file. *)
Example C86_ex : Forall supported (numbers sq_cell) /\
  biter_new sq_cell None None None None [] false "vasp" true = Ok (mkApp sq_cell "B4" 5 0 3 None false "vasp" true) /\
  maker_new sq_cell (Some "") None (Some "C"%string) None [("B"%string, 1%Qc); ("C"%string, 1%Qc)] false "vasp" =
    Ok (mkApp sq_cell "B4" 5 6 3 (Some ("B"%string, 1%Qc)) false "vasp" true) /\
  element_chosen [5; 5; 5; 5]%Z None 5 /\ species_chosen None 0 /\ comment_chosen [5; 5; 5; 5]%Z (Some "x"%string) "x" /\
  biter_new sq_cell None (Some "Xx"%string) None None [] false "vasp" true = Raise KeyError.
Proof.
  split; [repeat constructor; unfold supported; cbn; lia|]. split; [vm_compute; reflexivity|]. split; [vm_compute; reflexivity|].
  split; [split; [reflexivity|unfold supported; lia]|]. split; [|split; [reflexivity|vm_compute; reflexivity]].
  unfold species_chosen. destruct (Specie_new "G") as [sp|] eqn:E; [|vm_compute in E; discriminate]. destruct (Specie_new_spec _ E) as [H _].
  vm_compute in E. injection E as <-. exact H.
Qed.
Example C86_ex_zoom : exists a, Tapp_new sq_lat sq_pos [5; 5; 7; 7]%Z (Zc 2) "x" (Some "B"%string) "C" "O" [] false "yaml" false = Ok a /\ t_size a = 2%nat /\
  vmap (vmap this) (lattice (t_cell a)) = vmap (vmap (fun x => this (Zc 2 * x)%Qc)) sq_lat.
Proof. eexists. split; [vm_compute; reflexivity|]. split; vm_compute; reflexivity. Qed.
