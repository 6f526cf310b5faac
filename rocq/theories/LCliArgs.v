(** Lemmas for C86. *)
From Coq Require Import String.
From Verif Require Import Base LBase BaseQ LQ MElement SElement LElement MGeneralCell SGeneralCell LGeneralCell MSogen MIO MCli SCliApp SSubst SCliArgs SLattice LCrystal LShape.
Set Implicit Arguments.
Unset Strict Implicit.
Open Scope list_scope.
Notation length := List.length.

Lemma count_target_occ l z : count_target l z = count_occ Z.eq_dec l z.
Proof.
  unfold count_target. induction l as [|x l IH]; [reflexivity|]. cbn [filter count_occ]. destruct (Z.eq_dec x z) as [-> |N].
  - rewrite Z.eqb_refl. cbn. now rewrite IH.
  - rewrite (proj2 (Z.eqb_neq _ _) N). exact IH.
Qed.
Lemma comment_or_ok c com s : Forall supported (numbers c) -> comment_or com c = Ok s <-> comment_chosen (numbers c) com s.
Proof.
  intros S. assert (F : comment c = Ok s <-> formula (numbers c) s).
  { destruct (comment_spec c S) as (s' & E & F). split; intros H; [congruence|]. rewrite E. f_equal. exact (formula_unique F H). }
  unfold comment_or, comment_chosen. destruct com as [t|]; [destruct (String.eqb t "")|]; auto. split; congruence.
Qed.
Lemma target_ok nums e : forall z, (exists sp, target nums e = Ok z /\ from_num z = Ok sp /\ sp_Z sp = z) <-> element_chosen nums e z.
Proof.
  intros z. unfold target, element_chosen. destruct e as [s|].
  - split.
    + intros (sp & E & _). destruct (Specie_new s) as [sp'|] eqn:ES; [|discriminate]. cbn in E. injection E as <-. exact (proj1 (Specie_new_spec s ES)).
    + intros H. destruct (Specie_new_total H) as (sp & E & Ez). rewrite E. cbn. destruct (from_num_spec z) as [F _]. destruct (F s H) as (sp' & F1 & _ & F2). exists sp'. rewrite Ez. auto.
  - split.
    + intros (sp & E & F & _). apply get_nth_ok in E. split; [exact E|]. apply from_num_inv in F. apply supported_iff. exists (sp_symbol sp). tauto.
    + intros [E S]. destruct (from_num_ok S) as (sp & F & Z). exists sp. split; [now apply get_nth_ok|auto].
Qed.

Lemma App_new_spec dn cell com element speckle nspeckle trs refined outmode mpr a : Forall supported (numbers cell) ->
  App_new dn cell com element speckle nspeckle trs refined outmode mpr = Ok a <->
  a_cell a = cell /\ comment_chosen (numbers cell) com (a_comment a) /\ element_chosen (numbers cell) element (a_ele a) /\ species_chosen speckle (a_speckle a) /\
  a_n a = match nspeckle with Some n => n | None => dn (count_occ Z.eq_dec (numbers cell) (a_ele a)) end /\
  a_tr a = List.hd_error trs /\ a_refined a = refined /\ a_outmode a = outmode /\ a_mpr a = mpr.
Proof.
  intros S. unfold App_new. split.
  - intros E. destruct (comment_or com cell) as [cm|] eqn:E1; [|discriminate]. cbn [bind] in E. destruct (target (numbers cell) element) as [tgt|] eqn:E2; [|discriminate]. cbn [bind] in E.
    destruct (Specie_new (match speckle with None => "G"%string | Some s => s end)) as [sp|] eqn:E3; [|discriminate]. cbn [bind] in E.
    destruct (from_num tgt) as [ele|] eqn:E4; [|discriminate]. cbn [bind] in E. injection E as <-. cbn [a_cell a_comment a_ele a_speckle a_n a_tr a_refined a_outmode a_mpr].
    destruct (from_num_inv _ E4) as [_ EZ]. rewrite EZ. split; [reflexivity|]. split; [now apply comment_or_ok|].
    split; [apply target_ok; eauto|]. split; [exact (proj1 (Specie_new_spec _ E3))|]. rewrite count_target_occ. auto 10.
  - intros (H1 & H2 & H3 & H4 & H5 & H6 & H7 & H8 & H9). apply (comment_or_ok _ _ S) in H2. rewrite H2. cbn [bind].
    apply target_ok in H3. destruct H3 as (ele & T & F & Z). rewrite T. cbn [bind]. destruct (Specie_new_total H4) as (sp & E & EZ). rewrite E. cbn [bind]. rewrite F. cbn [bind].
    rewrite count_target_occ, Z, EZ. destruct a. cbn in *. subst. reflexivity.
Qed.

Lemma Tapp_new_spec lat pos nums zoom com element s1 s2 trs refined outmode mpr a :
  Tapp_new lat pos nums zoom com element s1 s2 trs refined outmode mpr = Ok a <->
  GeneralCell_new (vmap (vscale zoom) lat) pos nums = Ok (t_cell a) /\ t_comment a = com /\ element_chosen nums element (t_ele a) /\
  t_size a = count_occ Z.eq_dec nums (t_ele a) /\ t_s1 a = s1 /\ t_s2 a = s2 /\ t_tr a = List.hd_error trs /\ t_refined a = refined /\ t_outmode a = outmode /\ t_mpr a = mpr.
Proof.
  assert (EL : vmap (vmap (fun x => x * zoom)%Qc) lat = vmap (vscale zoom) lat).
  { qv. }
  unfold Tapp_new. rewrite EL. split.
  - intros E. destruct (GeneralCell_new (vmap (vscale zoom) lat) pos nums) as [cell|] eqn:E1; [|discriminate]. cbn [bind] in E.
    destruct (target nums element) as [tgt|] eqn:E2; [|discriminate]. cbn [bind] in E. destruct (from_num tgt) as [ele|] eqn:E4; [|discriminate]. cbn [bind] in E. injection E as <-.
    cbn [t_cell t_comment t_ele t_size t_s1 t_s2 t_tr t_refined t_outmode t_mpr]. destruct (from_num_inv _ E4) as [_ EZ]. rewrite EZ. split; [reflexivity|]. split; [reflexivity|].
    split; [apply target_ok; eauto|]. rewrite count_target_occ. auto 10.
  - intros (H1 & H2 & H3 & H4 & H5 & H6 & H7 & H8 & H9 & H10). rewrite H1. cbn [bind]. apply target_ok in H3. destruct H3 as (ele & T & F & Z). rewrite T. cbn [bind]. rewrite F. cbn [bind].
    rewrite count_target_occ, Z. destruct a. cbn in *. subst. reflexivity.
Qed.

Lemma vec_mat_zoom v zoom lat : vec_mat v (vmap (vscale zoom) lat) = vscale zoom (vec_mat v lat).
Proof. qv. Qed.
Lemma zoomed_crystal lat pos nums zoom c z v : pos <> [] -> length pos = length nums -> GeneralCell_new (vmap (vscale zoom) lat) pos nums = Ok c ->
  crystal_atom (lattice c) (positions c) (numbers c) z v <-> exists u, crystal_atom lat pos nums z u /\ v = vscale zoom u.
Proof.
  intros NE L E. destruct (new_cell (vmap (vscale zoom) lat) NE L) as (c' & E' & LC & LL & _ & PM). assert (c' = c) by congruence. subst c'. rewrite LC.
  rewrite (crystal_perm _ z v LL L PM). split.
  - intros (i & p & s & Hp & Hz & ->). rewrite vec_mat_zoom. eexists. split; [|reflexivity]. exists i, p, s. auto.
  - intros (u & (i & p & s & Hp & Hz & ->) & ->). exists i, p, s. rewrite vec_mat_zoom. auto.
Qed.

Lemma unknown_symbol dn cell com element speckle nspeckle trs refined outmode mpr : Forall supported (numbers cell) ->
  ((exists e, element = Some e /\ ~ exists z, is_element z e) ->
     App_new dn cell com element speckle nspeckle trs refined outmode mpr = Raise KeyError) /\
  ((exists s, speckle = Some s /\ ~ exists z, is_element z s) -> (exists z, element_chosen (numbers cell) element z) ->
     App_new dn cell com element speckle nspeckle trs refined outmode mpr = Raise KeyError).
Proof.
  intros S. assert (C : exists cm, comment_or com cell = Ok cm).
  { destruct (comment_spec cell S) as (s & E & _). unfold comment_or. destruct com as [t|]; [destruct (String.eqb t "")|]; eauto. }
  destruct C as (cm & C). assert (K : forall s, (~ exists z, is_element z s) -> Specie_new s = Raise KeyError).
  { intros s N. apply Specie_new_err. intros z H. apply N. eauto. }
  unfold App_new. rewrite C. cbn [bind]. split.
  - intros (e & -> & N). cbn [target]. now rewrite (K e N).
  - intros (s & -> & N) (z & Z). apply target_ok in Z. destruct Z as (sp & E & _). rewrite E. cbn [bind]. now rewrite (K s N).
Qed.
Lemma default_levels cell com element speckle trs refined outmode a x : Forall supported (numbers cell) ->
  maker_new cell com element speckle None trs refined outmode = Ok a ->
  maker_set a x <-> exists k, (1 <= k)%nat /\ (k + count_occ Z.eq_dec (numbers cell) (a_speckle a) < count_occ Z.eq_dec (numbers cell) (a_ele a))%nat /\
    k_fold (numbers cell) (fun i => site_holds (numbers cell) (a_ele a) i /\ site_not (numbers cell) (a_speckle a) i) k (a_speckle a) x.
Proof.
  intros S E. apply (App_new_spec maker_default com element speckle None trs refined outmode true a S) in E.
  destruct E as (<- & _ & _ & _ & EN & _). unfold maker_default in EN. unfold maker_set. rewrite EN. split.
  - intros (k & Hk & K). exists (Datatypes.S k). split; [lia|]. split; [lia|exact K].
  - intros ([|k] & H1 & H2 & K); [lia|]. exists k. split; [lia|exact K].
Qed.

Lemma suplat_new_spec psize gen u com v mode a : suplat_new psize gen u com v mode = Ok a <->
  psize (spg_cell u) = length (snd (spg_cell u)) /\ gen u v = Ok (s_hnfs a) /\ s_v a = v /\ s_outmode a = mode /\
  s_comment a = match com with Some s => if String.eqb s "" then "default"%string else s | None => "default"%string end.
Proof.
  unfold suplat_new. assert (P : is_primitive psize u = true <-> psize (spg_cell u) = length (snd (spg_cell u))) by (unfold is_primitive; rewrite Nat.eqb_eq; split; congruence).
  destruct (is_primitive psize u).
  - assert (Q : psize (spg_cell u) = length (snd (spg_cell u))) by (now apply P). destruct (gen u v) as [l|e]; cbn [bind].
    + split; [intros E; injection E as <-; auto|]. intros (_ & E & <- & <- & <-). injection E as ->. now destruct a.
    + split; [discriminate|]. intros (_ & E & _). discriminate.
  - split; [discriminate|]. intros (Q & _). apply P in Q. discriminate.
Qed.
