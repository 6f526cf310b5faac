(** Property C80: the files written by the enumerating commands, read back by the package. *)
From Coq Require Import String Ascii Permutation.
From Verif Require Import Base BaseQ SElement MElement LElement SLattice MGeneralCell SGeneralCell MRestrict MSogen LSymDec SSubst SSym SOcc SEnum LMisc LSogen
  MHnf MIO SIO LIO6 MModCell SModCell SShape SCli MCli SCliApp SCliOne SCliRead LCli LCli2 LCli3 LCli4 LCli5 LCli6 LCli9 LCli10 LCodec LSuper PHnf PSuper PShape PCli PCli2.
Open Scope list_scope.
Open Scope nat_scope.
Notation length := List.length.

(** C80.  After ocubiter / ocumaker: one file for each class of wanted structures, and reading
    it gives that structure up to the decimals and the order of atoms of the format. *)
Theorem C80_ocubiter : forall load cbrt ops wy psize std h dump a n cwd rd suffix m fs ds o tr,
  let D := k_fold (numbers (a_cell a)) (site_holds (numbers (a_cell a)) (a_ele a)) n (a_speckle a) in
  ds (cwd ++ "/STRUCTURES_" ++ a_comment a ++ "_" ++ rd)%string = false ->
  OccupyGenerator_new (ops (a_cell a)) (wy (a_cell a)) (a_cell a) = Ok o -> restriction_of (a_tr a) = Ok tr -> a_n a = Z.of_nat n ->
  from_constructor (a_cell a) -> perm_group (length (numbers (a_cell a))) (sym_perm o) -> preserves (sym_perm o) (numbers (a_cell a)) ->
  collision_free h D -> class_inputs psize std a tr o D ->
  (forall k, String.length (suffix k) = m) ->
  enough_suffixes (equivalent (sym_perm o)) (fun x => D x /\ wanted psize (a_mpr a) tr (decorated (a_cell a) x)) suffix ->
  (forall x c, D x -> written_cell (get_refined_pcell std) (a_refined a) (decorated (a_cell a) x) c -> some_atom (numbers c)) ->
  (forall d, load (dump d) = Ok d) ->
  one_readable_file_each load cbrt (equivalent (sym_perm o)) (fun x => D x /\ wanted psize (a_mpr a) tr (decorated (a_cell a) x))
    (fun y => written_cell (get_refined_pcell std) (a_refined a) (decorated (a_cell a) y)) fs
    (o_files (biter_run ops wy psize std h dump a cwd rd suffix fs ds)).
Proof.
  intros load cbrt ops wy psize std h dump a n cwd rd suffix m fs ds o tr D DS MO RT EN FC PG PR CF CI LS ES HA LD.
  pose proof (C65_ocubiter_classes ops wy psize std h dump a n cwd rd suffix fs ds o tr DS MO RT EN FC PG PR CF CI) as R.
  exact (@class_read dump load cbrt psize std a tr o D _ suffix m fs _ R LS ES FC (proj1 (proj2 CI)) HA LD).
Qed.
Print Assumptions C80_ocubiter.

Theorem C80_ocumaker : forall load cbrt ops wy psize std h dump a cwd rd suffix m fs ds o tr,
  ds (cwd ++ "/STRUCTURES_" ++ a_comment a ++ "_" ++ rd)%string = false ->
  OccupyGenerator_new (ops (a_cell a)) (wy (a_cell a)) (a_cell a) = Ok o -> restriction_of (a_tr a) = Ok tr ->
  from_constructor (a_cell a) -> perm_group (length (numbers (a_cell a))) (sym_perm o) -> preserves (sym_perm o) (numbers (a_cell a)) ->
  (forall k, k <= Z.to_nat (a_n a - Z.of_nat (count_occ Z.eq_dec (numbers (a_cell a)) (a_speckle a))) ->
     collision_free h (k_fold (numbers (a_cell a)) (fun i => site_holds (numbers (a_cell a)) (a_ele a) i /\ site_not (numbers (a_cell a)) (a_speckle a) i) k (a_speckle a))) ->
  class_inputs psize std a tr o (maker_set a) ->
  (forall k, String.length (suffix k) = m) ->
  enough_suffixes (equivalent (sym_perm o)) (fun x => maker_set a x /\ wanted psize (a_mpr a) tr (decorated (a_cell a) x)) suffix ->
  (forall x c, maker_set a x -> written_cell (get_refined_pcell std) (a_refined a) (decorated (a_cell a) x) c -> some_atom (numbers c)) ->
  (forall d, load (dump d) = Ok d) ->
  one_readable_file_each load cbrt (equivalent (sym_perm o)) (fun x => maker_set a x /\ wanted psize (a_mpr a) tr (decorated (a_cell a) x))
    (fun y => written_cell (get_refined_pcell std) (a_refined a) (decorated (a_cell a) y)) fs
    (o_files (maker_run ops wy psize std h dump a cwd rd suffix fs ds)).
Proof.
  intros load cbrt ops wy psize std h dump a cwd rd suffix m fs ds o tr DS MO RT FC PG PR CF CI LS ES HA LD.
  pose proof (C65_ocumaker_classes ops wy psize std h dump a cwd rd suffix fs ds o tr DS MO RT FC PG PR CF CI) as R.
  exact (@class_read dump load cbrt psize std a tr o (maker_set a) _ suffix m fs _ R LS ES FC (proj1 (proj2 CI)) HA LD).
Qed.
Print Assumptions C80_ocumaker.

(** After ocutenter / ocumakert: the same for each composition; names are never reused. *)
Theorem C80_ocutenter : forall load cbrt N ops wy psize std h dump a n1 n2 cwd rd tmp fs ds o tr s1 s2,
  ds (cwd ++ "/STRUCTURES_" ++ t_comment a ++ "_" ++ rd)%string = false ->
  OccupyGenerator_new (ops (t_cell a)) (wy (t_cell a)) (t_cell a) = Ok o -> restriction_of (t_tr a) = Ok tr -> fresh_names N tmp ->
  Specie_new (t_s1 a) = Ok s1 -> Specie_new (t_s2 a) = Ok s2 ->
  from_constructor (t_cell a) -> perm_group (length (numbers (t_cell a))) (sym_perm o) -> preserves (sym_perm o) (numbers (t_cell a)) ->
  collision_free h (two_fold (numbers (t_cell a)) n1 (sp_Z s1) n2 (sp_Z s2)) ->
  ternary_inputs psize std a tr o (sp_Z s1) (sp_Z s2) [(n1, n2)] ->
  (forall x c, two_fold (numbers (t_cell a)) n1 (sp_Z s1) n2 (sp_Z s2) x ->
     written_cell (get_refined_pcell std) (t_refined a) (decorated (t_cell a) x) c -> some_atom (numbers c)) ->
  (forall d, load (dump d) = Ok d) ->
  readable_by_composition load cbrt N (t_outmode a) (equivalent (sym_perm o))
    (fun n x => two_fold (numbers (t_cell a)) (fst n) (sp_Z s1) (snd n) (sp_Z s2) x /\ wanted psize (t_mpr a) tr (decorated (t_cell a) x))
    (fun y => written_cell (get_refined_pcell std) (t_refined a) (decorated (t_cell a) y)) [(n1, n2)] fs
    (o_files (tenter_run ops wy psize std h dump a (Z.of_nat n1) (Z.of_nat n2) cwd rd tmp fs ds)).
Proof.
  intros load cbrt N ops wy psize std h dump a n1 n2 cwd rd tmp fs ds o tr s1 s2 DS MO RT FR E1 E2 FC PG PR CF TI HA LD.
  pose proof (C66_ocutenter_classes N ops wy psize std h dump a n1 n2 cwd rd tmp fs ds o tr s1 s2 DS MO RT FR E1 E2 FC PG PR CF TI) as R.
  eapply ternary_read; [exact R|exact FC|exact TI| |exact LD]. intros m1 m2 x c [[= <- <-]|[]]. apply HA.
Qed.
Print Assumptions C80_ocutenter.

Theorem C80_ocumakert : forall load cbrt N ops wy psize std h dump a cwd rd tmp fs ds o tr s1 s2,
  exists comps, NoDup comps /\ (forall n1 n2, In (n1, n2) comps <-> 1 <= n1 /\ 1 <= n2 /\ n1 + n2 < t_size a) /\
  (ds (cwd ++ "/STRUCTURES_" ++ t_comment a ++ "_" ++ rd)%string = false ->
  OccupyGenerator_new (ops (t_cell a)) (wy (t_cell a)) (t_cell a) = Ok o -> restriction_of (t_tr a) = Ok tr -> fresh_names N tmp ->
  Specie_new (t_s1 a) = Ok s1 -> Specie_new (t_s2 a) = Ok s2 ->
  from_constructor (t_cell a) -> perm_group (length (numbers (t_cell a))) (sym_perm o) -> preserves (sym_perm o) (numbers (t_cell a)) ->
  (forall n1 n2, In (n1, n2) comps -> collision_free h (two_fold (numbers (t_cell a)) n1 (sp_Z s1) n2 (sp_Z s2))) ->
  ternary_inputs psize std a tr o (sp_Z s1) (sp_Z s2) comps ->
  (forall n1 n2 x c, In (n1, n2) comps -> two_fold (numbers (t_cell a)) n1 (sp_Z s1) n2 (sp_Z s2) x ->
     written_cell (get_refined_pcell std) (t_refined a) (decorated (t_cell a) x) c -> some_atom (numbers c)) ->
  (forall d, load (dump d) = Ok d) ->
  readable_by_composition load cbrt N (t_outmode a) (equivalent (sym_perm o))
    (fun n x => two_fold (numbers (t_cell a)) (fst n) (sp_Z s1) (snd n) (sp_Z s2) x /\ wanted psize (t_mpr a) tr (decorated (t_cell a) x))
    (fun y => written_cell (get_refined_pcell std) (t_refined a) (decorated (t_cell a) y)) comps fs
    (o_files (makert_run ops wy psize std h dump a cwd rd tmp fs ds))).
Proof.
  intros load cbrt N ops wy psize std h dump a cwd rd tmp fs ds o tr s1 s2.
  destruct (C74_ocumakert_classes N ops wy psize std h dump a cwd rd tmp fs ds o tr s1 s2) as (comps & ND & IC & R). exists comps. split; [exact ND|]. split; [exact IC|].
  intros DS MO RT FR E1 E2 FC PG PR CF TI HA LD. eapply ternary_read; [exact (R DS MO RT FR E1 E2 FC PG PR CF TI)|exact FC|exact TI|exact HA|exact LD].
Qed.
Print Assumptions C80_ocumakert.

(** After suplat: one readable file for each class of superlattices. *)
Theorem C80_suplat : forall load cbrt std psize dump sl il rots u com v mode cwd suffix fs ds,
  set_order sl -> rot_group rots -> positions u <> [] -> length (positions u) = length (numbers u) -> Forall supported (numbers u) ->
  (0 < v < 2000)%Z -> mode = "vasp"%string \/ mode = "yaml"%string ->
  psize (spg_cell u) = length (snd (spg_cell u)) ->
  standardizes std -> volume (lattice u) <> 0%Qc -> distinct_sites (lattice u) (positions u) ->
  enough_suffixes (lat_equiv rots) (fun m => Z.abs (zdet m) = v) suffix -> some_atom (numbers u) -> (forall d, load (dump d) = Ok d) ->
  exists a fs0, suplat_new psize (hnfs_from_n sl il rots) u com v mode = Ok a /\
    let d := (cwd ++ "/SUPLAT_" ++ s_comment a)%string in emptied (ds d) d fs fs0 /\
    one_readable_file_each load cbrt (lat_equiv rots) (fun m => Z.abs (zdet m) = v) (stands_for u) fs0
      (o_files (suplat_run std dump a cwd suffix fs ds)).
Proof.
  intros load cbrt std psize dump sl il rots u com v mode cwd suffix fs ds SL RG NE LU SU V M PS ST VU DU ES AU LD.
  destruct (C75_classes std psize dump sl il rots u com v mode cwd suffix fs ds SL RG NE LU SU V M PS ST VU DU) as (a & EA & _ & _ & hs & fs0 & ws & T & EM & _ & I & O).
  exists a, fs0. split; [exact EA|]. split; [exact EM|]. eapply superlattices_read; [exact I|exact T|exact (O (ES hs T))|exact LU|exact SU|exact AU|exact LD].
Qed.
Print Assumptions C80_suplat.

Theorem C80_suplat_2d : forall load cbrt std psize dump sl il rots u com v mode cwd suffix fs ds,
  set_order sl -> rot_group rots -> positions u <> [] -> length (positions u) = length (numbers u) -> Forall supported (numbers u) ->
  (0 < v < 2000)%Z -> mode = "vasp"%string \/ mode = "yaml"%string ->
  psize (spg_cell u) = length (snd (spg_cell u)) ->
  standardizes std -> volume (lattice u) <> 0%Qc -> distinct_sites (lattice u) (positions u) ->
  enough_suffixes (lat_equiv rots) (fun m => in_plane m /\ Z.abs (zdet m) = v) suffix -> some_atom (numbers u) -> (forall d, load (dump d) = Ok d) ->
  exists a fs0, suplat_new psize (hnfs_from_n_2d sl il rots) u com v mode = Ok a /\
    let d := (cwd ++ "/SUPLAT_" ++ s_comment a)%string in emptied (ds d) d fs fs0 /\
    one_readable_file_each load cbrt (lat_equiv rots) (fun m => in_plane m /\ Z.abs (zdet m) = v) (stands_for u) fs0
      (o_files (suplat_run std dump a cwd suffix fs ds)).
Proof.
  intros load cbrt std psize dump sl il rots u com v mode cwd suffix fs ds SL RG NE LU SU V M PS ST VU DU ES AU LD.
  destruct (C75_classes_2d std psize dump sl il rots u com v mode cwd suffix fs ds SL RG NE LU SU V M PS ST VU DU) as (a & EA & _ & _ & hs & fs0 & ws & T & EM & _ & I & O).
  exists a, fs0. split; [exact EA|]. split; [exact EM|]. eapply superlattices_read; [exact I|exact T|exact (O (ES hs T))|exact LU|exact SU|exact AU|exact LD].
Qed.
Print Assumptions C80_suplat_2d.

(** *** Examples.  The YAML library's part is played by the pair of LCodec. *)
Example C80_ex_library : forall d, c_load (c_dump d) = Ok d.
Proof. exact c_load_dump. Qed.
(** Two carbons on four boron sites: three classes, three suffixes; every structure holds
    atoms. *)
Lemma x_some_atom P k x c : k_fold (numbers (a_cell x_app)) P k 6 x ->
  written_cell (get_refined_pcell x_std) (a_refined x_app) (decorated (a_cell x_app) x) c -> some_atom (numbers c).
Proof.
  intros H ->. destruct (x_kfold_two P k x H) as [F L]. cbn [numbers decorated]. destruct x as [|z x]; [discriminate L|].
  exists z. split; [now left|]. apply Forall_inv in F. lia.
Qed.
Example C80_ex : enough_suffixes (equivalent (sym_perm sq_occ))
    (fun x => k_fold (numbers (a_cell x_app)) (site_holds (numbers (a_cell x_app)) 5) 2 6 x /\ wanted x_psize true None (decorated (a_cell x_app) x)) x_suffix /\
  (forall k, String.length (x_suffix k) = 4) /\
  (forall x c, k_fold (numbers (a_cell x_app)) (site_holds (numbers (a_cell x_app)) 5) 2 6 x ->
     written_cell (get_refined_pcell x_std) (a_refined x_app) (decorated (a_cell x_app) x) c -> some_atom (numbers c)).
Proof.
  split; [|split; [intros [|[|k]]; reflexivity|intros x c H W; exact (x_some_atom _ _ _ _ H W)]].
  intros ys T.
  assert (W : forall x, wanted x_psize true None (decorated (a_cell x_app) x)) by (intros x; split; [reflexivity|intros z d [=]]).
  assert (CF : collision_free poly (k_fold (numbers (init_cell sq_occ)) (site_holds (numbers (init_cell sq_occ)) 5) 2 6)) by (apply kfold_poly; repeat constructor; lia).
  destruct (@C19_ele poly sq_occ sq_fc sq_group sq_preserves 5%Z 2 6%Z CF) as (_ & _ & S).
  assert (L : length ys = 3).
  { destruct S as (F & X & N). refine (eq_trans (@transversal_length 4 (sym_perm sq_occ) _ ys (map numbers (items (gen_nodup_of_ele poly sq_occ 5 2 6))) sq_group _ T _) _).
    - intros x [H _]. exact (proj2 (x_kfold_two _ _ _ H)).
    - split; [eapply Forall_impl; [|exact F]; intros x H; exact (conj H (W x))|]. split; [intros x [H _]; exact (X x H)|exact N].
    - vm_compute. reflexivity. }
  rewrite L. intros i j H. do 3 (destruct i as [|i]; [do 3 (destruct j as [|j]; [first [lia | discriminate]|]); lia|]). lia.
Qed.
(** Reading the second file of that run. *)
Example C80_ex_read :
  let r := biter_run x_ops x_wy x_psize x_std poly c_dump x_app "/w" "ABCDE" x_suffix (fun _ => None) (fun _ => false) in
  match from_file c_load (fun x => x) (Some "/w/STRUCTURES_B4_ABCDE/STRUCTURE_B2C2_AAAB.vasp"%string) None (o_files r) with
  | Ok g => (numbers g, length (positions g)) = ([6; 5; 6; 5]%Z, 4)
  | Raise _ => False end.
Proof. vm_compute. reflexivity. Qed.
(** A ternary run with YAML files. *)
Example C80_ex_ternary : (forall x c, two_fold (numbers (t_cell mx_app)) 1 6 1 8 x ->
    written_cell (get_refined_pcell x_std) (t_refined mx_app) (decorated (t_cell mx_app) x) c -> some_atom (numbers c)) /\
  let r := tenter_run mx_ops mx_wy x_psize x_std poly c_dump mx_app 1 1 "/w" "ABCDE" (first_unused 100) (fun _ => None) (fun _ => false) in
  match from_file c_load (fun x => x) (Some "/w/STRUCTURES_x_ABCDE/STRUCTURE_A0B1C1_.yaml"%string) None (o_files r) with
  | Ok g => (numbers g, length (positions g)) = ([6; 8; 7; 7]%Z, 4)
  | Raise _ => False end.
Proof.
  split.
  - intros x c (S1 & S2 & _ & _ & _ & _ & H) ->. cbn [numbers decorated]. destruct (H 0 5%Z eq_refl) as (H1 & H2 & H3).
    destruct (in_dec Nat.eq_dec 0 S1) as [I|I]; [exists 6%Z; split; [eapply nth_error_In; eauto|discriminate]|].
    destruct (in_dec Nat.eq_dec 0 S2) as [J|J]; [exists 8%Z; split; [eapply nth_error_In; eauto|discriminate]|].
    exists 5%Z. split; [eapply nth_error_In; eauto|discriminate].
  - vm_compute. reflexivity.
Qed.
(** The five superlattices of the doubled cube have five suffixes. *)
Example C80_ex_suplat : enough_suffixes (lat_equiv c4) (fun m => Z.abs (zdet m) = 2%Z) t_suffix /\ some_atom (numbers unit1).
Proof.
  split; [|eexists; split; [left; reflexivity|discriminate]]. intros ys (F & X & O).
  destruct (proj1 (C34_one_per_class first_order true c4 unit1 2 first_order_ok c4_group) ltac:(lia)) as (all & out & _ & E & _ & (F' & X' & _)).
  assert (K : match hnfs_from_n first_order true c4 unit1 2 with Ok l => length l | Raise _ => 0 end = 5) by (vm_compute; reflexivity). rewrite E in K.
  assert (L : length ys <= 5).
  { rewrite <- K, <- (map_length sl_H out). eapply transversal_le; [|exact F|exact F'|exact O|].
    - intros a b c _ _ _ H1 H2. eapply lat_equiv_trans; [exact c4_group|exact H1|]. apply lat_equiv_sym; [exact c4_group|exact H2].
    - intros a I. apply X'. rewrite Forall_forall in F. now apply F. }
  intros i j H. assert (H' : i < j < 5) by lia. clear - H'. do 5 (destruct i as [|i]; [do 5 (destruct j as [|j]; [first [lia | discriminate]|]); lia|]). lia.
Qed.
