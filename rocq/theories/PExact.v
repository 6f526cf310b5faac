(** Property C107: the POSCAR text character by character, and structures with four decimals,
    which files keep exactly. *)
From Coq Require Import String Ascii Sorted.
From Verif Require Import Base BaseQ MElement SElement MGeneralCell SGeneralCell MText MIO SIO SOcc SExact LIO3 LIO4 LIO6 LExact PIO.
Open Scope Z_scope.
Notation length := List.length.

(** The text written is the exact text of the cell ... *)
Theorem C107_text : forall g zoom (direct : bool),
  Forall supported (numbers g) -> length (positions g) = length (numbers g) ->
  exists v, VaspOutput_new g zoom = Ok v /\
    poscar_exact (lattice g) (positions g) (numbers g) zoom (if direct then "direct"%string else "cartesian"%string) (get_string v direct).
Proof. exact exact_text. Qed.
Print Assumptions C107_text.

(** ... and there is only one such text. *)
Theorem C107_determined : forall lat pos nums z mode t t',
  poscar_exact lat pos nums z mode t -> poscar_exact lat pos nums z mode t' -> t = t'.
Proof. exact poscar_exact_fun. Qed.
Print Assumptions C107_determined.

(** Ties go to the even last digit; negative numbers keep their sign when they round to zero;
    long numbers push the field. *)
Example C107_fields :
  six_field (q 25 10000000) "  0.000002" /\ six_field (q 35 10000000) "  0.000004" /\
  six_field (q (-1) 100000000) " -0.000000" /\ six_field (q 246913579 2) "123456789.500000" /\
  ~ six_field (q 25 10000000) "  0.000003" /\ ~ six_field (q 25 10000000) "0.000002" /\ ~ six_field (q 25 10000000) " 00.000002".
Proof.
  assert (K : forall x s, format_10_6f x = s -> six_field x s) by (intros x s <-; apply format_six).
  assert (N : forall x s, format_10_6f x <> s -> ~ six_field x s) by (intros x s D F; apply D; exact (six_field_fun (format_six x) F)).
  repeat split; (apply K || apply N); vm_compute; (reflexivity || discriminate).
Qed.

(** Lattices and positions with at most four decimals come back unchanged. *)
Theorem C107_read : forall cbrt g direct v,
  Forall supported (numbers g) -> length (positions g) = length (numbers g) ->
  (exists z, In z (numbers g) /\ z <> 0) -> mfour (lattice g) -> Forall vfour (positions g) -> VaspOutput_new g 1 = Ok v ->
  exists atoms, from_string cbrt (get_string v direct) = Ok (lattice g, map fst atoms, map snd atoms) /\
    grouped (combine (positions g) (numbers g)) atoms.
Proof. exact read_exactly. Qed.
Print Assumptions C107_read.

(** A cell made by the constructor without vacancies and with pairwise different sites comes back as the very same cell. *)
Theorem C107_cell : forall cbrt c direct v, from_constructor c -> Forall supported (numbers c) -> ~ In 0 (numbers c) ->
  (forall ks, Forall2 vwrap3 (positions c) ks -> NoDup ks) -> mfour (lattice c) -> Forall vfour (positions c) -> VaspOutput_new c 1 = Ok v ->
  vasp_get_cell cbrt (get_string v direct) = Ok c.
Proof. exact read_cell_exactly. Qed.
Print Assumptions C107_cell.

(** Writing what was read from a written file changes nothing any more: only the first pass rounds. *)
Theorem C107_second_pass : forall cbrt g direct v c, Forall supported (numbers g) -> length (positions g) = length (numbers g) ->
  (exists z, In z (numbers g) /\ z <> 0) -> VaspOutput_new g 1 = Ok v -> vasp_get_cell cbrt (get_string v direct) = Ok c ->
  (forall ks, Forall2 vwrap3 (positions c) ks -> NoDup ks) ->
  exists v', VaspOutput_new c 1 = Ok v' /\ forall direct', vasp_get_cell cbrt (get_string v' direct') = Ok c.
Proof. exact second_pass. Qed.
Print Assumptions C107_second_pass.

(** YAML documents keep vacancies and order as well. *)
Theorem C107_yaml : forall c, from_constructor c -> Forall supported (numbers c) -> mfour (lattice c) -> Forall vfour (positions c) ->
  exists d, yaml_doc c = Ok d /\ yaml_get_cell d = Ok c.
Proof. exact yaml_exactly. Qed.
Print Assumptions C107_yaml.

(** The same through files. *)
Theorem C107_files : forall dump load cbrt name fmt c fs, (forall d, load (dump d) = Ok d) -> name <> ""%string ->
  yaml_named name fmt \/ vasp_named name fmt ->
  from_constructor c -> Forall supported (numbers c) -> ~ In 0 (numbers c) ->
  (forall ks, Forall2 vwrap3 (positions c) ks -> NoDup ks) -> mfour (lattice c) -> Forall vfour (positions c) ->
  exists fs', write_file dump c (Some name) fmt fs = Ok (fs', ""%string) /\ from_file load cbrt (Some name) fmt fs' = Ok c.
Proof.
  intros dump load cbrt name fmt c fs LD NE NM FC S NV ND M P.
  assert (B : String.eqb name "" = false) by now apply String.eqb_neq.
  unfold write_file, from_file. destruct (C56_choice name fmt) as (CY & CV & CN).
  destruct (choose name fmt) as [[|]|] eqn:E.
  - destruct (C107_yaml c FC S M P) as (d & D & R). unfold render. rewrite D. cbn [bind]. rewrite B.
    eexists. split; [reflexivity|]. unfold put. rewrite String.eqb_refl. unfold read_text. rewrite LD. exact R.
  - destruct (C107_text c 1 true S (proj1 (proj2 (constructor_again FC)))) as (v & V & _).
    unfold render. rewrite V. cbn [bind]. rewrite B. eexists. split; [reflexivity|]. unfold put. rewrite String.eqb_refl.
    unfold read_text. exact (C107_cell cbrt c true v FC S NV ND M P V).
  - exfalso. destruct (proj1 CN eq_refl) as [A1 A2]. tauto.
Qed.
Print Assumptions C107_files.

(** A cell with the hypotheses. *)
Definition cx_lat : mat Qc := V3 (V3 (q 4 1) 0%Qc 0%Qc) (V3 (q (-3) 2) (q 25981 10000) 0%Qc) (V3 0%Qc (q 1 10000) (q 5 1)).
Definition cx_pos : list (vec Qc) := [V3 (q 3333 10000) (q 1 2) (q 3 4); V3 0%Qc 0%Qc 0%Qc; V3 (q 1 2) (q (-1) 4) (q 5 4)].
Definition cx (k : gcell -> Prop) : Prop := match GeneralCell_new cx_lat cx_pos [26; 5; 26] with Ok c => k c | Raise _ => False end.
Example C107_ex : cx (fun c => from_constructor c /\ Forall supported (numbers c) /\ ~ In 0 (numbers c) /\
  (forall ks, Forall2 vwrap3 (positions c) ks -> NoDup ks) /\ mfour (lattice c) /\ Forall vfour (positions c) /\ numbers c = [5; 26; 26]).
Proof.
  unfold cx. destruct (GeneralCell_new cx_lat cx_pos [26; 5; 26]) as [c|e] eqn:E; [|vm_compute in E; discriminate].
  assert (N : numbers c = [5; 26; 26]).
  { assert (K : match GeneralCell_new cx_lat cx_pos [26; 5; 26] with Ok c => numbers c | Raise _ => [] end = [5; 26; 26]) by (vm_compute; reflexivity).
    rewrite E in K. exact K. }
  destruct (@sort_atoms cx_lat cx_pos [26; 5; 26] c eq_refl E) as (HL & HP & _).
  assert (F : forall n d, (10000 mod Zpos d = 0) -> four (q n d)).
  { intros n d D. exists (n * (10000 / Zpos d)). unfold q. rewrite <- (LQ.Q2Qc_frac _ 10000). apply Qc_is_canon. rewrite !LQ.this_Q2Qc.
    pose proof (Z.div_mod 10000 (Zpos d) ltac:(discriminate)) as A. rewrite D in A. generalize dependent (10000 / Zpos d). intros k A. unfold Qeq. cbn [Qnum Qden]. rewrite A. ring. }
  assert (F0 : four 0%Qc) by (exists 0; unfold Qcdiv; now rewrite LQ.Zc_0, Qcmult_0_l).
  split; [exists cx_lat, cx_pos, [26; 5; 26]; split; [reflexivity|exact E]|].
  rewrite N. split; [repeat constructor; unfold supported; lia|]. split; [cbn; lia|].
  split; [|split; [|split; [|reflexivity]]].
  - intros ks K. apply LGeneralCell.Forall2_vwrap3 in K. subst ks.
    eapply Permutation_NoDup; [apply Permutation_map; exact HP|].
    assert (X : map (fun v => (this (vx v), this (vy v), this (vz v))) (map tofrac cx_pos) =
      [(333 # 1000, 1 # 2, 3 # 4); (0, 0, 0); (1 # 2, 3 # 4, 1 # 4)]%Q) by (vm_compute; reflexivity).
    apply (NoDup_map_inv (fun v => (this (vx v), this (vy v), this (vz v)))). rewrite X. repeat constructor; cbn; intuition discriminate.
  - rewrite HL. repeat split; cbn; (exact F0 || (apply F; reflexivity)).
  - apply Forall_forall. intros p I. apply (Permutation_in _ (Permutation_sym HP)) in I.
    cbn in I. destruct I as [<-|[<-|[<-|[]]]]; repeat split; cbn; (exact F0 || (apply F; reflexivity)).
Qed.
(** Its text. *)
Example C107_ex_text : cx (fun c => match VaspOutput_new c 1 with
  | Ok v => get_string v true = text_of_lines
      ["B1Fe2"; "1"; "  4.000000   0.000000   0.000000"; " -1.500000   2.598100   0.000000"; "  0.000000   0.000100   5.000000";
       "B Fe"; "1 2"; "direct"; "  0.000000   0.000000   0.000000 B"; "  0.333300   0.500000   0.750000 Fe"; "  0.500000  -0.250000   1.250000 Fe"]%string
  | Raise _ => False end).
Proof. vm_compute. reflexivity. Qed.
