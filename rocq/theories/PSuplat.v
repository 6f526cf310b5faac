(** Property C110: exact supercells, and the files that suplat leaves behind. *)
From Coq Require Import String Ascii Sorted Permutation.
From Verif Require Import Base LBase BaseQ LQ SElement MElement SLattice SSubst SSym MGeneralCell SGeneralCell MHnf PHnf PSuper
  SOcc MIO SIO SModCell SShape LShape SCli MCli LCli SCliOne LCli7 LCli8 LHnf LCrystal LShape2 PShape PCli PCli2 SOrder SOrder2 LOrder7 LOrder8 LOrder9 SExact SListing LListing SSuplat LSuplat.
Open Scope list_scope.
Open Scope nat_scope.
Notation length := List.length.

(** The supercell: one image of every atom per lattice point in the half-open supercell. *)
Theorem C110_supercell : forall u H, positions u <> [] -> length (positions u) = length (numbers u) ->
  nonneg_mat H -> upper H \/ lower H -> (0 < zdet H < 100000)%Z ->
  exists c, supercell u H = Ok c /\ exact_supercell u H c.
Proof. intros u H NE L NN T B. pose proof (tri_det T) as D. unfold supercell. apply build_exact; auto; lia. Qed.
Print Assumptions C110_supercell.

(** There is no other cell of this description, if no two of its sites agree after the
    rounding to three decimals by which the constructor sorts. *)
Theorem C110_supercell_unique : forall u H c c', zdet H <> 0%Z -> SSym.distinct_sites (positions c) ->
  exact_supercell u H c -> exact_supercell u H c' -> c = c'.
Proof. intros u H c c'. exact (@supercell_unique u H c c'). Qed.
Print Assumptions C110_supercell_unique.

(** suplat: the first matrix of every class, in the order tried, the k-th under the k-th
    suffix, with its exact text; the directory was emptied before, nothing else changes. *)
Theorem C110_suplat : forall std psize dump sl il rots u com v mode cwd suffix fs ds,
  set_order sl -> rot_group rots -> positions u <> [] -> length (positions u) = length (numbers u) -> Forall supported (numbers u) ->
  (0 < v < 2000)%Z -> mode = "vasp"%string \/ mode = "yaml"%string ->
  psize (spg_cell u) = length (snd (spg_cell u)) ->
  standardizes std -> volume (lattice u) <> 0%Qc -> SShape.distinct_sites (lattice u) (positions u) ->
  exists a, suplat_new psize (hnfs_from_n sl il rots) u com v mode = Ok a /\
    let d := (cwd ++ "/SUPLAT_" ++ s_comment a)%string in
    let r := suplat_run std dump a cwd suffix fs ds in
    o_exn r = None /\
    exists all hs fs0 ws, NoDup all /\ (forall m, In m all <-> is_hnf v m) /\ sorted_blocks all /\ firsts (lat_equiv rots) [] all hs /\
      emptied (ds d) d fs fs0 /\ after_writes fs0 ws (o_files r) /\
      indexed (fun k => exact_suplat std dump mode d v u (suffix k)) hs ws.
Proof.
  intros std psize dump sl il rots u com v mode cwd suffix fs ds SL RG NE LU SU V M PS ST0 VU DU.
  assert (V0 : (0 < v)%Z) by lia. destruct (hnf_mats_spec SL V0) as (l & EL & ND & HL).
  destruct (@firsts_mats rots u il v l RG V) as (out & O & F); [intros h Hh; apply HL in Hh; exact (hnf_det Hh)|].
  assert (E : hnfs_from_n sl il rots u v = Ok out) by (unfold hnfs_from_n, hnfs_from_n_dups; rewrite EL; exact O).
  unfold suplat_new, is_primitive. rewrite PS, Nat.eqb_refl, E. cbn [bind]. eexists. split; [reflexivity|]. cbv zeta.
  set (a := mkSapp out _ v mode).
  assert (V' : (v < 100000)%Z) by lia. pose proof (@all_shaped std u v NE LU VU DU V' ST0) as ST.
  destruct (@suplat_exact std dump rots u v NE LU SU V' ST a cwd suffix fs ds (@gen3_made sl il rots u v out SL V0 E) eq_refl M) as (X & fs0 & ws & K1 & K2 & K3).
  split; [exact X|]. exists l, (map sl_H out), fs0, ws. split; [exact ND|]. split; [exact HL|]. split; [exact (hnf_sorted SL V0 EL)|]. auto.
Qed.
Print Assumptions C110_suplat.

Theorem C110_suplat_2d : forall std psize dump sl il rots u com v mode cwd suffix fs ds,
  set_order sl -> rot_group rots -> positions u <> [] -> length (positions u) = length (numbers u) -> Forall supported (numbers u) ->
  (0 < v < 2000)%Z -> mode = "vasp"%string \/ mode = "yaml"%string ->
  psize (spg_cell u) = length (snd (spg_cell u)) ->
  standardizes std -> volume (lattice u) <> 0%Qc -> SShape.distinct_sites (lattice u) (positions u) ->
  exists a, suplat_new psize (hnfs_from_n_2d sl il rots) u com v mode = Ok a /\
    let d := (cwd ++ "/SUPLAT_" ++ s_comment a)%string in
    let r := suplat_run std dump a cwd suffix fs ds in
    o_exn r = None /\
    exists all hs fs0 ws, NoDup all /\ (forall m, In m all <-> is_hnf2 v m) /\ sorted_blocks all /\ firsts (lat_equiv rots) [] all hs /\
      emptied (ds d) d fs fs0 /\ after_writes fs0 ws (o_files r) /\
      indexed (fun k => exact_suplat std dump mode d v u (suffix k)) hs ws.
Proof.
  intros std psize dump sl il rots u com v mode cwd suffix fs ds SL RG NE LU SU V M PS ST0 VU DU.
  assert (V0 : (0 < v)%Z) by lia. destruct (hnf2_mats_spec SL V0) as (l & EL & ND & HL).
  destruct (@firsts_mats rots u il v l RG V) as (out & O & F); [intros h Hh; apply HL in Hh; exact (hnf_det (hnf2_hnf Hh))|].
  assert (E : hnfs_from_n_2d sl il rots u v = Ok out) by (unfold hnfs_from_n_2d, hnfs_from_n_dups_2d; rewrite EL; exact O).
  unfold suplat_new, is_primitive. rewrite PS, Nat.eqb_refl, E. cbn [bind]. eexists. split; [reflexivity|]. cbv zeta.
  set (a := mkSapp out _ v mode).
  assert (V' : (v < 100000)%Z) by lia. pose proof (@all_shaped std u v NE LU VU DU V' ST0) as ST.
  destruct (@suplat_exact std dump rots u v NE LU SU V' ST a cwd suffix fs ds (@gen2_made sl il rots u v out SL V0 E) eq_refl M) as (X & fs0 & ws & K1 & K2 & K3).
  split; [exact X|]. exists l, (map sl_H out), fs0, ws. split; [exact ND|]. split; [exact HL|]. split; [exact (hnf2_sorted SL V0 EL)|]. auto.
Qed.
Print Assumptions C110_suplat_2d.

(** Given the order in which the matrices are tried, no freedom is left: the listed matrices
    and the contents of every path are determined. *)
Theorem C110_determined : forall std dump mode d v u (suffix : nat -> string) rots all hs hs' b fs fs0 fs0' ws ws' f f',
  firsts (lat_equiv rots) [] all hs -> firsts (lat_equiv rots) [] all hs' ->
  (forall h, In h all -> zdet h <> 0%Z /\ forall c, exact_supercell u h c -> SSym.distinct_sites (positions c)) ->
  indexed (fun k => exact_suplat std dump mode d v u (suffix k)) hs ws -> indexed (fun k => exact_suplat std dump mode d v u (suffix k)) hs' ws' ->
  emptied b d fs fs0 -> emptied b d fs fs0' -> after_writes fs0 ws f -> after_writes fs0' ws' f' ->
  hs = hs' /\ ws = ws' /\ forall p, f p = f' p.
Proof.
  intros std dump mode d v u suffix rots all hs hs' b fs fs0 fs0' ws ws' f f' F F' D I I' E E' W W'.
  exact (suplat_determined F F' D I I' E E' W W').
Qed.
Print Assumptions C110_determined.

(** A sheared doubling of a two-atom cell: four atoms, at the two lattice points inside. *)
Definition t_unit : gcell := mkG (V3 (V3 1 0 0) (V3 0 1 0) (V3 0 0 1))%Qc [v0; V3 0 half 0]%Qc [5; 7]%Z ((V3 (V3 1 0 0) (V3 0 1 0) (V3 0 0 1))%Qc, [], []) 2.
Definition t_mat := (V3 (V3 1 0 1) (V3 0 1 0) (V3 0 0 2))%Z.
Example C110_supercell_ex : nonneg_mat t_mat /\ upper t_mat /\ (0 < zdet t_mat < 100000)%Z /\
  exists c, supercell t_unit t_mat = Ok c /\ numbers c = [5; 5; 7; 7]%Z /\
    positions c = [v0; V3 0 0 half; V3 0 half 0; V3 0 half half]%Qc.
Proof.
  split; [vm_compute; repeat split; discriminate|]. split; [vm_compute; repeat split|]. split; [vm_compute; split; reflexivity|].
  eexists. split; [vm_compute; reflexivity|]. split; vm_compute; reflexivity.
Qed.
Example C110_suplat_ex : set_order first_order /\ rot_group c4 /\ Forall supported (numbers unit1) /\ x_psize (spg_cell unit1) = length (snd (spg_cell unit1)) /\
  standardizes t_std /\ volume (lattice unit1) <> 0%Qc /\ SShape.distinct_sites (lattice unit1) (positions unit1) /\
  exists a, suplat_new x_psize (hnfs_from_n first_order true c4) unit1 (Some "x"%string) 2 "vasp" = Ok a /\ length (s_hnfs a) = 5.
Proof.
  destruct C75_ex as (A & B & C & D & E & F & G & _). do 7 (split; [assumption|]). eexists. split; [vm_compute; reflexivity|]. reflexivity.
Qed.
