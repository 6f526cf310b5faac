(** Property C114: as many files as different suffixes, so structures are lost as soon as a
    suffix is drawn twice. *)
From Coq Require Import String.
From Verif Require Import Base LBase BaseQ MElement SElement SGeneralCell MGeneralCell MComb SLattice SSubst SSym SOcc SEnum MSogen SBurn LDup LFilter LBurn LMisc LSymDec LSogen PSogen SCount PCount PBurn
  MHnf LHnf PHnf SModCell SShape LShape2 MIO SIO SCli MCli LCli LCli3 SCliApp SCliOne LCli4 LCli7 LCli8 PCli PCli2 SFileCount LFileCount SFileCount2 LFileCount2 PFileCount.
Open Scope list_scope.
Open Scope nat_scope.
Notation length := List.length.

(** ocubiter without refinement: all structures have one formula, so the number of files is
    the number of different suffixes among as many draws as there are classes. *)
Theorem C114_ocubiter : forall ops wy psize std h dump a n cwd rd suffix fs ds o tr,
  let D := k_fold (numbers (a_cell a)) (site_holds (numbers (a_cell a)) (a_ele a)) n (a_speckle a) in
  let dir := (cwd ++ "/STRUCTURES_" ++ a_comment a ++ "_" ++ rd)%string in
  a_refined a = false -> a_ele a <> a_speckle a -> ds dir = false -> nothing_below dir fs ->
  OccupyGenerator_new (ops (a_cell a)) (wy (a_cell a)) (a_cell a) = Ok o -> restriction_of (a_tr a) = Ok tr -> a_n a = Z.of_nat n ->
  from_constructor (a_cell a) -> perm_group (length (numbers (a_cell a))) (sym_perm o) -> preserves (sym_perm o) (numbers (a_cell a)) ->
  collision_free h D -> class_inputs psize std a tr o D ->
  exists k j, burnside_count (sym_perm o) (fun x => D x /\ wanted psize (a_mpr a) tr (decorated (a_cell a) x)) k /\
    different_draws suffix k j /\ files_below dir (o_files (biter_run ops wy psize std h dump a cwd rd suffix fs ds)) j.
Proof.
  intros ops wy psize std h dump a n cwd rd suffix fs ds o tr D dir UR NE DS NB MO RT EN FC PG PR CF CI.
  apply (@biter_draws psize std dump a tr o n dir suffix fs _ UR NE PG); auto.
  - intros x y Hx E. apply (@kfold_closed _ _ _ _ _ _ x y PG eq_refl PR (inv_holds (a_ele a) PR) (fun i Hi => holds_lt Hi) Hx E).
  - exact (@C65_ocubiter_classes ops wy psize std h dump a n cwd rd suffix fs ds o tr DS MO RT EN FC PG PR CF CI).
Qed.
Print Assumptions C114_ocubiter.

(** The same for suplat, in space and in the plane. *)
Theorem C114_suplat : forall std psize dump sl il rots u com v mode cwd suffix fs ds,
  set_order sl -> rot_group rots -> positions u <> [] -> length (positions u) = length (numbers u) -> Forall supported (numbers u) ->
  (0 < v < 2000)%Z -> mode = "vasp"%string \/ mode = "yaml"%string ->
  psize (spg_cell u) = length (snd (spg_cell u)) ->
  standardizes std -> SModCell.volume (lattice u) <> 0%Qc -> SShape.distinct_sites (lattice u) (positions u) ->
  exists a k, suplat_new psize (hnfs_from_n sl il rots) u com v mode = Ok a /\ lattice_count rots (is_hnf v) k /\
    let d := (cwd ++ "/SUPLAT_" ++ s_comment a)%string in
    ((ds d = false -> nothing_below d fs) -> exists j, different_draws suffix k j /\ files_below d (o_files (suplat_run std dump a cwd suffix fs ds)) j).
Proof.
  intros std psize dump sl il rots u com v mode cwd suffix fs ds SL RG NE LU SU V M PS ST0 VU DU.
  destruct (C89_classes sl il rots u v SL RG V) as (out & E & LC).
  unfold suplat_new, is_primitive. rewrite PS, Nat.eqb_refl, E. cbn [bind]. eexists. exists (length out). split; [reflexivity|]. split; [exact LC|]. cbv zeta.
  set (a := mkSapp out _ v mode). intros NB.
  assert (V' : (v < 100000)%Z) by lia. pose proof (@all_shaped std u v NE LU VU DU V' ST0) as ST. assert (V0 : (0 < v)%Z) by lia.
  destruct (@suplat_whole std dump rots u v NE LU SU V' ST a cwd suffix fs ds (@gen3_made sl il rots u v out SL V0 E) eq_refl M)
    as (X & D & fs0 & ws & K1 & K2 & K3 & K4).
  replace (length out) with (length (map sl_H (s_hnfs a))) by apply map_length. exact (suplat_draws K1 K3 NB K2).
Qed.
Print Assumptions C114_suplat.

Theorem C114_suplat_2d : forall std psize dump sl il rots u com v mode cwd suffix fs ds,
  set_order sl -> rot_group rots -> Forall plane_rot rots -> positions u <> [] -> length (positions u) = length (numbers u) -> Forall supported (numbers u) ->
  (0 < v < 2000)%Z -> mode = "vasp"%string \/ mode = "yaml"%string ->
  psize (spg_cell u) = length (snd (spg_cell u)) ->
  standardizes std -> SModCell.volume (lattice u) <> 0%Qc -> SShape.distinct_sites (lattice u) (positions u) ->
  exists a k, suplat_new psize (hnfs_from_n_2d sl il rots) u com v mode = Ok a /\ lattice_count rots (is_hnf2 v) k /\
    let d := (cwd ++ "/SUPLAT_" ++ s_comment a)%string in
    ((ds d = false -> nothing_below d fs) -> exists j, different_draws suffix k j /\ files_below d (o_files (suplat_run std dump a cwd suffix fs ds)) j).
Proof.
  intros std psize dump sl il rots u com v mode cwd suffix fs ds SL RG PL NE LU SU V M PS ST0 VU DU.
  destruct (C89_classes_plane sl il rots u v SL RG PL V) as (out & E & LC).
  unfold suplat_new, is_primitive. rewrite PS, Nat.eqb_refl, E. cbn [bind]. eexists. exists (length out). split; [reflexivity|]. split; [exact LC|]. cbv zeta.
  set (a := mkSapp out _ v mode). intros NB.
  assert (V' : (v < 100000)%Z) by lia. pose proof (@all_shaped std u v NE LU VU DU V' ST0) as ST. assert (V0 : (0 < v)%Z) by lia.
  destruct (@suplat_whole std dump rots u v NE LU SU V' ST a cwd suffix fs ds (@gen2_made sl il rots u v out SL V0 E) eq_refl M)
    as (X & D & fs0 & ws & K1 & K2 & K3 & K4).
  replace (length out) with (length (map sl_H (s_hnfs a))) by apply map_length. exact (suplat_draws K1 K3 NB K2).
Qed.
Print Assumptions C114_suplat_2d.

(** Never more different draws than draws, as many exactly if no two agree, and at most 36^m
    with [m] characters: with four characters at most 1679616 files. *)
Theorem C114_draws : forall suffix k j, different_draws suffix k j ->
  j <= k /\ (j = k <-> draws_differ suffix k) /\ forall m, (forall i, suffix_word m (suffix i)) -> (Z.of_nat j <= 36 ^ Z.of_nat m)%Z.
Proof. intros suffix k j H. split; [exact (draws_le H)|]. split; [exact (draws_all H)|]. intros m W. exact (draws_few W H). Qed.
Print Assumptions C114_draws.

(** Two draws that agree: three classes, two files. *)
Definition y_suffix (k : nat) : string := match k with 0 => "AAAA" | 1 => "AAAB" | _ => "AAAA" end.
Lemma y_draws : different_draws y_suffix 3 2.
Proof.
  exists ["AAAA"; "AAAB"]%string. split; [|reflexivity]. split; [repeat constructor; cbn; intuition discriminate|].
  intros s. split.
  - intros [<-|[<-|[]]]; [exists 0|exists 1]; split; auto.
  - intros (i & L & ->). destruct i as [|[|[|i]]]; cbn; auto; lia.
Qed.
Example C114_ex :
  (forall i, suffix_word 4 (y_suffix i)) /\
  files_below "/w/STRUCTURES_B4_ABCDE" (o_files (biter_run x_ops x_wy x_psize x_std poly x_dump x_app "/w" "ABCDE" y_suffix (fun _ => None) (fun _ => false))) 2.
Proof.
  split.
  { intros [|[|i]]; (split; [reflexivity|]); cbn; intuition (subst; auto 40). }
  destruct C65_ex as (o & MO & FC & PG & PR & CF & CI & L3).
  destruct (@C114_ocubiter x_ops x_wy x_psize x_std poly x_dump x_app 2 "/w" "ABCDE" y_suffix (fun _ => None) (fun _ => false) o None) as (k & j & B & DJ & H); auto.
  { discriminate. }
  { intros p _. reflexivity. }
  assert (NG : sym_perm o <> []) by (intros Z; destruct PG as (_ & I & _); rewrite Z in I; destruct I).
  pose proof (C113_burnside_unique _ _ _ _ NG B (x_three o MO FC PG PR CF L3)) as K. subst k.
  destruct DJ as (S & O & <-). destruct y_draws as (S' & O' & E). rewrite <- E, (lists_once_length O' O). exact H.
Qed.
