(** suplat from the unit cell to the files. *)
From Coq Require Import String Ascii Permutation.
From Verif Require Import Base BaseQ LBase SElement MElement SLattice SSubst SSym MGeneralCell SGeneralCell MHnf LHnf LSuper LSuper2 PHnf PSuper
  MIO SIO LIO6 SModCell SShape LShape SCli MCli LCli LCli2 SCliOne LCli7.
Set Implicit Arguments.
Unset Strict Implicit.
Open Scope list_scope.
Open Scope nat_scope.
Notation length := List.length.
Notation "a +++ b" := (String.append a b) (at level 60, right associativity).

Lemma nodup_incl il l : forall acc out, foldM (nodup_step il) acc l = Ok out -> incl out (acc ++ l).
Proof.
  induction l as [|x l IH]; intros acc out; cbn [foldM].
  - intros [= <-]. rewrite app_nil_r. apply incl_refl.
  - unfold nodup_step at 1. destruct (sl_in il x acc) as [[|]|e]; cbn [bind]; [| |discriminate]; intros E; apply IH in E; intros y Y; apply E in Y;
      rewrite !in_app_iff in *; cbn [In] in *; tauto.
Qed.
Definition made_of rots u v (c : slcell) : Prop := c = SuperLatticeCell_new rots u (sl_H c) /\ is_hnf v (sl_H c).
Lemma gen3_made sl il rots u v out : set_order sl -> (0 < v)%Z -> hnfs_from_n sl il rots u v = Ok out -> Forall (made_of rots u v) out.
Proof.
  intros SL V. destruct (hnf_mats_spec SL V) as (l & E & _ & H). unfold hnfs_from_n, hnfs_from_n_dups. rewrite E. cbn [bind]. intros F.
  apply nodup_incl in F. apply Forall_forall. intros c I. apply F in I. cbn [List.app] in I. apply in_map_iff in I as (h & <- & I). split; [reflexivity|]. cbn. now apply H.
Qed.
Lemma gen2_made sl il rots u v out : set_order sl -> (0 < v)%Z -> hnfs_from_n_2d sl il rots u v = Ok out -> Forall (made_of rots u v) out.
Proof.
  intros SL V. destruct (hnf2_mats_spec SL V) as (l & E & _ & H). unfold hnfs_from_n_2d, hnfs_from_n_dups_2d. rewrite E. cbn [bind]. intros F.
  apply nodup_incl in F. apply Forall_forall. intros c I. apply F in I. cbn [List.app] in I. apply in_map_iff in I as (h & <- & I). split; [reflexivity|]. cbn. now apply hnf2_hnf, H.
Qed.

Section Suplat.
Variables (std : cell3 -> cell3) (dump : ydoc -> string) (rots : list (mat Z)) (u : gcell) (v : Z).
Hypothesis NE : positions u <> [].
Hypothesis LU : length (positions u) = length (numbers u).
Hypothesis SU : Forall supported (numbers u).
Hypothesis V : (v < 100000)%Z.
Hypothesis ST : forall h c, is_hnf v h -> supercell u h = Ok c ->
  standardized (labelled (lattice c) (positions c) (length (positions c))) (std (labelled (lattice c) (positions c) (length (positions c)))).

Lemma same_numbers_supported c : length (numbers c) = length (positions c) ->
  (forall z x, crystal_atom (lattice c) (positions c) (numbers c) z x <-> crystal_atom (lattice u) (positions u) (numbers u) z x) -> Forall supported (numbers c).
Proof.
  intros L H. apply Forall_forall. intros z I. apply In_nth_error in I as (i & I).
  destruct (nth_error (positions c) i) as [p|] eqn:P; [|apply nth_error_None in P; assert (i < length (numbers c)) by (apply nth_error_Some; congruence); lia].
  pose proof (atom_here (lattice c) P I) as A. apply H in A. destruct A as (k & p' & s & _ & K & _). rewrite Forall_forall in SU. apply SU. eapply nth_error_In; eauto.
Qed.
Lemma made_shape s : made_of rots u v s -> exists c g, to_general_cell s = Ok c /\ get_shaped_cell std c = Ok g /\ Forall supported (numbers g) /\
  lattice c = mat_mul (matZ (sl_H s)) (lattice u) /\
  (forall z x, crystal_atom (lattice c) (positions c) (numbers c) z x <-> crystal_atom (lattice u) (positions u) (numbers u) z x) /\
  same_cell_up_to_motion (cell_of c) (cell_of g) /\ Permutation (numbers g) (numbers c) /\
  length (positions c) = length (numbers c) /\ length (positions g) = length (numbers g) /\
  Z.of_nat (length (positions g)) = (v * Z.of_nat (length (positions u)))%Z.
Proof.
  intros [E H]. destruct (@C37_superlattice_same_crystal rots u v (sl_H s) NE LU H V) as (c & C1 & C2 & C3 & C4 & _ & C6).
  rewrite <- E in C1. assert (C0 : supercell u (sl_H s) = Ok c). { rewrite E in C1. exact C1. }
  destruct (@shaped_spec std c (eq_sym C4) (@ST _ _ H C0)) as (g & G1 & G2 & G3 & G4).
  exists c, g. split; [exact C1|]. split; [exact G1|]. split.
  - pose proof (same_numbers_supported C4 C6) as S. rewrite Forall_forall in *. intros z I. apply S. exact (Permutation_in z G4 I).
  - repeat (split; [assumption|]). split; [now symmetry|]. split; [rewrite G3, (Permutation_length G4); now symmetry|]. rewrite G3. exact C3.
Qed.
Lemma suplat_whole a cwd suffix fs ds : Forall (made_of rots u v) (s_hnfs a) -> s_v a = v -> s_outmode a = "vasp"%string \/ s_outmode a = "yaml"%string ->
  let d := (cwd +++ "/SUPLAT_" +++ s_comment a) in
  let r := suplat_run std dump a cwd suffix fs ds in
  o_exn r = None /\ o_dirs r = mkdir ds d /\ exists fs0 ws, emptied (ds d) d fs fs0 /\ after_writes fs0 ws (o_files r) /\
    indexed (fun k => superlattice_file dump (s_outmode a) d v u (suffix k)) (map sl_H (s_hnfs a)) ws /\
    ((forall i j, i < j < length (s_hnfs a) -> suffix i <> suffix j) -> each_has_its_file fs0 ws (o_files r)).
Proof.
  intros F EV M. cbv zeta. rewrite Forall_forall in F.
  assert (X : o_exn (suplat_run std dump a cwd suffix fs ds) = None).
  { apply suplat_run_total; [exact M|]. intros c I. destruct (made_shape (F c I)) as (c1 & g & E1 & E2 & E3 & _). eauto. }
  split; [exact X|].
  destruct (suplat_run_spec std dump a cwd suffix fs ds) as (fs0 & done & rest & ws & E1 & E2 & E3 & E4 & E5 & E6).
  rewrite (E5 X), app_nil_r in E2. subst done. split; [exact E6|]. exists fs0, ws. split; [exact E1|]. split; [exact E4|]. split.
  - destruct E3 as [L N]. split; [rewrite map_length; exact L|]. intros k h w H W. rewrite nth_error_map in H.
    destruct (nth_error (s_hnfs a) k) as [s|] eqn:Es; [|discriminate]. injection H as <-.
    destruct (N k s w Es W) as (c0 & g0 & f & F1 & F2 & F3 & F4 & F5).
    destruct (made_shape (F s (nth_error_In _ _ Es))) as (c & g & K1 & K2 & _ & K3 & K4 & K5 & K6 & K7 & K8 & K9).
    rewrite K1 in F1. injection F1 as <-. rewrite K2 in F2. injection F2 as <-. exists c, g, f. rewrite EV in F3. auto 12.
  - intros D. apply (aw_each E4). apply (suplat_distinct E3). exact D.
Qed.
End Suplat.

(** ** supcell and pcell *)
Lemma supcell_spec dump cell infile a b c m fs : positions cell <> [] -> length (positions cell) = length (numbers cell) ->
  Forall supported (numbers cell) -> (0 < a)%Z -> (0 < b)%Z -> (0 < c)%Z -> (a * b * c < 100000)%Z -> known_mode m ->
  exists g r, cmd_supcell dump cell infile (V3 a b c) m fs = Ok r /\ delivered dump (notice infile) infile "_SUPC" m g fs r /\
    lattice g = V3 (vscale (Zc a) (vx (lattice cell))) (vscale (Zc b) (vy (lattice cell))) (vscale (Zc c) (vz (lattice cell))) /\
    length (positions g) = length (numbers g) /\
    Z.of_nat (length (positions g)) = (a * b * c * Z.of_nat (length (positions cell)))%Z /\
    forall z v, crystal_atom (lattice g) (positions g) (numbers g) z v <-> crystal_atom (lattice cell) (positions cell) (numbers cell) z v.
Proof.
  intros NE L S A B C V M. set (H := (V3 (V3 a 0 0) (V3 0 b 0) (V3 0 0 c))%Z : mat Z).
  assert (D : zdet H = (a * b * c)%Z) by (unfold H, zdet; cbn [vx vy vz]; ring).
  assert (P : (0 < a * b * c)%Z) by (apply Z.mul_pos_pos; [apply Z.mul_pos_pos|]; assumption).
  destruct (@C37_supercell_same_crystal cell H NE L) as (g & E & EL & EN & EM & _ & EC).
  { unfold H, nonneg_mat. cbn [vx vy vz]. lia. } { left. unfold H, upper. cbn [vx vy vz]. auto. } { lia. }
  assert (SG : Forall supported (numbers g)) by exact (@same_numbers_supported cell L S g EM EC).
  destruct (@deliver_total dump (notice infile) infile "_SUPC" m g fs tag_supc M SG) as (r & R).
  exists g, r. split; [unfold cmd_supcell; cbn [vx vy vz]; fold H; rewrite E; exact R|].
  split; [apply deliver_spec; [exact tag_supc|exact M|exact R]|]. split; [|split; [auto|split; [rewrite D in EN; exact EN|exact EC]]].
  rewrite EL. unfold H, matZ, mat_mul, vmap, vec_mat. cbn [vx vy vz]. destruct (lattice cell) as [[x1 y1 z1] [x2 y2 z2] [x3 y3 z3]].
  unfold vadd, vscale. cbn [vx vy vz]. assert (Z0 : Zc 0 = 0%Qc) by reflexivity. rewrite Z0. f_equal; f_equal; ring.
Qed.
Lemma pcell_spec std dump cell infile m fs r : known_mode m ->
  cmd_pcell std dump cell infile m fs = Ok r <-> exists g, get_refined_pcell std cell = Ok g /\ delivered dump (match m with None => ""%string | Some _ => notice infile end) infile "_PRIMC" m g fs r.
Proof.
  intros M. unfold cmd_pcell. rewrite bind_ok. split; intros (g & E & D); exists g; (split; [exact E|]); apply (@deliver_spec dump (match m with None => ""%string | Some _ => notice infile end) infile "_PRIMC" m g fs r tag_primc M); exact D.
Qed.
Lemma motion_numbers c g : length (positions g) = length (numbers g) -> same_up_to_motion (cell_of c) (cell_of g) -> Forall supported (numbers c) -> Forall supported (numbers g).
Proof.
  intros L (q & t & _ & M) S. apply Forall_forall. intros z I. apply In_nth_error in I as (i & I).
  destruct (nth_error (positions g) i) as [p|] eqn:P; [|apply nth_error_None in P; assert (i < length (numbers g)) by (apply nth_error_Some; congruence); lia].
  pose proof (atom_here (lattice g) P I) as A. apply (M z) in A. destruct A as (k & p' & s & _ & K & _). rewrite Forall_forall in S. apply S. eapply nth_error_In; eauto.
Qed.
Lemma pcell_total std dump cell infile m fs : known_mode m -> Forall supported (numbers cell) ->
  standardized (cell_of cell) (std (cell_of cell)) ->
  exists g r, cmd_pcell std dump cell infile m fs = Ok r /\ delivered dump (match m with None => ""%string | Some _ => notice infile end) infile "_PRIMC" m g fs r /\
    same_up_to_motion (cell_of cell) (cell_of g) /\ smallest (cell_of g).
Proof.
  intros M S ST. destruct (@refined_spec std cell ST) as (g & E & MO & SM & L).
  destruct (@deliver_total dump (match m with None => ""%string | Some _ => notice infile end) infile "_PRIMC" m g fs tag_primc M (motion_numbers L MO S)) as (r & R). exists g, r.
  assert (D : delivered dump (match m with None => ""%string | Some _ => notice infile end) infile "_PRIMC" m g fs r) by (apply deliver_spec; [exact tag_primc|exact M|exact R]).
  split; [apply pcell_spec; eauto|auto].
Qed.
