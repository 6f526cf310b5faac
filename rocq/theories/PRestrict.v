(** Properties C39-C41: restrictions. *)
From Coq Require Import String Ascii.
From Verif Require Import Base LBase BaseQ LQ MGeneralCell LGeneralCell MHnf SLattice MRestrict SRestrict LRestrict.
Open Scope Z_scope.

Theorem C39_exact : forall ele t c, positions c <> [] -> length (positions c) = length (numbers c) ->
  (exists i p, target_atom ele c i p) ->
  exists b, min_distance_satisfied ele t c = Ok b /\ (b = true <-> all_far near_offset ele t c).
Proof. exact min_distance_ok. Qed.
Print Assumptions C39_exact.

Theorem C39_no_target : forall ele t c, positions c <> [] -> length (positions c) = length (numbers c) ->
  ~ (exists i p, target_atom ele c i p) -> min_distance_satisfied ele t c = Raise ValueError.
Proof. exact min_distance_none. Qed.
Print Assumptions C39_no_target.

(** Two boron atoms half a cell apart in a 2 x 2 x 2 cube: distance 1, not more. *)
Definition q (a : Z) (b : positive) : Qc := Q2Qc (a # b).
Definition cube_lat : mat Qc := V3 (V3 (q 2 1) 0 0)%Qc (V3 0 (q 2 1) 0)%Qc (V3 0 0 (q 2 1))%Qc.
Definition cube_pos : list (vec Qc) := [v0; V3 (q 1 2) 0 0; V3 0 (q 1 2) 0]%Qc.
Definition cube : gcell := mkG cube_lat cube_pos [5; 5; 6] (cube_lat, cube_pos, [5; 5; 6]) 3.
Example C39_ex : min_distance_satisfied (Some 5) (q 99 100) cube = Ok true /\
  min_distance_satisfied (Some 5) (q 1 1) cube = Ok false /\
  min_distance_satisfied (Some 6) (q 1 1) cube = Ok true /\
  min_distance_satisfied (Some 7) (q 1 1) cube = Raise ValueError.
Proof. repeat split; vm_compute; reflexivity. Qed.

(** C40: with orthogonal lattice vectors and positions in [0,1) the guarantee holds for
    the infinite crystal ... *)
Theorem C40_orthogonal_cells : forall ele t c, positions c <> [] -> length (positions c) = length (numbers c) ->
  orthogonal (lattice c) -> (forall p, In p (positions c) -> wrapped p) ->
  min_distance_satisfied ele t c = Ok true -> all_far (fun _ => True) ele t c.
Proof.
  intros ele t c NE L O W H. apply orth_far; [assumption..|].
  destruct (@min_distance_ok ele t c NE L) as (b & E & K).
  { destruct (target_dec ele L) as [Y|N]; [exact Y|].
    rewrite min_distance_none in H by assumption. discriminate. }
  apply K. congruence.
Qed.
Print Assumptions C40_orthogonal_cells.

Example C40_orthogonal_ex : orthogonal (lattice cube) /\ (forall p, In p (positions cube) -> wrapped p) /\
  min_distance_satisfied (Some 5) (q 99 100) cube = Ok true.
Proof.
  split; [|split]; [repeat split; vm_compute; apply Qc_is_canon; reflexivity| |vm_compute; reflexivity].
  intros p [<-|[<-|[<-|[]]]]; repeat split; vm_compute; congruence.
Qed.

(** ... but not for skewed cells: one atom, rows (1,0,0), (2,1/10,0), (0,0,1); its image at
    offset (-2,1,0) is 1/10 away, yet "farther than 1/2" is reported; nor for unwrapped
    positions in a cubic cell. *)
Definition skew_lat : mat Qc := V3 (V3 1 0 0)%Qc (V3 (q 2 1) (q 1 10) 0)%Qc (V3 0 0 1)%Qc.
Definition skew : gcell := mkG skew_lat [v0] [5] (skew_lat, [v0], [5]) 1.
Definition unit_lat : mat Qc := V3 (V3 1 0 0)%Qc (V3 0 1 0)%Qc (V3 0 0 1)%Qc.
Definition far_pos : list (vec Qc) := [v0; V3 (q 31 10) 0 0]%Qc.
Definition unwrapped : gcell := mkG unit_lat far_pos [5; 5] (unit_lat, far_pos, [5; 5]) 2.

Theorem C40_skewed_refuted :
  GeneralCell_new skew_lat [v0] [5] = Ok skew /\
  min_distance_satisfied (Some 5) (q 1 2) skew = Ok true /\ ~ all_far (fun _ => True) (Some 5) (q 1 2) skew.
Proof.
  split; [vm_compute; reflexivity|]. split; [vm_compute; reflexivity|]. intros H.
  specialize (H 0%nat 0%nat v0 v0 (V3 (-2) 1 0)).
  assert (T : target_atom (Some 5) skew 0 v0) by (split; [reflexivity|exists 5; split; [reflexivity|now right]]).
  assert (N : V3 (-2) 1 0 <> V3 0 0 0) by (intros E; apply (f_equal (@vx Z)) in E; discriminate).
  specialize (H T T I (or_intror N)).
  unfold exceeds in H. rewrite <- !Qcltb_lt in H. destruct H as [H|H]; vm_compute in H; discriminate.
Qed.
Print Assumptions C40_skewed_refuted.

Theorem C40_unwrapped_refuted :
  GeneralCell_new unit_lat far_pos [5; 5] = Ok unwrapped /\ orthogonal (lattice unwrapped) /\
  min_distance_satisfied (Some 5) (q 1 2) unwrapped = Ok true /\ ~ all_far (fun _ => True) (Some 5) (q 1 2) unwrapped.
Proof.
  split; [vm_compute; reflexivity|].
  split; [repeat split; vm_compute; apply Qc_is_canon; reflexivity|]. split; [vm_compute; reflexivity|]. intros H.
  specialize (H 1%nat 0%nat (V3 (q 31 10) 0 0)%Qc v0 (V3 (-3) 0 0)).
  assert (T : target_atom (Some 5) unwrapped 0 v0) by (split; [reflexivity|exists 5; split; [reflexivity|now right]]).
  assert (T1 : target_atom (Some 5) unwrapped 1 (V3 (q 31 10) 0 0)%Qc) by (split; [reflexivity|exists 5; split; [reflexivity|now right]]).
  assert (N : V3 (-3) 0 0 <> V3 0 0 0) by (intros E; apply (f_equal (@vx Z)) in E; discriminate).
  specialize (H T1 T I (or_intror N)).
  unfold exceeds in H. rewrite <- !Qcltb_lt in H. destruct H as [H|H]; vm_compute in H; discriminate.
Qed.
Print Assumptions C40_unwrapped_refuted.

(** C41: a symbol without digits is read correctly; otherwise the first run of digits of
    the symbol decides. *)
Theorem C41_digit_free_symbol : forall symbol n l, no_digit symbol ->
  space_group_satisfied l (Some (spg_text symbol (dec n))) = Ok (memZ (Z.of_nat n) l).
Proof.
  intros symbol n l N. unfold spg_text. rewrite append_assoc.
  apply space_group_first; [apply no_digit_app; [assumption|]|]; cbn; repeat split; intuition discriminate.
Qed.
Print Assumptions C41_digit_free_symbol.

Theorem C41_first_digit_run : forall a k rest n l, no_digit a -> no_digit_first rest ->
  space_group_satisfied l (Some (spg_text (a ++ dec k ++ rest)%string (dec n))) = Ok (memZ (Z.of_nat k) l).
Proof.
  intros a k rest n l A R. unfold spg_text. rewrite <- !append_assoc.
  apply space_group_first; [assumption|].
  destruct rest; [|exact R]. cbn. intuition discriminate.
Qed.
Print Assumptions C41_first_digit_run.

Theorem C41_no_number : forall l, space_group_satisfied l None = Raise TypeError /\
  forall s, no_digit s -> space_group_satisfied l (Some s) = Raise IndexError.
Proof. intros l. split; [reflexivity|]. intros s. apply space_group_none. Qed.
Print Assumptions C41_no_number.

Theorem C41_refuted : exists symbol n l,
  In (Z.of_nat n) l /\ space_group_satisfied l (Some (spg_text symbol (dec n))) = Ok false.
Proof. exists "P4/mmm"%string, 123%nat, [123]. split; [now left|vm_compute; reflexivity]. Qed.
Print Assumptions C41_refuted.

Example C41_ex : space_group_satisfied [6; 8] (Some "Pm (6)"%string) = Ok true /\
  space_group_satisfied [6; 8] (Some "P4/mmm (123)"%string) = Ok false /\
  space_group_satisfied [4] (Some "P4/mmm (123)"%string) = Ok true /\
  spg_text "P4/mmm" (dec 123) = "P4/mmm (123)"%string.
Proof. repeat split. Qed.
