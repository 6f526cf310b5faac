(** C40, skewed cells: the distance check is right for thresholds up to the distance of the lattice
    planes. *)
From Verif Require Import Base LBase BaseQ LQ SLattice MGeneralCell MRestrict SRestrict LRestrict SModCell SSpacing LSpacing PRestrict.

(** With positions in [0,1) and a threshold not above the spacing of the lattice planes the check
    decides whether all periodic images are farther apart than the threshold. *)
Theorem C40_plane_spacing : forall ele t c, positions c <> [] -> length (positions c) = length (numbers c) ->
  spaced t (lattice c) -> (forall p, In p (positions c) -> wrapped p) -> (exists i p, target_atom ele c i p) ->
  exists b, min_distance_satisfied ele t c = Ok b /\ (b = true <-> all_far (fun _ => True) ele t c).
Proof.
  intros ele t c NE L S W T. destruct (@min_distance_ok ele t c NE L T) as (b & E & K). exists b. split; [exact E|]. rewrite K. split.
  - now apply spaced_far.
  - intros F i j p q o P Q _ N. now apply (F i j).
Qed.
Print Assumptions C40_plane_spacing.

(** A monoclinic cell with an atom in the middle; the planes are at least 1 apart, an atom
    and its image along the third axis exactly 1. *)
Definition mono_lat : mat Qc := V3 (V3 (q 2 1) 0 0)%Qc (V3 (q 1 2) (q 2 1) 0)%Qc (V3 0 0 (q 1 1))%Qc.
Definition mono_pos : list (vec Qc) := [v0; V3 (q 1 2) (q 1 2) (q 1 2)]%Qc.
Definition mono : gcell := mkG mono_lat mono_pos [5; 5]%Z (mono_lat, mono_pos, [5; 5]%Z) 2.
Example C40_plane_spacing_ex : GeneralCell_new mono_lat mono_pos [5; 5]%Z = Ok mono /\ spaced (q 99 100) (lattice mono) /\
  (forall p, In p (positions mono) -> wrapped p) /\ ~ orthogonal (lattice mono) /\
  min_distance_satisfied (Some 5%Z) (q 99 100) mono = Ok true /\ spaced (q 1 1) (lattice mono) /\ min_distance_satisfied (Some 5%Z) (q 1 1) mono = Ok false.
Proof.
  assert (S : forall t, Qcleb (t * t * length2 (cross (vy mono_lat) (vz mono_lat))) (volume mono_lat * volume mono_lat) = true ->
    Qcleb (t * t * length2 (cross (vz mono_lat) (vx mono_lat))) (volume mono_lat * volume mono_lat) = true ->
    Qcleb (t * t * length2 (cross (vx mono_lat) (vy mono_lat))) (volume mono_lat * volume mono_lat) = true -> spaced t mono_lat).
  { intros t A B C. split; [|rewrite !Qcleb_le in *; auto]. intros E. apply (f_equal this) in E. vm_compute in E. discriminate E. }
  split; [vm_compute; reflexivity|]. split; [apply S; vm_compute; reflexivity|]. split.
  { intros p [<-|[<-|[]]]; repeat split; vm_compute; congruence. }
  split; [intros (E & _); apply (f_equal this) in E; vm_compute in E; discriminate E|]. split; [vm_compute; reflexivity|].
  split; [apply S; vm_compute; reflexivity|vm_compute; reflexivity].
Qed.
