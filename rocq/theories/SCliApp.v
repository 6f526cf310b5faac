(** Statements about the runs of the command-line applications. *)
From Coq Require Import String Ascii.
From Verif Require Import Base BaseQ SElement MElement MGeneralCell MRestrict MSogen MIO SSubst SSym SOcc SCli MCli.
Set Implicit Arguments.
Unset Strict Implicit.
Open Scope list_scope.
Open Scope nat_scope.

Section App.
Context (psize : mat Qc * list (vec Qc) * list Z -> nat)
  (standardize : mat Qc * list (vec Qc) * list Z -> mat Qc * list (vec Qc) * list Z)
  (dump : ydoc -> string).
Notation refine := (get_refined_pcell standardize).

(** What a run leaves behind: [all] is what the generators deliver; up to an exception the
    wanted structures are written, in order. *)
Definition run_result (a : app) (tr : option (Z * Qc)) (dir : string) (suffix : nat -> string) (all : list gcell)
    (fs : files) (r : cli_out) : Prop :=
  exists done rest kept ws, all = done ++ rest /\ selected (wanted psize (a_mpr a) tr) done kept /\
    indexed (fun k => structure_file refine dump (a_refined a) (a_outmode a) dir (suffix k)) kept ws /\
    after_writes fs ws (o_files r) /\ (o_exn r = None -> rest = []).

(** Everything needed to write [c] is available. *)
Definition writable (refined : bool) (c : gcell) : Prop := exists c', written_cell refine refined c c' /\ Forall supported (numbers c').
(** Common hypotheses and conclusion about a set [D] of decorations. *)
Definition class_inputs (a : app) (tr : option (Z * Qc)) (o : occ) (D : list Z -> Prop) : Prop :=
  (a_outmode a = "vasp"%string \/ a_outmode a = "yaml"%string) /\
  (forall x, D x -> writable (a_refined a) (decorated (a_cell a) x)) /\
  (forall x z d, D x -> tr = Some (z, d) -> exists b, min_distance_satisfied (Some z) d (decorated (a_cell a) x) = Ok b) /\
  (forall x y, D x -> D y -> equivalent (sym_perm o) x y ->
     wanted psize (a_mpr a) tr (decorated (a_cell a) x) -> wanted psize (a_mpr a) tr (decorated (a_cell a) y)).
Definition class_result (a : app) (tr : option (Z * Qc)) (o : occ) (D : list Z -> Prop) dir suffix fs (r : cli_out) : Prop :=
  o_exn r = None /\ exists kept ws, Forall (same_frame (a_cell a)) kept /\
    transversal (equivalent (sym_perm o)) (fun x => D x /\ wanted psize (a_mpr a) tr (decorated (a_cell a) x)) (map numbers kept) /\
    indexed (fun k => structure_file refine dump (a_refined a) (a_outmode a) dir (suffix k)) kept ws /\
    after_writes fs ws (o_files r).

(** The substitutions of ocumaker: 1 .. L atoms replaced. *)
Definition maker_set (a : app) (x : list Z) : Prop :=
  exists k, k < Z.to_nat (a_n a - Z.of_nat (count_occ Z.eq_dec (numbers (a_cell a)) (a_speckle a))) /\
    k_fold (numbers (a_cell a)) (fun i => site_holds (numbers (a_cell a)) (a_ele a) i /\ site_not (numbers (a_cell a)) (a_speckle a) i) (S k) (a_speckle a) x.

(** What the loop over the compositions does. *)
Inductive comps_result (a : tapp) (tr : option (Z * Qc)) (gen : Z -> Z -> list gcell) :
    list (Z * Z) -> list (gcell * (Z * Z)) -> Prop :=
| cr_nil : comps_result a tr gen [] []
| cr_cons n1 n2 rest kept out : selected (wanted psize (t_mpr a) tr) (gen n1 n2) kept -> comps_result a tr gen rest out ->
    comps_result a tr gen ((n1, n2) :: rest) (map (fun c => (c, (n1, n2))) kept ++ out).

(** Hypotheses and conclusion about the ternary applications; [comps] are the numbers of
    atoms of the two species. *)
Definition ternary_inputs (a : tapp) (tr : option (Z * Qc)) (o : occ) (v1 v2 : Z) (comps : list (nat * nat)) : Prop :=
  forall n1 n2, In (n1, n2) comps ->
    let D := two_fold (numbers (t_cell a)) n1 v1 n2 v2 in
    (forall x, D x -> writable (t_refined a) (decorated (t_cell a) x)) /\
    (forall x z d, D x -> tr = Some (z, d) -> exists b, min_distance_satisfied (Some z) d (decorated (t_cell a) x) = Ok b) /\
    (forall x y, D x -> D y -> equivalent (sym_perm o) x y ->
       wanted psize (t_mpr a) tr (decorated (t_cell a) x) -> wanted psize (t_mpr a) tr (decorated (t_cell a) y)).
(** For each composition one file for each class of wanted decorations of all sites. *)
Definition ternary_result (N : nat) (a : tapp) (tr : option (Z * Qc)) (o : occ) (v1 v2 : Z) (comps : list (nat * nat)) dir fs (r : cli_out) : Prop :=
  o_exn r = None /\ exists (out : nat * nat -> list gcell) ws,
    (forall n1 n2, In (n1, n2) comps -> Forall (same_frame (t_cell a)) (out (n1, n2)) /\
      transversal (equivalent (sym_perm o)) (fun x => two_fold (numbers (t_cell a)) n1 v1 n2 v2 x /\ wanted psize (t_mpr a) tr (decorated (t_cell a) x))
        (map numbers (out (n1, n2)))) /\
    Forall2 (fun cn w => ternary_file refine dump (t_refined a) (t_outmode a) dir
                           (Z.of_nat (t_size a) - Z.of_nat (fst (snd cn)) - Z.of_nat (snd (snd cn)))%Z (Z.of_nat (fst (snd cn))) (Z.of_nat (snd (snd cn))) (fst cn) w)
      (List.flat_map (fun n => map (fun c => (c, n)) (out n)) comps) ws /\
    new_if_room N fs ws (o_files r).

End App.
