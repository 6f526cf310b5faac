(** Reading back the files of pcell, atclear and perturb. *)
From Coq Require Import String Ascii Permutation.
From Verif Require Import Base BaseQ LBase SElement MElement LElement SSubst MGeneralCell SGeneralCell
  MText LText MIO SIO LIO LIO2 LIO3 LIO4 LIO6 LSuper LCrystal SCliRead SLattice SShape LShape SModCell SCli MCli SCliOne LCli LCli7 LCli8 LCli9.
Set Implicit Arguments.
Unset Strict Implicit.
Open Scope list_scope.
Open Scope nat_scope.
Notation length := List.length.

(** a POSCAR is read without the YAML library *)
Lemma delivered_read_vasp dump load cbrt said infile tag g fs r : ~ has_dot tag ->
  Forall supported (numbers g) -> length (positions g) = length (numbers g) -> some_atom (numbers g) ->
  delivered dump said infile tag (Some "vasp"%string) g fs r ->
  exists name g', result_name infile tag "vasp" name /\ from_file load cbrt (Some name) None (fst r) = Ok g' /\ kept_by Fvasp g g'.
Proof.
  intros T S L N D. assert (M : mode_format "vasp" Fvasp) by (right; split; reflexivity).
  destruct (@delivered_read dump (fun _ => yaml_doc g) cbrt said infile tag "vasp" Fvasp g fs r T M S L N (fun d H => H) D) as (name & g' & RN & F & K).
  exists name, g'. split; [exact RN|]. split; [|exact K]. rewrite <- F. apply result_name_iff in RN.
  pose proof (choose_out infile T M) as C. rewrite <- RN in C. unfold from_file. rewrite C. reflexivity.
Qed.
Lemma atoms_supported g (rest : list (vec Qc * Z)) : length (positions g) = length (numbers g) -> Permutation (atoms g) rest ->
  Forall supported (List.map snd rest) -> Forall supported (numbers g).
Proof.
  intros L P S. rewrite <- (map_snd_combine _ _ L). apply Forall_forall. intros z I. rewrite Forall_forall in S. apply S.
  exact (Permutation_in z (Permutation_map snd P) I).
Qed.
Lemma atoms_some g (rest : list (vec Qc * Z)) : length (positions g) = length (numbers g) -> Permutation (atoms g) rest ->
  some_atom (List.map snd rest) -> some_atom (numbers g).
Proof.
  intros L P (z & I & N). exists z. split; [|exact N]. rewrite <- (map_snd_combine _ _ L).
  exact (Permutation_in z (Permutation_sym (Permutation_map snd P)) I).
Qed.
Lemma without_in A (Q : A -> Prop) l r : without Q l r -> forall x, In x r -> In x l.
Proof. induction 1; intros y I; [exact I| |]; cbn in *; intuition. Qed.

Lemma refined_numbers std g : Forall supported (numbers g) -> length (positions g) = length (numbers g) -> some_atom (numbers g) ->
  standardized (cell_of g) (std (cell_of g)) ->
  exists g', get_refined_pcell std g = Ok g' /\ same_up_to_motion (cell_of g) (cell_of g') /\ smallest (cell_of g') /\
    length (positions g') = length (numbers g') /\ Forall supported (numbers g') /\ some_atom (numbers g').
Proof.
  intros S L N ST. destruct (@refined_spec std g ST) as (g' & E & MO & SM & LG). exists g'.
  pose proof (motion_numbers LG MO S) as SG. repeat (split; [assumption|]).
  destruct MO as (q & tt & OQ & M). eapply crystal_some_atom; [exact L| |exact N]. intros z v H. exists (vec_mat (vsub v tt) (flip q)).
  apply M. replace (vadd (vec_mat (vec_mat (vsub v tt) (flip q)) q) tt) with v; [exact H|]. rewrite vec_mat_mul, (proj2 OQ), vec_mat_one. apply vsub_back.
Qed.

Lemma pcell_read std dump load cbrt cell infile m f fs : Forall supported (numbers cell) -> length (positions cell) = length (numbers cell) -> some_atom (numbers cell) ->
  standardized (cell_of cell) (std (cell_of cell)) -> mode_format m f -> (forall d, load (dump d) = Ok d) ->
  exists g name fs' out g', cmd_pcell std dump cell infile (Some m) fs = Ok (fs', out) /\ same_up_to_motion (cell_of cell) (cell_of g) /\ smallest (cell_of g) /\
    result_name infile "_PRIMC" m name /\ from_file load cbrt (Some name) None fs' = Ok g' /\ kept_by f g g'.
Proof.
  intros S L N ST M LD. destruct (@refined_numbers std cell S L N ST) as (g & E & MO & SM & LG & SG & NG).
  assert (KM : known_mode (Some m)) by (exists f; exact M).
  destruct (@deliver_total dump (notice infile) infile "_PRIMC" (Some m) g fs tag_primc KM SG) as ([fs' out] & R).
  assert (D : delivered dump (notice infile) infile "_PRIMC" (Some m) g fs (fs', out)) by (apply deliver_spec; [exact tag_primc|exact KM|exact R]).
  destruct (@delivered_read dump load cbrt _ infile "_PRIMC" m f g fs _ tag_primc M SG LG NG (fun d _ => LD d) D) as (name & g' & RN & F & K).
  exists g, name, fs', out, g'. split; [|repeat (split; [assumption|]); exact K].
  apply (proj2 (@pcell_spec std dump cell infile (Some m) fs (fs', out) KM)). exists g. split; [exact E|exact D].
Qed.

Lemma perturb_read dump load cbrt cell infile r rnd us fs : positions cell <> [] -> length (positions cell) = length (numbers cell) ->
  Forall supported (numbers cell) -> some_atom (numbers cell) -> volume (lattice cell) <> 0%Qc ->
  without (fun d : vec Qc * Qc => snd d = 0%Qc) rnd us -> length (positions cell) <= length us ->
  exists new g name fs' out g', cmd_perturb dump cell infile r rnd fs = Some (Ok (fs', out)) /\
    shaken cell r us new /\ lattice g = lattice cell /\ Permutation (atoms g) new /\
    result_name infile "_PURB" "vasp" name /\ from_file load cbrt (Some name) None fs' = Ok g' /\ kept_by Fvasp g g'.
Proof.
  intros NE L S N V U LU. destruct (@perturb_cmd_spec dump cell infile r rnd us fs NE L S V U LU) as (new & g & SH & EL & LG & P & [fs' out] & X & D).
  assert (EN : Permutation (List.map snd new) (numbers cell)).
  { destruct SH as [LL K]. rewrite <- (map_snd_combine _ _ L). fold (atoms cell). replace (List.map snd new) with (List.map snd (atoms cell)); [reflexivity|].
    apply list_ext. intros k. rewrite !nth_error_map. destruct (nth_error (atoms cell) k) as [a|] eqn:A.
    - destruct (K k a A) as (a' & v & n & A' & _ & E & _). rewrite A'. cbn. now rewrite E.
    - apply nth_error_None in A. rewrite <- LL in A. apply nth_error_None in A. now rewrite A. }
  assert (SG : Forall supported (numbers g)).
  { apply (atoms_supported LG P). apply Forall_forall. intros z I. rewrite Forall_forall in S. apply S. exact (Permutation_in z EN I). }
  assert (NG : some_atom (numbers g)).
  { apply (atoms_some LG P). destruct N as (z & I & Z0). exists z. split; [exact (Permutation_in z (Permutation_sym EN) I)|exact Z0]. }
  destruct (@delivered_read_vasp dump load cbrt _ infile "_PURB" g fs _ tag_purb SG LG NG D) as (name & g' & RN & F & K).
  exists new, g, name, fs', out, g'. repeat (split; [assumption|]). exact K.
Qed.

Lemma atclear_read std dump load cbrt cell infile cenele r ele refined s1 s2 fuel fs :
  positions cell <> [] -> length (positions cell) = length (numbers cell) ->
  Forall supported (numbers cell) -> Specie_new cenele = Ok s1 -> Specie_new ele = Ok s2 -> length (positions cell) < fuel ->
  exists rest, cleared cell (sp_Z s1) r (sp_Z s2) rest /\
    (some_atom (List.map snd rest) ->
     (refined = true -> forall g, lattice g = lattice cell -> Permutation (atoms g) rest -> standardized (cell_of g) (std (cell_of g))) ->
     exists g g0 name fs' out g', cmd_atclear std dump fuel cell infile cenele r ele refined fs = Some (Ok (fs', out)) /\
       lattice g = lattice cell /\ Permutation (atoms g) rest /\
       (refined = true -> same_up_to_motion (cell_of g) (cell_of g0) /\ smallest (cell_of g0)) /\ (refined = false -> g0 = g) /\
       result_name infile "_ACLR" "vasp" name /\ from_file load cbrt (Some name) None fs' = Ok g' /\ kept_by Fvasp g0 g').
Proof.
  intros NE L S E1 E2 FU. destruct (@atclear_spec std dump cell infile cenele r ele refined s1 s2 fuel fs NE L S E1 E2 FU) as (rest & CL & _ & H).
  exists rest. split; [exact CL|]. intros N ST. assert (NR : rest <> []). { intros ->. destruct N as (z & [] & _). }
  destruct (H NR) as (g & EL & LG & P & o & EO & OK). clear H.
  assert (SG : Forall supported (numbers g)).
  { apply (atoms_supported LG P). apply Forall_forall. intros z I. apply in_map_iff in I as ([p z'] & <- & I).
    apply (without_in CL) in I. apply in_combine_r in I. rewrite Forall_forall in S. exact (S _ I). }
  pose proof (atoms_some LG P N) as NG.
  assert (W : exists g0, written_cell (get_refined_pcell std) refined g g0 /\ length (positions g0) = length (numbers g0) /\ Forall supported (numbers g0) /\ some_atom (numbers g0) /\
    (refined = true -> same_up_to_motion (cell_of g) (cell_of g0) /\ smallest (cell_of g0)) /\ (refined = false -> g0 = g)).
  { destruct refined.
    - destruct (@refined_numbers std g SG LG NG (ST eq_refl g EL P)) as (g0 & E & MO & SM & L0 & S0 & N0). exists g0.
      split; [exact E|]. repeat (split; [assumption|]). split; [auto|discriminate].
    - exists g. split; [reflexivity|]. repeat (split; [assumption|]). split; [discriminate|auto]. }
  destruct W as (g0 & W & L0 & S0 & N0 & R1 & R2).
  destruct (@deliver_total dump (notice infile) infile "_ACLR" (Some "vasp"%string) g0 fs tag_aclr mode_vasp S0) as ([fs' out] & R).
  assert (D : delivered dump (notice infile) infile "_ACLR" (Some "vasp"%string) g0 fs (fs', out)) by (apply deliver_spec; [exact tag_aclr|exact mode_vasp|exact R]).
  destruct (@delivered_read_vasp dump load cbrt _ infile "_ACLR" g0 fs _ tag_aclr S0 L0 N0 D) as (name & g' & RN & F & K).
  exists g, g0, name, fs', out, g'. split; [|repeat (split; [assumption|]); exact K].
  rewrite EO. f_equal. apply OK. exists g0. split; [exact W|exact D].
Qed.
