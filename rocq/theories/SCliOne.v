(** Statements about suplat and the commands that turn one file into one file. *)
From Coq Require Import String Ascii.
From Verif Require Import Base BaseQ SLattice MGeneralCell MHnf MIO SModCell SShape SCli MCli.
Open Scope list_scope.

(** The file written for one superlattice: dir/SUPLAT_<volume>_<suffix>.<mode>. *)
Definition suplat_file (shape : gcell -> res gcell) (dump : ydoc -> string) (mode dir : string) (v : Z) (suffix : string)
    (c : slcell) (pt : string * string) : Prop :=
  exists g g' f, to_general_cell c = Ok g /\ shape g = Ok g' /\
    fst pt = (dir ++ "/SUPLAT_" ++ str_int v ++ "_" ++ suffix ++ "." ++ mode)%string /\
    choose (fst pt) None = Some f /\ render dump f g' = Ok (snd pt).
(** Paths below a directory; [fs0] is [fs] after emptying the directory, if it exists. *)
Definition below (dir p : string) : Prop := exists x, p = (dir ++ "/" ++ x)%string.
Definition emptied (exists_dir : bool) (dir : string) (fs fs0 : files) : Prop :=
  forall p, (exists_dir = true /\ below dir p -> fs0 p = None) /\ (~ (exists_dir = true /\ below dir p) -> fs0 p = fs p).

(** Name of the result: the input's name without directories and from the first dot on,
    then the tag and the mode. *)
Definition result_name (infile tag mode name : string) : Prop :=
  exists b st, last_component infile b /\ stem b st /\ name = (st ++ tag ++ "." ++ mode)%string.
Definition mode_format (mode : string) (f : format) : Prop :=
  (mode = "yaml"%string /\ f = Fyaml) \/ (mode = "vasp"%string /\ f = Fvasp).
Definition known_mode (m : option string) : Prop := match m with None => True | Some x => exists f, mode_format x f end.
(** What the user gets for the cell [c]: a file in the chosen format, or a POSCAR on the
    terminal and no file; [said] is printed before. *)
Definition delivered (dump : ydoc -> string) (said infile tag : string) (outmode : option string) (c : gcell) (fs : files) (r : files * string) : Prop :=
  match outmode with
  | Some m => exists name f t, result_name infile tag m name /\ mode_format m f /\ render dump f c = Ok t /\ r = (put fs name t, said)
  | None => exists t, render dump Fvasp c = Ok t /\ r = (fs, said ++ t ++ String "010" EmptyString)%string
  end.
(** The line that announces the file being worked on. *)
Definition notice (infile : string) : string := ("PROCESSING: " ++ infile ++ String "010" EmptyString)%string.

(** Atoms as pairs of position and number. *)
Definition atoms (g : gcell) : list (vec Qc * Z) := combine (positions g) (numbers g).
(** [rest]: the atoms of [g] except those of species [ze] within [r] of an image of an atom
    of species [zc]. *)
Definition cleared (g : gcell) (zc : Z) (r : Qc) (ze : Z) (rest : list (vec Qc * Z)) : Prop :=
  without (fun a => snd a = ze /\ exists b, In b (atoms g) /\ snd b = zc /\ near_image (lattice g) (fst a) (fst b) r) (atoms g) rest.
(** [new]: the atoms of [g], the k-th one moved by the k-th vector of [us] (each given with
    its norm) after scaling that vector to length [r]. *)
Definition shaken (g : gcell) (r : Qc) (us : list (vec Qc * Qc)) (new : list (vec Qc * Z)) : Prop :=
  List.length new = List.length (atoms g) /\
  forall k a, nth_error (atoms g) k = Some a -> exists a' v n, nth_error new k = Some a' /\ nth_error us k = Some (v, n) /\
    snd a' = snd a /\ vec_mat (fst a') (lattice g) = vadd (vec_mat (fst a) (lattice g)) (rescaled r n v) /\
    (n * n = length2 v -> length2 (rescaled r n v) = r * r)%Qc.

(** The file for the superlattice with matrix [h]: the cell with that lattice and the same
    crystal as [u], rotated by spglib at most, with all its atoms. *)
Definition superlattice_file (dump : ydoc -> string) (mode dir : string) (v : Z) (u : gcell) (suffix : string)
    (h : mat Z) (pt : string * string) : Prop :=
  exists c g f, lattice c = mat_mul (matZ h) (lattice u) /\
    (forall z x, crystal_atom (lattice c) (positions c) (numbers c) z x <-> crystal_atom (lattice u) (positions u) (numbers u) z x) /\
    same_cell_up_to_motion (cell_of c) (cell_of g) /\ Permutation (numbers g) (numbers c) /\
    List.length (positions c) = List.length (numbers c) /\ List.length (positions g) = List.length (numbers g) /\
    Z.of_nat (List.length (positions g)) = (v * Z.of_nat (List.length (positions u)))%Z /\
    fst pt = (dir ++ "/SUPLAT_" ++ str_int v ++ "_" ++ suffix ++ "." ++ mode)%string /\
    choose (fst pt) None = Some f /\ render dump f g = Ok (snd pt).
