(** Exactly which files the enumerating commands leave behind: the k-th structure of the
    listing, under its name, with its text. *)
From Coq Require Import String List ZArith Sorted.
From Verif Require Import Base BaseQ SElement SGeneralCell SSubst SIO SOrder SExact MGeneralCell MIO SCli MCli.
Import ListNotations.
Open Scope nat_scope.

(** The YAML document of a cell: six decimals, the composition as comment, scale 1. *)
Definition six_doc (c : gcell) (com : string) (d : ydoc) : Prop :=
  y_comment d = com /\
  (vrounded 6 (vx (lattice c)) (vx (y_lattice d)) /\ vrounded 6 (vy (lattice c)) (vy (y_lattice d)) /\ vrounded 6 (vz (lattice c)) (vz (y_lattice d))) /\
  Forall2 (vrounded 6) (positions c) (y_positions d) /\ y_numbers d = numbers c /\ y_zoom d = 1%Qc.

(** The file of the structure [c]: its path and, character by character, its text. *)
Definition exact_file (refine : gcell -> res gcell) (dump : ydoc -> string) (refined : bool) (mode dir suffix : string)
    (c : gcell) (pt : string * string) : Prop :=
  exists c' com, written_cell refine refined c c' /\ formula (numbers c') com /\
    fst pt = (dir ++ "/STRUCTURE_" ++ com ++ "_" ++ suffix ++ "." ++ mode)%string /\
    (yaml_named (fst pt) None -> exists d, six_doc c' com d /\ snd pt = dump d) /\
    (~ yaml_named (fst pt) None -> poscar_exact (lattice c') (positions c') (numbers c') 1 "direct" (snd pt)).

(** [cs] are the structures of the sets of sites with property [Q], in lexicographic order. *)
Definition listing (c0 : gcell) (v : Z) (Q : list nat -> Prop) (cs : list gcell) : Prop :=
  exists Ss, StronglySorted before Ss /\ (forall S, In S Ss <-> Q S) /\
    Forall2 (fun S c => exists x, substituted (numbers c0) S v x /\ c = decorated c0 x) Ss cs.
(** One listing after the other, for 1 .. [n] substituted atoms. *)
Definition listings (c0 : gcell) (v : Z) (Q : nat -> list nat -> Prop) (n : nat) (cs : list gcell) : Prop :=
  exists ls, length ls = n /\ cs = List.concat ls /\ forall k l, nth_error ls k = Some l -> listing c0 v (Q (S k)) l.

(** The structure that belongs to the set [S] is wanted. *)
Definition wanted_set psize (mpr : bool) (tr : option (Z * Qc)) (c0 : gcell) (v : Z) (S : list nat) : Prop :=
  exists x, substituted (numbers c0) S v x /\ wanted psize mpr tr (decorated c0 x).

(** What a run ends with: the structures of the listing [L], written one after the other. *)
Definition left_behind standardize dump (a : app) dir (suffix : nat -> string) fs (r : cli_out) (L : list gcell -> Prop) : Prop :=
  o_exn r = None /\ exists kept ws, L kept /\
    indexed (fun k => exact_file (get_refined_pcell standardize) dump (a_refined a) (a_outmode a) dir (suffix k)) kept ws /\
    after_writes fs ws (o_files r).

(** ** the two ternary commands *)
(** The text of a structure: POSCAR as above; the YAML document of these is not rounded. *)
Definition ternary_exact (dump : ydoc -> string) (mode : string) (c : gcell) (t : string) : Prop :=
  (mode = "vasp"%string -> poscar_exact (lattice c) (positions c) (numbers c) 1 "direct" t) /\
  (mode <> "vasp"%string -> exists com, formula (numbers c) com /\ t = dump (mkY com (lattice c) (positions c) (numbers c) 1%Qc)).
(** [n0], [n1], [n2] in the name are the numbers of atoms asked for. *)
Definition ternary_start (mode dir : string) (n0 n1 n2 : Z) (s : string) : Prop := exists a0 a1 a2, int_text n0 a0 /\ int_text n1 a1 /\ int_text n2 a2 /\
  (mode = "vasp"%string -> s = (dir ++ "/POSCAR_A" ++ a0 ++ "B" ++ a1 ++ "C" ++ a2 ++ "_")%string) /\
  (mode <> "vasp"%string -> s = (dir ++ "/STRUCTURE_A" ++ a0 ++ "B" ++ a1 ++ "C" ++ a2 ++ "_")%string).
(** One structure after the other, each under the name drawn in the directory as it then is. *)
Inductive filed standardize dump (a : tapp) dir (tmp : files -> string -> string -> string) : list (gcell * (nat * nat)) -> files -> files -> Prop :=
| filed_none fs : filed standardize dump a dir tmp [] fs fs
| filed_one c n1 n2 rest fs fs' c' s t : written_cell (get_refined_pcell standardize) (t_refined a) c c' ->
    ternary_exact dump (t_outmode a) c' t ->
    ternary_start (t_outmode a) dir (Z.of_nat (t_size a) - Z.of_nat n1 - Z.of_nat n2) (Z.of_nat n1) (Z.of_nat n2) s ->
    let name := tmp fs s (if string_dec (t_outmode a) "vasp" then ".vasp" else ".yaml")%string in
    filed standardize dump a dir tmp rest (fun p => if String.eqb p name then Some t else fs p) fs' ->
    filed standardize dump a dir tmp ((c, (n1, n2)) :: rest) fs fs'.
(** [cs] are the structures of the pairs of sets with property [Q], in lexicographic order. *)
Definition listing2 (c0 : gcell) (v1 v2 : Z) (Q : list nat * list nat -> Prop) (cs : list gcell) : Prop :=
  exists Ss, StronglySorted before2 Ss /\ (forall S, In S Ss <-> Q S) /\
    Forall2 (fun S c => exists x, substituted2 (numbers c0) S v1 v2 x /\ c = decorated c0 x) Ss cs.
Definition wanted_pair psize (mpr : bool) (tr : option (Z * Qc)) (c0 : gcell) (v1 v2 : Z) (S : list nat * list nat) : Prop :=
  exists x, substituted2 (numbers c0) S v1 v2 x /\ wanted psize mpr tr (decorated c0 x).
(** The compositions [comps] in turn. *)
Inductive compositions (c0 : gcell) (v1 v2 : Z) (Q : nat -> nat -> list nat * list nat -> Prop) : list (nat * nat) -> list (gcell * (nat * nat)) -> Prop :=
| compositions_none : compositions c0 v1 v2 Q [] []
| compositions_one n1 n2 comps cs out : listing2 c0 v1 v2 (Q n1 n2) cs -> compositions c0 v1 v2 Q comps out ->
    compositions c0 v1 v2 Q ((n1, n2) :: comps) (map (fun c => (c, (n1, n2))) cs ++ out).
(** The order of the compositions: first by the number of atoms of the first species. *)
Definition fewer (m n : nat * nat) : Prop := fst m < fst n \/ fst m = fst n /\ snd m < snd n.
