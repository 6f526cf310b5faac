(** Vocabulary for suplat followed by ocutenter on a file that suplat wrote. *)
From Coq Require Import String.
From Verif Require Import SIO MIO SCliRead Base BaseQ SElement MElement SGeneralCell SSym SSubst SOcc SLattice MGeneralCell SShape SRobust SDeriv MHnf MCli SCli SFlow MOpt.
Open Scope list_scope.

(** [C] is a derivative structure of [u]: per period of the superlattice [m], [n1] atoms are
    replaced by [v1], [n2] others by [v2]. *)
Definition derivative_with2 (u : gcell) (m : mat Z) (v1 : Z) (n1 : nat) (v2 : Z) (n2 : nat) (C : crystal) : Prop :=
  derivative (cell_of u) m [v1; v2] C /\
  (exists subs, List.length subs = n1 /\ replaced_per_period (cell_of u) m v1 C subs) /\
  (exists subs, List.length subs = n2 /\ replaced_per_period (cell_of u) m v2 C subs).

(** ocutenter on [c]: the two species are [v1] and [v2]; no restriction, every structure is
    wanted and written as it is. *)
Definition plain_trun (a : tapp) (c : gcell) (v1 v2 : Z) : Prop :=
  t_cell a = c /\ t_tr a = None /\ t_refined a = false /\ t_mpr a = false /\
  (exists s, Specie_new (t_s1 a) = Ok s /\ sp_Z s = v1) /\ (exists s, Specie_new (t_s2 a) = Ok s /\ sp_Z s = v2).

(** As [lists_derivatives], for two species.  The files get names that were not in use, if there
    is room for them; a POSCAR can be read by its name unless that contains ".yaml". *)
Definition lists_derivatives2 (load : string -> res ydoc) (cbrt : Qc -> Qc) (N : nat) (mode : string) (rots : list (mat Z)) (u g c : gcell) (h : mat Z)
    (v1 : Z) (n1 : nat) (v2 : Z) (n2 : nat) (fs1 fs2 : files) : Prop :=
  exists ps ys,
    (forall k, files_at_most fs1 k -> (k + List.length ps <= N)%nat ->
       NoDup ps /\ (forall p, In p ps -> fs1 p = None) /\ (forall p, ~ In p ps -> fs2 p = fs1 p) /\
       Forall2 (fun p y => (mode = "vasp"%string -> ~ contains_any_case ".yaml" p) -> reads_as load cbrt fs2 p (decorated c y)) ps ys) /\
    Forall (fun y => exists C, derivative_with2 u h v1 n1 v2 n2 C /\ shown_as u g y C) ys /\
    forall m C, lat_equiv rots m h -> derivative_with2 u m v1 n1 v2 n2 C -> exists y, In y ys /\ shown_as u g y C.

(** What is required of the oracles for the cells that suplat saves. *)
Definition oracles_work2 (spg : gcell -> list (mat Z * vec Qc)) (hash : list Z -> Z) (v1 : Z) (n1 : nat) (v2 : Z) (n2 : nat) (g : gcell)
    (ops : list (mat Z * vec Qc)) : Prop :=
  sees_symmetry spg g ops /\ collision_free hash (two_fold (numbers g) n1 v1 n2 v2) /\ (forall x, two_fold (numbers g) n1 v1 n2 v2 x -> some_atom x).

(** The two ways of loading a YAML text agree: the documents have all the keys. *)
Definition same_yaml (dump : ydoc -> string) (load : string -> res ydoc) (ls : string -> res sdoc) : Prop :=
  forall d, load (dump d) = Ok d /\
    ls (dump d) = Ok (mkSdoc (Some (y_zoom d)) (Some (y_comment d)) (Some (y_lattice d)) (Some (y_positions d)) (Some (y_numbers d))).
(** The cell of a document as the ternary commands make it: nothing is rounded. *)
Definition document_cell (d : ydoc) : res gcell :=
  GeneralCell_new (vmap (vmap (fun x => x * y_zoom d)%Qc) (y_lattice d)) (y_positions d) (y_numbers d).
