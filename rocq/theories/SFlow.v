(** Vocabulary for the two commands run one after the other: suplat, then ocubiter on a file
    that suplat wrote. *)
From Coq Require Import String.
From Verif Require Import SIO MIO SCliRead Base BaseQ SGeneralCell SSym SSubst SOcc SLattice MGeneralCell SShape SRobust SDeriv MHnf MCli SCli.
Open Scope list_scope.

(** [c] is [g] up to the decimals of a file: the same atoms in the same order, the lattice and
    the positions (these modulo the cell) within [read_tol]. *)
Definition rounded (g c : gcell) : Prop :=
  mwithin read_tol (lattice g) (lattice c) /\ numbers c = numbers g /\ Forall2 (near read_tol) (positions c) (positions g).

(** What is asked of spglib, given as [spg], about the cell [g] of which it only sees rounded
    copies: the operations it reports are those of the list [ops] of symmetry operations of
    [g], with small errors in the translations, and the positions of [g] keep clear of the
    half-thousandths by more than the errors add up to. *)
Definition sees_symmetry (spg : gcell -> list (mat Z * vec Qc)) (g : gcell) (ops : list (mat Z * vec Qc)) : Prop :=
  symmetries_of ops g /\ exists m R, Forall (margin m) (positions g) /\ (forall o, In o ops -> row_sums R (fst o)) /\ (read_tol <= m)%Qc /\
    forall c, rounded g c -> exists t, Forall2 (near_op t) (spg c) ops /\ (Zc R * read_tol + t <= m)%Qc.

(** The other conditions for the enumeration of the decorations [D] of [g]: hashes without
    collisions, structures that are not empty, different suffixes. *)
Definition enumerable (hash : list Z -> Z) (suffix : nat -> string) (ops : list (mat Z * vec Qc)) (g : gcell) (D : list Z -> Prop) : Prop :=
  collision_free hash D /\ (forall x, D x -> some_atom x) /\ enough_suffixes (geo_equivalent ops (positions g)) D suffix.

(** ocubiter on [c]: [n] atoms [ele] become [sp]; no restriction, every structure is wanted and
    written as it is. *)
Definition plain_run (a : app) (c : gcell) (ele sp : Z) (n : nat) : Prop :=
  a_cell a = c /\ a_ele a = ele /\ a_speckle a = sp /\ a_n a = Z.of_nat n /\ a_tr a = None /\ a_refined a = false /\ a_mpr a = false /\
  (a_outmode a = "vasp"%string \/ a_outmode a = "yaml"%string).

(** [C] is a derivative structure of [u]: [n] atoms [ele] per period of the superlattice [m] are
    replaced by [sp]. *)
Definition derivative_with (u : gcell) (m : mat Z) (ele sp : Z) (n : nat) (C : crystal) : Prop :=
  derivative (cell_of u) m [sp] C /\ (forall r, replaced (cell_of u) sp C r -> atom_at (cell_of u) ele r) /\
  exists subs, List.length subs = n /\ replaced_per_period (cell_of u) m sp C subs.

(** One motion carries the crystal of [u] to that of [g], and [C] to that of [g] with the
    elements [y]. *)
Definition shown_as (u g : gcell) (y : list Z) (C : crystal) : Prop :=
  exists q w, orthogonal q /\ (forall z r, atom_at (cell_of u) z r <-> atom_at (cell_of g) z (vadd (vec_mat r q) w)) /\
    (forall z r, C z r <-> atom_at (lattice g, positions g, y) z (vadd (vec_mat r q) w)).

(** [g] is the cell that suplat saves for the superlattice [h]. *)
Definition shaped_super (std : cell3 -> cell3) (rots : list (mat Z)) (u : gcell) (h : mat Z) (g : gcell) : Prop :=
  exists c, to_general_cell (SuperLatticeCell_new rots u h) = Ok c /\ get_shaped_cell std c = Ok g.

(** The files [fs2], compared with [fs1], hold the decorations of [g] along the superlattice [h],
    as decorations of the copy [c] that was read: every new file is read back as the copy with
    elements [y], and stands for a derivative structure of [u]; every derivative structure
    along a matrix equivalent to [h] is among them. *)
Definition lists_derivatives (load : string -> res ydoc) (cbrt : Qc -> Qc) (rots : list (mat Z)) (u g c : gcell) (h : mat Z) (ele sp : Z) (n : nat)
    (fs1 fs2 : files) : Prop :=
  exists ps ys, NoDup ps /\ (forall p, ~ In p ps -> fs2 p = fs1 p) /\
    Forall2 (fun p y => reads_as load cbrt fs2 p (decorated c y) /\ exists C, derivative_with u h ele sp n C /\ shown_as u g y C) ps ys /\
    forall m C, lat_equiv rots m h -> derivative_with u m ele sp n C -> exists y, In y ys /\ shown_as u g y C.

(** What is required of the oracles for the cells that suplat saves: spglib sees their symmetry,
    the generator can enumerate the decorations. *)
Definition oracles_work (spg : gcell -> list (mat Z * vec Qc)) (hash : list Z -> Z) (suffix : nat -> string) (ele sp : Z) (n : nat) (g : gcell)
    (ops : list (mat Z * vec Qc)) : Prop :=
  sees_symmetry spg g ops /\ enumerable hash suffix ops g (k_fold (numbers g) (site_holds (numbers g) ele) n sp).
