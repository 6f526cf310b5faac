(** What the enumeration methods of OccupyGenerator have to deliver. *)
From Verif Require Import Base BaseQ SGeneralCell SSubst SSym MGeneralCell MSogen SOcc.

(** One structure for every [n]-element set of admissible sites: those sites hold [sp],
    everything else is as in the initial cell; the generator ends normally. *)
Definition dup_statement (o : occ) (P : nat -> Prop) (n : nat) (sp : Z) (t : trace gcell) : Prop :=
  exists Ss, all_subsets_once P n Ss /\ stop t = None /\
    Forall2 (fun S c => same_frame (init_cell o) c /\ substituted (numbers (init_cell o)) S sp (numbers c)) Ss (items t).

(** Exactly one structure for every symmetry class of [n]-fold substitutions. *)
Definition exact_enumeration (o : occ) (P : nat -> Prop) (n : nat) (sp : Z) (t : trace gcell) : Prop :=
  stop t = None /\ Forall (same_frame (init_cell o)) (items t) /\
  transversal (equivalent (sym_perm o)) (k_fold (numbers (init_cell o)) P n sp) (map numbers (items t)).

(** Number of levels, and level k (0-based) is the exact enumeration of the
    (k+1)-fold substitutions. *)
Definition level_statement (o : occ) (P : nat -> Prop) (n sp : Z) (lv : list (trace gcell)) : Prop :=
  length lv = Z.to_nat (n - Z.of_nat (count_occ Z.eq_dec (numbers (init_cell o)) sp)) /\
  forall k t, nth_error lv k = Some t -> exact_enumeration o P (S k) sp t.

(** Exactly [k] atoms of [ele] became [sp], every other species count unchanged. *)
Definition swapped (init : list Z) (ele sp : Z) (k : nat) (x : list Z) : Prop :=
  count_occ Z.eq_dec x sp = (count_occ Z.eq_dec init sp + k)%nat /\
  (count_occ Z.eq_dec x ele + k)%nat = count_occ Z.eq_dec init ele /\
  forall w, w <> sp -> w <> ele -> count_occ Z.eq_dec x w = count_occ Z.eq_dec init w.

(** [k] atoms of species other than [sp] became [sp]. *)
Definition gained (init : list Z) (sp : Z) (k : nat) (x : list Z) : Prop :=
  length x = length init /\
  count_occ Z.eq_dec x sp = (count_occ Z.eq_dec init sp + k)%nat /\
  forall w, w <> sp -> (count_occ Z.eq_dec x w <= count_occ Z.eq_dec init w)%nat.
