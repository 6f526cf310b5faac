(** Specification vocabulary for grids. *)
From Verif Require Import Base BaseQ MElement MGrid.

(** [a] is a d x w x l array. *)
Definition shaped {A} (a : list (list (list A))) (d w l : nat) : Prop :=
  length a = d /\ Forall (fun p => length p = w /\ Forall (fun r => length r = l) p) a.

(** a[i][j][k] *)
Definition entry {A} (a : list (list (list A))) (i j k : nat) : option A :=
  match nth_error a i with
  | Some p => match nth_error p j with Some r => nth_error r k | None => None end
  | None => None
  end.

(** A d x w x l array holding [sp] on exactly [noa] sites and [ssp] on all others. *)
Definition placement (d w l : nat) (ssp sp : Z) (noa : nat) (a : list (list (list Z))) : Prop :=
  shaped a d w l /\
  (forall i j k z, entry a i j k = Some z -> z = ssp \/ z = sp) /\
  count_occ Z.eq_dec (concat (concat a)) sp = noa.

(** The Python index [z] denotes position [i] of a sequence of length [n]. *)
Definition denotes (n : nat) (z : Z) (i : nat) : Prop :=
  (i < n)%nat /\ (z = Z.of_nat i \/ z = Z.of_nat i - Z.of_nat n)%Z.
Definition denotes3 (g : sgrid) (pos : Z * Z * Z) (p : nat * nat * nat) : Prop :=
  let '(x, y, z) := pos in let '(i, j, k) := p in
  denotes (g_depth g) x i /\ denotes (g_width g) y j /\ denotes (g_length g) z k.

(** Grid [g] exists in a state with heap [hp]: it was made by [sea] or [from_array], after
    which any grids may have been made and written to. *)
Inductive live : heap -> sgrid -> Prop :=
| live_sea hp d w l sp g hp' : sea hp d w l sp = Ok (g, hp') -> (0 < l)%nat -> live hp' g
| live_from_array hp arr d w l g hp' : shaped arr d w l -> from_array hp arr = Ok (g, hp') -> live hp' g
| live_write hp g g' pos s hp' : live hp g -> grid_set hp g' pos s = Ok hp' -> live hp' g
| live_new_sea hp g d w l sp g' hp' : live hp g -> sea hp d w l sp = Ok (g', hp') -> live hp' g
| live_new_array hp g arr g' hp' : live hp g -> from_array hp arr = Ok (g', hp') -> live hp' g.
