(** The POSCAR text of a structure, character by character, and cells whose numbers have at
    most four decimals, independently of the writer and the reader. *)
From Coq Require Import List ZArith String Ascii Sorted.
From Verif Require Import BaseQ SElement SGeneralCell SIO.
Import ListNotations.
Open Scope Z_scope.

(** A numeral without superfluous zeros. *)
Definition plain_numeral (s : string) (v : Z) : Prop :=
  exists k, numeral s v (S k) /\ (k = 0%nat \/ forall r, s <> String "0" r).
(** An integer: minus sign exactly for the negative ones. *)
Definition int_text (z : Z) (s : string) : Prop :=
  (0 <= z /\ plain_numeral s z) \/ (z < 0 /\ exists t, plain_numeral t (- z) /\ s = String "-" t).
(** A number rounded to six decimals (half to even), minus sign exactly for the negative ones. *)
Definition six_text (x : Qc) (s : string) : Prop :=
  exists sg y m ip i fp f,
    ((sg = ""%string /\ 0 <= x /\ y = x) \/ (sg = "-"%string /\ x < 0 /\ y = - x))%Qc /\
    nearest_even (y * Zc 1000000)%Qc m /\ m = 1000000 * i + f /\
    plain_numeral ip i /\ numeral fp f 6 /\
    s = String.append sg (String.append ip (String "." fp)).
(** [t] is [s] flush right in a field of width [w] (or wider, if [s] is longer). *)
Definition flush_right (w : nat) (s t : string) : Prop :=
  exists b, blanks b /\ t = String.append b s /\ String.length t = Nat.max w (String.length s).
Definition six_field (x : Qc) (s : string) : Prop := exists t, six_text x t /\ flush_right 10 t s.
Definition six_row (v : vec Qc) (s : string) : Prop :=
  exists a b c, six_field (vx v) a /\ six_field (vy v) b /\ six_field (vz v) c /\
    s = String.append a (String " " (String.append b (String " " c))).

(** The exact text: as [poscar], every character fixed. *)
Definition poscar_exact (lat : mat Qc) (pos : list (vec Qc)) (nums : list Z) (scale : Z) (mode txt : string) : Prop :=
  exists comp sc l1 l2 l3 zs syms blocks,
    txt = text_of_lines ([comp; sc; l1; l2; l3; words_line syms;
                          words_line (map (fun z => count_text (count_occ Z.eq_dec nums z)) zs); mode] ++ List.concat blocks) /\
    formula nums comp /\ int_text scale sc /\
    six_row (vx lat) l1 /\ six_row (vy lat) l2 /\ six_row (vz lat) l3 /\
    StronglySorted Z.lt zs /\ (forall z, In z zs <-> In z nums /\ z <> 0) /\
    Forall2 is_element zs syms /\
    Forall2 (fun zsym block => Forall2 (fun p line => exists row, six_row p row /\ line = String.append row (String " " (snd zsym)))
                                 (of_number (fst zsym) pos nums) block)
      (combine zs syms) blocks.

(** At most four decimals. *)
Definition four (x : Qc) : Prop := exists m, x = (Zc m / Zc 10000)%Qc.
Definition vfour (v : vec Qc) : Prop := four (vx v) /\ four (vy v) /\ four (vz v).
Definition mfour (m : mat Qc) : Prop := vfour (vx m) /\ vfour (vy m) /\ vfour (vz m).
