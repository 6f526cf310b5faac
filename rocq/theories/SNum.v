(** Which texts are numbers, and which texts are structures in the POSCAR layout, for
    property C91.  Independent of the reader. *)
From Coq Require Import List ZArith String Ascii.
From Verif Require Import Base BaseQ SElement SIO.
Import ListNotations.
Open Scope Z_scope.

(** Optional sign. *)
Definition sign_text (sg : string) (m : Z) : Prop := (sg = ""%string \/ sg = "+"%string) /\ m = 1 \/ sg = "-"%string /\ m = -1.
(** Optional exponent. *)
Inductive exponent : string -> Z -> Prop :=
| exp_none : exponent "" 0
| exp_some c sg m ds v k : c = "e"%char \/ c = "E"%char -> sign_text sg m -> numeral ds v (S k) ->
    exponent (String c (String.append sg ds)) (m * v).
(** Powers of ten. *)
Definition ten_to (e : Z) : Qc := if 0 <=? e then Zc (10 ^ e) else (1 / Zc (10 ^ (- e)))%Qc.
(** White space, a sign, digits with or without a point, at least one digit in all, an
    exponent, white space. *)
Definition float_text (s : string) (x : Qc) : Prop :=
  exists b sg m ip i k pt fp f d ex e b',
    whites b /\ whites b' /\ sign_text sg m /\ numeral ip i k /\ numeral fp f d /\ (0 < k + d)%nat /\
    (pt = "."%string \/ pt = ""%string /\ fp = ""%string) /\ exponent ex e /\
    s = String.append b (String.append sg (String.append ip (String.append pt (String.append fp (String.append ex b'))))) /\
    x = (Zc m * (Zc i + Zc f / Zc (10 ^ Z.of_nat d)) * ten_to e)%Qc.
(** White space, a sign, digits, white space. *)
Definition int_text (s : string) (z : Z) : Prop :=
  exists b sg m ip i k b', whites b /\ whites b' /\ sign_text sg m /\ numeral ip i (S k) /\
    s = String.append b (String.append sg (String.append ip b')) /\ z = m * i.

(** A line of three numbers, and a line beginning with three numbers. *)
Definition three (more : bool) (s : string) (v : vec Qc) : Prop :=
  exists a b c ws, fields (a :: b :: c :: ws) s /\ float_text a (vx v) /\ float_text b (vy v) /\ float_text c (vz v) /\
    (more = false -> ws = []).
(** The numbers of the atoms: each species as often as its count says; a negative count
    counts as zero; species without count have no atoms. *)
Inductive counted : list Z -> list Z -> list Z -> Prop :=
| counted_nil zs : counted zs [] []
| counted_cons z zs n ns l : counted zs ns l -> counted (z :: zs) (n :: ns) (repeat z (Z.to_nat n) ++ l).
(** What the reader accepts: [scale], the lattice rows [lat], the numbers of the atoms and
    the coordinate rows.  The line after the counts is arbitrary and may be missing. *)
Definition accepted (content : string) (scale : Qc) (lat : mat Qc) (nums : list Z) (pos : list (vec Qc)) : Prop :=
  exists all comp sc l1 l2 l3 species counts tail rows syms cs zs ns,
    content = String.concat (String "010" "") all /\ Forall one_line all /\
    kept all (comp :: sc :: l1 :: l2 :: l3 :: species :: counts :: tail) /\
    (tail = [] /\ rows = [] \/ exists mode, tail = mode :: rows) /\
    float_text sc scale /\ three false l1 (vx lat) /\ three false l2 (vy lat) /\ three false l3 (vz lat) /\
    fields syms species /\ Forall2 is_element zs syms /\
    fields cs counts /\ Forall2 int_text cs ns /\ counted zs ns nums /\
    Forall2 (three true) rows pos.
(** The factor by which a scale line multiplies the lattice: itself, or for a negative scale
    the cube root (as the oracle gives it) of the wanted volume over the present one. *)
Definition factor (cbrt : Qc -> Qc) (scale : Qc) (lat : mat Qc) (f : Qc) : Prop :=
  ((0 <= scale)%Qc /\ f = scale) \/ ((scale < 0)%Qc /\ f = cbrt (- scale / volume lat)%Qc).

(** *** Refusals: the first thing wrong, in the order of the lines, decides the error *)
Definition a_float (s : string) : Prop := exists x, float_text s x.
Definition a_row (more : bool) (s : string) : Prop := exists v, three more s v.
Definition species_line (s : string) (zs : list Z) : Prop := exists syms, fields syms s /\ Forall2 is_element zs syms.
Definition counts_line (s : string) (ns : list Z) : Prop := exists cs, fields cs s /\ Forall2 int_text cs ns.
Definition good_head (sc l1 l2 l3 : string) : Prop := a_float sc /\ a_row false l1 /\ a_row false l2 /\ a_row false l3.
(** The coordinate lines are those after the mode line. *)
Definition coordinates (tail rows : list string) : Prop := tail = [] /\ rows = [] \/ exists mode, tail = mode :: rows.
Inductive refused : list string -> exn -> Prop :=
| ref_short ls : (List.length ls < 2)%nat -> refused ls IndexError
| ref_scale c sc r : ~ a_float sc -> refused (c :: sc :: r) ValueError
| ref_lattice c sc r : a_float sc ->
    (forall l1 l2 l3 t, r = l1 :: l2 :: l3 :: t -> ~ (a_row false l1 /\ a_row false l2 /\ a_row false l3)) -> refused (c :: sc :: r) ValueError
| ref_no_species c sc l1 l2 l3 : good_head sc l1 l2 l3 -> refused [c; sc; l1; l2; l3] IndexError
| ref_symbol c sc l1 l2 l3 sp t : good_head sc l1 l2 l3 -> (forall zs, ~ species_line sp zs) ->
    refused (c :: sc :: l1 :: l2 :: l3 :: sp :: t) KeyError
| ref_no_counts c sc l1 l2 l3 sp zs : good_head sc l1 l2 l3 -> species_line sp zs -> refused [c; sc; l1; l2; l3; sp] IndexError
| ref_count c sc l1 l2 l3 sp zs cs t : good_head sc l1 l2 l3 -> species_line sp zs -> (forall ns, ~ counts_line cs ns) ->
    refused (c :: sc :: l1 :: l2 :: l3 :: sp :: cs :: t) ValueError
| ref_more_counts c sc l1 l2 l3 sp zs cs ns t : good_head sc l1 l2 l3 -> species_line sp zs -> counts_line cs ns ->
    (List.length zs < List.length ns)%nat -> refused (c :: sc :: l1 :: l2 :: l3 :: sp :: cs :: t) IndexError
| ref_row c sc l1 l2 l3 sp zs cs ns t rows : good_head sc l1 l2 l3 -> species_line sp zs -> counts_line cs ns ->
    (List.length ns <= List.length zs)%nat -> coordinates t rows -> Exists (fun l => ~ a_row true l) rows ->
    refused (c :: sc :: l1 :: l2 :: l3 :: sp :: cs :: t) ValueError
| ref_no_row c sc l1 l2 l3 sp zs cs ns t : good_head sc l1 l2 l3 -> species_line sp zs -> counts_line cs ns ->
    (List.length ns <= List.length zs)%nat -> coordinates t [] ->
    refused (c :: sc :: l1 :: l2 :: l3 :: sp :: cs :: t) ValueError
| ref_more_rows c sc l1 l2 l3 sp zs cs ns nums t rows : good_head sc l1 l2 l3 -> species_line sp zs -> counts_line cs ns ->
    counted zs ns nums -> coordinates t rows -> Forall (a_row true) rows -> (List.length nums < List.length rows)%nat ->
    refused (c :: sc :: l1 :: l2 :: l3 :: sp :: cs :: t) IndexError.
