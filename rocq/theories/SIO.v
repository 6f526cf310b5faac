(** What a POSCAR text is and what reading should return, independently of the writer and
    the reader. *)
From Coq Require Import List ZArith String Ascii Sorted.
From Coq Require DecimalString.
From Verif Require Import BaseQ SElement SGeneralCell.
Import ListNotations.
Open Scope Z_scope.

(** Value of a string of decimal digits. *)
Definition digit_of (c : ascii) : option Z :=
  match c with
  | "0"%char => Some 0 | "1"%char => Some 1 | "2"%char => Some 2 | "3"%char => Some 3 | "4"%char => Some 4
  | "5"%char => Some 5 | "6"%char => Some 6 | "7"%char => Some 7 | "8"%char => Some 8 | "9"%char => Some 9
  | _ => None
  end.
(** [numeral s v k]: [s] consists of [k] digits and denotes [v]. *)
Inductive numeral : string -> Z -> nat -> Prop :=
| num_nil : numeral "" 0 0
| num_snoc s v k c d : numeral s v k -> digit_of c = Some d -> numeral (String.append s (String c "")) (10 * v + d) (S k).
Inductive blanks : string -> Prop :=
| blanks_nil : blanks ""
| blanks_cons s : blanks s -> blanks (String " " s).

(** [s] is a number with six decimals, possibly after blanks, denoting [x]. *)
Definition denotes6 (s : string) (x : Qc) : Prop :=
  exists b sg ip fp (i f : Z) k, blanks b /\ (sg = ""%string \/ sg = "-"%string) /\ numeral ip i (S k) /\ numeral fp f 6 /\
    s = String.append b (String.append sg (String.append ip (String "." fp))) /\
    x = ((if String.eqb sg "-" then - (1) else 1) * (Zc i + Zc f / Zc 1000000))%Qc.

(** [y] differs from [x] by at most [t]. *)
Definition within (t x y : Qc) : Prop := (x - t <= y /\ y <= x + t)%Qc.
Definition vwithin (t : Qc) (x y : vec Qc) : Prop := within t (vx x) (vx y) /\ within t (vy x) (vy y) /\ within t (vz x) (vz y).
Definition mwithin (t : Qc) (x y : mat Qc) : Prop := vwithin t (vx x) (vx y) /\ vwithin t (vy x) (vy y) /\ vwithin t (vz x) (vz y).

(** A field shows a number to within half a unit of the sixth decimal. *)
Definition shows (x : Qc) (s : string) : Prop := exists y, denotes6 s y /\ within (Q2Qc (1 # 2000000)) x y.
Definition shows_row (v : vec Qc) (s : string) : Prop :=
  exists a b c, shows (vx v) a /\ shows (vy v) b /\ shows (vz v) c /\
    s = String.append a (String " " (String.append b (String " " c))).

(** Positions of the atoms of one species, in order. *)
Definition of_number (z : Z) (pos : list (vec Qc)) (nums : list Z) : list (vec Qc) :=
  map fst (filter (fun pn => snd pn =? z) (combine pos nums)).

Definition text_of_lines (ls : list string) : string := fold_right (fun l t => String.append l (String "010" t)) ""%string ls.

(** Words separated by one blank. *)
Definition words_line (ws : list string) : string := String.concat " " ws.
Definition count_text (n : nat) : string := DecimalString.NilEmpty.string_of_uint (Nat.to_uint n).

(** The POSCAR text of a structure: composition, scale factor, three lattice rows, species
    by increasing atomic number, their counts, mode, and for each species as many
    coordinate lines as its count, each ending with the symbol. *)
Definition poscar (lat : mat Qc) (pos : list (vec Qc)) (nums : list Z) (scale mode txt : string) : Prop :=
  exists comp l1 l2 l3 zs syms blocks,
    txt = text_of_lines ([comp; scale; l1; l2; l3; words_line syms;
                          words_line (map (fun z => count_text (count_occ Z.eq_dec nums z)) zs); mode] ++ List.concat blocks) /\
    formula nums comp /\
    shows_row (vx lat) l1 /\ shows_row (vy lat) l2 /\ shows_row (vz lat) l3 /\
    StronglySorted Z.lt zs /\ (forall z, In z zs <-> In z nums /\ z <> 0) /\
    Forall2 is_element zs syms /\
    Forall2 (fun zsym block => Forall2 (fun p line => exists row, shows_row p row /\ line = String.append row (String " " (snd zsym)))
                                 (of_number (fst zsym) pos nums) block)
      (combine zs syms) blocks.

(** Number of newline characters. *)
Fixpoint newlines (s : string) : nat :=
  match s with EmptyString => 0%nat | String c r => ((if Ascii.eqb c "010" then 1 else 0) + newlines r)%nat end.

(** The atoms without vacancies, grouped by increasing atomic number, the order within each
    species kept. *)
Definition grouped (orig out : list (vec Qc * Z)) : Prop :=
  StronglySorted Z.le (map snd out) /\
  forall z, filter (fun a => snd a =? z) out = if z =? 0 then [] else filter (fun a => snd a =? z) orig.

(** Glob patterns, as relations. *)
Definition contains_str (part s : string) : Prop := exists a b, s = String.append a (String.append part b).
Definition ends_with (part s : string) : Prop := exists a, s = String.append a part.

(** White-space characters (code points below 256) and lines with something on them. *)
Definition white (c : ascii) : Prop :=
  In (nat_of_ascii c) [9; 10; 11; 12; 13; 28; 29; 30; 31; 32; 133; 160]%nat.
Definition has_ink (s : string) : Prop := exists a c b, s = String.append a (String c b) /\ ~ white c.
Definition one_line (s : string) : Prop := forall a b, s <> String.append a (String "010" b).
(** Exactly [n] of the lines have something on them. *)
Inductive inked : nat -> list string -> Prop :=
| inked_nil : inked 0 []
| inked_yes n l ls : has_ink l -> inked n ls -> inked (S n) (l :: ls)
| inked_no n l ls : ~ has_ink l -> inked n ls -> inked n (l :: ls).

(** [spelled w s]: [s] is the word [w] up to the case of its letters. *)
Definition variant (c c' : ascii) : Prop :=
  c' = c \/ (97 <= nat_of_ascii c <= 122 /\ nat_of_ascii c' + 32 = nat_of_ascii c)%nat.
Inductive spelled : string -> string -> Prop :=
| sp_nil : spelled "" ""
| sp_cons c c' w s : variant c c' -> spelled w s -> spelled (String c w) (String c' s).
Definition contains_any_case (part s : string) : Prop :=
  exists a p b, spelled part p /\ s = String.append a (String.append p b).
Definition ends_any_case (part s : string) : Prop := exists a p, spelled part p /\ s = String.append a p.

(** *** Meaning of a POSCAR text, for any layout of blanks. *)
Definition whites (s : string) : Prop := forall a c b, s = String.append a (String c b) -> white c.
Definition word (s : string) : Prop := s <> ""%string /\ forall a c b, s = String.append a (String c b) -> ~ white c.
(** [fields ws s]: the words of [s] are [ws]. *)
Inductive fields : list string -> string -> Prop :=
| fields_nil b : whites b -> fields [] b
| fields_cons b w ws r : whites b -> word w -> (r = ""%string \/ exists c r', r = String c r' /\ white c) -> fields ws r ->
    fields (w :: ws) (String.append b (String.append w r)).
(** Decimal numbers: an optional minus sign, digits, optionally a point and digits. *)
Definition sign_of (sg : string) (x : Qc) : Qc := if String.eqb sg "-" then (- x)%Qc else x.
Inductive decimal : string -> Qc -> Prop :=
| decimal_int sg ip i k : (sg = ""%string \/ sg = "-"%string) -> numeral ip i (S k) ->
    decimal (String.append sg ip) (sign_of sg (Zc i))
| decimal_point sg ip fp i f k d : (sg = ""%string \/ sg = "-"%string) -> numeral ip i (S k) -> numeral fp f d ->
    decimal (String.append sg (String.append ip (String "." fp))) (sign_of sg (Zc i + Zc f / Zc (10 ^ Z.of_nat d))%Qc).
(** A line with one number, and a line that begins with three numbers. *)
Definition number_line (s : string) (x : Qc) : Prop := exists w, fields [w] s /\ decimal w x.
Definition row_line (more : bool) (s : string) (v : vec Qc) : Prop :=
  exists a b c ws, fields (a :: b :: c :: ws) s /\ decimal a (vx v) /\ decimal b (vy v) /\ decimal c (vz v) /\
    (more = false -> ws = []).
Definition rounded (d : nat) (x r : Qc) : Prop :=
  exists m, nearest_even (x * Zc (10 ^ Z.of_nat d))%Qc m /\ r = (Zc m / Zc (10 ^ Z.of_nat d))%Qc.
Definition vrounded d (x r : vec Qc) : Prop := rounded d (vx x) (vx r) /\ rounded d (vy x) (vy r) /\ rounded d (vz x) (vz r).
(** [kept all ls]: [ls] are the lines of [all] with something on them. *)
Inductive kept : list string -> list string -> Prop :=
| kept_nil : kept [] []
| kept_yes l a ls : has_ink l -> kept a ls -> kept (l :: a) (l :: ls)
| kept_no l a ls : ~ has_ink l -> kept a ls -> kept (l :: a) ls.
Definition volume (L : mat Qc) : Qc :=
  let d := (vx (vx L) * (vy (vy L) * vz (vz L) - vz (vy L) * vy (vz L)) - vy (vx L) * (vx (vy L) * vz (vz L) - vz (vy L) * vx (vz L))
            + vz (vx L) * (vx (vy L) * vy (vz L) - vy (vy L) * vx (vz L)))%Qc in
  if Qle_bool 0 d then d else (- d)%Qc.
Definition scaled (f : Qc) (L L' : mat Qc) : Prop := L' = vmap (vmap (fun x => x * f)%Qc) L.
(** A well-formed POSCAR text: [lat] lattice rows, [z] scale, [zs] and [ns] species and
    counts, [pos] coordinate rows. *)
Definition poscar_text (content : string) (z : Qc) (lat : mat Qc) (zs : list Z) (ns : list nat) (pos : list (vec Qc)) : Prop :=
  exists all comp scale l1 l2 l3 species counts mode rows syms cs,
    content = String.concat (String "010" "") all /\ Forall one_line all /\
    kept all (comp :: scale :: l1 :: l2 :: l3 :: species :: counts :: mode :: rows) /\
    number_line scale z /\
    row_line false l1 (vx lat) /\ row_line false l2 (vy lat) /\ row_line false l3 (vz lat) /\
    fields syms species /\ Forall2 is_element zs syms /\
    fields cs counts /\ Forall2 (fun n c => exists k, numeral c (Z.of_nat n) (S k)) ns cs /\
    List.length ns = List.length zs /\
    Forall2 (row_line true) rows pos.

(** File names and format arguments that mean YAML and POSCAR. *)
Definition yaml_named (name : string) (fmt : option string) : Prop :=
  (exists f, fmt = Some f /\ spelled "yaml" f) \/ contains_any_case ".yaml" name.
Definition vasp_named (name : string) (fmt : option string) : Prop :=
  (exists f, fmt = Some f /\ spelled "vasp" f) \/ ends_any_case ".vasp" name \/ contains_str "POSCAR" name.

(** Point with fractional coordinates [p]. *)
Definition cartesian_of (L : mat Qc) (p : vec Qc) : vec Qc :=
  V3 (vx p * vx (vx L) + vy p * vx (vy L) + vz p * vx (vz L))%Qc
     (vx p * vy (vx L) + vy p * vy (vy L) + vz p * vy (vz L))%Qc
     (vx p * vz (vx L) + vy p * vz (vy L) + vz p * vz (vz L))%Qc.
