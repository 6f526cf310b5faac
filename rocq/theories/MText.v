(** Python text primitives used by the readers and writers: [str.split], [str.rstrip],
    [str.lower], [str.join], [float], [int], ["{:10.6f}".format] and [fnmatch].
    Strings are sequences of characters with code points below 256.  Floats are exact
    rationals; the spellings "inf", "nan" and digit groups with "_" are not accepted by
    [parse_float]/[parse_int]. *)
From Coq Require Import String Ascii.
From Coq Require DecimalString.
From Verif Require Import Base BaseQ.
Set Implicit Arguments.
Open Scope string_scope.
Open Scope Z_scope.

(** Characters and strings. *)
Definition code (c : ascii) : Z := Z.of_N (N_of_ascii c).

(** [str.isspace] on one character *)
Definition is_space (c : ascii) : bool :=
  let n := code c in ((9 <=? n) && (n <=? 13)) || ((28 <=? n) && (n <=? 32)) || (n =? 133) || (n =? 160).

(** [not s.rstrip()] *)
Fixpoint blank (s : string) : bool :=
  match s with EmptyString => true | String c r => is_space c && blank r end.

Definition snoc (s : string) (c : ascii) : string := String.append s (String c EmptyString).

(** [s.split()]; [cur] is the word being read *)
Definition flush (cur : string) (l : list string) : list string :=
  match cur with EmptyString => l | _ => cur :: l end.
(** [str.split()] *)
Fixpoint split_ws (cur s : string) : list string :=
  match s with
  | EmptyString => flush cur []
  | String c r => if is_space c then flush cur (split_ws EmptyString r) else split_ws (snoc cur c) r
  end.
Definition split (s : string) : list string := split_ws EmptyString s.

(** [str.split] at line breaks *)
Definition newline : ascii := "010".
(** [s.split('\n')] *)
Fixpoint split_on (sep : ascii) (cur s : string) : list string :=
  match s with
  | EmptyString => [cur]
  | String c r => if Ascii.eqb c sep then cur :: split_on sep EmptyString r else split_on sep (snoc cur c) r
  end.
Definition split_lines (s : string) : list string := split_on newline EmptyString s.

(** [s.lower()] *)
Definition lower_ch (c : ascii) : ascii :=
  let n := code c in
  if ((65 <=? n) && (n <=? 90)) || ((192 <=? n) && (n <=? 222) && negb (n =? 215))
  then ascii_of_N (Z.to_N (n + 32)) else c.
(** [str.lower] *)
Fixpoint lower (s : string) : string :=
  match s with EmptyString => EmptyString | String c r => String (lower_ch c) (lower r) end.

(** Numbers in text. *)
Definition digit_val (c : ascii) : option Z :=
  let n := code c in if (48 <=? n) && (n <=? 57) then Some (n - 48) else None.
(** Reading digits for [int] and [float]. *)
Fixpoint span_digits (s : string) : list Z * string :=
  match s with
  | EmptyString => ([], s)
  | String c r => match digit_val c with
                  | Some d => let '(ds, t) := span_digits r in (d :: ds, t)
                  | None => ([], s)
                  end
  end.
Definition digits_val (ds : list Z) : Z := fold_left (fun a d => 10 * a + d) ds 0.

(** [str.lstrip] *)
Fixpoint lstrip (s : string) : string :=
  match s with String c r => if is_space c then lstrip r else s | EmptyString => s end.
(** optional sign *)
Definition read_sign (s : string) : Z * string :=
  match s with
  | String c r => if Ascii.eqb c "-" then (-1, r) else if Ascii.eqb c "+" then (1, r) else (1, s)
  | EmptyString => (1, s)
  end.

(** m * 10^e *)
Definition scale10 (m e : Z) : Qc :=
  if 0 <=? e then Zc (m * Zpos (pow10 (Z.to_nat e))) else Q2Qc (m # pow10 (Z.to_nat (- e))).

(** exponent part; [None] if the text goes on in another way *)
Definition read_exp (s : string) : Z * string :=
  match s with
  | String c r =>
      if Ascii.eqb c "e" || Ascii.eqb c "E" then
        let '(sg, r1) := read_sign r in
        match span_digits r1 with ([], _) => (0, s) | (ds, r2) => (sg * digits_val ds, r2) end
      else (0, s)
  | EmptyString => (0, s)
  end.

(** [float(s)] *)
Definition parse_float (s : string) : res Qc :=
  let '(sg, s1) := read_sign (lstrip s) in
  let '(ip, s2) := span_digits s1 in
  let '(fp, s3) := match s2 with
                   | String c r => if Ascii.eqb c "." then span_digits r else ([], s2)
                   | EmptyString => ([], s2) end in
  match (ip ++ fp)%list with
  | [] => Raise ValueError
  | ds => let '(e, s4) := read_exp s3 in
          if blank s4 then Ok (scale10 (sg * digits_val ds) (e - Z.of_nat (List.length fp))) else Raise ValueError
  end.

(** [int(s)] *)
Definition parse_int (s : string) : res Z :=
  let '(sg, s1) := read_sign (lstrip s) in
  match span_digits s1 with
  | ([], _) => Raise ValueError
  | (ds, s2) => if blank s2 then Ok (sg * digits_val ds) else Raise ValueError
  end.

(** Decimal digits of a non-negative integer, at least one. *)
Definition decN (z : Z) : string := DecimalString.NilEmpty.string_of_uint (N.to_uint (Z.to_N z)).
(** Exactly [k] digits. *)
Definition digit_char (d : Z) : ascii := ascii_of_N (Z.to_N (48 + d)).
(** decimals of ['%.kf'] *)
Fixpoint fixed (k : nat) (z : Z) : string :=
  match k with O => EmptyString | S k' => snoc (fixed k' (z / 10)) (digit_char (z mod 10)) end.

(** Padding of formatted numbers. *)
Fixpoint spaces (n : nat) : string := match n with O => EmptyString | S k => String " " (spaces k) end.
Definition pad_left (w : nat) (s : string) : string := String.append (spaces (w - String.length s)) s.

(** ["{:10.6f}".format(x)]: rounding half to even; a negative number keeps its sign even if
    it rounds to zero. *)
Definition format_10_6f (x : Qc) : string :=
  let neg := Qcltb x 0%Qc in
  let ax := if neg then (- x)%Qc else x in
  let m := round_even (ax * Zc (Zpos (pow10 6)))%Qc in
  pad_left 10 (String.append (if neg then "-" else "")
    (String.append (decN (m / Zpos (pow10 6))) (String "." (fixed 6 (m mod Zpos (pow10 6)))))).

(** [fnmatch(name, pat)] for patterns whose only special character is "*" (on systems
    where [os.path.normcase] is the identity) *)
Fixpoint glob (pat name : string) {struct pat} : bool :=
  match pat with
  | EmptyString => match name with EmptyString => true | _ => false end
  | String p pat' =>
      if Ascii.eqb p "*" then
        (fix star (n : string) : bool :=
           glob pat' n || match n with String _ r => star r | EmptyString => false end) name
      else match name with
           | String c r => Ascii.eqb p c && glob pat' r
           | EmptyString => false
           end
  end.
