(** Property C91: exactly which texts are read as numbers and as structures, what is read,
    and which errors the others give. *)
From Coq Require Import String Ascii.
From Verif Require Import Base LBase BaseQ MElement MGeneralCell MText MIO SElement SLattice SIO SNum LText LIO3 LNum.
Notation length := List.length.
Open Scope string_scope.
Open Scope list_scope.
Open Scope Z_scope.

(** Decimal numbers. *)
Theorem C91_float : forall s x, parse_float s = Ok x <-> float_text s x.
Proof. exact parse_float_iff. Qed.
Print Assumptions C91_float.

(** Whole numbers. *)
Theorem C91_int : forall s z, parse_int s = Ok z <-> int_text s z.
Proof. exact parse_int_iff. Qed.
Print Assumptions C91_int.

(** Every other text is a ValueError. *)
Theorem C91_no_number : forall s, (forall e, parse_float s = Raise e -> e = ValueError) /\ (forall e, parse_int s = Raise e -> e = ValueError).
Proof. exact (fun s => conj (parse_float_only (s := s)) (parse_int_only (s := s))). Qed.
Print Assumptions C91_no_number.

(** Words. *)
Theorem C91_words : forall s ws, split s = ws <-> fields ws s.
Proof. exact (fun s ws => split_iff s ws). Qed.
Print Assumptions C91_words.

(** Structures: a result is returned exactly for the accepted texts, and it is the written
    structure with rounded lattice times the scale factor and rounded coordinates. *)
Theorem C91_reading : forall cbrt content lat' pos' nums,
  from_string cbrt content = Ok (lat', pos', nums) <->
  exists scale lat lat4 f pos, accepted content scale lat nums pos /\
    vrounded 4 (vx lat) (vx lat4) /\ vrounded 4 (vy lat) (vy lat4) /\ vrounded 4 (vz lat) (vz lat4) /\
    factor cbrt scale lat4 f /\ scaled f lat4 lat' /\ Forall2 (vrounded 4) pos pos'.
Proof. exact reading_iff. Qed.
Print Assumptions C91_reading.

(** A cell results exactly from an accepted text with at least one coordinate row and at
    most as many rows as atoms announced. *)
Theorem C91_cell : forall cbrt content, (exists g, vasp_get_cell cbrt content = Ok g) <->
  exists scale lat nums pos, accepted content scale lat nums pos /\ pos <> [] /\ (length pos <= length nums)%nat.
Proof. exact cell_iff. Qed.
Print Assumptions C91_cell.

(** Every other text is refused, with the error of the first thing wrong. *)
Theorem C91_errors : forall cbrt content e, vasp_get_cell cbrt content = Raise e <->
  exists all ls, content = String.concat (String "010" "") all /\ Forall one_line all /\ kept all ls /\ refused ls e.
Proof. exact cell_errors. Qed.
Print Assumptions C91_errors.

(** Texts of lines. *)
Definition nl : string := String "010" "".
Definition good : string :=
  String.concat nl ["salt"; " +1.5e0 "; "2 0 0"; "0. 2. 0"; ".0 0 200.0E-2"; ""; "Na Cl"; "2 1"; "Direct"; "0 0 0 Na"; "0.5 0.5 0 Na"; "0 .5 5e-1"]%string.
(** The same without its last line. *)
Definition cut : string :=
  String.concat nl ["salt"; " +1.5e0 "; "2 0 0"; "0. 2. 0"; ".0 0 200.0E-2"; ""; "Na Cl"; "2 1"; "Direct"; "0 0 0 Na"; "0.5 0.5 0 Na"]%string.
(** A negative count and no mode line. *)
Definition odd : string := String.concat nl ["x"; "1"; "2 0 0"; "0 2 0"; "0 0 2"; "Na Cl"; "-3 1"]%string.
Definition listed {A} (v : vec A) : list A := [vx v; vy v; vz v].
Definition shown (r : res gcell) : res (list (list Q) * list (list Q) * list Z) :=
  match r with
  | Ok g => Ok (map listed (listed (vmap (vmap this) (lattice g))), map (fun v => listed (vmap this v)) (positions g), numbers g)
  | Raise e => Raise e
  end.

(** A truncated file - announced atoms without coordinates - is read without an error; the
    surplus atoms are dropped. *)
Theorem C91_truncated_refuted : exists cbrt content scale lat nums pos g,
  accepted content scale lat nums pos /\ (length pos < length nums)%nat /\
  vasp_get_cell cbrt content = Ok g /\ length (numbers g) = length pos.
Proof.
  assert (S : match from_string (fun x => x) cut with Ok (_, pos, nums) => (length pos =? 2) && (length nums =? 3) | _ => false end%nat = true) by (vm_compute; reflexivity).
  destruct (from_string (fun x => x) cut) as [[[lat' pos'] nums]|] eqn:E; [|discriminate S].
  assert (E' := E). apply C91_reading in E'. destruct E' as (scale & lat & lat4 & f & pos & A & _ & _ & _ & _ & _ & R).
  apply andb_prop in S. destruct S as [S1 S2]. apply Nat.eqb_eq in S1, S2. apply Forall2_len in R.
  assert (G : match vasp_get_cell (fun x => x) cut with Ok g => (length (numbers g) =? 2)%nat | _ => false end = true) by (vm_compute; reflexivity).
  destruct (vasp_get_cell (fun x => x) cut) as [g|] eqn:V; [|discriminate G]. apply Nat.eqb_eq in G.
  exists (fun x => x), cut, scale, lat, nums, pos, g. split; [exact A|]. split; [rewrite R, S1, S2; repeat constructor|]. split; [exact V|]. rewrite G, R, S1. reflexivity.
Qed.
Print Assumptions C91_truncated_refuted.
(** So is a negative count. *)
Theorem C91_negative_refuted : exists cbrt content lat pos nums, from_string cbrt content = Ok (lat, pos, nums) /\
  exists l, In l (split_lines content) /\ exists w, In w (split l) /\ parse_int w = Ok (-3).
Proof.
  destruct (from_string (fun x => x) odd) as [[[lat' pos'] nums]|] eqn:E; [|vm_compute in E; discriminate E].
  exists (fun x => x), odd, lat', pos', nums. split; [exact E|]. exists "-3 1"%string. split; [vm_compute; tauto|]. exists "-3"%string. split; vm_compute; auto.
Qed.
Print Assumptions C91_negative_refuted.

Definition thisr (r : res Qc) : option Q := match r with Ok x => Some (this x) | _ => None end.
Example C91_numbers_ex :
  map (fun s => thisr (parse_float s)) [" +1.5e-3 "; "1."; ".5"; "-7"; "2E+1"]%string = map Some [3 # 2000; 1; 1 # 2; -7 # 1; 20]%Q /\
  map parse_float ["1e"; ""; "."; "1.2.3"; "- 1"; "e5"; "0x1"]%string = repeat (Raise ValueError) 7 /\
  map parse_int [" -7 "; "+12"; "007"]%string = [Ok (-7); Ok 12; Ok 7] /\
  map parse_int ["1.0"; "1e3"; ""; "-"]%string = repeat (Raise ValueError) 4 /\
  split " a  bc d " = ["a"; "bc"; "d"]%string.
Proof. vm_compute. repeat split. Qed.
Example C91_good_ex : shown (vasp_get_cell (fun x => x) good) =
    Ok ([[3; 0; 0]; [0; 3; 0]; [0; 0; 3]], [[0; 0; 0]; [0; 1 # 2; 1 # 2]; [1 # 2; 1 # 2; 0]], [11%Z; 17%Z; 11%Z])%Q /\
  (exists scale lat nums pos, accepted good scale lat nums pos /\ length pos = 3%nat /\ nums = [11; 11; 17]).
Proof.
  split; [vm_compute; reflexivity|].
  assert (S : match from_string (fun x => x) good with Ok (_, pos, nums) => (length pos =? 3)%nat && (if list_eq_dec Z.eq_dec nums [11; 11; 17] then true else false) | _ => false end = true) by (vm_compute; reflexivity).
  destruct (from_string (fun x => x) good) as [[[lat' pos'] nums]|] eqn:E; [|discriminate S].
  apply C91_reading in E. destruct E as (scale & lat & lat4 & f & pos & A & _ & _ & _ & _ & _ & R).
  apply andb_prop in S. destruct S as [S1 S2]. apply Nat.eqb_eq in S1. apply Forall2_len in R.
  destruct (list_eq_dec Z.eq_dec nums [11; 11; 17]) as [N|]; [|discriminate S2].
  exists scale, lat, nums, pos. split; [exact A|]. split; [rewrite R; exact S1|exact N].
Qed.
Definition broken (ls : list string) : res (list (list Q) * list (list Q) * list Z) := shown (vasp_get_cell (fun x => x) (String.concat nl ls)).
Example C91_errors_ex :
  broken ["x"; "1"; "2 0 0"; "0 2 0"; "0 0 2"; "Na"]%string = Raise IndexError /\
  broken ["x"; "1"; "2 0 0"; "0 2"; "0 0 2"; "Na"; "1"; "Direct"; "0 0 0"]%string = Raise ValueError /\
  broken ["x"; "1"; "2 0 0"; "0 2 0"; "0 0 2"; "Qq"; "1"; "Direct"; "0 0 0"]%string = Raise KeyError /\
  broken ["x"; "1"; "2 0 0"; "0 2 0"; "0 0 2"; "Na"; "1"; "Direct"; "0 0 0"; "0 0 .5"]%string = Raise IndexError /\
  broken ["x"; "1"; "2 0 0"; "0 2 0"; "0 0 2"; "Na"; "1"; "Direct"]%string = Raise ValueError.
Proof. vm_compute. repeat split. Qed.
