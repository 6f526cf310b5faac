(** Model of [GeneralCell] (/repo/ababe/stru/scaffold.py:245-468).
    Simplifications: numpy arrays are lists; floats are exact rationals; the attribute
    [symprec] is only handed to spglib and is not modelled; spglib results are explicit
    arguments. *)
From Coq Require Import String.
From Coq Require DecimalString.
From Verif Require Import Base BaseQ MElement MSort.
Set Implicit Arguments.

(** scaffold.py:276-278: [np.around(pos, decimals=3)], then [round(x % 1, 3)]. *)
Definition tofrac1 (x : Qc) : Qc := around 3 (mod1 (around 3 x)).
(** scaffold.py:276-278 on one position *)
Definition tofrac (p : vec Qc) : vec Qc := vmap tofrac1 p.

(** scaffold.py:268-284 [_get_new_id_seq]; [np.vectorize] raises ValueError on an
    empty array. *)
Definition get_new_id_seq (pos : list (vec Qc)) : res (list nat) :=
  match pos with
  | [] => Raise ValueError
  | _ => Ok (lexsort (List.map tofrac pos))
  end.

(** scaffold.py:250-260 attributes *)
Record gcell := mkG {
  lattice : mat Qc;
  positions : list (vec Qc);
  numbers : list Z;
  spg_cell : mat Qc * list (vec Qc) * list Z;
  num_count : nat
}.

(** scaffold.py:250-260 [__init__]; fancy indexing raises IndexError when out of range;
    [num_count] is the size of the argument array. *)
Definition GeneralCell_new (lat : mat Qc) (pos : list (vec Qc)) (nums : list Z) : res gcell :=
  do init_index <- get_new_id_seq pos;
  do p <- take_idx pos init_index;
  do n <- take_idx nums init_index;
  Ok (mkG lat p n (lat, p, n) (length nums)).

(** scaffold.py:262-266 [get_speckle_num]: [Counter(self.numbers)[sp.Z]]; the entry of
    the counter for one key, updated along the list (0 when absent). *)
Definition get_speckle_num (c : gcell) (z : Z) : nat :=
  fold_left (fun n x => if Z.eqb x z then S n else n) (numbers c) 0%nat.

(** scaffold.py:302-304 setter [numbers]: only [_numbers] is rebound. *)
Definition set_numbers (c : gcell) (arr : list Z) : gcell :=
  mkG (lattice c) (positions c) arr (spg_cell c) (num_count c).

(** scaffold.py:309-311 [Counter(names)]: association list in order of first occurrence. *)
Fixpoint counter_add (k : string) (d : list (string * nat)) : list (string * nat) :=
  match d with
  | [] => [(k, 1%nat)]
  | (k', v) :: t => if String.eqb k k' then (k', S v) :: t else (k', v) :: counter_add k t
  end.
(** scaffold.py:311 [Counter] *)
Definition counter (names : list string) : list (string * nat) :=
  fold_left (fun d k => counter_add k d) names [].

(** scaffold.py:312-313 sort key [Specie(x[0]).Z]; the names come from [to_name], so the
    lookup cannot fail and the default is never used. *)
Definition name_Z (k : string) : Z :=
  match Specie_new k with Ok s => sp_Z s | Raise _ => 0%Z end.

(** Decimal text of a count ([format]). *)
Definition dec (n : nat) : string := DecimalString.NilEmpty.string_of_uint (Nat.to_uint n).

(** scaffold.py:306-319 [comment] *)
Definition comment (c : gcell) : res string :=
  do names <- mapM to_name (numbers c);
  let d := counter names in
  let ordered := isort (fun a b => Z.leb (name_Z (fst a)) (name_Z (fst b))) d in
  let no_ghost := List.filter (fun kv => negb (String.eqb (fst kv) "G")) ordered in
  Ok (String.concat "" (List.map (fun kv => String.append (fst kv) (dec (snd kv))) no_ghost)).

(** scaffold.py:328-331 [id]: hash of the number array; the hash function is an argument. *)
Definition cell_id (h : list Z -> Z) (c : gcell) : Z := h (numbers c).

(** A symmetry operation as reported by spglib: integer rotation, translation. *)
Definition symop := (mat Z * vec Qc)%type.

(** scaffold.py:358 [np.transpose(np.matmul(r, self._positions.T)) + t] *)
Definition apply_op (o : symop) (p : vec Qc) : vec Qc := vadd (mat_vec (matZ (fst o)) p) (snd o).

(** scaffold.py:347-362 [get_symmetry_permutation]; [ops] is what spglib returned for
    [_spg_cell]. *)
Definition get_symmetry_permutation (ops : list symop) (c : gcell) : res (list (list nat)) :=
  mapM (fun o => get_new_id_seq (List.map (apply_op o) (positions c))) ops.

(** scaffold.py:419-433 [get_cartesian] with an element: [p[np.where(numbers == e)[0]]]. *)
Definition get_cartesian (c : gcell) (ele : option Z) : res (list (vec Qc)) :=
  do p_target <-
    (match ele with
     | None => Ok (positions c)
     | Some e =>
         take_idx (positions c)
           (List.map fst (List.filter (fun iz => Z.eqb (snd iz) e) (enumerate (numbers c))))
     end);
  Ok (List.map (fun p => vec_mat p (lattice c)) p_target).
