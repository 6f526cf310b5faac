(** Model of [OccupyGenerator] (/repo/ababe/stru/sogen.py:22-242).
    The hash ([xxhash.xxh64(...).intdigest()]) is the argument [h].  Dictionaries used as
    sets (isoset, id_db) are lists of keys.  [ProgressBar] wraps an iterator without
    changing it.  Printing is not modelled. *)
From Coq Require Import String.
From Verif Require Import Base BaseQ MComb MGeneralCell.
Set Implicit Arguments.

(** sogen.py:33-40 [OccupyGenerator.__init__]: the cell, its symmetry permutations and
    Wyckoff letters. *)
Record occ := mkOcc {
  init_cell : gcell;
  sym_perm : list (list nat);
  wyckoffs : list string
}.
(** [ops] and [wy] are what spglib returned for the cell. *)
Definition OccupyGenerator_new (ops : list symop) (wy : list string) (c : gcell) : res occ :=
  do perms <- get_symmetry_permutation ops c;
  Ok (mkOcc c perms wy).

(** [np.array_equal] *)
Definition array_equal (a b : list Z) : bool := if list_eq_dec Z.eq_dec a b then true else false.

(** sogen.py:42-50 [is_equivalent] *)
Fixpoint is_equivalent_loop (perms : list (list nat)) (ni no : list Z) : res bool :=
  match perms with
  | [] => Ok false
  | perm :: rest =>
      do new_numbers <- take_idx ni perm;
      if array_equal new_numbers no then Ok true else is_equivalent_loop rest ni no
  end.
(** sogen.py:42-50 *)
Definition is_equivalent (o : occ) (cell_i cell_other : gcell) : res bool :=
  is_equivalent_loop (sym_perm o) (numbers cell_i) (numbers cell_other).

(** One yielded structure: sogen.py:58-61. *)
Definition put_cell (o : occ) (v : Z) (comb_index : list nat) : res gcell :=
  do nums <- put (numbers (init_cell o)) comb_index v;
  GeneralCell_new (lattice (init_cell o)) (positions (init_cell o)) nums.

(** a generator expression over a list *)
Definition gen_of {A B} (f : A -> res B) (src : res (list A)) : trace B :=
  match src with Raise e => mkTrace [] (Some e) | Ok l => gen_map f l end.

(** sogen.py:52-61 [gen_dup_unitary] *)
Definition gen_dup_unitary (o : occ) (n : Z) (sp : Z) : trace gcell :=
  let num_count := length (numbers (init_cell o)) in
  gen_of (put_cell o sp) (combinations (range num_count) n).

(** sogen.py:77-87 [gen_dup]; [w is wy] compares interned one-character strings. *)
Definition gen_dup (o : occ) (wy : string) (n : Z) (sp : Z) : trace gcell :=
  let sp_ind := List.map fst (List.filter (fun iw => String.eqb (snd iw) wy) (enumerate (wyckoffs o))) in
  gen_of (put_cell o sp) (combinations sp_ind n).

(** sogen.py:93-105 [gen_dup_of_ele] *)
Definition gen_dup_of_ele (o : occ) (ele : Z) (n : Z) (sp : Z) : trace gcell :=
  let sp_ind := List.map fst (List.filter (fun ie => Z.eqb (snd ie) ele) (enumerate (numbers (init_cell o)))) in
  gen_of (put_cell o sp) (combinations sp_ind n).

(** sogen.py:121-125: [for i1, i2 in zip_longest(c1, c2)]. *)
Fixpoint put2 (nums : list Z) (c1 c2 : list nat) (v1 v2 : Z) : res (list Z) :=
  match c1, c2 with
  | [], _ => put nums c2 v2
  | i1 :: t1, [] => do nums <- set_nth nums i1 v1; put2 nums t1 [] v1 v2
  | i1 :: t1, i2 :: t2 =>
      do nums <- set_nth nums i1 v1; do nums <- set_nth nums i2 v2; put2 nums t1 t2 v1 v2
  end.

(** Sequential generators: run [f] on the items of the source, concatenating. *)
Fixpoint gen_flat {A B} (f : A -> trace B) (l : list A) : trace B :=
  match l with
  | [] => mkTrace [] None
  | x :: t =>
      let r := f x in
      match stop r with
      | Some e => mkTrace (items r) (Some e)
      | None => let r' := gen_flat f t in mkTrace (items r ++ items r') (stop r')
      end
  end.

(** sogen.py:111-126 [_gen_dup_trinary_alloy] *)
Definition gen_dup_trinary_alloy (o : occ) (sp1 n1 sp2 n2 : Z) : trace gcell :=
  let init_numbers := numbers (init_cell o) in
  let sp_ind_origin := range (length init_numbers) in
  match combinations sp_ind_origin n1 with
  | Raise e => mkTrace [] (Some e)
  | Ok combs1 =>
      gen_flat (fun c1 =>
        let sp_ind_bin := List.filter (fun x => negb (existsb (Nat.eqb x) c1)) sp_ind_origin in
        gen_of (fun c2 =>
          do nums <- put2 init_numbers c1 c2 sp1 sp2;
          GeneralCell_new (lattice (init_cell o)) (positions (init_cell o)) nums)
          (combinations sp_ind_bin n2)) combs1
  end.

(** sogen.py:198-203 [_update_isoset] *)
Fixpoint update_isoset (h : list Z -> Z) (isoset : list Z) (nums : list Z) (perms : list (list nat)) : res (list Z) :=
  match perms with
  | [] => Ok isoset
  | ind :: rest =>
      do numbers_new <- take_idx nums ind;
      update_isoset h (h numbers_new :: isoset) nums rest
  end.

(** sogen.py:184-196 [gen_2nodup_gen].  [act] is what the consumer does to the yielded
    object before asking for the next one (the object is the one whose [numbers] are
    registered afterwards). *)
Fixpoint nodup_loop (h : list Z -> Z) (perms : list (list nat)) (act : gcell -> gcell)
    (isoset : list Z) (cells : list gcell) (fin : option exn) : trace gcell :=
  match cells with
  | [] => mkTrace [] fin
  | cell :: rest =>
      if memZ (cell_id h cell) isoset then nodup_loop h perms act isoset rest fin
      else
        match update_isoset h isoset (numbers (act cell)) perms with
        | Raise e => mkTrace [cell] (Some e)
        | Ok isoset' =>
            let r := nodup_loop h perms act isoset' rest fin in
            mkTrace (cell :: items r) (stop r)
        end
  end.
(** sogen.py:184-196 with a consumer *)
Definition gen_2nodup_gen_with (h : list Z -> Z) (o : occ) (act : gcell -> gcell) (dup : trace gcell) : trace gcell :=
  nodup_loop h (sym_perm o) act [] (items dup) (stop dup).
(** sogen.py:184-196 *)
Definition gen_2nodup_gen (h : list Z -> Z) (o : occ) (dup : trace gcell) : trace gcell :=
  gen_2nodup_gen_with h o (fun c => c) dup.

(** sogen.py:63-75, 89-91, 107-109, 129-131 *)
Definition gen_nodup_unitary h o n sp := gen_2nodup_gen h o (gen_dup_unitary o n sp).
(** sogen.py:89-91 *)
Definition gen_nodup h o wy n sp := gen_2nodup_gen h o (gen_dup o wy n sp).
(** sogen.py:107-109 *)
Definition gen_nodup_of_ele h o ele n sp := gen_2nodup_gen h o (gen_dup_of_ele o ele n sp).
(** sogen.py:129-131 *)
Definition gen_nodup_trinary_alloy h o sp1 n1 sp2 n2 := gen_2nodup_gen h o (gen_dup_trinary_alloy o sp1 n1 sp2 n2).

(** Inner loop of the three add-one-speckle generators (sogen.py:143-151, 157-166,
    174-182): [cond] is the [if] test on (index, value); state is [id_db]. *)
Fixpoint add_one_inner (h : list Z -> Z) (cell : gcell) (atom : Z) (cond : nat -> Z -> bool)
    (id_db : list Z) (entries : list (nat * Z)) : list gcell * list Z * option exn :=
  match entries with
  | [] => ([], id_db, None)
  | (index, val) :: rest =>
      if cond index val then
        match set_nth (numbers cell) index atom with
        | Raise e => ([], id_db, Some e)
        | Ok numbers_new =>
            let num_id := h numbers_new in
            if memZ num_id id_db then add_one_inner h cell atom cond id_db rest
            else
              match GeneralCell_new (lattice cell) (positions cell) numbers_new with
              | Raise e => ([], id_db, Some e)
              | Ok c =>
                  let '(l, db, e) := add_one_inner h cell atom cond (num_id :: id_db) rest in
                  (c :: l, db, e)
              end
        end
      else add_one_inner h cell atom cond id_db rest
  end.

(** Outer loop [for cell in gen]. *)
Fixpoint add_one_outer (h : list Z -> Z) (atom : Z) (cond : nat -> Z -> bool)
    (id_db : list Z) (cells : list gcell) (fin : option exn) : trace gcell :=
  match cells with
  | [] => mkTrace [] fin
  | cell :: rest =>
      let '(l, db, e) := add_one_inner h cell atom cond id_db (enumerate (numbers cell)) in
      match e with
      | Some _ => mkTrace l e
      | None => let r := add_one_outer h atom cond db rest fin in mkTrace (l ++ items r) (stop r)
      end
  end.

(** sogen.py:133-151 [gen_add_one_speckle_unitary] *)
Definition cond_unitary (atom : Z) (index : nat) (val : Z) : bool := negb (Z.eqb atom val).
(** sogen.py:133-151 *)
Definition gen_add_one_speckle_unitary h (gen : trace gcell) (sp : Z) : trace gcell :=
  add_one_outer h sp (cond_unitary sp) [] (items gen) (stop gen).

(** sogen.py:153-166 [gen_add_one_speckle]; [zip(self.wyckoffs, cell.numbers)] stops at the
    shorter list. *)
Definition cond_wy (o : occ) (wy : string) (atom : Z) (index : nat) (val : Z) : bool :=
  match nth_error (wyckoffs o) index with
  | Some w => String.eqb w wy && negb (Z.eqb atom val)
  | None => false
  end.
(** sogen.py:153-166 *)
Definition gen_add_one_speckle h (o : occ) (gen : trace gcell) (wy : string) (sp : Z) : trace gcell :=
  add_one_outer h sp (cond_wy o wy sp) [] (items gen) (stop gen).

(** sogen.py:168-182 [gen_add_one_speckle_of_ele] *)
Definition cond_ele (ele atom : Z) (index : nat) (val : Z) : bool := Z.eqb val ele && negb (Z.eqb val atom).
(** sogen.py:168-182 *)
Definition gen_add_one_speckle_of_ele h (gen : trace gcell) (ele sp : Z) : trace gcell :=
  add_one_outer h sp (cond_ele ele sp) [] (items gen) (stop gen).

(** sogen.py:205-242 [all_speckle_gen_unitary], [all_speckle_gen], [all_speckle_gen_of_ele]:
    the list of what each yielded level generator delivers.  [tee] hands the same items to
    the caller and to the next level (interleavings are treated in [MTee]). *)
Fixpoint levels (step : trace gcell -> trace gcell) (count : nat) (gen : trace gcell) : list (trace gcell) :=
  match count with
  | O => []
  | S k => let g := step gen in g :: levels step k g
  end.
(** sogen.py:205-242: number of rounds of the loop *)
Definition num_levels (o : occ) (n sp : Z) : nat :=
  Z.to_nat (n - Z.of_nat (get_speckle_num (init_cell o) sp)).

(** sogen.py:205-218 *)
Definition all_speckle_gen_unitary h (o : occ) (n sp : Z) : list (trace gcell) :=
  levels (fun gen => gen_2nodup_gen h o (gen_add_one_speckle_unitary h gen sp))
    (num_levels o n sp) (mkTrace [init_cell o] None).
(** sogen.py:220-230 *)
Definition all_speckle_gen h (o : occ) (n : Z) (wy : string) (sp : Z) : list (trace gcell) :=
  levels (fun gen => gen_2nodup_gen h o (gen_add_one_speckle h o gen wy sp))
    (num_levels o n sp) (mkTrace [init_cell o] None).
(** sogen.py:232-242 *)
Definition all_speckle_gen_of_ele h (o : occ) (n ele sp : Z) : list (trace gcell) :=
  levels (fun gen => gen_2nodup_gen h o (gen_add_one_speckle_of_ele h gen ele sp))
    (num_levels o n sp) (mkTrace [init_cell o] None).
