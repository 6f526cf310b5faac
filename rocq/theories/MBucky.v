(** Model of the buckyball [Structure] (/repo/ababe/stru/buckyball.py:22-213).
    The hash [xxhash.xxh32(...).intdigest()] is the argument [h]; dictionaries used as sets
    are lists of keys; the consumer of a generator does not modify the yielded arrays.
    [get_spacegroup], [get_symmetry] (spglib) and [get_name] (bytes) are not modelled. *)
From Verif Require Import Base BaseQ MComb MSort MBuckyTable.
Set Implicit Arguments.

(** buckyball.py:91-93: around to five decimals, then [round(x % 1, 3)]. *)
Definition bucky_tofrac1 (x : Qc) : Qc := around 3 (mod1 (around 5 x)).

(** buckyball.py:83-99 [_get_new_id_seq]; the argument [numbers] is unused. *)
Definition bucky_new_id_seq (pos : list (vec Qc)) : list nat :=
  lexsort (List.map (vmap bucky_tofrac1) pos).

(** buckyball.py:27-39 attributes *)
Record bucky := mkBucky {
  b_lattice : mat Qc;
  b_positions : list (vec Qc);
  b_numbers : list Z;
  b_sym_perm : list (list nat)
}.

(** buckyball.py:27-39 [__init__]: the positions are sorted, the numbers are not; no
    length check. *)
Definition Structure_new (nums : list Z) : res bucky :=
  let init_index := bucky_new_id_seq bucky_json_positions in
  do p <- take_idx bucky_json_positions init_index;
  Ok (mkBucky bucky_lattice p nums bucky_perm_table).

(** buckyball.py:48-54 [get_speckle_num]: one entry of the [Counter]. *)
Definition b_speckle_num (s : bucky) (sp : Z) : nat :=
  fold_left (fun n x => if Z.eqb x sp then S n else n) (b_numbers s) 0%nat.

(** buckyball.py:109-116 [to_gen] *)
Definition b_to_gen (s : bucky) : trace (list Z) := mkTrace [b_numbers s] None.

(** buckyball.py:118-131 [gen_speckle] *)
Definition gen_speckle (sp noa : Z) : trace (list Z) :=
  match combinations (range 60) noa with
  | Raise e => mkTrace [] (Some e)
  | Ok combs => gen_map (fun comb_index => put (repeat 6%Z 60) comb_index sp) combs
  end.

(** buckyball.py:133-140 [help_add_one_speckle] *)
Definition help_add_one_speckle (l : list Z) (sp : Z) : trace (list Z) :=
  gen_map (fun iv => set_nth l (fst iv) sp) (List.filter (fun iv => negb (Z.eqb (snd iv) sp)) (enumerate l)).

(** buckyball.py:152-161, the loop over one array; the state is [idy_seq]. *)
Fixpoint b_add_inner (h : list Z -> Z) (s_atoms : list Z) (atom : Z) (idy_seq : list Z)
    (entries : list (nat * Z)) : list (list Z) * list Z * option exn :=
  match entries with
  | [] => ([], idy_seq, None)
  | (index, val) :: rest =>
      if negb (Z.eqb val atom) then
        match set_nth s_atoms index atom with
        | Raise e => ([], idy_seq, Some e)
        | Ok arr_new =>
            let arr_idy := h arr_new in
            if memZ arr_idy idy_seq then b_add_inner h s_atoms atom idy_seq rest
            else
              let '(l, db, e) := b_add_inner h s_atoms atom (arr_idy :: idy_seq) rest in
              (arr_new :: l, db, e)
        end
      else b_add_inner h s_atoms atom idy_seq rest
  end.

(** buckyball.py:142-161 [add_one_speckle_generator] *)
Fixpoint b_add_outer (h : list Z -> Z) (atom : Z) (idy_seq : list Z) (gen : list (list Z))
    (fin : option exn) : trace (list Z) :=
  match gen with
  | [] => mkTrace [] fin
  | s_atoms :: rest =>
      let '(l, db, e) := b_add_inner h s_atoms atom idy_seq (enumerate s_atoms) in
      match e with
      | Some _ => mkTrace l e
      | None => let r := b_add_outer h atom db rest fin in mkTrace (l ++ items r) (stop r)
      end
  end.
(** buckyball.py:142-161, the generator *)
Definition add_one_speckle_generator (h : list Z -> Z) (gen : trace (list Z)) (sp : Z) : trace (list Z) :=
  b_add_outer h sp [] (items gen) (stop gen).

(** buckyball.py:173-177 [_update_isoset] *)
Fixpoint b_update_isoset (h : list Z -> Z) (isoset : list Z) (atoms : list Z) (perms : list (list nat)) : res (list Z) :=
  match perms with
  | [] => Ok isoset
  | ind :: rest =>
      do atoms_new <- take_idx atoms ind;
      b_update_isoset h (h atoms_new :: isoset) atoms rest
  end.

(** buckyball.py:189-194: the loop of [to_nodup_generator]. *)
Fixpoint b_nodup_loop (h : list Z -> Z) (perms : list (list nat)) (isoset : list Z)
    (dup : list (list Z)) (fin : option exn) : trace (list Z) :=
  match dup with
  | [] => mkTrace [] fin
  | atoms :: rest =>
      if memZ (h atoms) isoset then b_nodup_loop h perms isoset rest fin
      else
        match b_update_isoset h isoset atoms perms with
        | Raise e => mkTrace [atoms] (Some e)
        | Ok isoset' => let r := b_nodup_loop h perms isoset' rest fin in mkTrace (atoms :: items r) (stop r)
        end
  end.

(** buckyball.py:181-194 [to_nodup_generator] *)
Definition to_nodup_generator (h : list Z -> Z) (s : bucky) (dup_gen : trace (list Z)) : trace (list Z) :=
  b_nodup_loop h (b_sym_perm s) [] (items dup_gen) (stop dup_gen).

(** buckyball.py:196-199 [nodup_generator]: the name [atoms] is not bound. *)
Definition b_nodup_generator : trace (list Z) := mkTrace [] (Some NameError).

(** buckyball.py:208-213: the loop over levels. *)
Fixpoint b_levels (step : trace (list Z) -> trace (list Z)) (count : nat) (gen : trace (list Z)) : list (trace (list Z)) :=
  match count with
  | O => []
  | S k => let g := step gen in g :: b_levels step k g
  end.

(** buckyball.py:201-213 [all_speckle_gen]: the initial decoration first, then one
    generator per value of [range(n_init, n_max)]. *)
Definition b_all_speckle_gen (h : list Z -> Z) (s : bucky) (n_max sp : Z) : list (trace (list Z)) :=
  let gen := b_to_gen s in
  gen :: b_levels (fun g => to_nodup_generator h s (add_one_speckle_generator h g sp))
           (Z.to_nat (n_max - Z.of_nat (b_speckle_num s sp))) gen.
