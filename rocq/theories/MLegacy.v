(** Model of the grid-based part of sogen.py (/repo/ababe/stru/sogen.py:245-425).
    [ops] is what spglib's [get_symmetry] returned.  All grids live in one heap; the heap
    after the enumeration is used for reading (nothing is written to existing grids). *)
From Coq Require Import String Ascii.
From Coq Require DecimalString.
From Verif Require Import Base BaseQ MElement MSort MGeneralCell MComb MGrid.
Set Implicit Arguments.
Open Scope Z_scope.

(** Decimal text of an integer. *)
Definition zdec (z : Z) : string :=
  if z <? 0 then String "-"%char (dec (Z.to_nat (- z))) else dec (Z.to_nat z).

(** sogen.py:263-265 ([n] = 10) and 295-297 ([n] = 5): [np.around(pos, decimals=n)], then
    [round(x % 1, 3)]. *)
Definition wrap_key1 (n : nat) (x : Qc) : Qc := around 3 (mod1 (around n x)).
(** sogen.py:263-265, 295-297 on one position *)
Definition wrap_key (n : nat) (p : vec Qc) : vec Qc := vmap (wrap_key1 n) p.

(** sogen.py:288-303 [get_new_id_seq]; [np.vectorize] refuses empty arrays. *)
Definition new_id_seq (n : nat) (pos : list (vec Qc)) : res (list nat) :=
  match pos with [] => Raise ValueError | _ => Ok (lexsort (List.map (wrap_key n) pos)) end.

(** sogen.py:305-317 [get_permutation_cell] *)
Definition get_permutation_cell (ops : list symop) (pos : list (vec Qc)) : res (list (list nat)) :=
  mapM (fun o => new_id_seq 5 (List.map (apply_op o) pos)) ops.

(** sogen.py:274-275 [_get_atom_seq_identifier]: [str(list(numbers))].  NumPy 1 prints the
    entries as plain decimals, NumPy 2 as np.int64(...). *)
Definition np_repr (numpy2 : bool) (z : Z) : string :=
  if numpy2 then String.append "np.int64(" (String.append (zdec z) ")") else zdec z.
(** sogen.py:274-275 *)
Definition seq_identifier (numpy2 : bool) (numbers : list Z) : string :=
  String.append "[" (String.append (String.concat ", " (List.map (np_repr numpy2) numbers)) "]").

(** [s in isoset] *)
Definition mem_str (s : string) (l : list string) : bool := existsb (String.eqb s) l.

(** sogen.py:277-286 [_update_isoset] *)
Fixpoint update_isoset_str (np2 : bool) (isoset : list string) (nums : list Z) (perms : list (list nat)) : res (list string) :=
  match perms with
  | [] => Ok isoset
  | ind :: rest =>
      do sequence_new <- take_idx nums ind;
      update_isoset_str np2 (seq_identifier np2 sequence_new :: isoset) nums rest
  end.

(** sogen.py:336-347: the loop of [gen_nodup_cstru]. *)
Fixpoint nodup_cstru_loop (np2 : bool) (hp : heap) (perms : list (list nat)) (isoset : list string)
    (cells : list cstru) (fin : option exn) : trace cstru :=
  match cells with
  | [] => mkTrace [] fin
  | c :: rest =>
      match get_cell hp c with
      | Raise e => mkTrace [] (Some e)
      | Ok (_, _, atom_num) =>
          if mem_str (seq_identifier np2 atom_num) isoset then nodup_cstru_loop np2 hp perms isoset rest fin
          else
            match update_isoset_str np2 isoset atom_num perms with
            | Raise e => mkTrace [c] (Some e)
            | Ok isoset' =>
                let r := nodup_cstru_loop np2 hp perms isoset' rest fin in
                mkTrace (c :: items r) (stop r)
            end
      end
  end.

(** sogen.py:319-347 [gen_nodup_cstru] *)
Definition gen_nodup_cstru (np2 : bool) (ops : list symop) (hp : heap) (m : mat Qc) (sea_ele : specie)
    (size : nat * nat * nat) (speckle : specie) (num : Z) : trace cstru * heap :=
  let '(d, w, l) := size in
  match sea hp d w l sea_ele with
  | Raise e => (mkTrace [] (Some e), hp)
  | Ok (ele_sea, hp1) =>
      match (do cell <- get_cell hp1 (mkCStru m ele_sea);
             get_permutation_cell ops (snd (fst cell))) with
      | Raise e => (mkTrace [] (Some e), hp1)
      | Ok sym_perm =>
          let (dup, hp2) := cstru_gen_speckle hp1 m sea_ele size speckle num in
          (nodup_cstru_loop np2 hp2 sym_perm [] (items dup) (stop dup), hp2)
      end
  end.

(** [str] of an integer array: the entries separated by white space; arrays of more than
    1000 entries are abbreviated to the first and last three (NumPy's default print
    options).  [pad] is the white space NumPy puts before the entries of a given list of
    printed words (alignment and line breaks). *)
Definition shown (l : list Z) : list string :=
  if (1000 <? List.length l)%nat
  then (List.map zdec (firstn 3 l) ++ ["..."%string] ++ List.map zdec (skipn (List.length l - 3) l))%list
  else List.map zdec l.
Section Print.
Variable pad : list string -> nat -> string.
(** [str] of a one-dimensional integer array (sogen.py:270) *)
Definition np_str (l : list Z) : string :=
  let ws := shown l in
  String.append "[" (String.append
    (String.concat "" (List.map (fun iw => String.append (pad ws (fst iw)) (snd iw)) (enumerate ws))) "]").

(** sogen.py:259-272 [_get_id_seq] *)
Definition get_id_seq (pos : list (vec Qc)) (arr_num : list Z) : res string :=
  do ind_sort <- new_id_seq 10 pos;
  do a <- take_idx arr_num ind_sort;
  Ok (np_str a).

(** sogen.py:245-257 [is_stru_equal] *)
Fixpoint stru_equal_loop (ops : list symop) (posB : list (vec Qc)) (numB : list Z) (idA : string) (is_equal : bool) : res bool :=
  match ops with
  | [] => Ok is_equal
  | o :: rest =>
      do id_stru <- get_id_seq (List.map (apply_op o) posB) numB;
      stru_equal_loop rest posB numB idA (if String.eqb id_stru idA then true else is_equal)
  end.
(** sogen.py:245-257 [is_stru_equal] *)
Definition is_stru_equal (hp : heap) (struA struB : cstru) (ops : list symop) : res bool :=
  do cA <- get_cell hp struA;
  do cB <- get_cell hp struB;
  let '(_, posA, numA) := cA in
  let '(_, posB, numB) := cB in
  do idA <- get_id_seq posA numA;
  stru_equal_loop ops posB numB idA false.
End Print.

(** sogen.py:403-416 [_pool_sites]: append the first plane, then the first row of every
    plane, then the first entry of every row. *)
Definition append_first A (l : list A) : res (list A) :=
  match l with [] => Raise IndexError | x :: _ => Ok (l ++ [x])%list end.
(** sogen.py:403-416 [_pool_sites] *)
Definition pool_sites (arr : list (list (list Z))) : res (list (list (list Z))) :=
  do pool <- append_first arr;
  do pool <- mapM (@append_first _) pool;
  mapM (mapM (@append_first _)) pool.

(** [np.argwhere(a == ele)]: row-major order. *)
Definition argwhere (arr : list (list (list Z))) (ele : Z) : list (nat * nat * nat) :=
  flat_map (fun ip => flat_map (fun jr => flat_map (fun kv =>
    if Z.eqb (snd kv) ele then [(fst ip, fst jr, fst kv)] else []) (enumerate (snd jr))) (enumerate (snd ip))) (enumerate arr).

(** sogen.py:418-425 [_index2coor] *)
Definition index2coor (ind : nat * nat * nat) (m : mat Qc) : vec Qc :=
  let '(d, w, l) := ind in
  let v1 := vscale (Nc d) (vx m) in
  let v2 := vscale (Nc w) (vy m) in
  let v3 := vscale (Nc l) (vz m) in
  (V3 (vx v1 + vx v2 + vx v3) (vy v1 + vy v2 + vy v3) (vz v1 + vz v2 + vz v3))%Qc.

(** sogen.py:388-401 [_min_dist], on squared distances (start value 9999). *)
Definition sqdist (p q : vec Qc) : Qc := let d := vsub p q in vdot d d.
(** sogen.py:388-397 [_min_dist] *)
Definition min_dist (points : list (vec Qc)) : Qc :=
  fold_left (fun m pr => match pr with
                         | [p; q] => if Qcltb (sqdist p q) m then sqdist p q else m
                         | _ => m end)
    (combos points 2) (Q2Qc (9999 * 9999)).

(** sogen.py:375-386 [is_speckle_disjunct] *)
Definition is_speckle_disjunct (hp : heap) (s : cstru) (speckle : specie) : res bool :=
  do sites_arr <- to_array hp (c_grid s);
  do pool <- pool_sites sites_arr;
  let points := List.map (fun ind => index2coor ind (c_m s)) (argwhere pool (sp_Z speckle)) in
  Ok (Qcltb (Q2Qc (101 # 100) * Q2Qc (101 # 100))%Qc (min_dist points)).
