(** Model of [Site] (/repo/ababe/stru/site.py), [ModifiedCell]
    (/repo/ababe/stru/scaffold.py:471-644) and the clarifiers
    (/repo/ababe/stru/clarifier.py).
    Python objects live in a heap: Site objects, the list objects held in [_sites] and the
    ModifiedCell objects; references are positions in the three stores.  Following a
    dangling reference gives a dummy; [wf_heap] in the specification excludes it.
    Simplifications: floats are exact rationals; a Specie is a value (no code changes one);
    slices as indices are not modelled; np.random is an argument (list of drawn vectors with
    the norm numpy computed); the lattice is a value (no code changes it). *)
From Coq Require Import String.
From Verif Require Import Base BaseQ MElement MGeneralCell MHnf MRestrict.
Set Implicit Arguments.
Open Scope Z_scope.
Open Scope list_scope.
Notation length := List.length.

(** site.py:8-15: a Site object *)
Record site := mkSite { s_pos : vec Qc; s_ele : specie }.

(** site.py:8-15 [Site(position, ele)]: Specie, int or symbol. *)
Inductive ele_arg := EleSpecie (s : specie) | EleNum (z : Z) | EleSym (s : string).
(** site.py:8-15 *)
Definition Site_new (p : vec Qc) (e : ele_arg) : res site :=
  match e with
  | EleSpecie s => Ok (mkSite p s)
  | EleNum z => do s <- from_num z; Ok (mkSite p s)
  | EleSym x => do s <- Specie_new x; Ok (mkSite p s)
  end.

(** tuple [==] *)
Definition Qc3_eqb (a b : vec Qc) : bool := Qceqb (vx a) (vx b) && Qceqb (vy a) (vy b) && Qceqb (vz a) (vz b).

(** site.py:17-18 [__eq__] *)
Definition site_eqb (a b : site) : bool := Qc3_eqb (s_pos a) (s_pos b) && sp_eqb (s_ele a) (s_ele b).

(** A ModifiedCell object: [_lattice] and a reference to the list object [_sites]. *)
Record mcell := mkMC { mc_lattice : mat Qc; mc_list : nat }.

(** Objects by address: sites, lists, cells. *)
Record heap := mkHeap { h_site : list site; h_list : list (list nat); h_cell : list mcell }.

(** Totalised lookups; theorems only speak of existing addresses. *)
Definition dummy_site : site := mkSite v0 GhostSpecie_new.
Definition dummy_cell : mcell := mkMC (V3 v0 v0 v0) 0%nat.
Definition site_at (h : heap) (a : nat) : site := nth a (h_site h) dummy_site.
Definition cell_at (h : heap) (c : nat) : mcell := nth c (h_cell h) dummy_cell.
Definition list_at (h : heap) (l : nat) : list nat := nth l (h_list h) [].
(** references held by [c._sites] *)
Definition refs (h : heap) (c : nat) : list nat := list_at h (mc_list (cell_at h c)).

(** Commands: change the heap, then return or raise. *)
Definition cmd (A : Type) := heap -> heap * res A.
(** Commands that read and write objects. *)
Definition ret A (a : A) : cmd A := fun h => (h, Ok a).
Definition throw A (e : exn) : cmd A := fun h => (h, Raise e).
Definition cbind A B (m : cmd A) (f : A -> cmd B) : cmd B :=
  fun h => match m h with (h', Ok a) => f a h' | (h', Raise e) => (h', Raise e) end.
Notation "'let!' x := a 'in' b" := (cbind a (fun x => b)) (at level 200, x pattern, a at level 100, b at level 200).
Definition lift A (r : res A) : cmd A := fun h => (h, r).

Fixpoint cmapM A B (f : A -> cmd B) (l : list A) : cmd (list B) :=
  match l with
  | [] => ret []
  | x :: t => let! y := f x in let! ys := cmapM f t in ret (y :: ys)
  end.
Fixpoint citer A (f : A -> cmd unit) (l : list A) : cmd unit :=
  match l with [] => ret tt | x :: t => let! _ := f x in citer f t end.

(** object creation *)
Definition new_site (s : site) : cmd nat :=
  fun h => (mkHeap (h_site h ++ [s]) (h_list h) (h_cell h), Ok (length (h_site h))).
(** Creating and rebinding objects. *)
Definition new_list (l : list nat) : cmd nat :=
  fun h => (mkHeap (h_site h) (h_list h ++ [l]) (h_cell h), Ok (length (h_list h))).
Definition new_cell (c : mcell) : cmd nat :=
  fun h => (mkHeap (h_site h) (h_list h) (h_cell h ++ [c]), Ok (length (h_cell h))).
(** in-place changes *)
Definition put_site (a : nat) (s : site) : cmd unit :=
  fun h => (mkHeap (upd (h_site h) a s) (h_list h) (h_cell h), Ok tt).
Definition put_list (l : nat) (v : list nat) : cmd unit :=
  fun h => (mkHeap (h_site h) (upd (h_list h) l v) (h_cell h), Ok tt).
Definition put_cell (c : nat) (v : mcell) : cmd unit :=
  fun h => (mkHeap (h_site h) (h_list h) (upd (h_cell h) c v), Ok tt).

(** Python list methods with integer indices. *)
(** [list.insert]: out-of-range positions are clamped. *)
Definition py_insert A (l : list A) (i : Z) (x : A) : list A :=
  let n := Z.of_nat (length l) in
  let j := Z.to_nat (if i <? 0 then Z.max 0 (i + n) else Z.min i n) in
  firstn j l ++ x :: skipn j l.
(** [del l[i]] *)
Definition py_del A (l : list A) (i : Z) : res (list A) :=
  match norm_index (length l) i with
  | Some j => Ok (firstn j l ++ skipn (S j) l)
  | None => Raise IndexError
  end.

(** scaffold.py:481-484 [__init__]; [zip] stops at the shorter array. *)
Definition ModifiedCell_new (lat : mat Qc) (pos : list (vec Qc)) (nums : list Z) : cmd nat :=
  let! sites := cmapM (fun s => let! v := lift (Site_new (fst s) (EleNum (snd s))) in new_site v)
                      (combine pos nums) in
  let! l := new_list sites in
  new_cell (mkMC lat l).

(** scaffold.py:481: default arguments [np.array([[0,0,0]])], [np.array([0])] *)
Definition ModifiedCell_default (lat : mat Qc) : cmd nat := ModifiedCell_new lat [v0] [0].

(** scaffold.py:492-496 [__len__] *)
Definition mc_len (h : heap) (c : nat) : nat := length (refs h c).

(** scaffold.py:502-503 [__getitem__] *)
Definition mc_getitem (c : nat) (i : Z) : cmd nat := fun h => (h, py_get (refs h c) i).

(** scaffold.py:498-500 [__setitem__] *)
Definition mc_setitem (c : nat) (i : Z) (s : nat) : cmd unit :=
  fun h => match py_set (refs h c) i s with
           | Ok l => put_list (mc_list (cell_at h c)) l h
           | Raise e => (h, Raise e)
           end.

(** scaffold.py:505-506 [__delitem__] *)
Definition mc_delitem (c : nat) (i : Z) : cmd unit :=
  fun h => match py_del (refs h c) i with
           | Ok l => put_list (mc_list (cell_at h c)) l h
           | Raise e => (h, Raise e)
           end.

(** scaffold.py:528-529 [append] *)
Definition mc_append (c : nat) (s : nat) : cmd unit :=
  fun h => put_list (mc_list (cell_at h c)) (refs h c ++ [s]) h.

(** scaffold.py:531-532 [insert] *)
Definition mc_insert (c : nat) (i : Z) (s : nat) : cmd unit :=
  fun h => put_list (mc_list (cell_at h c)) (py_insert (refs h c) i s) h.

(** scaffold.py:534-535 [pop]; list.pop of an empty list or a bad index: IndexError *)
Definition mc_pop (c : nat) (i : Z) : cmd nat :=
  fun h => match py_get (refs h c) i, py_del (refs h c) i with
           | Ok s, Ok l => let '(h', _) := put_list (mc_list (cell_at h c)) l h in (h', Ok s)
           | Raise e, _ | _, Raise e => (h, Raise e)
           end.

(** scaffold.py:537-540 [extend] with a list of Site objects other than [c._sites] *)
Definition mc_extend (c : nat) (l : list nat) : cmd unit := citer (mc_append c) l.

(** A for-loop over a list object: Python's list iterator looks at the list again at each
    step.  [None]: still running after [fuel] steps. *)
Fixpoint iter_list (fuel : nat) (lr i : nat) (body : nat -> cmd unit) (h : heap) : option (heap * res unit) :=
  match fuel with
  | O => None
  | S f =>
      match nth_error (list_at h lr) i with
      | None => Some (h, Ok tt)
      | Some s =>
          match body s h with
          | (h', Ok _) => iter_list f lr (S i) body h'
          | (h', Raise e) => Some (h', Raise e)
          end
      end
  end.

(** scaffold.py:537-540 [extend] with another ModifiedCell (scaffold.py:486-490 [__iter__]
    iterates over its list object). *)
Definition mc_extend_cell (fuel : nat) (c d : nat) (h : heap) : option (heap * res unit) :=
  iter_list fuel (mc_list (cell_at h d)) 0 (mc_append c) h.

(** scaffold.py:520-526 [positions], [numbers] *)
Definition mc_positions (h : heap) (c : nat) : list (vec Qc) := List.map (fun a => s_pos (site_at h a)) (refs h c).
(** scaffold.py:524-526 [ModifiedCell.numbers] *)
Definition mc_numbers (h : heap) (c : nat) : list Z := List.map (fun a => sp_Z (s_ele (site_at h a))) (refs h c).

(** [np.allclose] on numbers: |a - b| <= 1e-8 + 1e-5 * |b| *)
Definition Qcabs (x : Qc) : Qc := if Qcltb x 0%Qc then (- x)%Qc else x.
(** [np.isclose] and [np.allclose] *)
Definition close (a b : Qc) : bool :=
  Qcleb (Qcabs (a - b)) (Q2Qc (1 # 100000000) + Q2Qc (1 # 100000) * Qcabs b)%Qc.
Definition vclose (a b : vec Qc) : bool := close (vx a) (vx b) && close (vy a) (vy b) && close (vz a) (vz b).
Definition mclose (a b : mat Qc) : bool := vclose (vx a) (vx b) && vclose (vy a) (vy b) && vclose (vz a) (vz b).
(** numpy broadcasting of the first axis: equal lengths, or one of them 1 *)
Definition allclose1 A (cl : A -> A -> bool) (a b : list A) : res bool :=
  if (length a =? length b)%nat then Ok (forallb (fun ab => cl (fst ab) (snd ab)) (combine a b))
  else match a, b with
       | [x], _ => Ok (forallb (fun y => cl x y) b)
       | _, [y] => Ok (forallb (fun x => cl x y) a)
       | _, _ => Raise ValueError
       end.
(** arrays of shape (n,3); [np.array([])] has shape (0,), which broadcasts only with itself *)
Definition allclose_pos (a b : list (vec Qc)) : res bool :=
  match a, b with
  | [], [] => Ok true
  | [], _ | _, [] => Raise ValueError
  | _, _ => allclose1 vclose a b
  end.
(** [np.allclose] on the numbers *)
Definition allclose_num (a b : list Z) : res bool := allclose1 (fun x y => close (Zc x) (Zc y)) a b.

(** scaffold.py:508-514 [__eq__] *)
Definition mc_eq (h : heap) (c d : nat) : res bool :=
  if mclose (mc_lattice (cell_at h c)) (mc_lattice (cell_at h d)) then
    do p <- allclose_pos (mc_positions h c) (mc_positions h d);
    if p then do n <- allclose_num (mc_numbers h c) (mc_numbers h d); Ok n
    else Ok false
  else Ok false.

(** scaffold.py:542-544 [from_gcell] *)
Definition from_gcell (g : gcell) : cmd nat := ModifiedCell_new (lattice g) (positions g) (numbers g).

(** scaffold.py:546-547 [to_gcell] *)
Definition to_gcell (h : heap) (c : nat) : res gcell :=
  GeneralCell_new (mc_lattice (cell_at h c)) (mc_positions h c) (mc_numbers h c).

(** scaffold.py:566-572 *)
Definition cart_from_frac (lat : mat Qc) (f : vec Qc) : vec Qc := vec_mat f lat.
(** scaffold.py:570-572 [get_frac_from_cart] *)
Definition frac_from_cart (lat : mat Qc) (x : vec Qc) : res (vec Qc) := do i <- inv lat; Ok (vec_mat x i).

(** [product([-1, 0, 1], repeat=3)] *)
Definition trans27 : list (vec Qc) :=
  List.concat (List.map (fun a => List.concat (List.map (fun b =>
    List.map (fun c => vecZ (V3 a b c)) [-1; 0; 1]) [-1; 0; 1])) [-1; 0; 1]).

(** square root of [d2] less than [r] *)
Definition sqrt_lt (d2 r : Qc) : bool := Qcltb 0%Qc r && Qcltb d2 (r * r)%Qc.

(** scaffold.py:600-618 [in_euclidean_discance] *)
Definition in_euclid (lat : mat Qc) (pos center : vec Qc) (r : Qc) : bool :=
  let cart_cent := cart_from_frac lat center in
  existsb (fun p => sqrt_lt (dist2 (cart_from_frac lat p) cart_cent) r) (List.map (vadd pos) trans27).

(** scaffold.py:549-564 [get_points_incell_insphere]: the dict as its list of items *)
Definition points_insphere (h : heap) (c : nat) (center : vec Qc) (r : Qc) (ele : option specie) : list (nat * nat) :=
  List.filter (fun ia =>
      let s := site_at h (snd ia) in
      match ele with
      | None => in_euclid (mc_lattice (cell_at h c)) (s_pos s) center r
      | Some e => in_euclid (mc_lattice (cell_at h c)) (s_pos s) center r && sp_eqb (s_ele s) e
      end)
    (enumerate (refs h c)).

(** scaffold.py:593-598 [translate_sites]; site.py:24-26 position setter *)
Definition translate_sites (c : nat) (idx : Z) (vector : vec Qc) : cmd unit :=
  let! a := mc_getitem c idx in
  fun h =>
    let lat := mc_lattice (cell_at h c) in
    let s := site_at h a in
    match frac_from_cart lat (vadd (cart_from_frac lat (s_pos s)) vector) with
    | Ok f => put_site a (mkSite f (s_ele s)) h
    | Raise e => (h, Raise e)
    end.

(** scaffold.py:584-588 [get_rand_vec]: draw until the norm is not zero.  The argument is
    what np.random.randn(3) and np.linalg.norm return from now on; [None] when the list
    runs out. *)
Fixpoint get_rand_vec (distance : Qc) (rnd : list (vec Qc * Qc)) : option (vec Qc * list (vec Qc * Qc)) :=
  match rnd with
  | [] => None
  | (v, n) :: t =>
      if Qceqb n 0%Qc then get_rand_vec distance t
      else Some (vscale distance (V3 (vx v / n) (vy v / n) (vz v / n))%Qc, t)
  end.

(** scaffold.py:590-591: the loop over range(len), from index [i], [k] more rounds *)
Fixpoint perturb_loop (c : nat) (distance : Qc) (k i : nat) (rnd : list (vec Qc * Qc)) (h : heap) : option (heap * res unit) :=
  match k with
  | O => Some (h, Ok tt)
  | S k' =>
      match get_rand_vec distance rnd with
      | None => None
      | Some (v, rnd') =>
          match translate_sites c (Z.of_nat i) v h with
          | (h', Ok _) => perturb_loop c distance k' (S i) rnd' h'
          | (h', Raise e) => Some (h', Raise e)
          end
      end
  end.
(** scaffold.py:574-591 [perturb] *)
Definition perturb (c : nat) (distance : Qc) (rnd : list (vec Qc * Qc)) (h : heap) : option (heap * res unit) :=
  perturb_loop c distance (mc_len h c) 0 rnd h.

(** scaffold.py:620-622 [append_site] (returns self) *)
Definition append_site (c : nat) (s : nat) : cmd nat := let! _ := mc_append c s in ret c.

(** scaffold.py:624-626 [remove_site] *)
Definition remove_site (c : nat) (i : Z) : cmd nat := let! _ := mc_pop c i in ret c.

(** scaffold.py:628-635 [remove_sites]: a new list object is bound to [_sites]. *)
Definition remove_sites (c : nat) (indexs : list Z) : cmd nat :=
  fun h =>
    let kept := List.map snd (List.filter (fun ia => negb (memZ (Z.of_nat (fst ia)) indexs)) (enumerate (refs h c))) in
    (let! l := new_list kept in
     let! _ := put_cell c (mkMC (mc_lattice (cell_at h c)) l) in
     ret c) h.

(** scaffold.py:637-639 [append_sites] *)
Definition append_sites (c : nat) (l : list nat) : cmd nat := let! _ := mc_extend c l in ret c.

(** copy.deepcopy of the list of sites: the memo maps each Site already copied to its copy *)
Fixpoint memo_find (m : list (nat * nat)) (a : nat) : option nat :=
  match m with [] => None | (x, y) :: t => if Nat.eqb x a then Some y else memo_find t a end.
(** [copy.deepcopy] of the list of sites (scaffold.py:644): shared sites stay shared *)
Fixpoint deepcopy_sites (memo : list (nat * nat)) (l : list nat) : cmd (list nat) :=
  match l with
  | [] => ret []
  | a :: t =>
      match memo_find memo a with
      | Some b => let! ys := deepcopy_sites memo t in ret (b :: ys)
      | None =>
          fun h => (let! b := new_site (site_at h a) in
                    let! ys := deepcopy_sites ((a, b) :: memo) t in ret (b :: ys)) h
      end
  end.
(** scaffold.py:641-644 [copy] *)
Definition mc_copy (c : nat) : cmd nat :=
  fun h => (let! ys := deepcopy_sites [] (refs h c) in
            let! l := new_list ys in
            new_cell (mkMC (mc_lattice (cell_at h c)) l)) h.

(** Argument of [clarify]: a ModifiedCell or something else. *)
Inductive clar_arg := AModified (c : nat) | AOther.

(** clarifier.py:23-30 [AtomRemoveClarifier.clarify] *)
Definition atom_remove_clarify (centers : list (vec Qc)) (r : Qc) (ele : option specie) (x : clar_arg) : cmd nat :=
  match x with
  | AOther => throw _ ValueError
  | AModified c =>
      let! _ := citer (fun center h =>
          let dsites := points_insphere h c center r ele in
          (let! _ := remove_sites c (List.map (fun ia => Z.of_nat (fst ia)) dsites) in ret tt) h) centers in
      ret c
  end.

(** clarifier.py:40-49 [VerboseAtomRemoveClarifier.clarify]: the loop runs over the list
    object bound to [_sites] when it starts. *)
Definition verbose_clarify (fuel : nat) (etobesub : specie) (r : Qc) (ele : option specie) (x : clar_arg) (h : heap)
    : option (heap * res nat) :=
  match x with
  | AOther => Some (h, Raise ValueError)
  | AModified c =>
      match iter_list fuel (mc_list (cell_at h c)) 0 (fun a h =>
              let s := site_at h a in
              if sp_eqb (s_ele s) etobesub then
                let dsites := points_insphere h c (s_pos s) r ele in
                (let! _ := remove_sites c (List.map (fun ia => Z.of_nat (fst ia)) dsites) in ret tt) h
              else (h, Ok tt)) h with
      | Some (h', Ok _) => Some (h', Ok c)
      | Some (h', Raise e) => Some (h', Raise e)
      | None => None
      end
  end.

(** Statements a program can execute. *)
Inductive list_op :=
| OAppend (s : nat) | OInsert (i : Z) (s : nat) | OPop (i : Z) | OExtend (l : list nat)
| OSet (i : Z) (s : nat) | OGet (i : Z) | ODel (i : Z)
| OAppendSite (s : nat) | ORemoveSite (i : Z) | ORemoveSites (l : list Z) | OAppendSites (l : list nat).
(** what the statement evaluates to *)
Inductive outcome := RNone | RSite (s : nat) | RSelf | RExn (e : exn).

(** Results of calls in a common form. *)
Definition out_unit (x : heap * res unit) : heap * outcome :=
  match x with (h, Ok _) => (h, RNone) | (h, Raise e) => (h, RExn e) end.
Definition out_site (x : heap * res nat) : heap * outcome :=
  match x with (h, Ok s) => (h, RSite s) | (h, Raise e) => (h, RExn e) end.
Definition out_self (x : heap * res nat) : heap * outcome :=
  match x with (h, Ok _) => (h, RSelf) | (h, Raise e) => (h, RExn e) end.

(** One list operation (scaffold.py:492-540) on a cell. *)
Definition do_list_op (c : nat) (o : list_op) (h : heap) : heap * outcome :=
  match o with
  | OAppend s => out_unit (mc_append c s h)
  | OInsert i s => out_unit (mc_insert c i s h)
  | OPop i => out_site (mc_pop c i h)
  | OExtend l => out_unit (mc_extend c l h)
  | OSet i s => out_unit (mc_setitem c i s h)
  | OGet i => out_site (mc_getitem c i h)
  | ODel i => out_unit (mc_delitem c i h)
  | OAppendSite s => out_self (append_site c s h)
  | ORemoveSite i => out_self (remove_site c i h)
  | ORemoveSites l => out_self (remove_sites c l h)
  | OAppendSites l => out_self (append_sites c l h)
  end.

(** Several of them. *)
Fixpoint run_list_ops (c : nat) (os : list list_op) (h : heap) : heap * list outcome :=
  match os with
  | [] => (h, [])
  | o :: t => let '(h1, x) := do_list_op c o h in
              let '(h2, xs) := run_list_ops c t h1 in (h2, x :: xs)
  end.

(** Statements on any object; exceptions are caught by the caller and the program goes on. *)
Inductive stmt :=
| SNewSite (p : vec Qc) (e : ele_arg)
| SNewCell (lat : mat Qc) (pos : list (vec Qc)) (nums : list Z)
| SCopy (c : nat)
| SList (c : nat) (o : list_op)
| STranslate (c : nat) (i : Z) (v : vec Qc)
| SPerturb (c : nat) (distance : Qc) (rnd : list (vec Qc * Qc))
| SSetPosition (c : nat) (i : Z) (p : vec Qc)        (* c[i].position = p *)
| SSetElement (c : nat) (i : Z) (e : specie)         (* c[i].element = e *)
| SClarify (centers : list (vec Qc)) (r : Qc) (ele : option specie) (c : nat).

(** site.py:24-26 and 32-34 setters, on the object [c[i]] *)
Definition set_position (c : nat) (i : Z) (p : vec Qc) : cmd unit :=
  let! a := mc_getitem c i in fun h => put_site a (mkSite p (s_ele (site_at h a))) h.
(** site.py:32-34 on [c[i]] *)
Definition set_element (c : nat) (i : Z) (e : specie) : cmd unit :=
  let! a := mc_getitem c i in fun h => put_site a (mkSite (s_pos (site_at h a)) e) h.

(** heap after a statement (a perturb that runs out of given random numbers is cut short
    and leaves the heap alone) *)
Definition exec (s : stmt) (h : heap) : heap :=
  match s with
  | SNewSite p e => fst ((let! v := lift (Site_new p e) in new_site v) h)
  | SNewCell lat pos nums => fst (ModifiedCell_new lat pos nums h)
  | SCopy c => fst (mc_copy c h)
  | SList c o => fst (do_list_op c o h)
  | STranslate c i v => fst (translate_sites c i v h)
  | SPerturb c d rnd => match perturb c d rnd h with Some (h', _) => h' | None => h end
  | SSetPosition c i p => fst (set_position c i p h)
  | SSetElement c i e => fst (set_element c i e h)
  | SClarify cs r ele c => fst (atom_remove_clarify cs r ele (AModified c) h)
  end.
(** A sequence of statements. *)
Definition exec_all (ss : list stmt) (h : heap) : heap := fold_left (fun h s => exec s h) ss h.
