(** Pull-by-pull model of the level generators (sogen.py:133-203, 205-242) and of
    [itertools.tee].  [MSogen.levels] runs the generators eagerly; here every [next] call
    is a separate step and the generators keep their suspended state. *)
From Verif Require Import Base BaseQ MGeneralCell MComb MSogen.

(** Suspended state of one level: [gen_2nodup_gen] wrapped around one of the three
    add-one-speckle generators.
    - [g_iso], [g_reg]: the filter's [isoset] and the cell whose images are registered when
      the filter resumes after its [yield] (sogen.py:190-196)
    - [g_db], [g_dbreg]: the add-one generator's [id_db] and the id registered when it
      resumes after its [yield] (sogen.py:148-151)
    - [g_cur]: the cell being expanded with the entries still to visit
    - [g_done]: the generator has returned *)
Record gstate := mkGs {
  g_iso : list Z; g_reg : option gcell;
  g_db : list Z; g_dbreg : option Z;
  g_cur : option (gcell * list (nat * Z));
  g_done : bool }.

(** Before the first pull, after the end. *)
Definition gs_start : gstate := mkGs [] None [] None None false.
Definition gs_finished : gstate := mkGs [] None [] None None true.

(** What the generator asks for. *)
Inductive action :=
| AYield (c : gcell) (s : gstate)      (* suspend at a yield *)
| APull (k : gcell -> gstate)          (* ask the source for its next item *)
| ATau (s : gstate)                    (* internal progress *)
| AReturn                              (* StopIteration *)
| ARaise (e : exn).

(** One step of a level generator (sogen.py:143-151, 157-166, 174-182 inside 184-196). *)
Definition gstep (h : list Z -> Z) (perms : list (list nat)) (atom : Z) (cond : nat -> Z -> bool)
    (s : gstate) : action :=
  if g_done s then AReturn else
  match g_reg s with
  | Some c =>
      match update_isoset h (g_iso s) (numbers c) perms with
      | Raise e => ARaise e
      | Ok iso => ATau (mkGs iso None (g_db s) (g_dbreg s) (g_cur s) false)
      end
  | None =>
    match g_dbreg s with
    | Some z => ATau (mkGs (g_iso s) None (z :: g_db s) None (g_cur s) false)
    | None =>
      match g_cur s with
      | None => APull (fun cell => mkGs (g_iso s) None (g_db s) None (Some (cell, enumerate (numbers cell))) false)
      | Some (cell, []) => ATau (mkGs (g_iso s) None (g_db s) None None false)
      | Some (cell, (index, val) :: rest) =>
          let skip := mkGs (g_iso s) None (g_db s) None (Some (cell, rest)) false in
          if cond index val then
            match set_nth (numbers cell) index atom with
            | Raise e => ARaise e
            | Ok numbers_new =>
                let num_id := h numbers_new in
                if memZ num_id (g_db s) then ATau skip
                else
                  match GeneralCell_new (lattice cell) (positions cell) numbers_new with
                  | Raise e => ARaise e
                  | Ok c =>
                      if memZ (cell_id h c) (g_iso s)
                      then ATau (mkGs (g_iso s) None (g_db s) (Some num_id) (Some (cell, rest)) false)
                      else AYield c (mkGs (g_iso s) (Some c) (g_db s) (Some num_id) (Some (cell, rest)) false)
                  end
            end
          else ATau skip
      end
    end
  end.

(** A level with its tee: generator state, items the generator has yielded so far (the tee
    buffer, never trimmed here), read positions of the branch handed to the caller and of
    the branch feeding the next level.  Level 0 is the one-element generator
    [(i for i in [self.init_cell])]: its buffer holds the initial cell. *)
Record level := mkLevel { l_st : gstate; l_buf : list gcell; l_out : nat; l_in : nat }.
(** The first level: one cell, already produced. *)
Definition level0 (c : gcell) : level := mkLevel gs_finished [c] 0 0.
Definition level_new : level := mkLevel gs_start [] 0 0.

(** Answer of one pull. *)
Inductive reply := RItem (c : gcell) | RStop | RRaise (e : exn).

(** Field updates. *)
Definition set_st (L : level) s := mkLevel s (l_buf L) (l_out L) (l_in L).
Definition push_item (L : level) c s := mkLevel s (l_buf L ++ [c]) (l_out L) (l_in L).
Definition set_out (L : level) p := mkLevel (l_st L) (l_buf L) p (l_in L).
Definition set_in (L : level) p := mkLevel (l_st L) (l_buf L) (l_out L) p.

(** [next] on a tee branch: serve from the buffer or advance the source. *)
Definition tee_next (run : list level -> nat -> option (reply * list level))
    (pos : level -> nat) (set_pos : level -> nat -> level) (lvs : list level) (k : nat)
    : option (reply * list level) :=
  match nth_error lvs k with
  | None => None
  | Some L =>
      match nth_error (l_buf L) (pos L) with
      | Some c => Some (RItem c, upd lvs k (set_pos L (S (pos L))))
      | None =>
          match run lvs k with
          | Some (RItem c, lvs1) =>
              match nth_error lvs1 k with
              | Some L1 => Some (RItem c, upd lvs1 k (set_pos L1 (S (pos L1))))
              | None => None
              end
          | other => other
          end
      end
  end.

(** [next] on the generator object of level k; [None] = out of fuel.  An exception or the
    end of the source finishes the generator. *)
Fixpoint run (h : list Z -> Z) (perms : list (list nat)) (atom : Z) (cond : nat -> Z -> bool)
    (fuel : nat) (lvs : list level) (k : nat) : option (reply * list level) :=
  match fuel with
  | O => None
  | S f =>
    match nth_error lvs k with
    | None => None
    | Some L =>
      match gstep h perms atom cond (l_st L) with
      | AReturn => Some (RStop, upd lvs k (set_st L gs_finished))
      | ARaise e => Some (RRaise e, upd lvs k (set_st L gs_finished))
      | AYield c s => Some (RItem c, upd lvs k (push_item L c s))
      | ATau s => run h perms atom cond f (upd lvs k (set_st L s)) k
      | APull g =>
          match tee_next (run h perms atom cond f) l_in set_in lvs (k - 1) with
          | Some (RItem c, lvs1) => run h perms atom cond f (upd lvs1 k (set_st L (g c))) k
          | Some (r, lvs1) => Some (r, upd lvs1 k (set_st L gs_finished))
          | None => None
          end
      end
    end
  end.

(** What the caller can do: ask the outer generator for one more level generator, or call
    [next] on the k-th level generator it received (0-based). *)
Inductive call := NextLevel | NextItem (k : nat).
(** Answer to the caller. *)
Inductive answer := GotLevel | GotItem (c : gcell) | GotStop | GotExn (e : exn).

Definition of_reply (r : reply) : answer :=
  match r with RItem c => GotItem c | RStop => GotStop | RRaise e => GotExn e end.

(** One call of the caller; [count] is the number of levels of the outer loop
    [range(n_init, n)]. *)
Definition serve (h : list Z -> Z) (perms : list (list nat)) (atom : Z) (cond : nat -> Z -> bool)
    (count fuel : nat) (lvs : list level) (c : call) : option (answer * list level) :=
  match c with
  | NextLevel =>
      if (length lvs - 1 <? count)%nat then Some (GotLevel, lvs ++ [level_new]) else Some (GotStop, lvs)
  | NextItem k =>
      match tee_next (run h perms atom cond fuel) l_out set_out lvs (S k) with
      | Some (r, lvs1) => Some (of_reply r, lvs1)
      | None => None
      end
  end.

(** A whole session. *)
Fixpoint session (h : list Z -> Z) (perms : list (list nat)) (atom : Z) (cond : nat -> Z -> bool)
    (count fuel : nat) (lvs : list level) (calls : list call) : option (list answer) :=
  match calls with
  | [] => Some []
  | c :: rest =>
      match serve h perms atom cond count fuel lvs c with
      | None => None
      | Some (a, lvs1) =>
          match session h perms atom cond count fuel lvs1 rest with
          | None => None
          | Some l => Some (a :: l)
          end
      end
  end.

(** Sessions on the three public generators. *)
Definition session_unitary h (o : occ) (n sp : Z) fuel calls :=
  session h (sym_perm o) sp (cond_unitary sp) (num_levels o n sp) fuel [level0 (init_cell o)] calls.
(** sogen.py:220-230 pulled by a caller *)
Definition session_wy h (o : occ) (n : Z) wy sp fuel calls :=
  session h (sym_perm o) sp (cond_wy o wy sp) (num_levels o n sp) fuel [level0 (init_cell o)] calls.
(** sogen.py:232-242 pulled by a caller *)
Definition session_ele h (o : occ) (n ele sp : Z) fuel calls :=
  session h (sym_perm o) sp (cond_ele ele sp) (num_levels o n sp) fuel [level0 (init_cell o)] calls.
