(** Model of Monte-Carlo tree search (/repo/ababe/mlearn/mcts.py:11-216).
    The tree is a heap: a list of nodes addressed by their index; [_parent] and [_children]
    are addresses.  Numbers are exact rationals.  The game, the policies, [np.sqrt] and the
    iteration order of dictionaries are arguments; the game's methods do not raise.
    Dictionaries have no [iteritems] on Python 3: [py2] says whether they have. *)
From Verif Require Import Base BaseQ.
Set Implicit Arguments.
Open Scope nat_scope.

Section Mcts.
(** Actions are compared with [==]. *)
Context (A : Type) (aeq : forall a b : A, {a = b} + {a <> b}).

(** mcts.py:16-24 [TreeNode.__init__] *)
Record node := mkNode {
  n_parent : option nat;
  n_children : list (A * nat);
  n_visits : nat;
  n_Q : Qc;
  n_u : Qc;
  n_P : Qc
}.
(** mcts.py:16-24 *)
Definition TreeNode_new (parent : option nat) (prior_p : Qc) : node := mkNode parent [] 0 (Zc 0) prior_p prior_p.
(** Tree nodes by address. *)
Definition heap := list node.

(** [_children[action]] / [action in _children] *)
Definition child (a : A) (children : list (A * nat)) : option nat :=
  match find (fun x => if aeq (fst x) a then true else false) children with
  | Some x => Some (snd x)
  | None => None
  end.

(** assignment to [_children] *)
Definition set_children (n : node) (l : list (A * nat)) : node :=
  mkNode (n_parent n) l (n_visits n) (n_Q n) (n_u n) (n_P n).

(** mcts.py:26-38 [expand] *)
Fixpoint expand (h : heap) (self : nat) (action_priors : list (A * Qc)) : res heap :=
  match action_priors with
  | [] => Ok h
  | (action, prob) :: rest =>
      do n <- get_nth h self;
      match child action (n_children n) with
      | Some _ => expand h self rest
      | None =>
          do h1 <- set_nth h self (set_children n (n_children n ++ [(action, length h)]));
          expand (h1 ++ [TreeNode_new (Some self) prob]) self rest
      end
  end.

(** mcts.py:79-83 [get_value] *)
Definition get_value (n : node) : Qc := (n_Q n + n_u n)%Qc.
(** mcts.py:85-88 [is_leaf] *)
Definition is_leaf (n : node) : bool := match n_children n with [] => true | _ => false end.
(** mcts.py:90-91 [is_root] *)
Definition is_root (n : node) : bool := match n_parent n with None => true | _ => false end.

(** [max(l, key=...)]: the first item whose key no later key exceeds; ValueError when empty. *)
Fixpoint max_loop {T} (best : T) (kb : Qc) (l : list (T * Qc)) : T :=
  match l with
  | [] => best
  | (x, k) :: t => if Qcltb kb k then max_loop x k t else max_loop best kb t
  end.
(** [max(items, key=...)]: the first largest; ValueError if empty *)
Definition py_max {T} (l : list (T * Qc)) : res T :=
  match l with
  | [] => Raise ValueError
  | (x, k) :: t => Ok (max_loop x k t)
  end.

Section Run.
Context (py2 : bool) (order : list (A * nat) -> list (A * nat)) (fsqrt : nat -> Qc).

(** [children.iteritems()] *)
Definition iteritems (children : list (A * nat)) : res (list (A * nat)) :=
  if py2 then Ok (order children) else Raise AttributeError.

(** The items of a dictionary of nodes together with a key of the node. *)
Definition keyed (h : heap) (key : node -> Qc) (l : list (A * nat)) : res (list ((A * nat) * Qc)) :=
  mapM (fun ai => do n <- get_nth h (snd ai); Ok (ai, key n)) l.

(** mcts.py:40-46 [select] *)
Definition select (h : heap) (self : nat) : res (A * nat) :=
  do n <- get_nth h self;
  do its <- iteritems (n_children n);
  do ks <- keyed h get_value its;
  py_max ks.

(** mcts.py:48-66 [update] *)
Definition update (h : heap) (self : nat) (leaf_value c_puct : Qc) : res heap :=
  do n <- get_nth h self;
  let visits := S (n_visits n) in
  let Q := (n_Q n + (leaf_value - n_Q n) / Zc (Z.of_nat visits))%Qc in
  match n_parent n with
  | None => set_nth h self (mkNode (n_parent n) (n_children n) visits Q (n_u n) (n_P n))
  | Some p =>
      do np <- get_nth h p;
      set_nth h self (mkNode (n_parent n) (n_children n) visits Q
        (c_puct * n_P n * fsqrt (n_visits np) / Zc (1 + Z.of_nat visits))%Qc (n_P n))
  end.

(** mcts.py:68-77 [update_recursive].  [fuel] bounds the recursion; an object is always
    true, so [if self._parent] is [is not None].  The result [None] (fuel exhausted) does
    not occur in the runs below (see LMcts). *)
Fixpoint update_recursive (fuel : nat) (h : heap) (self : nat) (leaf_value c_puct : Qc) : option (res heap) :=
  match fuel with
  | O => None
  | S f =>
      match get_nth h self with
      | Raise e => Some (Raise e)
      | Ok n =>
          match n_parent n with
          | None => Some (update h self leaf_value c_puct)
          | Some p =>
              match update_recursive f h p leaf_value c_puct with
              | None => None
              | Some (Raise e) => Some (Raise e)
              | Some (Ok h') => Some (update h' self leaf_value c_puct)
              end
          end
      end
  end.

Section Game.
Context (S : Type) (do_move : S -> A -> S) (policy rollout : S -> list (A * Qc)) (value : S -> Qc)
  (winner current_player : S -> Z).

(** mcts.py:109-132 [MCTS.__init__]: the settings and the tree. *)
Record mcts := mkMcts {
  m_heap : heap;
  m_root : nat;
  m_lmbda : Qc;
  m_c_puct : Qc;
  m_rollout_limit : nat;
  m_L : nat;
  m_n_playout : nat
}.
(** mcts.py:109-132 *)
Definition MCTS_new (lmbda c_puct : Qc) (rollout_limit playout_depth n_playout : nat) : mcts :=
  mkMcts [TreeNode_new None (Zc 1)] 0 lmbda c_puct rollout_limit playout_depth n_playout.
(** the same settings, another tree *)
Definition with_tree (m : mcts) (h : heap) (root : nat) : mcts :=
  mkMcts h root (m_lmbda m) (m_c_puct m) (m_rollout_limit m) (m_L m) (m_n_playout m).

(** mcts.py:147-158: the descent; also returns the moves made on the state. *)
Fixpoint descend (depth : nat) (h : heap) (nd : nat) (state : S) : res (heap * nat * S * list A) :=
  match depth with
  | O => Ok (h, nd, state, [])
  | Datatypes.S d =>
      do n <- get_nth h nd;
      let step h :=
        do ac <- select h nd;
        let '(action, nd') := ac in
        do r <- descend d h nd' (do_move state action);
        let '(h', e, s', acts) := r in Ok (h', e, s', action :: acts) in
      if is_leaf n then
        match policy state with
        | [] => Ok (h, nd, state, [])
        | action_probs => do h1 <- expand h nd action_probs; step h1
        end
      else step h
  end.

(** mcts.py:171-189 [_evaluate_rollout]: the loop, then the verdict. *)
Fixpoint rollout_loop (limit : nat) (state : S) : S :=
  match limit with
  | O => state
  | Datatypes.S l =>
      match rollout state with
      | [] => state
      | (a, p) :: t => rollout_loop l (do_move state (max_loop a p t))
      end
  end.
(** mcts.py:171-189 *)
Definition evaluate_rollout (state : S) (limit : nat) : Z :=
  let player := current_player state in
  let w := winner (rollout_loop limit state) in
  if Z.eqb w 0 then 0%Z else if Z.eqb w player then 1%Z else (-1)%Z.

(** mcts.py:164-166 *)
Definition leaf_value (m : mcts) (state : S) : Qc :=
  let v := if Qcltb (m_lmbda m) (Zc 1) then value state else Zc 0 in
  let z := if Qcltb (Zc 0) (m_lmbda m) then Zc (evaluate_rollout state (m_rollout_limit m)) else Zc 0 in
  ((Zc 1 - m_lmbda m) * v + m_lmbda m * z)%Qc.

(** What a playout did: the moves of the descent and the value propagated. *)
Definition entry := (list A * Qc)%type.

(** mcts.py:134-169 [_playout]; [None]: recursion fuel exhausted. *)
Definition playout (m : mcts) (state : S) (leaf_depth : nat) : option (res (mcts * entry)) :=
  match descend leaf_depth (m_heap m) (m_root m) state with
  | Raise e => Some (Raise e)
  | Ok (h, nd, state', acts) =>
      let lv := leaf_value m state' in
      match update_recursive (Datatypes.S nd) h nd lv (m_c_puct m) with
      | None => None
      | Some (Raise e) => Some (Raise e)
      | Some (Ok h') => Some (Ok (with_tree m h' (m_root m), (acts, lv)))
      end
  end.

(** mcts.py:200-202: the loop of [get_move] ([state.copy()] gives an equal state). *)
Fixpoint playouts (count : nat) (m : mcts) (state : S) : option (res (mcts * list entry)) :=
  match count with
  | O => Some (Ok (m, []))
  | Datatypes.S k =>
      match playout m state (m_L m) with
      | None => None
      | Some (Raise e) => Some (Raise e)
      | Some (Ok (m', en)) =>
          match playouts k m' state with
          | Some (Ok (m2, ens)) => Some (Ok (m2, en :: ens))
          | r => r
          end
      end
  end.

(** mcts.py:206 *)
Definition most_visited (m : mcts) : res A :=
  do n <- get_nth (m_heap m) (m_root m);
  do its <- iteritems (n_children n);
  do ks <- keyed (m_heap m) (fun n => Zc (Z.of_nat (n_visits n))) its;
  do best <- py_max ks;
  Ok (fst best).

(** mcts.py:191-206 [get_move]: the new tree, what the playouts did, and the result. *)
Definition get_move (m : mcts) (state : S) : option (res (mcts * list entry * A)) :=
  match playouts (m_n_playout m) m state with
  | None => None
  | Some (Raise e) => Some (Raise e)
  | Some (Ok (m', ens)) => Some (do a <- most_visited m'; Ok (m', ens, a))
  end.

(** mcts.py:214 *)
Definition clear_parent (n : node) : node := mkNode None (n_children n) (n_visits n) (n_Q n) (n_u n) (n_P n).

(** mcts.py:208-216 [update_with_move] *)
Definition update_with_move (m : mcts) (last_move : A) : res mcts :=
  do n <- get_nth (m_heap m) (m_root m);
  match child last_move (n_children n) with
  | Some c =>
      do nc <- get_nth (m_heap m) c;
      do h <- set_nth (m_heap m) c (clear_parent nc);
      Ok (with_tree m h c)
  | None => Ok (with_tree m (m_heap m ++ [TreeNode_new None (Zc 1)]) (length (m_heap m)))
  end.
End Game.
End Run.
End Mcts.
