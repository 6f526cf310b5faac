(** Specification vocabulary for the tree search: a log of playouts, and what the tree
    should contain for it. *)
From Coq Require Import List Arith.
From Verif Require Import Base BaseQ MMcts.
Import ListNotations.
Open Scope nat_scope.

Section Spec.
Context {A : Type} (aeq : forall a b : A, {a = b} + {a <> b}).

(** A log entry: the moves of one playout and the value propagated. *)
Definition log := list (list A * Qc).

Definition starts_with (w acts : list A) : bool := if list_eq_dec aeq (firstn (length w) acts) w then true else false.
(** Playouts that passed through the position reached by the moves [w]. *)
Definition through (w : list A) (L : log) : log := filter (fun e => starts_with w (fst e)) L.
(** Playouts that ended there. *)
Definition ended (w : list A) (L : log) : log := filter (fun e => if list_eq_dec aeq (fst e) w then true else false) L.
Definition total (L : log) : Qc := fold_right (fun e s => (snd e + s)%Qc) (Zc 0) L.

(** After the move [a] only the playouts beginning with [a] matter. *)
Definition advance (a : A) (L : log) : log :=
  flat_map (fun e => match fst e with b :: t => if aeq b a then [(t, snd e)] else [] | [] => [] end) L.

(** The address reached from [i] by the moves [w]. *)
Inductive at_path (h : heap A) : nat -> list A -> nat -> Prop :=
| at_here i : at_path h i [] i
| at_child i n a c w j : nth_error h i = Some n -> In (a, c) (n_children n) -> at_path h c w j -> at_path h i (a :: w) j.

(** The statistics of every node below [root] are those of the log. *)
Definition statistics (h : heap A) (root : nat) (L : log) : Prop :=
  forall w i n, at_path h root w i -> nth_error h i = Some n ->
    n_visits n = length (through w L) /\
    (through w L = [] -> n_Q n = Zc 0) /\
    (n_Q n * Zc (Z.of_nat (length (through w L))) = total (through w L))%Qc.

(** Every playout of the log is a path of the tree. *)
Definition recorded (h : heap A) (root : nat) (L : log) : Prop :=
  forall e, In e L -> exists i, at_path h root (fst e) i.

(** The log up to the last playout through [w]. *)
Fixpoint drop_until (f : list A * Qc -> bool) (l : log) : log :=
  match l with [] => [] | e :: r => if f e then l else drop_until f r end.
Definition upto (w : list A) (L : log) : log := rev (drop_until (fun e => starts_with w (fst e)) (rev L)).

Definition sum_visits (h : heap A) (l : list (A * nat)) : nat :=
  fold_right (fun ac s => (match nth_error h (snd ac) with Some n => n_visits n | None => 0 end) + s) 0 l.
End Spec.

(** Operations on a search: playouts and moves of the game. *)
Inductive op (A S : Type) := Playout (state : S) (depth : nat) | Advance (a : A).
Arguments Playout {A S}. Arguments Advance {A S}.

(** A history of operations with the log they produce. *)
Section History.
Context {A S : Type} (aeq : forall a b : A, {a = b} + {a <> b}) (py2 : bool) (order : list (A * nat) -> list (A * nat))
  (fsqrt : nat -> Qc) (do_move : S -> A -> S) (policy rollout : S -> list (A * Qc)) (value : S -> Qc) (winner current_player : S -> Z).
Fixpoint run (ops : list (op A S)) (m : mcts A) (L : log) : option (res (mcts A * log)) :=
  match ops with
  | [] => Some (Ok (m, L))
  | Playout s d :: rest =>
      match playout aeq py2 order fsqrt do_move policy rollout value winner current_player m s d with
      | None => None
      | Some (Raise e) => Some (Raise e)
      | Some (Ok (m', en)) => run rest m' (L ++ [en])
      end
  | Advance a :: rest =>
      match update_with_move aeq m a with
      | Raise e => Some (Raise e)
      | Ok m' => run rest m' (advance aeq a L)
      end
  end.
End History.

(** ** growth *)
(** The pairs of [aps] whose action is not in [known] and has not come before. *)
Inductive fresh_actions {A} : list A -> list (A * Qc) -> list (A * Qc) -> Prop :=
| fresh_nil known : fresh_actions known [] []
| fresh_old known a p aps added : In a known -> fresh_actions known aps added -> fresh_actions known ((a, p) :: aps) added
| fresh_new known a p aps added : ~ In a known -> fresh_actions (known ++ [a]) aps added ->
    fresh_actions known ((a, p) :: aps) ((a, p) :: added).

(** The positions from which the playouts of a history began, each with the moves of the
    game made since. *)
Fixpoint origins {A S} (ops : list (op A S)) (O : list (S * list A)) : list (S * list A) :=
  match ops with
  | [] => O
  | Playout s _ :: rest => origins rest (O ++ [(s, [])])
  | Advance a :: rest => origins rest (map (fun sv => (fst sv, snd sv ++ [a])) O)
  end.

(** Every node with children has one for each action the policy offered in its position, with
    the prior the policy gave; the position is that reached from the beginning of some playout. *)
Definition grown {A S} (do_move : S -> A -> S) (policy : S -> list (A * Qc)) (h : heap A) (root : nat) (O : list (S * list A)) : Prop :=
  forall w i n, at_path h root w i -> nth_error h i = Some n -> n_children n <> [] ->
    exists s v added, In (s, v) O /\ fresh_actions [] (policy (fold_left do_move (v ++ w) s)) added /\
      Forall2 (fun ac ap => fst ac = fst ap /\ exists k, nth_error h (snd ac) = Some k /\ n_P k = snd ap) (n_children n) added.

(** ** rollouts *)
Section Rollout.
Context {A S : Type} (do_move : S -> A -> S) (rollout : S -> list (A * Qc)).
(** The first action of largest probability. *)
Definition first_best (l : list (A * Qc)) (a : A) : Prop := exists l1 p l2, l = l1 ++ (a, p) :: l2 /\
  (forall b q, In (b, q) l1 -> (q < p)%Qc) /\ (forall b q, In (b, q) l2 -> (q <= p)%Qc).
(** [s'] is reached from [s] by playing such actions, [limit] of them unless the policy has
    no action left before. *)
Inductive rolled : nat -> S -> S -> Prop :=
| rolled_limit s : rolled 0 s s
| rolled_over k s : rollout s = [] -> rolled k s s
| rolled_move k s a s' : first_best (rollout s) a -> rolled k (do_move s a) s' -> rolled (Datatypes.S k) s s'.
(** The result seen by [player]: 0 for a tie, 1 for a win, -1 for a loss. *)
Definition verdict (w player z : Z) : Prop :=
  (w = 0%Z /\ z = 0%Z) \/ (w <> 0%Z /\ w = player /\ z = 1%Z) \/ (w <> 0%Z /\ w <> player /\ z = (-1)%Z).
(** Score of the position [s] by a rollout, seen by the player whose turn it is in [s]. *)
Definition scored (winner current_player : S -> Z) (limit : nat) (s : S) (z : Z) : Prop :=
  exists s', rolled limit s s' /\ verdict (winner s') (current_player s) z.
End Rollout.

(** ** attention *)
(** The priors of the children of a node together. *)
Definition sum_priors {A} (h : heap A) (l : list (A * nat)) : Qc :=
  fold_right (fun ac s => ((match nth_error h (snd ac) with Some n => n_P n | None => Zc 0 end) + s)%Qc) (Zc 0) l.
