(** Properties C57 - C60, C70, C71: random pop sets, random walks, neighbours, 2-D grids. *)
From Verif Require Import Base BaseQ LQ MElement MGrid MArrange SArrange LGrid2 LArrange3 LArrange4 LArrange5.
Open Scope nat_scope.

(** C57: after any calls, in whatever random way, the object is the set the calls describe,
    and every call answered as a set may. *)
Theorem C57_history : forall V (eqb : V -> V -> bool) (none : V) ops s h, (forall a b, eqb a b = true <-> a = b) ->
  run_ops eqb none rps_empty [] ops = (s, h) ->
  map fst (rev h) = ops /\ valid_history none h /\ NoDup (rp_iter s) /\
  (forall x, In x (rp_iter s) <-> mem_after h x) /\
  (forall x, rp_contains eqb s x = true <-> mem_after h x) /\ rp_len s = length (rp_iter s).
Proof. exact history_lemma. Qed.
Print Assumptions C57_history.
(** the constructor with an iterable: a set with exactly its items *)
Theorem C57_constructor : forall V (eqb : V -> V -> bool) it, (forall a b, eqb a b = true <-> a = b) ->
  let s := rp_new eqb (Some it) in
  NoDup (rp_iter s) /\ (forall x, In x (rp_iter s) <-> In x it) /\ (forall x, rp_contains eqb s x = true <-> In x it) /\
  rp_iter (rp_new eqb None) = [].
Proof.
  intros V eqb it EQ s. assert (K : it = [] \/ exists v : V, True) by (destruct it; eauto).
  destruct K as [-> | (v & _)]; [repeat split; try constructor; cbn; try tauto; discriminate|].
  destruct (run_ops eqb v rps_empty [] [OIor it]) as [s' h] eqn:E.
  destruct (history_lemma EQ E) as (_ & _ & ND & I & C & _). cbn in E. injection E as <- <-.
  split; [exact ND|]. split; [intros x; etransitivity; [exact (I x)|cbn; tauto]|]. split; [intros x; etransitivity; [exact (C x)|cbn; tauto]|reflexivity].
Qed.
Print Assumptions C57_constructor.


(** every element of the set can be the next random_pop *)
Theorem C57_any_element : forall V (eqb : V -> V -> bool) (none : V) ops s h v, (forall a b, eqb a b = true <-> a = b) ->
  run_ops eqb none rps_empty [] ops = (s, h) -> mem_after h v ->
  exists r, snd (step eqb none s (OPop r)) = Ok v.
Proof. exact any_lemma. Qed.
Print Assumptions C57_any_element.

(** [==] compares as sets, whatever the histories *)
Theorem C57_equality : forall V (eqb : V -> V -> bool) (none : V) ops s h ops' s' h', (forall a b, eqb a b = true <-> a = b) ->
  run_ops eqb none rps_empty [] ops = (s, h) -> run_ops eqb none rps_empty [] ops' = (s', h') ->
  rp_eq eqb s s' = true <-> forall x, mem_after h x <-> mem_after h' x.
Proof. exact equality_lemma. Qed.
Print Assumptions C57_equality.

Definition c57_ops : list (op pyval) :=
  [OIor [VInt 2; VInt 4; VInt 5; VInt 5; VInt 1]; ODiscard (VInt 4); OPop 4; OAdd (VInt 7); OPush (VInt 7); ORemove (VInt 9); OPop 5]%Z.
Example C57_ex : (forall a b, pyval_eqb a b = true <-> a = b) /\
  (let (s, h) := run_ops pyval_eqb VNone rps_empty [] c57_ops in (rp_iter s, rp_len s, map snd (rev h))) =
  ([VInt 2; VInt 5]%Z, 2, [Ok VNone; Ok VNone; Ok (VInt 1); Ok VNone; Ok VNone; Raise KeyError; Ok (VInt 7)]%Z) /\
  snd (run_ops pyval_eqb VNone rps_empty [] [OPop 3; OMPop]) = [(OMPop, Raise KeyError); (OPop 3, Ok VNone)].
Proof. split; [exact pyval_eqb_eq|]. split; vm_compute; reflexivity. Qed.

(** C58: [nbrs k x] is the outcome of the [k]-th call of get_neighbors, so nothing is assumed
    about the order of a set; the hypothesis about own neighbours is needed at the start
    only. *)
Theorem C58_arrangement : forall V (eqb : V -> V -> bool) (none : V) nbrs is_goal fuel rnd start path,
  (forall a b, eqb a b = true <-> a = b) ->
  (forall k, is_ok (nbrs k none) = false) -> (forall l, nbrs 0 start = Ok l -> ~ In start l) ->
  random_walk_arrange eqb none fuel nbrs is_goal rnd start = Some (Ok path) ->
  arrangement (fun p q => exists k l, nbrs k p = Ok l /\ In q l) start (length path) path /\
  is_goal (length path) = true /\ (forall n, 1 <= n < length path -> is_goal n = false).
Proof. exact walk_lemma. Qed.
Print Assumptions C58_arrangement.

(** A ring of five positions. *)
Definition ring (k : nat) (x : pyval) : res (list pyval) :=
  match x with VInt z => Ok [VInt ((z + 1) mod 5); VInt ((z + 4) mod 5)]%Z | _ => Raise TypeError end.
Example C58_ex : (forall k, is_ok (ring k VNone) = false) /\ (forall l, ring 0 (VInt 0) = Ok l -> ~ In (VInt 0) l) /\
  random_walk_arrange pyval_eqb VNone 9 ring (Nat.eqb 4) (fun n => n) (VInt 0) = Some (Ok [VInt 0; VInt 4; VInt 1; VInt 2]%Z) /\
  random_walk_arrange pyval_eqb VNone 9 ring (Nat.eqb 6) (fun n => n) (VInt 0) = Some (Raise TypeError).
Proof.
  split; [reflexivity|]. split; [|split; vm_compute; reflexivity].
  intros l H. injection H as <-. cbn. intuition discriminate.
Qed.
(** A start position that is its own neighbour may be visited twice. *)
Theorem C58_self_neighbour_refuted : exists nbrs, (forall k, is_ok (nbrs k VNone) = false) /\
  random_walk_arrange pyval_eqb VNone 9 nbrs (Nat.eqb 2) (fun _ => 0) (VInt 0) = Some (Ok [VInt 0; VInt 0]%Z).
Proof.
  exists (fun _ x => match x with VInt z => Ok [VInt z] | _ => Raise TypeError end). split; reflexivity.
Qed.
Print Assumptions C58_self_neighbour_refuted.

(** C59 *)
Theorem C59_boron_succeeds : forall order rnd g fuel, (2 <= g)%Z -> (forall k l, Permutation l (order k l)) ->
  Z.to_nat g <= fuel -> let n := Z.to_nat g in
  exists ps, boron_walk fuel order rnd g = Some (Ok (map VTup ps)) /\ Forall (in_grid2 n n) ps /\
    arrangement (neighbour2 boron_m arrange_delta n n) [g / 2; g / 2]%Z n ps.
Proof. exact boron_lemma. Qed.
Print Assumptions C59_boron_succeeds.

Theorem C59_hexagonal : forall n a b x y,
  neighbour2 boron_m arrange_delta n n [a; b] [x; y] <->
  in_grid2 n n [x; y] /\ In (x - a, y - b)%Z [(1, 0); (-1, 0); (0, 1); (0, -1); (1, -1); (-1, 1)]%Z.
Proof. exact boron_hex. Qed.
Print Assumptions C59_hexagonal.

Theorem C59_one_raises : forall order rnd fuel, boron_walk fuel order rnd 1 = Some (Raise ValueError) /\
  forall g, (g <= 0)%Z -> boron_walk fuel order rnd g = Some (Raise IndexError).
Proof. intros. split; [apply boron_one|intros; now apply boron_zero]. Qed.
Print Assumptions C59_one_raises.

Example C59_ex : boron_walk 5 (fun _ l => rev l) (fun n => n * n) 4 =
  Some (Ok [VTup [2; 2]; VTup [3; 1]; VTup [1; 3]; VTup [2; 1]]%Z) /\ (forall k l, Permutation l ((fun (_ : nat) l => rev l) k l : list pyval)).
Proof. split; [vm_compute; reflexivity|intros; apply Permutation_rev]. Qed.

(** C60 *)
Theorem C60_neighbours : forall s x y z delta, (0 <= delta)%Qc ->
  let g := c_grid s in
  answers (in_grid (g_width g) (g_length g) (g_depth g)) (neighbour (c_m s) delta (g_width g) (g_length g) (g_depth g) [x; y; z])
    [x; y; z] (cstru_get_neighbors s (VTup [x; y; z]) delta).
Proof. intros. apply neighbors3_answers. Qed.
Print Assumptions C60_neighbours.

Theorem C60_neighbours_2d : forall s x y delta, (0 <= delta)%Qc ->
  let g := c2_grid s in
  answers (in_grid2 (g2_width g) (g2_length g)) (neighbour2 (c2_m s) delta (g2_width g) (g2_length g) [x; y])
    [x; y] (cstru2_get_neighbors s (VTup [x; y]) delta).
Proof. intros. apply neighbors2_answers. Qed.
Print Assumptions C60_neighbours_2d.

(** get_midpoint is a position of the grid exactly under these conditions on the sizes
    (depth, width and length are mixed up); they hold for cubic grids. *)
Theorem C60_midpoint : forall s delta, 0 < g_depth (c_grid s) -> 0 < g_width (c_grid s) -> 0 < g_length (c_grid s) ->
  cstru_get_neighbors s (midpoint_val s) delta = Raise KeyError <->
  ~ (g_depth (c_grid s) / 2 < g_width (c_grid s) /\ g_width (c_grid s) / 2 < g_length (c_grid s) /\ g_length (c_grid s) / 2 < g_depth (c_grid s)).
Proof. exact midpoint_key. Qed.
Print Assumptions C60_midpoint.

Definition cubic : mat Qc := (V3 (V3 1 0 0) (V3 0 1 0) (V3 0 0 1))%Qc.
Example C60_ex :
  get_neighbors cubic 2 2 3 (VTup [0; 0; 0])%Z 1%Qc = Ok [VTup [0; 1; 0]; VTup [1; 0; 0]; VTup [0; 0; 1]]%Z /\
  get_neighbors cubic 1 1 2 (VTup [0; 0; 0])%Z 1%Qc = Ok [VInt 1; VInt 0]%Z /\
  get_neighbors cubic 1 1 2 (VTup [0; 0; 0])%Z 0%Qc = Raise TypeError /\
  get_neighbors cubic 1 1 1 (VTup [0; 0; 0])%Z 1%Qc = Raise ValueError /\
  get_neighbors cubic 1 1 2 (VTup [0; 2; 0])%Z 1%Qc = Raise KeyError.
Proof. repeat split; vm_compute; reflexivity. Qed.

(** The plain reading "the set of near positions" fails with a single neighbour, and for the
    midpoint of a grid that is deep and narrow. *)
Theorem C60_refuted :
  (exists m d w l p q delta, (forall q', neighbour m delta w l d p q' <-> q' = q) /\
     get_neighbors m d w l (VTup p) delta = Ok [VInt 1; VInt 0]%Z) /\
  (exists hp s, fst (match grid_of [] (repeat (repeat (repeat GhostSpecie_new 1) 1) 4) with Ok (g, h) => (Some (mkCStru cubic g), h) | _ => (None, []) end) = Some s /\
     hp = repeat [GhostSpecie_new] 4 /\ cstru_get_neighbors s (midpoint_val s) 1%Qc = Raise KeyError).
Proof.
  split.
  - exists cubic, 1, 1, 2, [0; 0; 0]%Z, [0; 1; 0]%Z, 1%Qc. split; [|vm_compute; reflexivity].
    intros q'. split.
    + intros ((x & y & z & -> & Hx & Hy & Hz) & D & _).
      assert (x = 0 /\ z = 0 /\ (y = 0 \/ y = 1))%Z as (-> & -> & [-> | ->]) by lia; [congruence|reflexivity].
    + intros ->. split; [exists 0%Z, 1%Z, 0%Z; repeat split; lia|]. split; [discriminate|].
      exists 0%Z, 0%Z, 0%Z, 0%Z, 1%Z, 0%Z. split; [reflexivity|]. split; [reflexivity|].
      apply Qcleb_le. vm_compute. reflexivity.
  - eexists _, _. split; [vm_compute; reflexivity|]. split; vm_compute; reflexivity.
Qed.
Print Assumptions C60_refuted.

(** C70 *)
Theorem C70_fcc_succeeds : forall hp order rnd g fuel, (2 <= g)%Z -> (forall k l, Permutation l (order k l)) ->
  Z.to_nat g <= fuel -> let n := Z.to_nat g in
  exists ps, fcc_walk fuel order rnd hp g = Some (Ok (map VTup ps)) /\ Forall (in_grid n n n) ps /\
    arrangement (neighbour fcc_m arrange_delta n n n) [g / 2; g / 2; g / 2]%Z n ps.
Proof. exact fcc_lemma. Qed.
Print Assumptions C70_fcc_succeeds.
Example C70_ex : fcc_walk 3 (fun _ l => l) (fun n => n * 7) [] 3 =
  Some (Ok [VTup [1; 1; 1]; VTup [2; 1; 0]; VTup [2; 0; 1]]%Z) /\
  fcc_walk 3 (fun _ l => l) (fun n => n * 7) [] 1 = Some (Raise ValueError).
Proof. split; vm_compute; reflexivity. Qed.

(** C71: reading a 2-D grid as an array works, the way back never does. *)
Theorem C71_sea_array : forall w l sp, 0 < w -> 0 < l ->
  exists g, sea2 w l sp = Ok g /\ get_array2 g = Ok (repeat (repeat (sp_Z sp) l) w).
Proof. exact get_array2_sea. Qed.
Print Assumptions C71_sea_array.
(** Equality of 2-D grids is equality of the arrays of atomic numbers. *)
Theorem C71_equality : forall g h, grid2_eqb g h = true <->
  length (g2_sites g) = length (g2_sites h) /\
  forall i r s, nth_error (g2_sites g) i = Some r -> nth_error (g2_sites h) i = Some s -> map sp_Z r = map sp_Z s.
Proof. exact grid2_eqb_spec. Qed.
Print Assumptions C71_equality.
Theorem C71_equality_arrays : forall g h a b, get_array2 g = Ok a -> get_array2 h = Ok b -> (grid2_eqb g h = true <-> a = b).
Proof. exact grid2_eqb_arrays. Qed.
Print Assumptions C71_equality_arrays.
Theorem C71_from_array_raises : forall arr, arr <> [] -> (forall r, In r arr -> r <> []) -> from_array2 arr = Raise AttributeError.
Proof. exact from_array2_fails. Qed.
Print Assumptions C71_from_array_raises.
Theorem C71_round_trip_refuted : exists g arr, get_array2 g = Ok arr /\ from_array2 arr = Raise AttributeError.
Proof.
  destruct (@get_array2_sea 2 3 GhostSpecie_new) as (g & _ & E); [lia|lia|].
  exists g. eexists. split; [exact E|reflexivity].
Qed.
Print Assumptions C71_round_trip_refuted.
Example C71_ex : match sea2 2 1 GhostSpecie_new with Ok g => get_array2 g | Raise e => Raise e end = Ok [[0]; [0]]%Z /\ from_array2 [[5; 0]]%Z = Raise AttributeError /\
  match sea2 2 1 GhostSpecie_new, sea2 1 2 GhostSpecie_new with Ok g, Ok h => grid2_eqb g g = true /\ grid2_eqb g h = false | _, _ => False end.
Proof. repeat split; reflexivity. Qed.
