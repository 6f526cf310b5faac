(** C98: exactly which arrangements the random walk can give. *)
From Verif Require Import Base LBase BaseQ LQ MElement MGrid MArrange SArrange SWalk LArrange LArrange2 LArrange3 LArrange4 LArrange5 LWalk.
Open Scope nat_scope.

(** For some random numbers the walk returns [path] exactly if [path] is growable and its
    length is the first to meet the goal test. *)
Theorem C98_exact : forall V (eqb : V -> V -> bool) (none : V) nbrs is_goal start path,
  (forall a b, eqb a b = true <-> a = b) ->
  (forall k, is_ok (nbrs k none) = false) -> (forall l, nbrs 0 start = Ok l -> ~ In start l) ->
  (exists fuel rnd, random_walk_arrange eqb none fuel nbrs is_goal rnd start = Some (Ok path)) <->
  growable nbrs start path /\ is_goal (length path) = true /\ (forall n, 1 <= n < length path -> is_goal n = false).
Proof.
  intros V eqb none nbrs is_goal start path EQ NN NS. split.
  - intros (fuel & rnd & E). split; [exact (only_lemma EQ NN NS E)|]. exact (proj2 (walk_lemma EQ NN NS E)).
  - intros (GR & GT & GF). exists (length path). apply (reach_lemma EQ); auto.
Qed.
Print Assumptions C98_exact.

Theorem C98_boron : forall order g ps, (2 <= g)%Z -> (forall k l, Permutation l (order k l)) -> let n := Z.to_nat g in
  (exists rnd, boron_walk n order rnd g = Some (Ok (map VTup ps))) <->
  arrangement (neighbour2 boron_m arrange_delta n n) [g / 2; g / 2]%Z n ps.
Proof.
  intros order g ps Hg Ho n. split; [|now apply boron_reach].
  intros (rnd & E). destruct (boron_lemma rnd Hg Ho (le_n _)) as (ps' & E' & _ & A). fold n in E', A. rewrite E in E'.
  injection E' as E'. replace ps with ps'; [exact A|]. clear - E'. revert ps' E'. induction ps as [|p ps IH]; intros [|p' ps'] E'; try discriminate; [reflexivity|].
  injection E' as -> E'. f_equal. now apply IH.
Qed.
Print Assumptions C98_boron.

Theorem C98_fcc : forall hp order g ps, (2 <= g)%Z -> (forall k l, Permutation l (order k l)) -> let n := Z.to_nat g in
  (exists rnd, fcc_walk n order rnd hp g = Some (Ok (map VTup ps))) <->
  arrangement (neighbour fcc_m arrange_delta n n n) [g / 2; g / 2; g / 2]%Z n ps.
Proof.
  intros hp order g ps Hg Ho n. split; [|now apply fcc_reach].
  intros (rnd & E). destruct (fcc_lemma hp rnd Hg Ho (le_n _)) as (ps' & E' & _ & A). fold n in E', A. rewrite E in E'.
  injection E' as E'. replace ps with ps'; [exact A|]. clear - E'. revert ps' E'. induction ps as [|p ps IH]; intros [|p' ps'] E'; try discriminate; [reflexivity|].
  injection E' as -> E'. f_equal. now apply IH.
Qed.
Print Assumptions C98_fcc.

(** As sets: the results are the connected sets of [g] positions of the grid containing the
    midpoint. *)
Theorem C98_boron_sets : forall order g S, (2 <= g)%Z -> (forall k l, Permutation l (order k l)) -> let n := Z.to_nat g in
  (exists rnd ps, boron_walk n order rnd g = Some (Ok (map VTup ps)) /\ Permutation S ps) <->
  length S = n /\ connected (neighbour2 boron_m arrange_delta n n) [g / 2; g / 2]%Z S.
Proof.
  intros order g S Hg Ho n. split.
  - intros (rnd & ps & E & PE). assert (A : arrangement (neighbour2 boron_m arrange_delta n n) [g / 2; g / 2]%Z n ps) by (apply (C98_boron order g ps Hg Ho); eauto).
    split; [rewrite (Permutation_length PE); apply A|]. destruct (arrangement_connected A) as (C0 & C1 & C2).
    split; [exact (Permutation_in _ (Permutation_sym PE) C0)|]. split; [exact (Permutation_NoDup (Permutation_sym PE) C1)|].
    intros x Ix. specialize (C2 x (Permutation_in _ PE Ix)). induction C2 as [I|x y L IH Nxy Iy].
    + constructor. exact (Permutation_in _ (Permutation_sym PE) I).
    + apply linked_next with x; [|exact Nxy|exact (Permutation_in _ (Permutation_sym PE) Iy)]. apply IH. destruct L as [I|? ? ? ? I]; exact (Permutation_in _ (Permutation_sym PE) I).
  - intros (Ln & C). destruct (grow_perm (list_eq_dec Z.eq_dec) C) as (ps & A & PE). rewrite Ln in A. apply (C98_boron order g ps Hg Ho) in A. destruct A as (rnd & E). eauto.
Qed.
Print Assumptions C98_boron_sets.

(** The grid clips: for an even number of atoms a straight row in the third direction of the
    triangular lattice, wherever it lies, is never given. *)
Theorem C98_row_refuted : forall m, (1 <= m)%Z -> forall order fuel rnd path, (forall k l, Permutation l (order k l)) -> Z.to_nat (2 * m) <= fuel ->
  boron_walk fuel order rnd (2 * m) = Some (Ok path) -> ~ (exists a b, forall p, In p path -> exists k, p = VTup [a + k; b - k]%Z).
Proof.
  intros m Hm order fuel rnd path Ho Lf E (a & b & R).
  assert (Hg : (2 <= 2 * m)%Z) by lia.
  destruct (boron_lemma rnd Hg Ho Lf) as (ps & E' & FP & (A0 & A1 & A2 & _)). rewrite E in E'. injection E' as ->. replace (2 * m / 2)%Z with m in A0 by (rewrite Z.mul_comm, Z.div_mul; lia).
  assert (SUM : (a + b = 2 * m)%Z). { destruct (R (VTup [m; m])) as [k K]; [apply in_map; eapply nth_error_In; exact A0|]. injection K. lia. }
  set (row := map (fun i => [Z.of_nat i + 1; 2 * m - 1 - Z.of_nat i]%Z) (seq 0 (Z.to_nat (2 * m - 1)))).
  assert (SUB : incl ps row).
  { intros p Ip. rewrite Forall_forall in FP. destruct (FP p Ip) as (x & y & -> & Hx & Hy). destruct (R (VTup [x; y])) as [k K]; [now apply in_map|]. injection K as Kx Ky.
    unfold row. apply in_map_iff. exists (Z.to_nat (x - 1)). split; [|apply in_seq]; [|lia]. f_equal; [lia|]. f_equal. lia. }
  pose proof (NoDup_incl_length A2 SUB) as LE. unfold row in LE. rewrite map_length, seq_length in LE. lia.
Qed.
Print Assumptions C98_row_refuted.

Example C98_ex : (exists rnd, boron_walk 4 (fun _ l => rev l) rnd 4 = Some (Ok (map VTup [[2; 2]; [2; 1]; [1; 2]; [0; 2]]%Z))) /\
  arrangement (neighbour2 boron_m arrange_delta 4 4) [2; 2]%Z 4 [[2; 2]; [2; 1]; [1; 2]; [0; 2]]%Z.
Proof.
  assert (K : boron_walk 4 (fun _ l => rev l) (fun n => match n with 1 => 3 | 2 => 3 | _ => 8 end) 4 = Some (Ok (map VTup [[2; 2]; [2; 1]; [1; 2]; [0; 2]]%Z))).
  { vm_compute. reflexivity. }
  assert (E : exists rnd, boron_walk 4 (fun _ l => rev l) rnd 4 = Some (Ok (map VTup [[2; 2]; [2; 1]; [1; 2]; [0; 2]]%Z))) by (eexists; exact K).
  split; [exact E|]. apply (C98_boron (fun _ l => rev l) 4) in E; [exact E|lia|intros; apply Permutation_rev].
Qed.
