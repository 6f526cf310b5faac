(** C72: the shipped table against the shipped geometry. *)
From Verif Require Import Base LBase BaseQ LQ SSym LSym LPermDec LPermGen MSort MBuckyTable MBucky SBucky LBuckyTable.
Set Implicit Arguments.
Unset Strict Implicit.
Open Scope nat_scope.

(** ** the sorted positions as integer triples *)
Definition toq (z : Z) : Qc := Q2Qc (z # 1000000000).
Definition bz : list (vec Z) := Eval vm_compute in match take_idx bucky_json (bucky_new_id_seq bucky_json_positions) with Ok l => l | Raise _ => [] end.

Lemma take_idx_map A B (f : A -> B) l idx r : take_idx l idx = Ok r -> take_idx (map f l) idx = Ok (map f r).
Proof.
  unfold take_idx. revert r. induction idx as [|i idx IH]; intros r; cbn [mapM].
  - intros E. injection E as <-. reflexivity.
  - unfold get_nth at 1 3. rewrite nth_error_map. destruct (nth_error l i) as [a|]; cbn [bind option_map]; [|intros E; discriminate E].
    destruct (mapM (get_nth l) idx) as [r'|] eqn:Em; cbn [bind]; [|intros E; discriminate E].
    intros E. injection E as <-. rewrite (IH r' eq_refl). reflexivity.
Qed.

Lemma bz_ok : take_idx bucky_json (bucky_new_id_seq bucky_json_positions) = Ok bz.
Proof. vm_compute. reflexivity. Qed.

Lemma Structure_new_ok nums : Structure_new nums = Ok (mkBucky bucky_lattice (map (vmap toq) bz) nums bucky_perm_table).
Proof.
  unfold Structure_new. pose proof (take_idx_map (vmap toq) bz_ok) as H.
  change (map (vmap toq) bucky_json) with bucky_json_positions in H. cbv zeta. rewrite H. reflexivity.
Qed.

Lemma bz_length : length bz = 60.
Proof. vm_compute. reflexivity. Qed.

(** ** distances as integers (unit 1e-16) *)
Definition dz (p q : vec Z) : Z :=
  ((vx p - vx q) * (vx p - vx q) + (vy p - vy q) * (vy p - vy q) + (vz p - vz q) * (vz p - vz q))%Z.

Lemma Q2Qc_sub a b m : (Q2Qc (a # m) - Q2Qc (b # m))%Qc = Q2Qc ((a - b)%Z # m).
Proof.
  apply Qc_is_canon. unfold Qcminus, Qcplus, Qcopp. cbn [this Q2Qc]. rewrite !Qred_correct.
  unfold Qeq, Qplus, Qopp. cbn. lia.
Qed.

Lemma dist2_dz p q : dist2 (Zc 10) (vmap toq p) (vmap toq q) = Q2Qc (dz p q # 10000000000000000).
Proof.
  unfold dist2, sq, vmap, toq, dz. cbn [vx vy vz]. rewrite !Q2Qc_sub.
  generalize (vx p - vx q)%Z (vy p - vy q)%Z (vz p - vz q)%Z. intros a b c.
  apply Qc_is_canon. unfold Zc, inject_Z, Qcmult, Qcplus. cbn [this Q2Qc]. rewrite !Qred_correct.
  unfold Qeq, Qmult, Qplus. cbn [Qnum Qden]. rewrite ?Pos2Z.inj_mul. lia.
Qed.

Lemma Q2Qc_le a b m k : (Q2Qc (a # m) <= Q2Qc (b # k))%Qc <-> (a * Z.pos k <= b * Z.pos m)%Z.
Proof. unfold Qcle. cbn [this Q2Qc]. rewrite !Qred_correct. reflexivity. Qed.

Definition pz (i : nat) : vec Z := nth i bz (V3 0 0 0)%Z.
Definition bondb (i j : nat) : bool :=
  negb (Nat.eqb i j) && (i <? 60) && (j <? 60) && (dz (pz i) (pz j) <=? 30625000000000000)%Z.

Notation bpos := (map (vmap toq) bz).

Lemma bpos_nth i p : nth_error bpos i = Some p <-> i < 60 /\ p = vmap toq (pz i).
Proof.
  rewrite nth_error_map. unfold pz. destruct (nth_error bz i) as [v|] eqn:E; cbn [option_map].
  - assert (i < 60) by (rewrite <- bz_length; apply nth_error_Some; congruence). rewrite (nth_error_nth bz i _ E).
    split; [intros K; injection K as <-; auto|intros [_ ->]; reflexivity].
  - apply nth_error_None in E. rewrite bz_length in E. split; [discriminate|]. intros [K _]. lia.
Qed.

Lemma site_dist2_dz i j d : site_dist2 (Zc 10) bpos i j d <-> i < 60 /\ j < 60 /\ d = Q2Qc (dz (pz i) (pz j) # 10000000000000000).
Proof.
  unfold site_dist2. split.
  - intros [p [q [Hp [Hq ->]]]]. apply bpos_nth in Hp, Hq. destruct Hp as [Hi ->], Hq as [Hj ->].
    split; [assumption|]. split; [assumption|]. apply dist2_dz.
  - intros [Hi [Hj ->]]. exists (vmap toq (pz i)), (vmap toq (pz j)).
    split; [now apply bpos_nth|]. split; [now apply bpos_nth|]. symmetry. apply dist2_dz.
Qed.

Lemma bonded_b i j : bonded (Zc 10) bpos i j <-> bondb i j = true.
Proof.
  unfold bonded, bondb. rewrite !andb_true_iff, negb_true_iff, Nat.eqb_neq, !Nat.ltb_lt, Z.leb_le. split.
  - intros [N [d [H L]]]. apply site_dist2_dz in H. destruct H as [Hi [Hj ->]]. apply (proj1 (Q2Qc_le _ _ _ _)) in L.
    split; [split; [split; assumption|assumption]|]. lia.
  - intros [[[N Hi] Hj] L]. split; [assumption|]. eexists. split; [apply site_dist2_dz; split; [assumption|split; [assumption|reflexivity]]|].
    apply (proj2 (Q2Qc_le _ _ _ _)). lia.
Qed.

(** ** no row of the table but the identity is a symmetry *)
Definition pairs : list (nat * nat) := list_prod (seq 0 60) (seq 0 60).
Definition bonds : list (nat * nat) := Eval vm_compute in filter (fun ij => bondb (fst ij) (snd ij)) pairs.
Lemma bonds_eq : filter (fun ij => bondb (fst ij) (snd ij)) pairs = bonds.
Proof. vm_compute. reflexivity. Qed.
Lemma bonds_In i j : In (i, j) bonds <-> bonded (Zc 10) bpos i j.
Proof.
  rewrite bonded_b, <- bonds_eq, filter_In. cbn [fst snd]. split; [intros [_ H]; exact H|]. intros H. split; [|exact H].
  unfold pairs. apply in_prod; apply in_seq; unfold bondb in H; rewrite !andb_true_iff, !Nat.ltb_lt in H; lia.
Qed.
Lemma bonds_count : length bonds = 180.
Proof. reflexivity. Qed.

Lemma far_rows : forallb (fun p => nat_list_eqb p (seq 0 60) ||
    existsb (fun ij => (490000000000000000 <? dz (pz (nth (fst ij) p 0%nat)) (pz (nth (snd ij) p 0%nat)))%Z) bonds) bucky_perm_table = true.
Proof. vm_compute. reflexivity. Qed.

Lemma table_far p : In p bucky_perm_table -> p <> seq 0 60 ->
  exists i j i' j' d, bonded (Zc 10) bpos i j /\ nth_error p i = Some i' /\ nth_error p j = Some j' /\
    site_dist2 (Zc 10) bpos i' j' d /\ (Zc 49 < d)%Qc.
Proof.
  intros Hp N. pose proof (proj1 (forallb_forall _ _) far_rows p Hp) as H. cbv beta in H. apply orb_true_iff in H. destruct H as [H|H].
  - apply nat_list_eqb_eq in H. contradiction.
  - apply existsb_exists in H. destruct H as [[i j] [Hij H]]. cbn [fst snd] in H. apply Z.ltb_lt in H.
    apply bonds_In in Hij. pose proof (proj1 (bonded_b i j) Hij) as B. unfold bondb in B. rewrite !andb_true_iff, !Nat.ltb_lt in B.
    destruct B as [[[_ Hi] Hj] _]. destruct bucky_group as [PG _]. pose proof (PG p Hp) as Pp. pose proof (perm_length Pp) as Lp.
    assert (Ei : nth_error p i = Some (nth i p 0)) by (apply nth_error_nth'; lia).
    assert (Ej : nth_error p j = Some (nth j p 0)) by (apply nth_error_nth'; lia).
    exists i, j, (nth i p 0), (nth j p 0). eexists. split; [assumption|]. split; [assumption|]. split; [assumption|]. split.
    + apply site_dist2_dz. split; [apply (perm_lt Pp Ei)|]. split; [apply (perm_lt Pp Ej)|reflexivity].
    + unfold Qclt, Zc, inject_Z. cbn [this Q2Qc]. rewrite !Qred_correct. unfold Qlt. cbn [Qnum Qden]. lia.
Qed.

(** ** the table is the symmetry group of the ball in another numbering *)
Definition ren : list nat := [0;3;1;6;2;7;10;14;4;5;15;11;12;26;13;9;23;8;22;18;19;32;20;21;16;28;34;17;35;29;42;24;43;30;25;31;27;38;39;51;40;50;41;36;37;33;46;47;55;48;44;45;54;49;58;52;57;53;59;56].
Definition renrow (p : list nat) : list nat :=
  map (fun i' => match find (fun i => Nat.eqb (nth i ren 60) i') (seq 0 60) with Some i => nth (nth i p 0) ren 0 | None => 0 end) (seq 0 60).
Definition ren_table : list (list nat) := Eval vm_compute in map renrow bucky_perm_table.
Lemma ren_table_eq : map renrow bucky_perm_table = ren_table.
Proof. vm_compute. reflexivity. Qed.

Lemma ren_perm : Permutation ren (seq 0 60).
Proof. apply is_permb_ok. vm_compute. reflexivity. Qed.

Lemma renrow_renamed p : Permutation p (seq 0 60) -> renamed ren p (renrow p).
Proof.
  intros Pp. split; [unfold renrow; rewrite map_length, seq_length; symmetry; now apply perm_length|].
  intros i j i' j' Hp Hi Hj. unfold renrow. rewrite nth_error_map, nth_error_seq.
  pose proof (perm_lt ren_perm Hi) as Li'. destruct (Nat.ltb_spec i' 60); [|lia]. cbn [option_map Nat.add].
  assert (Li : i < 60) by (rewrite <- (perm_length ren_perm); apply nth_error_Some; congruence).
  destruct (find _ (seq 0 60)) as [k|] eqn:F.
  - apply find_some in F. destruct F as [K E]. apply in_seq in K. apply Nat.eqb_eq in E.
    assert (Ek : nth_error ren k = Some i').
    { rewrite <- E. apply nth_error_nth'. rewrite (perm_length ren_perm). lia. }
    assert (k = i) by (apply (perm_inj ren_perm Ek Hi)). subst k.
    rewrite (nth_error_nth p i 0 Hp), (nth_error_nth ren j 0 Hj). reflexivity.
  - exfalso. assert (K := find_none _ _ F i). cbv beta in K. rewrite (nth_error_nth ren i 60 Hi), Nat.eqb_refl in K.
    discriminate K. apply in_seq. lia.
Qed.

Lemma renamed_fun p q q' : Permutation p (seq 0 60) -> renamed ren p q -> renamed ren p q' -> q = q'.
Proof.
  intros Pp [L H] [L' H']. apply list_ext. intros i'. destruct (Nat.lt_ge_cases i' 60) as [Hi|Hi].
  - destruct (perm_surj ren_perm Hi) as [i [Li Ei]].
    assert (Hp : i < length p) by (rewrite (perm_length Pp); exact Li). destruct (nth_error p i) as [j|] eqn:Ej; [|apply nth_error_None in Ej; lia].
    pose proof (perm_lt Pp Ej) as Lj. destruct (nth_error ren j) as [j'|] eqn:Ej'; [|apply nth_error_None in Ej'; rewrite (perm_length ren_perm) in Ej'; lia].
    now rewrite (H i j i' j'), (H' i j i' j').
  - pose proof (perm_length Pp). rewrite !(proj2 (nth_error_None _ _)) by lia. reflexivity.
Qed.

Lemma ren_generated : generatedb 60 ren_table bucky_gens bucky_words = true.
Proof. vm_compute. reflexivity. Qed.
Lemma gens_symmetry_b : forallb (fun g => is_permb 60 (nth g ren_table []) &&
   forallb (fun ij => bondb (nth (fst ij) (nth g ren_table []) 0) (nth (snd ij) (nth g ren_table []) 0)) bonds) bucky_gens = true.
Proof. vm_compute. reflexivity. Qed.
Lemma bonds_b i j : In (i, j) bonds <-> bondb i j = true.
Proof. rewrite bonds_In, bonded_b. reflexivity. Qed.
Lemma bondb_lt i j : bondb i j = true -> i < 60 /\ j < 60.
Proof. unfold bondb. rewrite !andb_true_iff, !Nat.ltb_lt. tauto. Qed.
Lemma nth_compb p g k : k < length g -> nth k (compb p g) 0 = nth (nth k g 0) p 0.
Proof.
  intros Hk. unfold compb. rewrite (nth_indep (map (fun j => nth j p 0) g) 0 (nth 0 p 0)) by (rewrite map_length; lia).
  exact (map_nth (fun j => nth j p 0) _ 0 k).
Qed.
Lemma compb_perm n p g : Permutation p (seq 0 n) -> Permutation g (seq 0 n) -> Permutation (compb p g) (seq 0 n).
Proof.
  intros Hp Hg. unfold compb. rewrite (Permutation_map _ Hg). rewrite <- (perm_length Hp), map_nth_seq. now rewrite (perm_length Hp).
Qed.
Lemma ren_symmetry_b q : In q ren_table -> Permutation q (seq 0 60) /\ forall i j, bondb i j = true -> bondb (nth i q 0) (nth j q 0) = true.
Proof.
  revert q. apply (generated_ind ren_generated).
  - split; [reflexivity|]. intros i j B. destruct (bondb_lt B). rewrite !seq_nth by assumption. exact B.
  - intros p g [Pp IH] Ig. pose proof (proj1 (forallb_forall _ _) gens_symmetry_b g Ig) as H. cbv beta in H. apply andb_true_iff in H. destruct H as [H1 H2].
    apply is_permb_ok in H1. split; [apply compb_perm; assumption|]. intros i j B. destruct (bondb_lt B).
    rewrite !nth_compb by (rewrite (perm_length H1); assumption). apply IH.
    apply bonds_b in B. exact (proj1 (forallb_forall _ _) H2 _ B).
Qed.

Lemma bpos_length : length bpos = 60.
Proof. now rewrite map_length, bz_length. Qed.

Lemma ren_symmetry q : In q ren_table -> bond_symmetry (Zc 10) bpos q.
Proof.
  intros Hq. destruct (ren_symmetry_b Hq) as [H1 H2].
  split; [rewrite bpos_length; exact H1|]. intros i j i' j' Hi Hj B. apply bonded_b in B. apply bonded_b.
  specialize (H2 i j B). now rewrite (nth_error_nth q i 0 Hi), (nth_error_nth q j 0 Hj) in H2.
Qed.

(** *** a complete search for bond symmetries *)
Definition adj (i : nat) : list nat := map snd (filter (fun ij => Nat.eqb (fst ij) i) bonds).
Definition adjt : list (list nat) := Eval vm_compute in map adj (seq 0 60).
Definition adj' (i : nat) : list nat := nth i adjt [].
Lemma adjt_eq : map adj (seq 0 60) = adjt.
Proof. vm_compute. reflexivity. Qed.
Lemma adj'_In i j : In j (adj' i) <-> bonded (Zc 10) bpos i j.
Proof.
  rewrite <- bonds_In. unfold adj'. rewrite <- adjt_eq. destruct (Nat.lt_ge_cases i 60) as [Hi|Hi].
  - rewrite (nth_indep _ [] (adj 60)) by (rewrite map_length, seq_length; exact Hi). rewrite map_nth.
    rewrite seq_nth by exact Hi. cbn [Nat.add]. unfold adj. rewrite in_map_iff. split.
    + intros [[a b] [E K]]. cbn in E. subst b. apply filter_In in K. cbn in K. destruct K as [K E]. apply Nat.eqb_eq in E. now subst.
    + intros K. exists (i, j). split; [reflexivity|]. apply filter_In. split; [exact K|]. cbn. apply Nat.eqb_refl.
  - rewrite nth_overflow by (rewrite map_length, seq_length; exact Hi). split; [easy|]. intros K. apply bonds_In, bonded_b in K.
    unfold bondb in K. rewrite !andb_true_iff, !Nat.ltb_lt in K. lia.
Qed.

Definition mem (j : nat) (l : list nat) : bool := existsb (Nat.eqb j) l.
Lemma mem_In j l : mem j l = true <-> In j l.
Proof.
  unfold mem. rewrite existsb_exists. split.
  - intros [k [K E]]. apply Nat.eqb_eq in E. now subst.
  - intros K. exists j. split; [assumption|apply Nat.eqb_refl].
Qed.

Definition image (m : list (nat * nat)) (u : nat) : option nat :=
  match find (fun uc => Nat.eqb (fst uc) u) m with Some uc => Some (snd uc) | None => None end.
Definition extend (m : list (nat * nat)) (up : nat * nat) : list (list (nat * nat)) :=
  match image m (snd up) with
  | None => []
  | Some ip =>
      map (fun c => (fst up, c) :: m)
        (filter (fun c => negb (mem c (map snd m)) &&
            forallb (fun w => match image m w with None => true | Some c' => mem c' (adj' c) end) (adj' (fst up)))
          (adj' ip))
  end.
Definition search (order : list (nat * nat)) : list (list (nat * nat)) :=
  fold_left (fun ms up => flat_map (fun m => extend m up) ms) order (map (fun c => [(0, c)]) (seq 0 60)).
Definition order : list (nat * nat) := [(1,0);(2,0);(4,0);(10,2);(12,4);(6,2);(8,4);(18,10);(20,12);(3,1);(7,3);(5,1);(11,3);(14,6);(15,7);(13,5);(9,5);(16,8);(17,9);(19,11);(21,13);(26,14);(22,14);(23,15);(28,18);(29,19);(34,22);(35,23);(32,26);(24,16);(27,16);(25,17);(30,20);(31,21);(36,24);(37,25);(33,27);(38,28);(39,29);(40,30);(41,31);(43,32);(42,32);(44,33);(45,33);(46,38);(50,42);(47,39);(51,43);(48,40);(52,44);(54,46);(56,48);(53,45);(49,41);(55,47);(59,55);(57,49);(58,54)].

Section Complete.
Context (q : list nat).
Hypothesis BS : bond_symmetry (Zc 10) bpos q.
Let f i := nth i q 60.

Lemma f_nth i : i < 60 -> nth_error q i = Some (f i).
Proof. intros H. apply nth_error_nth'. destruct BS as [Pq _]. rewrite bpos_length in Pq. now rewrite (perm_length Pq). Qed.

(** [m] is [q] on the sources listed in [us]. *)
Definition follows (m : list (nat * nat)) (us : list nat) := m = map (fun u => (u, f u)) us.

Lemma image_follows m us u : follows m us -> image m u = if mem u us then Some (f u) else None.
Proof.
  intros ->. unfold image. induction us as [|a us IH]; [reflexivity|]. cbn [map find fst mem existsb].
  rewrite Nat.eqb_sym. destruct (Nat.eqb_spec u a) as [->|N]; [reflexivity|]. exact IH.
Qed.

Lemma extend_complete m us u par : follows m us -> NoDup (u :: us) -> In par us -> Forall (fun a => a < 60) (u :: us) ->
  In u (adj' par) -> In ((u, f u) :: m) (extend m (u, par)).
Proof.
  intros F ND Ip B A. unfold extend. cbn [fst snd]. rewrite (image_follows par F), (proj2 (mem_In _ _) Ip).
  rewrite Forall_forall in B. pose proof BS as [Pq Hq]. rewrite bpos_length in Pq.
  assert (Bb : forall a b, a < 60 -> b < 60 -> In b (adj' a) -> In (f b) (adj' (f a))).
  { intros a b La Lb K. apply adj'_In. apply adj'_In in K. apply (Hq a b); auto using f_nth. }
  assert (Bu : u < 60) by (apply B; now left).
  apply in_map_iff. exists (f u). split; [reflexivity|]. apply filter_In. split.
  - apply Bb; [apply B; now right|assumption|assumption].
  - apply andb_true_iff. split.
    + apply negb_true_iff. destruct (mem (f u) (map snd m)) eqn:E; [|reflexivity]. exfalso. apply mem_In in E.
      rewrite F, map_map in E. cbn in E. apply in_map_iff in E. destruct E as [w [E K]].
      assert (w = u). { apply (perm_inj Pq (j := f u)); [rewrite <- E; apply f_nth, B; now right|now apply f_nth]. }
      subst w. inversion ND. contradiction.
    + apply forallb_forall. intros w Hw. rewrite (image_follows w F). destruct (mem w us) eqn:E; [|reflexivity].
      apply mem_In in E. apply mem_In. assert (Lw : w < 60) by (apply B; now right). now apply Bb.
Qed.

Lemma fold_complete ord : forall us ms m, follows m us -> In m ms -> NoDup (rev (map fst ord) ++ us) ->
  Forall (fun a => a < 60) (rev (map fst ord) ++ us) ->
  (forall pre u par post, ord = pre ++ (u, par) :: post -> In par (rev (map fst pre) ++ us) /\ In u (adj' par)) ->
  In (map (fun u => (u, f u)) (rev (map fst ord) ++ us)) (fold_left (fun ms up => flat_map (fun m => extend m up) ms) ord ms).
Proof.
  induction ord as [|[u par] ord IH]; intros us ms m F Hm ND B O; cbn [fold_left map rev app].
  - cbn. rewrite <- F. exact Hm.
  - cbn [map rev fst] in *. rewrite <- app_assoc in *. cbn [app] in *.
    destruct (O [] u par ord eq_refl) as [Ip A]. cbn in Ip.
    assert (ND' : NoDup (u :: us)) by (clear - ND; induction (rev (map fst ord)) as [|a l IHl]; [exact ND|inversion ND; auto]).
    assert (B' : Forall (fun a => a < 60) (u :: us)) by (apply Forall_app in B; apply B).
    apply (IH (u :: us) _ ((u, f u) :: m)); auto.
    + unfold follows. cbn. now rewrite F.
    + apply in_flat_map. exists m. split; [assumption|]. now apply extend_complete with us.
    + intros pre w p2 post E. destruct (O ((u, par) :: pre) w p2 post) as [K1 K2]; [now rewrite E|].
      split; [|exact K2]. cbn in K1. rewrite <- app_assoc in K1. exact K1.
Qed.

Definition order_okb : bool :=
  (fix go (ord : list (nat * nat)) (us : list nat) := match ord with
   | [] => true
   | (u, par) :: t => mem par us && mem u (adj' par) && go t (u :: us) end) order [0].
End Complete.

Lemma order_ok : forall pre u par post, order = pre ++ (u, par) :: post ->
  In par (rev (map fst pre) ++ [0]) /\ In u (adj' par).
Proof.
  assert (K : forall ord us, (fix go (ord : list (nat * nat)) (us : list nat) := match ord with
   | [] => true
   | (u, par) :: t => mem par us && mem u (adj' par) && go t (u :: us) end) ord us = true ->
   forall pre u par post, ord = pre ++ (u, par) :: post -> In par (rev (map fst pre) ++ us) /\ In u (adj' par)).
  { induction ord as [|[a b] ord IH]; intros us H pre u par post E; [destruct pre; discriminate|].
    rewrite !andb_true_iff in H. destruct H as [[H1 H2] H3]. destruct pre as [|x pre]; cbn in E.
    - injection E as -> -> ->. cbn. split; now apply mem_In.
    - injection E as <- E. cbn. rewrite <- app_assoc. cbn. now apply (IH _ H3 pre u par post). }
  apply K. vm_compute. reflexivity.
Qed.

Definition row_of (m : list (nat * nat)) : list nat := map (fun i => match image m i with Some c => c | None => 60 end) (seq 0 60).
Lemma search_rows : forallb (fun m => memL (row_of m) ren_table) (search order) = true.
Proof. vm_compute. reflexivity. Qed.

Lemma symmetry_in_table q : bond_symmetry (Zc 10) bpos q -> In q ren_table.
Proof.
  intros BS. set (us := rev (map fst order) ++ [0]).
  assert (PU : Permutation us (seq 0 60)) by (apply is_permb_ok; vm_compute; reflexivity).
  assert (H : In (map (fun u => (u, nth u q 60)) us) (search order)).
  { apply fold_complete with (m := [(0, nth 0 q 60)]).
    - exact BS.
    - reflexivity.
    - destruct BS as [Pq _]. rewrite bpos_length in Pq. pose proof (perm_length Pq) as Lq. apply in_map_iff.
      exists (nth 0 q 60). split; [reflexivity|]. apply (Permutation_in _ Pq). apply nth_In. lia.
    - fold us. eapply Permutation_NoDup; [symmetry; exact PU|apply seq_NoDup].
    - fold us. apply Forall_forall. intros a Ha. apply (Permutation_in _ PU), in_seq in Ha. lia.
    - exact order_ok. }
  pose proof (proj1 (forallb_forall _ _) search_rows _ H) as K. cbv beta in K. apply memL_In in K.
  replace q with (row_of (map (fun u => (u, nth u q 60)) us)); [exact K|].
  destruct BS as [Pq _]. rewrite bpos_length in Pq. pose proof (perm_length Pq) as Lq.
  transitivity (map (fun i => nth i q 60) (seq 0 60)); [|rewrite <- Lq; apply map_nth_seq].
  unfold row_of. apply map_ext_in. intros i Hi.
  rewrite (@image_follows q _ us i eq_refl).
  rewrite (proj2 (mem_In _ _)); [reflexivity|]. apply (Permutation_in _ (Permutation_sym PU)). exact Hi.
Qed.

Lemma C72_renamed_lemma q : bond_symmetry (Zc 10) bpos q <-> exists p, In p bucky_perm_table /\ renamed ren p q.
Proof.
  destruct bucky_group as [PG _]. split.
  - intros BS. apply symmetry_in_table in BS. rewrite <- ren_table_eq in BS. apply in_map_iff in BS. destruct BS as [p [<- Hp]].
    exists p. split; [assumption|]. apply renrow_renamed, PG, Hp.
  - intros [p [Hp R]]. apply ren_symmetry. rewrite <- ren_table_eq. apply in_map_iff. exists p. split; [|assumption].
    apply (@renamed_fun p); [apply PG, Hp|apply renrow_renamed, PG, Hp|exact R].
Qed.

(** *** and these symmetries are isometries up to the precision of the data *)
(** the 24 classes of pairs of sites under the renamed table; the squared distances within a
    class differ by less than 0.08 *)
Definition pair_class : list (list nat) := [[0; 1; 2; 3; 2; 3; 3; 4; 3; 4; 5; 6; 5; 6; 7; 8; 7; 8; 6; 9; 6; 9; 8; 10; 8; 10; 11; 11; 11; 12; 11; 12; 12; 12; 13;
  14; 13; 14; 15; 16; 15; 16; 14; 17; 14; 17; 16; 18; 16; 18; 19; 20; 19; 20; 20; 21; 20; 21; 22; 23]; [1; 0; 3; 2; 3; 2; 4; 3; 4; 3; 6; 5; 6; 5; 8; 7; 8; 7; 9;
  6; 9; 6; 10; 8; 10; 8; 11; 11; 12; 11; 12; 11; 12; 12; 14; 13; 14; 13; 16; 15; 16; 15; 17; 14; 17; 14; 18; 16; 18; 16; 20; 19; 20; 19; 21; 20; 21; 20; 23; 22];
  [2; 3; 0; 4; 5; 7; 1; 3; 6; 8; 2; 8; 5; 11; 3; 6; 11; 13; 3; 10; 6; 12; 4; 9; 11; 14; 6; 15; 7; 14; 8; 17; 9; 16; 8; 12; 15; 19; 11; 16; 13; 20; 10; 12; 16; 20;
  12; 18; 14; 21; 14; 16; 20; 22; 17; 18; 19; 23; 20; 21]; [3; 2; 4; 0; 7; 5; 3; 1; 8; 6; 8; 2; 11; 5; 6; 3; 13; 11; 10; 3; 12; 6; 9; 4; 14; 11; 6; 15; 14; 7; 17;
  8; 9; 16; 12; 8; 19; 15; 16; 11; 20; 13; 12; 10; 20; 16; 18; 12; 21; 14; 16; 14; 22; 20; 18; 17; 23; 19; 21; 20]; [2; 3; 5; 7; 0; 4; 6; 8; 1; 3; 5; 11; 2; 8;
  11; 13; 3; 6; 6; 12; 3; 10; 11; 14; 4; 9; 15; 6; 8; 17; 7; 14; 16; 9; 15; 19; 8; 12; 13; 20; 11; 16; 16; 20; 10; 12; 14; 21; 12; 18; 20; 22; 14; 16; 19; 23; 17;
  18; 20; 21]; [3; 2; 7; 5; 4; 0; 8; 6; 3; 1; 11; 5; 8; 2; 13; 11; 6; 3; 12; 6; 10; 3; 14; 11; 9; 4; 15; 6; 17; 8; 14; 7; 16; 9; 19; 15; 12; 8; 20; 13; 16; 11;
  20; 16; 12; 10; 21; 14; 18; 12; 22; 20; 16; 14; 23; 19; 18; 17; 21; 20]; [3; 4; 1; 3; 6; 8; 0; 2; 9; 10; 3; 7; 6; 11; 2; 5; 12; 14; 4; 8; 9; 12; 3; 6; 12; 17;
  5; 16; 8; 13; 10; 14; 6; 18; 7; 11; 16; 20; 11; 15; 14; 19; 8; 11; 18; 21; 12; 16; 17; 20; 13; 15; 21; 23; 14; 16; 20; 22; 19; 20]; [4; 3; 3; 1; 8; 6; 2; 0; 10;
  9; 7; 3; 11; 6; 5; 2; 14; 12; 8; 4; 12; 9; 6; 3; 17; 12; 5; 16; 13; 8; 14; 10; 6; 18; 11; 7; 20; 16; 15; 11; 19; 14; 11; 8; 21; 18; 16; 12; 20; 17; 15; 13; 23;
  21; 16; 14; 22; 20; 20; 19]; [3; 4; 6; 8; 1; 3; 9; 10; 0; 2; 6; 11; 3; 7; 12; 14; 2; 5; 9; 12; 4; 8; 12; 17; 3; 6; 16; 5; 10; 14; 8; 13; 18; 6; 16; 20; 7; 11;
  14; 19; 11; 15; 18; 21; 8; 11; 17; 20; 12; 16; 21; 23; 13; 15; 20; 22; 14; 16; 19; 20]; [4; 3; 8; 6; 3; 1; 10; 9; 2; 0; 11; 6; 7; 3; 14; 12; 5; 2; 12; 9; 8; 4;
  17; 12; 6; 3; 16; 5; 14; 10; 13; 8; 18; 6; 20; 16; 11; 7; 19; 14; 15; 11; 21; 18; 11; 8; 20; 17; 16; 12; 23; 21; 15; 13; 22; 20; 16; 14; 20; 19]; [5; 6; 2; 8;
  5; 11; 3; 7; 6; 11; 0; 13; 2; 15; 4; 11; 8; 15; 1; 14; 3; 16; 3; 12; 7; 16; 8; 13; 3; 19; 4; 20; 10; 14; 6; 17; 11; 20; 6; 20; 8; 22; 9; 14; 12; 19; 9; 21; 10;
  23; 12; 16; 17; 20; 12; 18; 14; 21; 16; 18]; [6; 5; 8; 2; 11; 5; 7; 3; 11; 6; 13; 0; 15; 2; 11; 4; 15; 8; 14; 1; 16; 3; 12; 3; 16; 7; 8; 13; 19; 3; 20; 4; 10;
  14; 17; 6; 20; 11; 20; 6; 22; 8; 14; 9; 19; 12; 21; 9; 23; 10; 16; 12; 20; 17; 18; 12; 21; 14; 18; 16]; [5; 6; 5; 11; 2; 8; 6; 11; 3; 7; 2; 15; 0; 13; 8; 15; 4;
  11; 3; 16; 1; 14; 7; 16; 3; 12; 13; 8; 4; 20; 3; 19; 14; 10; 11; 20; 6; 17; 8; 22; 6; 20; 12; 19; 9; 14; 10; 23; 9; 21; 17; 20; 12; 16; 14; 21; 12; 18; 16; 18];
  [6; 5; 11; 5; 8; 2; 11; 6; 7; 3; 15; 2; 13; 0; 15; 8; 11; 4; 16; 3; 14; 1; 16; 7; 12; 3; 13; 8; 20; 4; 19; 3; 14; 10; 20; 11; 17; 6; 22; 8; 20; 6; 19; 12; 14;
  9; 23; 10; 21; 9; 20; 17; 16; 12; 21; 14; 18; 12; 18; 16]; [7; 8; 3; 6; 11; 13; 2; 5; 12; 14; 4; 11; 8; 15; 0; 5; 17; 19; 3; 11; 10; 16; 1; 6; 14; 20; 2; 20; 6;
  15; 9; 16; 3; 21; 3; 8; 16; 22; 6; 13; 12; 20; 4; 7; 18; 23; 9; 14; 12; 19; 8; 11; 18; 21; 10; 12; 16; 20; 14; 17]; [8; 7; 6; 3; 13; 11; 5; 2; 14; 12; 11; 4;
  15; 8; 5; 0; 19; 17; 11; 3; 16; 10; 6; 1; 20; 14; 2; 20; 15; 6; 16; 9; 3; 21; 8; 3; 22; 16; 13; 6; 20; 12; 7; 4; 23; 18; 14; 9; 19; 12; 11; 8; 21; 18; 12; 10;
  20; 16; 17; 14]; [7; 8; 11; 13; 3; 6; 12; 14; 2; 5; 8; 15; 4; 11; 17; 19; 0; 5; 10; 16; 3; 11; 14; 20; 1; 6; 20; 2; 9; 16; 6; 15; 21; 3; 16; 22; 3; 8; 12; 20;
  6; 13; 18; 23; 4; 7; 12; 19; 9; 14; 18; 21; 8; 11; 16; 20; 10; 12; 14; 17]; [8; 7; 13; 11; 6; 3; 14; 12; 5; 2; 15; 8; 11; 4; 19; 17; 5; 0; 16; 10; 11; 3; 20;
  14; 6; 1; 20; 2; 16; 9; 15; 6; 21; 3; 22; 16; 8; 3; 20; 12; 13; 6; 23; 18; 7; 4; 19; 12; 14; 9; 21; 18; 11; 8; 20; 16; 12; 10; 17; 14]; [6; 9; 3; 10; 6; 12; 4;
  8; 9; 12; 1; 14; 3; 16; 3; 11; 10; 16; 0; 17; 4; 18; 2; 12; 8; 18; 7; 14; 2; 20; 3; 21; 8; 17; 5; 14; 11; 21; 5; 19; 7; 23; 6; 13; 12; 20; 6; 20; 8; 22; 11; 15;
  14; 19; 11; 16; 13; 20; 15; 16]; [9; 6; 10; 3; 12; 6; 8; 4; 12; 9; 14; 1; 16; 3; 11; 3; 16; 10; 17; 0; 18; 4; 12; 2; 18; 8; 7; 14; 20; 2; 21; 3; 8; 17; 14; 5;
  21; 11; 19; 5; 23; 7; 13; 6; 20; 12; 20; 6; 22; 8; 15; 11; 19; 14; 16; 11; 20; 13; 16; 15]; [6; 9; 6; 12; 3; 10; 9; 12; 4; 8; 3; 16; 1; 14; 10; 16; 3; 11; 4;
  18; 0; 17; 8; 18; 2; 12; 14; 7; 3; 21; 2; 20; 17; 8; 11; 21; 5; 14; 7; 23; 5; 19; 12; 20; 6; 13; 8; 22; 6; 20; 14; 19; 11; 15; 13; 20; 11; 16; 15; 16]; [9; 6;
  12; 6; 10; 3; 12; 9; 8; 4; 16; 3; 14; 1; 16; 10; 11; 3; 18; 4; 17; 0; 18; 8; 12; 2; 14; 7; 21; 3; 20; 2; 17; 8; 21; 11; 14; 5; 23; 7; 19; 5; 20; 12; 13; 6; 22;
  8; 20; 6; 19; 14; 15; 11; 20; 13; 16; 11; 16; 15]; [8; 10; 4; 9; 11; 14; 3; 6; 12; 17; 3; 12; 7; 16; 1; 6; 14; 20; 2; 12; 8; 18; 0; 9; 13; 21; 3; 19; 5; 16; 6;
  18; 4; 20; 2; 10; 15; 23; 5; 14; 11; 21; 3; 8; 16; 22; 6; 17; 11; 20; 7; 11; 16; 20; 8; 12; 15; 19; 13; 14]; [10; 8; 9; 4; 14; 11; 6; 3; 17; 12; 12; 3; 16; 7;
  6; 1; 20; 14; 12; 2; 18; 8; 9; 0; 21; 13; 3; 19; 16; 5; 18; 6; 4; 20; 10; 2; 23; 15; 14; 5; 21; 11; 8; 3; 22; 16; 17; 6; 20; 11; 11; 7; 20; 16; 12; 8; 19; 15;
  14; 13]; [8; 10; 11; 14; 4; 9; 12; 17; 3; 6; 7; 16; 3; 12; 14; 20; 1; 6; 8; 18; 2; 12; 13; 21; 0; 9; 19; 3; 6; 18; 5; 16; 20; 4; 15; 23; 2; 10; 11; 21; 5; 14;
  16; 22; 3; 8; 11; 20; 6; 17; 16; 20; 7; 11; 15; 19; 8; 12; 13; 14]; [10; 8; 14; 11; 9; 4; 17; 12; 6; 3; 16; 7; 12; 3; 20; 14; 6; 1; 18; 8; 12; 2; 21; 13; 9; 0;
  19; 3; 18; 6; 16; 5; 20; 4; 23; 15; 10; 2; 21; 11; 14; 5; 22; 16; 8; 3; 20; 11; 17; 6; 20; 16; 11; 7; 19; 15; 12; 8; 14; 13]; [11; 11; 6; 6; 15; 15; 5; 5; 16;
  16; 8; 8; 13; 13; 2; 2; 20; 20; 7; 7; 14; 14; 3; 3; 19; 19; 0; 22; 11; 11; 12; 12; 1; 23; 4; 4; 20; 20; 8; 8; 17; 17; 3; 3; 21; 21; 10; 10; 14; 14; 6; 6; 18;
  18; 9; 9; 16; 16; 12; 12]; [11; 11; 15; 15; 6; 6; 16; 16; 5; 5; 13; 13; 8; 8; 20; 20; 2; 2; 14; 14; 7; 7; 19; 19; 3; 3; 22; 0; 12; 12; 11; 11; 23; 1; 20; 20; 4;
  4; 17; 17; 8; 8; 21; 21; 3; 3; 14; 14; 10; 10; 18; 18; 6; 6; 16; 16; 9; 9; 12; 12]; [11; 12; 7; 14; 8; 17; 8; 13; 10; 14; 3; 19; 4; 20; 6; 15; 9; 16; 2; 20; 3;
  21; 5; 16; 6; 18; 11; 12; 0; 22; 1; 23; 11; 12; 5; 16; 6; 18; 2; 20; 3; 21; 6; 15; 9; 16; 3; 19; 4; 20; 8; 13; 10; 14; 7; 14; 8; 17; 11; 12]; [12; 11; 14; 7;
  17; 8; 13; 8; 14; 10; 19; 3; 20; 4; 15; 6; 16; 9; 20; 2; 21; 3; 16; 5; 18; 6; 11; 12; 22; 0; 23; 1; 11; 12; 16; 5; 18; 6; 20; 2; 21; 3; 15; 6; 16; 9; 19; 3; 20;
  4; 13; 8; 14; 10; 14; 7; 17; 8; 12; 11]; [11; 12; 8; 17; 7; 14; 10; 14; 8; 13; 4; 20; 3; 19; 9; 16; 6; 15; 3; 21; 2; 20; 6; 18; 5; 16; 12; 11; 1; 23; 0; 22; 12;
  11; 6; 18; 5; 16; 3; 21; 2; 20; 9; 16; 6; 15; 4; 20; 3; 19; 10; 14; 8; 13; 8; 17; 7; 14; 11; 12]; [12; 11; 17; 8; 14; 7; 14; 10; 13; 8; 20; 4; 19; 3; 16; 9; 15;
  6; 21; 3; 20; 2; 18; 6; 16; 5; 12; 11; 23; 1; 22; 0; 12; 11; 18; 6; 16; 5; 21; 3; 20; 2; 16; 9; 15; 6; 20; 4; 19; 3; 14; 10; 13; 8; 17; 8; 14; 7; 12; 11]; [12;
  12; 9; 9; 16; 16; 6; 6; 18; 18; 10; 10; 14; 14; 3; 3; 21; 21; 8; 8; 17; 17; 4; 4; 20; 20; 1; 23; 11; 11; 12; 12; 0; 22; 3; 3; 19; 19; 7; 7; 14; 14; 2; 2; 20;
  20; 8; 8; 13; 13; 5; 5; 16; 16; 6; 6; 15; 15; 11; 11]; [12; 12; 16; 16; 9; 9; 18; 18; 6; 6; 14; 14; 10; 10; 21; 21; 3; 3; 17; 17; 8; 8; 20; 20; 4; 4; 23; 1; 12;
  12; 11; 11; 22; 0; 19; 19; 3; 3; 14; 14; 7; 7; 20; 20; 2; 2; 13; 13; 8; 8; 16; 16; 5; 5; 15; 15; 6; 6; 11; 11]; [13; 14; 8; 12; 15; 19; 7; 11; 16; 20; 6; 17;
  11; 20; 3; 8; 16; 22; 5; 14; 11; 21; 2; 10; 15; 23; 4; 20; 5; 16; 6; 18; 3; 19; 0; 9; 13; 21; 2; 12; 8; 18; 1; 6; 14; 20; 3; 12; 7; 16; 3; 6; 12; 17; 4; 9; 11;
  14; 8; 10]; [14; 13; 12; 8; 19; 15; 11; 7; 20; 16; 17; 6; 20; 11; 8; 3; 22; 16; 14; 5; 21; 11; 10; 2; 23; 15; 4; 20; 16; 5; 18; 6; 3; 19; 9; 0; 21; 13; 12; 2;
  18; 8; 6; 1; 20; 14; 12; 3; 16; 7; 6; 3; 17; 12; 9; 4; 14; 11; 10; 8]; [13; 14; 15; 19; 8; 12; 16; 20; 7; 11; 11; 20; 6; 17; 16; 22; 3; 8; 11; 21; 5; 14; 15;
  23; 2; 10; 20; 4; 6; 18; 5; 16; 19; 3; 13; 21; 0; 9; 8; 18; 2; 12; 14; 20; 1; 6; 7; 16; 3; 12; 12; 17; 3; 6; 11; 14; 4; 9; 8; 10]; [14; 13; 19; 15; 12; 8; 20;
  16; 11; 7; 20; 11; 17; 6; 22; 16; 8; 3; 21; 11; 14; 5; 23; 15; 10; 2; 20; 4; 18; 6; 16; 5; 19; 3; 21; 13; 9; 0; 18; 8; 12; 2; 20; 14; 6; 1; 16; 7; 12; 3; 17;
  12; 6; 3; 14; 11; 9; 4; 10; 8]; [15; 16; 11; 16; 13; 20; 11; 15; 14; 19; 6; 20; 8; 22; 6; 13; 12; 20; 5; 19; 7; 23; 5; 14; 11; 21; 8; 17; 2; 20; 3; 21; 7; 14;
  2; 12; 8; 18; 0; 17; 4; 18; 3; 11; 10; 16; 1; 14; 3; 16; 4; 8; 9; 12; 3; 10; 6; 12; 6; 9]; [16; 15; 16; 11; 20; 13; 15; 11; 19; 14; 20; 6; 22; 8; 13; 6; 20; 12;
  19; 5; 23; 7; 14; 5; 21; 11; 8; 17; 20; 2; 21; 3; 7; 14; 12; 2; 18; 8; 17; 0; 18; 4; 11; 3; 16; 10; 14; 1; 16; 3; 8; 4; 12; 9; 10; 3; 12; 6; 9; 6]; [15; 16; 13;
  20; 11; 16; 14; 19; 11; 15; 8; 22; 6; 20; 12; 20; 6; 13; 7; 23; 5; 19; 11; 21; 5; 14; 17; 8; 3; 21; 2; 20; 14; 7; 8; 18; 2; 12; 4; 18; 0; 17; 10; 16; 3; 11; 3;
  16; 1; 14; 9; 12; 4; 8; 6; 12; 3; 10; 6; 9]; [16; 15; 20; 13; 16; 11; 19; 14; 15; 11; 22; 8; 20; 6; 20; 12; 13; 6; 23; 7; 19; 5; 21; 11; 14; 5; 17; 8; 21; 3;
  20; 2; 14; 7; 18; 8; 12; 2; 18; 4; 17; 0; 16; 10; 11; 3; 16; 3; 14; 1; 12; 9; 8; 4; 12; 6; 10; 3; 9; 6]; [14; 17; 10; 12; 16; 20; 8; 11; 18; 21; 9; 14; 12; 19;
  4; 7; 18; 23; 6; 13; 12; 20; 3; 8; 16; 22; 3; 21; 6; 15; 9; 16; 2; 20; 1; 6; 14; 20; 3; 11; 10; 16; 0; 5; 17; 19; 4; 11; 8; 15; 2; 5; 12; 14; 3; 6; 11; 13; 7;
  8]; [17; 14; 12; 10; 20; 16; 11; 8; 21; 18; 14; 9; 19; 12; 7; 4; 23; 18; 13; 6; 20; 12; 8; 3; 22; 16; 3; 21; 15; 6; 16; 9; 2; 20; 6; 1; 20; 14; 11; 3; 16; 10;
  5; 0; 19; 17; 11; 4; 15; 8; 5; 2; 14; 12; 6; 3; 13; 11; 8; 7]; [14; 17; 16; 20; 10; 12; 18; 21; 8; 11; 12; 19; 9; 14; 18; 23; 4; 7; 12; 20; 6; 13; 16; 22; 3; 8;
  21; 3; 9; 16; 6; 15; 20; 2; 14; 20; 1; 6; 10; 16; 3; 11; 17; 19; 0; 5; 8; 15; 4; 11; 12; 14; 2; 5; 11; 13; 3; 6; 7; 8]; [17; 14; 20; 16; 12; 10; 21; 18; 11; 8;
  19; 12; 14; 9; 23; 18; 7; 4; 20; 12; 13; 6; 22; 16; 8; 3; 21; 3; 16; 9; 15; 6; 20; 2; 20; 14; 6; 1; 16; 10; 11; 3; 19; 17; 5; 0; 15; 8; 11; 4; 14; 12; 5; 2; 13;
  11; 6; 3; 8; 7]; [16; 18; 12; 18; 14; 21; 12; 16; 17; 20; 9; 21; 10; 23; 9; 14; 12; 19; 6; 20; 8; 22; 6; 17; 11; 20; 10; 14; 3; 19; 4; 20; 8; 13; 3; 12; 7; 16;
  1; 14; 3; 16; 4; 11; 8; 15; 0; 13; 2; 15; 3; 7; 6; 11; 2; 8; 5; 11; 5; 6]; [18; 16; 18; 12; 21; 14; 16; 12; 20; 17; 21; 9; 23; 10; 14; 9; 19; 12; 20; 6; 22; 8;
  17; 6; 20; 11; 10; 14; 19; 3; 20; 4; 8; 13; 12; 3; 16; 7; 14; 1; 16; 3; 11; 4; 15; 8; 13; 0; 15; 2; 7; 3; 11; 6; 8; 2; 11; 5; 6; 5]; [16; 18; 14; 21; 12; 18;
  17; 20; 12; 16; 10; 23; 9; 21; 12; 19; 9; 14; 8; 22; 6; 20; 11; 20; 6; 17; 14; 10; 4; 20; 3; 19; 13; 8; 7; 16; 3; 12; 3; 16; 1; 14; 8; 15; 4; 11; 2; 15; 0; 13;
  6; 11; 3; 7; 5; 11; 2; 8; 5; 6]; [18; 16; 21; 14; 18; 12; 20; 17; 16; 12; 23; 10; 21; 9; 19; 12; 14; 9; 22; 8; 20; 6; 20; 11; 17; 6; 14; 10; 20; 4; 19; 3; 13;
  8; 16; 7; 12; 3; 16; 3; 14; 1; 15; 8; 11; 4; 15; 2; 13; 0; 11; 6; 7; 3; 11; 5; 8; 2; 6; 5]; [19; 20; 14; 16; 20; 22; 13; 15; 21; 23; 12; 16; 17; 20; 8; 11; 18;
  21; 11; 15; 14; 19; 7; 11; 16; 20; 6; 18; 8; 13; 10; 14; 5; 16; 3; 6; 12; 17; 4; 8; 9; 12; 2; 5; 12; 14; 3; 7; 6; 11; 0; 2; 9; 10; 1; 3; 6; 8; 3; 4]; [20; 19;
  16; 14; 22; 20; 15; 13; 23; 21; 16; 12; 20; 17; 11; 8; 21; 18; 15; 11; 19; 14; 11; 7; 20; 16; 6; 18; 13; 8; 14; 10; 5; 16; 6; 3; 17; 12; 8; 4; 12; 9; 5; 2; 14;
  12; 7; 3; 11; 6; 2; 0; 10; 9; 3; 1; 8; 6; 4; 3]; [19; 20; 20; 22; 14; 16; 21; 23; 13; 15; 17; 20; 12; 16; 18; 21; 8; 11; 14; 19; 11; 15; 16; 20; 7; 11; 18; 6;
  10; 14; 8; 13; 16; 5; 12; 17; 3; 6; 9; 12; 4; 8; 12; 14; 2; 5; 6; 11; 3; 7; 9; 10; 0; 2; 6; 8; 1; 3; 3; 4]; [20; 19; 22; 20; 16; 14; 23; 21; 15; 13; 20; 17; 16;
  12; 21; 18; 11; 8; 19; 14; 15; 11; 20; 16; 11; 7; 18; 6; 14; 10; 13; 8; 16; 5; 17; 12; 6; 3; 12; 9; 8; 4; 14; 12; 5; 2; 11; 6; 7; 3; 10; 9; 2; 0; 8; 6; 3; 1; 4;
  3]; [20; 21; 17; 18; 19; 23; 14; 16; 20; 22; 12; 18; 14; 21; 10; 12; 16; 20; 11; 16; 13; 20; 8; 12; 15; 19; 9; 16; 7; 14; 8; 17; 6; 15; 4; 9; 11; 14; 3; 10; 6;
  12; 3; 6; 11; 13; 2; 8; 5; 11; 1; 3; 6; 8; 0; 4; 5; 7; 2; 3]; [21; 20; 18; 17; 23; 19; 16; 14; 22; 20; 18; 12; 21; 14; 12; 10; 20; 16; 16; 11; 20; 13; 12; 8;
  19; 15; 9; 16; 14; 7; 17; 8; 6; 15; 9; 4; 14; 11; 10; 3; 12; 6; 6; 3; 13; 11; 8; 2; 11; 5; 3; 1; 8; 6; 4; 0; 7; 5; 3; 2]; [20; 21; 19; 23; 17; 18; 20; 22; 14;
  16; 14; 21; 12; 18; 16; 20; 10; 12; 13; 20; 11; 16; 15; 19; 8; 12; 16; 9; 8; 17; 7; 14; 15; 6; 11; 14; 4; 9; 6; 12; 3; 10; 11; 13; 3; 6; 5; 11; 2; 8; 6; 8; 1;
  3; 5; 7; 0; 4; 2; 3]; [21; 20; 23; 19; 18; 17; 22; 20; 16; 14; 21; 14; 18; 12; 20; 16; 12; 10; 20; 13; 16; 11; 19; 15; 12; 8; 16; 9; 17; 8; 14; 7; 15; 6; 14;
  11; 9; 4; 12; 6; 10; 3; 13; 11; 6; 3; 11; 5; 8; 2; 8; 6; 3; 1; 7; 5; 4; 0; 3; 2]; [22; 23; 20; 21; 20; 21; 19; 20; 19; 20; 16; 18; 16; 18; 14; 17; 14; 17; 15;
  16; 15; 16; 13; 14; 13; 14; 12; 12; 11; 12; 11; 12; 11; 11; 8; 10; 8; 10; 6; 9; 6; 9; 7; 8; 7; 8; 5; 6; 5; 6; 3; 4; 3; 4; 2; 3; 2; 3; 0; 1]; [23; 22; 21; 20;
  21; 20; 20; 19; 20; 19; 18; 16; 18; 16; 17; 14; 17; 14; 16; 15; 16; 15; 14; 13; 14; 13; 12; 12; 12; 11; 12; 11; 11; 11; 10; 8; 10; 8; 9; 6; 9; 6; 8; 7; 8; 7; 6;
  5; 6; 5; 4; 3; 4; 3; 3; 2; 3; 2; 1; 0]].
Definition pclass (i j : nat) : nat := nth j (nth i pair_class []) 24.
Definition class_range : list (Z * Z) := Eval vm_compute in
  map (fun c => fold_left (fun lh ij => if Nat.eqb (pclass (fst ij) (snd ij)) c
     then let d := dz (pz (fst ij)) (pz (snd ij)) in (Z.min (fst lh) d, Z.max (snd lh) d) else lh) pairs (10 ^ 20, -1)%Z) (seq 0 24).
Lemma narrow_b : forallb (fun lh => (snd lh - fst lh <=? 800000000000000)%Z) class_range = true.
Proof. vm_compute. reflexivity. Qed.
Lemma in_range_b : forallb (fun ij => (pclass (fst ij) (snd ij) <? 24) &&
  let lh := nth (pclass (fst ij) (snd ij)) class_range (0, 0)%Z in
  let d := dz (pz (fst ij)) (pz (snd ij)) in (fst lh <=? d)%Z && (d <=? snd lh)%Z) pairs = true.
Proof. vm_compute. reflexivity. Qed.
Lemma gens_class_b : forallb (fun g => is_permb 60 (nth g ren_table []) &&
  forallb (fun ij => Nat.eqb (pclass (nth (fst ij) (nth g ren_table []) 0) (nth (snd ij) (nth g ren_table []) 0)) (pclass (fst ij) (snd ij))) pairs) bucky_gens = true.
Proof. vm_compute. reflexivity. Qed.

Lemma in_pairs i j : i < 60 -> j < 60 -> In (i, j) pairs.
Proof. intros. unfold pairs. apply in_prod; apply in_seq; lia. Qed.
Lemma class_kept q : In q ren_table -> length q = 60 /\ forall i j, i < 60 -> j < 60 -> nth i q 0 < 60 /\ pclass (nth i q 0) (nth j q 0) = pclass i j.
Proof.
  revert q. apply (generated_ind ren_generated).
  - split; [reflexivity|]. intros i j Hi Hj. rewrite !seq_nth by assumption. cbn [Nat.add]. auto.
  - intros p g [Lp IH] Ig. pose proof (proj1 (forallb_forall _ _) gens_class_b g Ig) as H. cbv beta in H. apply andb_true_iff in H. destruct H as [H1 H2].
    apply is_permb_ok in H1. pose proof (perm_length H1) as Lg. split; [unfold compb; now rewrite map_length|]. intros i j Hi Hj.
    assert (B : forall i, i < 60 -> nth i (nth g ren_table []) 0 < 60).
    { intros k Hk. assert (I : In (nth k (nth g ren_table []) 0) (seq 0 60)) by (apply (Permutation_in _ H1), nth_In; lia). apply in_seq in I. lia. }
    rewrite !nth_compb by (rewrite Lg; assumption). split; [apply (IH _ j); auto|]. rewrite (proj2 (IH _ _ (B i Hi) (B j Hj))).
    pose proof (proj1 (forallb_forall _ _) H2 _ (in_pairs Hi Hj)) as K. cbn [fst snd] in K. now apply Nat.eqb_eq in K.
Qed.
Lemma class_near a b c d : a < 60 -> b < 60 -> c < 60 -> d < 60 -> pclass a b = pclass c d ->
  (Z.abs (dz (pz a) (pz b) - dz (pz c) (pz d)) <= 800000000000000)%Z.
Proof.
  intros Ha Hb Hc Hd E. pose proof (proj1 (forallb_forall _ _) in_range_b _ (in_pairs Ha Hb)) as H1.
  pose proof (proj1 (forallb_forall _ _) in_range_b _ (in_pairs Hc Hd)) as H2. cbn [fst snd] in H1, H2. rewrite E in H1. cbv zeta in H1, H2.
  rewrite !andb_true_iff, Nat.ltb_lt, !Z.leb_le in H1, H2. destruct H1 as [L [A1 A2]], H2 as [_ [B1 B2]].
  assert (I : In (nth (pclass c d) class_range (0, 0)%Z) class_range) by (apply nth_In; exact L).
  pose proof (proj1 (forallb_forall _ _) narrow_b _ I) as K. cbv beta in K. apply Z.leb_le in K. lia.
Qed.

Lemma iso_lemma q : bond_symmetry (Zc 10) bpos q -> forall i j i' j' d d',
  nth_error q i = Some i' -> nth_error q j = Some j' -> site_dist2 (Zc 10) bpos i j d -> site_dist2 (Zc 10) bpos i' j' d' ->
  (d' <= d + Q2Qc (8 # 100) /\ d <= d' + Q2Qc (8 # 100))%Qc.
Proof.
  intros BS i j i' j' d d' Ei Ej H H'. apply symmetry_in_table in BS.
  apply site_dist2_dz in H. destruct H as [Hi [Hj ->]]. apply site_dist2_dz in H'. destruct H' as [Hi' [Hj' ->]].
  destruct (class_kept BS) as [Lq K]. destruct (K i j Hi Hj) as [_ L].
  rewrite (nth_error_nth q i 0 Ei), (nth_error_nth q j 0 Ej) in L.
  pose proof (class_near Hi' Hj' Hi Hj L) as H. clear L K.
  revert H. generalize (dz (pz i') (pz j')) (dz (pz i) (pz j)). intros a b H.
  unfold Qcle, Qcplus. cbn [this Q2Qc]. rewrite !Qred_correct. unfold Qle, Qplus. cbn [Qnum Qden]. rewrite ?Pos2Z.inj_mul. lia.
Qed.
