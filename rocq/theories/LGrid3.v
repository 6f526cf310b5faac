(** Lemmas for C84. *)
From Verif Require Import Base LBase BaseQ LQ MElement SElement MGeneralCell LGeneralCell MGrid SGrid LGrid LGrid2 MGrid2 SGrid2 SLattice SModCell LCrystal LModCell4 LShape.
Set Implicit Arguments.
Unset Strict Implicit.
Open Scope nat_scope.

Lemma mat_eqb_ok a b : mat_eqb a b = true <-> a = b.
Proof.
  unfold mat_eqb, Qceqb. destruct a as [[a1 a2 a3] [a4 a5 a6] [a7 a8 a9]], b as [[b1 b2 b3] [b4 b5 b6] [b7 b8 b9]]. cbn [vx vy vz].
  rewrite !andb_true_iff, !Qeq_bool_iff. split.
  - intros ([[[? ?] ?] [[? ?] ?]] & [? ?] & ?). repeat f_equal; now apply Qc_is_canon.
  - intros E. pose proof (f_equal (fun m => vx (vx m)) E). pose proof (f_equal (fun m => vy (vx m)) E). pose proof (f_equal (fun m => vz (vx m)) E).
    pose proof (f_equal (fun m => vx (vy m)) E). pose proof (f_equal (fun m => vy (vy m)) E). pose proof (f_equal (fun m => vz (vy m)) E).
    pose proof (f_equal (fun m => vx (vz m)) E). pose proof (f_equal (fun m => vy (vz m)) E). pose proof (f_equal (fun m => vz (vz m)) E).
    cbn [vx vy vz] in *. subst. repeat split; reflexivity.
Qed.

Lemma scaled_rows (m : mat Qc) (d w l : Z) (s : vec Z) :
  vec_mat (vecZ s) (V3 (vscale (Zc d) (vx m)) (vscale (Zc w) (vy m)) (vscale (Zc l) (vz m))) =
  vec_mat (vecZ (V3 (vx s * d) (vy s * w) (vz s * l))%Z) m.
Proof.
  destruct m as [[a1 a2 a3] [b1 b2 b3] [c1 c2 c3]], s as [x y z]. unfold vec_mat, vscale, vadd, vecZ, vmap. cbn [vx vy vz]. rewrite !Zc_mult. f_equal; ring.
Qed.
Lemma vecZ_mat_add a b m : vec_mat (vadd (vecZ a) (vecZ b)) m = vec_mat (vecZ (V3 (vx a + vx b) (vy a + vy b) (vz a + vz b))%Z) m.
Proof. f_equal. unfold vadd, vecZ, vmap. cbn [vx vy vz]. now rewrite !Zc_plus. Qed.
Lemma mod_of n i s : i < n -> ((Z.of_nat i + s * Z.of_nat n) mod Z.of_nat n = Z.of_nat i)%Z.
Proof. intros H. rewrite Z.mod_add by lia. apply Z.mod_small. lia. Qed.
Lemma mod_back n x : 0 < n -> exists i, i < n /\ (x mod Z.of_nat n = Z.of_nat i)%Z /\ (x = Z.of_nat i + x / Z.of_nat n * Z.of_nat n)%Z.
Proof.
  intros H. assert (B := Z.mod_pos_bound x (Z.of_nat n) ltac:(lia)). exists (Z.to_nat (x mod Z.of_nat n)). split; [lia|].
  rewrite Z2Nat.id by lia. split; [reflexivity|]. pose proof (Z.div_mod x (Z.of_nat n) ltac:(lia)). lia.
Qed.

Lemma gcell_crystal hp s : live hp (c_grid s) -> exists c, get_gcell hp s = Ok c /\
  get_lattice hp s = Ok (lattice c) /\ length (positions c) = length (numbers c) /\
  length (positions c) = g_depth (c_grid s) * g_width (c_grid s) * g_length (c_grid s) /\
  forall z v, crystal_atom (lattice c) (positions c) (numbers c) z v <-> grid_atom hp s z v.
Proof.
  intros LV. pose proof (live_inv LV) as [P1 [P2 [P3 _]]]. destruct (C07_lemma LV) as (bas & pos & num & E & LP & LN & EB & EN & ALL).
  unfold get_gcell, get_lattice. rewrite E. cbn [bind].
  assert (NE : pos <> []) by (intros ->; cbn in LP; nia).
  destruct (new_cell bas NE (eq_trans LP (eq_sym LN))) as (c & Ec & LC & LL & LP' & PM). exists c. rewrite LC. split; [exact Ec|]. split; [reflexivity|].
  split; [exact LL|]. split; [congruence|]. intros z v.
  rewrite (crystal_perm bas z v LL (eq_trans LP (eq_sym LN)) PM). unfold grid_atom. split.
  - intros (n & p & t & Np & Nz & ->). assert (n < length pos) by (apply nth_error_Some; congruence).
    destruct (ALL n) as (i & j & k & Hi & Hj & Hk & ->); [lia|]. destruct (EN i j k Hi Hj Hk) as (sp & p' & G & Z' & P' & V).
    assert (p' = p) by congruence. subst p'. assert (z = sp_Z sp) by congruence. subst z.
    exists (Z.of_nat i + vx t * Z.of_nat (g_depth (c_grid s)))%Z, (Z.of_nat j + vy t * Z.of_nat (g_width (c_grid s)))%Z, (Z.of_nat k + vz t * Z.of_nat (g_length (c_grid s)))%Z.
    split; [|exists sp; rewrite !mod_of by assumption; auto].
    rewrite vec_mat_add, V, EB, scaled_rows, <- vec_mat_add. apply vecZ_mat_add.
  - intros (I & J & K & -> & sp & G & ->).
    destruct (mod_back I P1) as (i & Hi & Mi & Ei). destruct (mod_back J P2) as (j & Hj & Mj & Ej). destruct (mod_back K P3) as (k & Hk & Mk & Ek).
    rewrite Mi, Mj, Mk in G. destruct (EN i j k Hi Hj Hk) as (sp' & p & G' & Z' & P' & V). assert (sp' = sp) by congruence. subst sp'.
    eexists. exists p, (V3 (I / Z.of_nat (g_depth (c_grid s))) (J / Z.of_nat (g_width (c_grid s))) (K / Z.of_nat (g_length (c_grid s))))%Z.
    split; [exact P'|]. split; [exact Z'|].
    rewrite vec_mat_add, V, EB, scaled_rows, <- vec_mat_add, vecZ_mat_add. cbn [vx vy vz]. now rewrite <- Ei, <- Ej, <- Ek.
Qed.

Lemma entries_equal hp g g' c c' : live hp g -> live hp g' -> contents hp g = Ok c -> contents hp g' = Ok c' ->
  map (map (map sp_Z)) c = map (map (map sp_Z)) c' <-> same_entries hp g g'.
Proof.
  intros LV LV' E E'. pose proof (live_inv LV) as I. pose proof (live_inv LV') as I'. pose proof I as [P1 [P2 [P3 _]]]. pose proof I' as [P1' [P2' [P3' _]]].
  destruct (contents_spec I) as (c0 & E0 & SH & HE). rewrite E in E0. injection E0 as <-.
  destruct (contents_spec I') as (c0 & E0 & SH' & HE'). rewrite E' in E0. injection E0 as <-. split.
  - intros EQ. pose proof (shaped_map sp_Z SH) as S1. pose proof (shaped_map sp_Z SH') as S2. rewrite EQ in S1.
    assert (SZ : g_depth g = g_depth g' /\ g_width g = g_width g' /\ g_length g = g_length g').
    { destruct S1 as [A1 F1], S2 as [A2 F2]. split; [congruence|].
      destruct (map (map (map sp_Z)) c') as [|p ps]; [cbn in A1; lia|]. inversion F1 as [|? ? [B1 G1] _]; inversion F2 as [|? ? [B2 G2] _]; subst.
      split; [congruence|]. destruct p as [|r p]; [cbn in *; lia|]. inversion G1; inversion G2; subst. congruence. }
    destruct SZ as (Z1 & Z2 & Z3). split; [exact Z1|]. split; [exact Z2|]. split; [exact Z3|]. intros i j k Hi Hj Hk.
    destruct (HE i j k Hi Hj Hk) as (sp & A & G). destruct (HE' i j k) as (sp' & A' & G'); [lia|lia|lia|].
    exists sp, sp'. split; [apply G; repeat split; auto|]. split; [apply G'; repeat split; lia|].
    pose proof (f_equal (fun a => entry a i j k) EQ) as K. cbn in K. rewrite !entry_map, A, A' in K. cbn in K. now injection K.
  - intros (Z1 & Z2 & Z3 & H). apply (@shaped_inj _ _ _ (g_depth g) (g_width g) (g_length g)).
    + now apply shaped_map.
    + rewrite Z1, Z2, Z3. now apply shaped_map.
    + apply list_ext. intros n. destruct (Nat.lt_ge_cases n (g_depth g * g_width g * g_length g)) as [Hn|Hn].
      * destruct (C07_lemma (s := mkCStru (V3 v0 v0 v0) g) LV) as (b0 & p0 & n0 & _ & _ & _ & _ & _ & ALL). cbn in ALL.
        destruct (ALL n Hn) as (i & j & k & Hi & Hj & Hk & ->). 
        rewrite (nth_concat2 (shaped_map sp_Z SH)) by assumption. rewrite Z2, Z3. rewrite (nth_concat2 (shaped_map sp_Z SH')) by lia.
        rewrite !entry_map. destruct (HE i j k Hi Hj Hk) as (sp & A & G). destruct (HE' i j k) as (sp' & A' & G'); [lia|lia|lia|].
        destruct (H i j k Hi Hj Hk) as (s1 & s2 & K1 & K2 & K3). rewrite A, A'. cbn. f_equal.
        rewrite (G (Z.of_nat i, Z.of_nat j, Z.of_nat k)) in K1 by (repeat split; auto). rewrite (G' (Z.of_nat i, Z.of_nat j, Z.of_nat k)) in K2 by (repeat split; lia). congruence.
      * transitivity (@None Z); [|symmetry]; apply nth_error_None.
        -- rewrite (proj2 (proj2 (shaped_concat (shaped_map sp_Z SH)))). lia.
        -- rewrite (proj2 (proj2 (shaped_concat (shaped_map sp_Z SH')))). lia.
Qed.

Lemma cstru_equality hp s s' : live hp (c_grid s) -> live hp (c_grid s') ->
  exists b, cstru_eqb hp s s' = Ok b /\ (b = true <-> c_m s = c_m s' /\ same_entries hp (c_grid s) (c_grid s')).
Proof.
  intros LV LV'. unfold cstru_eqb. destruct (mat_eqb (c_m s') (c_m s)) eqn:EM.
  - apply mat_eqb_ok in EM. destruct (contents_spec (live_inv LV)) as (c & E & _). destruct (contents_spec (live_inv LV')) as (c' & E' & _).
    destruct (grid_eqb_contents E' E) as (r & Er & Hr). exists r. split; [exact Er|]. rewrite Hr. rewrite <- (entries_equal LV LV' E E'). intuition congruence.
  - exists false. split; [reflexivity|]. split; [discriminate|]. intros [K _]. assert (mat_eqb (c_m s') (c_m s) = true) by (apply mat_eqb_ok; congruence). congruence.
Qed.

Lemma same_entries_crystal hp s s' : live hp (c_grid s) -> live hp (c_grid s') -> volume (c_m s) <> 0%Qc -> c_m s' = c_m s ->
  g_depth (c_grid s) = g_depth (c_grid s') -> g_width (c_grid s) = g_width (c_grid s') -> g_length (c_grid s) = g_length (c_grid s') ->
  same_entries hp (c_grid s) (c_grid s') <-> forall z v, grid_atom hp s z v <-> grid_atom hp s' z v.
Proof.
  intros LV LV' V EM Z1 Z2 Z3. pose proof (live_inv LV) as [P1 [P2 [P3 _]]]. unfold grid_atom. rewrite EM, <- Z1, <- Z2, <- Z3. split.
  - intros (_ & _ & _ & H) z v. split; intros (i & j & k & -> & sp & G & ->); exists i, j, k; (split; [reflexivity|]);
      destruct (mod_back i P1) as [a [Ha [Ma Wa]]]; destruct (mod_back j P2) as [b [Hb [Mb Wb]]]; destruct (mod_back k P3) as [d [Hd [Md Wd]]]; clear Wa Wb Wd;
      rewrite Ma, Mb, Md in G; rewrite Ma, Mb, Md; destruct (H a b d Ha Hb Hd) as (s1 & s2 & K1 & K2 & K3); [exists s2|exists s1]; (split; [assumption|congruence]).
  - intros H. split; [exact Z1|]. split; [exact Z2|]. split; [exact Z3|]. intros i j k Hi Hj Hk.
    destruct (C07_lemma LV) as (b0 & p0 & n0 & _ & _ & _ & _ & EN & _). destruct (EN i j k Hi Hj Hk) as (sp & p1 & G & _).
    destruct (proj1 (H (sp_Z sp) (vec_mat (vecZ (V3 (Z.of_nat i) (Z.of_nat j) (Z.of_nat k))) (c_m s)))) as (i' & j' & k' & EV & sp' & G' & ES).
    { exists (Z.of_nat i), (Z.of_nat j), (Z.of_nat k). split; [reflexivity|]. exists sp. rewrite !Z.mod_small by lia. auto. }
    destruct (inv_spec V) as (iv & _ & _ & IV). apply (f_equal (fun v => vec_mat v iv)) in EV. rewrite !IV in EV. apply vecZ_inj in EV. injection EV as <- <- <-.
    rewrite !Z.mod_small in G' by lia. eauto.
Qed.

Lemma id_matrix hp s : live hp (c_grid s) -> exists cell arr, get_cell hp s = Ok cell /\ get_array hp s = Ok arr /\
  forall d w l, get_id_matrix cell d w l =
    if Nat.eqb (d * w * l) (g_depth (c_grid s) * g_width (c_grid s) * g_length (c_grid s)) then Ok (reshape d w l (concat (concat arr))) else Raise ValueError.
Proof.
  intros LV. pose proof (live_inv LV) as I. destruct (contents_spec I) as [c [Ec [SH HE]]]. pose proof I as [P1 [P2 [P3 _]]].
  pose proof (to_array_of Ec SH P1 P2 P3) as ET. unfold get_cell, get_array. rewrite ET. cbn [bind]. eexists. eexists. split; [reflexivity|]. split; [reflexivity|].
  intros d w l. unfold get_id_matrix. cbn [snd]. rewrite (proj2 (proj2 (shaped_concat (shaped_map sp_Z SH)))). now rewrite Nat.eqb_sym.
Qed.
Lemma id_matrix_same hp s : live hp (c_grid s) -> exists cell arr, get_cell hp s = Ok cell /\ get_array hp s = Ok arr /\
  get_id_matrix cell (g_depth (c_grid s)) (g_width (c_grid s)) (g_length (c_grid s)) = Ok arr.
Proof.
  intros LV. destruct (id_matrix LV) as (cell & arr & E & A & H). exists cell, arr. split; [exact E|]. split; [exact A|]. rewrite H, Nat.eqb_refl. f_equal.
  pose proof (live_inv LV) as I. destruct (contents_spec I) as [c [Ec [SH HE]]]. pose proof I as [P1 [P2 [P3 _]]].
  unfold get_array in A. rewrite (to_array_of Ec SH P1 P2 P3) in A. injection A as <-.
  pose proof (shaped_map sp_Z SH) as SM. destruct (reshape_shaped (proj2 (proj2 (shaped_concat SM)))) as [R1 R2]. exact (shaped_inj R1 SM R2).
Qed.

(** *** random_fill *)
Lemma concat_map3 A B (f : A -> B) (a : list (list (list A))) : concat (concat (map (map (map f)) a)) = map f (concat (concat a)).
Proof. now rewrite <- concat_map, <- concat_map. Qed.

Definition chosen (b s bit : Z) : Z := if Z.eqb bit 1 then s else b.
Lemma random_fill_ok hp bsp sp d w l bits : shaped bits d w l -> 0 < d -> 0 < w -> 0 < l ->
  (forall b, In b (concat (concat bits)) -> b = 0%Z \/ b = 1%Z) -> supported (sp_Z bsp) -> supported (sp_Z sp) ->
  exists g hp', random_fill hp bsp d w l sp bits = Ok (g, hp') /\ live hp' g /\ (exists ext, hp' = hp ++ ext) /\
    g_depth g = d /\ g_width g = w /\ g_length g = l /\ to_array hp' g = Ok (map (map (map (chosen (sp_Z bsp) (sp_Z sp)))) bits).
Proof.
  intros SH Hd Hw Hl HB S1 S2. unfold random_fill.
  assert (EQ : map (map (map (fun b => sp_Z bsp + (sp_Z sp - sp_Z bsp) * b)%Z)) bits = map (map (map (chosen (sp_Z bsp) (sp_Z sp)))) bits).
  { apply (@shaped_inj _ _ _ d w l); [now apply shaped_map|now apply shaped_map|]. rewrite !concat_map3. apply map_ext_in. intros b Hb. unfold chosen.
    destruct (HB b Hb) as [-> | ->]; [change (0 =? 1)%Z with false|change (1 =? 1)%Z with true]; cbn iota; ring. }
  rewrite EQ.
  destruct (@from_array_ok hp (map (map (map (chosen (sp_Z bsp) (sp_Z sp)))) bits) d w l) as (g & hp' & c & E & _ & _ & _ & T & LV & EX & D1 & D2 & D3); auto using shaped_map.
  { rewrite concat_map3. intros z Hz. apply in_map_iff in Hz. destruct Hz as (b & <- & _). unfold chosen. now destruct (b =? 1)%Z. }
  exists g, hp'. repeat (split; [assumption|]). assumption.
Qed.
Lemma random_fill_all hp bsp sp d w l arr : shaped arr d w l -> 0 < d -> 0 < w -> 0 < l ->
  (forall z, In z (concat (concat arr)) -> z = sp_Z bsp \/ z = sp_Z sp) -> supported (sp_Z bsp) -> supported (sp_Z sp) ->
  exists bits, shaped bits d w l /\ (forall b, In b (concat (concat bits)) -> b = 0%Z \/ b = 1%Z) /\
    exists g hp', random_fill hp bsp d w l sp bits = Ok (g, hp') /\ to_array hp' g = Ok arr.
Proof.
  intros SH Hd Hw Hl HA S1 S2. set (f := fun z => if Z.eqb z (sp_Z sp) then 1%Z else 0%Z). exists (map (map (map f)) arr).
  assert (HB : forall b, In b (concat (concat (map (map (map f)) arr))) -> b = 0%Z \/ b = 1%Z).
  { rewrite concat_map3. intros b Hb. apply in_map_iff in Hb. destruct Hb as (z & <- & _). unfold f. destruct (z =? sp_Z sp)%Z; auto. }
  split; [now apply shaped_map|]. split; [exact HB|].
  destruct (@random_fill_ok hp bsp sp d w l _ (shaped_map f SH) Hd Hw Hl HB S1 S2) as (g & hp' & E & _ & _ & _ & _ & _ & T). exists g, hp'. split; [exact E|]. rewrite T. f_equal.
  apply (@shaped_inj _ _ _ d w l); [now apply shaped_map, shaped_map|assumption|]. rewrite !concat_map3, map_map. rewrite <- (map_id (concat (concat arr))) at 2.
  apply map_ext_in. intros z Hz. unfold f, chosen. destruct (z =? sp_Z sp)%Z eqn:EZ; [now apply Z.eqb_eq in EZ|]. destruct (HA z Hz) as [H|H]; [easy|]. apply Z.eqb_neq in EZ. contradiction.
Qed.

Lemma id_matrix_sizes hp s : live hp (c_grid s) -> exists cell arr, get_cell hp s = Ok cell /\ get_array hp s = Ok arr /\
  forall d w l, (d * w * l = g_depth (c_grid s) * g_width (c_grid s) * g_length (c_grid s) ->
      exists m, get_id_matrix cell d w l = Ok m /\ shaped m d w l /\ concat (concat m) = concat (concat arr)) /\
    (d * w * l <> g_depth (c_grid s) * g_width (c_grid s) * g_length (c_grid s) -> get_id_matrix cell d w l = Raise ValueError).
Proof.
  intros LV. destruct (id_matrix LV) as (cell & arr & E & A & H). exists cell, arr. split; [exact E|]. split; [exact A|]. intros d w l. rewrite H. split; intros K.
  - rewrite (proj2 (Nat.eqb_eq _ _) K). eexists. split; [reflexivity|]. apply reshape_shaped. rewrite K.
    pose proof (live_inv LV) as I. destruct (contents_spec I) as [c [Ec [SH HE]]]. pose proof I as [P1 [P2 [P3 _]]].
    unfold get_array in A. rewrite (to_array_of Ec SH P1 P2 P3) in A. injection A as <-. exact (proj2 (proj2 (shaped_concat (shaped_map sp_Z SH)))).
  - now rewrite (proj2 (Nat.eqb_neq _ _) K).
Qed.
