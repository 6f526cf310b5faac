(** The ternary applications change sites of other elements. *)
From Coq Require Import String Ascii.
From Verif Require Import Base BaseQ SElement MElement LElement MGeneralCell SGeneralCell LGeneralCell MRestrict MSogen LSym LSymDec MText MIO SIO LIO6
  SSubst SSym SOcc SEnum LMisc LSogen SCli MCli SCliApp LCli LCli2 LCli3 LCli4 LHnf LGrid2 LCli5.
Set Implicit Arguments.
Unset Strict Implicit.
Open Scope list_scope.
Open Scope nat_scope.
Notation length := List.length.

Lemma two_fold_at init n1 v1 n2 v2 i : i < length init -> 1 <= n1 -> n1 + n2 <= length init ->
  exists x, two_fold init n1 v1 n2 v2 x /\ nth_error x i = Some v1.
Proof.
  intros Hi H1 H2. set (L := seq 0 i ++ seq (S i) (length init - i - 1)).
  assert (NL : NoDup L).
  { apply NoDup_app_disj; [apply seq_NoDup|apply seq_NoDup|]. intros k A B. apply in_seq in A, B. lia. }
  assert (IL : forall k, In k L -> k < length init /\ k <> i).
  { intros k A. apply in_app_iff in A as [A|A]; apply in_seq in A; lia. }
  assert (LL : length L = length init - 1) by (unfold L; rewrite app_length, !seq_length; lia).
  set (A := firstn (n1 - 1) L). set (B := firstn n2 (skipn (n1 - 1) L)).
  assert (E : L = A ++ skipn (n1 - 1) L) by (symmetry; apply firstn_skipn).
  assert (E2 : skipn (n1 - 1) L = B ++ skipn n2 (skipn (n1 - 1) L)) by (symmetry; apply firstn_skipn).
  assert (NA : NoDup (A ++ B ++ skipn n2 (skipn (n1 - 1) L))) by (rewrite <- E2, <- E; exact NL).
  assert (IA : forall k, In k A -> In k L) by (intros k K; rewrite E; apply in_app_iff; now left).
  assert (IB : forall k, In k B -> In k L) by (intros k K; rewrite E, E2; apply in_app_iff; right; apply in_app_iff; now left).
  assert (DJ : forall k, In k A -> ~ In k B).
  { intros k KA KB. clear - NA KA KB. induction A as [|a A IH]; [contradiction|]. cbn in NA. inversion NA; subst. destruct KA as [->|KA]; [|auto].
    apply H1. apply in_app_iff. right. apply in_app_iff. now left. }
  assert (N1 : NoDup A) by (clear - NA; induction A; [constructor|]; cbn in NA; inversion NA; subst; constructor; [intros K; apply H1, in_app_iff; now left|auto]).
  assert (N2 : NoDup B).
  { assert (K : NoDup (B ++ skipn n2 (skipn (n1 - 1) L))) by (clear - NA; induction A; [exact NA|]; cbn in NA; inversion NA; auto).
    clear - K. induction B; [constructor|]; cbn in K; inversion K; subst; constructor; [intros KK; apply H1, in_app_iff; now left|auto]. }
  set (S1 := i :: A).
  set (x := map (fun k => if in_dec Nat.eq_dec k S1 then v1 else if in_dec Nat.eq_dec k B then v2 else nth k init 0%Z) (seq 0 (length init))).
  assert (X : forall k, k < length init -> nth_error x k = Some (if in_dec Nat.eq_dec k S1 then v1 else if in_dec Nat.eq_dec k B then v2 else nth k init 0%Z)).
  { intros k Hk. unfold x. rewrite nth_error_map. assert (nth_error (seq 0 (length init)) k = Some k) as ->; [|reflexivity].
    rewrite (nth_error_nth' _ 0) by (rewrite seq_length; exact Hk). now rewrite seq_nth by exact Hk. }
  exists x. split.
  - exists S1, B. split; [|split; [|split; [|split]]].
    + split; [|split].
      * constructor; [|exact N1]. intros K. apply IA, IL in K. tauto.
      * cbn. unfold A. rewrite firstn_length. lia.
      * intros k [<-|K]; [exact Hi|]. apply IA, IL in K. apply K.
    + split; [exact N2|]. split; [unfold B; rewrite firstn_length, skipn_length; lia|]. intros k K. apply IB, IL in K. apply K.
    + intros k [<-|K] KB; [apply IB, IL in KB; tauto|]. exact (DJ k K KB).
    + unfold x. now rewrite map_length, seq_length.
    + intros k a Ea. assert (Hk : k < length init) by (apply nth_error_Some; congruence). rewrite (X k Hk).
      destruct (in_dec Nat.eq_dec k S1) as [K|K].
      * split; [reflexivity|]. split; [|tauto]. intros KB. exfalso. destruct K as [<-|K]; [apply IB, IL in KB; tauto|exact (DJ k K KB)].
      * split; [tauto|]. destruct (in_dec Nat.eq_dec k B) as [KB|KB]; [split; [reflexivity|tauto]|]. split; [tauto|]. intros _ _.
        now rewrite (nth_error_nth init k 0%Z Ea).
  - rewrite (X i Hi). destruct (in_dec Nat.eq_dec i S1) as [K|K]; [reflexivity|]. exfalso. apply K. now left.
Qed.

Lemma equivalent_site G n (init x y : list Z) i b v : perm_group n G -> preserves G init -> length init = n -> equivalent G x y -> length x = n ->
  nth_error init i = Some b -> nth_error x i = Some v -> exists j, nth_error init j = Some b /\ nth_error y j = Some v.
Proof.
  intros (HP & _) PR LN (p & Ip & R) LX Ei Ex.
  pose proof (HP p Ip) as Pp. assert (Hi : In i p).
  { apply (Permutation_in _ (Permutation_sym Pp)), in_seq. split; [lia|]. rewrite <- LX. cbn. apply nth_error_Some. congruence. }
  apply In_nth_error in Hi as (j & Ej). exists j. split.
  - pose proof (PR p Ip) as R0. rewrite (reordered_nth j R0), Ej. exact Ei.
  - rewrite (reordered_nth j R), Ej. exact Ex.
Qed.

Lemma ternary_violation N psize std dump a tr o v1 v2 comps dir fs r n1 n2 i b :
  ternary_result psize std dump N a tr o v1 v2 comps dir fs r -> In (n1, n2) comps ->
  perm_group (length (numbers (t_cell a))) (sym_perm o) -> preserves (sym_perm o) (numbers (t_cell a)) ->
  (forall x, two_fold (numbers (t_cell a)) n1 v1 n2 v2 x -> wanted psize (t_mpr a) tr (decorated (t_cell a) x)) ->
  1 <= n1 -> n1 + n2 <= length (numbers (t_cell a)) -> nth_error (numbers (t_cell a)) i = Some b ->
  exists ws c w j, new_if_room N fs ws (o_files r) /\ In w ws /\
    ternary_file (get_refined_pcell std) dump (t_refined a) (t_outmode a) dir (Z.of_nat (t_size a) - Z.of_nat n1 - Z.of_nat n2)%Z (Z.of_nat n1) (Z.of_nat n2) c w /\
    same_frame (t_cell a) c /\
    nth_error (numbers (t_cell a)) j = Some b /\ nth_error (numbers c) j = Some v1.
Proof.
  intros (_ & out & ws & HT & F2 & NEW) IC PG PR HW H1 H2 Ei.
  assert (Hi : i < length (numbers (t_cell a))) by (apply nth_error_Some; congruence).
  destruct (two_fold_at v1 v2 Hi H1 H2) as (x & Tx & Ex). destruct (HT n1 n2 IC) as [FR (T1 & T2 & _)].
  destruct (T2 x (conj Tx (HW x Tx))) as (y & Iy & Exy). apply in_map_iff in Iy as (c & <- & Ic).
  assert (LX : length x = length (numbers (t_cell a))) by (destruct Tx as (? & ? & _ & _ & _ & L & _); exact L).
  destruct (equivalent_site PG PR eq_refl Exy LX Ei Ex) as (j & J1 & J2).
  assert (IO : In (c, (n1, n2)) (List.flat_map (fun n => map (fun c => (c, n)) (out n)) comps)).
  { apply in_flat_map. exists (n1, n2). split; [exact IC|]. apply in_map_iff. exists c. auto. }
  assert (exists w, In w ws /\ ternary_file (get_refined_pcell std) dump (t_refined a) (t_outmode a) dir (Z.of_nat (t_size a) - Z.of_nat n1 - Z.of_nat n2)%Z (Z.of_nat n1) (Z.of_nat n2) c w) as (w & Iw & TF).
  { clear - F2 IO. induction F2 as [|? ? ? ? R F IH]; [contradiction|]. destruct IO as [->|IO].
    - eexists. split; [now left|exact R].
    - destruct (IH IO) as (w & ? & ?). exists w. split; [now right|assumption]. }
  exists ws, c, w, j. split; [exact NEW|]. split; [exact Iw|]. split; [exact TF|].
  rewrite Forall_forall in FR. auto.
Qed.

(** the compositions of ocumakert as natural numbers *)
Definition ncomps (n : nat) : list (nat * nat) := map (fun z => (Z.to_nat (fst z), Z.to_nat (snd z))) (makert_comps (Z.of_nat n)).
Lemma ncomps_z n : map zpair (ncomps n) = makert_comps (Z.of_nat n).
Proof.
  unfold ncomps. rewrite map_map. rewrite <- (map_id (makert_comps (Z.of_nat n))) at 2. apply map_ext_in. intros [a b] I.
  apply comps_In in I. unfold zpair. cbn. f_equal; lia.
Qed.
Lemma ncomps_In n n1 n2 : In (n1, n2) (ncomps n) <-> 1 <= n1 /\ 1 <= n2 /\ n1 + n2 < n.
Proof.
  unfold ncomps. rewrite in_map_iff. split.
  - intros ([a b] & [= <- <-] & I). apply comps_In in I. lia.
  - intros H. exists (Z.of_nat n1, Z.of_nat n2). cbn. rewrite !Nat2Z.id. split; [reflexivity|]. apply comps_In. lia.
Qed.
Lemma ncomps_NoDup n : NoDup (ncomps n).
Proof.
  apply (NoDup_map_inv zpair). rewrite ncomps_z. apply comps_NoDup.
Qed.

(** a choice of names: the first unused one of N + 1 candidates *)
Fixpoint stars (k : nat) : string := match k with 0 => EmptyString | S k => String "x" (stars k) end.
Lemma stars_length k : String.length (stars k) = k.
Proof. induction k; cbn; congruence. Qed.
Definition first_unused (N : nat) (fs : files) (a b : string) : string :=
  match List.find (fun k => match fs (a ++ stars k ++ b)%string with None => true | Some _ => false end) (seq 0 N) with
  | Some k => a ++ stars k ++ b
  | None => a ++ b
  end.
Lemma app_length_s a b : String.length (a ++ b)%string = String.length a + String.length b.
Proof. induction a; cbn; congruence. Qed.
Lemma first_unused_fresh N : fresh_names N (first_unused N).
Proof.
  intros fs a b. unfold first_unused.
  destruct (List.find _ (seq 0 N)) as [k|] eqn:E.
  - split; [exists (stars k); reflexivity|]. intros _ _ _. apply List.find_some in E as [_ E]. destruct (fs _); [discriminate|reflexivity].
  - split; [exists EmptyString; reflexivity|]. intros n Hn (L & HL & H). exfalso.
    assert (I : incl (map (fun k => (a ++ stars k ++ b)%string) (seq 0 N)) L).
    { intros p I. apply in_map_iff in I as (k & <- & I). apply H. pose proof (List.find_none _ _ E k I) as K. cbv beta in K. now destruct (fs _). }
    apply NoDup_incl_length in I; [rewrite map_length, seq_length in I; lia|].
    apply FinFun.Injective_map_NoDup; [|apply seq_NoDup]. intros i j K. apply (f_equal String.length) in K. rewrite !app_length_s, !stars_length in K. lia.
Qed.
