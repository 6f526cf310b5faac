From Coq Require Import String QArith.
From Verif Require Import Base LBase MElement SElement.
Open Scope string_scope.
Open Scope Z_scope.
Set Implicit Arguments.

Definition spec_pairs : list (Z * string) :=
  combine (List.map Z.of_nat (seq 0 57)) symbols_0_56 ++
  combine (List.map Z.of_nat (seq 72 17)) symbols_72_88.

Lemma db_pairs : List.map (fun d => (sp_Z d, sp_symbol d)) pt_db = spec_pairs.
Proof. vm_compute. reflexivity. Qed.

Lemma In_combine_nth A s (l : list A) (z : Z) x :
  In (z, x) (combine (List.map Z.of_nat (seq s (length l))) l) <->
  (Z.of_nat s <= z /\ nth_error l (Z.to_nat (z - Z.of_nat s)) = Some x).
Proof.
  revert s; induction l as [|y l IH]; intros s; cbn [length seq List.map combine In].
  - split; [easy|]. intros [_ H]. destruct (Z.to_nat _); discriminate.
  - rewrite IH. split.
    + intros [E|[H1 H2]].
      * injection E as <- <-. split; [lia|]. now rewrite Z.sub_diag.
      * split; [lia|]. replace (Z.to_nat (z - Z.of_nat s)) with (S (Z.to_nat (z - Z.of_nat (S s)))) by lia.
        exact H2.
    + intros [H1 H2]. destruct (Z.eq_dec z (Z.of_nat s)) as [->|N].
      * left. rewrite Z.sub_diag in H2. cbn in H2. congruence.
      * right. split; [lia|].
        replace (Z.to_nat (z - Z.of_nat s)) with (S (Z.to_nat (z - Z.of_nat (S s)))) in H2 by lia.
        exact H2.
Qed.

Lemma spec_pairs_iff z s : In (z, s) spec_pairs <-> is_element z s.
Proof.
  unfold spec_pairs, is_element. rewrite in_app_iff.
  rewrite (In_combine_nth 0 symbols_0_56), (In_combine_nth 72 symbols_72_88).
  cbn [Z.of_nat]. rewrite Z.sub_0_r. reflexivity.
Qed.

Lemma db_In d : In d pt_db -> is_element (sp_Z d) (sp_symbol d).
Proof.
  intros H. apply spec_pairs_iff. rewrite <- db_pairs.
  apply in_map_iff. now exists d.
Qed.

Lemma element_In z s : is_element z s -> exists d, In d pt_db /\ sp_Z d = z /\ sp_symbol d = s.
Proof.
  intros H. apply spec_pairs_iff in H. rewrite <- db_pairs in H.
  apply in_map_iff in H. destruct H as [d [E Hd]]. injection E as <- <-. eauto.
Qed.

Lemma nodup_Z : NoDup (List.map sp_Z pt_db).
Proof.
  assert (E : nodup Z.eq_dec (List.map sp_Z pt_db) = List.map sp_Z pt_db) by (vm_compute; reflexivity).
  rewrite <- E. apply NoDup_nodup.
Qed.

Lemma nodup_sym : NoDup (List.map sp_symbol pt_db).
Proof.
  assert (E : nodup string_dec (List.map sp_symbol pt_db) = List.map sp_symbol pt_db) by (vm_compute; reflexivity).
  rewrite <- E. apply NoDup_nodup.
Qed.

Lemma NoDup_map_inj A B (f : A -> B) l x y :
  NoDup (List.map f l) -> In x l -> In y l -> f x = f y -> x = y.
Proof.
  induction l as [|a l IH]; intros ND Hx Hy E; [easy|].
  cbn in ND. inversion ND as [|? ? Hn ND']; subst.
  destruct Hx as [<-|Hx], Hy as [<-|Hy].
  - reflexivity.
  - exfalso. apply Hn. rewrite E. now apply in_map.
  - exfalso. apply Hn. rewrite <- E. now apply in_map.
  - auto.
Qed.

Lemma element_fun z s s' : is_element z s -> is_element z s' -> s = s'.
Proof.
  intros H H'. apply element_In in H, H'.
  destruct H as [d [Hd [E <-]]], H' as [d' [Hd' [E' <-]]].
  f_equal. eapply NoDup_map_inj; [apply nodup_Z|..]; auto. congruence.
Qed.

Lemma element_inj z z' s : is_element z s -> is_element z' s -> z = z'.
Proof.
  intros H H'. apply element_In in H, H'.
  destruct H as [d [Hd [<- E]]], H' as [d' [Hd' [<- E']]].
  f_equal. eapply NoDup_map_inj; [apply nodup_sym|..]; auto. congruence.
Qed.

Lemma supported_iff z : supported z <-> exists s, is_element z s.
Proof.
  unfold supported, is_element. split.
  - intros [H|H].
    + destruct (nth_error symbols_0_56 (Z.to_nat z)) eqn:E.
      * exists s. left. split; [lia|reflexivity].
      * apply nth_error_None in E. change (length symbols_0_56) with 57%nat in E. lia.
    + destruct (nth_error symbols_72_88 (Z.to_nat (z - 72))) eqn:E.
      * exists s. right. split; [lia|reflexivity].
      * apply nth_error_None in E. change (length symbols_72_88) with 17%nat in E. lia.
  - intros [s [[H E]|[H E]]].
    + left. assert (L : (Z.to_nat z < length symbols_0_56)%nat) by (apply nth_error_Some; congruence).
      change (length symbols_0_56) with 57%nat in L. lia.
    + right. assert (L : (Z.to_nat (z - 72) < length symbols_72_88)%nat) by (apply nth_error_Some; congruence).
      change (length symbols_72_88) with 17%nat in L. lia.
Qed.

Lemma key_of_num_spec z s : key_of_num z = Ok s <-> is_element z s.
Proof.
  unfold key_of_num. split.
  - destruct (List.filter _ pt_db) as [|d t] eqn:E; [discriminate|].
    intros H; injection H as <-.
    assert (Hd : In d (List.filter (fun d => sp_Z d =? z) pt_db)) by (rewrite E; now left).
    apply filter_In in Hd. destruct Hd as [Hd Hz]. apply Z.eqb_eq in Hz. subst z. now apply db_In.
  - intros H. destruct (element_In H) as [d [Hd [Ez Es]]].
    destruct (List.filter (fun d => sp_Z d =? z) pt_db) as [|d' t] eqn:E.
    + exfalso. assert (Hf : In d (List.filter (fun d => sp_Z d =? z) pt_db)).
      { apply filter_In. split; [assumption|]. now apply Z.eqb_eq. }
      rewrite E in Hf. easy.
    + assert (Hd' : In d' (List.filter (fun d => sp_Z d =? z) pt_db)) by (rewrite E; now left).
      apply filter_In in Hd'. destruct Hd' as [Hd' Hz]. apply Z.eqb_eq in Hz.
      f_equal. subst z. eapply element_fun; [|eassumption]. rewrite <- Hz. now apply db_In.
Qed.

Lemma key_of_num_cases z : key_of_num z = Raise IndexError \/ exists s, key_of_num z = Ok s.
Proof. unfold key_of_num. destruct (List.filter _ _); eauto. Qed.

Lemma key_of_num_err z : key_of_num z = Raise IndexError <-> ~ supported z.
Proof.
  rewrite supported_iff. split.
  - intros H [s Hs]. apply key_of_num_spec in Hs. congruence.
  - intros H. destruct (key_of_num z) as [s|e] eqn:E.
    + exfalso. apply H. exists s. now apply key_of_num_spec.
    + destruct (key_of_num_cases z) as [K|[s K]]; congruence.
Qed.

Lemma element_0 s : is_element 0 s <-> s = "G".
Proof.
  split.
  - intros H. apply (element_fun H). left. split; [lia|reflexivity].
  - intros ->. left. split; [lia|reflexivity].
Qed.

Lemma to_name_spec z s : to_name z = Ok s <-> is_element z s.
Proof.
  unfold to_name. destruct (Z.eqb_spec z 0) as [->|N].
  - rewrite element_0. split; congruence.
  - apply key_of_num_spec.
Qed.

Lemma to_name_err z : ~ supported z -> to_name z = Raise IndexError.
Proof.
  intros H. unfold to_name. destruct (Z.eqb_spec z 0) as [->|N].
  - exfalso. apply H. left. lia.
  - now apply key_of_num_err.
Qed.

Lemma Specie_new_spec s sp : Specie_new s = Ok sp -> is_element (sp_Z sp) s /\ sp_symbol sp = s.
Proof.
  unfold Specie_new. destruct (find _ pt_db) as [d|] eqn:E; [|discriminate].
  intros H; injection H as <-. cbn.
  apply find_some in E. destruct E as [Hd Hs]. apply String.eqb_eq in Hs. subst s.
  split; [now apply db_In|reflexivity].
Qed.

Lemma Specie_new_total z s : is_element z s -> exists sp, Specie_new s = Ok sp /\ sp_Z sp = z.
Proof.
  intros H. destruct (Specie_new s) as [sp|e] eqn:E.
  - exists sp. split; [reflexivity|]. destruct (Specie_new_spec s E) as [H' _]. apply (element_inj H' H).
  - exfalso. unfold Specie_new in E. destruct (find _ pt_db) as [d|] eqn:F; [discriminate|].
    destruct (element_In H) as [d [Hd [Ez Es]]].
    apply (find_none _ _ F) in Hd. cbn in Hd. rewrite Es, String.eqb_refl in Hd. discriminate.
Qed.

Lemma Specie_new_cases s : Specie_new s = Raise KeyError \/ exists sp, Specie_new s = Ok sp.
Proof. unfold Specie_new. destruct (find _ _); eauto. Qed.

Lemma Specie_new_err s : (forall z, ~ is_element z s) -> Specie_new s = Raise KeyError.
Proof.
  intros H. destruct (Specie_new s) as [sp|e] eqn:E.
  - exfalso. destruct (Specie_new_spec s E) as [H' _]. exact (H _ H').
  - destruct (Specie_new_cases s) as [K|[sp K]]; congruence.
Qed.

(** from_num: same Z and symbol as Specie(to_name z). The vacancy returned by
    from_num(0) is GhostSpecie(), whose mass and radius are also 0. *)
Lemma from_num_spec z :
  (forall s, is_element z s -> exists sp, from_num z = Ok sp /\ sp_symbol sp = s /\ sp_Z sp = z) /\
  (~ supported z -> from_num z = Raise IndexError).
Proof.
  unfold from_num. destruct (Z.eqb_spec z 0) as [->|N].
  - split.
    + intros s H. apply element_0 in H. subst. exists GhostSpecie_new. auto.
    + intros H. exfalso. apply H. left. lia.
  - split.
    + intros s H. apply key_of_num_spec in H as K. rewrite K. cbn.
      destruct (Specie_new_total H) as [sp [E1 E2]]. exists sp. rewrite E1.
      destruct (Specie_new_spec s E1). auto.
    + intros H. apply key_of_num_err in H. rewrite H. reflexivity.
Qed.

Lemma from_num_inv z sp : from_num z = Ok sp -> is_element z (sp_symbol sp) /\ sp_Z sp = z.
Proof.
  intros H. assert (S : supported z \/ ~ supported z) by (unfold supported; lia).
  destruct S as [S|S].
  - apply supported_iff in S. destruct S as [s Hs].
    destruct (from_num_spec z) as [F _]. destruct (F s Hs) as [sp' [E [E1 E2]]].
    rewrite E in H. injection H as <-. subst. auto.
  - destruct (from_num_spec z) as [_ F]. rewrite (F S) in H. discriminate.
Qed.

Lemma built_element a : built a -> is_element (sp_Z a) (sp_symbol a).
Proof.
  intros [[s H]|[->|[z H]]].
  - destruct (Specie_new_spec s H) as [H1 H2]. now rewrite H2.
  - apply element_0. reflexivity.
  - apply from_num_inv in H. destruct H as [H <-]. exact H.
Qed.

Lemma sp_eqb_built a b : built a -> built b -> (sp_eqb a b = true <-> sp_symbol a = sp_symbol b).
Proof.
  intros Ha Hb. apply built_element in Ha, Hb. unfold sp_eqb. rewrite Z.eqb_eq. split; intros E.
  - rewrite E in Ha. apply (element_fun Ha Hb).
  - rewrite E in Ha. apply (element_inj Ha Hb).
Qed.

Lemma to_name_roundtrip z :
  (supported z <-> exists s, to_name z = Ok s) /\
  (forall s, to_name z = Ok s -> exists sp, Specie_new s = Ok sp /\ sp_Z sp = z) /\
  (forall s sp, Specie_new s = Ok sp -> to_name (sp_Z sp) = Ok s) /\
  (forall sp s, from_num z = Ok sp -> to_name z = Ok s -> exists sp', Specie_new s = Ok sp' /\ sp_eqb sp sp' = true /\ sp_symbol sp = sp_symbol sp') /\
  (~ supported z -> to_name z = Raise IndexError /\ from_num z = Raise IndexError).
Proof.
  split; [|split; [|split; [|split]]].
  - rewrite supported_iff. split; intros [s H]; exists s; now apply to_name_spec.
  - intros s H. apply to_name_spec in H. now apply Specie_new_total.
  - intros s sp H. apply to_name_spec. now apply (Specie_new_spec s H).
  - intros sp s H1 H2. apply to_name_spec in H2. destruct (Specie_new_total H2) as [sp' [E1 E2]].
    exists sp'. split; [assumption|]. apply from_num_inv in H1. destruct H1 as [H1 H3].
    split; [apply Z.eqb_eq; congruence|].
    destruct (Specie_new_spec s E1) as [_ E3]. rewrite E3. apply (element_fun H1 H2).
  - intros H. split; [now apply to_name_err|]. now apply from_num_spec.
Qed.

Lemma from_num_ok z : supported z -> exists sp, from_num z = Ok sp /\ sp_Z sp = z.
Proof.
  intros H. apply supported_iff in H. destruct H as [s H].
  destruct (from_num_spec z) as [F _]. destruct (F s H) as [sp [E [_ E2]]]. eauto.
Qed.

Lemma Specie_new_domain s :
  (exists sp, Specie_new s = Ok sp) <-> (exists z, is_element z s).
Proof.
  split.
  - intros [sp H]. apply Specie_new_spec in H. destruct H. eauto.
  - intros [z H]. destruct (Specie_new_total H) as [sp [E _]]. eauto.
Qed.

Lemma sp_eqb_equiv a b c :
  sp_eqb a a = true /\ sp_eqb a b = sp_eqb b a /\
  (sp_eqb a b = true -> sp_eqb b c = true -> sp_eqb a c = true) /\
  sp_neb a b = negb (sp_eqb a b).
Proof.
  unfold sp_neb, sp_eqb. rewrite Z.eqb_refl, (Z.eqb_sym (sp_Z a) (sp_Z b)).
  repeat split. rewrite !Z.eqb_eq. congruence.
Qed.

Lemma vacancy_one : forall g f, Specie_new "G" = Ok g -> from_num 0 = Ok f ->
  sp_eqb g f = true /\ sp_eqb g GhostSpecie_new = true /\ sp_eqb f GhostSpecie_new = true /\
  (sp_mass g == sp_mass f)%Q /\ (sp_radius g == sp_radius f)%Q.
Proof. intros g f Hg Hf. vm_compute in Hg, Hf. injection Hg as <-. injection Hf as <-. repeat split. Qed.
