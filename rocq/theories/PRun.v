(** C102: every line carried out.  Whatever the spelling and the order of the words, a command runs
    with the settings that the line, the file and the defaults give, or changes nothing. *)
From Coq Require Import String Permutation.
From Verif Require Import Base BaseQ LQ MElement SElement LElement SLattice SGeneralCell MGeneralCell MHnf MIO SIO MModCell SModCell SShape SCli MCli SCliOne SCliRead SCliArgs MOpt SOpt LOpt LOpt2 LOpt3 LOpt4 LOpt5 PCli2 PCli3 PCli5 LCodec POnce PSession PFlowT SRun LRun LRun2.
Open Scope string_scope.
Open Scope list_scope.
Notation length := List.length.

(** ** runaba *)
Theorem C102_ocubiter : forall spg wy psize std h dump load ls cbrt gen3 gen2 cwd rd suffix tmp argv fs ds evs f u a,
  asks "ocubiter" t_ocubiter fs ds argv evs f -> from_file load cbrt (Some f) None fs = Ok u -> Forall supported (numbers u) ->
  ocubiter_settings u evs a -> runaba spg wy psize std h dump load ls cbrt gen3 gen2 cwd rd suffix tmp argv fs ds = Called (biter_run spg wy psize std h dump a cwd rd suffix fs ds).
Proof. exact ocubiter_runs. Qed.
Print Assumptions C102_ocubiter.
Theorem C102_ocubiter_stops : forall spg wy psize std h dump load ls cbrt gen3 gen2 cwd rd suffix tmp argv fs ds evs f,
  asks "ocubiter" t_ocubiter fs ds argv evs f -> (forall u, from_file load cbrt (Some f) None fs = Ok u -> Forall supported (numbers u) /\ forall a, ~ ocubiter_settings u evs a) -> untouched fs ds (runaba spg wy psize std h dump load ls cbrt gen3 gen2 cwd rd suffix tmp argv fs ds).
Proof. exact ocubiter_stops. Qed.
Print Assumptions C102_ocubiter_stops.
Theorem C102_ocumaker : forall spg wy psize std h dump load ls cbrt gen3 gen2 cwd rd suffix tmp argv fs ds evs f u a,
  asks "ocumaker" t_ocumaker fs ds argv evs f -> from_file load cbrt (Some f) None fs = Ok u -> Forall supported (numbers u) ->
  ocumaker_settings u evs a -> runaba spg wy psize std h dump load ls cbrt gen3 gen2 cwd rd suffix tmp argv fs ds = Called (maker_run spg wy psize std h dump a cwd rd suffix fs ds).
Proof. exact ocumaker_runs. Qed.
Print Assumptions C102_ocumaker.
Theorem C102_ocumaker_stops : forall spg wy psize std h dump load ls cbrt gen3 gen2 cwd rd suffix tmp argv fs ds evs f,
  asks "ocumaker" t_ocumaker fs ds argv evs f -> (forall u, from_file load cbrt (Some f) None fs = Ok u -> Forall supported (numbers u) /\ forall a, ~ ocumaker_settings u evs a) -> untouched fs ds (runaba spg wy psize std h dump load ls cbrt gen3 gen2 cwd rd suffix tmp argv fs ds).
Proof. exact ocumaker_stops. Qed.
Print Assumptions C102_ocumaker_stops.
Theorem C102_suplat : forall spg wy psize std h dump load ls cbrt gen3 gen2 cwd rd suffix tmp argv fs ds evs f u a,
  asks "suplat" t_suplat fs ds argv evs f -> from_file load cbrt (Some f) None fs = Ok u -> 
  suplat_settings psize gen3 gen2 u evs a -> runaba spg wy psize std h dump load ls cbrt gen3 gen2 cwd rd suffix tmp argv fs ds = Called (suplat_run std dump a cwd suffix fs ds).
Proof. exact suplat_runs. Qed.
Print Assumptions C102_suplat.
Theorem C102_suplat_stops : forall spg wy psize std h dump load ls cbrt gen3 gen2 cwd rd suffix tmp argv fs ds evs f,
  asks "suplat" t_suplat fs ds argv evs f -> (forall u a, from_file load cbrt (Some f) None fs = Ok u -> ~ suplat_settings psize gen3 gen2 u evs a) -> untouched fs ds (runaba spg wy psize std h dump load ls cbrt gen3 gen2 cwd rd suffix tmp argv fs ds).
Proof. exact suplat_stops. Qed.
Print Assumptions C102_suplat_stops.
(** The ternary commands read a document of their own. *)
Theorem C102_ocutenter : forall spg wy psize std h dump load ls cbrt gen3 gen2 cwd rd suffix tmp argv fs ds evs f t d a n1 n2,
  asks "ocutenter" t_ocutenter fs ds argv evs f -> fs f = Some t -> ls t = Ok d ->
  ternary_settings d evs a -> switch evs "mpr" true (t_mpr a) -> couple evs "nspeckle" whole (Some (n1, n2)) ->
  runaba spg wy psize std h dump load ls cbrt gen3 gen2 cwd rd suffix tmp argv fs ds = Called (tenter_run spg wy psize std h dump a n1 n2 cwd rd tmp fs ds).
Proof. exact ocutenter_runs. Qed.
Print Assumptions C102_ocutenter.
Theorem C102_ocutenter_stops : forall spg wy psize std h dump load ls cbrt gen3 gen2 cwd rd suffix tmp argv fs ds evs f,
  asks "ocutenter" t_ocutenter fs ds argv evs f -> (forall t d a n1 n2, fs f = Some t -> ls t = Ok d -> switch evs "mpr" true (t_mpr a) -> couple evs "nspeckle" whole (Some (n1, n2)) -> ~ ternary_settings d evs a) -> untouched fs ds (runaba spg wy psize std h dump load ls cbrt gen3 gen2 cwd rd suffix tmp argv fs ds).
Proof. exact ocutenter_stops. Qed.
Print Assumptions C102_ocutenter_stops.
Theorem C102_ocumakert : forall spg wy psize std h dump load ls cbrt gen3 gen2 cwd rd suffix tmp argv fs ds evs f t d a,
  asks "ocumakert" t_ocumakert fs ds argv evs f -> fs f = Some t -> ls t = Ok d -> ternary_settings d evs a -> t_mpr a = true ->
  runaba spg wy psize std h dump load ls cbrt gen3 gen2 cwd rd suffix tmp argv fs ds = Called (makert_run spg wy psize std h dump a cwd rd tmp fs ds).
Proof. exact ocumakert_runs. Qed.
Print Assumptions C102_ocumakert.
Theorem C102_ocumakert_stops : forall spg wy psize std h dump load ls cbrt gen3 gen2 cwd rd suffix tmp argv fs ds evs f,
  asks "ocumakert" t_ocumakert fs ds argv evs f -> (forall t d a, fs f = Some t -> ls t = Ok d -> t_mpr a = true -> ~ ternary_settings d evs a) -> untouched fs ds (runaba spg wy psize std h dump load ls cbrt gen3 gen2 cwd rd suffix tmp argv fs ds).
Proof. exact ocumakert_stops. Qed.
Print Assumptions C102_ocumakert_stops.

(** ** runati: what the user gets *)
Theorem C102_supcell : forall std dump load cbrt fuel rnd argv fs ds evs f u a b c m,
  asks "supcell" t_supcell fs ds argv evs f -> from_file load cbrt (Some f) None fs = Ok u -> triple evs "scale" whole (Some (a, b, c)) -> destination evs m ->
  positions u <> [] -> length (positions u) = length (numbers u) -> Forall supported (numbers u) -> (0 < a)%Z -> (0 < b)%Z -> (0 < c)%Z -> (a * b * c < 100000)%Z ->
  exists g r, runati std dump load cbrt fuel rnd argv fs ds = Called (Some (Ok r)) /\ delivered dump (notice f) f "_SUPC" m g fs r /\
    lattice g = V3 (vscale (Zc a) (vx (lattice u))) (vscale (Zc b) (vy (lattice u))) (vscale (Zc c) (vz (lattice u))) /\
    Z.of_nat (length (positions g)) = (a * b * c * Z.of_nat (length (positions u)))%Z /\
    forall z v, crystal_atom (lattice g) (positions g) (numbers g) z v <-> crystal_atom (lattice u) (positions u) (numbers u) z v.
Proof.
  intros std dump load cbrt fuel rnd argv fs ds evs f u a b c m A R T D P L S Ha Hb Hc Hl.
  destruct (C76_supcell dump u f a b c m fs P L S Ha Hb Hc Hl (destination_known D)) as (g & r & E & DE & LA & _ & N & SA). exists g, r.
  rewrite (@supcell_runs std dump load cbrt fuel rnd argv fs ds evs f u a b c m A R T D), E. auto.
Qed.
Print Assumptions C102_supcell.
Theorem C102_supcell_stops : forall std dump load cbrt fuel rnd argv fs ds evs f,
  asks "supcell" t_supcell fs ds argv evs f -> (forall x, ~ triple evs "scale" whole (Some x)) ->
  runati std dump load cbrt fuel rnd argv fs ds = Usage \/ exists e, runati std dump load cbrt fuel rnd argv fs ds = Called (Some (Raise e)).
Proof. exact supcell_stops. Qed.
Print Assumptions C102_supcell_stops.
Theorem C102_pcell : forall std dump load cbrt fuel rnd argv fs ds evs f u m,
  asks "pcell" t_pcell fs ds argv evs f -> from_file load cbrt (Some f) None fs = Ok u -> destination evs m ->
  Forall supported (numbers u) -> standardized (cell_of u) (std (cell_of u)) ->
  exists g r, runati std dump load cbrt fuel rnd argv fs ds = Called (Some (Ok r)) /\
    delivered dump (match m with None => "" | Some _ => notice f end) f "_PRIMC" m g fs r /\
    same_up_to_motion (cell_of u) (cell_of g) /\ smallest (cell_of g).
Proof.
  intros std dump load cbrt fuel rnd argv fs ds evs f u m A R D S ST.
  destruct (C76_pcell_same_crystal std dump u f m fs (destination_known D) S ST) as (g & r & E & H). exists g, r.
  rewrite (@pcell_runs std dump load cbrt fuel rnd argv fs ds evs f u m A R D), E. auto.
Qed.
Print Assumptions C102_pcell.
Theorem C102_perturb : forall std dump load cbrt fuel rnd argv fs ds evs f u r us,
  asks "perturb" t_perturb fs ds argv evs f -> from_file load cbrt (Some f) None fs = Ok u -> single evs "radius" number 0%Qc r ->
  positions u <> [] -> length (positions u) = length (numbers u) -> Forall supported (numbers u) -> volume (lattice u) <> 0%Qc ->
  without (fun d : vec Qc * Qc => snd d = 0%Qc) rnd us -> length (positions u) <= length us ->
  exists new g x, shaken u r us new /\ lattice g = lattice u /\ Permutation (atoms g) new /\
    runati std dump load cbrt fuel rnd argv fs ds = Called (Some (Ok x)) /\ delivered dump (notice f) f "_PURB" (Some "vasp") g fs x.
Proof.
  intros std dump load cbrt fuel rnd argv fs ds evs f u r us A R RA P L S V W LU.
  destruct (C76_perturb dump u f r rnd us fs P L S V W LU) as (new & g & SH & LA & _ & PE & x & E & DE). exists new, g, x.
  rewrite (@perturb_runs std dump load cbrt fuel rnd argv fs ds evs f u r A R RA), E. auto.
Qed.
Print Assumptions C102_perturb.
Theorem C102_atclear : forall std dump load cbrt fuel rnd argv fs ds evs f u cen r ele refined s1 s2,
  asks "atclear" t_atclear fs ds argv evs f -> from_file load cbrt (Some f) None fs = Ok u ->
  required evs "cenele" text cen -> single evs "radius" number 0%Qc r -> required evs "ele" text ele -> switch evs "refined" true refined ->
  positions u <> [] -> length (positions u) = length (numbers u) -> Forall supported (numbers u) -> is_element s1 cen -> is_element s2 ele -> length (positions u) < fuel ->
  exists rest, cleared u s1 r s2 rest /\
    (rest = [] -> runati std dump load cbrt fuel rnd argv fs ds = Called (Some (Raise ValueError))) /\
    (rest <> [] -> exists g, lattice g = lattice u /\ length (positions g) = length (numbers g) /\ Permutation (atoms g) rest /\
       exists o, runati std dump load cbrt fuel rnd argv fs ds = Called (Some o) /\
       forall x, o = Ok x <-> exists g', written_cell (get_refined_pcell std) refined g g' /\ delivered dump (notice f) f "_ACLR" (Some "vasp") g' fs x).
Proof.
  intros std dump load cbrt fuel rnd argv fs ds evs f u cen r ele refined s1 s2 A R O1 O2 O3 O4 P L S E1 E2 FU.
  pose proof (@atclear_runs std dump load cbrt fuel rnd argv fs ds evs f u cen r ele refined A R O1 O2 O3 O4) as E.
  destruct (Specie_new_total E1) as (p1 & N1 & Z1). destruct (Specie_new_total E2) as (p2 & N2 & Z2). subst s1 s2.
  destruct (C76_atclear std dump u f cen r ele refined p1 p2 fuel fs P L S N1 N2 FU) as (rest & CL & H1 & H2). exists rest. split; [exact CL|]. rewrite E. split.
  - intros X. now rewrite (H1 X).
  - intros X. destruct (H2 X) as (g & G1 & G2 & G3 & o & EO & H). exists g. repeat (split; [assumption|]). exists o. now rewrite EO.
Qed.
Print Assumptions C102_atclear.
(** A file that cannot be read; a value that cannot be. *)
Theorem C102_unreadable : forall std dump load cbrt fuel rnd name tb argv fs ds evs f e, In (name, tb) runati_commands -> asks name tb fs ds argv evs f ->
  from_file load cbrt (Some f) None fs = Raise e ->
  runati std dump load cbrt fuel rnd argv fs ds = Usage \/ runati std dump load cbrt fuel rnd argv fs ds = Called (Some (Raise e)).
Proof. exact ati_unreadable. Qed.
Print Assumptions C102_unreadable.
Theorem C102_complains : forall std dump load cbrt fuel rnd name tb argv fs ds evs f, In (name, tb) runati_commands -> asks name tb fs ds argv evs f ->
  (name = "supcell" -> (forall x, ~ triple evs "scale" whole x) \/ forall m, ~ destination evs m) ->
  (name = "pcell" -> forall m, ~ destination evs m) ->
  (name = "perturb" -> forall r, ~ single evs "radius" number 0%Qc r) ->
  (name = "atclear" -> (forall x, ~ required evs "cenele" text x) \/ (forall r, ~ single evs "radius" number 0%Qc r) \/ forall x, ~ required evs "ele" text x) ->
  runati std dump load cbrt fuel rnd argv fs ds = Usage.
Proof. exact ati_complains. Qed.
Print Assumptions C102_complains.

(** ** Examples: lines about the file of C100, in unusual spellings *)
Ltac no_more H := cbn in H; repeat (destruct H as [H|H]; [discriminate H|]); destruct H.
Ltac said ok := eexists; split; [right; reflexivity|]; split; [apply (scan_iff ok); reflexivity|];
  split; [intros b H; no_more H|]; split; [left; intros X; vm_compute in X; discriminate X|].
Ltac unmentioned := left; split; [intros vs H; no_more H|reflexivity].
Ltac named := apply spec_pairs_iff; cbn; tauto.
Ltac last_one l1 l2 := exists l1, l2; split; [reflexivity|intros vs H; no_more H].

Definition e_biter := [Given "element" ["B"]; Pos "B.yaml"; Given "nspeckle" ["2"]; Flag "mpr" false; Given "speckle" ["Zn"]; Given "nspeckle" ["1"]; Given "comment" ["x"]].
Example C102_ocubiter_ex :
  asks "ocubiter" t_ocubiter s_fs (fun _ => false) ["--"; "ocubiter"; "-eB"; "B.yaml"; "-n"; "2"; "-NsZn"; "--number-speckle=1"; "-cx"] e_biter "B.yaml" /\
  from_file c_load (fun q => q) (Some "B.yaml") None s_fs = Ok lop /\ Forall supported (numbers lop) /\
  ocubiter_settings lop e_biter (mkApp lop "x" 5 30 1 None true "vasp" false).
Proof.
  split; [|split; [exact s_read|split; [repeat constructor; unfold supported; cbn; lia|]]].
  - said ok_ocubiter. last_one [Given "element" ["B"]] (skipn 2 e_biter).
  - split; [exists (Some "x"), (Some "B"), (Some "Zn"), []|split].
    + split; [right; exists "x", "x"; split; [last_one (firstn 6 e_biter) (@nil ev)|now split]|].
      split; [right; exists "B", "B"; split; [last_one (@nil ev) (skipn 1 e_biter)|now split]|].
      split; [right; exists "Zn", "Zn"; split; [last_one (firstn 4 e_biter) (skipn 5 e_biter)|now split]|].
      split; [repeat (apply ev_other; [discriminate|]); apply ev_nil|]. split; [reflexivity|]. split; [reflexivity|]. split; [named|]. split; [named|].
      split; [reflexivity|]. split; [unmentioned|unmentioned].
    + right. last_one (firstn 3 e_biter) (skipn 4 e_biter).
    + exists (Some 1%Z). split; [|reflexivity]. right. exists "1", 1%Z. split; [last_one (firstn 5 e_biter) (skipn 6 e_biter)|now split].
Qed.

(** The factor of the line counts before that of the file; the comment is the file's. *)
Definition e_tenter := [Pos "B.yaml"; Given "speckle" ["C"; "N"]; Given "zoom" ["2"]; Given "nspeckle" ["0"; "1"]; Given "element" ["B"]].
Definition lop2 : gcell := match GeneralCell_new (vmap (vscale (Zc 2)) (matZ lopz)) [v0] [5%Z] with Ok g => g | Raise _ => lop end.
Example C102_ocutenter_ex :
  asks "ocutenter" t_ocutenter s_fs (fun _ => false) ["--"; "ocutenter"; "B.yaml"; "--speckle=C"; "N"; "--zoom"; "2"; "-n0"; "1"; "--element=B"] e_tenter "B.yaml" /\
  exists t d, s_fs "B.yaml" = Some t /\ q_ls t = Ok d /\ ternary_settings d e_tenter (mkTapp lop2 "B1" 5 1 "C" "N" None true "vasp" true) /\
    couple e_tenter "nspeckle" whole (Some (0, 1)%Z) /\ switch e_tenter "mpr" true true.
Proof.
  split.
  - said ok_ocutenter. last_one (@nil ev) (skipn 1 e_tenter).
  - do 2 eexists. split; [reflexivity|]. split; [unfold q_ls; rewrite c_load_dump; reflexivity|]. split.
    + exists None, (Some "B"), [], (Some (Zc 2)), (matZ lopz), [v0], [5%Z], (Zc 2). split; [unmentioned|].
      split; [right; exists "B", "B"; split; [last_one (firstn 4 e_tenter) (@nil ev)|now split]|].
      split; [right; exists "2", (Zc 2); split; [last_one (firstn 2 e_tenter) (skipn 3 e_tenter)|split; [vm_compute; reflexivity|reflexivity]]|].
      split; [repeat (apply ev_other; [discriminate|]); apply ev_nil|].
      split; [right; exists "C", "N", "C", "N"; split; [last_one (firstn 1 e_tenter) (skipn 2 e_tenter)|now repeat split]|].
      split; [reflexivity|]. split; [reflexivity|]. split; [reflexivity|]. split; [now apply by_word|]. split; [vm_compute; reflexivity|].
      split; [apply by_doc; reflexivity|]. split; [named|]. split; [reflexivity|]. split; [reflexivity|]. split; unmentioned.
    + split; [|unmentioned]. right. exists "0", "1", 0%Z, 1%Z. split; [last_one (firstn 3 e_tenter) (skipn 4 e_tenter)|now repeat split].
Qed.

Definition e_sup := [Pos "B.yaml"; Given "scale" ["1"; "2"; "3"]].
Example C102_supcell_ex :
  asks "supcell" t_supcell s_fs (fun _ => false) ["--"; "supcell"; "B.yaml"; "-s1"; "2"; "3"] e_sup "B.yaml" /\
  triple e_sup "scale" whole (Some (1, 2, 3)%Z) /\ destination e_sup None /\
  asks "supcell" t_supcell s_fs (fun _ => false) ["--"; "supcell"; "--outmode=vasp"; "B.yaml"] [Given "outmode" ["vasp"]; Pos "B.yaml"] "B.yaml" /\
  (forall x, ~ triple [Given "outmode" ["vasp"]; Pos "B.yaml"] "scale" whole (Some x)).
Proof.
  split; [said ok_supcell; last_one (@nil ev) (skipn 1 e_sup)|].
  split; [right; exists "1", "2", "3", 1%Z, 2%Z, 3%Z; split; [last_one (firstn 1 e_sup) (@nil ev)|now repeat split]|]. split; [left; split; [reflexivity|unmentioned]|].
  split; [said ok_supcell; last_one [Given "outmode" ["vasp"]] (@nil ev)|]. intros x [[_ H]|(u & v & w & p & q & r & (l1 & l2 & H & _) & _)]; [discriminate|].
  destruct l1 as [|? [|? [|]]]; discriminate H.
Qed.
