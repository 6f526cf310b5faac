(** Property C108: the files that ocubiter and ocumaker leave behind. *)
From Coq Require Import String Ascii Sorted.
From Verif Require Import Base BaseQ SElement MElement LElement MGeneralCell SGeneralCell MRestrict MSogen LSymDec MText MIO SIO LIO6
  SSubst SSym SOcc SEnum LMisc LSogen SCli MCli SCliApp LCli LCli2 LCli3 SOrder LOrder SExact SListing LListing PCli.
Open Scope list_scope.
Open Scope nat_scope.
Notation length := List.length.

(** ocubiter: the wanted ones among the lexicographically first sets of their classes, in
    lexicographic order, the k-th under the k-th suffix, with their exact text. *)
Theorem C108_ocubiter : forall ops wy psize std h dump a n cwd rd suffix fs ds o tr,
  let D := k_fold (numbers (a_cell a)) (site_holds (numbers (a_cell a)) (a_ele a)) n (a_speckle a) in
  ds (cwd ++ "/STRUCTURES_" ++ a_comment a ++ "_" ++ rd)%string = false ->
  OccupyGenerator_new (ops (a_cell a)) (wy (a_cell a)) (a_cell a) = Ok o -> restriction_of (a_tr a) = Ok tr -> a_n a = Z.of_nat n ->
  from_constructor (a_cell a) -> perm_group (length (numbers (a_cell a))) (sym_perm o) -> preserves (sym_perm o) (numbers (a_cell a)) ->
  collision_free h D -> class_inputs psize std a tr o D ->
  left_behind std dump a (cwd ++ "/STRUCTURES_" ++ a_comment a ++ "_" ++ rd) suffix fs
    (biter_run ops wy psize std h dump a cwd rd suffix fs ds)
    (listing (a_cell a) (a_speckle a) (fun S => leader (sym_perm o) (numbers (a_cell a)) (site_holds (numbers (a_cell a)) (a_ele a)) n (a_speckle a) S /\
       wanted_set psize (a_mpr a) tr (a_cell a) (a_speckle a) S)).
Proof. intros ops wy psize std h dump a n cwd rd suffix fs ds o tr. exact (@biter_left ops wy psize std h dump a n cwd rd suffix fs ds o tr). Qed.
Print Assumptions C108_ocubiter.

(** ocumaker: first the structures with one substituted atom, then those with two, ... *)
Theorem C108_ocumaker : forall ops wy psize std h dump a cwd rd suffix fs ds o tr,
  let P := fun i => site_holds (numbers (a_cell a)) (a_ele a) i /\ site_not (numbers (a_cell a)) (a_speckle a) i in
  let n := Z.to_nat (a_n a - Z.of_nat (count_occ Z.eq_dec (numbers (a_cell a)) (a_speckle a))) in
  ds (cwd ++ "/STRUCTURES_" ++ a_comment a ++ "_" ++ rd)%string = false ->
  OccupyGenerator_new (ops (a_cell a)) (wy (a_cell a)) (a_cell a) = Ok o -> restriction_of (a_tr a) = Ok tr ->
  from_constructor (a_cell a) -> perm_group (length (numbers (a_cell a))) (sym_perm o) -> preserves (sym_perm o) (numbers (a_cell a)) ->
  (forall k, k <= n -> collision_free h (k_fold (numbers (a_cell a)) P k (a_speckle a))) ->
  class_inputs psize std a tr o (maker_set a) ->
  left_behind std dump a (cwd ++ "/STRUCTURES_" ++ a_comment a ++ "_" ++ rd) suffix fs
    (maker_run ops wy psize std h dump a cwd rd suffix fs ds)
    (listings (a_cell a) (a_speckle a) (fun k S => leader (sym_perm o) (numbers (a_cell a)) P k (a_speckle a) S /\
       wanted_set psize (a_mpr a) tr (a_cell a) (a_speckle a) S) n).
Proof. intros ops wy psize std h dump a cwd rd suffix fs ds o tr. exact (@maker_left ops wy psize std h dump a cwd rd suffix fs ds o tr). Qed.
Print Assumptions C108_ocumaker.

(** No freedom is left: every path holds the same after any two runs so described. *)
Theorem C108_determined : forall std dump a dir suffix fs r r' c0 v Q,
  left_behind std dump a dir suffix fs r (listing c0 v Q) -> left_behind std dump a dir suffix fs r' (listing c0 v Q) ->
  forall p, o_files r p = o_files r' p.
Proof. intros std dump a dir suffix fs r r' c0 v Q. apply left_fun. intros l l'. exact (@listing_fun c0 v Q l l'). Qed.
Print Assumptions C108_determined.
Theorem C108_determined_levels : forall std dump a dir suffix fs r r' c0 v Q n,
  left_behind std dump a dir suffix fs r (listings c0 v Q n) -> left_behind std dump a dir suffix fs r' (listings c0 v Q n) ->
  forall p, o_files r p = o_files r' p.
Proof. intros std dump a dir suffix fs r r' c0 v Q n. apply left_fun. intros l l'. exact (@listings_fun c0 v Q n l l'). Qed.
Print Assumptions C108_determined_levels.

(** The square with two carbon atoms: three files, {0,1}, {0,2}, {0,3} in this order. *)
Example C108_ex : left_behind x_std x_dump x_app "/w/STRUCTURES_B4_ABCDE" x_suffix (fun _ => None)
    (biter_run x_ops x_wy x_psize x_std poly x_dump x_app "/w" "ABCDE" x_suffix (fun _ => None) (fun _ => false))
    (listing sq_cell 6 (fun S => leader (sym_perm sq_occ) [5;5;5;5]%Z (site_holds [5;5;5;5]%Z 5) 2 6 S /\ wanted_set x_psize true None sq_cell 6 S)).
Proof.
  assert (CF : collision_free poly (k_fold (numbers (a_cell x_app)) (site_holds (numbers (a_cell x_app)) 5) 2 6))
    by (apply kfold_poly; repeat constructor; lia).
  exact (C108_ocubiter x_ops x_wy x_psize x_std poly x_dump x_app 2 "/w" "ABCDE" x_suffix (fun _ => None) (fun _ => false) sq_occ None
      eq_refl sq_occ_new eq_refl eq_refl sq_fc sq_group sq_preserves CF (x_inputs _ _)).
Qed.
Example C108_ex_files :
  let r := biter_run x_ops x_wy x_psize x_std poly x_dump x_app "/w" "ABCDE" x_suffix (fun _ => None) (fun _ => false) in
  map (o_files r) ["/w/STRUCTURES_B4_ABCDE/STRUCTURE_B2C2_AAAA.vasp"; "/w/STRUCTURES_B4_ABCDE/STRUCTURE_B2C2_AAAB.vasp"; "/w/STRUCTURES_B4_ABCDE/STRUCTURE_B2C2_9ZZZ.vasp"; "/w/STRUCTURES_B4_ABCDE/STRUCTURE_B2C2_AAAC.vasp"]%string =
  map (fun x => match x with [] => None | _ => match render x_dump Fvasp (decorated sq_cell x) with Ok t => Some t | Raise _ => None end end) [[6;6;5;5]; [6;5;6;5]; [6;5;5;6]; []]%Z.
Proof. vm_compute. reflexivity. Qed.
