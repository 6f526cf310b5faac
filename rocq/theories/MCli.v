(** Model of the command-line applications (/repo/ababe/cmdline/apps/*.py) and of the
    commands of /repo/ababe/cmdline/runatilib.py that have no App class.
    What they do to the file system: [files] maps paths to texts, [dirs] says which
    directories exist.  Explicit arguments: the answers of spglib, the hash, the YAML
    library, the current directory (no trailing slash), the random name suffixes and the
    names chosen by [tempfile].  Progress output is not modelled.  The arguments arrive here as
    values; see MOpt.v for the command lines. *)
From Coq Require Import String Ascii.
From Verif Require Import Base BaseQ MElement MGeneralCell MHnf MRestrict MSogen MText MIO MModCell.
Set Implicit Arguments.
Open Scope string_scope.
Open Scope Z_scope.

(** Which directories exist. *)
Definition dirs := string -> bool.
(** [os.makedirs] *)
Definition mkdir (ds : dirs) (d : string) : dirs := fun x => String.eqb x d || ds x.
(** What a run leaves behind: files, directories, the exception that ended it. *)
Record cli_out := mkOut { o_files : files; o_dirs : dirs; o_exn : option exn }.

(** [os.path.join] of a directory and a name *)
Definition slash (a b : string) : string := a ++ "/" ++ b.

Section Cli.
(** spglib *)
Context (spg_ops : gcell -> list symop) (spg_wyckoffs : gcell -> list string)
  (spg_primitive_size : mat Qc * list (vec Qc) * list Z -> nat)
  (spg_standardize : mat Qc * list (vec Qc) * list Z -> mat Qc * list (vec Qc) * list Z).
Context (h : list Z -> Z) (dump : ydoc -> string).

(** scaffold.py:372-374 [is_primitive] *)
Definition is_primitive (c : gcell) : bool :=
  Nat.eqb (spg_primitive_size (spg_cell c)) (List.length (snd (spg_cell c))).
(** scaffold.py:390-402 [get_refined_pcell] *)
Definition get_refined_pcell (c : gcell) : res gcell :=
  let '(lat, pos, nums) := spg_standardize (lattice c, positions c, numbers c) in GeneralCell_new lat pos nums.
(** scaffold.py:404-417 [get_shaped_cell]: the species handed to spglib are the atom indices *)
Definition get_shaped_cell (c : gcell) : res gcell :=
  let n := List.length (numbers c) in
  let '(lat, pos, new_index) := spg_standardize (lattice c, positions c, List.map Z.of_nat (range n)) in
  do nums <- mapM (fun i => py_get (numbers c) i) new_index;
  GeneralCell_new lat pos nums.

(** ** ocumaker and ocubiter *)
(** occupymaker.py:15-51 and occupybiter.py:15-57: the attributes set by [__init__] *)
Record app := mkApp {
  a_cell : gcell;
  a_comment : string;
  a_ele : Z;
  a_speckle : Z;
  a_n : Z;
  a_tr : option (string * Qc);
  a_refined : bool;
  a_outmode : string;
  a_mpr : bool
}.

(** The target element: occupymaker.py:25-28, occupybiter.py:30-33, occupytenter.py:41-44,
    occupymakert.py:41-44 *)
Definition target (numbers : list Z) (element : option string) : res Z :=
  match element with
  | None => get_nth numbers 1
  | Some e => do s <- Specie_new e; Ok (sp_Z s)
  end.
(** [np.where(num == tgt_ele)[0].size] *)
Definition count_target (numbers : list Z) (z : Z) : nat := List.length (List.filter (fun x => Z.eqb x z) numbers).
(** [comment or self.cell.comment] *)
Definition comment_or (c : option string) (cell : gcell) : res string :=
  match c with
  | Some s => if String.eqb s "" then comment cell else Ok s
  | None => comment cell
  end.

(** occupybiter.py:15-57, occupymaker.py:15-51 [__init__] *)
Definition App_new (default_n : nat -> Z) (cell : gcell) (com element speckle : option string) (nspeckle : option Z)
    (trs : list (string * Qc)) (refined : bool) (outmode : string) (mpr : bool) : res app :=
  do com <- comment_or com cell;
  do tgt <- target (numbers cell) element;
  do sp <- Specie_new (match speckle with None => "G" | Some s => s end);
  do ele <- from_num tgt;
  let n := match nspeckle with None => default_n (count_target (numbers cell) tgt) | Some n => n end in
  Ok (mkApp cell com (sp_Z ele) (sp_Z sp) n (List.hd_error trs) refined outmode mpr).
(** occupybiter.py:44-48 *)
Definition biter_default (size : nat) : Z := Z.of_nat size / 2 + 1.
(** occupymaker.py:39-43 *)
Definition maker_default (size : nat) : Z := Z.of_nat size - 1.
(** occupybiter.py:15-57 *)
Definition biter_new := App_new biter_default.
(** occupymaker has no option [mpr]: structures that are not primitive are always dropped *)
Definition maker_new cell com element speckle nspeckle trs refined outmode :=
  App_new maker_default cell com element speckle nspeckle trs refined outmode true.

(** occupybiter.py:84-93, occupymaker.py:80-83: the condition; [and] does not evaluate the
    restriction for a structure that is not primitive *)
Definition accepted (mpr : bool) (tr : option (Z * Qc)) (c : gcell) : res bool :=
  if mpr && negb (is_primitive c) then Ok false
  else match tr with
       | Some (z, d) => min_distance_satisfied (Some z) d c
       | None => Ok true
       end.

(** occupybiter.py:96-97 *)
Definition final_cell (refined : bool) (c : gcell) : res gcell :=
  if refined then get_refined_pcell c else Ok c.
(** occupybiter.py:101 *)
Definition structure_name (com suffix outmode : string) : string :=
  "STRUCTURE_" ++ com ++ "_" ++ suffix ++ "." ++ outmode.
(** occupybiter.py:95-103, occupymaker.py:85-94 *)
Definition save (a : app) (out_dir suffix : string) (c : gcell) (fs : files) : res files :=
  do c <- final_cell (a_refined a) c;
  do com <- comment c;
  do r <- write_file dump c (Some (slash out_dir (structure_name com suffix (a_outmode a)))) None fs;
  Ok (fst r).

(** The loop over the generated structures.  [k] counts the suffixes drawn so far. *)
Fixpoint emit A (acc : A -> res bool) (sv : nat -> A -> files -> res files)
    (cells : list A) (k : nat) (fs : files) : nat * files * option exn :=
  match cells with
  | [] => (k, fs, None)
  | c :: rest =>
      match acc c with
      | Raise e => (k, fs, Some e)
      | Ok false => emit acc sv rest k fs
      | Ok true =>
          match sv k c fs with
          | Raise e => (k, fs, Some e)
          | Ok fs' => emit acc sv rest (S k) fs'
          end
      end
  end.
(** ... over one generator, over several generators *)
Definition emit_trace acc sv (t : trace gcell) (k : nat) (fs : files) : nat * files * option exn :=
  match emit acc sv (items t) k fs with
  | (k', fs', None) => (k', fs', stop t)
  | r => r
  end.
(** occupymaker.py:77-94: the generators one after the other *)
Fixpoint emit_traces acc sv (ts : list (trace gcell)) (k : nat) (fs : files) : nat * files * option exn :=
  match ts with
  | [] => (k, fs, None)
  | t :: rest =>
      match emit_trace acc sv t k fs with
      | (k', fs', None) => emit_traces acc sv rest k' fs'
      | r => r
      end
  end.

(** occupybiter.py:59-81, occupymaker.py:53-75: directory, generator, restriction.
    [shutil] is not imported: an existing directory is a NameError. *)
Definition structures_dir (cwd com rd : string) : string := slash cwd ("STRUCTURES_" ++ com ++ "_" ++ rd).
(** occupybiter.py:79-81, occupymaker.py:73-75, occupytenter.py:86-88 *)
Definition restriction_of (tr : option (string * Qc)) : res (option (Z * Qc)) :=
  match tr with
  | None => Ok None
  | Some (s, d) => do sp <- Specie_new s; Ok (Some (sp_Z sp, d))
  end.
(** sogen.py:33-40 with spglib as argument *)
Definition make_occ (c : gcell) : res occ := OccupyGenerator_new (spg_ops c) (spg_wyckoffs c) c.
(** occupybiter.py:59-103, occupymaker.py:53-94 *)
Definition run_app (a : app) (gens : occ -> list (trace gcell)) (cwd rd : string) (suffix : nat -> string)
    (fs : files) (ds : dirs) : cli_out :=
  let out_dir := structures_dir cwd (a_comment a) rd in
  if ds out_dir then mkOut fs ds (Some NameError)
  else
    let ds' := mkdir ds out_dir in
    match make_occ (a_cell a) with
    | Raise e => mkOut fs ds' (Some e)
    | Ok o =>
        match restriction_of (a_tr a) with
        | Raise e => mkOut fs ds' (Some e)
        | Ok tr =>
            let '(_, fs', e) := emit_traces (accepted (a_mpr a) tr) (fun k => save a out_dir (suffix k)) (gens o) 0 fs in
            mkOut fs' ds' e
        end
    end.
(** occupybiter.py:59-103 [run] *)
Definition biter_run (a : app) := run_app a (fun o => [gen_nodup_of_ele h o (a_ele a) (a_n a) (a_speckle a)]).
(** occupymaker.py:53-94 [run]; the nested generators are consumed one after the other
    (see C24 for the tee) *)
Definition maker_run (a : app) := run_app a (fun o => all_speckle_gen_of_ele h o (a_n a) (a_ele a) (a_speckle a)).

(** ** ocutenter and ocumakert *)
(** occupytenter.py:15-62, occupymakert.py:15-59: attributes; [settings] is the loaded YAML document, of which
    the lattice, positions and numbers are used; zoom and comment already defaulted;
    occupymakert has no option [mpr]: it is true *)
Record tapp := mkTapp {
  t_cell : gcell;
  t_comment : string;
  t_ele : Z;
  t_size : nat;
  t_s1 : string; t_s2 : string;
  t_tr : option (string * Qc);
  t_refined : bool;
  t_outmode : string;
  t_mpr : bool
}.
(** occupytenter.py:15-62, occupymakert.py:15-59 [__init__] *)
Definition Tapp_new (lat : mat Qc) (pos : list (vec Qc)) (nums : list Z) (zoom : Qc) (com : string) (element : option string)
    (s1 s2 : string) (trs : list (string * Qc)) (refined : bool) (outmode : string) (mpr : bool) : res tapp :=
  do cell <- GeneralCell_new (vmap (vmap (fun x => x * zoom)%Qc) lat) pos nums;
  do tgt <- target nums element;
  do ele <- from_num tgt;
  Ok (mkTapp cell com (sp_Z ele) (count_target nums tgt) s1 s2 (List.hd_error trs) refined outmode mpr).

(** stru/io.py:12-61: like [yaml_doc] but nothing is rounded *)
Definition legacy_yaml_doc (g : gcell) : res ydoc :=
  do names <- mapM to_name (numbers g);
  Ok (mkY (comment_of (ordered_atoms names)) (lattice g) (positions g) (numbers g) 1%Qc).
(** stru/io.py:64-131 [VaspPOSCAR] has the same statements as [VaspOutput] *)
Definition legacy_render (outmode : string) (g : gcell) : res string :=
  if String.eqb outmode "vasp" then do v <- VaspOutput_new g 1; Ok (get_string v true)
  else do d <- legacy_yaml_doc g; Ok (dump d).

(** occupytenter.py:91-98: prefix with the three counts, extension *)
Definition ternary_prefix (outmode : string) (n0 n1 n2 : Z) : string :=
  (if String.eqb outmode "vasp" then "POSCAR_A" else "STRUCTURE_A")
  ++ str_int n0 ++ "B" ++ str_int n1 ++ "C" ++ str_int n2 ++ "_".
(** occupytenter.py:94, 98 *)
Definition ternary_ext (outmode : string) : string := if String.eqb outmode "vasp" then ".vasp" else ".yaml".

(** occupytenter.py:112-119; [tmp fs prefix ext] is the name chosen by [tempfile] *)
Definition tsave (a : tapp) (out_dir : string) (tmp : files -> string -> string -> string) (n0 n1 n2 : Z) (c : gcell) (fs : files) : res files :=
  do c <- final_cell (t_refined a) c;
  do text <- legacy_render (t_outmode a) c;
  let name := tmp fs (slash out_dir (ternary_prefix (t_outmode a) n0 n1 n2)) (ternary_ext (t_outmode a)) in
  Ok (put fs name text).

(** occupytenter.py:64-119, occupymakert.py:61-114: [comps] are the pairs (n1, n2);
    [gen] fails when a species is unknown *)
Fixpoint emit_comps acc (sv : Z -> Z -> gcell -> files -> res files) (gen : Z -> Z -> res (trace gcell))
    (comps : list (Z * Z)) (fs : files) : files * option exn :=
  match comps with
  | [] => (fs, None)
  | (n1, n2) :: rest =>
      match gen n1 n2 with
      | Raise e => (fs, Some e)
      | Ok t =>
          match emit_trace acc (fun _ => sv n1 n2) t 0 fs with
          | (_, fs', None) => emit_comps acc sv gen rest fs'
          | (_, fs', Some e) => (fs', Some e)
          end
      end
  end.
(** occupytenter.py:83-84 *)
Definition ternary_gen (a : tapp) (o : occ) (n1 n2 : Z) : res (trace gcell) :=
  do sp1 <- Specie_new (t_s1 a);
  do sp2 <- Specie_new (t_s2 a);
  Ok (gen_nodup_trinary_alloy h o (sp_Z sp1) n1 (sp_Z sp2) n2).
(** [early]: occupytenter builds its generator before the restriction, occupymakert after *)
Definition run_ternary (early : bool) (a : tapp) (comps : list (Z * Z)) (cwd rd : string) (tmp : files -> string -> string -> string)
    (fs : files) (ds : dirs) : cli_out :=
  let out_dir := structures_dir cwd (t_comment a) rd in
  if ds out_dir then mkOut fs ds (Some NameError)
  else
    let ds' := mkdir ds out_dir in
    match (do o <- make_occ (t_cell a);
           do _ <- (if early then do _ <- Specie_new (t_s1 a); do _ <- Specie_new (t_s2 a); Ok tt else Ok tt);
           do tr <- restriction_of (t_tr a); Ok (o, tr)) with
    | Raise e => mkOut fs ds' (Some e)
    | Ok (o, tr) =>
        let '(fs', e) := emit_comps (accepted (t_mpr a) tr)
          (fun n1 n2 => tsave a out_dir tmp (Z.of_nat (t_size a) - n1 - n2) n1 n2)
          (ternary_gen a o) comps fs in
        mkOut fs' ds' e
    end.
(** occupytenter.py *)
Definition tenter_run (a : tapp) (n1 n2 : Z) := run_ternary true a [(n1, n2)].
(** occupymakert.py:95-96: [for n1 in range(1, n - 1): for n2 in range(1, n - n1)] *)
Definition zrange2 (a b : Z) : list Z := List.map (fun i => a + Z.of_nat i) (seq 0 (Z.to_nat (b - a))).
(** occupymakert.py:95-96 *)
Definition makert_comps (n : Z) : list (Z * Z) :=
  List.flat_map (fun n1 => List.map (fun n2 => (n1, n2)) (zrange2 1 (n - n1))) (zrange2 1 (n - 1)).
(** occupymakert.py:61-114 [run] *)
Definition makert_run (a : tapp) := run_ternary false a (makert_comps (Z.of_nat (t_size a))).

(** ** suplat *)
(** [shutil.rmtree] *)
Definition rmtree (d : string) (fs : files) : files := fun p => if String.prefix (d ++ "/") p then None else fs p.
(** superlattice.py:12-30; [hnfs] is [LatticeGen.hnfs_from_n(self.ucell, self.v)] *)
Record sapp := mkSapp { s_hnfs : list slcell; s_comment : string; s_v : Z; s_outmode : string }.
(** superlattice.py:12-30 [__init__] *)
Definition suplat_new (gen : gcell -> Z -> res (list slcell)) (ucell : gcell) (com : option string) (v : Z) (outmode : string) : res sapp :=
  if is_primitive ucell then
    do hnfs <- gen ucell v;
    Ok (mkSapp hnfs (match com with Some s => if String.eqb s "" then "default" else s | None => "default" end) v outmode)
  else Raise ValueError.
(** superlattice.py:54 *)
Definition suplat_name (v : Z) (suffix outmode : string) : string := "SUPLAT_" ++ str_int v ++ "_" ++ suffix ++ "." ++ outmode.
(** superlattice.py:49-56: one superlattice *)
Definition suplat_save (a : sapp) (out_dir suffix : string) (c : slcell) (fs : files) : res files :=
  do sl_origin <- to_general_cell c;
  do sl <- get_shaped_cell sl_origin;
  do r <- write_file dump sl (Some (slash out_dir (suplat_name (s_v a) suffix (s_outmode a)))) None fs;
  Ok (fst r).
(** superlattice.py:32-56 [run]: an existing directory is emptied first *)
Definition suplat_run (a : sapp) (cwd : string) (suffix : nat -> string) (fs : files) (ds : dirs) : cli_out :=
  let d := slash cwd ("SUPLAT_" ++ s_comment a) in
  let fs0 := if ds d then rmtree d fs else fs in
  let '(_, fs', e) := emit (fun _ => Ok true) (fun k => suplat_save a d (suffix k)) (s_hnfs a) 0 fs0 in
  mkOut fs' (mkdir ds d) e.

(** ** supcell, pcell: runatilib.py:47-67, 72-88 *)
(** [os.path.basename] *)
Fixpoint basename_from (cur s : string) : string :=
  match s with
  | EmptyString => cur
  | String c r => if Ascii.eqb c "/" then basename_from EmptyString r else basename_from (snoc cur c) r
  end.
(** [os.path.basename] (runatilib.py:53, 76) *)
Definition basename (s : string) : string := basename_from EmptyString s.
(** [s.split('.')[0]] *)
Fixpoint before_dot (s : string) : string :=
  match s with
  | EmptyString => EmptyString
  | String c r => if Ascii.eqb c "." then EmptyString else String c (before_dot r)
  end.
(** runatilib.py:66, 87; atomclarifier.py:35; atomperturb.py:29 *)
Definition out_name (infile tag outmode : string) : string := before_dot (basename infile) ++ tag ++ "." ++ outmode.
(** runatilib.py:62, 86; atomclarifier.py:37; atomperturb.py:31: the line printed before the
    result *)
Definition processing (infile : string) : string := "PROCESSING: " ++ infile ++ String newline EmptyString.
Definition announce (said : string) (r : res (files * string)) : res (files * string) :=
  do x <- r; Ok (fst x, said ++ snd x).
(** Writing the result: to the terminal or to a file in the current directory.
    runatilib.py:63-67, 83-88 *)
Definition deliver (said infile tag : string) (outmode : option string) (c : gcell) (fs : files) : res (files * string) :=
  announce said match outmode with
  | None => write_file dump c None (Some "vasp") fs
  | Some m => write_file dump c (Some (out_name infile tag m)) None fs
  end.
(** runatilib.py:47-67 *)
Definition cmd_supcell (cell : gcell) (infile : string) (scale : vec Z) (outmode : option string) (fs : files) : res (files * string) :=
  do sc <- MHnf.supercell cell (V3 (V3 (vx scale) 0 0) (V3 0 (vy scale) 0) (V3 0 0 (vz scale)));
  deliver (processing infile) infile "_SUPC" outmode sc fs.
(** runatilib.py:72-88 *)
Definition cmd_pcell (cell : gcell) (infile : string) (outmode : option string) (fs : files) : res (files * string) :=
  do p <- get_refined_pcell cell;
  deliver (match outmode with None => "" | Some _ => processing infile end) infile "_PRIMC" outmode p fs.
(** ** atclear, perturb *)
(** Output of the fuelled loops: None means that the fuel (or the given random numbers) ran
    out.  The heap starts empty. *)
Definition empty_heap : heap := mkHeap [] [] [].
(** atomclarifier.py:14-38 *)
Definition cmd_atclear (fuel : nat) (cell : gcell) (infile cenele : string) (radius : Qc) (ele : string) (refined : bool)
    (fs : files) : option (res (files * string)) :=
  match from_gcell cell empty_heap with
  | (_, Raise e) => Some (Raise e)
  | (hp, Ok c) =>
      match (do s1 <- Specie_new cenele; do s2 <- Specie_new ele; Ok (s1, s2)) with
      | Raise e => Some (Raise e)
      | Ok (s1, s2) =>
          match verbose_clarify fuel s1 radius (Some s2) (AModified c) hp with
          | None => None
          | Some (_, Raise e) => Some (Raise e)
          | Some (hp', Ok c') =>
              Some (do g <- to_gcell hp' c';
                    do g' <- final_cell refined g;
                    announce (processing infile) (write_file dump g' (Some (out_name infile "_ACLR" "vasp")) None fs))
          end
      end
  end.
(** atomperturb.py:13-32 *)
Definition cmd_perturb (cell : gcell) (infile : string) (radius : Qc) (rnd : list (vec Qc * Qc)) (fs : files)
    : option (res (files * string)) :=
  match from_gcell cell empty_heap with
  | (_, Raise e) => Some (Raise e)
  | (hp, Ok c) =>
      match perturb c radius rnd hp with
      | None => None
      | Some (_, Raise e) => Some (Raise e)
      | Some (hp', Ok _) =>
          Some (do g <- to_gcell hp' c;
                announce (processing infile) (write_file dump g (Some (out_name infile "_PURB" "vasp")) None fs))
      end
  end.
End Cli.
