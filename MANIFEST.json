{
 "claims": [
  {
   "property": "C01",
   "status": "proved",
   "theorems": [
    "C01_to_name_periodic_table",
    "C01_roundtrip",
    "C01_from_num_total",
    "C01_symbol_domain",
    "C01_unknown_symbol"
   ],
   "note": ""
  },
  {
   "property": "C02",
   "status": "proved",
   "theorems": [
    "C02_equality_is_equivalence",
    "C02_equal_iff_same_symbol",
    "C02_one_vacancy"
   ],
   "note": ""
  },
  {
   "property": "C03",
   "status": "proved",
   "theorems": [
    "C03_every_placement_once"
   ],
   "note": ""
  },
  {
   "property": "C04",
   "status": "proved",
   "theorems": [
    "C04_array_grid_array",
    "C04_grid_array_grid",
    "C04_unknown_number"
   ],
   "note": ""
  },
  {
   "property": "C05",
   "status": "proved",
   "theorems": [
    "C05_write_one_site"
   ],
   "note": ""
  },
  {
   "property": "C06",
   "status": "proved",
   "theorems": [
    "C06_copy_shares_every_row",
    "C06_refuted"
   ],
   "note": "The wished isolation is violated by the code for every grid: C06_copy_shares_every_row; C06_refuted is the existential witness."
  },
  {
   "property": "C07",
   "status": "proved",
   "theorems": [
    "C07_cell"
   ],
   "note": ""
  },
  {
   "property": "C08",
   "status": "proved",
   "theorems": [
    "C08_constructor_is_stable_sort",
    "C08_atoms_preserved"
   ],
   "note": ""
  },
  {
   "property": "C09",
   "status": "proved",
   "theorems": [
    "C09_rebuilding_is_identity",
    "C09_input_order_irrelevant",
    "C09_integer_shift"
   ],
   "note": ""
  },
  {
   "property": "C10",
   "status": "proved",
   "theorems": [
    "C10_length_mismatch"
   ],
   "note": ""
  },
  {
   "property": "C11",
   "status": "proved",
   "theorems": [
    "C11_setter_effect",
    "C11_consistent_iff_unchanged",
    "C11_constructor_consistent",
    "C11_refuted"
   ],
   "note": "The wished consistency is violated by the code: C11_refuted. Proved: exact effect of the setter and that the views agree iff nothing changes."
  },
  {
   "property": "C12",
   "status": "proved",
   "theorems": [
    "C12_comment_is_formula",
    "C12_formula_unique",
    "C12_order_independent",
    "C12_count_agrees"
   ],
   "note": ""
  },
  {
   "property": "C13",
   "status": "proved",
   "theorems": [
    "C13_permutation_is_geometric",
    "C13_never_fails"
   ],
   "note": ""
  },
  {
   "property": "C14",
   "status": "proved",
   "theorems": [
    "C14_group",
    "C14_exact_space_group",
    "C14_species_preserved"
   ],
   "note": ""
  },
  {
   "property": "C15",
   "status": "proved",
   "theorems": [
    "C15_refuted"
   ],
   "note": "The wished nearest-site rule is violated by the code: C15_refuted gives an exact involution moving every site by less than 0.001 whose permutation swaps two sites half a cell apart. C13 gives the condition under which the permutation is right."
  },
  {
   "property": "C16",
   "status": "proved",
   "theorems": [
    "C16_decides",
    "C16_equivalence"
   ],
   "note": ""
  },
  {
   "property": "C17",
   "status": "proved",
   "theorems": [
    "C17_all_sites",
    "C17_wyckoff",
    "C17_element",
    "C17_count"
   ],
   "note": ""
  },
  {
   "property": "C18",
   "status": "proved",
   "theorems": [
    "C18_no_two_equivalent"
   ],
   "note": ""
  },
  {
   "property": "C19",
   "status": "proved",
   "theorems": [
    "C19_all_sites",
    "C19_wyckoff",
    "C19_element",
    "C19_from_space_group"
   ],
   "note": "Completeness assumes no hash collision among the relevant decorations (hypothesis collision_free); non-duplication (C18) does not."
  },
  {
   "property": "C20",
   "status": "proved",
   "theorems": [
    "C20_ternary"
   ],
   "note": "Completeness assumes no hash collision among the relevant decorations (hypothesis collision_free); non-duplication (C18) does not."
  },
  {
   "property": "C21",
   "status": "proved",
   "theorems": [
    "C21_levels"
   ],
   "note": "Completeness assumes no hash collision among the relevant decorations (hypothesis collision_free); non-duplication (C18) does not."
  },
  {
   "property": "C22",
   "status": "proved",
   "theorems": [
    "C22_levels_wyckoff"
   ],
   "note": "Completeness assumes no hash collision among the relevant decorations (hypothesis collision_free); non-duplication (C18) does not."
  },
  {
   "property": "C23",
   "status": "proved",
   "theorems": [
    "C23_levels_element"
   ],
   "note": "Completeness assumes no hash collision among the relevant decorations (hypothesis collision_free); non-duplication (C18) does not."
  },
  {
   "property": "C24",
   "status": "proved",
   "theorems": [
    "C24_all_sites",
    "C24_wyckoff",
    "C24_element"
   ],
   "note": ""
  },
  {
   "property": "C25",
   "status": "proved",
   "theorems": [
    "C25_levels",
    "C25_levels_wyckoff",
    "C25_levels_element",
    "C25_nodup_element"
   ],
   "note": ""
  },
  {
   "property": "C26",
   "status": "proved",
   "theorems": [
    "C26_bound",
    "C26_not_complete"
   ],
   "note": ""
  },
  {
   "property": "C27",
   "status": "proved",
   "theorems": [
    "C27_refuted",
    "C27_harmless"
   ],
   "note": "The wished independence is violated by the code: C27_refuted; C27_harmless shows assignments to numbers are the only way."
  },
  {
   "property": "C28",
   "status": "proved",
   "theorems": [
    "C28_one_per_class",
    "C28_key_bound"
   ],
   "note": "Sizes up to 990 per direction: beyond, rounding to 5 and then 3 decimals merges sorting keys (C28_key_bound). Operations are assumed to be an exact space group of the grid."
  },
  {
   "property": "C29",
   "status": "proved",
   "theorems": [
    "C29_complete",
    "C29_abbreviated",
    "C29_refuted"
   ],
   "note": "Same size bound 990 per direction. Up to 1000 sites the answer is exact; beyond, C29_abbreviated gives the exact (weaker) meaning and C29_refuted the wrong answer."
  },
  {
   "property": "C30",
   "status": "proved",
   "theorems": [
    "C30_pool",
    "C30_disjunct",
    "C30_neighbours",
    "C30_periodic_refuted"
   ],
   "note": "Exact meaning on the extended box, the guarantee it gives in the infinite crystal (C30_neighbours) and that it gives no more (C30_periodic_refuted)."
  },
  {
   "property": "C31",
   "status": "proved",
   "theorems": [
    "C31_hermite_forms"
   ],
   "note": ""
  },
  {
   "property": "C32",
   "status": "proved",
   "theorems": [
    "C32_every_superlattice_once"
   ],
   "note": ""
  },
  {
   "property": "C33",
   "status": "proved",
   "theorems": [
    "C33_equality_iff_rotation",
    "C33_equivalence_relation",
    "C33_false_equality_refuted"
   ],
   "note": "Exact for index below 2000; the false equalities from 2000 on are C33_false_equality_refuted."
  },
  {
   "property": "C34",
   "status": "proved",
   "theorems": [
    "C34_one_per_class"
   ],
   "note": ""
  },
  {
   "property": "C35",
   "status": "proved",
   "theorems": [
    "C35_plane_forms",
    "C35_plane_classes"
   ],
   "note": ""
  },
  {
   "property": "C36",
   "status": "proved",
   "theorems": [
    "C36_interior_points"
   ],
   "note": ""
  },
  {
   "property": "C37",
   "status": "proved",
   "theorems": [
    "C37_no_repeated_atoms",
    "C37_supercell_same_crystal",
    "C37_superlattice_same_crystal"
   ],
   "note": ""
  },
  {
   "property": "C38",
   "status": "proved",
   "theorems": [
    "C38_nonneg_characterised",
    "C38_copies_refuted"
   ],
   "note": "The wished count is violated by the code: C38_copies_refuted; the outcome on non-negative matrices is characterised exactly."
  },
  {
   "property": "C39",
   "status": "proved",
   "theorems": [
    "C39_exact",
    "C39_no_target"
   ],
   "note": ""
  },
  {
   "property": "C40",
   "status": "proved",
   "theorems": [
    "C40_orthogonal_cells",
    "C40_skewed_refuted",
    "C40_unwrapped_refuted",
    "C40_plane_spacing"
   ],
   "note": "The wished guarantee is violated by the code for skewed cells and unwrapped positions (C40_skewed_refuted, C40_unwrapped_refuted); it holds for orthogonal lattices with wrapped positions (C40_orthogonal_cells), and for every lattice with wrapped positions when the threshold does not exceed the spacing of the lattice planes (C40_plane_spacing)."
  },
  {
   "property": "C41",
   "status": "proved",
   "theorems": [
    "C41_digit_free_symbol",
    "C41_first_digit_run",
    "C41_no_number",
    "C41_refuted"
   ],
   "note": "The wished reading is violated by the code (C41_refuted); exact behaviour: first run of digits."
  },
  {
   "property": "C42",
   "status": "proved",
   "theorems": [
    "C42_list_behaviour",
    "C42_determined",
    "C42_default"
   ],
   "note": "Operations append, insert, pop, extend, item assignment, deletion, remove_site(s), append_site(s) over a heap of shared Site objects; C42_determined: the list specification fixes list and return values. remove_sites ignores negative indices (as enumerate does)."
  },
  {
   "property": "C43",
   "status": "proved",
   "theorems": [
    "C43_round_trip",
    "C43_to_gcell",
    "C43_unknown"
   ],
   "note": "Idealised arithmetic; cells built by GeneralCell with as many numbers as positions."
  },
  {
   "property": "C44",
   "status": "proved",
   "theorems": [
    "C44_copy_equal",
    "C44_original_safe",
    "C44_copy_safe"
   ],
   "note": "Programs of arbitrary statements; hypothesis: no Site of the protected cell is handed to another cell by hand."
  },
  {
   "property": "C45",
   "status": "proved",
   "theorems": [
    "C45_shared_moves",
    "C45_unshared_safe",
    "C45_append_twice"
   ],
   "note": "Exact effect of translate_sites on every occurrence in every cell (C45_shared_moves), frame for unshared cells over whole programs."
  },
  {
   "property": "C46",
   "status": "proved",
   "theorems": [
    "C46_translate",
    "C46_errors",
    "C46_perturb",
    "C46_shared_refuted"
   ],
   "note": "Random vectors with their norms are an oracle; draws of norm 0 are rejected as in the code. Sites must not be shared: C46_shared_refuted."
  },
  {
   "property": "C47",
   "status": "proved",
   "theorems": [
    "C47_sphere"
   ],
   "note": "Distances compared by squares."
  },
  {
   "property": "C48",
   "status": "proved",
   "theorems": [
    "C48_removes",
    "C48_order_irrelevant",
    "C48_idempotent",
    "C48_other_argument"
   ],
   "note": "Distances compared by squares."
  },
  {
   "property": "C49",
   "status": "proved",
   "theorems": [
    "C49_removes",
    "C49_other_argument"
   ],
   "note": "The loop is over the list object bound at the start; fuel larger than the number of sites suffices."
  },
  {
   "property": "C50",
   "status": "proved",
   "theorems": [
    "C50_exact",
    "C50_same_length",
    "C50_refuted"
   ],
   "note": "Violated as claimed: C50_exact is the exact meaning, C50_refuted the counterexamples (broadcasting, ValueError, asymmetry)."
  },
  {
   "property": "C51",
   "status": "proved",
   "theorems": [
    "C51_text_is_poscar",
    "C51_number_of_lines"
   ],
   "note": "Both modes and every integer scale; vacancies dropped; species, counts and blocks related by of_number."
  },
  {
   "property": "C52",
   "status": "proved",
   "theorems": [
    "C52_round_trip",
    "C52_grouping_unique"
   ],
   "note": "Idealised arithmetic (exact rationals, formatting half-to-even); cells with at least one real atom."
  },
  {
   "property": "C53",
   "status": "proved",
   "theorems": [
    "C53_vacancies_only",
    "C53_refuted"
   ],
   "note": "Violated as claimed: ValueError for every cell of vacancies; C53_refuted is the witness."
  },
  {
   "property": "C54",
   "status": "proved",
   "theorems": [
    "C54_mode_line_ignored",
    "C54_refuted"
   ],
   "note": "Violated as claimed: exact independence of the mode line and C54_refuted."
  },
  {
   "property": "C55",
   "status": "proved",
   "theorems": [
    "C55_yaml_round_trip"
   ],
   "note": "The YAML library is an oracle; the round trip is about the document handed to it."
  },
  {
   "property": "C56",
   "status": "proved",
   "theorems": [
    "C56_choice",
    "C56_unrecognised",
    "C56_matching_reader",
    "C56_written_files_are_read_back"
   ],
   "note": "YAML library given by dump/load with load (dump d) = d for the written document."
  },
  {
   "property": "C57",
   "status": "proved",
   "theorems": [
    "C57_history",
    "C57_constructor",
    "C57_any_element",
    "C57_equality"
   ],
   "note": "Raw random numbers are arguments; the inherited MutableSet methods pop, remove, clear, |= and == are included."
  },
  {
   "property": "C58",
   "status": "proved",
   "theorems": [
    "C58_arrangement",
    "C58_self_neighbour_refuted"
   ],
   "note": "The hypothesis on own neighbours is needed at the start only (C58_self_neighbour_refuted); get_neighbors(None) is assumed to raise, as it does in both problems."
  },
  {
   "property": "C59",
   "status": "proved",
   "theorems": [
    "C59_boron_succeeds",
    "C59_hexagonal",
    "C59_one_raises"
   ],
   "note": "Idealised arithmetic; any iteration order of Python sets; fuel >= goal_num suffices. goal_num <= 1 raises."
  },
  {
   "property": "C60",
   "status": "proved",
   "theorems": [
    "C60_neighbours",
    "C60_neighbours_2d",
    "C60_midpoint",
    "C60_refuted"
   ],
   "note": "Exact outcome in every case for delta >= 0; C60_refuted shows where the plain reading fails; C60_midpoint the exact condition on grid sizes."
  },
  {
   "property": "C61",
   "status": "proved",
   "theorems": [
    "C61_group",
    "C61_order",
    "C61_sites"
   ],
   "note": "Exhaustive kernel computation over the finite shipped table (7200 entries, transcribed by script); this is the whole quantifier."
  },
  {
   "property": "C62",
   "status": "proved",
   "theorems": [
    "C62_levels",
    "C62_any_hash",
    "C62_counts",
    "C62_gen_speckle",
    "C62_help",
    "C62_nodup_generator",
    "C62_direct",
    "C62_short_raises"
   ],
   "note": "For every 60-entry initial decoration (not only symmetric ones), n and sp; collision-freeness is assumed on the images of the level's decorations under the table. C62_any_hash needs no hash assumption. C62_counts gives 1, 1, 23, 303 for every collision-free hash. C62_short_raises: arrays shorter than 60 are accepted and raise IndexError in the first level. The consumer is assumed not to modify the yielded arrays."
  },
  {
   "property": "C63",
   "status": "proved",
   "theorems": [
    "C63_history_lemma",
    "C63_children_lemma",
    "C63_entry_lemma",
    "C63_history",
    "C63_children",
    "C63_entry"
   ],
   "note": "Every history of playouts and game moves, every game, policy, dictionary order and square-root function (exact rationals in place of floats). The log of playouts is truthful (C63_entry). Python 2 only for totality: on Python 3 select raises (C64_python3). Numbers are exact rationals; see C93 for integer leaf values on Python 2."
  },
  {
   "property": "C64",
   "status": "proved",
   "theorems": [
    "C64_greedy_lemma",
    "C64_get_move_lemma",
    "C64_update_with_move_lemma",
    "C64_python3_lemma",
    "C64_greedy",
    "C64_get_move",
    "C64_update_with_move",
    "C64_python3"
   ],
   "note": "Python 2: get_move returns an action with the most playouts; ValueError exactly when the root has no children. Python 3: AttributeError for every game and every reachable tree. update_with_move keeps the subtree and its statistics."
  },
  {
   "property": "C65",
   "status": "proved",
   "theorems": [
    "C65_ocubiter_run",
    "C65_ocumaker_run",
    "C65_one_file_each",
    "C65_ocubiter_classes",
    "C65_ocumaker_classes",
    "C65_no_more_files_than_suffixes",
    "C65_losses_unavoidable",
    "C65_format",
    "C65_existing_directory",
    "C65_one_atom",
    "C65_collision_refuted"
   ],
   "note": "Both binary commands: exactly the wanted structures of the stream are written in order, later writes replace earlier ones; distinct suffixes give one file each; with an exact group and a collision-free hash one structure per class. Lost files: bound by the number of suffixes, unavoidable beyond 36^4 structures of one formula, and a concrete run with three structures and one file. click parsing, progress output and random numbers are arguments or not modelled."
  },
  {
   "property": "C66",
   "status": "proved",
   "theorems": [
    "C66_ocutenter_classes",
    "C66_counts_in_names",
    "C66_other_elements_overwritten",
    "C66_refuted"
   ],
   "note": "The property is violated: one file per class of two-fold substitutions of ALL sites; in every cell with an atom of another element some written structure overwrites such a site; concrete witness. tempfile is an oracle that finds an unused name while fewer than N files exist."
  },
  {
   "property": "C67",
   "status": "proved",
   "theorems": [
    "C67_extend_other",
    "C67_extend_self_diverges"
   ],
   "note": "Non-termination: no amount of fuel is enough."
  },
  {
   "property": "C68",
   "status": "proved",
   "theorems": [
    "C68_reading"
   ],
   "note": "Numbers without exponent; the cube root is an oracle assumed exact at the one argument used."
  },
  {
   "property": "C69",
   "status": "proved",
   "theorems": [
    "C69_scale_multiplies",
    "C69_refuted"
   ],
   "note": "Violated by the code: C69_refuted; exact behaviour C69_scale_multiplies."
  },
  {
   "property": "C70",
   "status": "proved",
   "theorems": [
    "C70_fcc_succeeds"
   ],
   "note": "Idealised arithmetic; any iteration order of Python sets."
  },
  {
   "property": "C71",
   "status": "proved",
   "theorems": [
    "C71_sea_array",
    "C71_equality",
    "C71_equality_arrays",
    "C71_from_array_raises",
    "C71_round_trip_refuted"
   ],
   "note": "Violated by the code: C71_from_array_raises, C71_round_trip_refuted."
  },
  {
   "property": "C72",
   "status": "proved",
   "theorems": [
    "C72_table_refuted",
    "C72_renamed",
    "C72_isometry"
   ],
   "note": "The code violates the property: C72_table_refuted for every row but the identity; C72_renamed: up to renaming the sites the table is exactly the bond symmetry group (complete verified search); C72_isometry: those symmetries preserve squared distances up to 0.08."
  },
  {
   "property": "C73",
   "status": "proved",
   "theorems": [
    "C73_bonus",
    "C73_current_refuted"
   ],
   "note": "Exact value of the exploration bonus of every node of every reachable tree; the expected property (bonus reflects the current visit counts) is refuted by a witness."
  },
  {
   "property": "C74",
   "status": "proved",
   "theorems": [
    "C74_ocumakert_classes",
    "C74_too_few"
   ],
   "note": "Same oracle assumptions as C66."
  },
  {
   "property": "C75",
   "status": "proved",
   "theorems": [
    "C75_run",
    "C75_classes",
    "C75_classes_2d",
    "C75_names",
    "C75_not_primitive",
    "C75_collision_refuted"
   ],
   "note": "Any list of superlattices: emptied directory, files in order until an exception. From the unit cell: one file per class of superlattices of the given volume (3-D and planar), holding the superlattice with all atoms up to a rigid motion, none lost if the suffixes differ. spglib's standardize_cell is an argument with the contract `standardizes` (met by `moved`, C77_assumption_met). Equal suffixes lose files: refuted by a concrete run."
  },
  {
   "property": "C76",
   "status": "proved",
   "theorems": [
    "C76_supcell",
    "C76_pcell",
    "C76_pcell_same_crystal",
    "C76_atclear",
    "C76_perturb",
    "C76_name",
    "C76_same_name_refuted"
   ],
   "note": "Result of supcell, pcell, atclear, perturb for every input cell, and the name of the result file. Two inputs whose names agree up to the first dot overwrite each other's result: refuted. Refined output depends on the spglib argument."
  },
  {
   "property": "C77",
   "status": "proved",
   "theorems": [
    "C77_shaped",
    "C77_refined",
    "C77_assumption_met"
   ],
   "note": "Under the stated contract on spglib's answer (same crystal up to a rigid motion, smallest translation lattice, no repeated atoms); exact rational coordinates."
  },
  {
   "property": "C78",
   "status": "proved",
   "theorems": [
    "C78_supcell_file",
    "C78_pcell_printed",
    "C78_supcell_printed",
    "C78_refuted",
    "C78_pcell_file",
    "C78_perturb_file",
    "C78_atclear_file"
   ],
   "note": "Read-back of the files of supcell, pcell, perturb and atclear and of pcell's terminal output proved; the terminal output of supcell is proved never to be a readable POSCAR (C78_refuted), because the line 'PROCESSING: ...' comes first. YAML library: load (dump d) = d is a premise; spglib contract as in C77."
  },
  {
   "property": "C79",
   "status": "proved",
   "theorems": [
    "C79_expand",
    "C79_tree",
    "C79_root",
    "C79_rollout"
   ],
   "note": "Exact effect of TreeNode.expand on the whole node store (order, priors, repeated actions) and an independent relational description of the rollout, for every game, policy and limit. C63_entry uses it for the value of the leaf."
  },
  {
   "property": "C80",
   "status": "proved",
   "theorems": [
    "C80_ocubiter",
    "C80_ocumaker",
    "C80_ocutenter",
    "C80_ocumakert",
    "C80_suplat",
    "C80_suplat_2d"
   ],
   "note": "ocubiter, ocumaker, ocutenter, ocumakert and suplat (3-d and planar): from the run to the cells read back. Premises: those of C65/C66/C74/C75, different suffixes for as many files as there are classes (C65_collision_refuted, C75_collision_refuted show what happens otherwise), at least one non-vacancy atom, and load (dump d) = d for the YAML library; LCodec gives a pair with that property."
  },
  {
   "property": "C81",
   "status": "proved",
   "theorems": [
    "C81_index",
    "C81_count",
    "C81_reverse",
    "C81_clear",
    "C81_remove",
    "C81_iadd"
   ],
   "note": "index (with bounds), count, in, reversed, reverse, clear, remove and += of ModifiedCell, as Python's MutableSequence builds them from the methods in scaffold.py; c += c is proved not to terminate (C81_iadd), because scaffold.py's extend lacks the library's guard. Comparison with objects that are not Sites (AttributeError in site.py) is not modelled."
  },
  {
   "property": "C82",
   "status": "proved",
   "theorems": [
    "C82_all_sites",
    "C82_wyckoff",
    "C82_element",
    "C82_ternary",
    "C82_lower_bound"
   ],
   "note": "Burnside's lemma for the action of the distinct permutations of sym_perm, proved by an explicit matching between (representative, group element) and (permutation, fixed decoration). Same assumptions as C19/C20 (group, preserved initial decoration, no hash collision)."
  },
  {
   "property": "C83",
   "status": "proved",
   "theorems": [
    "C83_complete",
    "C83_complete_element",
    "C83_complete_ternary",
    "C83_complete_plane",
    "C83_complete_element_plane",
    "C83_complete_ternary_plane",
    "C83_sound"
   ],
   "note": "Derivative structures are stated as infinite crystals (SDeriv.v), without supercells. Premises: the operations given for the parent and for each supercell are exact space groups of rigid motions that respect the species (what spglib is trusted for), sites different at three decimals, no hash collision. Redundancy across different superlattices is not claimed away (structures with a shorter period appear in several)."
  },
  {
   "property": "C84",
   "status": "proved",
   "theorems": [
    "C84_crystal",
    "C84_from_array",
    "C84_parts",
    "C84_equality",
    "C84_same_crystal",
    "C84_id_matrix",
    "C84_id_matrix_sizes",
    "C84_random_fill",
    "C84_random_fill_all"
   ],
   "note": "Matrices are nested lists with rational entries; the random bits are an argument. Grids of unequal sizes never compare equal even if they show the same crystal (C84_ex)."
  },
  {
   "property": "C85",
   "status": "proved",
   "theorems": [
    "C85_cell",
    "C85_images",
    "C85_permutations",
    "C85_enumeration",
    "C85_enumeration_element",
    "C85_enumeration_ternary",
    "C85_enumeration_wyckoff",
    "C85_levels",
    "C85_levels_element",
    "C85_levels_wyckoff",
    "C85_margin_refuted"
   ],
   "note": "Positive statement under an explicit margin; C85_margin_refuted shows for every error size that the margin is needed (sites at 1/16). The errors of the image computation are arbitrary (function f within d); rounding and comparison of the rounded keys themselves are exact."
  },
  {
   "property": "C86",
   "status": "proved",
   "theorems": [
    "C86_ocubiter_arguments",
    "C86_ocumaker_arguments",
    "C86_unknown_symbol",
    "C86_only_first_restriction",
    "C86_default_levels",
    "C86_default_levels_refuted",
    "C86_ternary_arguments",
    "C86_zoom",
    "C86_default_element_refuted",
    "C86_suplat_arguments"
   ],
   "note": "Exact attributes of the applications for every argument. Two wished readings are violated by the code: C86_default_levels_refuted (B3C1: fewer levels than all-but-one) and C86_default_element_refuted (same cell, other file order, other element). The parsing of the command line itself (click) is not modelled."
  },
  {
   "property": "C87",
   "status": "proved",
   "theorems": [
    "C87_size_unique",
    "C87_size_divides",
    "C87_is_primitive",
    "C87_kept",
    "C87_supercell",
    "C87_refined",
    "C87_refined_supercell",
    "C87_conventional"
   ],
   "note": "Contract on spglib: the size returned by find_primitive is that of some cell with the same crystal up to a rigid motion, all its translations and no repeated atom (primitive_size); C87_size_unique shows that this fixes the number."
  },
  {
   "property": "C88",
   "status": "proved",
   "theorems": [
    "C88_once",
    "C88_once_any_motion",
    "C88_exactly_once",
    "C88_exactly_once_element",
    "C88_exactly_once_ternary"
   ],
   "note": "Completeness of spglib's symmetry groups (all_symmetries) is an explicit hypothesis, needed for uniqueness; C83 does not need it."
  },
  {
   "property": "C89",
   "status": "proved",
   "theorems": [
    "C89_number",
    "C89_number_plane",
    "C89_classes",
    "C89_classes_plane",
    "C89_no_symmetry",
    "C89_bound"
   ],
   "note": ""
  },
  {
   "property": "C90",
   "status": "proved",
   "theorems": [
    "C90_to_array",
    "C90_from_array",
    "C90_grid2",
    "C90_from_array2",
    "C90_pool_sites",
    "C90_permutations",
    "C90_negative_count",
    "C90_negative_nodup",
    "C90_interior_points",
    "C90_supercell",
    "C90_missing_file",
    "C90_unpacking"
   ],
   "note": ""
  },
  {
   "property": "C91",
   "status": "proved",
   "theorems": [
    "C91_float",
    "C91_int",
    "C91_no_number",
    "C91_words",
    "C91_reading",
    "C91_cell",
    "C91_errors",
    "C91_truncated_refuted",
    "C91_negative_refuted"
   ],
   "note": "Exact characterisation in both directions. Two _refuted witnesses record that a truncated coordinate list and a negative count are accepted silently."
  },
  {
   "property": "C92",
   "status": "proved",
   "theorems": [
    "C92_frame",
    "C92_frame_element",
    "C92_frame_wyckoff",
    "C92_frame_ternary",
    "C92_counts",
    "C92_levels",
    "C92_one_element",
    "C92_ternary_order",
    "C92_ternary_one",
    "C92_species",
    "C92_complement",
    "C92_superlattices",
    "C92_superlattices_plane"
   ],
   "note": "Both enumerations must be collision free. Frame changes are exact (integral unimodular matrix plus any shift); small errors are C85. C92_levels is for a species absent from the cell."
  },
  {
   "property": "C93",
   "status": "proved",
   "theorems": [
    "C93_average",
    "C93_model",
    "C93_leaf",
    "C93_kind",
    "C93_first_two",
    "C93_law",
    "C93_down",
    "C93_refuted"
   ],
   "note": "Violated by the code for integer leaf values on Python 2 (C93_refuted); exact rule in C93_first_two, C93_law, C93_down; the average is right for float values (C93_average), where the update is the one of the exact model (C93_model)."
  },
  {
   "property": "C94",
   "status": "proved",
   "theorems": [
    "C94_flow",
    "C94_flow_plane",
    "C94_once"
   ],
   "note": "Two commands composed through the file system. What spglib reports for the rounded cells (sees_symmetry), its standardisation, collision-free hashes and different suffixes are explicit hypotheses; C94_once needs complete groups. Only plain second runs: no distance restriction, no refinement, every structure wanted."
  },
  {
   "property": "C95",
   "status": "proved",
   "theorems": [
    "C95_one_by_one",
    "C95_order",
    "C95_ternary",
    "C95_oracle"
   ],
   "note": "The workflow one_by_one (a generator made anew for every intermediate structure) is defined in SSteps.v; what spglib reports is the hypothesis reports_symmetry, shown satisfiable for every space group by C95_oracle. The intermediate structures are passed on as cells, not through files."
  },
  {
   "property": "C96",
   "status": "proved",
   "theorems": [
    "C96_agree",
    "C96_ready",
    "C96_unfiltered"
   ],
   "note": "C96_agree: the two generators run in step and yield the same cells in the same order; C96_ready: the hypotheses can always be met; C96_unfiltered: the same for the unfiltered streams without symmetry or hash. The bound 990 is that of C28 (rounding to 3 decimals)."
  },
  {
   "property": "C97",
   "status": "proved",
   "theorems": [
    "C97_starved_lemma",
    "C97_frozen",
    "C97_starved",
    "C97_attention",
    "C97_tried",
    "C97_tried_sqrt",
    "C97_refuted"
   ],
   "note": "C97_frozen: nodes off the path unchanged; C97_starved: a child below all values is never visited again; C97_refuted: a two-move game in which, for every positive number of playouts, get_move returns the worse move and never tries the better; C97_attention, C97_tried, C97_tried_sqrt: bounds on the playouts before a child with a large prior is tried. Square root and order of the dictionary are arbitrary arguments with stated properties; Python 2 (iteritems exists)."
  },
  {
   "property": "C98",
   "status": "proved",
   "theorems": [
    "C98_exact",
    "C98_boron",
    "C98_fcc",
    "C98_boron_sets",
    "C98_row_refuted"
   ],
   "note": "C98_exact: iff for any problem; C98_boron, C98_fcc: iff for the two problems; C98_boron_sets: the sets that occur; C98_row_refuted: a shape that cannot occur. The raw random number r stands for randint as r mod length, so every outcome of randint is covered."
  },
  {
   "property": "C99",
   "status": "proved",
   "theorems": [
    "C99_suplat",
    "C99_ocumaker",
    "C99_ocubiter",
    "C99_ocutenter",
    "C99_ocumakert",
    "C99_atclear",
    "C99_perturb",
    "C99_supcell",
    "C99_pcell",
    "C99_runaba_names",
    "C99_runati_names",
    "C99_help_runaba",
    "C99_help_runati",
    "C99_unambiguous",
    "C99_order_runaba",
    "C99_order_runati",
    "C99_defaults",
    "C99_dash_file",
    "C99_incomplete",
    "C99_incomplete_makert",
    "C99_incomplete_supcell",
    "C99_complete_refuted"
   ],
   "note": "Grammar and option tables in SOpt.v, independent of the scanner; both directions for each of the nine commands. The part of click used is modelled after click 6.7 (the version is not pinned by setup.py). C99_complete_refuted: accepted lines that cannot be carried out. C99_runaba_names/C99_runati_names say exactly which lines reach which command, C99_help_runaba/C99_help_runati exactly when a text is shown instead."
  },
  {
   "property": "C100",
   "status": "proved",
   "theorems": [
    "C100_session",
    "C100_session_plane"
   ],
   "note": "Composition of C99 (command lines), C86 (arguments) and C94 (the two commands through the file system). spglib, hash, YAML library and random suffixes are explicit arguments with stated assumptions; C100_ex and C100_ex_run meet them."
  },
  {
   "property": "C101",
   "status": "proved",
   "theorems": [
    "C101_flow",
    "C101_session"
   ],
   "note": "C101_flow composes C75 and C80 through the file system and the motion of the standardized cell; C101_session adds C99 and C86. spglib, hash, tempfile and the YAML library are explicit arguments with stated assumptions (same_yaml: both loaders agree on a dumped document); C101_ex and C101_ex_run meet them."
  },
  {
   "property": "C102",
   "status": "proved",
   "theorems": [
    "C102_ocubiter",
    "C102_ocubiter_stops",
    "C102_ocumaker",
    "C102_ocumaker_stops",
    "C102_suplat",
    "C102_suplat_stops",
    "C102_ocutenter",
    "C102_ocutenter_stops",
    "C102_ocumakert",
    "C102_ocumakert_stops",
    "C102_supcell",
    "C102_supcell_stops",
    "C102_pcell",
    "C102_perturb",
    "C102_atclear",
    "C102_unreadable",
    "C102_complains"
   ],
   "note": "One theorem per command for the run, one for the lines or files that give no settings (nothing written). The run itself is that of C56-C80; for runati the theorems state what is delivered. Found by wrong-program experiments on the bodies of the commands: six edits survived C99-C101 (default zoom, default comment, precedence, stdio, order of the factors, radius)."
  },
  {
   "property": "C103",
   "status": "proved",
   "theorems": [
    "C103_session",
    "C103_plane",
    "C103_once",
    "C103_ternary"
   ],
   "note": "C94 and C101_flow composed with C102. The second line is any line whose settings (ocubiter_settings, ternary_settings) are a plain run; hypotheses on spglib, hash, tempfile and YAML as in C94 and C101, met by C94_ex, C101_ex and C103_ex; C103_ex_run runs both sessions in unusual words."
  },
  {
   "property": "C104",
   "status": "proved",
   "theorems": [
    "C104_tried_all",
    "C104_tried_wyckoff",
    "C104_tried_element",
    "C104_tried_ternary",
    "C104_filter",
    "C104_leaders_all",
    "C104_leaders_wyckoff",
    "C104_leaders_element",
    "C104_leaders_ternary",
    "C104_determined",
    "C104_determined_ternary"
   ],
   "note": "Hypotheses as in C19 and C20 (group, invariance, no hash collision among the relevant decorations); the unfiltered generators need only a cell made by the constructor. C104_determined says that the description fixes the output. C104_ex meets the hypotheses on a square of four sites."
  },
  {
   "property": "C105",
   "status": "proved",
   "theorems": [
    "C105_levels",
    "C105_levels_wyckoff",
    "C105_levels_element",
    "C105_same_all",
    "C105_same_wyckoff",
    "C105_same_element"
   ],
   "note": "Hypotheses as in C21 to C23; C105_same_* add that the species is not already on the sites used. C105_ex meets the hypotheses."
  },
  {
   "property": "C106",
   "status": "proved",
   "theorems": [
    "C106_superlattices",
    "C106_plane",
    "C106_grid",
    "C106_ball_tried",
    "C106_ball_direct",
    "C106_ball_levels",
    "C106_ball_same",
    "C106_determined"
   ],
   "note": "Superlattices: hypotheses as in C34, met in C106_superlattices_ex. Grid: as in C96 but without a hash (the old generator compares texts). Ball: C106_ball_levels asks that the table keeps the starting decoration (C62 does not); the Examples meet the hypotheses."
  },
  {
   "property": "C107",
   "status": "proved",
   "theorems": [
    "C107_text",
    "C107_determined",
    "C107_read",
    "C107_cell",
    "C107_second_pass",
    "C107_yaml",
    "C107_files"
   ],
   "note": "Text relation poscar_exact (SExact.v) is proved to hold of the written text and to have at most one solution. Exact rationals; the decimal formatting of floats is modelled as correct rounding half to even of the exact value."
  },
  {
   "property": "C108",
   "status": "proved",
   "theorems": [
    "C108_ocubiter",
    "C108_ocumaker",
    "C108_determined",
    "C108_determined_levels"
   ],
   "note": "left_behind/listing/exact_file (SListing.v) describe the whole final file system and are proved to have one solution. Same hypotheses as C65_*_classes. Suffixes, the dump of YAML documents and spglib are arguments."
  },
  {
   "property": "C109",
   "status": "proved",
   "theorems": [
    "C109_ocutenter",
    "C109_ocumakert",
    "C109_determined"
   ],
   "note": "compositions/filed (SListing.v); names drawn by tempfile are an argument of which only fresh_names is assumed. Same hypotheses as C66/C74."
  },
  {
   "property": "C110",
   "status": "proved",
   "theorems": [
    "C110_supercell",
    "C110_supercell_unique",
    "C110_suplat",
    "C110_suplat_2d",
    "C110_determined"
   ],
   "note": "exact_supercell/exact_shape/exact_suplat (SSuplat.v). Same hypotheses as C75_classes; the tolerance in the code's equality test is harmless for an index below 2000 (C33). Suffixes, the YAML dump and spglib's standardize_cell are arguments."
  },
  {
   "property": "C111",
   "status": "proved",
   "theorems": [
    "C111_supcell",
    "C111_pcell",
    "C111_atclear",
    "C111_perturb",
    "C111_cell_unique",
    "C111_determined"
   ],
   "note": "exact_delivery/cell_with/exact_primitive (SOne.v). Exact-text version of C76 with the same hypotheses; the YAML dump, spglib's answer and the random vectors with their norms are arguments."
  },
  {
   "property": "C112",
   "status": "proved",
   "theorems": [
    "C112_ocubiter",
    "C112_ocumaker",
    "C112_ocutenter",
    "C112_ocumakert",
    "C112_suplat",
    "C112_supcell",
    "C112_pcell",
    "C112_perturb",
    "C112_atclear"
   ],
   "note": "C102 (what a line means) composed with C108-C111 (what a run leaves behind); the hypotheses are those of the composed theorems."
  },
  {
   "property": "C113",
   "status": "proved",
   "theorems": [
    "C113_unique",
    "C113_burnside_unique",
    "C113_lattice_unique",
    "C113_ocubiter",
    "C113_ocumaker",
    "C113_ocutenter",
    "C113_ocumakert",
    "C113_suplat",
    "C113_suplat_2d"
   ],
   "note": "Composition of the class theorems C65, C66, C74, C75 with Burnside (C82, C89). Symmetry group, tempfile and spglib's standardisation enter as in those; suffixes are required to differ only as far as they are used."
  },
  {
   "property": "C114",
   "status": "proved",
   "theorems": [
    "C114_ocubiter",
    "C114_suplat",
    "C114_suplat_2d",
    "C114_draws"
   ],
   "note": "Exact number of files for every sequence of suffixes, without assuming that they differ; with refinement the formulas may differ, see C113 for that case."
  },
  {
   "property": "C115",
   "status": "proved",
   "theorems": [
    "C115_formula",
    "C115_comment",
    "C115_files",
    "C115_levels",
    "C115_vacancies_refuted"
   ],
   "note": "C115_vacancies_refuted: the formula does not determine the number of vacancies (nor the size of the cell)."
  },
  {
   "property": "C116",
   "status": "proved",
   "theorems": [
    "C116_ocumaker",
    "C116_determined",
    "C116_none_lost"
   ],
   "note": "Without refinement; with refinement the formulas within a level may differ, see C113 for that case."
  }
 ]
}