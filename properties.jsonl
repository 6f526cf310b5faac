{"id": "C01", "title": "Symbol / atomic-number round trip", "statement": "Specie.to_name(z) succeeds exactly for the atomic numbers in the shipped table (0..56 and 72..88) and then Specie(Specie.to_name(z)).Z == z; for every table symbol s, Specie.to_name(Specie(s).Z) == s; Specie.from_num(z) agrees with Specie(Specie.to_name(z)); an unknown symbol raises KeyError and an unknown number raises IndexError.", "quantifier": "every integer z and every string s", "why_tests_cant": "the integers and strings are unbounded; a test samples a few symbols", "anchors": ["ababe/stru/element.py:Specie.__init__", "ababe/stru/element.py:Specie.from_num", "ababe/stru/element.py:Specie.to_name", "ababe/stru/pt.json"]}
{"id": "C02", "title": "Species equality", "statement": "== on species built through the API is an equivalence relation, != is its negation, and two species constructed by symbol or number are equal exactly when they have the same symbol (a vacancy built as GhostSpecie(), Specie('G') or from_num(0) is one and the same species).", "quantifier": "all pairs and triples of constructible species", "why_tests_cant": "needs all pairs and triples", "anchors": ["ababe/stru/element.py:Specie.__eq__", "ababe/stru/element.py:GhostSpecie"]}
{"id": "C03", "title": "SitesGrid.gen_speckle enumerates every placement once", "statement": "SitesGrid.gen_speckle(ssp,size,sp,noa) with ssp != sp yields exactly the grids of the given size holding sp on exactly noa sites and ssp elsewhere, each exactly once, binomial(d*w*l, noa) of them.", "quantifier": "every grid size, every pair of distinct species, every noa", "why_tests_cant": "the number of placements grows combinatorially; tests check one 2x2x2 grid", "anchors": ["ababe/stru/scaffold.py:SitesGrid.gen_speckle", "ababe/stru/scaffold.py:SitesGrid.from_array"]}
{"id": "C04", "title": "Grid array round trip", "statement": "SitesGrid.from_array(a).to_array() == a for every rectangular integer array whose entries are known atomic numbers, SitesGrid.from_array(g.to_array()) == g for every grid of table species, and from_array raises IndexError as soon as one entry is unknown.", "quantifier": "every grid shape and content", "why_tests_cant": "unbounded shapes and contents", "anchors": ["ababe/stru/scaffold.py:SitesGrid.to_array", "ababe/stru/scaffold.py:SitesGrid.from_array"]}
{"id": "C05", "title": "Writing one grid site changes only that site", "statement": "For a grid made by SitesGrid.sea or from_array, after g[p] = s, g[p] is s and every other site reads as before (Python negative indices denote the same site counted from the end; out-of-range positions raise IndexError and change nothing).", "quantifier": "every grid size, every sequence of writes and reads", "why_tests_cant": "aliasing defects show only for particular histories", "anchors": ["ababe/stru/scaffold.py:SitesGrid.sea", "ababe/stru/scaffold.py:SitesGrid.__getitem__", "ababe/stru/scaffold.py:SitesGrid.__setitem__"]}
{"id": "C06", "title": "deepCopy isolation", "statement": "A copy made with SitesGrid.deepCopy reads like the original, and a later write through the copy must not be visible through the original (nor vice versa). The code violates this for every grid: the innermost rows are shared, so every write through the copy is visible through the original.", "quantifier": "every grid, every position, every later write", "why_tests_cant": "the shipped test only compares the copy right after copying", "anchors": ["ababe/stru/scaffold.py:SitesGrid.deepCopy"]}
{"id": "C07", "title": "CStru.get_cell places every grid site at its lattice point", "statement": "In the cell returned by CStru.get_cell the entry for grid site (i,j,k) appears at flat index (i*w+j)*l+k, carries the atomic number of that site, and its fractional position times the returned lattice equals i*m0+j*m1+k*m2; every site occurs exactly once.", "quantifier": "every grid shape d,w,l >= 1, every basis matrix m and every site", "why_tests_cant": "unbounded shapes; index arithmetic errors show only for non-cubic grids", "anchors": ["ababe/stru/scaffold.py:CStru.get_cell", "ababe/stru/scaffold.py:CStru._yield_position"]}
{"id": "C08", "title": "GeneralCell constructor keeps every atom", "statement": "GeneralCell(lattice, positions, numbers) keeps the lattice, and the sequence of (position, number) pairs it stores is a permutation of the input pairs, ordered by the wrapped position rounded to 3 decimals (x first, then y, then z), ties kept in input order.", "quantifier": "every lattice, every list of positions and equally long list of numbers", "why_tests_cant": "unbounded cells; positions and species could be permuted inconsistently only on some inputs", "anchors": ["ababe/stru/scaffold.py:GeneralCell.__init__", "ababe/stru/scaffold.py:GeneralCell._get_new_id_seq"]}
{"id": "C09", "title": "GeneralCell is a canonical form", "statement": "Rebuilding a GeneralCell from its own lattice, positions and numbers returns the same cell; if the rounded wrapped positions are pairwise distinct the result does not depend on the order in which atoms were supplied; shifting every position by integer vectors does not change the stored numbers.", "quantifier": "every cell, every reordering of its atoms, every integer shift", "why_tests_cant": "quantifies over all permutations of arbitrarily many atoms", "anchors": ["ababe/stru/scaffold.py:GeneralCell.__init__", "ababe/stru/scaffold.py:GeneralCell._get_new_id_seq"]}
{"id": "C10", "title": "GeneralCell length mismatch", "statement": "With more positions than numbers the constructor raises IndexError, with no positions it raises ValueError; with fewer positions than numbers it silently keeps only the first len(positions) numbers while num_count still reports the full count, so num_count == len(numbers) == len(positions) holds exactly when the input lengths agree.", "quantifier": "every pair of lists of different lengths", "why_tests_cant": "needs all length combinations", "anchors": ["ababe/stru/scaffold.py:GeneralCell.__init__", "ababe/stru/scaffold.py:GeneralCell.num_count"]}
{"id": "C11", "title": "Consistency of the numbers setter", "statement": "After cell.numbers = arr every view of the cell (numbers, id, comment, get_speckle_num, spg_cell, get_symmetry_permutation, is_primitive) should describe arr. The code violates this: spg_cell keeps the old numbers.", "quantifier": "every cell and every assigned array", "why_tests_cant": "history dependent: only visible after assignment", "anchors": ["ababe/stru/scaffold.py:GeneralCell.numbers", "ababe/stru/scaffold.py:GeneralCell.spg_cell"]}
{"id": "C12", "title": "Composition formula", "statement": "GeneralCell.comment is the concatenation, in increasing atomic number, of symbol and count for each element present, vacancies left out; the counts are the true multiplicities and agree with get_speckle_num, and it does not depend on atom order.", "quantifier": "every cell over known species", "why_tests_cant": "all multisets of species", "anchors": ["ababe/stru/scaffold.py:GeneralCell.comment", "ababe/stru/scaffold.py:GeneralCell.get_speckle_num"]}
{"id": "C13", "title": "Symmetry permutations are the geometric action", "statement": "For every symmetry operation (r,t) that maps the set of rounded sites of the cell onto itself, the corresponding entry perm of get_symmetry_permutation is a permutation of 0..n-1 and the operation carries site perm[i] onto site i (equal rounded wrapped coordinates), so numbers[perm] is the decoration transported by the operation.", "quantifier": "every cell with pairwise distinct rounded sites, every operation", "why_tests_cant": "infinitely many cells and operations", "anchors": ["ababe/stru/scaffold.py:GeneralCell.get_symmetry_permutation"]}
{"id": "C14", "title": "Symmetry permutations form a group", "statement": "If the operations reported by spglib are closed under composition and inverse modulo lattice translations and map the site set onto itself, the list returned by get_symmetry_permutation contains the identity and is closed under composition and inverse, and preserves the cell's own numbers when the operations preserve species.", "quantifier": "every cell and every group of operations", "why_tests_cant": "quantifies over all groups and cells", "anchors": ["ababe/stru/scaffold.py:GeneralCell.get_symmetry_permutation"]}
{"id": "C15", "title": "Symmetry permutations under coordinate noise", "statement": "If every operation maps every site to within the symmetry tolerance of a site, the permutation should be the nearest-site permutation. The code violates this: sorting rounded coordinates can swap two sites whose coordinates straddle a rounding boundary.", "quantifier": "every cell whose sites are symmetric only up to tolerance", "why_tests_cant": "rounding-boundary inputs are measure-zero for random tests", "anchors": ["ababe/stru/scaffold.py:GeneralCell._get_new_id_seq", "ababe/stru/scaffold.py:GeneralCell.get_symmetry_permutation"]}
{"id": "C16", "title": "is_equivalent decides symmetry equivalence", "statement": "OccupyGenerator.is_equivalent(a,b) is True exactly when some symmetry permutation carries a's numbers to b's, and when the permutations form a group it is an equivalence relation.", "quantifier": "every permutation group, every pair of structures", "why_tests_cant": "all groups and colourings", "anchors": ["ababe/stru/sogen.py:OccupyGenerator.is_equivalent"]}
{"id": "C17", "title": "Enumeration with duplicates is exact", "statement": "gen_dup_unitary(n,sp), gen_dup(wy,n,sp) and gen_dup_of_ele(ele,n,sp) yield exactly one structure for each n-element subset of the admissible sites (all sites / sites with Wyckoff letter wy / sites occupied by ele), in which those sites carry sp and all other sites, the lattice and the positions are unchanged.", "quantifier": "every cell, n, species, letter", "why_tests_cant": "combinatorially many subsets", "anchors": ["ababe/stru/sogen.py:OccupyGenerator.gen_dup_unitary", "ababe/stru/sogen.py:OccupyGenerator.gen_dup", "ababe/stru/sogen.py:OccupyGenerator.gen_dup_of_ele"]}
{"id": "C18", "title": "The duplicate filter never emits two equivalent structures", "statement": "Whatever stream of structures is fed to gen_2nodup_gen and whatever hash values are computed, the output is a subsequence of the input and no two emitted structures are related by a symmetry permutation (permutations forming a group).", "quantifier": "every input stream, every hash function, every permutation group", "why_tests_cant": "hash collisions and stream histories cannot be sampled exhaustively", "anchors": ["ababe/stru/sogen.py:OccupyGenerator.gen_2nodup_gen", "ababe/stru/sogen.py:OccupyGenerator._update_isoset"]}
{"id": "C19", "title": "gen_nodup_* return exactly one structure per symmetry class", "statement": "If no two relevant decorations collide under the 64-bit hash, gen_nodup_unitary, gen_nodup and gen_nodup_of_ele yield exactly one representative of every symmetry class of n-fold substitutions.", "quantifier": "every cell, permutation group, n, species, hash without relevant collision", "why_tests_cant": "completeness is about structures that are missing", "anchors": ["ababe/stru/sogen.py:OccupyGenerator.gen_nodup_unitary", "ababe/stru/sogen.py:OccupyGenerator.gen_nodup", "ababe/stru/sogen.py:OccupyGenerator.gen_nodup_of_ele"]}
{"id": "C20", "title": "Ternary alloys", "statement": "gen_nodup_trinary_alloy(sp1,n1,sp2,n2) yields exactly one representative of every symmetry class of structures obtained by putting sp1 on n1 sites and sp2 on n2 other sites, every other site unchanged.", "quantifier": "every cell, counts and species", "why_tests_cant": "combinatorially many placements", "anchors": ["ababe/stru/sogen.py:OccupyGenerator._gen_dup_trinary_alloy", "ababe/stru/sogen.py:OccupyGenerator.gen_nodup_trinary_alloy"]}
{"id": "C21", "title": "Level-by-level enumeration over all sites", "statement": "all_speckle_gen_unitary(n,sp) yields n - n0 generators (n0 = sp atoms already present); the k-th one yields exactly one representative of every symmetry class of structures obtained from the initial cell by replacing k non-sp atoms by sp.", "quantifier": "every cell with its own symmetry group, every n, sp, every level", "why_tests_cant": "levels are built from representatives only, completeness is an induction over levels", "anchors": ["ababe/stru/sogen.py:OccupyGenerator.all_speckle_gen_unitary", "ababe/stru/sogen.py:OccupyGenerator.gen_add_one_speckle_unitary"]}
{"id": "C22", "title": "Level-by-level enumeration on a Wyckoff letter", "statement": "Same as C21 for all_speckle_gen(n,wy,sp), replaced sites restricted to Wyckoff letter wy.", "quantifier": "every cell, letter, n, sp, level", "why_tests_cant": "induction over levels", "anchors": ["ababe/stru/sogen.py:OccupyGenerator.all_speckle_gen", "ababe/stru/sogen.py:OccupyGenerator.gen_add_one_speckle"]}
{"id": "C23", "title": "Level-by-level enumeration on an element", "statement": "Same as C21 for all_speckle_gen_of_ele(n,ele,sp), replaced sites restricted to those occupied by ele in the initial cell.", "quantifier": "every cell, element, n, sp, level", "why_tests_cant": "induction over levels", "anchors": ["ababe/stru/sogen.py:OccupyGenerator.all_speckle_gen_of_ele", "ababe/stru/sogen.py:OccupyGenerator.gen_add_one_speckle_of_ele"]}
{"id": "C24", "title": "Consumption schedule does not matter", "statement": "The structures delivered by the k-th generator returned by all_speckle_gen_* are the same sequence however the caller interleaves next() calls over the outer generator and the level generators, including when lower levels are abandoned half-way.", "quantifier": "every interleaving of next() calls", "why_tests_cant": "schedules are unbounded", "anchors": ["ababe/stru/sogen.py:OccupyGenerator.all_speckle_gen_unitary", "ababe/stru/sogen.py:OccupyGenerator.gen_2nodup_gen"]}
{"id": "C25", "title": "Composition bookkeeping of substitutions", "statement": "Every structure yielded at level k (or by gen_nodup_of_ele with n=k) contains exactly k more sp atoms and k fewer atoms of the replaced kind than the initial cell, every other species count unchanged.", "quantifier": "every cell, n, species, level", "why_tests_cant": "all outputs of all enumerations", "anchors": ["ababe/stru/sogen.py:OccupyGenerator.all_speckle_gen_of_ele", "ababe/stru/sogen.py:OccupyGenerator.gen_dup_of_ele"]}
{"id": "C26", "title": "Limits of hash-based de-duplication", "statement": "With any hash taking at most M values the filter emits at most M structures, hence it cannot be complete when there are more than M symmetry classes (2^64 for OccupyGenerator, 2^32 for the buckyball Structure).", "quantifier": "every hash function with a bounded range, every stream", "why_tests_cant": "needs astronomically many structures", "anchors": ["ababe/stru/sogen.py:numbers2id", "ababe/stru/buckyball.py:Structure._get_atom_seq_identifier"]}
{"id": "C27", "title": "Assigning numbers on a yielded structure", "statement": "A consumer that assigns .numbers on a structure it received should not affect which further structures it receives. The code violates this: the filter registers the structure after the consumer had it, so assignment makes equivalent structures reappear.", "quantifier": "every consumer behaviour between two next() calls", "why_tests_cant": "depends on consumer history", "anchors": ["ababe/stru/sogen.py:OccupyGenerator.gen_2nodup_gen", "ababe/stru/scaffold.py:GeneralCell.numbers"]}
{"id": "C28", "title": "gen_nodup_cstru on grids", "statement": "sogen.gen_nodup_cstru(lattice,sea,size,sp,n) yields exactly one representative per symmetry class of placements of n sp atoms in the grid, with no assumption about hashing (its identifiers are the printed number lists, which are injective).", "quantifier": "every grid size, n, permutation group", "why_tests_cant": "combinatorial, completeness", "anchors": ["ababe/stru/sogen.py:gen_nodup_cstru", "ababe/stru/sogen.py:_get_atom_seq_identifier", "ababe/stru/sogen.py:_update_isoset"]}
{"id": "C29", "title": "is_stru_equal", "statement": "is_stru_equal(A,B,ops) should be True only if some operation carries B's decoration to A's. It is so when the printed arrays are complete (at most 1000 sites); beyond 1000 sites numpy abbreviates the printed array and inequivalent structures compare equal.", "quantifier": "all structures of any size", "why_tests_cant": "tests use small grids", "anchors": ["ababe/stru/sogen.py:is_stru_equal", "ababe/stru/sogen.py:_get_id_seq"]}
{"id": "C30", "title": "is_speckle_disjunct checks the periodically extended grid", "statement": "_pool_sites extends the grid periodically by one layer in every direction, and is_speckle_disjunct is True exactly when all pairs of speckle sites of the extended grid are more than 1.01 apart.", "quantifier": "every grid shape, basis, speckle", "why_tests_cant": "unbounded shapes", "anchors": ["ababe/stru/sogen.py:is_speckle_disjunct", "ababe/stru/sogen.py:_pool_sites", "ababe/stru/sogen.py:_min_dist"]}
{"id": "C31", "title": "hnfs_from_n_dups lists every Hermite normal form once", "statement": "SuperLatticeGenerator.hnfs_from_n_dups(cell,n) returns exactly the matrices [[a,b,d],[0,c,e],[0,0,f]] with a,c,f>=1, a*c*f=n, 0<=b<c, 0<=d,e<f, each once; n<=0 raises TypeError.", "quantifier": "every n", "why_tests_cant": "unbounded n", "anchors": ["ababe/stru/grid.py:SuperLatticeGenerator.hnfs_from_n_dups"]}
{"id": "C32", "title": "Every superlattice of index n is represented exactly once", "statement": "For every integer matrix M with |det M| = n>0 there is exactly one matrix in hnfs_from_n_dups(cell,n) generating the same superlattice (same integer row span).", "quantifier": "every n and every integer matrix of determinant +-n", "why_tests_cant": "infinitely many bases", "anchors": ["ababe/stru/grid.py:SuperLatticeGenerator.hnfs_from_n_dups"]}
{"id": "C33", "title": "SuperLatticeCell equality", "statement": "For superlattices of equal index n<2000, == is True exactly when some point-group rotation carries one superlattice onto the other, and it is an equivalence relation when the rotations form a group; for n>=2000 the 3-decimal rounding yields false equalities.", "quantifier": "every index, every pair of superlattices, every rotation group", "why_tests_cant": "unbounded; failure only at large index", "anchors": ["ababe/stru/grid.py:SuperLatticeCell.__eq__"]}
{"id": "C34", "title": "hnfs_from_n returns one superlattice per symmetry class", "statement": "SuperLatticeGenerator.hnfs_from_n(cell,n), n<2000, returns pairwise inequivalent superlattices and every superlattice of index n is equivalent (through a rotation) to exactly one of them.", "quantifier": "every n<2000, every rotation group", "why_tests_cant": "completeness over all superlattices", "anchors": ["ababe/stru/grid.py:SuperLatticeGenerator.hnfs_from_n"]}
{"id": "C35", "title": "2-D superlattices", "statement": "SuperLatticeGenerator2D returns exactly the in-plane Hermite forms [[a,b,0],[0,c,0],[0,0,1]] of determinant n, each once; every in-plane superlattice of index n is represented exactly once; hnfs_from_n reduces them by symmetry.", "quantifier": "every n", "why_tests_cant": "unbounded n", "anchors": ["ababe/stru/grid.py:SuperLatticeGenerator2D.hnfs_from_n_dups", "ababe/stru/grid.py:SuperLatticeGenerator2D.hnfs_from_n"]}
{"id": "C36", "title": "Interior lattice points of a supercell", "statement": "For a non-negative upper triangular matrix H with positive diagonal and det H < 100000, get_frac_from_H / get_frac_from_mat returns exactly det H fractional points in [0,1)^3, one for each class of integer vectors modulo the rows of H.", "quantifier": "every such H", "why_tests_cant": "unbounded matrices; the scanned range 3*max is a subtle bound", "anchors": ["ababe/stru/grid.py:SuperLatticeCell.get_frac_from_H", "ababe/stru/scaffold.py:GeneralCell.get_frac_from_mat"]}
{"id": "C37", "title": "Supercells describe the same crystal", "statement": "supercell(H) and SuperLatticeCell.to_general_cell describe the same infinite crystal as the unit cell: an atom of species z sits at Cartesian point v in one iff in the other; the supercell has det H times as many atoms.", "quantifier": "every unit cell, every H as in C36, every point of space", "why_tests_cant": "quantifies over the infinite crystal", "anchors": ["ababe/stru/scaffold.py:GeneralCell.supercell", "ababe/stru/grid.py:SuperLatticeCell.to_general_cell"]}
{"id": "C38", "title": "supercell on other matrices", "statement": "supercell(M) for an arbitrary non-singular integer matrix should contain |det M| copies of each atom. The code violates this for non-triangular or negative matrices (diagonal product, range and repeat disagree).", "quantifier": "every non-singular integer matrix", "why_tests_cant": "tests use diagonal matrices", "anchors": ["ababe/stru/scaffold.py:GeneralCell.supercell", "ababe/stru/scaffold.py:GeneralCell.get_frac_from_mat"]}
{"id": "C39", "title": "MinDistanceRestriction", "statement": "is_satisfied(cell) is True exactly when every two distinct target atoms, taken in any of the translated copies with cell offsets in {-1,0,1}^3, are farther apart than the given distance; a cell without target atoms raises ValueError.", "quantifier": "every cell, species and distance", "why_tests_cant": "unbounded cells; nearest images", "anchors": ["ababe/stru/restriction.py:MinDistanceRestriction.is_satisfied"]}
{"id": "C40", "title": "MinDistanceRestriction on skewed cells", "statement": "is_satisfied should guarantee the distance for all pairs of target atoms of the infinite crystal. The code violates this for sufficiently skewed cells or unwrapped positions: a closer pair with offset outside {-1,0,1} is missed. For positions in [0,1) it holds in orthogonal cells, and in every cell for thresholds up to the spacing of the lattice planes.", "quantifier": "every cell", "why_tests_cant": "needs a skewed cell", "anchors": ["ababe/stru/restriction.py:MinDistanceRestriction.is_satisfied"]}
{"id": "C41", "title": "SpaceGroupRestriction reads the space-group number", "statement": "is_satisfied should test membership of the international number printed in parentheses. It does for symbols containing no digit; for symbols such as 'P4/mmm (123)' the first digit group of the symbol is used instead.", "quantifier": "all space-group strings", "why_tests_cant": "the shipped tests use only digit-poor symbols", "anchors": ["ababe/stru/restriction.py:SpaceGroupRestriction.is_satisfied"]}
{"id": "C42", "title": "ModifiedCell behaves as a mutable list of sites", "statement": "Any sequence of append, insert, pop, extend, item assignment, deletion, remove_site(s), append_site(s) on a ModifiedCell has the effect of the same operations on a plain Python list, including negative indices and IndexError, and leaves the lattice alone.", "quantifier": "every sequence of operations", "why_tests_cant": "unbounded histories", "anchors": ["ababe/stru/scaffold.py:ModifiedCell.append", "ababe/stru/scaffold.py:ModifiedCell.insert", "ababe/stru/scaffold.py:ModifiedCell.pop", "ababe/stru/scaffold.py:ModifiedCell.remove_sites"]}
{"id": "C43", "title": "ModifiedCell / GeneralCell conversion", "statement": "ModifiedCell.from_gcell(c).to_gcell() equals c for every GeneralCell over known species; to_gcell of any ModifiedCell keeps the multiset of (position, species).", "quantifier": "every cell", "why_tests_cant": "unbounded cells", "anchors": ["ababe/stru/scaffold.py:ModifiedCell.from_gcell", "ababe/stru/scaffold.py:ModifiedCell.to_gcell"]}
{"id": "C44", "title": "ModifiedCell.copy isolates", "statement": "After d = c.copy(), no sequence of operations on d (including perturb and translate_sites, which mutate sites in place) changes what c contains, and vice versa.", "quantifier": "every cell and every later history", "why_tests_cant": "aliasing is history dependent", "anchors": ["ababe/stru/scaffold.py:ModifiedCell.copy", "ababe/stru/scaffold.py:ModifiedCell.translate_sites"]}
{"id": "C45", "title": "Shared Site objects", "statement": "A Site appended to two cells (or twice to one) is one object: translate_sites on one occurrence moves every occurrence. Cells whose sites are not shared are unaffected by operations on others.", "quantifier": "every history of appends and translations", "why_tests_cant": "aliasing is history dependent", "anchors": ["ababe/stru/scaffold.py:ModifiedCell.append", "ababe/stru/scaffold.py:ModifiedCell.translate_sites"]}
{"id": "C46", "title": "perturb displaces every atom by the requested distance", "statement": "translate_sites(i,v) moves the Cartesian position of site i by exactly v and no other site; perturb(distance) moves each site by a vector of length |distance|, keeps the number, order and species of sites (lattice invertible, sites not shared).", "quantifier": "every cell, every random vector sequence", "why_tests_cant": "random vectors are unbounded", "anchors": ["ababe/stru/scaffold.py:ModifiedCell.perturb", "ababe/stru/scaffold.py:ModifiedCell.translate_sites"]}
{"id": "C47", "title": "Sites in a sphere", "statement": "get_points_incell_insphere(center,r,ele) returns exactly the sites (keyed by index) one of whose 27 images with offsets in {-1,0,1}^3 lies strictly within r of the center, restricted to species ele if given.", "quantifier": "every cell, center, radius, species", "why_tests_cant": "unbounded", "anchors": ["ababe/stru/scaffold.py:ModifiedCell.get_points_incell_insphere", "ababe/stru/scaffold.py:ModifiedCell.in_euclidean_discance"]}
{"id": "C48", "title": "AtomRemoveClarifier", "statement": "clarify removes exactly the sites (of the given element) within r of some center, keeps all others in order, does not depend on the order of centers, and is idempotent; a non-ModifiedCell argument raises ValueError.", "quantifier": "every cell, center list, radius", "why_tests_cant": "removal shifts indices between centers", "anchors": ["ababe/stru/clarifier.py:AtomRemoveClarifier.clarify"]}
{"id": "C49", "title": "VerboseAtomRemoveClarifier uses the sites present at the start", "statement": "clarify removes exactly the sites (of the given element) within r of some site that had element etobesub when clarify started, even when centers are themselves removed during the loop.", "quantifier": "every cell, radius, element pair", "why_tests_cant": "removal during iteration", "anchors": ["ababe/stru/clarifier.py:VerboseAtomRemoveClarifier.clarify"]}
{"id": "C50", "title": "ModifiedCell equality", "statement": "== should be True exactly for cells with the same number of sites and close lattice, positions and numbers. The code violates this: a one-site cell equals any cell repeating that site (broadcasting), and the tolerance test is not symmetric.", "quantifier": "all pairs of cells", "why_tests_cant": "needs special pairs", "anchors": ["ababe/stru/scaffold.py:ModifiedCell.__eq__"]}
{"id": "C51", "title": "POSCAR text is self-consistent", "statement": "VaspOutput(cell).get_string() lists species in increasing atomic number with counts equal to the number of coordinate lines that follow for each species in that order; vacancies do not appear; the number of lines is 8 plus the number of atoms.", "quantifier": "every cell over known species", "why_tests_cant": "unbounded cells", "anchors": ["ababe/io/vasp.py:VaspOutput.get_string", "ababe/stru/io.py:VaspPOSCAR.get_string"]}
{"id": "C52", "title": "POSCAR write / read round trip", "statement": "Reading back the text written for a cell with at least one real atom yields the same atoms (vacancies dropped, grouped by species, order within species kept) with every coordinate and lattice entry within 5.05e-5 of the original.", "quantifier": "every cell", "why_tests_cant": "all real coordinates and all characters of the text", "anchors": ["ababe/io/vasp.py:VaspOutput.get_string", "ababe/io/vasp.py:VaspInput.from_string"]}
{"id": "C53", "title": "POSCAR of a cell of vacancies only", "statement": "Reading back what was written should succeed for every cell. The code violates this when all sites are vacancies: the empty comment line is dropped on reading and parsing fails.", "quantifier": "every all-vacancy cell", "why_tests_cant": "special input", "anchors": ["ababe/io/vasp.py:VaspInput.from_string", "ababe/io/vasp.py:VaspOutput.get_string"]}
{"id": "C54", "title": "POSCAR reader and coordinate mode", "statement": "from_string should honour the coordinate-mode line. The code ignores it: replacing the mode line by any other non-blank line (e.g. cartesian) never changes the result.", "quantifier": "every POSCAR text", "why_tests_cant": "all texts", "anchors": ["ababe/io/vasp.py:VaspInput.from_string"]}
{"id": "C55", "title": "YAML round trip", "statement": "YamlInput.from_string of the document written by YamlOutput returns the numbers unchanged (vacancies included, order kept) and every lattice/position entry within 5.05e-5 of the original.", "quantifier": "every cell", "why_tests_cant": "all coordinates", "anchors": ["ababe/io/yaml.py:YamlOutput.get_string", "ababe/io/yaml.py:YamlInput.from_string"]}
{"id": "C56", "title": "Format dispatch", "statement": "GeneralIO.write_file and from_file choose the same format for the same file name and fmt; '*.yaml*' names always mean YAML even when fmt='vasp' is given; an unrecognised name without fmt raises UnboundLocalError; a name written with a recognised extension is read back by the matching reader.", "quantifier": "every file name and fmt", "why_tests_cant": "all strings", "anchors": ["ababe/io/io.py:GeneralIO.write_file", "ababe/io/io.py:GeneralIO.from_file"]}
{"id": "C57", "title": "RandomPopSet is a set", "statement": "Any sequence of add/push, discard, random_pop on RandomPopSet behaves like a mathematical set for every outcome of the random choices: membership, length and iteration agree, no element occurs twice, random_pop removes and returns an element of the set and on an empty set returns None.", "quantifier": "every history and every random outcome", "why_tests_cant": "histories and random outcomes are unbounded", "anchors": ["ababe/mlearn/dsutils.py:RandomPopSet.add", "ababe/mlearn/dsutils.py:RandomPopSet.discard", "ababe/mlearn/dsutils.py:RandomPopSet.random_pop"]}
{"id": "C58", "title": "random_walk_arrange returns a connected self-avoiding arrangement", "statement": "For every problem whose neighbour relation does not contain a position itself, whatever the random choices, if random_walk_arrange returns, the path starts at the start position, has no repetition, has the goal length, and every later position is a neighbour of an earlier one.", "quantifier": "every problem and every random outcome", "why_tests_cant": "random outcomes", "anchors": ["ababe/mlearn/arrange.py:random_walk_arrange"]}
{"id": "C59", "title": "Boron2dArrangeProblem always succeeds", "statement": "For every goal_num>=2 and every random outcome, random_walk_arrange on Boron2dArrangeProblem(goal_num) returns goal_num distinct in-range grid positions without raising; goal_num=1 raises.", "quantifier": "every goal_num and every random outcome", "why_tests_cant": "unbounded", "anchors": ["ababe/mlearn/arrangeAgent.py:Boron2dArrangeProblem", "ababe/stru/scaffold2d.py:CStru2d.get_neighbors"]}
{"id": "C60", "title": "get_neighbors", "statement": "CStru.get_neighbors(pos,delta) returns the set of the other grid positions whose lattice points are within delta of pos when there are at least two of them; with none it raises TypeError (ValueError on a grid of one site); with exactly one it returns the coordinates of that position instead of the position; get_midpoint may not be a valid argument for non-cubic grids (KeyError).", "quantifier": "every grid, position, delta", "why_tests_cant": "unbounded", "anchors": ["ababe/stru/scaffold.py:CStru.get_neighbors", "ababe/stru/scaffold.py:CStru.get_midpoint", "ababe/stru/scaffold2d.py:CStru2d.get_neighbors"]}
{"id": "C61", "title": "Buckyball permutation table is a group", "statement": "The shipped table of buckyball permutations consists of 120 distinct permutations of 60 sites, contains the identity and is closed under composition and inverse.", "quantifier": "all pairs of the 120 permutations", "why_tests_cant": "needs all 14400 products; tests never look at the table", "anchors": ["ababe/stru/bucky_permu_table.npy", "ababe/stru/buckyball.py:Structure.get_symmetry_permutation"]}
{"id": "C62", "title": "Buckyball enumeration", "statement": "Structure.all_speckle_gen(s,n,sp) yields first the initial decoration and then, level by level, exactly one representative per symmetry class of k-fold substitutions, if no hash collision occurs among the decorations of a level.", "quantifier": "every initial decoration, n, sp, collision-free hash", "why_tests_cant": "induction over levels", "anchors": ["ababe/stru/buckyball.py:Structure.all_speckle_gen", "ababe/stru/buckyball.py:Structure.add_one_speckle_generator", "ababe/stru/buckyball.py:Structure.to_nodup_generator"]}
{"id": "C63", "title": "MCTS statistics", "statement": "After any number of playouts every tree node's visit count equals the number of playouts that passed through it, its value Q is the mean of the leaf values propagated through it, and a node is visited at least as often as all its children together.", "quantifier": "every game, policy, number of playouts", "why_tests_cant": "unbounded histories", "anchors": ["ababe/mlearn/mcts.py:TreeNode.update", "ababe/mlearn/mcts.py:TreeNode.update_recursive", "ababe/mlearn/mcts.py:MCTS._playout"]}
{"id": "C64", "title": "MCTS move selection", "statement": "get_move returns a most-visited root action; update_with_move keeps the chosen subtree's statistics and makes it the root, or starts afresh for an unknown move. On Python 3 get_move raises AttributeError (dict.iteritems) for every game.", "quantifier": "every game state and tree", "why_tests_cant": "unbounded", "anchors": ["ababe/mlearn/mcts.py:MCTS.get_move", "ababe/mlearn/mcts.py:MCTS.update_with_move", "ababe/mlearn/mcts.py:TreeNode.select"]}
{"id": "C65", "title": "Command-line enumeration writes one file per accepted structure", "statement": "ocumaker/ocubiter write one file per generated structure that is primitive (unless disabled) and satisfies the distance restriction, provided the random name suffixes drawn for equal compositions differ; equal suffixes overwrite, so fewer files than structures remain.", "quantifier": "every stream of structures and every random suffix sequence", "why_tests_cant": "random suffix collisions", "anchors": ["ababe/cmdline/apps/occupybiter.py:App.run", "ababe/cmdline/apps/occupymaker.py:App.run"]}
{"id": "C66", "title": "Ternary command and the --element option", "statement": "ocutenter should substitute only sites of the chosen element. The code violates this: the element only enters the file-name counts; substitutions range over all sites.", "quantifier": "every multi-element cell", "why_tests_cant": "needs multi-element cells", "anchors": ["ababe/cmdline/apps/occupytenter.py:App.run", "ababe/stru/sogen.py:OccupyGenerator._gen_dup_trinary_alloy"]}
{"id": "C67", "title": "extend with another cell", "statement": "c.extend(d) for a ModifiedCell d different from c appends d's Site objects in order and leaves every other cell alone; c.extend(c), which doubles a plain Python list, never terminates for a non-empty c.", "quantifier": "every heap of cells and sites", "why_tests_cant": "non-termination cannot be observed by a test", "anchors": ["ababe/stru/scaffold.py:ModifiedCell.insert", "ababe/stru/scaffold.py:ModifiedCell.__len__"]}
{"id": "C68", "title": "Meaning of a POSCAR text", "statement": "For every well-formed POSCAR text, whatever its blanks and blank lines, from_string returns the coordinate rows and lattice rows rounded to four decimals, the species expanded by their counts, the lattice multiplied by a non-negative scale, and for a negative scale multiplied by a positive factor such that the cell volume is the negated scale.", "quantifier": "every text in the POSCAR grammar", "why_tests_cant": "infinitely many texts", "anchors": ["ababe/io/vasp.py:VaspInput.from_string"]}
{"id": "C69", "title": "Scale factor of VaspOutput", "statement": "Writing a cell with VaspOutput(cell, zoom) and reading it back should give the same cell for every zoom. The code violates this: the lattice is not divided by zoom, so what is read has the lattice multiplied by zoom.", "quantifier": "every cell and non-negative zoom", "why_tests_cant": "needs a round trip with zoom other than 1", "anchors": ["ababe/io/vasp.py:VaspOutput.get_string", "ababe/io/vasp.py:VaspInput.from_string"]}
{"id": "C70", "title": "FCC3dArrangeProblem always succeeds", "statement": "For every goal_num>=2 and every random outcome, random_walk_arrange on FCC3dArrangeProblem(goal_num) returns goal_num distinct in-range positions of the cubic grid, each later one within 2.1 of an earlier one; it never raises.", "quantifier": "every goal_num, random outcome and set order", "why_tests_cant": "unbounded; existing tests run one size", "anchors": ["ababe/mlearn/arrangeAgent.py:FCC3dArrangeProblem", "ababe/stru/scaffold.py:CStru.get_neighbors"]}
{"id": "C71", "title": "SitesGrid2d array round trip", "statement": "SitesGrid2d.from_array(g.get_array()) should restore the grid, and two grids are equal exactly when their arrays are. The code violates the former: from_array raises AttributeError for every non-empty array (Specie.to_sp does not exist).", "quantifier": "every non-empty grid", "why_tests_cant": "the method is never called by a test", "anchors": ["ababe/stru/scaffold2d.py:SitesGrid2d.from_array", "ababe/stru/scaffold2d.py:SitesGrid2d.get_array"]}
{"id": "C72", "title": "The buckyball permutation table and the positions use the same site numbering", "statement": "Every permutation of the shipped table should be a symmetry of the positions the structure carries. The code violates this: every row except the identity maps some bond (about 1.6-1.7 long) to two sites more than 7 apart; in another numbering of the sites the table is exactly the group of bond-preserving permutations, so only the numbers of classes are right.", "quantifier": "all 120 permutations, all site permutations preserving bonds", "why_tests_cant": "needs all rows against all site pairs and a complete search for bond symmetries; tests only count classes", "anchors": ["ababe/stru/buckyball.py:Structure.__init__", "ababe/stru/buckyball.py:Structure._get_new_id_seq", "ababe/stru/bucky_permu_table.npy", "ababe/stru/buckyball.json"]}
{"id": "C73", "title": "MCTS exploration bonus", "statement": "The exploration bonus of every tree node should be c_puct * prior * sqrt(parent visits) / (1 + visits) for the current visit counts. The code violates this: the bonus is only rewritten when the node itself is visited, so it uses the parent's visits at the node's last visit, and a node never visited keeps its bare prior as bonus, however often its parent is visited.", "quantifier": "every game, policy, history of playouts and moves, every node", "why_tests_cant": "histories are unbounded", "anchors": ["ababe/mlearn/mcts.py:TreeNode.update", "ababe/mlearn/mcts.py:TreeNode.__init__"]}
{"id": "C74", "title": "ocumakert runs through every ternary composition once", "statement": "ocumakert with t target atoms writes, for every pair n1>=1, n2>=1 with n1+n2<t exactly once, one file per symmetry class of structures with n1 atoms of the first and n2 of the second species, each in a new file; with fewer than three target atoms nothing is written.", "quantifier": "every cell, option set, target count, name choice of tempfile", "why_tests_cant": "the loop bounds are easily off by one and the tests do not look at the files", "anchors": ["ababe/cmdline/apps/occupymakert.py:App.run"]}
{"id": "C75", "title": "suplat writes one file per class of superlattices", "statement": "suplat -v N removes an existing SUPLAT_<comment> directory and writes, for each equivalence class of superlattices of volume N of the primitive unit cell, one file with that superlattice and all N times as many atoms; non-primitive cells are refused. Because suffixes are random, two structures can get the same file name and one is lost (violation).", "quantifier": "every unit cell, volume, rotation group, suffix sequence, file system", "why_tests_cant": "random suffix collisions, unbounded volumes", "anchors": ["ababe/cmdline/apps/superlattice.py:App.run", "ababe/cmdline/apps/superlattice.py:App.__init__", "ababe/stru/scaffold.py:GeneralCell.get_shaped_cell"]}
{"id": "C76", "title": "Single-file commands", "statement": "supcell, pcell, atclear and perturb deliver exactly the scaled cell (same crystal, a*b*c times the atoms), the primitive cell, the cell without the atoms of the second species near the first, and the cell with every atom moved by the radius, to one file named after the input up to the first dot or to the terminal. Inputs that agree up to the first dot overwrite each other's result (violation).", "quantifier": "every cell, scale, radius, species, mode, input name", "why_tests_cant": "unbounded cells; the commands are not tested", "anchors": ["ababe/cmdline/runatilib.py:supcell", "ababe/cmdline/runatilib.py:pcell", "ababe/cmdline/apps/atomclarifier.py:App.run", "ababe/cmdline/apps/atomperturb.py:App.run"]}
{"id": "C77", "title": "Standardised cells keep the crystal", "statement": "get_shaped_cell, which labels the atoms by their index before calling spglib, returns a cell with the same lattice and the same crystal up to a rigid motion and every atom exactly once; get_refined_pcell returns the same crystal up to a rigid motion in a cell whose lattice has all translations of the crystal.", "quantifier": "every cell and every answer of spglib satisfying its contract", "why_tests_cant": "spglib's freedom of choice (axes, origin, atom order) cannot be enumerated", "anchors": ["ababe/stru/scaffold.py:GeneralCell.get_shaped_cell", "ababe/stru/scaffold.py:GeneralCell.get_refined_pcell"]}
{"id": "C78", "title": "Results of the single-file commands can be read back", "statement": "The file written by supcell, read by the package, is the supercell up to the decimals of the format; likewise the file of pcell is the primitive cell, that of perturb the cell with every atom moved by the same distance, that of atclear the remaining atoms (or their primitive cell), if they are not all vacancies; the text printed by pcell with --outmode stdio is a POSCAR that reads back as the primitive cell; the text printed by supcell with --outmode stdio should likewise be readable, but its first line is the PROCESSING announcement, so reading it always raises.", "quantifier": "every cell with supported species, every diagonal scale with fewer than 100000 copies, every input file name without line break", "why_tests_cant": "printer, command and parser have to agree on every cell; a test looks at one file and usually only at the file mode", "anchors": ["ababe/cmdline/runatilib.py:supcell", "ababe/cmdline/runatilib.py:pcell", "ababe/cmdline/apps/atomclarifier.py:App.run", "ababe/cmdline/apps/atomperturb.py:App.run", "ababe/io/vasp.py:VaspInput.from_string"]}
{"id": "C79", "title": "MCTS expansion and rollout", "statement": "TreeNode.expand adds one unvisited child per new action of the policy, in the order given, with the prior of the action's first occurrence, and changes nothing else in the tree; the rollout plays the first action of largest probability until the game ends, no action is left or the limit is reached, and scores 0 for a draw or an unfinished game, 1 if the player to move at the leaf wins and -1 otherwise.", "quantifier": "every tree, list of action probabilities, game, rollout policy and limit", "why_tests_cant": "unbounded games and trees", "anchors": ["ababe/mlearn/mcts.py:TreeNode.expand", "ababe/mlearn/mcts.py:MCTS._evaluate_rollout", "ababe/mlearn/mcts.py:MCTS._playout"]}
{"id": "C80", "title": "Enumerated structures survive writing and reading", "statement": "After ocubiter, ocumaker, ocutenter, ocumakert or suplat there is, besides the files that were there before, exactly one file for each symmetry class of wanted structures (or superlattices), and reading that file by its name with the package gives the structure back, each atom with its own species, up to the decimals and the order of atoms of the format.", "quantifier": "every target cell, choice of elements, composition, output mode, working directory and file system; as many different suffixes as classes", "why_tests_cant": "joins the enumeration, the file names, the printers and the parsers; a test sees a few structures of one cell", "anchors": ["ababe/cmdline/apps/occupybiter.py:App.run", "ababe/cmdline/apps/occupymaker.py:App.run", "ababe/cmdline/apps/occupytenter.py:App.run", "ababe/cmdline/apps/occupymakert.py:App.run", "ababe/cmdline/apps/superlattice.py:App.run", "ababe/io/io.py:GeneralIO.from_file"]}
{"id": "C81", "title": "Inherited sequence methods of ModifiedCell", "statement": "index, count, in, reversed, reverse, clear, remove and += of ModifiedCell do what they do on a list of the sites, sites being equal when position and atomic number are; they change only the cell's own list, leave it unchanged when they raise, and always terminate - except c += c, which never does for a nonempty cell.", "quantifier": "every heap of cells and shared site objects, every site, every pair of search bounds", "why_tests_cant": "shared objects, negative bounds and lists of any length; the in-place reversal needs an invariant", "anchors": ["ababe/stru/scaffold.py:ModifiedCell", "ababe/stru/site.py:Site.__eq__"]}
{"id": "C82", "title": "The number of structures is Burnside's count", "statement": "The number of structures delivered by gen_nodup_unitary, gen_nodup, gen_nodup_of_ele and gen_nodup_trinary_alloy, times the order of the group of distinct site permutations, is the number of pairs (permutation, decoration left unchanged by it); in particular the decorations outnumber the structures at most by the order of the group.", "quantifier": "every cell, symmetry group, composition, element or Wyckoff letter", "why_tests_cant": "every decoration and every symmetry has to be counted; a test compares a few counts", "anchors": ["ababe/stru/sogen.py:OccupyGenerator.gen_nodup_unitary", "ababe/stru/sogen.py:OccupyGenerator.gen_nodup", "ababe/stru/sogen.py:OccupyGenerator.gen_nodup_of_ele", "ababe/stru/sogen.py:OccupyGenerator.gen_nodup_trinary_alloy"]}
{"id": "C83", "title": "No derivative structure is missed", "statement": "Take any crystal obtained from a parent crystal by replacing atoms by one species (any atoms, or those of one element) or by two species so that the result repeats along some superlattice of index n (in space, or in the plane). It is shown, up to a symmetry of the parent crystal (a rotation or reflection and a shift that carry the parent onto itself), by some structure that gen_nodup_unitary (gen_nodup_of_ele, gen_nodup_trinary_alloy) lists for the supercell of one of the superlattices that hnfs_from_n (or its planar version) lists for n. Conversely every structure listed is such a crystal.", "quantifier": "every parent cell, symmetry group, index below 2000, superlattice matrix in any form, species and infinite periodic decoration", "why_tests_cant": "quantifies over all infinite decorations of all superlattices; joins superlattice reduction, supercell construction and symmetry reduction of the substitutions", "anchors": ["ababe/stru/grid.py:SuperLatticeGenerator.hnfs_from_n", "ababe/stru/grid.py:SuperLatticeGenerator2D.hnfs_from_n", "ababe/stru/grid.py:SuperLatticeCell.to_general_cell", "ababe/stru/sogen.py:OccupyGenerator.gen_nodup_unitary", "ababe/stru/sogen.py:OccupyGenerator.gen_nodup_of_ele", "ababe/stru/sogen.py:OccupyGenerator.gen_nodup_trinary_alloy"]}
{"id": "C84", "title": "The crystal of a grid structure", "statement": "The cell that a grid structure hands over (get_cell, get_gcell) has one site per grid entry and its infinite crystal is the periodic continuation of the grid along the rows of its matrix. Two structures are equal exactly when matrices, sizes and entries agree; for independent rows and equal sizes that means the same infinite crystal. get_id_matrix recovers the array of the grid and refuses exactly the sizes with another product. random_fill puts one of the two species at every site, the second exactly where the drawn bit is one, and every such filling can be drawn.", "quantifier": "every grid reachable by the constructors and item assignments, every matrix, all sizes and all drawn bits", "why_tests_cant": "quantifies over all grids, matrices, integer translations and random draws", "anchors": ["ababe/stru/scaffold.py:CStru.get_gcell", "ababe/stru/scaffold.py:CStru.get_cell", "ababe/stru/scaffold.py:CStru.__eq__", "ababe/stru/scaffold.py:CStru.get_id_matrix", "ababe/stru/scaffold.py:SitesGrid.random_fill"]}
{"id": "C85", "title": "Small numerical errors do not change the enumeration", "statement": "Let the true positions and the true symmetry operations be exact, and let the program be given positions, translations and arithmetic with small errors (R e + t + d). If the true coordinates keep clear of the half-thousandths by a margin exceeding that error, then the cell has the same atom order, the symmetry permutations are those of the true operations, and every enumeration (gen_nodup_unitary, gen_nodup, gen_nodup_of_ele, gen_nodup_trinary_alloy and each level of the level-by-level ones) lists exactly one decoration per class under the true operations acting on the true positions. Without the margin no accuracy is enough.", "quantifier": "every cell, symmetry group, error sizes, image computation within the error, and decoration", "why_tests_cant": "quantifies over all errors and all arithmetic within the error bounds", "anchors": ["ababe/stru/scaffold.py:GeneralCell._get_new_id_seq", "ababe/stru/scaffold.py:GeneralCell.get_symmetry_permutation", "ababe/stru/sogen.py:OccupyGenerator.gen_nodup_unitary", "ababe/stru/sogen.py:OccupyGenerator.gen_nodup_of_ele", "ababe/stru/sogen.py:OccupyGenerator.gen_nodup_trinary_alloy"]}
{"id": "C86", "title": "What the arguments of the enumerating commands mean", "statement": "ocubiter and ocumaker replace the atoms of the named element, or of the element of the second atom, by the named species or the vacancy; a missing or empty comment means the formula of the cell; a missing number means just more than half (ocubiter) or all but one (ocumaker) of the atoms of the element; unknown symbols raise KeyError. ocutenter and ocumakert scale the whole crystal by zoom. suplat accepts exactly primitive cells. Of several distance restrictions only the first is used. ocumaker's default covers 1 .. all-but-one replacements only if the species is not in the cell yet, and the ternary commands' default element depends on the order of the atoms in the file.", "quantifier": "every cell with supported species and all arguments", "why_tests_cant": "quantifies over all cells and argument values, including the missing ones", "anchors": ["ababe/cmdline/apps/occupybiter.py:App.__init__", "ababe/cmdline/apps/occupymaker.py:App.__init__", "ababe/cmdline/apps/occupytenter.py:App.__init__", "ababe/cmdline/apps/occupymakert.py:App.__init__", "ababe/cmdline/apps/superlattice.py:App.__init__"]}
{"id": "C87", "title": "What it means that a cell is reported primitive", "statement": "All cells that show one crystal, have all its translations in their lattice and repeat no atom have the same number of atoms, and the number of atoms of any other cell of that crystal that repeats no atom is a multiple of it. Hence is_primitive, which only compares the number of atoms with that of spglib's primitive cell, is true exactly when every translation of the crystal is a lattice vector of the cell; the option that demands primitive structures keeps exactly those. A supercell of two or more copies is never reported primitive; the refined primitive cell always is, and it has the same size for a supercell as for the cell. The conventional refined cell keeps the crystal and its size is a multiple of the primitive one.", "quantifier": "every cell that repeats no atom, every crystal, every supercell matrix of determinant below 100000", "why_tests_cant": "quantifies over all translations of infinite crystals and all their cells", "anchors": ["ababe/stru/scaffold.py:GeneralCell.is_primitive", "ababe/stru/scaffold.py:GeneralCell.get_refined_pcell", "ababe/stru/scaffold.py:GeneralCell.get_refined_cell", "ababe/cmdline/apps/occupymaker.py:App.run", "ababe/cmdline/apps/superlattice.py:App.__init__"]}
{"id": "C88", "title": "Derivative structures without a shorter period are listed exactly once", "statement": "Let the parent cell be smallest and let the symmetry groups handed over by spglib be complete. Among all structures that gen_nodup_unitary (gen_nodup_of_ele, gen_nodup_trinary_alloy, or any generator that only changes species) lists for the supercells of all superlattices of one index, a structure with no shorter period than its superlattice appears once only: no other listed structure, of the same or of another superlattice, is carried onto it by a symmetry of the parent; for a parent of one species, by any rigid motion at all. Together with completeness: every derivative structure of index n without a shorter period is listed exactly once.", "quantifier": "every smallest parent cell, complete symmetry groups, index below 2000 in space or in the plane, species and infinite periodic decoration", "why_tests_cant": "quantifies over all infinite decorations, all superlattices and all rigid motions", "anchors": ["ababe/stru/grid.py:SuperLatticeGenerator.hnfs_from_n", "ababe/stru/grid.py:SuperLatticeGenerator2D.hnfs_from_n", "ababe/stru/grid.py:SuperLatticeCell.to_general_cell", "ababe/stru/sogen.py:OccupyGenerator.gen_nodup_unitary", "ababe/stru/sogen.py:OccupyGenerator.gen_nodup_of_ele", "ababe/stru/sogen.py:OccupyGenerator.gen_nodup_trinary_alloy"]}
{"id": "C89", "title": "How many superlattices are listed", "statement": "hnfs_from_n_dups lists, for index n, as many superlattices as the sum over the divisors d of n of d times the sum of the divisors of d; in the plane as many as the sum of the divisors of n. hnfs_from_n lists as many as Burnside's count says: the order of the point group times their number is the number of pairs of a rotation and a superlattice that it carries onto itself (in the plane: for point groups that keep the plane). If the point group has only +1 and -1 nothing is merged; it never merges more than its order.", "quantifier": "every index (below 2000 for the classes), every point group, every order of the divisor set", "why_tests_cant": "an exact count for every index and every group", "anchors": ["ababe/stru/grid.py:SuperLatticeGenerator.hnfs_from_n_dups", "ababe/stru/grid.py:SuperLatticeGenerator2D.hnfs_from_n_dups", "ababe/stru/grid.py:SuperLatticeGenerator.hnfs_from_n", "ababe/stru/grid.py:SuperLatticeGenerator2D.hnfs_from_n"]}
{"id": "C90", "title": "Degenerate input is refused with a definite error", "statement": "Turning a grid into an array fails with AttributeError exactly for ragged grids, with ValueError exactly for regular grids without entries, and succeeds otherwise; turning an array into a grid fails with ValueError without entries, with IndexError for an unknown number, and succeeds otherwise; the same for grids in the plane (whose from_array always fails). The periodic copy used by the disjointness test exists exactly when no list is empty. Permutations of a structure without atoms are a ValueError. A negative number of sites to substitute is a ValueError before anything is produced, in every enumeration. supercell fails with LinAlgError exactly for singular matrices, with ValueError without positive entry, with negative diagonal product, without interior points or atoms, with IndexError when the diagonal product is smaller than the number of interior points found, and succeeds otherwise. A missing file is a FileNotFoundError; a position that cannot be unpacked is a ValueError or TypeError.", "quantifier": "every grid, array, integer matrix, cell, symmetry list, count", "why_tests_cant": "failure is specified for every input, not for chosen ones", "anchors": ["ababe/stru/scaffold.py:SitesGrid.to_array", "ababe/stru/scaffold.py:SitesGrid.from_array", "ababe/stru/scaffold2d.py:SitesGrid2d.get_array", "ababe/stru/scaffold.py:GeneralCell.supercell", "ababe/stru/sogen.py:get_permutation_cell", "ababe/stru/sogen.py:_pool_sites", "ababe/io/io.py:GeneralIO.from_file"]}
{"id": "C91", "title": "Exactly which texts are numbers and structures", "statement": "A text is read as a decimal number exactly when it is white space, an optional sign, digits with or without a point (at least one digit), an optional exponent, white space, and the value read is the one written; a whole number is white space, sign, digits, white space; every other text is a ValueError. split returns exactly the words. A POSCAR text is read exactly when, blank lines dropped, it has a comment, a number, three rows of three numbers, element symbols, no more whole-number counts than symbols, then at most one arbitrary line and rows beginning with three numbers; what is returned is the lattice rounded to four decimals times the scale (or the cube root for a negative scale), the rounded coordinates, and every symbol repeated by its count. A cell results exactly when there is at least one row and there are no more rows than announced atoms; every other text is refused with the error (IndexError, ValueError or KeyError) of the first thing wrong in the order of the lines. Truncated coordinate lists and negative counts are accepted silently.", "quantifier": "all texts, all values of the cube-root oracle", "why_tests_cant": "Tests read a few well-formed files; the exact accepted language, and that nothing outside it is ever accepted, is a statement about all strings in both directions.", "anchors": ["ababe/io/vasp.py:20-51"]}
{"id": "C92", "title": "The enumeration does not depend on arbitrary choices", "statement": "If one crystal is described twice - another origin, another basis of the same lattice, the sites listed in another order or in other cells, the operations in another order, another collision-free hash - then the structures of the two enumerations correspond one to one, each being the other carried over up to a symmetry operation (all sites, sites of an element, sites of a Wyckoff letter, ternary alloys). Different routes to the same structures agree in the same sense: level k of the level-by-level enumeration and the direct enumeration with k replaced sites; naming the only element or not; the order in which two species are named; a ternary alloy with none of the second species and the binary one; one new species or another; replacing n atoms of a pure cell or all but n. The superlattices listed one per class in two bases of a lattice correspond one to one in the same way.", "quantifier": "all cells with pairwise distinct sites, all exact space groups, all changes of frame, all pairs of collision-free hashes", "why_tests_cant": "Relates two runs on two different inputs, over all crystals and all changes of description; tests fix one description and compare counts.", "anchors": ["ababe/stru/sogen.py:OccupyGenerator.gen_nodup_unitary", "ababe/stru/sogen.py:OccupyGenerator.gen_nodup", "ababe/stru/sogen.py:OccupyGenerator.gen_nodup_of_ele", "ababe/stru/sogen.py:OccupyGenerator.gen_nodup_trinary_alloy", "ababe/stru/sogen.py:OccupyGenerator.all_speckle_gen_unitary"]}
{"id": "C93", "title": "The running average with Python's numbers", "statement": "The value Q of a tree node should be the average of the leaf values propagated through it for every way of giving the weight lmbda in [0,1]. This holds if the first leaf value is a float. The leaf value is an int exactly if lmbda is an int (0 or 1, the two documented extremes) and the value function, if called, returned an int; then the property is violated on Python 2 (the only version that has dict.iteritems): the division rounds down, from the third visit on a score below the present value takes 1 off and no score ever adds to it, so a node with one early win and two losses keeps the value -1 for ever.", "quantifier": "all sequences of leaf values, all weights, both division rules", "why_tests_cant": "The drift only shows for integer weights after several visits, and for unboundedly many visits; there are no tests of mcts.py at all.", "anchors": ["ababe/mlearn/mcts.py:TreeNode.update", "ababe/mlearn/mcts.py:MCTS._playout"]}
{"id": "C94", "title": "The two-step workflow misses nothing and invents nothing", "statement": "Running suplat for volume v on a primitive parent cell and then ocubiter on the cells read back from the files it wrote gives, over all runs, files for exactly the derivative structures of the parent with v parent cells per period in which n atoms of the chosen element are replaced: every file of a second run is read back as a decoration of the saved cell that, under one motion which carries the parent crystal to the saved cell, is such a derivative structure; and every such derivative structure, along any integer matrix of determinant +-v, is shown by a file of the second run on the file of its superlattice class. This holds although the second run only sees coordinates rounded to the digits of the file, provided the positions keep clear of the half-thousandths and the symmetry operations reported for the rounded cell are those of the saved cell up to small errors in the translations. If the groups reported are complete, a structure without shorter period is shown by one file of one run only. Likewise for planar superlattices.", "quantifier": "all parent cells, volumes below 2000, numbers and kinds of replaced atoms, all derivative structures along arbitrary integer matrices, all standardisations and all rounded copies", "why_tests_cant": "Composes two commands through the file system; quantifies over infinitely many matrices and crystals and over every way the coordinates may have been rounded. The tests check counts of single steps.", "anchors": ["ababe/cmdline/apps/superlattice.py:App.run", "ababe/cmdline/apps/occupybiter.py:App.run", "ababe/io/io.py:GeneralIO.from_file", "ababe/stru/scaffold.py:GeneralCell.get_shaped_cell", "ababe/stru/sogen.py:OccupyGenerator.gen_nodup_of_ele"]}
{"id": "C95", "title": "Adding one species after the other", "statement": "Enumerating first the placements of n1 atoms v1 on the sites of an element, then for every structure found, with the symmetry of that structure, the placements of n2 atoms v2, and so on for any number of species, raises nothing and yields exactly one structure for every class (under the symmetry of the first structure) of the structures with the prescribed numbers of atoms; the order in which the species are added does not matter; for a structure of one element and two species the result is that of the ternary enumeration.", "quantifier": "all cells with pairwise distinct sites, all exact space groups, any number of new species and any numbers of atoms, all collision-free hashes", "why_tests_cant": "Relates runs of the generator on unboundedly many intermediate structures, each with its own symmetry group, to one global classification; tests only count single steps.", "anchors": ["ababe/stru/sogen.py:OccupyGenerator.gen_nodup_of_ele", "ababe/stru/sogen.py:OccupyGenerator.gen_nodup_trinary_alloy", "ababe/stru/sogen.py:OccupyGenerator.__init__"]}
{"id": "C96", "title": "Old and new generator agree", "statement": "The grid-based generator gen_nodup_cstru on a d x w x l grid and OccupyGenerator.gen_nodup_unitary on the GeneralCell of the empty grid, given the same symmetry operations, yield literally the same GeneralCell structures in the same order, although one sorts by keys of 5 decimals and compares texts of number lists and the other sorts by keys of 3 decimals and compares hashes. Before filtering, CStru.gen_speckle and gen_dup_unitary agree without any assumption on symmetry or hash.", "quantifier": "all grid sizes up to 990 per axis, all bases, all supported species, all numbers of atoms, all exact space groups of the sites, all collision-free hashes, both NumPy text forms", "why_tests_cant": "A refinement between two implementations over all inputs; the tests never run both generators on the same problem.", "anchors": ["ababe/stru/sogen.py:gen_nodup_cstru", "ababe/stru/sogen.py:OccupyGenerator.gen_nodup_unitary", "ababe/stru/scaffold.py:CStru.get_cell", "ababe/stru/scaffold.py:GeneralCell.__init__"]}
{"id": "C97", "title": "Which actions the tree search tries", "statement": "A playout changes only the nodes on its path: every other node keeps value, prior and visits. Consequently a child whose value lies below every value propagated so far, one brother of which has been tried, is never visited again however many playouts follow; the remark in get_move that for many playouts the most visited action is the best one therefore fails: there is a two-move game where for every number of playouts the worse move is returned and the better one never tried. Conversely, while a child a is untried each brother b tried at least twice obeys (P_a - hi) n_b <= c_puct P_b sqrt(N), hi being an upper bound of all values and N the visits of the parent, so an action whose prior exceeds all values is tried after an explicit number of playouts.", "quantifier": "every game, policy and value function, every history of playouts and moves, every node and pair of children, every number of further playouts", "why_tests_cant": "The number of playouts is unbounded and the effect depends on the stale bonus of unvisited nodes; there are no tests of mcts.py.", "anchors": ["ababe/mlearn/mcts.py:TreeNode.select", "ababe/mlearn/mcts.py:TreeNode.update", "ababe/mlearn/mcts.py:MCTS.get_move"]}
{"id": "C98", "title": "Exactly which arrangements the random walk can give", "statement": "random_walk_arrange returns a sequence for some random numbers exactly if it consists of distinct positions from the start, each found among the neighbours of an earlier one, and its length is the first to satisfy is_goal. For Boron2dArrangeProblem and FCC3dArrangeProblem every such sequence of goal_num positions of the grid is possible whatever the iteration order of Python's sets, and as sets exactly the connected sets of goal_num grid positions containing the midpoint occur. Because the grid clips, not every shape occurs: for an even number of atoms a straight row in the third lattice direction is never returned, wherever it lies.", "quantifier": "every problem with hashable positions, every start, path, goal number and set order", "why_tests_cant": "Requires, for every possible arrangement, random numbers producing it; sampling can never show that an arrangement is impossible.", "anchors": ["ababe/mlearn/arrange.py:random_walk_arrange", "ababe/mlearn/arrangeAgent.py:Boron2dArrangeProblem", "ababe/mlearn/arrangeAgent.py:FCC3dArrangeProblem", "ababe/mlearn/dsutils.py:RandomPopSet.random_pop"]}
{"id": "C99", "title": "From the command line to the call", "statement": "A line of runaba or runati calls a command exactly if it is a line of the grammar of that command: pieces in any order, each an option in one of its spellings (--name v, --name=v, -n v, -nv, clusters of short flags) or a plain word, all words after -- being plain, exactly one plain word, naming an existing path, no --help, every counted value convertible. The arguments of the call are then, for each parameter, the last value given, all values in order for --dist-restrict, the declared default otherwise. Lines are unambiguous; only the order of what is said about one parameter matters. Lines of ocutenter without both species and both numbers, of ocumakert without species and of supcell without scale are accepted but always end in an exception, writing nothing.", "quantifier": "every list of words, every command of the two programs, every set of existing paths", "why_tests_cant": "Quantifies over all command lines, all spellings and all orders; the tests call the App classes directly and never parse a line.", "anchors": ["ababe/cmdline/runabalib.py:suplat", "ababe/cmdline/runabalib.py:ocumaker", "ababe/cmdline/runabalib.py:ocubiter", "ababe/cmdline/runabalib.py:ocutenter", "ababe/cmdline/runabalib.py:ocumakert", "ababe/cmdline/runatilib.py:atclear", "ababe/cmdline/runatilib.py:perturb", "ababe/cmdline/runatilib.py:supcell", "ababe/cmdline/runatilib.py:pcell"]}
{"id": "C100", "title": "A session at the shell", "statement": "Typing `runaba suplat -v V -o MODE -- FILE` (or with -L) and then `runaba ocubiter -c X -e E -s S -n N --no-refined -N -- P` for every file P written by the first command: both lines are accepted, the first writes one file per class of superlattices of index V of the crystal in FILE, each second command leaves the other files alone and writes one file for every class of derivative structures along that superlattice, so every derivative structure of FILE of that index, element, species and number is found.", "quantifier": "all input files read as cells with supported species, all volumes below 2000, all elements, species and numbers, all answers of spglib that see the symmetry, all directories and suffixes that do not clash", "why_tests_cant": "Runs from words to files through the option parser, the reader, two generators and the writer; quantifies over all crystals.", "anchors": ["ababe/cmdline/runabalib.py:suplat", "ababe/cmdline/runabalib.py:ocubiter", "ababe/cmdline/apps/superlattice.py:App", "ababe/cmdline/apps/occupybiter.py:App", "ababe/io/io.py:GeneralIO.from_file"]}
{"id": "C101", "title": "A ternary session at the shell", "statement": "Typing `runaba suplat -v V -o yaml -- FILE` and then `runaba ocutenter --comment X --element E --speckle S1 S2 -n N1 N2 --no-refined -N --outmode MODE -- P` for every file P written by the first command: both lines are accepted; each second command reads from P the cell of one superlattice up to the decimals of the file, and writes under unused names one file for every class of decorations in which N1 atoms per period became S1 and N2 others became S2. Each file stands for a derivative structure of FILE, and every such derivative structure is found.", "quantifier": "all input files read as cells with supported species, all volumes below 2000, all pairs of different species not in the cell, all numbers, both output modes, all answers of spglib that see the symmetry, all tempfile choices that avoid existing names while there is room", "why_tests_cant": "Runs from words to files through the option parser, two different YAML readers, two generators and the writer; quantifies over all crystals.", "anchors": ["ababe/cmdline/runabalib.py:suplat", "ababe/cmdline/runabalib.py:ocutenter", "ababe/cmdline/apps/superlattice.py:App", "ababe/cmdline/apps/occupytenter.py:App", "ababe/stru/sogen.py:OccupyGenerator.gen_nodup_trinary_alloy"]}
{"id": "C102", "title": "Every accepted line is carried out with its settings", "statement": "Whatever the spelling and the order of the words of a line of runaba or runati, the command runs with the settings that the line, the file and the defaults determine together: for the ternary commands a zoom or comment on the line counts before the document's, this before the default (1, 'default'); the number of exchanged atoms is that of the line or the command's own default; supcell scales the three vectors by the three numbers in their order; perturb and atclear use the radius of the line; supcell and pcell write a file exactly if another mode than stdio is named. If no settings are determined (unreadable file, missing key, unknown symbol, missing species, non-primitive input), nothing is written.", "quantifier": "all lists of words, all files, all answers of spglib, hash, tempfile and YAML", "why_tests_cant": "Quantifies over all spellings and all files, through parser, reader and command; the tests never run a command.", "anchors": ["ababe/cmdline/runabalib.py:suplat", "ababe/cmdline/runabalib.py:ocumaker", "ababe/cmdline/runabalib.py:ocubiter", "ababe/cmdline/runabalib.py:ocutenter", "ababe/cmdline/runabalib.py:ocumakert", "ababe/cmdline/runatilib.py:atclear", "ababe/cmdline/runatilib.py:perturb", "ababe/cmdline/runatilib.py:supcell", "ababe/cmdline/runatilib.py:pcell", "ababe/cmdline/apps/occupytenter.py:App.__init__"]}
{"id": "C103", "title": "Sessions in any words", "statement": "C100 and C101 do not depend on the spelling of the lines: whatever words, in whatever order, ask suplat for a volume (with or without -L) and then ocubiter or ocutenter, on each file written, for unrefined structures without the supercell filter, the first line writes one file per class of superlattices into the directory of its comment, each second line writes one file per class of decorations, and every derivative structure is found; if the parent is primitive and spglib reports the whole symmetry, each derivative structure that is primitive along its superlattice appears in exactly one file of exactly one second run.", "quantifier": "all pairs of lines with these meanings, all input files read as cells with supported species, all volumes below 2000, all species and numbers, all answers of spglib that see the symmetry", "why_tests_cant": "Quantifies over all spellings of both lines and over all crystals; uniqueness concerns crystals up to symmetry.", "anchors": ["ababe/cmdline/runabalib.py:suplat", "ababe/cmdline/runabalib.py:ocubiter", "ababe/cmdline/runabalib.py:ocutenter", "ababe/cmdline/apps/superlattice.py:App", "ababe/cmdline/apps/occupybiter.py:App", "ababe/cmdline/apps/occupytenter.py:App"]}
{"id": "C104", "title": "Order of the enumeration and chosen representatives", "statement": "The generators list their structures in lexicographic order of the sets of substituted sites: the unfiltered ones list one structure per set, each set once; the filter keeps of every class the member that came first in whatever stream it reads; so the filtered generators list exactly the sets that no symmetry operation maps to a structure of an earlier set, in order (for pairs of sets: by the first species, then the second). This determines the whole output.", "quantifier": "all cells, numbers of substitutions, species, Wyckoff letters, permutation groups keeping the cell, and hashes free of collisions on the relevant decorations", "why_tests_cant": "Says which of the exponentially many orderings and choices of representatives occurs; a test sees only a few small cells.", "anchors": ["ababe/stru/sogen.py:OccupyGenerator.gen_dup_unitary", "ababe/stru/sogen.py:OccupyGenerator.gen_dup", "ababe/stru/sogen.py:OccupyGenerator.gen_dup_of_ele", "ababe/stru/sogen.py:OccupyGenerator.gen_2nodup_gen", "ababe/stru/sogen.py:OccupyGenerator.gen_nodup_trinary_alloy"]}
{"id": "C105", "title": "The two strategies list the same structures in the same order", "statement": "Adding one atom per step and filtering after each step (the all_speckle generators) gives, level by level, the sets that lead their classes, in lexicographic order. If the added species does not occur among the sites used, level k is, cell for cell and in the same order, the output of the generator that chooses all k sites at once.", "quantifier": "all cells, numbers of levels, species, letters, elements, permutation groups keeping the cell, and hashes free of collisions", "why_tests_cant": "Equality of two long lists produced by different search strategies, for all groups; rests on the orderly generation argument (a leading set without its last site leads too).", "anchors": ["ababe/stru/sogen.py:OccupyGenerator.all_speckle_gen_unitary", "ababe/stru/sogen.py:OccupyGenerator.all_speckle_gen", "ababe/stru/sogen.py:OccupyGenerator.all_speckle_gen_of_ele", "ababe/stru/sogen.py:OccupyGenerator.gen_add_one_speckle"]}
{"id": "C106", "title": "Order and representatives of superlattices, grid structures and buckyballs", "statement": "hnfs_from_n keeps of every class of superlattices the first matrix tried, and matrices with the same diagonal are tried in lexicographic order of their other entries, whatever the iteration order of Python's sets and the side on which == is evaluated. The grid-based generator and the buckyball generators list the sets of sites that lead their classes, in lexicographic order; on the carbon ball, adding one atom per step gives the same arrays in the same order as choosing all sites at once.", "quantifier": "all unit cells, rotation groups, indices below 2000, set orders; all grids up to 990 sites a side, exact space groups, species; all decorations of the ball kept by its symmetry, all species and numbers of atoms, hashes free of collisions", "why_tests_cant": "Which representative is returned depends on the whole enumeration order; the number of sets on 60 sites is astronomically large.", "anchors": ["ababe/stru/grid.py:SuperLatticeGenerator.hnfs_from_n", "ababe/stru/grid.py:SuperLatticeGenerator2D.hnfs_from_n", "ababe/stru/sogen.py:gen_nodup_cstru", "ababe/stru/buckyball.py:Structure.all_speckle_gen", "ababe/stru/buckyball.py:Structure.to_nodup_generator", "ababe/stru/buckyball.py:Structure.gen_speckle"]}
{"id": "C107", "title": "Exact POSCAR text, and structures that files keep exactly", "statement": "The POSCAR text of a cell is fixed character by character: every coordinate and lattice entry rounded half to even to six decimals, minus sign exactly for negative numbers, no superfluous zeros, flush right in ten columns (wider if needed), one blank between entries, the composition, scale, symbols and counts as specified; there is exactly one such text and it is the one written. Structures whose entries have at most four decimals survive: reading the text gives the same lattice and the same atoms without vacancies, grouped by species; a cell made by the constructor, without vacancies and with different sites, comes back as the very same cell from a POSCAR or YAML file (from YAML also with vacancies and coinciding sites); hence writing and reading again what was read from a written POSCAR changes nothing.", "quantifier": "every cell with supported species, both modes, every scale; every file name meaning YAML or POSCAR", "why_tests_cant": "a test compares a few texts; that ties, signs of rounded zeros, wide fields and repeated round trips behave for all numbers needs a proof over the rationals", "anchors": ["ababe/io/vasp.py:67-105", "ababe/io/vasp.py:20-51", "ababe/io/yaml.py:31-78", "ababe/io/io.py:17-45"]}
{"id": "C108", "title": "Exactly which files ocubiter and ocumaker leave behind", "statement": "With an exact space group, no hash collision and everything writable, a run of ocubiter ends normally and the whole file system after it is fixed: the wanted ones among the lexicographically first sets of sites of their symmetry classes are written in lexicographic order, the k-th under STRUCTURE_<formula>_<k-th suffix>.<mode> in the new directory with exactly specified text (POSCAR character by character, YAML as the dump of the document with six decimals); every other path is as before. ocumaker does the same first for one substituted atom, then for two, and so on. Two runs meeting this description leave the same contents under every path.", "quantifier": "all cells from the constructor, groups of permutations preserving the species, elements, species, numbers of atoms, restrictions, suffixes and file systems", "why_tests_cant": "tests look at a few files; that nothing else is written, which member stands for each class and in which order suffixes are used concerns the whole enumeration", "anchors": ["ababe/cmdline/apps/occupybiter.py:59-103", "ababe/cmdline/apps/occupymaker.py:53-94", "ababe/stru/sogen.py:gen_nodup_of_ele", "ababe/stru/sogen.py:all_speckle_gen_of_ele"]}
{"id": "C109", "title": "Exactly which files ocutenter and ocumakert leave behind", "statement": "Under the same conditions a run of ocutenter ends normally and files, one after the other, the wanted ones among the lexicographically first pairs of sets of their classes, in lexicographic order, each with exactly specified text (POSCAR, or the dump of the unrounded YAML document) under the name that tempfile draws in the file system as it then is, for the start POSCAR_A..B..C.._ or STRUCTURE_A..B..C.._ with the three numbers and the ending .vasp or .yaml. ocumakert does so for all compositions with at least one atom of each kind, ordered by the number of atoms of the first species and then of the second. For given drawn names the final file system is uniquely determined.", "quantifier": "all cells from the constructor, groups preserving the species, species, numbers of atoms, restrictions, name choosers and file systems", "why_tests_cant": "tests look at a few files; order, representatives and the absence of other writes concern the whole enumeration of all compositions", "anchors": ["ababe/cmdline/apps/occupytenter.py:64-119", "ababe/cmdline/apps/occupymakert.py:61-114", "ababe/stru/io.py:12-131", "ababe/stru/sogen.py:gen_nodup_trinary_alloy"]}
{"id": "C110", "title": "The exact supercell, and exactly which files suplat leaves behind", "statement": "The supercell of a cell by a non-negative triangular integer matrix of determinant below 100000 has the lattice H*L and consists of one image of every atom for each lattice point of the half-open supercell, in the order of the constructor; if its sites stay distinct after rounding to three decimals there is only one such cell. A run of suplat on a primitive cell ends normally: its directory is emptied if it existed, then the first Hermite normal form of every class, in the order of the enumeration, is filed under the next suffix, with exactly specified text, and no other path changes. Given the order in which the matrices are tried, the matrices listed and the final file system are uniquely determined. The same holds in the plane.", "quantifier": "all cells with supported species and distinct sites, all rotation groups, volumes below 2000, suffixes and file systems, all standardising functions", "why_tests_cant": "tests compare one or two supercells and count files; that every point is inside, every class represented by its first matrix and no other file touched concerns all matrices", "anchors": ["ababe/cmdline/apps/superlattice.py:App.run", "ababe/cmdline/apps/superlattice.py:App.__init__", "ababe/stru/scaffold.py:GeneralCell.supercell", "ababe/stru/scaffold.py:GeneralCell.get_shaped_cell", "ababe/stru/grid.py:SuperLatticeGenerator.hnfs_from_n"]}
{"id": "C111", "title": "Exactly what the single-file commands leave behind", "statement": "supcell, pcell, atclear and perturb end normally on valid input and leave behind exactly one changed path - the stem of the input's name with the tag and the mode - with exactly specified text (POSCAR, or the dump of the YAML document), having printed exactly one line; without a mode the exact POSCAR is printed and no file changes. The cell written is the exact supercell, the primitive cell that spglib answers, the atoms not removed (or their primitive cell), or the moved atoms, in the order of the constructor; if nothing is left atclear raises ValueError. What is delivered for a cell is uniquely determined, and so is the cell when its sites stay distinct after rounding to three decimals.", "quantifier": "all cells with supported species, scale factors with product below 100000, radii, random vectors, input names, file systems; standardising functions with the assumed property", "why_tests_cant": "tests do not look at the files; that the text is the exact one for every cell and that nothing else changes needs all inputs", "anchors": ["ababe/cmdline/runatilib.py:47-88", "ababe/cmdline/apps/atomclarifier.py:App.run", "ababe/cmdline/apps/atomperturb.py:App.run", "ababe/io/io.py:GeneralIO.write_file"]}
{"id": "C112", "title": "From the words of a line to the exact files", "statement": "Whatever the spelling and the order of the words, each of the nine commands, called with a line that gives it the file and valid settings, leaves behind exactly the files of C108-C111: the run ends normally, the structures written are the specified ones in the specified order with exactly specified text and names, and no other path changes; the two programs print what is specified. suplat does so in space and, with its switch, in the plane.", "quantifier": "all argument lists accepted for these settings, file systems, cells, groups, species, suffixes and names drawn", "why_tests_cant": "the tests call the application classes directly or one line each; spellings, order of words and exact results range over infinitely many inputs", "anchors": ["ababe/cmdline/runabalib.py:suplat", "ababe/cmdline/runabalib.py:ocumaker", "ababe/cmdline/runabalib.py:ocubiter", "ababe/cmdline/runabalib.py:ocutenter", "ababe/cmdline/runabalib.py:ocumakert", "ababe/cmdline/runatilib.py:atclear", "ababe/cmdline/runatilib.py:perturb", "ababe/cmdline/runatilib.py:supcell", "ababe/cmdline/runatilib.py:pcell"]}
{"id": "C113", "title": "How many files the commands leave in their directories", "statement": "If there was nothing below the directory of a run (suplat: if the directory did not exist or is emptied), then afterwards the number of files below it is the one Burnside's lemma gives. ocubiter and ocumaker: the order of the symmetry group times the number of files is the number of pairs of a symmetry and a wanted structure kept by it, provided the suffixes drawn have equal length and that many of them differ. ocutenter and ocumakert: the sum of these numbers over the compositions, as long as tempfile has names left. suplat, in space and in the plane: the order of the point group times the number of files is the number of pairs of a rotation and a Hermite normal form whose superlattice it carries onto itself. The number is determined by each of these descriptions.", "quantifier": "all cells from the constructor, groups of permutations preserving the species, restrictions invariant under them, suffixes, name choosers, file systems; volumes below 2000 for suplat", "why_tests_cant": "the tests count the structures of one or two enumerations; that the count of files is the number of orbits for every group and cell is a statement about all of them", "anchors": ["ababe/cmdline/apps/occupybiter.py:59-103", "ababe/cmdline/apps/occupymaker.py:53-94", "ababe/cmdline/apps/occupytenter.py:64-119", "ababe/cmdline/apps/occupymakert.py:61-114", "ababe/cmdline/apps/superlattice.py:App.run"]}
{"id": "C114", "title": "As many files as different suffixes", "statement": "Without refinement all structures of one ocubiter run have one formula, so in a directory with nothing in it the number of files after the run is the number of different ones among the first k suffixes drawn, k being the Burnside count of the wanted structures. The same holds for suplat, in space and in the plane, with the Burnside count of the superlattices. The number of different draws is at most k, it is k exactly if no two draws agree, and it is at most 36^m for suffixes of m capital letters and digits; structures are lost as soon as one suffix is drawn twice.", "quantifier": "all cells from the constructor, groups preserving the species, elements, invariant restrictions, sequences of suffixes, file systems; volumes below 2000 for suplat", "why_tests_cant": "whether files are lost depends on the random suffixes; no finite number of runs shows the exact number for every sequence of draws", "anchors": ["ababe/cmdline/apps/occupybiter.py:95-103", "ababe/cmdline/apps/superlattice.py:App.run"]}
{"id": "C115", "title": "What a formula says about a structure", "statement": "Two structures have the same formula exactly if they have the same number of atoms of every element; so the formula in the name of a file can be read back. Two structures that a run writes to one path drew the same suffix (for suffixes of equal length) and were written with the same numbers of atoms: structures of different composition never overwrite each other. In particular structures of different levels of ocumaker have different formulas, also when vacancies are put in or filled. Vacancies are not seen: cells of different size can share a formula.", "quantifier": "all cells, numbers, formulas, suffixes, directories, modes, refined or not", "why_tests_cant": "that symbols and counts run together can never be read in two ways is a statement about all pairs of compositions", "anchors": ["ababe/stru/scaffold.py:GeneralCell.comment", "ababe/cmdline/apps/occupybiter.py:95-103", "ababe/cmdline/apps/occupymaker.py:85-94"]}
{"id": "C116", "title": "As many files of ocumaker as different suffixes within each number of atoms", "statement": "Without refinement, and with nothing in the directory before, the files of an ocumaker run are counted for all sequences of suffixes of one length: the suffixes are used block by block, one block for each number of substituted atoms, of the size that Burnside's count gives for that number; the number of files afterwards is the sum, over the blocks, of the numbers of different suffixes drawn within the block. Files of different blocks never overwrite each other. The number is determined by the draws, is at most the number of structures, and equals it exactly if no two draws within a block agree.", "quantifier": "all cells from the constructor, groups preserving the species, elements, species, largest numbers of atoms, invariant restrictions, sequences of suffixes of one length and file systems", "why_tests_cant": "which files are lost depends on the random suffixes and on the formulas of all levels; no finite number of runs covers every sequence of draws", "anchors": ["ababe/cmdline/apps/occupymaker.py:53-94", "ababe/stru/sogen.py:all_speckle_gen_of_ele"]}
