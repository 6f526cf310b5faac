# Formal model of shaobinqiu/ababe in Rocq (Coq 8.16.1)

The Python sources in `/repo` were only read, never built or run.  Everything below is about
a hand-written Gallina model of them; the correspondence between the model and the Python
text is by reading (every model definition cites file and lines) and is part of what has to
be trusted.

## Layout of `rocq/theories`

| kind | content |
|------|---------|
| `Base.v`, `BaseQ.v`, … | exceptions as values, Python list/dict helpers, exact rationals, rounding |
| `M*.v` | executable, total models of the Python code, with citations |
| `S*.v` | small independent specifications: relations on lists, sets, permutations, lattices, crystals, texts, files |
| `L*.v` | lemmas |
| `P*.v` | the property theorems `Cnn_*`, each closed by a short proof, followed by `Print Assumptions` and by an `Example` meeting its hypotheses |

`properties.jsonl` lists the properties in words, `MANIFEST.json` maps each to its theorems,
`seeded/LOG.jsonl` records the wrong-program experiments.

## Trusted base

* The Coq 8.16.1 kernel (`coqc`; `coqchk` re-checks all compiled files without the VM).
* `Print Assumptions` answers "Closed under the global context" for every property theorem:
  no axioms are used, neither own nor from the standard library.  (`coqchk -o` lists the
  sealed constants of `Coq.ssr.ssrunder`, which the standard library's `ssreflect` plugin
  file contains and which no theorem here uses.)
* Only the standard library is imported; no plugins, functors, module types or kernel
  switches.
* The reading of the Python code: the definitions in `M*.v`, plus the idealisations below.
* The reading of the properties: the definitions in `S*.v`.

### Idealisations common to all models

* Floats are exact rationals (`Qc`).  Every double is a rational, so every input is
  representable; rounding errors of intermediate operations are not modelled, except that C85
  shows which errors cannot change the symmetry permutations and the enumerations.
  `np.around`/`round` are exact round-half-to-even at the given number of decimals.
* Distances are compared through squares; where the code needs a root (`perturb`, negative
  POSCAR scale, MCTS), the root is an argument and the theorem states what is assumed of it.
* A singular lattice with a negative POSCAR scale: numpy divides by zero and goes on with
  infinities; here the quotient is 0 (C68 excludes the case, C91 only says that a cell comes out).
* File contents are texts after Python's newline translation.
* Python 3 throughout, except mcts.py, which needs Python 2 (`dict.iteritems`); its numbers are
  exact rationals in `MMcts`, with Python 2's integer division in `MMctsNum` (C93).
* Exceptions are values (`Raise e`); after an exception only what the theorem says about the
  state is claimed.
* Generators are traces: the list of yielded items and how the generator ended.  Laziness
  matters only for C24 and C27, which use a pull-by-pull model (`MTee.v`).
* Objects whose identity matters (grid rows, sites, cells, tree nodes) live in explicit heaps.
* External code is an explicit argument of the model and whatever is assumed about it is a
  premise of the theorem: spglib (symmetry operations, Wyckoff letters, primitive size,
  `standardize_cell`), xxhash, `random`, `tempfile`, iteration order of `set`, the YAML
  library, `os.getcwd`.
* Loops without an evident bound take fuel; results are `None` when it runs out and the
  theorems either show that enough fuel exists or speak about all fuel values.

## What is modelled

| Python file | model | not modelled |
|-------------|-------|--------------|
| stru/element.py, pt.json | `MElement` (all 74 elements; masses and radii as data) | – |
| stru/scaffold.py `SitesGrid`, `CStru` | `MGrid`, `MGrid2`, `MArrange` (neighbours) | plotting |
| stru/scaffold.py `GeneralCell` | `MGeneralCell`, `MHnf` (supercell), `MCli` (refined, shaped, primitive), `MSpg` (conventional cell) | `get_spacegroup`, `get_symmetry` (one spglib call each), `from_poscar` (empty) |
| stru/scaffold.py `ModifiedCell`, stru/site.py, stru/clarifier.py | `MModCell`, `MSeq` (inherited methods) | – |
| stru/grid.py | `MHnf` | progress bar |
| stru/sogen.py `OccupyGenerator` | `MSogen`, `MComb`, `MTee` | – |
| stru/sogen.py, grid-based functions | `MLegacy` | `lat_dict`, `default`, commented-out `main` |
| stru/restriction.py | `MRestrict` | – |
| stru/io.py | `MCli` (writers used by the ternary commands) | `GeneralCellInput` (empty) |
| io/vasp.py, io/yaml.py, io/io.py | `MIO`, `MText` (characters, numbers, lines) | the YAML library itself |
| stru/scaffold2d.py, mlearn/arrange.py, arrangeAgent.py, dsutils.py | `MArrange` | `raise_not_defined` |
| stru/buckyball.py and its two data files | `MBucky`, `MBuckyTable` | `get_symmetry`, `get_spacegroup` (spglib) |
| mlearn/mcts.py | `MMcts`, `MMctsNum` (integer and float values) | `ParallelMCTS` (empty class) |
| cmdline/apps/*.py, runatilib.py, runabalib.py | `MCli` (the apps), `MOpt` (options, commands, the two programs; the part of click they use, after click 6.7) | progress output, help texts, the wording of complaints, interrupts |

## Proof ideas

| id | modelled | proof idea |
|----|----------|-----------|
| C01, C02 | element table | finite table, lifted to all Z/strings through membership lemmas |
| C03, C04, C05 | SitesGrid as nested lists; `itertools.combinations` | combinations characterised as sublists; induction |
| C06 | heap of list objects | sharing of rows shown for every grid; isolation refuted |
| C07 | CStru.get_cell | index arithmetic |
| C08–C10 | GeneralCell.__init__, lexsort as stable insertion sort | permutation + sortedness + uniqueness of sorted lists |
| C11 | numbers setter with separate spg view | refuted by witness, characterised for all cells |
| C12 | Counter/OrderedDict/sorted/format | counting lemmas |
| C13, C14 | get_symmetry_permutation with operations as argument | sorted duplicate-free lists with equal sets are equal; composition |
| C15 | same | refuted by witness |
| C16–C20 | OccupyGenerator dup/nodup generators as traces | loop invariant on the isoset |
| C21–C23, C25 | add-one-speckle generators, level chain | induction over levels, orbit argument |
| C24 | pull machine with tee buffers | simulation: every reachable state's logs are prefixes of the denotational lists |
| C26 | hash with bounded range | pigeonhole |
| C27 | consumer with write access | witness |
| C28, C29, C30 | legacy sogen functions | string injectivity; loop invariants |
| C31–C35 | grid.py HNF generators, `__eq__` over Qc with rounding | explicit HNF reduction by Bezout; uniqueness; transversal |
| C36–C38 | get_frac_from_mat, supercell | coset representatives; crystal as predicate on points |
| C39–C41 | restriction.py | min over pairs; string scanning; Cauchy–Schwarz against the face normals for skewed cells |
| C42–C50, C67 | ModifiedCell, Site, clarifiers | list refinement; heap separation |
| C51–C56, C68, C69 | vasp.py, yaml.py, io.py on characters | printer/parser lemmas; grammar of POSCAR texts |
| C57–C60, C70, C71 | dsutils, arrange, arrangeAgent, scaffold2d | data-structure invariant; reachability; connectivity of the grid |
| C61, C62, C72 | buckyball table and generators | generating set certificates for the 120-element group; reuse of the C16/C21 invariants; complete search for bond symmetries by certificates |
| C63, C64, C73, C79 | mcts.py | invariant of reachable trees; values as averages of playout results; relational description of expansion and rollout; children of every node from the policy |
| C65, C66, C74 | command-line enumerations, file map | fold invariant; pigeonhole on suffixes; refinement of C16–C21 |
| C75, C76 | suplat, supcell, pcell, atclear, perturb | composition of C34/C35, C37, C77, C46, C49 with the writers |
| C77 | standardised cells | labels all different: translations of the labelled crystal are lattice vectors |
| C78 | terminal output and files of supcell, pcell, atclear and perturb, read again | C52/C56 applied to the delivered text; a text whose second line starts with a letter has no scale |
| C80 | files of the enumerating commands and of suplat, read again | C65/C66/C74/C75 give the files and their texts, C56 reads each of them; LCodec shows that the assumption on the YAML library can be met |
| C81 | mixin methods of MutableSequence on the heap of `MModCell` | loop invariants (swapped ends, unchanged middle); search as first match |
| C82 | counts of the enumerations | Burnside's lemma on lists: matching (class, group element) with (permutation, fixed decoration) |
| C83 | all derivative structures | infinite decorations periodic along any superlattice; representative superlattice (C34), same crystal of the supercell (C37), transversal of the substitutions (C19), composed rigid motions that keep the parent crystal |
| C84 | crystal of a grid structure | C07's site list, wrapped indices; cell sorting keeps the crystal; integer coordinates are unique when the rows are independent |
| C85 | errors in positions, translations, arithmetic | same rounded keys within the margin, so same sorting; row sums bound the propagated error; permutations identified with the true operations |
| C86 | arguments of the enumerating commands | case analysis of the constructors against a small spec (element, species, comment chosen); refuted readings by witnesses |
| C87 | meaning of `is_primitive` | atoms of a cell are mapped onto the atoms of a smallest cell (same translation class); the map is onto with equally large fibres, and one-to-one exactly if the cell is smallest |
| C88 | nothing listed twice | a parent symmetry between two listed structures carries the period lattice of one onto that of the other, so the superlattices are equivalent (one per class, C34/C35), hence equal; then it is a symmetry of the supercell and the decorations are equivalent (one per class, C18). Needs complete symmetry groups (`all_symmetries`), a contract on spglib |
| C89 | number of superlattices | explicit list of the Hermite forms by (d, f) with f dividing d dividing n; Burnside's lemma for a relational group action (pairs (rotation, representative) against (rotation, fixed lattice)) |
| C90 | degenerate input | case analysis of each guard against shape predicates stated with list membership only (`regular`, `hollow`, `some_pos`) |
| C91 | which texts are numbers and structures | the scanners of MText are shown equivalent to a grammar (`float_text`, `int_text`, `fields`, `accepted`) in both directions; errors by inversion of the reader. Modelling notes: `inf`, `nan` and `_` between digits are not numbers in the model; rows that are not three wide are refused by the reader (numpy may postpone the error); a negative scale over a singular lattice gives the oracle's value at 0 (numpy: infinity) |
| C92 | independence of arbitrary choices | two transversals of one equivalence match one to one (`transversal_match`); a change of frame carries transversals to transversals (`crystal_match`); routes compared through the exactness theorems C19-C21. `same_crystal_in` says geometrically (SSym) that two cells with their operations describe one crystal |
| C93 | int or float leaf values | numbers with their Python type (`MMctsNum`); the invariant Q*n = sum for floats; floor division by more than the distance gives 0 or -1 |
| C94 | suplat, then ocubiter on its files | the rounded copy falls into the same canonical cell (C84), so the second run enumerates the classes of the exact saved cell; a motion carries the parent and its superlattice to the frame of that cell (`carries_frame`), through which derivative structures and decorations correspond |
| C95 | one species after the other | transversals compose: representatives under the group, then representatives under the stabiliser of each (`two_steps`), by induction over the species; the operations keeping a decoration are its stabiliser and a group (`keeping_group`) |
| C96 | grid-based generator = `OccupyGenerator` | lock-step simulation: text set and hash set hold the same number lists (`in_step`); both keys give the unique permutation of an exact operation, so the permutation lists are equal; row-major sites are already canonical |
| C97 | exploration of the tree search | `playout_split`: a playout = expansions on the path + updates on the path; value of a tried child >= least value seen (mean), so a lower untried one is never selected; selection of b over untried a bounds n_b, kept by later playouts and by `update_with_move`; summed over the children |
| C98 | range of `random_walk_arrange` | invariant: frontier = all answers so far minus the path; induction on the rest of the path choosing the index to pop; connected sets are exhausted by crossing edges |
| C99 | command lines of `runaba`, `runati` | grammar of pieces and tables of options as inductive relations; scanner = grammar by induction on the words, parameters by last/all occurrences; when the program shows its help or version instead (LOpt5) |
| C100 | session `suplat` then `ocubiter` | C99 on concrete words, then C94 |
| C101 | session `suplat` then `ocutenter` | as C94 and C100 with two species; the file is read without the rounding of the other reader |
| C102 | both programs, from the words and the file to the settings of the run | the settings stated from the parts of the line, the cell or the document, and the defaults; an exception of runati carries no files, the model of its commands writes only at the end |
| C103 | sessions of C100 and C101, any lines | composition of C94, C101 and C102; as there |
| C104 | order of the generators, representatives | `combinations` of an increasing list is lexicographically sorted; the filter keeps what is not related to anything seen before (`firsts`); in a sorted list of all sets these are the leaders (`SOrder.leader`) |
| C105 | level by level = all at once | orderly generation (LOrder3): dropping the last site of a leading set gives a leading set; the children of the leaders, parents in order, list every leader before the other sets of its class |
| C106 | order of superlattices, grid structures, buckyballs | the loop of `hnfs_from_n` computes `firsts`; the nested ranges are sorted; the grid generator through C96, the ball through a lock-step simulation of the generators on cells (LOrder6) |
| C107 | exact POSCAR text; files keep four-decimal structures | the relation `poscar_exact` (SExact) has one solution: numerals by value and length, no leading zero; four-decimal numbers are fixed points of format and rounding; constructor order by C09 |
| C108 | whole file system after ocubiter / ocumaker | `run_app_spec` gives the wanted subsequence; tags along the ordered listing of C104/C105; file text by `exact_text` (C107); uniqueness of listings, names, texts and writes |
| C109 | whole file system after ocutenter / ocumakert | induction over the compositions and the emitted structures; lexicographic pairs by C104; order of compositions from the two nested ranges |
| C110 | supercell; whole file system after suplat | fractional points = cosets of the integer matrix; blocks per atom; induction over the kept matrices; firsts and sorted_blocks from C106 |
| C111 | file system and terminal after supcell, pcell, atclear, perturb | C76 with the exact texts of C107 and the exact supercell of C110; one written path |
| C112 | lines of runaba and runati up to the file system | composition of C102 with C108-C111 |
| C113 | number of files below the directory of a run | Burnside count of the wanted structures or superlattices |
| C114 | number of files for arbitrary suffixes | number of different suffixes drawn |
| C115 | formula of a cell and names of files | formula can be read back; different compositions, different names |
| C116 | number of files of ocumaker for arbitrary suffixes | number of different suffixes drawn, level by level |

Where the code violates a property, the theorem file contains the exact behaviour for all
inputs and a `_refuted` (or named violation) theorem with a witness; the manifest note says so.

### Contract on spglib for C75–C77

`standardized c d` (`SShape.v`): the answer `d` is a cell with as many numbers as positions,
its crystal is that of `c` up to a rigid motion, its lattice contains all translations of
its crystal, and no atom is listed twice.  `standardizes` asks this for all cells whose
species are pairwise different.  The contract is satisfiable (`C77_assumption_met`).
Rational coordinates mean that only answers with rational cells are covered.

## Wrong-program experiments

`seeded/LOG.jsonl` has one line per experiment.  Method: in a scratch copy of the whole
development one model definition is edited the way a programmer might get it wrong; then
every file that depends on it is rebuilt, continuing after errors, and the names of the
proofs that fail are collected.  Each batch starts with a control run of the unedited copy
(no failures).  A theorem that still proves although its claim became false would have to be
tightened; such cases are listed in the `tightened` field.
