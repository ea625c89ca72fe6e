# Formal model of wsmorgan/phonon-enumeration in Rocq (Coq 8.16.1)

## Layout

* `rocq/theories/PyBase.v` – Python vocabulary: exceptions as values (`res`), indexing with Python's
  negative-index rule, `range`, slices, permutations of lists.
* `rocq/theories/*Model.v` – the model, one file per Python module, function by function.  Every
  definition carries a comment with the `/repo` file and lines it models and the simplifications made.
  No proofs in these files.
* `rocq/theories/Spec*.v` – small specifications, independent of the model: permutation actions,
  orbits, subsets, Hermite forms, lattices, ...
* `rocq/theories/*Proofs.v` – lemmas.
* `rocq/theories/Fixtures*.v` – examples transcribed from `/repo/tests` evaluated in the model
  (fidelity tests – tests, not proofs) and non-vacuity witnesses.
* `rocq/theories/Properties*.v` – the property theorems, each `exact lemma`, followed by
  `Print Assumptions`.

## Common modelling decisions

* Python `int` is `Z` (or `nat` where the value is an index, a length or a colour number and the code
  never makes it negative).  Python lists are Coq `list`s; mutation returns the new value.
* Exceptions are values of `res A := Ok a | Err e`.
* Loops become folds, structural recursion, or recursion on fuel; out-of-fuel is the distinguished
  error `OutOfFuel`, and theorems about such a function state that some fuel suffices (termination is
  part of the claim), and that the result does not depend on the fuel.
* Random streams (`random`, `randint`, `shuffle`) are oracles: a list/stream argument; theorems
  quantify over all streams.
* Floating point: where the code only stores small integers in floats (`numpy.zeros` branch counter)
  the model uses `Z`; where a property is about floats the model uses the axiom-free IEEE binary64 of
  `Coq.Floats.SpecFloat`; the geometric routines (lattice vectors, tolerances) are modelled over exact
  rationals/integers with the tolerance as a parameter, and this is said in the comments.

## Per property

| id | model | proof plan |
|----|-------|-----------|
| C01 | `binomial_coefficient` loop over `Z` with floor division | loop invariant: after i steps `t = C(n,i)`; spec counts k-subsets of a list |
| C02 | `multinomial` with numpy int64 wrap-around explicit | exact when all intermediate products < 2^63 (`_partial`), otherwise refuted by witness `[34,34]`; exact-arithmetic core proved for all lists |
| C03 | `_coefficients`, `_hash`, `_invhash` | combinatorial number system; induction on sites, then on colours |
| C04 | `_perm`, `brancher` as a step machine with fuel | machine = lexicographic tree traversal; survivors = lexicographically minimal codes of orbits |
| C05 | the same plus `add_arrows` nested | orbit of pair = orbit of colouring + orbit of arrows under its stabilizer |
| C06 | the same, `supers=False` | sound for any number of species; complete for <= 3 species; refuted for 4 (children of a superperiodic inner node are skipped) |
| C07 | the same, `subset` list | the emitted sequence does not depend on subset; loop stops when the sample is complete |
| C08 | the same, `accept`/`random` oracle | refuted: the loop guard is false at the start, so the result is `[]` for every stream |
| C09 | `add_arrows` | same technique as level 0 of the tree: visited set closed under orbits |
| C10 | `_ahash`, `_ainvhash` | positional notation, induction on the length |
| C11 | `Sequence`, `Product`, `Multinomial`, `_group_to_cyclic`, `polya` | Burnside's lemma on lists + coefficient of the cycle polynomial = number of fixed labelings |
| C12 | C11 and C05 | both sides count orbits |
| C13 | `nchoosek` with true division and final `int(rad/float(len))` in binary64 | refuted by witness; exact if < 2^53 |
| C14 | `_group_to_cyclic` | cycle decomposition by following the permutation |
| C15 | `polya` guard and index shift | case analysis |
| C16 | `_get_HNF_diagonals`, `find_all_HNFs` | membership iff + NoDup |
| C17 | same | existence by Euclid on columns, uniqueness by triangular comparison |
| C18 | `remove_duplicate_lattices` with exact `_is_equiv_lattice` | fold invariant; needs the rotations to act as a group |
| C19 | `SmithNormalForm` | invariant A*H*B=M, det A, det B = +-1, divisibility at exit; termination of every inner loop |
| C20,C21 | `get_concs_for_size` | membership iff; restricted: refuted for unequal denominators |
| C22,C23 | `_group`, `a_group_gen`, `a_group`, `polyaburnside.group` | closure loop invariant; single-generator refutation |
| C24,C25,C26 | `_make_member_list`, `_get_rotation_perms_lists` (translation part), `_find_permutation_of_group`, `_map_dvector_permutation` | arithmetic of Z_a x Z_b x Z_c |
| C27-C30 | `_distribution_summary`, `_distribute`, the table `_polya_out` writes, the filter file of `make_enum_in` (DistModel.v); spec DistSpec.v: what is available, from the counts alone | fold invariants over dictionaries as association lists; every random stream (`nat -> bool`); refutations for C28/C29/C30 |
| C31-C33 | `create_labeling`, enum.out header and row formatting, `read_enum_out`, `_enum_out` numbering (TextModel.v, EnumOutModel.v) | Coq `string`s; `str`, `int`, `split`, `rstrip`, `format` modelled; round trip under a width guard, refuted without |
| C34 | `phenumStr.run` argument logic composed with `read_enum_out` | case analysis; end to end from the file written to the structures selected |
| C38 | `phenumStr` flags (PoscarModel, MakeStrModel) | refutation: "f" is true |
| C35 | `map_enumStr_to_real_space` (MapModel: loop limits as a parameter, with exact quotients and with IEEE doubles from the standard library's SpecFloat) | the points of full columns are a transversal; exact characterisation of the HNFs with a short column; doubles equal exact up to 12 cells (by computation over all HNFs); three refutations |
| C36,C37,C53,C54,C55 | `write_POSCAR`, `write_config`, `_make_structures` (PoscarModel, MakeStrModel): the parts of the file, not its formatting | fold invariants; the file read back by its own lines (PoscarSpec) against the decoration of the crystal (MakeStrSpec); refutations |
| C56 | `get_lattice_pointGroup` (PointGroupModel), integer vectors in units 1/D, rational tolerance; norms through their squares | Cauchy-Schwarz bounds the coefficients of a vector no longer than the longest basis vector by the box; isometries of the lattice are linear, so they are given by the images of the three vectors; Gram matrices decide the tests |
| C57 | the text written by `_polya_out` and read by `_distribution_summary`/`loadtxt` (FilesModel); numpy's integers are 64 bits | column by column: each field is a word followed by a blank unless it fills its column; bounds on the lengths of numerals; false for counts of 2^63 or fifty digits (refuted) |
| C58 | `_print_distribution`, `read_enum`, `make_enum_in` with the directory listing (FilesModel) | the same facts on words; C27 through C57; the files of the other kinds of distribution are not readable (refuted) |
| C59 | `read_lattice` on texts (LatticeInModel; `float` as exact rationals), `get_arrow_concs`, and `setup_of`, which makes of the result what RunModel takes | induction over lines; numerals by their digits; the spec (LatticeInSpec) says which texts say what. Refuted: two blanks between sizes, arrows asked for without restrictions, 0.58 of 50 atoms in doubles |
| C60 | `_polya_out`, `_enum_in`, `_enum_out` chained through the texts of their files (RunModel), with the models of all the steps; concentrations unrestricted or within ranges | the count of each system is the number of its orbits (C11 with the |G| <= 48 n bound, so that no float or 64-bit limit matters), it keeps enum_sys off guess-and-check, C50 gives each system, distinct systems hold different crystals, C58/C32 carry the rows through the files; up to 20 cells for two species, 15 for three; C60_from_text_partial starts from the text of lattice.in (RunText: vectors in lowest terms); C60_several_atoms_partial: several atoms per cell, one at the origin, on lattices whose symmetries are involutions (`good_basis` in RunSpec; LatBasis for the size of the group, BoxLattice for an example); C60_several_from_text_partial: the same from the text of lattice.in (SetupBasis: the coordinates the steps compute are the given ones) |
| C61 | `_script_enum` and its three steps over a directory (ScriptModel: a directory is names and texts; a command gives the list of its writes and how it ends; a crash keeps a prefix of the writes) | the names that can occur among the writes, by structure of the program |
| C62 | the same, with LatticeInModel and RunModel for the texts | C60's lemmas on each step, for the counts up to any size t; refuted for a directory with files of another lattice.in; several atoms per cell in PropertiesScriptBasis, displaced species in ScriptArrows and PropertiesScriptArrows (the lemmas of C68 on each step) |
| C63 | prefixes of the writes of C62 | case by case: no counts, counts up to size t, enum.in there; refuted: between two counts (and inside enum.in, C63_torn_refuted). Writes are whole files in the proved part |
| C64 | as C61 | as C61; refuted for two commands at once and for -sizes; C64_kinds: which word stands for which table |
| C65 | `_does_mapping_exist`, `_get_transformations`, `get_spaceGroup` over exact rationals (SpaceModel) | integers for the fractions: a tolerance between the errors and the spacing makes every comparison the comparison of integers modulo N; a motion that keeps the crystal maps the first atom to one of its type; C56 for the rotations. C65_integer_form links to the integer form used by C48-C50 and C60 |
| C66 | nothing new: the point group with rounded Cartesian matrices (PointGroupModel) in the runs of C60 | refuted: two entries of the table of directions stay 0 if a rotation takes an axis away from all axes, so `_get_rotation_perms_lists` exits; positive part: catalogues of the same crystals under the same equivalence are equally long (pigeonhole), C60 for both orientations |
| C67 | `add_arrows` with `supers=False` (ArrowSuper) | what the comparison at phonons.py:200-213 accepts (`looks_fixed`) is being fixed when the species determines the skeleton; refuted for a species with and without arrows |
| C68 | nothing new: RunModel and LatticeInModel with `s_arrows` and the displaced counts of phonons.py:326 | the count of a system with displacements is the number of orbits of decorations with directions (C12/C15 with the bound on |G|), at least the number of structures wanted, so `enum_sys` takes the branch that lists all of them (the one-species branch of phonons.py:465-482 separately, RunArrowOne); the list of each system is complete by C67/C50; then the file and back as for C60; C68_several_atoms_partial and C68_several_from_text_partial as for C60 |
| C69 | PoscarsModel: the loop of `_make_structures` over all structures, file names of `write_POSCAR` (one `{}`) | rows of C60/C62 with what makeStr uses of them (RunTop `makeable`); C53 for every row; conversely a periodic crystal shown by the POSCAR is the one of the row, since the atoms are a transversal; the catalogue is carried over row by row; `full` for all HNFs up to 7 cells by computation on doubles | partial: one atom (or several on lattices with involutive symmetries), no displacements, up to 7 cells |
| C70 | `read_group`, the branch of `enum_sys` with a file (GroupFileModel) | a file is described by a relation between text and permutations (line breaks anywhere between numbers); induction over its lines; the classes by C40 with directions [0] | partial: bounds of C40 on the counts; refuted with displaced species (the group read has one direction) |
| C71 | `write_struct_enum` (StructEnumModel) | words of the lines of the text, by the lemmas of C57 | proved |
| C72 | LatDim = 2: `_rm_3D_operations`, `_get_dvector_permutations`, `_get_sLV_fixing_operations`, `get_sym_group`, `get_HNFs` (SurfaceModel) | no operation is removed when all keep the normal; the lattices refused are exactly those not of the form that is checked (C72_vectors, C72_vectors_accepted); otherwise the list of permutations is shorter than the list of operations and the index runs over its end; runs pass LatDim = 3 whatever lattice.in says, so two layerings that a cubic rotation exchanges share a row (C60_from_text_partial) | partial: refuted unless all symmetries keep the normal; refuted for runs |
| C73 | ScriptModel `script` with -distribution, FilesModel, DistModel | the options picked apart step by step (number, sizes from the listing, filter lines), the tables read back (C57), the distribution by C27, C28 and C30 for any filter, the file written read back (C58 generalised to any distribution; tables of the other kinds by the same columns) | partial: everything and the errors as claimed; a smaller number only within bounds |
| C74 | ScriptModel `script` with -polya, -distribution, -enum | the steps of ScriptMain chained through the directories between them; for one command, the same run with its output elsewhere; displaced species in PropertiesWorkflowArrows | partial: the three commands for what C62 covers; -polya -enum refuted |
| C75 | TreeModel `brancher`, `bump_subset`, `next_sample`; EnumSysModel `enum_sys` with supers false | invariant of the walk (SampleSuper `moved`): the positions not yet reached stay in the sample, the kept ones are in it, its length is unchanged; then `enum_sys` unfolded as for C40 | partial: sound for every sample and shuffle; the number wanted refuted |
| C76 | RunModel `enum_lines` with any numbers, ScriptModel `script` with -polya, -distribution and -enum | RunSample: each line by C75 (`enum_sys_sample`) on the checked system of its shape, rows read back as for C60, then the lines of the counts; the samples are moved only along the shuffled list, so every permutation is covered | partial: no displacements, at most 19 sites of two species or 13 of three |
| C77 | VisualModel: segments and dots of visualize.py as exact rationals; lines of enum.in, names, the command | VisualProofs: the loops give one site per class (C35), the reduced vectors span the superlattice (C45), cartesian2direct moves by superlattice vectors into the cell (C39); refutations by evaluation, and by the index of the second atom for any form | partial: one atom per cell, symmetric matrix, 12 cells; what matplotlib draws is not modelled |
| C78 | the commands of C74; `cut`: a prefix of the writes and any text in the next file | PropertiesRecover: the writes of -polya depend on lattice.in only, -distribution reads the counts and the names, -enum reads lattice.in and enum.in; for the crystals the lemmas of C62; refuted when the stopped -polya is not given again | partial: what C62 and C74 cover, with and without displaced species |
| C79 | the commands of C74 with all random numbers, orders and dates as variables | ReproProofs: `add_arrows`, `brancher`, `enum_sys` without -acceptrate do not read the accept/reject stream (induction on the loops); with everything wanted `enum_sys` neither draws nor shuffles; `distribute` of everything draws nothing; PropertiesReproducible: the three commands | partial: what C62 and C74 cover, with and without displaced species |
| C39 | `bring_into_cell`, `cartesian2direct` over Q (CellModel.v; every double is a rational, rounding not modelled) | invariant: after n-k passes every coordinate is within k of the cell; n = ceiling of the largest coordinate, so the exit of `bring_into_cell` is never taken |
| C40,C41 | `enum_sys` dispatch, `guess_and_check_brancher` | refutations + conditional theorems |
| C42,C43 | `arrow_concs`, `how_many_arrows`, `_color_list`, `_find_concentrations` | list induction |
| C44 | `element_data.get_lattice_parameter` | weighted mean bounds over Q; refutation for Pb |
| C46 | `remove_duplicate_lattices` degeneracies | orbit-stabiliser on HNFs |
| C47 | `polyaburnside.group` | the generic closure loop of C22, with `g_apply` |
| C48 | `get_spaceGroup`, `_get_dvector_permutations`, `_get_rotation_perms_lists`, `get_sym_group` over integer lattice coordinates | crystals as point sets, sites numbered through the Smith form; each step is matched with the permutation induced by an affine map; refuted (and therefore partial) for bases on which a rotation and its inverse act differently: among others hexagonal close packing (2x2x1 cells) and, with displacements, diamond (4 cells), PropertiesPacking.v |
| C49 | `SmithNormalForm`, `get_sym_group`, `brancher`, `add_arrows` together (`SuperModel.sym_group`) | decorations are functions on the points of the infinite crystal; lists of labels are read through the numbering of sites; the group of site permutations is the group induced by the affine maps (C48), so orbits of labels are classes of decorations. Partial only in the hypothesis on the basis that C48 needs; unconditional for one atom per cell; refuted for hexagonal close packing and for diamond, where a structure that is counted is not listed (`C49_hcp_refuted`, `C49_diamond_refuted`: a finite check over rotations and shifts modulo the supercell) |
| C50 | the same over all of `get_HNFs` (`SuperModel.enumerate_size`) | a decoration determines its primitive superlattice; C17 gives its HNF, C18 the representative; operations between decorations primitive with H and K carry H to K, so nothing repeats across supercells. Complete for up to three species (C06), sound for any number. With displacements (`StructArrows`): first operations of the group are the translations with the identity on the directions, C67 removes the rest |
| C51 | `add_arrows(small=True)` with the random numbers as a stream | invariant of the visited list; counting for non-termination |
| C52 | `enum_sys` for one species | reduction to `add_arrows` (C09) and `polya` (C12); witness for the refuted half |
| C45 | `_gaussian_reduce_two_vectors`, `_reduce_C_in_ABC`, `_minkowski_conditions_check`, `_minkowski_reduce_basis` with integer vectors in units of 1/D and a rational tolerance (ReduceModel.v); norms are compared through their squares, which ReduceNorm.v shows to be the comparison of norms | unimodular steps; nearest-integer steps shorten; one of the four corners is closest because the pair is reduced and eps <= 1/4; the twelve conditions imply Minkowski-reduced by splitting off the smallest coefficient; refuted: the caps of ten passes |

## What is modelled and what is not

Modelled, function by function (the comments of the definitions give the lines): `numerics.py`; `phonons.py` and
`tree.py` (all of the enumeration); `grouptheory.py`;
`HNFs.py`; `symmetry.py`; `polyaburnside.py` except `Sequence.kidcount`, `expand_noappend` and `__str__`;
`structures.py`; `enumeration.py` (`_script_enum`, `_polya_out`, `_enum_in`, `_enum_out`); `vector_utils.py`;
`element_data.py`; `phenumStr.py`; `io_utils.py` except `which`.

Not modelled: what matplotlib makes of the segments and dots of `visualize.py` (colours, views, `-show`, `testmode`), `msg.py` and progress bars (terminal output), argparse plumbing in
`base.py`, `-profile`, and the functions named above.

Simplifications that matter:

* Numbers.  Python ints are Z; numpy ints are Z with the 64-bit limits stated where a file is read back (C57).  Floats are
  exact: as integers with a tolerance shown to separate them (SNFModel, GroupModel, ConcsModel), as rationals (CellModel,
  ReduceModel, SpaceModel, LatticeInModel), or as IEEE doubles with rounding (MapModel, `displaced_double`) where rounding
  decides the result.  The factorials and divisions of `polya` are exact, and separately checked in the two versions of
  Python's division (C11-C15).
* Files.  A text is a string; a directory is a list of names and texts (ScriptModel); writing a file is one step, except
  in C63_torn_refuted.
* Randomness.  `random`, `shuffle` and `choice` are arbitrary functions over which the theorems quantify.
* Non-termination.  Loops that need not end have fuel; every theorem says that enough fuel exists, or that none does.
* Exceptions are values (`res`); `exit()` is one of them.
* Printing to the terminal is dropped.

## Trusted base

Coq 8.16.1's kernel, including `vm_compute` (coqchk redoes those proofs without it); the reading of the Python source that
the comments record; the specification files (`*Spec.v`) and the statements in `Properties*.v`.

`Print Assumptions` for every theorem named in MANIFEST.json (it stands under most of them, too): all are "Closed under the
global context" but one.  `C45_norm_comparison` (that comparing squares is comparing norms, over R) rests on the standard
library's axioms for the reals: `ClassicalDedekindReals.sig_not_dec`, `ClassicalDedekindReals.sig_forall_dec`,
`FunctionalExtensionality.functional_extensionality_dep`.  coqchk's list for the whole development also has
`Coq.ssr.ssrunder.Under_rel.*` and `Classical_Prop.classic`, which come with the libraries loaded and are used by no theorem
of ours.  There are no axioms, parameters, functors or module types of our own.

## How the theorems were tested

`seeded/LOG.jsonl` has one line per edited model: the definition, the edit, the claim it breaks, the first lemmas that no
longer compile, and the property theorems about the claim that are lost with them (a property theorem counts as failed when
its file no longer builds).  "survived" marks edits that no theorem noticed; "tightened" names what was changed because of
that.  `Fixtures*.v` evaluate the model on examples of `/repo/tests` so that the model and the code can be compared.

## What was found in the code

False claims have a `_refuted` theorem with a witness, named in MANIFEST.json.  In short:

* Symmetry.  `_get_dvector_permutations` multiplies by the rotation from the wrong side (the inverse rotation) but adds the
  shift forwards: wrong for bases of several atoms unless a rotation and its inverse act alike on them (C48): in hexagonal close packing
  with 2x2x1 cells and in diamond with 2x2x2 cells structures that are counted are not listed (C49).  (The fixtures
  get_dvector_permutations.*.11 of the tests have the same row convention, and the cell of hexagonal close packing gives
  the same permutations in doubles.)  Matching of
  group elements with `allclose`'s default relative tolerance goes wrong for Smith normal forms with entries beyond 10^5 (C26).
  On hexagonal lattices the rounded Cartesian rotations are not signed permutations, or wrong ones: the arrow group is not
  a group or the program exits (C66).  `get_spaceGroup` misses symmetries of cells that are not primitive (C65; documented).
  `get_sym_group` changes the caller's basis vectors.  LatDim = 2 filters the permutations but not the rotations.
* Enumeration.  Four species and more: `brancher` without superperiodic structures leaves others out (C06).  With an
  acceptance rate nothing is returned (C08).  A species of which only some atoms are displaced: C52, and without superperiodic structures others are lost as well (C67, C50).
  `guess_and_check_brancher` and `add_arrows(small=True)` may loop for ever or return equivalent structures (C40, C41, C51);
  large cells fall into it.  `not super` negates the builtin function, so the check of the number of configurations never
  runs.  One generator gives an empty group, and arrow parts are composed in the wrong order (C22).
* Counts.  Beyond 2^63 numpy's products wrap around (C02); floating-point steps of `polya` go wrong, first found at 67
  sites (C13); the counts of polya.out include superperiodic structures.
* Concentrations.  Ranges with different denominators lose concentrations (C21); 0.58 of 50 atoms is 28 (C59); the arrows flag
  is ignored when concentrations are not restricted.
* Distributions.  A concentration filter keeps the row totals of the other concentrations; only two numbers of its line are
  read; a random distribution can miss the number asked for (C28-C30).  Saved files for size, shape and concentration are
  read back as nonsense (C58).
* Files.  Counts from 2^63 on, or of fifty digits, cannot be read back (C57).  enum.out's columns of width 3 and 5 run together
  for 100 cells, or left transforms of -1000 and less (C32).  Labels are ambiguous for more than ten species (C31).
  lattice.in: a blank line is an IndexError, two blanks in the line of sizes a ValueError (C59).
  Old polya.out.* and enum.in files are used for a new lattice.in (C62); after a crash between two files of counts the next
  run silently leaves sizes out (C63); `-polya` with a second command writes to polya.out, which then stops make_enum_in, and
  `-sizes a b` leaves out b (C64).  With no systems at all `_enum_out` ends with a NameError (C33).
* makeStr.  Loop limits exit for some HNFs (first at 8 cells); rounding of doubles changes the points (first at 36 cells,
  silently at 42, C35); displacements in POSCAR, the numbering of MTP types, basis atoms outside the cell, "Pd" for Pb,
  the flags and structure numbers 0, -6 and "all 7" (C35-C38, C44, C54, C55).
* Reductions: ten passes are not always enough (C45); `bring_into_cell` with eps = 0 leaves a coordinate equal to 1 (C39).
* Bounds: SmithNormalForm's limit on passes is only reached for determinants of astronomical size (C19).
