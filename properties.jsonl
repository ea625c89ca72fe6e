{"id": "C01", "title": "Binomial coefficients are exact", "statement": "binomial_coefficient(n,k) returns exactly the number of k-element subsets of an n-element set for 0<=k<=n, and 0 for every other pair of integers; no floor division in the loop ever discards a remainder.", "quantifier": "all integers n and k", "why_tests_cant": "The loop divides at every step; a test only shows that the sampled divisions were exact.", "anchors": ["phenum/numerics.py:binomial_coefficient"]}
{"id": "C02", "title": "Multinomial coefficients are exact", "statement": "multinomial(concs) returns exactly the number of distinct arrangements (sum concs)!/prod(concs!) of the given species counts.", "quantifier": "all non-empty lists of non-negative counts", "why_tests_cant": "numpy integers wrap silently at 2^63; small tests never reach the wrap.", "anchors": ["phenum/numerics.py:multinomial", "phenum/numerics.py:binomial_coefficient"]}
{"id": "C03", "title": "Mixed-radix numbers and labelings are in bijection", "statement": "For any concentrations, decoding a mixed-radix number (_invhash) whose digits are below the radices (_coefficients) yields a labeling with exactly the requested number of each colour; distinct numbers give distinct labelings and every labeling with those concentrations is the decoding of exactly one number, whose digits _hash recovers level by level.", "quantifier": "all lists of positive concentrations and all digit vectors below the radices / all labelings", "why_tests_cant": "Combinatorially many labelings; a round-trip test samples a handful.", "anchors": ["phenum/tree.py:_coefficients", "phenum/tree.py:_hash", "phenum/tree.py:_invhash"]}
{"id": "C04", "title": "Full enumeration lists every symmetry-distinct colouring exactly once", "statement": "brancher(concs, group, ..., supers=True) without arrows terminates, raises nothing and returns a list of colourings with the requested concentrations such that no two are equivalent under the group and every colouring with those concentrations is equivalent to one of them.", "quantifier": "all lists of positive concentrations (any number of species) and all permutation groups on the sites", "why_tests_cant": "The claim ranges over every group and every system size; tests compare a few stored outputs.", "anchors": ["phenum/tree.py:brancher", "phenum/tree.py:_perm", "phenum/tree.py:_hash", "phenum/tree.py:_invhash"]}
{"id": "C05", "title": "Full enumeration with displacement arrows lists every symmetry-distinct decorated structure exactly once", "statement": "With arrows on some species, brancher(..., supers=True) returns decorated colourings (species plus arrow direction on each arrowed site) that are pairwise inequivalent under the joint site/arrow action, and every decorated colouring is equivalent to one of them.", "quantifier": "all concentrations, all arrowed-species choices, all joint site/arrow groups", "why_tests_cant": "Exponential number of decorated colourings.", "anchors": ["phenum/tree.py:brancher", "phenum/phonons.py:add_arrows", "phenum/tree.py:_perm"]}
{"id": "C06", "title": "Superperiodic structures are removed and nothing else is lost", "statement": "brancher(..., supers=False) without arrows returns exactly the representatives of the full enumeration that are not mapped to themselves by a non-trivial lattice translation.", "quantifier": "all concentrations, groups and cell sizes", "why_tests_cant": "Whether pruning skips a non-superperiodic descendant depends on tree shape; stored test cases use at most three colours.", "anchors": ["phenum/tree.py:brancher"]}
{"id": "C07", "title": "A sampled enumeration returns exactly the requested members of the full enumeration", "statement": "brancher(..., subset=S) with S a list of distinct numbers between 1 and the total returns exactly len(S) structures, namely those at positions S of the full enumeration, in order.", "quantifier": "all systems and all sample lists", "why_tests_cant": "Samples are random; a test sees one.", "anchors": ["phenum/tree.py:brancher", "phenum/phonons.py:enum_sys"]}
{"id": "C08", "title": "An acceptance rate yields structures", "statement": "Requesting a large enumeration with -acceptrate returns, up to randomness, a non-empty subset of the unique structures (at most the number wanted).", "quantifier": "all systems, all sample sizes, all random streams", "why_tests_cant": "Path is excluded from the tests ('pragma: no cover').", "anchors": ["phenum/tree.py:brancher", "phenum/phonons.py:enum_sys"]}
{"id": "C09", "title": "Arrow arrangements on a fixed colouring are listed once per symmetry class", "statement": "add_arrows(col, stabilizer, dim, ...) with supers=True returns, for each class of arrow assignments under the stabilizer of the colouring, exactly one member, and the colours of the result are those of col.", "quantifier": "all colourings, all groups fixing them, all numbers of arrow directions", "why_tests_cant": "dim**narrows assignments.", "anchors": ["phenum/phonons.py:add_arrows", "phenum/phonons.py:_ahash", "phenum/phonons.py:_ainvhash"]}
{"id": "C10", "title": "Arrow hash is a bijection", "statement": "_ainvhash(_ahash(a),len(a),dim)=a for every arrow list with entries in [0,dim), _ahash(_ainvhash(h,n,dim))=h for every h below dim**n, and the decoded list always has n entries below dim.", "quantifier": "all dims >= 1, all lengths, all numbers", "why_tests_cant": "Unbounded domain.", "anchors": ["phenum/phonons.py:_ahash", "phenum/phonons.py:_ainvhash"]}
{"id": "C11", "title": "The Polya count is the number of symmetry-distinct structures", "statement": "polya(concs, group, arrowings) equals the number of orbits of colourings with those concentrations (with arrow directions on the last `arrowings` colours) under the joint site/arrow group.", "quantifier": "all concentrations and all finite groups of (site, arrow) permutations for which max(sites, operations) times the number of decorated colourings is below 2^53 (larger cases are the subject of C13)", "why_tests_cant": "A counting theorem over all groups (Burnside/Polya); tests check stored numbers.", "anchors": ["phenum/polyaburnside.py:polya", "phenum/polyaburnside.py:Product", "phenum/polyaburnside.py:Multinomial", "phenum/polyaburnside.py:Sequence", "phenum/polyaburnside.py:_group_to_cyclic"]}
{"id": "C12", "title": "Predicted count equals enumerated count", "statement": "For every system, the number of structures returned by the full enumeration (superperiodic kept) equals the number predicted by polya.", "quantifier": "all concentrations, groups and arrow choices within the same range as C11", "why_tests_cant": "Relates two independent algorithms on all inputs.", "anchors": ["phenum/polyaburnside.py:polya", "phenum/tree.py:brancher"]}
{"id": "C13", "title": "Polya arithmetic is exact", "statement": "polya returns the exact integer count however large it is.", "quantifier": "all concentrations and groups", "why_tests_cant": "nchoosek and the final division use floating point; tests stay below 2^53.", "anchors": ["phenum/polyaburnside.py:Multinomial.nchoosek", "phenum/polyaburnside.py:polya"]}
{"id": "C14", "title": "Cycle bookkeeping is complete", "statement": "For every group operation the cycle dictionary built by the Polya counter lists every cycle of the site permutation exactly once with its length (lengths sum to the number of sites) and attaches to each length the number of arrow directions fixed by that many applications of the arrow permutation.", "quantifier": "all site and arrow permutations", "why_tests_cant": "All permutations of any size.", "anchors": ["phenum/polyaburnside.py:_group_to_cyclic"]}
{"id": "C15", "title": "Polya rejects mismatched concentrations and accepts one-based groups", "statement": "polya raises ValueError exactly when the concentrations do not sum to the number of permuted sites, and gives the same count for a group written with indices starting at 1 as for the same group starting at 0. A zero-based group handed in is left unchanged; a one-based one is rewritten in place to its zero-based form.", "quantifier": "all concentrations and groups", "why_tests_cant": "All inputs.", "anchors": ["phenum/polyaburnside.py:polya"]}
{"id": "C16", "title": "All Hermite Normal Forms of a given determinant are produced exactly once", "statement": "find_all_HNFs(n) contains exactly the integer matrices [[a,0,0],[b,c,0],[d,e,f]] with a*c*f=n, 0<=b<c, 0<=d,e<f, each exactly once.", "quantifier": "all n >= 1", "why_tests_cant": "Unbounded n.", "anchors": ["phenum/HNFs.py:find_all_HNFs", "phenum/HNFs.py:_get_HNF_diagonals"]}
{"id": "C17", "title": "The HNFs represent every superlattice of index n exactly once", "statement": "For every integer matrix of determinant +-n there is exactly one matrix in find_all_HNFs(n) whose columns span the same lattice.", "quantifier": "all n and all integer 3x3 matrices of determinant +-n", "why_tests_cant": "Infinitely many matrices.", "anchors": ["phenum/HNFs.py:find_all_HNFs"]}
{"id": "C18", "title": "Duplicate-lattice removal keeps one representative per symmetry class", "statement": "remove_duplicate_lattices keeps a sub-list of the input HNFs in which no later lattice is a rotation of an earlier one, and every input lattice is a rotation of a kept one.", "quantifier": "all lists of HNFs, parent lattices and rotation groups", "why_tests_cant": "All lattices.", "anchors": ["phenum/HNFs.py:remove_duplicate_lattices", "phenum/grouptheory.py:_is_equiv_lattice"]}
{"id": "C19", "title": "Smith Normal Form is correct", "statement": "SmithNormalForm(H) returns (M,A,B) with A*H*B=M, A and B unimodular, M diagonal with positive entries each dividing the next, for every integer matrix of determinant between 1 and 2^25; for larger determinants it returns such a triple or raises RuntimeError (its cap of 99 passes); it raises ValueError for determinant < 1. The product of the diagonal is det H.", "quantifier": "all integer 3x3 matrices", "why_tests_cant": "Infinitely many matrices; the internal self-checks compare only .any() booleans.", "anchors": ["phenum/grouptheory.py:SmithNormalForm", "phenum/grouptheory.py:_find_minmax_indices"]}
{"id": "C20", "title": "Unrestricted concentration list is complete", "statement": "get_concs_for_size without restriction lists every way of distributing size*nB atoms over the species exactly once.", "quantifier": "all sizes, species counts and basis sizes", "why_tests_cant": "All inputs.", "anchors": ["phenum/symmetry.py:get_concs_for_size"]}
{"id": "C21", "title": "Restricted concentration list honours the requested ranges", "statement": "get_concs_for_size with restrictions lists, once each, exactly the species counts that sum to the number of atoms and whose fractions lie in each species' requested [min/denominator, max/denominator] range.", "quantifier": "all ranges, sizes and species counts", "why_tests_cant": "Odometer loop over all ranges.", "anchors": ["phenum/symmetry.py:get_concs_for_size"]}
{"id": "C22", "title": "Group generation closes the generators", "statement": "a_group_gen / _group applied to generator permutations returns, without duplicates, exactly the group they generate.", "quantifier": "all sets of generator (site, arrow) permutations", "why_tests_cant": "All generator sets.", "anchors": ["phenum/grouptheory.py:_group", "phenum/grouptheory.py:a_group_gen", "phenum/polyaburnside.py:group"]}
{"id": "C23", "title": "Combining translations and rotations", "statement": "a_group(trans, rots) returns without duplicates exactly the set of compositions of each translation with each rotation, paired with the rotation's arrow action; it is a group when the translations are normalised by the rotations.", "quantifier": "all translation and rotation lists", "why_tests_cant": "All inputs.", "anchors": ["phenum/grouptheory.py:a_group"]}
{"id": "C24", "title": "Member list enumerates the quotient group", "statement": "_make_member_list([a,b,c]) lists every element of Z_a x Z_b x Z_c exactly once, element number i*b*c+j*c+k being (i,j,k).", "quantifier": "all positive a,b,c", "why_tests_cant": "Unbounded.", "anchors": ["phenum/grouptheory.py:_make_member_list"]}
{"id": "C25", "title": "Translation permutations form a simply transitive abelian group", "statement": "The translation part of the symmetry group built for a supercell consists of n distinct permutations of the n*nD sites, closed under composition, each acting within a basis block, the first being the identity, and exactly one taking a given site to another of the same block.", "quantifier": "all Smith forms and numbers of basis atoms", "why_tests_cant": "All supercells.", "anchors": ["phenum/grouptheory.py:_get_rotation_perms_lists", "phenum/grouptheory.py:_find_permutation_of_group"]}
{"id": "C26", "title": "Matching of permuted lists", "statement": "_find_permutation_of_group and _map_dvector_permutation return the permutation taking one list of vectors to the other whenever the two lists contain the same distinct vectors.", "quantifier": "all lists", "why_tests_cant": "All lists.", "anchors": ["phenum/grouptheory.py:_find_permutation_of_group", "phenum/grouptheory.py:_map_dvector_permutation"]}
{"id": "C27", "title": "A full distribution asks for everything", "statement": "Building a distribution with number 'all' requests, for every size/shape/concentration, exactly the number of unique structures in the polya files, with grand total equal to the sum.", "quantifier": "all polya data sets", "why_tests_cant": "All data sets.", "anchors": ["phenum/structures.py:_distribute", "phenum/structures.py:_distribution", "phenum/structures.py:_distribution_summary"]}
{"id": "C28", "title": "A distribution of n structures totals n", "statement": "_distribute(..., n) returns a distribution whose numbers add up to exactly n ('this one does [guarantee the total n]').", "quantifier": "all data sets, all n, all random streams", "why_tests_cant": "Random rounding; a seeded test sees one stream.", "anchors": ["phenum/structures.py:_distribute"]}
{"id": "C29", "title": "A distribution never requests more structures of a kind than exist", "statement": "Each number in the distribution returned by _distribute is at most the number of unique structures of that kind.", "quantifier": "all data sets, all n, all random streams", "why_tests_cant": "Random rounding.", "anchors": ["phenum/structures.py:_distribute"]}
{"id": "C30", "title": "Filters restrict the distribution consistently", "statement": "With a shape or concentration filter, only wanted shapes/concentrations appear, and the per-shape totals, per-concentration totals and grand total all agree with the retained entries.", "quantifier": "all polya data sets and filters", "why_tests_cant": "All filters.", "anchors": ["phenum/structures.py:_distribution_summary", "phenum/structures.py:make_enum_in"]}
{"id": "C31", "title": "Labeling strings are faithful", "statement": "create_labeling encodes a structure so that species and arrow of every site can be read back from the two strings.", "quantifier": "all structures", "why_tests_cant": "More than ten species never tested.", "anchors": ["phenum/io_utils.py:create_labeling"]}
{"id": "C32", "title": "enum.out rows can be read back", "statement": "Every structure row written to enum.out is parsed back by read_enum_out to the same numbers, HNF, SNF, left transform, labeling and arrow strings.", "quantifier": "all structures of any size", "why_tests_cant": "Column widths overflow only for large cells.", "anchors": ["phenum/enumeration.py:_enum_out", "phenum/io_utils.py:read_enum_out", "phenum/io_utils.py:write_enum"]}
{"id": "C33", "title": "enum.out numbering is consistent", "statement": "Rows of enum.out are numbered 1,2,3,... in order, sorted by cell size then labeling; the per-size index restarts at 1 for each cell size; every enumerated structure appears exactly once.", "quantifier": "all enumerations", "why_tests_cant": "All enumerations.", "anchors": ["phenum/enumeration.py:_enum_out"]}
{"id": "C34", "title": "makeStr selects exactly the requested structures", "statement": "makeStr N makes structure N, makeStr A B makes exactly A..B, makeStr all makes every structure of the file; anything else raises ValueError.", "quantifier": "all argument lists and all enum.out files", "why_tests_cant": "All files and arguments.", "anchors": ["phenum/phenumStr.py:run", "phenum/io_utils.py:read_enum_out"]}
{"id": "C35", "title": "Every site of a structure is mapped to real space exactly once", "statement": "map_enumStr_to_real_space visits exactly n*nD interior lattice points that are distinct modulo the superlattice, and the labeling indices it assigns are a permutation of 0..n*nD-1.", "quantifier": "all HNF matrices, their Smith forms and basis sizes", "why_tests_cant": "All HNFs.", "anchors": ["phenum/vector_utils.py:map_enumStr_to_real_space"]}
{"id": "C36", "title": "POSCAR species counts match the atoms listed", "statement": "In every POSCAR the count line agrees with the number of atoms written per species, atoms are grouped by species, and each site is written exactly once.", "quantifier": "all structures", "why_tests_cant": "All structures.", "anchors": ["phenum/io_utils.py:write_POSCAR"]}
{"id": "C37", "title": "Displacements are applied to the atoms that carry the arrows", "statement": "In POSCAR and MTP output the displacement applied to each atom is the one given by the arrow at that atom's own position in the labeling, along the direction the enumeration's symmetry analysis used for that arrow.", "quantifier": "all structures with arrows", "why_tests_cant": "Depends on the index map of every HNF.", "anchors": ["phenum/io_utils.py:write_POSCAR", "phenum/io_utils.py:write_config", "phenum/grouptheory.py:_get_rotation_perms_lists", "phenum/io_utils.py:create_labeling"]}
{"id": "C38", "title": "makeStr flags take effect", "statement": "-mink f leaves the supercell unreduced and -remove_zeros f keeps zero concentrations in the output.", "quantifier": "all argument values", "why_tests_cant": "Tests pass booleans, not the strings the parser produces.", "anchors": ["phenum/phenumStr.py:run", "phenum/phenumStr.py:_make_structures", "phenum/io_utils.py:write_POSCAR"]}
{"id": "C39", "title": "Bringing points into the cell", "statement": "bring_into_cell and cartesian2direct terminate and return a point differing from the input by a lattice vector whose coordinates lie in [-eps,1-eps].", "quantifier": "all points, tolerances and lattices (exact arithmetic)", "why_tests_cant": "All points.", "anchors": ["phenum/symmetry.py:bring_into_cell", "phenum/vector_utils.py:cartesian2direct"]}
{"id": "C40", "title": "enum_sys dispatch never fails on valid input", "statement": "For every valid system and number wanted enum_sys reaches an enumeration routine with a defined sample and raises no internal error; a result of the wrong length is reported as ValueError.", "quantifier": "all systems and numbers wanted", "why_tests_cant": "Branch combinations for large systems are not tested.", "anchors": ["phenum/phonons.py:enum_sys"]}
{"id": "C41", "title": "Guess-and-check sampling returns inequivalent structures", "statement": "guess_and_check_brancher returns exactly the number wanted of pairwise symmetry-inequivalent structures.", "quantifier": "all systems and random streams", "why_tests_cant": "Equivalent pairs are rarely drawn ('happens rarely and so it's really hard to access in tests').", "anchors": ["phenum/tree.py:guess_and_check_brancher"]}
{"id": "C42", "title": "Decorations carry the requested numbers of atoms and arrows", "statement": "arrow_concs builds a labeling with exactly cList[i] atoms of species i, int(cList[i]*fraction) of them arrowed, unarrowed before arrowed, equal decorations contiguous; how_many_arrows then reports the number of arrows, of arrowed species and the counts in order.", "quantifier": "all concentrations and arrow fractions", "why_tests_cant": "All inputs.", "anchors": ["phenum/phonons.py:arrow_concs", "phenum/phonons.py:_col_sort", "phenum/phonons.py:how_many_arrows", "phenum/phonons.py:_find_concentrations"]}
{"id": "C43", "title": "Colour lists", "statement": "_color_list returns the distinct entries of a labeling in order of first occurrence and _find_concentrations their multiplicities.", "quantifier": "all labelings", "why_tests_cant": "All labelings.", "anchors": ["phenum/tree.py:_color_list", "phenum/phonons.py:_find_concentrations"]}
{"id": "C44", "title": "Lattice parameter is a weighted mean over known elements", "statement": "get_lattice_parameter requires one element per concentration, returns a value between the smallest and largest elemental parameters of the elements present, and the element table distinguishes lead from palladium.", "quantifier": "all element lists and concentrations", "why_tests_cant": "All mixtures.", "anchors": ["phenum/element_data.py:get_lattice_parameter", "phenum/element_data.py:element_volume"]}
{"id": "C45", "title": "Lattice reduction preserves the lattice", "statement": "_gaussian_reduce_two_vectors, _reduce_C_in_ABC and _minkowski_reduce_basis return vectors spanning the same lattice as the input, the pair reduction ends with vectors no longer than the input ones.", "quantifier": "all bases (exact arithmetic)", "why_tests_cant": "All bases.", "anchors": ["phenum/vector_utils.py:_gaussian_reduce_two_vectors", "phenum/vector_utils.py:_reduce_C_in_ABC", "phenum/vector_utils.py:_minkowski_reduce_basis"]}
{"id": "C46", "title": "Degeneracies of the superlattices are correct", "statement": "The degeneracy remove_duplicate_lattices reports for a kept HNF is the number of different lattices its symmetry images span, and the degeneracies of all kept HNFs add up to the number of all superlattices of that index.", "quantifier": "all volume factors, all finite point groups", "why_tests_cant": "a count over whole orbits for every index and every point group", "anchors": ["phenum/HNFs.py:remove_duplicate_lattices", "phenum/grouptheory.py:_get_sLV_fixing_operations"]}
{"id": "C47", "title": "polyaburnside.group returns the generated group", "statement": "polyaburnside.group(gen) terminates and returns, without duplicates, exactly the permutations generated by the given ones; zero-based and one-based generators give the same result.", "quantifier": "all non-empty lists of permutations of two or more sites", "why_tests_cant": "the closure loop must terminate and be complete for every generator list", "anchors": ["phenum/polyaburnside.py:group"]}
{"id": "C48", "title": "get_sym_group is the symmetry group of the supercell", "statement": "get_sym_group(lattice, basis, HNF) returns exactly the (site permutation, arrow permutation) pairs induced on the numbered sites of the supercell by the symmetry operations of the decorated parent lattice that keep the superlattice; the result is a group of operations, and with one atom per cell at the origin no operation is repeated.", "quantifier": "all parent lattices, bases and HNFs", "why_tests_cant": "the fixtures cover a few lattices; the claim is about all shifts, all rotations and all cells at once", "anchors": ["phenum/grouptheory.py:get_sym_group", "phenum/grouptheory.py:_get_rotation_perms_lists", "phenum/grouptheory.py:_get_dvector_permutations", "phenum/symmetry.py:get_spaceGroup"]}
{"id": "C51", "title": "Random arrow arrangements are inequivalent and the search ends", "statement": "add_arrows(..., small=True, num_wanted=n) returns exactly n arrow arrangements on the colouring given, with directions below dim, no two of them related by a group operation; it ends for every n up to the number of inequivalent arrangements.", "quantifier": "all colourings, groups, numbers wanted and random streams", "why_tests_cant": "The tests fix a seed; the random redraw loop has no bound.", "anchors": ["phenum/phonons.py:add_arrows"]}
{"id": "C52", "title": "A purely arrowed system returns the number of structures wanted", "statement": "For a single species with arrows enum_sys returns the number wanted of pairwise inequivalent structures, whichever of its atoms carry the arrows.", "quantifier": "all cells, groups, arrow fractions and numbers wanted", "why_tests_cant": "Only whole-species fixtures exist; positions of the arrows among the atoms are not tested.", "anchors": ["phenum/phonons.py:enum_sys", "phenum/phonons.py:add_arrows"]}
{"id": "C49", "title": "The list for a supercell is a catalogue of the decorated crystals with that period", "statement": "For a supercell HNF and a composition, get_sym_group followed by the enumeration of all labelings gives a list such that, read through the numbering of the sites, every entry is a decoration of the infinite crystal with that period and those contents per supercell; every such decoration (with displacements along the six directions if wanted) can be carried to an entry by a symmetry operation of the crystal that keeps the supercell; and no two entries can be carried into each other.", "quantifier": "all point groups, bases, supercell matrices up to 10^5 cells, compositions, displacement assignments and decorations of the crystal", "why_tests_cant": "Tests compare lists of labels; whether the labels cover every decoration of an infinite crystal up to its symmetries ranges over infinitely many crystals and functions on them.", "anchors": ["phenum/grouptheory.py:get_sym_group", "phenum/grouptheory.py:SmithNormalForm", "phenum/tree.py:brancher", "phenum/phonons.py:add_arrows"]}
{"id": "C50", "title": "The enumeration of a size is a catalogue of the crystals of that size", "statement": "Enumerating every HNF that get_HNFs returns for n cells, leaving out superperiodic labelings, gives a list in which every decoration of the crystal whose primitive cell has exactly n parent cells and the wanted contents appears exactly once up to the symmetries of the crystal, and nothing else appears: no structure occurs in two supercells or at a smaller size.", "quantifier": "all point groups, bases, sizes, compositions and decorations of the crystal", "why_tests_cant": "The published counts only exist for small sizes of a few lattices; the claim is about all sizes and all supercells together.", "anchors": ["phenum/HNFs.py:get_HNFs", "phenum/grouptheory.py:get_sym_group", "phenum/tree.py:brancher", "phenum/enumeration.py:_enum_out"]}
{"id": "C53", "title": "The POSCAR shows the crystal that was enumerated", "statement": "If a row of enum.out stands for a decoration of the crystal in the enumeration, the POSCAR that makeStr writes for it lists one atom for every site of the supercell, at a point of the crystal, with the species that decoration puts there.", "quantifier": "all crystals, supercells, rows and decorations", "why_tests_cant": "Tests compare text with stored files; agreement of the numbering used by the enumeration with the positions makeStr computes ranges over all supercells and bases.", "anchors": ["phenum/phenumStr.py:_make_structures", "phenum/vector_utils.py:map_enumStr_to_real_space", "phenum/io_utils.py:write_POSCAR", "phenum/grouptheory.py:get_sym_group"]}
{"id": "C54", "title": "The title of a POSCAR names the elements of the number line", "statement": "When elements are given, the first line of a POSCAR names, in order, exactly the elements whose numbers of atoms are on the number line, followed by the title and number of the structure.", "quantifier": "all element lists, compositions and values of the remove_zeros flag", "why_tests_cant": "Two functions (one filters by c > 0, the other by c != 0) must agree on every composition.", "anchors": ["phenum/io_utils.py:write_POSCAR", "phenum/element_data.py:get_lattice_parameter"]}
{"id": "C55", "title": "MTP files list every site once with its type", "statement": "write_config lists every site of the supercell once, with ids 1, 2, ..., with the species of the site or the type it is mapped to, and with the lattice parameter of the elements of those types.", "quantifier": "all crystals, rows, element lists and species mappings", "why_tests_cant": "All mappings and structures.", "anchors": ["phenum/io_utils.py:write_config", "phenum/phenumStr.py:run"]}
{"id": "C56", "title": "The point group found is the full symmetry of the lattice", "statement": "get_lattice_pointGroup returns, once each, exactly the rotations and reflections that map the parent lattice onto itself keeping all distances: none is missed because of the size of the box that is searched, and none is listed that is not a symmetry.", "quantifier": "all parent lattices (three independent vectors) and tolerances small against the cell", "why_tests_cant": "Tests use a handful of lattices; that the search box always contains every image of the three vectors, for every shape of cell, is a geometric fact about all lattices.", "anchors": ["phenum/symmetry.py:get_lattice_pointGroup"]}
{"id": "C57", "title": "The polya.out files carry the counts unchanged", "statement": "What the counting step writes to polya.out.<size> is read by the distribution step as exactly the concentrations, cell shapes, counts and totals that were found; columns never run together and nothing is dropped.", "quantifier": "all lists of concentrations and shapes and all counts", "why_tests_cant": "The widths of the columns and the range of the integers are fixed; tests have counts of a few digits.", "anchors": ["phenum/enumeration.py:_polya_out", "phenum/structures.py:_distribution_summary"]}
{"id": "C58", "title": "enum.in carries the requests unchanged", "statement": "The enum.in file written for a distribution is read by the enumeration step as exactly its requests (shape, concentration, number), in order; asking for everything from the polya.out files of all sizes makes the enumeration step work on every shape and concentration that has a structure, each exactly once, with the number there are. The sizes are those of the polya.out files in the directory.", "quantifier": "all distributions, all polya.out files, all directory listings", "why_tests_cant": "Depends on every combination of numbers of digits, species and file names.", "anchors": ["phenum/structures.py:_print_distribution", "phenum/structures.py:make_enum_in", "phenum/io_utils.py:read_enum"]}
{"id": "C59", "title": "lattice.in means what it says", "statement": "Comment lines (blanks and a #) change nothing wherever they stand. A file with the sizes separated by single blanks, bulk or surface, three lattice vectors, the numbers of species and atoms, the atoms, and either F or a word, the word for arrows and the restrictions, is read as exactly these values, for every decimal notation of the numbers, blanks around them included. A blank line anywhere is refused. The number of displaced atoms is the largest within the fraction, for fractions of two decimals and fewer than 50 atoms of the species.", "quantifier": "all texts, numbers, digits and comments", "why_tests_cant": "Texts are unbounded; tests read three files.", "anchors": ["phenum/io_utils.py:read_lattice", "phenum/phonons.py:get_arrow_concs", "phenum/phonons.py:arrow_concs"]}
{"id": "C60", "title": "A run from scratch lists every crystal once", "statement": "Starting from the lattice vectors alone (one atom per cell, two or three species, all concentrations or those within given ranges, no arrows, a range of sizes) in a directory without polya.out and enum.in files, `-enum` counts, chooses everything, enumerates and writes enum.out without failing; reading the file back gives a list in which every crystal whose primitive cell has a size in the range and the wanted concentrations appears exactly once up to the isometries of space, and nothing else, each row with the superlattice of its periods.", "quantifier": "all lattices, ranges of sizes, directory listings, random numbers and shuffles", "why_tests_cant": "The claim is about all decorations of an infinite lattice and about five programs that talk through text files; tests compare stored counts for a few sizes.", "anchors": ["phenum/enumeration.py:_enum_out", "phenum/enumeration.py:_polya_out", "phenum/enumeration.py:_enum_in", "phenum/structures.py:make_enum_in", "phenum/phonons.py:enum_sys", "phenum/io_utils.py:read_enum_out"]}
{"id": "C61", "title": "Commands leave other files alone", "statement": "Whatever the options, the directory and the random numbers, and whether the command completes, fails or is killed between two of its writes, a file other than the outputs its options name (counts, enum.in, enum.out) is as it was; lattice.in in particular. With -enum, an enum.in file that is there is never written, and counts that are there are never written.", "quantifier": "all directories, options, random numbers and crash points", "why_tests_cant": "Directories, options and the moments at which a run can be killed are unbounded; the tests check the contents of one output file.", "anchors": ["phenum/enumeration.py:_script_enum", "phenum/enumeration.py:_enum_out", "phenum/enumeration.py:_enum_in", "phenum/enumeration.py:_polya_out"]}
{"id": "C62", "title": "-enum in a directory with lattice.in", "statement": "In a directory with a lattice.in file (one atom per cell, two or three species, all concentrations or those within ranges) and no counts or enum.in, -enum completes and leaves an enum.out that lists every crystal with a size in the range exactly once up to isometry; given again in the directory it leaves, it does so again, whatever the date, random numbers and order of the directory. Whatever else the directory holds, enum.out is about what lattice.in says.", "quantifier": "all directories, lattice.in texts, dates, random numbers and orders of the directory", "why_tests_cant": "It is about all crystals and all directories.", "anchors": ["phenum/enumeration.py:_script_enum", "phenum/enumeration.py:_enum_out", "phenum/enumeration.py:_enum_in", "phenum/enumeration.py:_polya_out", "phenum/io_utils.py:read_lattice"]}
{"id": "C63", "title": "-enum can be stopped and started again", "statement": "-enum killed at any moment and started again in the same directory completes, with the enum.out of a run that was not killed.", "quantifier": "all crash points, lattice.in texts, dates, random numbers and orders of the directory", "why_tests_cant": "Tests do not kill the program; the moments are as many as the writes.", "anchors": ["phenum/enumeration.py:_script_enum", "phenum/enumeration.py:_enum_out", "phenum/enumeration.py:_enum_in", "phenum/enumeration.py:_polya_out"]}
{"id": "C64", "title": "Output goes to the documented files", "statement": "Unless -outfile and -input say otherwise, counts go to polya.out.n, the list of systems to enum.in and the list of structures to enum.out, also when several commands are given at once; -sizes a b is for the sizes a to b.", "quantifier": "all options, directories and environments", "why_tests_cant": "Combinations of options and directories; tests set the names themselves.", "anchors": ["phenum/enumeration.py:_script_enum", "phenum/enumeration.py:_enum_out", "phenum/enumeration.py:_enum_in", "phenum/enumeration.py:_polya_out"]}
{"id": "C65", "title": "get_spaceGroup lists the space group of a crystal", "statement": "get_spaceGroup(par_lat, atomType, bas_vecs, eps, lattcoords) returns rotations and fractional shifts that, up to the errors of the given positions, are exactly the rigid motions taking the crystal to itself, each listed once up to lattice translations; the cell is assumed primitive, and without that assumption the motions are exactly those that also keep the lattice. Singular lattice vectors and an empty basis are errors.", "quantifier": "all lattices, bases, atom types, position errors and tolerances between the errors and the spacing of the positions", "why_tests_cant": "Ranges over all lattices, all bases and real-valued position errors; completeness quantifies over all rigid motions.", "anchors": ["phenum/symmetry.py:get_spaceGroup", "phenum/symmetry.py:_does_mapping_exist", "phenum/symmetry.py:_get_transformations", "phenum/symmetry.py:bring_into_cell"]}
{"id": "C66", "title": "Turning the lattice in space does not change the result of a run", "statement": "If all lattice vectors of lattice.in are turned by the same rotation (or reflection) of space, counting and enumerating succeed as before and enum.out lists the same number of structures, the same up to isometries in lattice coordinates.", "quantifier": "all pairs of lattices that differ by an isometry of space, all sizes, concentrations and random streams", "why_tests_cant": "The orientation is a continuous parameter: tests only cover the orientations written down, all of them along the axes.", "anchors": ["phenum/grouptheory.py:_get_rotation_perms_lists", "phenum/grouptheory.py:get_sym_group", "phenum/enumeration.py:_polya_out", "phenum/enumeration.py:_enum_out"]}
{"id": "C67", "title": "Of the structures with displacements exactly the superperiodic ones are removed", "statement": "brancher(..., supers=False) on decorations with arrows returns exactly those representatives of the full enumeration (supers=True) that no translation of the supercell, other than the identity, maps to themselves, arrows included.", "quantifier": "all decorations with arrows, groups of joint operations, numbers of directions and cell sizes", "why_tests_cant": "Whether the comparison by species and by the sequence of arrow directions confuses two structures depends on how arrows are spread over the species; tests use single compositions.", "anchors": ["phenum/tree.py:brancher", "phenum/phonons.py:add_arrows"]}
{"id": "C68", "title": "A whole run with displaced species lists every crystal once", "statement": "With a lattice.in that marks some species as displaced (fraction 1) and the others as not (fraction 0), phenum run from scratch (count, choose everything, enumerate, write enum.out) succeeds, and the rows of enum.out, read back with their labels and directions, describe every crystal within the sizes and concentrations, with every choice of one of the six directions for each atom of a displaced species, exactly once up to isometries of space that turn the displacements along; each row gives the lattice of periods of its crystal, displacements included.", "quantifier": "all lattice.in texts, lattices, sizes, species and concentration ranges, directory listings, random streams and shuffles", "why_tests_cant": "Completeness and absence of duplicates over all crystals with displacements are statements about infinitely many decorations and all isometries; the tests compare a few files with earlier output.", "anchors": ["phenum/enumeration.py:_polya_out", "phenum/enumeration.py:_enum_in", "phenum/enumeration.py:_enum_out", "phenum/phonons.py:enum_sys", "phenum/phonons.py:add_arrows", "phenum/phonons.py:get_arrow_concs", "phenum/tree.py:brancher", "phenum/io_utils.py:read_lattice", "phenum/io_utils.py:read_enum_out"]}
{"id": "C69", "title": "From lattice.in to POSCARs: every crystal has exactly one file", "statement": "Running the enumeration from scratch (or the command -enum in a fresh directory) and then makeStr with \"all\" succeeds; every structure gets a file of its own, numbered from 1; and the POSCARs, read as crystals (superlattice, atom positions, species from the number line), show every crystal within the sizes and concentrations exactly once up to the isometries of space.", "quantifier": "all lattice.in texts, lattices, sizes, species, concentration ranges, output names, element lists, random streams, directory listings", "why_tests_cant": "The claim is about all decorations of the lattice and all isometries, and composes counting, selection, enumeration, two file formats and the real-space mapping; the tests compare single files.", "anchors": ["phenum/phenumStr.py:_make_structures", "phenum/phenumStr.py:run", "phenum/io_utils.py:write_POSCAR", "phenum/io_utils.py:read_enum_out", "phenum/vector_utils.py:map_enumStr_to_real_space", "phenum/enumeration.py:_script_enum", "phenum/enumeration.py:_enum_out"]}
{"id": "C70", "title": "A group read from a file is the group used", "statement": "Reading a file of permutations (six lines of heading, then \"Perm #: n Perm: i j ...\" with the numbers counted from 1, in lines broken anywhere) gives exactly the listed permutations, counted from 0, in order; lists of different lengths are refused; and enumerating with such a file lists representatives of the classes of arrangements under the permutations of the file: all of them when as many are wanted, otherwise as many as are wanted, no two equivalent.", "quantifier": "all group files, groups, numbers of sites, concentrations, wanted numbers, random streams", "why_tests_cant": "Tests read three small files; how lines are broken, the group and the arrangement are arbitrary.", "anchors": ["phenum/io_utils.py:read_group", "phenum/phonons.py:enum_sys"]}
{"id": "C71", "title": "struct_enum.in says what lattice.in said", "statement": "The file written for enum.x consists, line by line, of the title, bulk or surface as given, the three lattice vectors, the number of species, the number of points of the basis, each point followed by all species 0/1/.../k-1, the sizes, the tolerance and \"full\": every number read back is the number given.", "quantifier": "all lattices, bases, numbers of species, size ranges", "why_tests_cant": "The text is glued together with conditional separators; one missing separator merges two numbers, for some lengths of the basis or numbers of species only.", "anchors": ["phenum/io_utils.py:write_struct_enum"]}
{"id": "C72", "title": "Surfaces: only the operations that keep the surface normal count", "statement": "With LatDim = 2 the lists of supercells and the groups of permutations are those of the symmetries that keep the surface normal (the x axis) up to sign: unchanged when all symmetries of the lattice keep it, and built from the ones that do otherwise; lattice vectors are accepted exactly if they have the form x00, 0xx, 0xx; and a lattice.in that says surface is enumerated up to the symmetries of the surface.", "quantifier": "all lattices, bases, supercells, sizes, random streams", "why_tests_cant": "The tests call the surface branch for one lattice without other symmetries; how the operations left out shift the indices of the others depends on the lattice.", "anchors": ["phenum/grouptheory.py:_rm_3D_operations", "phenum/grouptheory.py:_get_dvector_permutations", "phenum/grouptheory.py:_get_sLV_fixing_operations", "phenum/grouptheory.py:get_sym_group", "phenum/HNFs.py:get_HNFs", "phenum/enumeration.py:_enum_in"]}
{"id": "C73", "title": "The distribution command asks for what was requested", "statement": "phenum -distribution KIND NUMBER, with -sizes, -filter and -savedist, in a directory with the counts: for KIND all, the enum.in it writes asks for each size, shape and composition that the options keep: for all structures there are if NUMBER is all or at least their number, otherwise for NUMBER in total and never more of anything than there is; for the other kinds the table is written only with -savedist and holds the numbers per shape, per size and composition, or per size. Lines with # in the filter file are comments. A size without counts, an unknown kind or a NUMBER that is not one is an error and leaves the directory as it was.", "quantifier": "all directories, tables of counts, options, filter files, orders of the listing, random streams", "why_tests_cant": "Tests run a few combinations of options on one or two directories; which entries are kept and how they add up depends on every table, filter, listing order and random stream.", "anchors": ["phenum/enumeration.py:_enum_in", "phenum/enumeration.py:_script_enum", "phenum/structures.py:make_enum_in", "phenum/structures.py:_distribute", "phenum/structures.py:_distribution_summary", "phenum/structures.py:_print_distribution", "phenum/io_utils.py:read_enum"]}
{"id": "C74", "title": "The workflow, command by command", "statement": "In a directory with a lattice.in file, -polya, then -distribution all all, then -enum, each run as a separate command with its own date, random numbers and order of the directory, all complete; the counts, enum.in and enum.out appear in turn; enum.out lists every crystal with a size in the range exactly once up to isometry; every other file is as it was; and -polya given again changes nothing. -polya and -enum may be given in one command to the same effect.", "quantifier": "all lattice.in texts of the kind, directories, dates, random numbers and orders of the directory at each of the three commands", "why_tests_cant": "It is about a history of commands and all crystals; the tests run each step on its own against fixed files.", "anchors": ["phenum/enumeration.py:_script_enum", "phenum/enumeration.py:_polya_out", "phenum/enumeration.py:_enum_in", "phenum/enumeration.py:_enum_out", "phenum/structures.py:make_enum_in"]}
{"id": "C75", "title": "Random samples of the primitive structures", "statement": "With superperiodic structures excluded, a random sample of num structures of a composition consists of structures of the composition that no translation of the supercell fixes, pairwise inequivalent, at most num of them, and includes every sampled position of the full list that is not superperiodic; when num is 0 or at least the number of classes, exactly the representatives that no translation fixes are returned; when num of the classes are wanted and that many exist, num are returned.", "quantifier": "all cells and symmetry groups, all compositions without displacement arrows (up to three species for completeness), all numbers wanted, all shuffles", "why_tests_cant": "The sample moves on past superperiodic structures while the tree is being walked, so the outcome depends on the shuffle and on where they lie in the list; tests fix one seed.", "anchors": ["phenum/tree.py:brancher", "phenum/phonons.py:enum_sys"]}
{"id": "C76", "title": "enum.in that asks for part of the structures", "statement": "After -polya, -enum with an enum.in whose lines name shapes and compositions of the polya.out files, each at most once, in any order and with any numbers, writes an enum.out that read_enum_out reads back; its rows are primitive structures of the run, no two of them the same up to isometry, each of the shape and composition of a line; at most x of them for a line with the number x > 0, so at most the sum of the numbers in all, and all the structures of the line when x is 0 or at least the count in polya.out. After -distribution all n with n below the total, this holds with at most n + m - 1 rows, m the largest count; an enum.in without lines ends the command with NameError and an enum.out without rows.", "quantifier": "all lattice.in files of the run properties, all enum.in files for its counts, all shuffles and draws, all streams of random numbers of the distribution, all n", "why_tests_cant": "What is sampled depends on the shuffles and on the superperiodic structures met on the way; that no line is exceeded, nothing repeated and nothing superperiodic kept must hold for each of them.", "anchors": ["phenum/enumeration.py:_enum_out", "phenum/phonons.py:enum_sys", "phenum/tree.py:brancher", "phenum/tree.py:guess_and_check", "phenum/io_utils.py:write_enum", "phenum/structures.py:_distribution"]}
{"id": "C77", "title": "The pictures of the supercells", "statement": "enumeration.py -visualize -input enum.in saves, for each line of enum.in that has no '#', one picture, in order, named after the six entries of its Hermite normal form. With -shapes the segments drawn are the twelve edges of a right-handed cell on a basis of the superlattice of that form over the lattice of lattice.in; the dots are sites of the crystal, one from each class modulo the superlattice, all inside that cell up to 10^-10. The command as README.md gives it, enumeration.py -visualize, does this; it works for any number of atoms per cell; different forms have different pictures.", "quantifier": "all lattice.in files, all enum.in files, all Hermite normal forms, with and without -shapes", "why_tests_cant": "matplotlib output is only compared with stored figures or not at all; that the cell drawn is a cell of the superlattice of that form and the dots exactly its sites must hold for each form and each parent lattice.", "anchors": ["phenum/visualize.py:HNF_shapes", "phenum/visualize.py:HNF_atoms", "phenum/visualize.py:_convert_read_lat_to_system_dat", "phenum/enumeration.py:_plot_HNFs", "phenum/enumeration.py:_script_enum", "phenum/vector_utils.py:map_enumStr_to_real_space", "phenum/vector_utils.py:cartesian2direct"]}
{"id": "C78", "title": "A stopped command can be given again", "statement": "In the documented workflow (enumeration.py -polya, then -distribution all all, then -enum, in a directory with lattice.in), each command may be killed at any point, between two files or while it writes one (that file then has any content), and given again, with other random numbers, on another date and with another order of the directory: -polya then leaves every file as it would have without the interruption, -distribution and -enum complete, and enum.out at the end lists each crystal of the wanted sizes up to isometry exactly once; lattice.in and the other files that were there are as they were.", "quantifier": "all lattice.in files, all directories without files of an earlier run, all points at which each of the three commands is stopped and all contents of the file being written, all random numbers, dates and directory orders", "why_tests_cant": "there are as many crash points as writes and bytes, in three commands, and any left-over content; a test kills the process at one of them. What must hold is that no later command reads anything of the torn file.", "anchors": ["phenum/enumeration.py:_polya_out", "phenum/enumeration.py:_enum_in", "phenum/enumeration.py:_enum_out", "phenum/enumeration.py:_script_enum", "phenum/structures.py:make_enum_in", "phenum/io_utils.py:read_enum"]}
{"id": "C79", "title": "A repeated run gives the same files", "statement": "In the documented workflow (enumeration.py -polya, then -distribution all all, then -enum, in a directory with lattice.in), repeating a run gives the same files byte for byte, whatever random numbers are drawn: the files of -polya are determined by lattice.in; enum.in by these and the order in which the directory is listed; enum.out by enum.in, lattice.in and the date.", "quantifier": "all lattice.in files, all directories without files of an earlier run, all random numbers (draws, shuffles, accept/reject outcomes) of each command, all directory orders and dates", "why_tests_cant": "the random streams, directory orders and dates are unbounded; a test compares two runs under one seed. What must hold is that no random number can reach the output.", "anchors": ["phenum/enumeration.py:_polya_out", "phenum/enumeration.py:_enum_in", "phenum/enumeration.py:_enum_out", "phenum/structures.py:enum_distribution", "phenum/phonons.py:enum_sys", "phenum/tree.py:brancher"]}
