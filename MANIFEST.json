{
 "claims": [
  {
   "property": "C01",
   "status": "proved",
   "theorems": [
    "C01_binomial_counts_subsets",
    "C01_binomial_zero_outside",
    "C01_binomial_no_remainder"
   ],
   "note": "Exact count of k-subsets for all n,k; zero outside; each floor division exact."
  },
  {
   "property": "C02",
   "status": "partial",
   "theorems": [
    "C02_multinomial_partial",
    "C02_formula_exact",
    "C02_labelings_factorials",
    "C02_factorial",
    "C02_overflow_refuted"
   ],
   "note": "Exact while atoms*arrangements < 2^63; false beyond because of numpy int64 wrap-around (witness [34,34])."
  },
  {
   "property": "C03",
   "status": "proved",
   "theorems": [
    "C03_decode",
    "C03_unique_number",
    "C03_distinct"
   ],
   "note": "Bijection for all concentration lists."
  },
  {
   "property": "C04",
   "status": "proved",
   "theorems": [
    "C04_full_enumeration"
   ],
   "note": "Total correctness of brancher without arrows: terminates, no error, transversal of the orbits."
  },
  {
   "property": "C05",
   "status": "proved",
   "theorems": [
    "C05_full_enumeration_with_arrows"
   ],
   "note": "Assumes arrow flags consistent per species (true of arrow_concs output) and a joint group closed under composition of its action."
  },
  {
   "property": "C06",
   "status": "partial",
   "theorems": [
    "C06_superperiodic_removed_partial",
    "C06_superperiodic_sound",
    "C06_four_species_refuted"
   ],
   "note": "Exact for at most three species; sound for any number; for four species the code skips the children of a superperiodic inner node and loses structures (witness)."
  },
  {
   "property": "C07",
   "status": "proved",
   "theorems": [
    "C07_sample_selects_plain",
    "C07_sample_selects_arrows",
    "C07_sample_size",
    "C07_sample_members"
   ],
   "note": "Non-empty sample lists; superperiodic structures kept when there are no arrows."
  },
  {
   "property": "C08",
   "status": "partial",
   "theorems": [
    "C08_accept_rate_refuted"
   ],
   "note": "The property is false of the code: with an acceptance rate the result is [] for every random stream. The refutation is proved for all inputs."
  },
  {
   "property": "C09",
   "status": "proved",
   "theorems": [
    "C09_arrow_arrangements"
   ],
   "note": ""
  },
  {
   "property": "C10",
   "status": "proved",
   "theorems": [
    "C10_decode_encode",
    "C10_encode_decode",
    "C10_range"
   ],
   "note": ""
  },
  {
   "property": "C11",
   "status": "proved",
   "theorems": [
    "C11_polya_counts_classes",
    "C11_classes_exist",
    "C11_classes_number",
    "C11_structure_count"
   ],
   "note": "Floating-point steps modelled in binary64; the stated range keeps every intermediate value exactly representable."
  },
  {
   "property": "C12",
   "status": "proved",
   "theorems": [
    "C12_prediction_is_enumeration",
    "C12_prediction_is_enumeration_plain"
   ],
   "note": "With arrows and without; both sides proved to count classes. Range as in C11."
  },
  {
   "property": "C13",
   "status": "partial",
   "theorems": [
    "C13_exact_refuted",
    "C11_polya_counts_classes"
   ],
   "note": "False: witness with 67 sites and the trivial group, under both Python 2 and 3 integer rules. True below the range stated in C11."
  },
  {
   "property": "C14",
   "status": "proved",
   "theorems": [
    "C14_cycle_dictionary",
    "C14_whole_group"
   ],
   "note": ""
  },
  {
   "property": "C15",
   "status": "proved",
   "theorems": [
    "C15_value_error",
    "C15_one_based"
   ],
   "note": ""
  },
  {
   "property": "C16",
   "status": "proved",
   "theorems": [
    "C16_all_HNFs",
    "C16_no_repetition"
   ],
   "note": ""
  },
  {
   "property": "C17",
   "status": "proved",
   "theorems": [
    "C17_superlattices"
   ],
   "note": "Existence and uniqueness for every integer matrix of determinant +-n."
  },
  {
   "property": "C18",
   "status": "proved",
   "theorems": [
    "C18_one_lattice_per_class",
    "C18_fixing_operations"
   ],
   "note": "Exact arithmetic in lattice coordinates; the rotations are a finite group of integer matrices."
  },
  {
   "property": "C19",
   "status": "proved",
   "theorems": [
    "C19_smith_normal_form",
    "C19_any_determinant",
    "C19_refuses",
    "C19_volume"
   ],
   "note": "All integer matrices: correctness of whatever is returned, termination of every inner loop, no cap hit below determinant 2^25. The determinant is compared exactly (np.linalg.det is floating point); integrality checks of the input are not modelled."
  },
  {
   "property": "C20",
   "status": "proved",
   "theorems": [
    "C20_all_concentrations"
   ],
   "note": ""
  },
  {
   "property": "C21",
   "status": "partial",
   "theorems": [
    "C21_listed_in_range",
    "C21_common_denominator_partial",
    "C21_denominators_refuted"
   ],
   "note": "Exact for a common denominator; with different denominators entries are missed because the first denominator is used for all (witness). Floats taken exactly."
  },
  {
   "property": "C22",
   "status": "partial",
   "theorems": [
    "C22_group_partial",
    "C22_a_group_gen_partial",
    "C22_single_generator_refuted",
    "C22_composition_order_refuted"
   ],
   "note": "Exact for two or more different generators, with termination; false for a single generator (empty result). Also shown: the arrow parts are composed in the same order as the site parts, so a_group_gen enlarges a non-abelian group of operations."
  },
  {
   "property": "C23",
   "status": "proved",
   "theorems": [
    "C23_compositions",
    "C23_group"
   ],
   "note": ""
  },
  {
   "property": "C24",
   "status": "proved",
   "theorems": [
    "C24_members"
   ],
   "note": ""
  },
  {
   "property": "C25",
   "status": "proved",
   "theorems": [
    "C25_translations"
   ],
   "note": "SNF entries up to 10^5 (beyond that np.allclose confuses members, see C26_large_refuted)."
  },
  {
   "property": "C26",
   "status": "partial",
   "theorems": [
    "C26_find_permutation",
    "C26_map_dvector",
    "C26_no_match_exits",
    "C26_large_refuted"
   ],
   "note": "find_permutation: entries below 10^5; false beyond, because of the relative default tolerance of np.allclose (witness)."
  },
  {
   "property": "C27",
   "status": "proved",
   "theorems": [
    "C27_everything"
   ],
   "note": "For every kind of distribution. Polya files are modelled as the tables of numbers _polya_out writes; weights are exact rationals (not reached by this property)."
  },
  {
   "property": "C28",
   "status": "partial",
   "theorems": [
    "C28_total_partial",
    "C28_proportional_partial",
    "C28_total_refuted"
   ],
   "note": "False as stated: 3 of 10 structures wanted gives 4 or 2. Proved for every random stream: the total exceeds n by less than the largest kind; if the weights are whole numbers the result is proportional and totals n. Weights are exact rationals where the code has doubles."
  },
  {
   "property": "C29",
   "status": "partial",
   "theorems": [
    "C28_total_partial",
    "C29_more_than_exist_refuted"
   ],
   "note": "False as stated (3 requested of a kind with one structure). Proved for every random stream: at most four times what exists, only existing kinds, no key twice."
  },
  {
   "property": "C30",
   "status": "partial",
   "theorems": [
    "C30_shape_filter",
    "C30_conc_filter_partial",
    "C30_filter_file_partial",
    "C30_shapes_by_conc_refuted",
    "C30_ternary_refuted"
   ],
   "note": "Shape filters are consistent for every kind of distribution; concentration filters for every kind but distributions over shapes, where full row totals are used (refuted); concentration filter files with three or more species keep nothing (refuted)."
  },
  {
   "property": "C31",
   "status": "partial",
   "theorems": [
    "C31_labels_read_back_partial",
    "C31_plain_labels_partial",
    "C31_twelve_species_refuted"
   ],
   "note": "False as stated (twelve species: two structures with the same labels). Proved for up to ten species and nine directions."
  },
  {
   "property": "C32",
   "status": "partial",
   "theorems": [
    "C32_read_back_partial",
    "C32_up_to_30_cells",
    "C32_size_100_refuted"
   ],
   "note": "False as stated (100 parent cells: the written file cannot be read). Proved below 100 parent cells when the left transform fits its columns, and without that proviso up to 30 cells. Floats of the header are kept as text."
  },
  {
   "property": "C33",
   "status": "partial",
   "theorems": [
    "C33_numbering",
    "C33_written",
    "C33_nothing_enumerated_refuted"
   ],
   "note": "Numbering, order and completeness proved below 1000 parent cells (above, columns run together). False for an empty enum.in (unbound name), refuted."
  },
  {
   "property": "C34",
   "status": "partial",
   "theorems": [
    "C34_number",
    "C34_range",
    "C34_all",
    "C34_otherwise",
    "C34_structures_made_partial",
    "C34_all_extra_refuted",
    "C34_no_structure_number_refuted"
   ],
   "note": "End to end for every file written with up to 30 parent cells per structure and numbers from 1. False as stated: 'all 7' is accepted, number -6 raises IndexError."
  },
  {
   "property": "C35",
   "status": "partial",
   "theorems": [
    "C35_full_columns_partial",
    "C35_exact_partial",
    "C35_no_loss_partial",
    "C35_doubles_partial",
    "C35_occupants_partial",
    "C35_spins_distinct",
    "C35_refuted",
    "C35_rounding_refuted",
    "C35_silent_refuted"
   ],
   "note": "False as stated: for some HNFs (from 8 cells) makeStr exits, and rounding in doubles changes the points (from 36 cells; at 42 cells one site twice and another never, silently). Proved: the exact set of HNFs for which it works in exact arithmetic, everything claimed for those; with doubles the same up to 12 cells (checked by computation, equality actually holds up to 35); and for any loop limits that fill the columns."
  },
  {
   "property": "C36",
   "status": "partial",
   "theorems": [
    "C36_counts_partial",
    "C36_rows_of_enum_out"
   ],
   "note": "For up to ten species and HNFs whose columns the loops fill (C35). Numbers formatted with 8 decimals are not modelled."
  },
  {
   "property": "C37",
   "status": "partial",
   "theorems": [
    "C37_no_arrows_partial",
    "C37_direction_refuted",
    "C37_atom_refuted",
    "C37_config_refuted"
   ],
   "note": "False: POSCARs displace the wrong atom (the direction list is indexed by the atom's position in the file, not its label index) along the wrong direction (another order of directions); MTP files displace atoms without arrows and stop at the sixth direction. Proved: structures without arrows are not displaced in POSCARs."
  },
  {
   "property": "C38",
   "status": "partial",
   "theorems": [
    "C38_refuted"
   ],
   "note": "False: both flags are tested as text, and 'f' is true."
  },
  {
   "property": "C39",
   "status": "proved",
   "theorems": [
    "C39_bring_into_cell",
    "C39_cartesian2direct",
    "C39_direct_canonical",
    "C39_docstring_refuted"
   ],
   "note": "Exact rationals (rounding of the matrix products not modelled). bring_into_cell for 0 <= eps <= 1: its exit is never taken, the result differs from the input by a lattice vector, coordinates in [-eps, 1-eps]. cartesian2direct for every eps: terminates, half-open cell, canonical. C39_docstring_refuted: with eps = 0 a coordinate 1 is left at 1, so the docstring's 'less than one' is false."
  },
  {
   "property": "C40",
   "status": "partial",
   "theorems": [
    "C40_sample_arrows_partial",
    "C40_sample_plain_partial",
    "C40_wrong_length_refuted",
    "C40_one_species_refuted",
    "C40_one_species_one_refuted"
   ],
   "note": "Holds for two species or more below the sampling thresholds (fewer than a million classes, supers kept, no acceptance rate): exactly num_wanted pairwise inequivalent structures for every shuffle. Refuted: num_wanted = 0, above the total, or a total of a million or more returns everything without an error ('not super' negates a built-in); one arrowed species of 12 or more atoms with num_wanted <= 100 raises NameError on 'subset' or does not end."
  },
  {
   "property": "C41",
   "status": "partial",
   "theorems": [
    "C41_guess_arrows",
    "C41_never_ends_refuted",
    "C41_guess_plain",
    "C41_guess_plain_partial",
    "C41_composition_refuted",
    "C41_equivalent_refuted"
   ],
   "note": "With arrows every result has the number wanted of inequivalent structures, all on one colouring. Refuted: with at least as many wanted as arrangements of one colouring the loop never ends; without arrows equivalent structures are returned (the comparison looks an integer up in a list of lists) and the species are numbered by increasing concentration."
  },
  {
   "property": "C42",
   "status": "proved",
   "theorems": [
    "C42_decorations",
    "C42_too_many_arrows"
   ],
   "note": "int(cList[i]*fraction) is an input of the model: floating point products are not modelled."
  },
  {
   "property": "C43",
   "status": "proved",
   "theorems": [
    "C43_color_list",
    "C43_find_concentrations",
    "C43_first_occurrences"
   ],
   "note": ""
  },
  {
   "property": "C44",
   "status": "partial",
   "theorems": [
    "C44_weighted_mean_partial",
    "C44_lengths",
    "C44_unknown",
    "C44_lead_refuted"
   ],
   "note": "Mean, bounds and errors proved, over exact rationals with the cube root as an arbitrary function; the claim about lead is false (refuted)."
  },
  {
   "property": "C45",
   "status": "partial",
   "theorems": [
    "C45_pair_lattice",
    "C45_pair_shortest",
    "C45_pair_returns_partial",
    "C45_third_vector",
    "C45_basis_lattice",
    "C45_supercell",
    "C45_basis_reduced",
    "C45_errors",
    "C45_conditions_partial",
    "C45_returns_refuted",
    "C45_norm_comparison"
   ],
   "note": "Exact arithmetic. Whatever is returned spans the same lattice, is right-handed and (tolerance small against the lengths) Minkowski-reduced; the pair is a shortest one and no longer than the input. What is false is that the functions always return: both loops give up after ten passes (C45_returns_refuted; C45_pair_returns_partial and C45_conditions_partial say when they do not). C45_norm_comparison (model's comparison of squares = comparison of norms) uses the standard library's axioms of the real numbers."
  },
  {
   "property": "C46",
   "status": "proved",
   "theorems": [
    "C46_degeneracy_counts_images",
    "C46_class_equation"
   ],
   "note": ""
  },
  {
   "property": "C47",
   "status": "proved",
   "theorems": [
    "C47_generated_group"
   ],
   "note": ""
  },
  {
   "property": "C48",
   "status": "partial",
   "theorems": [
    "C48_symmetry_group_partial",
    "C48_symmetry_group_plain_partial",
    "C48_is_group_partial",
    "C48_with_origin_partial",
    "C48_one_atom",
    "C48_face_centres_refuted",
    "C48_off_centre_refuted",
    "C48_repetition_refuted",
    "C48_hcp_refuted",
    "C48_diamond_refuted"
   ],
   "note": "Holds when rotations and their inverses act alike on the basis (always for one atom at the origin); false otherwise, for instance for hexagonal close packing with 2x2x1 cells and for diamond with displacements and four cells: the code multiplies the basis by the transposed rotation (grouptheory.py:454). The point group and the Smith form are arguments here."
  },
  {
   "property": "C49",
   "status": "partial",
   "theorems": [
    "C49_supercell_catalogue_partial",
    "C49_supercell_catalogue_arrows_partial",
    "C49_one_atom",
    "C49_one_atom_arrows",
    "C49_from_lattice",
    "C48_face_centres_refuted",
    "C49_hcp_refuted",
    "C49_diamond_refuted"
   ],
   "note": "Complete for one atom per cell at the origin and for every basis on which the rotations act as their inverses do; without that hypothesis the symmetry group itself is wrong (C48_face_centres_refuted), and for hexagonal close packing with 2x2x1 cells, two atoms of one species and six of another, the program counts three structures and lists two (C49_hcp_refuted); for diamond with 2x2x2 cells and two atoms of sixteen it counts four and lists three (C49_diamond_refuted). The point group is an input (C45). Arrow directions that differ within one species are outside: cwa must give each decorated species one entry."
  },
  {
   "property": "C50",
   "status": "partial",
   "theorems": [
    "C50_size_catalogue_partial",
    "C50_one_atom_partial",
    "C50_from_lattice_partial",
    "C50_any_species_partial",
    "C50_displaced_partial",
    "C50_displaced_sound_partial",
    "C50_one_atom_displaced_partial",
    "C50_displaced_mixed_refuted",
    "C06_four_species_refuted"
   ],
   "note": "With displacements: complete and free of repetitions for any number of species when no species occurs both with and without displacement; otherwise only sound, and structures are missing (C50_displaced_mixed_refuted). Without displacements: complete for at most three species (with four, C06_four_species_refuted shows structures are lost); sound and free of repetitions for any number. Same hypothesis on the basis as C49."
  },
  {
   "property": "C51",
   "status": "partial",
   "theorems": [
    "C51_small_sample",
    "C51_never_ends_refuted"
   ],
   "note": "Soundness for every random stream; termination refuted for num_wanted >= dim^k (the last arrangement is never drawn). Termination with probability one is not expressed."
  },
  {
   "property": "C52",
   "status": "partial",
   "theorems": [
    "C52_all_arrowed",
    "C52_some_arrowed_refuted",
    "C40_one_species_refuted"
   ],
   "note": "Holds when every atom carries an arrow (below the thresholds); refuted for a partly arrowed species and for 12 atoms or more."
  },
  {
   "property": "C53",
   "status": "partial",
   "theorems": [
    "C53_same_crystal_partial",
    "C53_outside_cell_refuted"
   ],
   "note": "Proved for basis vectors in the cell, up to ten species, HNFs as in C35; refuted for basis vectors outside the cell."
  },
  {
   "property": "C54",
   "status": "partial",
   "theorems": [
    "C54_title_partial"
   ],
   "note": "Up to ten species, HNFs as in C35."
  },
  {
   "property": "C55",
   "status": "partial",
   "theorems": [
    "C55_config_partial",
    "C55_mapping_refuted"
   ],
   "note": "Sites, ids and types proved for the directions that do not make the program stop; the lattice parameter is that of other elements when as many elements as types are given (refuted)."
  },
  {
   "property": "C56",
   "status": "proved",
   "theorems": [
    "C56_complete",
    "C56_sound",
    "C56_singular",
    "C56_coarse_refuted",
    "C56_coordinates",
    "C56_usable",
    "C56_cubic",
    "C56_box",
    "C56_check",
    "C56_any_basis"
   ],
   "note": "For lattice vectors with rational components (any doubles), in exact arithmetic. Complete for tolerances small against the cell, sound if the tolerance is below 1/(det A)^2 in the units of the vectors; with a coarse tolerance other maps are listed (C56_coarse_refuted, which is why the property speaks of small tolerances). C56_usable discharges the hypotheses of C48-C50 on the point group for lattices whose symmetries are integer Cartesian matrices; C56_cubic shows the three cubic lattices are such."
  },
  {
   "property": "C57",
   "status": "partial",
   "theorems": [
    "C57_polya_file",
    "C57_large_counts_refuted"
   ],
   "note": "Proved for up to ten species of fewer than 10000 atoms, HNF entries below 1000 and a total below 2^63; false for counts of 2^63 and more (64-bit integers) or of fifty digits (columns run together): C57_large_counts_refuted."
  },
  {
   "property": "C58",
   "status": "partial",
   "theorems": [
    "C58_enum_in",
    "C58_all_systems",
    "C58_sizes_found",
    "C58_other_kinds_refuted",
    "C58_sizes_refuted"
   ],
   "note": "Distribution over everything: proved for all numbers of 64 bits. The files saved for the distributions over size, shape or concentration are read as nonsense, and a stray file polya.out or polya.out.2.bak stops the run (refuted)."
  },
  {
   "property": "C59",
   "status": "proved",
   "theorems": [
    "C59_read",
    "C59_comments",
    "C59_blank_line",
    "C59_fractions",
    "C59_basis",
    "C59_displaced",
    "C59_displaced_doubles",
    "C59_sizes_refuted",
    "C59_arrows_refuted",
    "C59_displaced_refuted"
   ],
   "note": "float() is exact here (decimal numerals, no underscores, inf or nan). Not part of the statement, with witnesses: two blanks between the sizes are refused, a request for arrows is ignored without restrictions, and 0.58 of 50 atoms are 28 in doubles (the two agree below 50 atoms for two decimals)."
  },
  {
   "property": "C60",
   "status": "partial",
   "theorems": [
    "C60_from_scratch_partial",
    "C60_from_text_partial",
    "C60_several_atoms_partial",
    "C60_several_from_text_partial",
    "C56_any_basis"
   ],
   "note": "Proved for one atom per cell, or several (one at the origin) on lattices whose symmetries are their own inverses (orthorhombic, monoclinic, triclinic; for others C48 refutes the group of operations), two species up to 20 sites and three up to 15 (beyond, counts may be small enough against the number of labelings for enum_sys to take guess-and-check, which is wrong), lattices whose rotations have integer Cartesian matrices (the cubic ones: C56_cubic), no arrows (with arrows: C68), no supers; the concentrations unrestricted or restricted to ranges with a common denominator (those of the project's files) that some size can meet; every directory listing, random number and shuffle. Time stamps and float formatting of the heading are data."
  },
  {
   "property": "C61",
   "status": "proved",
   "theorems": [
    "C61_inputs_kept",
    "C61_existing_kept"
   ],
   "note": "A crash is modelled between two writes of whole files; a file being written is one the options name. -visualize and -profile are not modelled."
  },
  {
   "property": "C62",
   "status": "partial",
   "theorems": [
    "C62_enum_partial",
    "C62_again_partial",
    "C62_several_atoms_partial",
    "C62_again_several_atoms_partial",
    "C62_displaced_partial",
    "C62_again_displaced_partial",
    "C62_several_displaced_partial",
    "C62_again_several_displaced_partial",
    "C62_stale_refuted"
   ],
   "note": "The limits of C60 (one atom per cell, or several on lattices whose symmetries are involutions; cubic and other lattices with integer Cartesian rotations, 20 cells for two species and 15 for three; with or without ranges for the concentrations; with displaced species, up to 9, 7 or 6 atoms for one, two or three species, C62_displaced_partial and C62_several_displaced_partial), other files in the directory whose names have nothing to do with polya.out. Against the last sentence: files left from another lattice.in are used without a word (C62_stale_refuted)."
  },
  {
   "property": "C63",
   "status": "partial",
   "theorems": [
    "C63_restart_partial",
    "C63_several_atoms_partial",
    "C63_displaced_partial",
    "C63_several_displaced_partial",
    "C63_restart_refuted",
    "C63_torn_refuted"
   ],
   "note": "Says for every crash point (between writes) what the next run lists, with or without displaced species: everything, except after some but not all of the counts, where the sizes without counts are silently missing; this refutes the claim, as does an enum.in that was cut between two lines."
  },
  {
   "property": "C64",
   "status": "partial",
   "theorems": [
    "C64_one_command_partial",
    "C64_kinds",
    "C64_names_refuted",
    "C64_sizes_refuted"
   ],
   "note": "Holds for one command at a time; with -polya and another command both write to polya.out, which stops the next -distribution; -sizes a b leaves out b."
  },
  {
   "property": "C65",
   "status": "proved",
   "theorems": [
    "C65_space_group",
    "C65_primitive",
    "C65_singular",
    "C65_empty",
    "C65_integer_form"
   ],
   "note": "Positions are exact rationals near fractions of the lattice vectors (any errors below eps/8c); products not rounded. C65_nonprimitive_refuted shows that the documented assumption of a primitive cell is needed."
  },
  {
   "property": "C66",
   "status": "partial",
   "theorems": [
    "C66_orientation_partial",
    "C66_oblique_refuted"
   ],
   "note": "False as stated: a lattice with a symmetry that takes a coordinate axis away from all axes (a cube turned by the angle of a 3-4-5 triangle, C66_example) makes -polya and -enum end with exit() for size 1, with or without displacements (C66_oblique_refuted). For two orientations in which all symmetries are integer matrices (checked by C56_check; all primitive cubic, tetragonal and orthorhombic lattices along the axes, C56_box, in any basis, C56_any_basis) both runs succeed and list the same structures; limits as in C60."
  },
  {
   "property": "C67",
   "status": "partial",
   "theorems": [
    "C67_superperiodic_arrows_partial",
    "C67_superperiodic_arrows_sound",
    "C67_mixed_refuted"
   ],
   "note": "Exact, for any number of species, when no species occurs both with and without an arrow; in general only sound: the code compares the species and the sequence of arrow directions, not which atoms carry them, and loses structures when a species is partly displaced (C67_mixed_refuted)."
  },
  {
   "property": "C68",
   "status": "partial",
   "theorems": [
    "C68_from_scratch_partial",
    "C68_from_text_partial",
    "C68_several_atoms_partial",
    "C68_several_from_text_partial"
   ],
   "note": "Proved for one atom per cell, or several (one at the origin) on lattices whose symmetries are their own inverses, one displaced species up to 9 sites, two species up to 7 and three up to 6 (beyond, the 64-bit and guess-and-check limits of C11/C42 have to be excluded case by case), lattices whose rotations have integer Cartesian matrices, each species displaced entirely or not at all (with partly displaced species the code loses structures: C67_mixed_refuted, C50_displaced_mixed_refuted), no supers. The project's sample files input/tests/test1-test3 and tests/enumeration/enum_out/lattice.in_ar, _ar_sm, _sub_ar are of this kind."
  },
  {
   "property": "C69",
   "status": "partial",
   "theorems": [
    "C69_poscars_partial",
    "C69_two_commands_partial",
    "C69_several_atoms_partial",
    "C69_two_commands_several_atoms_partial",
    "C69_names"
   ],
   "note": "Proved for one atom per cell, and for several atoms on lattices whose symmetries are involutions; no displaced species (with them the POSCARs are wrong: C37), two or three species, up to 7 cells (with 8 cells makeStr stops for some superlattices: C35_refuted), lattices whose rotations have integer Cartesian matrices; doubles in the loop limits are IEEE; positions are in lattice coordinates (the cell vectors and direct coordinates: C39, C45), lattice parameter and decimals not included."
  },
  {
   "property": "C70",
   "status": "partial",
   "theorems": [
    "C70_read",
    "C70_ragged",
    "C70_enumerate_partial",
    "C70_displaced_refuted"
   ],
   "note": "Reading is proved for every file in the format. Enumerating is proved for two species or more without displacements within the bounds of C40 (counts exact in doubles, off guess-and-check); with displaced species the group of a file moves no arrows and the promise fails (C70_displaced_refuted)."
  },
  {
   "property": "C71",
   "status": "proved",
   "theorems": [
    "C71_struct_enum"
   ],
   "note": "Numbers are the texts Python gives for them; the words of the file are compared, not the parsed values."
  },
  {
   "property": "C72",
   "status": "partial",
   "theorems": [
    "C72_flat",
    "C72_all_flat",
    "C72_all_flat_lattices",
    "C72_one_cell_refuted",
    "C72_cubic_refuted",
    "C72_vectors",
    "C72_vectors_accepted",
    "C72_vectors_refuted",
    "C72_surface_refuted"
   ],
   "note": "True when every symmetry of the lattice keeps the normal. Otherwise the permutations of the operations removed are missing at their indices (grouptheory.py:186): supercells with the full symmetry are refused, for the simple cubic lattice all of them. The form of the vectors that is checked (line 946) is not the one of the message. Runs pass LatDim = 3 always (enumeration.py:69, 86; phonons.py:411), so surface in lattice.in has no effect."
  },
  {
   "property": "C73",
   "status": "partial",
   "theorems": [
    "C73_everything",
    "C73_number_partial",
    "C73_not_saved",
    "C73_saved_partial",
    "C73_errors",
    "C28_total_refuted",
    "C29_more_than_exist_refuted"
   ],
   "note": "Everything: as claimed. For a smaller NUMBER only bounds hold (less than NUMBER plus the largest count in total, at most four times what there is of each): C28_total_refuted, C29_more_than_exist_refuted. -sizes a b leaves out b (C64_sizes_refuted); a filter of compositions works for two species only (C30_ternary_refuted) and not for tables of shapes (C30_shapes_by_conc_refuted). Counts below 2^61 in total (2^63: C57_large_counts_refuted)."
  },
  {
   "property": "C74",
   "status": "partial",
   "theorems": [
    "C74_workflow_partial",
    "C74_several_atoms_partial",
    "C74_polya_again_partial",
    "C74_displaced_partial",
    "C74_several_displaced_partial",
    "C74_polya_again_displaced_partial",
    "C74_one_command_refuted"
   ],
   "note": "The three commands: proved for the lattices, species and sizes of C62 (one atom: any symmetry; several atoms: the symmetries of the lattice are involutions; with or without displaced species). In one command, -polya -enum, it fails: the default output of -polya (enumeration.py:354-355) is set first, so the rows go to a file polya.out, there is no enum.out, and -distribution in that directory fails, as int('out') (structures.py:431)."
  },
  {
   "property": "C75",
   "status": "partial",
   "theorems": [
    "C75_sample_primitive",
    "C75_enum_sys_partial",
    "C75_enum_sys_all_partial",
    "C75_sample_size_refuted"
   ],
   "note": "The move past superperiodic structures (tree.py:399-418) is proved sound at the level of brancher for every sample, and of enum_sys for two species or more without arrows below the thresholds. The number wanted is not always reached: the sampled number is moved within prod(C), not within the classes, and the length test (phonons.py:486) negates the built-in class super, so never raises. At brancher level with four species or more the completeness clause is open (C06)."
  },
  {
   "property": "C76",
   "status": "partial",
   "theorems": [
    "C76_asked_partial",
    "C76_workflow_partial",
    "C76_several_atoms_partial"
   ],
   "note": "Proved for the lattices, species and ranges of C62 without displacements, for at most 19 sites of two species or 13 of three (so that no composition has more than 10^5 labelings and brancher, not guess_and_check, is what samples). Missing: displacements, more sites. That fewer rows than asked for may be listed is C75_sample_size_refuted."
  },
  {
   "property": "C77",
   "status": "partial",
   "theorems": [
    "C77_command_partial",
    "C77_symmetric_partial",
    "C77_columns_partial",
    "C77_transposed_refuted",
    "C77_basis_refuted",
    "C77_readme_refuted",
    "C77_names_refuted"
   ],
   "note": "Proved for one atom per cell, up to 12 cells, when the matrix in lattice.in is symmetric (primitive cubic; the usual vectors of fcc and bcc); for other matrices the picture is that of the lattice on the columns, not the rows (C77_columns_partial; visualize.py passes the vectors untransposed where read_enum_out transposes them). The command may stop at a form (SystemExit) where the loops lose a cell (C35) or the reduction gives up. False: with two atoms per cell or more nothing is ever drawn (the labeling is one character per cell, IndexError); without -input the command of README.md raises TypeError; two forms can share a file name. Not modelled: what matplotlib makes of the segments and dots, colours, views, -show."
  },
  {
   "property": "C78",
   "status": "partial",
   "theorems": [
    "C78_recovers_partial",
    "C78_several_atoms_partial",
    "C78_displaced_partial",
    "C78_several_displaced_partial",
    "C78_skipped_refuted"
   ],
   "note": "Proved for the lattices, species, sizes and ranges of C62 and C74, one atom per cell or several, with or without displaced species. A stop is between two writes or inside one (the file then has any text); the process is taken to be killed by what is outside it, so random numbers and dates may differ. It is the command that was stopped that must be given again: going on with the other commands after a stopped -polya silently loses sizes (C78_skipped_refuted), and a stopped -enum with an enum.in of its own that was cut is used as it is (C63_torn_refuted)."
  },
  {
   "property": "C79",
   "status": "partial",
   "theorems": [
    "C79_repeats_partial",
    "C79_several_atoms_partial",
    "C79_displaced_partial",
    "C79_several_displaced_partial"
   ],
   "note": "Proved for the lattices, species, sizes and ranges of C62 and C74, one atom per cell or several, with or without displaced species, without -acceptrate. The order of os.listdir stays an input of -distribution (found_sizes does not sort), the date one of -enum (it is in the heading). Numbers below everything (C73, C76) do draw."
  }
 ]
}