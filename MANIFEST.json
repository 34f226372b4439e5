{
 "claims": [
  {
   "property": "C01",
   "status": "proved",
   "theorems": [
    "C01_divisors"
   ],
   "note": ""
  },
  {
   "property": "C02",
   "status": "proved",
   "theorems": [
    "C02_hnf_from_diag",
    "C02_hnf_from_diag_any"
   ],
   "note": "Positive diagonals as stated; C02_hnf_from_diag_any gives the exact contents for every integer diagonal."
  },
  {
   "property": "C03",
   "status": "proved",
   "theorems": [
    "C03_hnf_from_det",
    "C03_negative_raises",
    "C03_zero"
   ],
   "note": ""
  },
  {
   "property": "C04",
   "status": "proved",
   "theorems": [
    "C04_hnfd_factors"
   ],
   "note": "Exact integers; la.inv(H).dot(M) modelled in exact rational arithmetic followed by rint."
  },
  {
   "property": "C05",
   "status": "proved",
   "theorems": [
    "C05_hnfd_invariant",
    "C05_hnfd_fixed_points",
    "C05_hnfd_decides_equivalence"
   ],
   "note": ""
  },
  {
   "property": "C06",
   "status": "proved",
   "theorems": [
    "C06_every_sublattice_once"
   ],
   "note": ""
  },
  {
   "property": "C07",
   "status": "partial",
   "theorems": [
    "C07_python2_refuted",
    "C07_python2_weak_form_partial"
   ],
   "note": "The property is false of the code: hnf.py divides ints with / and does not import division from __future__. Witness [[1,0],[1,2]]. Proved instead: the factorisation and |H_ij| < H_ii."
  },
  {
   "property": "C08",
   "status": "proved",
   "theorems": [
    "C08_reduce_hnfs_transversal",
    "C08_orbits_are_classes"
   ],
   "note": ""
  },
  {
   "property": "C09",
   "status": "proved",
   "theorems": [
    "C09_divide_work",
    "C09_any_split",
    "C09_parallel_equals_serial",
    "C09_two_tuples_refuted"
   ],
   "note": "Stronger than asked: the chunked reduction returns the same list as the serial one. Finding: as called in lat_cor the workers get 2-tuples although reduce_hnfs reads args[2], so mapping reduce_hnfs itself raises IndexError (C09_two_tuples_refuted)."
  },
  {
   "property": "C10",
   "status": "proved",
   "theorems": [
    "C10_cubic_table",
    "C10_square_tables",
    "C10_hexagonal_tables",
    "C10_integer_tables_are_groups"
   ],
   "note": "Exact cos(pi/3), sin(pi/3)."
  },
  {
   "property": "C100",
   "status": "partial",
   "theorems": [
    "C100_depth",
    "C100_maximum_partial",
    "C100_defaults_partial",
    "C100_small_maxiter_refuted"
   ],
   "note": "true when maxiter is at least miniter (3 unless given); a smaller maxiter is ignored for all inputs (refuted); the default is the documented 3 for one or two solutions, but 4 for three to nine and 5 from ten on"
  },
  {
   "property": "C101",
   "status": "proved",
   "theorems": [
    "C101_similarity"
   ],
   "note": "exact real arithmetic"
  },
  {
   "property": "C102",
   "status": "proved",
   "theorems": [
    "C102_unit_of_length",
    "C102_direct"
   ],
   "note": "lat_cor_hnf in dimension 3 (serial run), the direct search in dimensions 2 and 3; exact real arithmetic"
  },
  {
   "property": "C103",
   "status": "proved",
   "theorems": [
    "C103_no_change_is_final",
    "C103_settles"
   ],
   "note": "in dimension 3; the second part for lattices on which LLL ends (C58); exact real arithmetic"
  },
  {
   "property": "C104",
   "status": "partial",
   "theorems": [
    "C104_more_partial",
    "C104_first_partial"
   ],
   "note": "in dimension 3, for lattices (and sublattices) whose symmetries the tolerances resolve; for the Ericksen distance the symmetries of the product lattice must be orthogonal in its base; for lat_cor, where a larger volume threshold (below 1) is allowed as well, the first solution only; exact real arithmetic"
  },
  {
   "property": "C105",
   "status": "partial",
   "theorems": [
    "C105_same_variants_partial",
    "C105_cubic_partial",
    "C105_refuted"
   ],
   "note": "the variants are the same whenever setU(V) is reversible, for every group of rotations; it is reversible for the cubic group if the Laue group of the stretch does not have four elements; with four it can fail (C105_refuted: a lattice with a six-fold axis, which the table knows only along z); the images of U must be farther apart than the comparison tolerance; exact real arithmetic"
  },
  {
   "property": "C106",
   "status": "partial",
   "theorems": [
    "C106_refuted",
    "C106_exact",
    "C106_perfect_partial",
    "C106_self_partial"
   ],
   "note": "Refuted: main_hnf.py:110 leaves the product base unreduced while lat_opt starts from the reduced base of the parent; for the primitive monoclinic cell with edges 4/3, 1, sqrt 2 and angle 135 degrees the first solution of the default request has distance at least 73/1296 (the whole search is computed by an integer mirror, SelfSearch.v, proved to follow it). Proved: distance 0 iff U = I for every solution of every run; when the reduced base of the parent is a rotation of the base of the product (in particular when LLL leaves the base as it is), the run ends and its first solution has distance 0, U = I and eigenvalues 1. Missing: lattices whose symmetries the tolerances do not resolve."
  },
  {
   "property": "C107",
   "status": "partial",
   "theorems": [
    "C107_meaning_partial",
    "C107_accepts_members",
    "C107_agrees",
    "C107_integer_partial",
    "C107_refuted"
   ],
   "note": "The 'exactly' is false of the code because of its tolerances (C107_refuted: a quarter turn of a rectangle with sides 1 and 1+1e-6 is accepted). Proved: the exact condition tested, that every true member is accepted, that the two tests agree on every isometry, and that the answer is exact for integer M on every base with integer entries of size at most 7."
  },
  {
   "property": "C108",
   "status": "partial",
   "theorems": [
    "C108_accepted",
    "C108_equivalent",
    "C108_variants_partial",
    "C108_exact_partial",
    "C108_pipeline_partial",
    "C108_direct_partial",
    "C108_refuted"
   ],
   "note": "The last part is false within the comparison tolerance of getvariants (C108_refuted: an equivalent stretch 1e-9 away from another is not listed). Proved: acceptance and the relation of the stretches for every run in exact arithmetic; that every equivalent stretch is listed up to the tolerance and every listed variant is the stretch of an equivalent correspondence of the same size; exactly so when the tolerance separates the images; and the whole way from lat_cor_hnf through setU to getvariants for parents whose symmetries the tolerances resolve."
  },
  {
   "property": "C109",
   "status": "partial",
   "theorems": [
    "C109_path",
    "C109_critical_partial",
    "C109_refuted"
   ],
   "note": "The path and the reasons to stop are proved for every start and every routine that returns inverses only; a point at which the residual is small is a critical point up to the tolerance. Refuted as stated: from the start (1,0,0,0), for a square lattice and itself, the matrix to invert has a row of zeros, so la.inv raises and no bound is returned. Not covered: the point reached when the iteration stops for one of the other reasons."
  },
  {
   "property": "C11",
   "status": "proved",
   "theorems": [
    "C11_hassubgroup_decides",
    "C11_hassubgroup_rest",
    "C11_reflexive",
    "C11_on_groups",
    "C11_integers_are_separated"
   ],
   "note": "Order divisibility on true groups comes from Lagrange's theorem, proved in Lagrange.v."
  },
  {
   "property": "C110",
   "status": "partial",
   "theorems": [
    "C110_rotated_partial",
    "C110_swapped_partial",
    "C110_conventional_partial",
    "C110_refuted"
   ],
   "note": "Refuted without the condition on the rotated pair: the tolerance is compared entry by entry, which is not rotation invariant, so a pair that differs by exactly the tolerance is twinnable and the same pair rotated is not (C110_refuted). With the condition, and for pairs whose axes are clearly separated (clear_pair), the answers agree and the axes are the rotated axes. The volume fraction and the habit planes of the two objects are not compared (C38 and C97 are about one object)."
  },
  {
   "property": "C111",
   "status": "proved",
   "theorems": [
    "C111_hnfd3",
    "C111_hnfd2",
    "C111_int32_3",
    "C111_int32_2",
    "C111_limit"
   ],
   "note": "The bounds on the entries are part of the statement. Machine arithmetic for the integers and for the quotients; la.inv(H).dot(M) (the factor L) is exact, as in C04. A Python int that does not fit raises OverflowError, as in numpy 2."
  },
  {
   "property": "C112",
   "status": "partial",
   "theorems": [
    "C112_orientation_partial",
    "C112_groups_as_sets",
    "C112_refuted"
   ],
   "note": "False as stated: Laue_group only recognises symmetries along the axes of its tables (C16), so turning one lattice leaves equivalent correspondences in the list (C112_refuted: 2 against more than 2). Proved whenever Laue_group finds exactly the rotational symmetries of the lattices before and after turning; for the distance 'strain' la.eig is assumed to return the eigenvalues."
  },
  {
   "property": "C113",
   "status": "partial",
   "theorems": [
    "C113_sizes_partial",
    "C113_exact_partial",
    "C113_refuted"
   ],
   "note": "False as stated: for vol_th = 0.16 and r = 25 the size 29 is within the threshold and is not searched (C113_refuted). Proved: every size inside the limits by one part in 2^51 is searched and none outside by as much, and when no integer is that close to a limit the sizes are those of exact arithmetic (C54). The two determinants whose quotient is r are not modelled in double precision."
  },
  {
   "property": "C114",
   "status": "proved",
   "theorems": [
    "C114_euler",
    "C114_other_orders",
    "C114_rotation"
   ],
   "note": "exact real arithmetic; the axis along the negative first axis, for which rotation fails (C24), is never needed"
  },
  {
   "property": "C115",
   "status": "proved",
   "theorems": [
    "C115_pairs",
    "C115_table"
   ],
   "note": "the images of the stretch under the symmetry group must be farther apart than the comparison tolerance (separated, as in C27); C115_edge shows that the count differs at the edge of the tolerance"
  },
  {
   "property": "C116",
   "status": "proved",
   "theorems": [
    "C116_closed",
    "C116_size",
    "C116_order"
   ],
   "note": "Python 3 division (C80 for Python 2)"
  },
  {
   "property": "C117",
   "status": "proved",
   "theorems": [
    "C117_same_cell",
    "C117_same_base",
    "C117_same_points",
    "C117_rotated",
    "C117_equal"
   ],
   "note": "real arithmetic"
  },
  {
   "property": "C118",
   "status": "proved",
   "theorems": [
    "C118_shear",
    "C118_two",
    "C118_complete"
   ],
   "note": "real arithmetic; hypotheses as for C36"
  },
  {
   "property": "C119",
   "status": "proved",
   "theorems": [
    "C119_product",
    "C119_factor",
    "C119_unique",
    "C119_count",
    "C119_sums"
   ],
   "note": "integer arithmetic, Python 3 division"
  },
  {
   "property": "C12",
   "status": "partial",
   "theorems": [
    "C12_same_lattice_equal_partial",
    "C12_reflexive",
    "C12_dimensions",
    "C12_meaning_partial",
    "C12_exact_partial",
    "C12_symmetric_refuted",
    "C12_transitive_refuted"
   ],
   "note": "== is reflexive and holds for equal lattices, but it is neither symmetric (I == 3I, 3I != I) nor transitive (tolerance). Proved: the exact meaning of ==, and that it is \"same lattice\" for bases of equal volume whose accepted change of basis is exactly integer. Dimensions 2 and 3."
  },
  {
   "property": "C120",
   "status": "partial",
   "theorems": [
    "C120_rows_partial",
    "C120_not_square_partial",
    "C120_refuted"
   ],
   "note": "False of the code with numpy 1.12 or later (the dimension is a float: TypeError) and with Python 3 (xrange: NameError), for every input (C120_refuted). Proved for Python 2 with an earlier numpy."
  },
  {
   "property": "C121",
   "status": "proved",
   "theorems": [
    "C121_frame",
    "C121_sign",
    "C121_exchange",
    "C121_symmetric",
    "C121_fractions"
   ],
   "note": "For the objects the operation is an integer orthogonal matrix, with which rounding to ten decimals commutes; for other rotations the rounded answers differ."
  },
  {
   "property": "C122",
   "status": "proved",
   "theorems": [
    "C122_fractions",
    "C122_supercompatible",
    "C122_reported"
   ],
   "note": "Exact arithmetic; the pairs are those of C86/C87 (clear of the tolerance). C122_fractions: both polynomials, and every solution of the twinning equation has one of them. C122_supercompatible: XI = 1 / XII = 1 and their converses. C122_reported needs no hypothesis on the second variant."
  },
  {
   "property": "C123",
   "status": "proved",
   "theorems": [
    "C123_covers",
    "C123_first",
    "C123_perfect"
   ],
   "note": "The hypothesis quartic_bound says that the number scipy's minimiser returns is a lower bound of the quartic on the unit sphere (a numerical minimiser cannot be modelled), as in C84."
  },
  {
   "property": "C124",
   "status": "partial",
   "theorems": [
    "C124_volume_partial",
    "C124_direct_partial",
    "C124_threshold_unused",
    "C124_refuted",
    "C124_direct_refuted"
   ],
   "note": "The meaning of J is proved for both functions. lat_cor_hnf bounds 1/J instead of J by 1 +- vol_th (proved), so J - 1 can exceed vol_th (C124_refuted: J = 1.05 with vol_th = 1/21). lat_cor ignores vol_th: every value in (0, 1] gives the same answer (C124_threshold_unused), and with the default 0.1 it reports J = 1.21 or less than 0.61 (C124_direct_refuted). Missing in C124_direct_partial: lattices whose symmetries the tolerances do not resolve."
  },
  {
   "property": "C125",
   "status": "partial",
   "theorems": [
    "C125_orders",
    "C125_number_partial",
    "C125_integer_partial",
    "C125_refuted"
   ],
   "note": "The orders are proved for every base. The numbers, and the orders of the integer matrices of lattice_group, are proved for bases whose symmetries the tolerance resolves; a cube sheared by 9e-9 is given 22 or 23 rotations (C125_refuted)."
  },
  {
   "property": "C126",
   "status": "proved",
   "theorems": [
    "C126_volume",
    "C126_right_handed",
    "C126_turned_over"
   ],
   "note": "beta = 270 gives a left-handed base (C126_turned_over)."
  },
  {
   "property": "C127",
   "status": "partial",
   "theorems": [
    "C127_frame",
    "C127_variants",
    "C127_exchange_connected",
    "C127_exchange_refuted"
   ],
   "note": "Rotations: proved, on either Python. Exchange: false as stated, because the test is abs(e[1]) - 1 < 1e-5 (C127_exchange_refuted: (I/2, I) is accepted, (I, I/2) is not); proved for pairs that are rank-one connected, which are accepted in both orders."
  },
  {
   "property": "C128",
   "status": "partial",
   "theorems": [
    "C128_solvers_agree_partial",
    "C128_agree_refuted",
    "C128_rotated_partial",
    "C128_AM_rotated_partial",
    "C128_twin_rotated_partial"
   ],
   "note": "Proved when l3 - l1 is at least the square of the code's threshold: 1e-24 for solve_rank1 and the twin solver, 1e-12 for AM_Solver. Between the two thresholds AM_Solver returns None while solve_rank1 returns two pairs (C128_agree_refuted)."
  },
  {
   "property": "C129",
   "status": "partial",
   "theorems": [
    "C129_scaled_partial",
    "C129_expanded_partial",
    "C129_refuted"
   ],
   "note": "Proved for clear pairs (as in C40): for k >= 1 without further conditions, for k < 1 when the scaled pair is still distinct and clear. False for small k because the tolerance 1e-12 is absolute (C129_refuted: diag(2,1,1), diag(1,2,1) divided by 10^13 are not twinnable)."
  },
  {
   "property": "C13",
   "status": "proved",
   "theorems": [
    "C13_accepts_symmetries",
    "C13_meaning",
    "C13_sound"
   ],
   "note": ""
  },
  {
   "property": "C130",
   "status": "proved",
   "theorems": [
    "C130_identified",
    "C130_length",
    "C130_frame",
    "C130_reversed",
    "C130_trace"
   ],
   "note": "Angles are compared by cosine and sine, in exact arithmetic; the axes for which the call fails are those of C24."
  },
  {
   "property": "C131",
   "status": "partial",
   "theorems": [
    "C131_count_partial",
    "C131_cubic_partial",
    "C131_refuted"
   ],
   "note": "Proved for stretches whose different images differ by more than the comparison tolerance (as C27). Without that the count is wrong: a tetragonal stretch of one part in 10^9 is given one variant instead of three (C131_refuted)."
  },
  {
   "property": "C132",
   "status": "proved",
   "theorems": [
    "C132_compose",
    "C132_injective",
    "C132_identity",
    "C132_zone"
   ],
   "note": "Exact arithmetic in place of floats."
  },
  {
   "property": "C133",
   "status": "proved",
   "theorems": [
    "C133_planes",
    "C133_directions"
   ],
   "note": "Exact arithmetic in place of floats."
  },
  {
   "property": "C14",
   "status": "partial",
   "theorems": [
    "C14_laue_partial",
    "C14_point_group_partial",
    "C14_other_dimensions",
    "C14_refuted"
   ],
   "note": "identity, rotations, acceptance and no duplicates proved for every lattice; closure under products proved when no tabled isometry is accepted only through the tolerance, and refuted without that (nearly cubic orthorhombic lattice)."
  },
  {
   "property": "C15",
   "status": "partial",
   "theorems": [
    "C15_special_partial",
    "C15_lattice_group_partial",
    "C15_near_partial",
    "C15_refuted"
   ],
   "note": "same order always; E M = Q E, determinants and closure proved when no tabled isometry is accepted only through the tolerance; refuted otherwise (an element of determinant 80001 for a skewed base)."
  },
  {
   "property": "C16",
   "status": "partial",
   "theorems": [
    "C16_two_dimensions_partial",
    "C16_cubic_axes_partial",
    "C16_hexagonal_axes_partial",
    "C16_refuted"
   ],
   "note": "refuted in 3D: only rotations about the program axes are tried, so a rotated cubic lattice loses symmetries. Proved complete in 2D for every orientation (crystallographic restriction), and in 3D when the symmetries are axis-aligned."
  },
  {
   "property": "C17",
   "status": "proved",
   "theorems": [
    "C17_conventional_cell"
   ],
   "note": "all 14 + 5 types, every positive parameter list for which a cell with those angles exists"
  },
  {
   "property": "C18",
   "status": "proved",
   "theorems": [
    "C18_conventional_trans"
   ],
   "note": ""
  },
  {
   "property": "C19",
   "status": "partial",
   "theorems": [
    "C19_round_trip_partial",
    "C19_same_direction",
    "C19_wrong_length",
    "C19_one_row",
    "C19_round_trip_refuted"
   ],
   "note": "a list holding exactly one index comes back as a bare index (refuted); proved for a bare index and for lists of two or more."
  },
  {
   "property": "C20",
   "status": "proved",
   "theorems": [
    "C20_symmetry_order"
   ],
   "note": "admissible parameters; also the planar types"
  },
  {
   "property": "C21",
   "status": "partial",
   "theorems": [
    "C21_accepts",
    "C21_rejects_malformed",
    "C21_rejects_singular_partial",
    "C21_silent_nan",
    "C21_complete_partial",
    "C21_rejects_refuted"
   ],
   "note": "angles that no cell has (trigonal above 120 degrees, impossible triclinic triples, gamma = 180) give a NaN base without ValueError; every other request is accepted or rejected as stated, and the cases cover every request."
  },
  {
   "property": "C22",
   "status": "partial",
   "theorems": [
    "C22_names_partial",
    "C22_triclinic_partial",
    "C22_names_refuted"
   ],
   "note": "the triclinic description prints b in place of alpha; all other types, and the other five values of the triclinic one, are right."
  },
  {
   "property": "C23",
   "status": "proved",
   "theorems": [
    "C23_value",
    "C23_rotation",
    "C23_inverse",
    "C23_errors"
   ],
   "note": ""
  },
  {
   "property": "C24",
   "status": "partial",
   "theorems": [
    "C24_rodrigues_partial",
    "C24_is_rotation_partial",
    "C24_additive_partial",
    "C24_negative_e1_refuted"
   ],
   "note": "an axis along -e1 gives NaNs (refuted); every other nonzero axis proved."
  },
  {
   "property": "C25",
   "status": "proved",
   "theorems": [
    "C25_dual",
    "C25_inverse",
    "C25_elementwise"
   ],
   "note": "dimensions 2 and 3; a list of one vector comes back as the vector"
  },
  {
   "property": "C26",
   "status": "partial",
   "theorems": [
    "C26_result_partial",
    "C26_accepts",
    "C26_rejects_partial",
    "C26_missing_check_partial",
    "C26_positive_definite_refuted",
    "C26_type_error_refuted"
   ],
   "note": "indefinite matrices with positive determinant are accepted, and five or more numbers raise AttributeError (both refuted); everything else proved"
  },
  {
   "property": "C27",
   "status": "partial",
   "theorems": [
    "C27_missing_image_refuted",
    "C27_orbit_partial",
    "C27_count",
    "C27_tolerance_partial",
    "C27_irreversible"
   ],
   "note": "false for stretches whose images differ by less than the comparison tolerance (an image is then missing); the full orbit statement for every group whose images of U are farther apart than the comparison tolerance; without that hypothesis the tolerance version"
  },
  {
   "property": "C28",
   "status": "partial",
   "theorems": [
    "C28_nth_partial",
    "C28_out_of_range_refuted"
   ],
   "note": "0 and negative n above -N are not rejected (refuted)"
  },
  {
   "property": "C29",
   "status": "partial",
   "theorems": [
    "C29_subgroup_partial",
    "C29_errors",
    "C29_proper_refuted"
   ],
   "note": "equality of the two groups is also called reversible (refuted); the subgroup test is proved"
  },
  {
   "property": "C30",
   "status": "partial",
   "theorems": [
    "C30_solve_rank1_partial",
    "C30_AM_Solver_partial",
    "C30_twin_solver_partial",
    "C30_decomposition_exists",
    "C30_tiny_gap_refuted"
   ],
   "note": "For all three solvers: with middle eigenvalue one both returned pairs solve the equation, orientation preserving, are distinct and are the only solutions up to sign; the rotation part is proved for the twin solver. Fails only when the outer eigenvalues differ by less than the code threshold squared (1e-24, 1e-12): then the code answers None although a solution exists (C30_tiny_gap_refuted)."
  },
  {
   "property": "C31",
   "status": "partial",
   "theorems": [
    "C31_refuted",
    "C31_python3_refuted",
    "C31_test_partial",
    "C31_accepts_connected",
    "C31_criterion"
   ],
   "note": "The misplaced parenthesis makes the test one sided: A = I/2, B = I is accepted although no rank-one connection exists (C31_refuted). Under Python 3 every call raises NameError. Proved: compatible pairs are always accepted; the exact criterion is middle eigenvalue = 1."
  },
  {
   "property": "C32",
   "status": "partial",
   "theorems": [
    "C32_refuted",
    "C32_accepts_partial",
    "C32_exact_partial",
    "C32_solvers_partial",
    "C32_sylvester_partial"
   ],
   "note": "diag(-1,-1,1) is accepted (C32_refuted). Proved: every symmetric positive definite matrix is accepted, acceptance is exactly near symmetry and positive determinant."
  },
  {
   "property": "C33",
   "status": "proved",
   "theorems": [
    "C33_table",
    "C33_partition",
    "C33_after_error"
   ],
   "note": "for every list of positive definite matrices (which variants are) and every call history; C33_after_error: for a singular matrix the first call raises and later calls return a truncated table"
  },
  {
   "property": "C34",
   "status": "partial",
   "theorems": [
    "C34_symmetric_partial",
    "C34_reciprocal",
    "C34_refuted"
   ],
   "note": "the fixed tolerance 0.005 is applied to an eigenvalue that becomes its reciprocal when the pair is exchanged: refuted for a middle eigenvalue near 1.005, proved outside the band 0.005/1.005 <= |l-1| < 0.005/0.995"
  },
  {
   "property": "C35",
   "status": "partial",
   "theorems": [
    "C35_first_call_partial",
    "C35_not_twinnable",
    "C35_first_answer_stays",
    "C35_refuted",
    "C35_default_group"
   ],
   "note": "the answer for the first group is cached and repeated for every other group (refuted); the first answer is right after any calls of other methods"
  },
  {
   "property": "C36",
   "status": "proved",
   "theorems": [
    "C36_solves",
    "C36_returned",
    "C36_pair"
   ],
   "note": "the exact a, n (before rounding) solve the equation with a rotation Q; the rounded a, n with the returned Q satisfy Q V = U + a (x) n. C36_pair is the same for TwinPair.twinparam after any calls. C36_returned also records that newer numpy raises ValueError in the comparison with None"
  },
  {
   "property": "C37",
   "status": "partial",
   "theorems": [
    "C37_normals",
    "C37_returned",
    "C37_variants_partial",
    "C37_refuted"
   ],
   "note": "refuted: without an axis both returned normals are (1, 1, 1), whatever the input, because rho is an array instead of a norm. C37_variants_partial: symmetry related variants with middle eigenvalue one never reach this branch"
  },
  {
   "property": "C38",
   "status": "proved",
   "theorems": [
    "C38_root",
    "C38_variants",
    "C38_residual",
    "C38_found",
    "C38_pair"
   ],
   "note": "C38_residual and C38_pair give the defect that remains because the object uses a and n rounded to ten digits"
  },
  {
   "property": "C39",
   "status": "partial",
   "theorems": [
    "C39_one_fraction",
    "C39_refuted",
    "C39_both_partial",
    "C39_types"
   ],
   "note": "C39_types: iscompatible(t) is true exactly when the fraction of that type is returned. Habit planes refuted: iscompatible() is true when one of the two fractions exists, habitplanes needs both; when both exist and the stretch of each laminate has eigenvalues that differ by more than the tolerance squared, it returns the eight planes (C39_both_partial)"
  },
  {
   "property": "C40",
   "status": "partial",
   "theorems": [
    "C40_complete",
    "C40_axes_partial",
    "C40_refuted"
   ],
   "note": "complete for all inputs; sound when the coefficient compared with 1e-12 is zero or at least 5e-13 (clear_pair); refuted without that: coefficients below 1e-12 add an axis that does not map U to V"
  },
  {
   "property": "C41",
   "status": "proved",
   "theorems": [
    "C41_nonnegative",
    "C41_zero_iff_strain_free",
    "C41_symmetry_invariant"
   ],
   "note": "Exact reals, dimension 2 and 3."
  },
  {
   "property": "C42",
   "status": "proved",
   "theorems": [
    "C42_vectorised"
   ],
   "note": "Any dimension; both branches (fewer than 100 rows, 100 or more)."
  },
  {
   "property": "C43",
   "status": "partial",
   "theorems": [
    "C43_Ericksen_zero",
    "C43_Ericksen_symmetry_partial",
    "C43_Ericksen_symmetry_refuted",
    "C43_strain_3D_zero",
    "C43_strain_symmetry",
    "C43_strain_2D_refuted"
   ],
   "note": "False of the code in two ways: Eric_dist is not invariant under symmetries of the second lattice whose integer matrix is not orthogonal, and strain_dist hard-codes + 3, so a perfect 2D match is at distance 1. Proved: everything else. Eigenvalues are an oracle satisfying eigen (Eig.v)."
  },
  {
   "property": "C44",
   "status": "proved",
   "theorems": [
    "C44_every_vector_once",
    "C44_negative_radius",
    "C44_integer_radius"
   ],
   "note": "Real radius, exact square root."
  },
  {
   "property": "C45",
   "status": "partial",
   "theorems": [
    "C45_resume_partial",
    "C45_resume_refuted"
   ],
   "note": "False of the code: the branch with the negated first entry is restarted at the checkpoint too. Proved: the resumed stream is a subsequence of the right one starting with the checkpoint, and it is complete exactly when only zeros stand right of a positive entry."
  },
  {
   "property": "C46",
   "status": "proved",
   "theorems": [
    "C46_quartic_form",
    "C46_radius_sound",
    "C46_positive_bound_exists"
   ],
   "note": "For any alpha that is a lower bound on unit vectors; whether quart_min returns one is C81."
  },
  {
   "property": "C47",
   "status": "proved",
   "theorems": [
    "C47_best_so_far",
    "C47_best_so_far_any_distance",
    "C47_update_never_raises"
   ],
   "note": "for every history of add_sol/update_sol calls"
  },
  {
   "property": "C48",
   "status": "partial",
   "theorems": [
    "C48_initialisation_partial",
    "C48_search_partial",
    "C48_refuted"
   ],
   "note": "false as stated: StopIteration escapes from next(g) (C48_refuted). Proved: initialisation never raises, the search always ends, normally or with StopIteration. Not proved: that random initialisation ends (it need not)."
  },
  {
   "property": "C49",
   "status": "partial",
   "theorems": [
    "C49_stays_in_SL3",
    "C49_reached_exactly_partial",
    "C49_refuted"
   ],
   "note": "The first half is proved; the second is false: gobacktoparent forbids repeating a shear instead of undoing it, so I + 2 e0 (x) e1 is never reached from I. Proved instead: the exact set of matrices reached."
  },
  {
   "property": "C50",
   "status": "partial",
   "theorems": [
    "C50_local_minimum_partial",
    "C50_any_distance_partial",
    "C50_refuted",
    "C50_refuted_reachable"
   ],
   "note": "Proved for every cache that has the counter entry, as lat_opt passes it. False for the default cache: a repeated call raises KeyError."
  },
  {
   "property": "C51",
   "status": "proved",
   "theorems": [
    "C51_best_visited",
    "C51_any_distance"
   ],
   "note": "For the Cauchy distance, and for every distance invariant under the two groups."
  },
  {
   "property": "C52",
   "status": "partial",
   "theorems": [
    "C52_refuted",
    "C52_best_of_all_partial",
    "C52_order_partial",
    "C52_head_partial",
    "C52_lattices_partial",
    "C52_exact_partial"
   ],
   "note": "The claim fails when a per-sublattice result has fewer than nsol entries (a worse result is dropped although the list is not full). Proved: when every result offers nsol inequivalent solutions the list is the best of all and order independent; the first solution is always the global best; in every case the list is the best of the candidates not worse than the worst one of the first result."
  },
  {
   "property": "C53",
   "status": "proved",
   "theorems": [
    "C53_async_loop",
    "C53_any_schedule_is_serial",
    "C53_no_pool"
   ],
   "note": "All schedules, pool sizes >= 1 and task counts; combined with C52 the distances equal those of the serial run."
  },
  {
   "property": "C54",
   "status": "partial",
   "theorems": [
    "C54_sizes",
    "C54_refuted",
    "C54_positive_partial"
   ],
   "note": "The range is exactly as claimed; positivity fails for small ratios or thresholds >= 1 and is proved for r > 1/2 and vol_th < 1."
  },
  {
   "property": "C55",
   "status": "partial",
   "theorems": [
    "C55_refuted"
   ],
   "note": "False of the code for every 2D input: the shears are 3 x 3, so the first product raises ValueError."
  },
  {
   "property": "C56",
   "status": "proved",
   "theorems": [
    "C56_hnf",
    "C56_direct",
    "C56_direct_oriented",
    "C56_decomposition_exists"
   ],
   "note": "la.eig is an argument constrained to return an eigendecomposition of the symmetric matrix it is given; C56_decomposition_exists proves that one always exists. conventional_trans is covered by C18."
  },
  {
   "property": "C57",
   "status": "partial",
   "theorems": [
    "C57_round_partial",
    "C57_refuted"
   ],
   "note": "false as stated: the last round is thrown away (C57_refuted). Proved: slices of every other round are covered by their minimum."
  },
  {
   "property": "C58",
   "status": "proved",
   "theorems": [
    "C58_same_lattice",
    "C58_start"
   ],
   "note": ""
  },
  {
   "property": "C59",
   "status": "partial",
   "theorems": [
    "C59_reduced_partial",
    "C59_refuted"
   ],
   "note": "refuted in three dimensions: Gauss_reduction reduces the third vector by the second before the first with stale coefficients, so |mu_20| may exceed 1/2 in the result. Proved: the Lovasz condition, the coefficients next to the diagonal, and everything in two dimensions"
  },
  {
   "property": "C60",
   "status": "partial",
   "theorems": [
    "C60_signal_partial",
    "C60_refuted"
   ],
   "note": "refuted both ways: the code tests for 100 rounds while the loop runs to 1000, so a base that converged in exactly 100 rounds is reported as a failure and one that did not converge in 1000 is returned as a plain base. Proved: the failure signal is given exactly when the loop made 100 rounds"
  },
  {
   "property": "C61",
   "status": "partial",
   "theorems": [
    "C61_dot_partial",
    "C61_T_partial",
    "C61_det_partial",
    "C61_trace_partial",
    "C61_refuted"
   ],
   "note": "refuted: mat_trace adds to uninitialised memory, and under Python 3 xrange is not defined in the module. Proved for Python 2: mat_dot, mat_T, mat_det for all dimensions, all list lengths and entries of any ring; mat_trace when the memory is zero"
  },
  {
   "property": "C62",
   "status": "partial",
   "theorems": [
    "C62_twin",
    "C62_mat_math_partial",
    "C62_refuted"
   ],
   "note": "_brute_cof of twin.py: proved. cofactor of mat_math.py: proved for Python 2, raises a NameError under Python 3"
  },
  {
   "property": "C63",
   "status": "partial",
   "theorems": [
    "C63_vertices",
    "C63_shapes",
    "C63_bonds_partial",
    "C63_refuted"
   ],
   "note": "vertices: proved. Bonds: proved in three dimensions; in two dimensions the loop over len(idx) raises a TypeError, and every UnitCell construction raises a TypeError because of the keyword N"
  },
  {
   "property": "C64",
   "status": "partial",
   "theorems": [
    "C64_disc_partial",
    "C64_mirror_partial",
    "C64_axis",
    "C64_pole_figure",
    "C64_refuted"
   ],
   "note": "missing: poles with 0 < p.z <= 1e-6, which the code reflects to the lower hemisphere (refuted)"
  },
  {
   "property": "C65",
   "status": "partial",
   "theorems": [
    "C65_screw_partial",
    "C65_refuted"
   ],
   "note": "missing: axes along -e1 (rotation gives NaN) and Python 2 (integer division in the translation); both refuted"
  },
  {
   "property": "C66",
   "status": "partial",
   "theorems": [
    "C66_isolated_partial",
    "C66_refuted"
   ],
   "note": "missing: the array passed to the constructor is shared with the object; changing it changes base() while cached groups go stale (refuted)"
  },
  {
   "property": "C67",
   "status": "partial",
   "theorems": [
    "C67_aliases_partial",
    "C67_refuted"
   ],
   "note": "missing: getlatticegroup returns the special lattice group; toPrimitive and toConventional always raise (refuted)"
  },
  {
   "property": "C68",
   "status": "proved",
   "theorems": [
    "C68_quotient",
    "C68_hnfd",
    "C68_hnfd3",
    "C68_hnfd2",
    "C68_limit"
   ],
   "note": "binary64 of Flocq; the matrix L of hnfd (la.inv) is exact in the model and integers have no 64 bit bound"
  },
  {
   "property": "C69",
   "status": "proved",
   "theorems": [
    "C69_one_pass_is_global",
    "C69_whole_ball_is_global"
   ],
   "note": "For every pair of lattices and every history that completes its first pass. For histories that resume after an improvement it is false: see C84_best_missed_refuted."
  },
  {
   "property": "C70",
   "status": "proved",
   "theorems": [
    "C70_lat_opt_ends",
    "C70_head_no_worse"
   ],
   "note": "The starting point lo is any integer matrix; that LLL delivers one is C58."
  },
  {
   "property": "C71",
   "status": "partial",
   "theorems": [
    "C71_group",
    "C71_rejects",
    "C71_lattice_type_partial",
    "C71_exact_partial",
    "C71_trigonal_refuted"
   ],
   "note": "every type except 5 gives exactly the rotation group of its crystal system (no repeats, right order); type 5 fails because of its built-in sample parameters (in exact arithmetic)"
  },
  {
   "property": "C72",
   "status": "proved",
   "theorems": [
    "C72_rounds",
    "C72_terminates",
    "C72_plain"
   ],
   "note": "exact real arithmetic"
  },
  {
   "property": "C73",
   "status": "proved",
   "theorems": [
    "C73_short",
    "C73_plain"
   ],
   "note": "exact real arithmetic"
  },
  {
   "property": "C74",
   "status": "partial",
   "theorems": [
    "C74_box_partial",
    "C74_refuted"
   ],
   "note": "proved for three dimensional boxes with axis-parallel sides; refuted in two dimensions"
  },
  {
   "property": "C75",
   "status": "partial",
   "theorems": [
    "C75_projection_partial",
    "C75_refuted"
   ],
   "note": "proved for axes with z0^2+z1^2 > 1e-6 or along e3; refuted for short axes"
  },
  {
   "property": "C76",
   "status": "partial",
   "theorems": [
    "C76_isolated_partial",
    "C76_refuted"
   ],
   "note": "missing: conventional_trans() and lat_param() return internal arrays, a parameter array is shared (refuted)"
  },
  {
   "property": "C77",
   "status": "partial",
   "theorems": [
    "C77_isolated_partial",
    "C77_refuted"
   ],
   "note": "missing: getvariants() and getvariant() return the internal array (refuted)"
  },
  {
   "property": "C78",
   "status": "proved",
   "theorems": [
    "C78_solutions_genuine",
    "C78_defaults"
   ],
   "note": ""
  },
  {
   "property": "C79",
   "status": "partial",
   "theorems": [
    "C79_refuted",
    "C79_small_product",
    "C79_search_ends_partial",
    "C79_locally_best_partial"
   ],
   "note": "false for product cells of less than half the parent volume with no size within the threshold: such a call always fails; otherwise the run ends for each of the three distances, for parents whose symmetries the tolerances resolve, ratios above 1/2 and sublattices on which LLL does not fail; the first solution is as close as a local optimum of each sublattice when all symmetries are resolved and, for the Ericksen distance, those of the product are orthogonal integer matrices; missing: the remaining lattices"
  },
  {
   "property": "C80",
   "status": "partial",
   "theorems": [
    "C80_covers_partial",
    "C80_refuted"
   ],
   "note": "nothing is lost, but equivalent sublattices may both be kept (refuted)"
  },
  {
   "property": "C81",
   "status": "partial",
   "theorems": [
    "C81_fallback_partial",
    "C81_scipy_partial",
    "C81_fallback_refuted"
   ],
   "note": "false without scipy: there are starting points for which alpha exceeds the form at a unit vector and the radius excludes a closer correspondence. Proved: alpha is the least value of the form at the end points, hence a bound when one of them is a global minimum. scipy.optimize.minimize and la.inv are oracles."
  },
  {
   "property": "C82",
   "status": "partial",
   "theorems": [
    "C82_gradient",
    "C82_equations",
    "C82_jacobian_refuted",
    "C82_jacobian_partial"
   ],
   "note": "the gradient is right for every tensor; the equations of the iteration are those of the critical points on the sphere; the matrix of the iteration lacks the term -2 lam on its diagonal (refuted) and is the derivative of the equations but for exactly that term"
  },
  {
   "property": "C83",
   "status": "partial",
   "theorems": [
    "C83_solutions_genuine_partial",
    "C83_refuted"
   ],
   "note": "false for lattices whose symmetries the tolerances do not resolve: for edges 1 and 1.000001 the list pairs the distance 0 with a correspondence at a positive distance (C83_refuted). Proved for lattices whose symmetries the tolerances resolve and vol_th <= 1; the random matrices, scipy, la.eig and the order of sets are arguments"
  },
  {
   "property": "C84",
   "status": "partial",
   "theorems": [
    "C84_outcome_partial",
    "C84_global_partial",
    "C84_refuted",
    "C84_best_missed_refuted"
   ],
   "note": "false in two ways: with suitable random matrices the call raises StopIteration (C84_refuted), and with the default options it misses a perfect match between a 7x4 rectangular and a 14x16 centred rectangular lattice because the search resumes at a checkpoint (C84_best_missed_refuted). Proved: it ends with a list or StopIteration, and a list returned within the first turn of the search loop is globally best"
  },
  {
   "property": "C85",
   "status": "partial",
   "theorems": [
    "C85_refuted",
    "C85_cauchy_partial"
   ],
   "note": "false: the keyword is read and printed only; the reported distance is always the Cauchy distance"
  },
  {
   "property": "C86",
   "status": "partial",
   "theorems": [
    "C86_classification_partial",
    "C86_refuted",
    "C86_no_axis_refuted"
   ],
   "note": "true when the coefficient compared with 1e-12 is zero or at least 5e-13 (clear_pair); refuted without that, and for twinnable pairs that are not variants: without any axis the pair is reported as type I and type II"
  },
  {
   "property": "C87",
   "status": "partial",
   "theorems": [
    "C87_refuted",
    "C87_lengths_partial",
    "C87_direct_partial"
   ],
   "note": "fails for a pair with one axis that is reported as compound (C86); proved under the same condition clear_pair as C86; direct_cof is within 9 K (2 + A) 5e-11 of the exact value because a and n are rounded to ten digits"
  },
  {
   "property": "C88",
   "status": "partial",
   "theorems": [
    "C88_checked",
    "C88_accepts",
    "C88_refuted"
   ],
   "note": "both matrices are checked, but the check is det > 0 and symmetry up to 1e-6, so indefinite matrices with two negative eigenvalues pass (refuted)"
  },
  {
   "property": "C89",
   "status": "partial",
   "theorems": [
    "C89_conventional_partial",
    "C89_isvariant",
    "C89_other_parent",
    "C89_refuted"
   ],
   "note": "holds for images under the 24 rotations of the cube of a reversible stretch; every other pair gets None, and volumefrac raises TypeError (refuted)"
  },
  {
   "property": "C90",
   "status": "partial",
   "theorems": [
    "C90_can_end_partial",
    "C90_no_start",
    "C90_size_refuted",
    "C90_too_many_refuted"
   ],
   "note": "false: between cubic lattices whose edges differ by a factor of 4 or more (C90_size_refuted), and for every pair of lattices when nsol >= 3^(n*n) (C90_too_many_refuted), the call never returns whatever the random numbers; proved when nsol inequivalent starting points and one farther exist"
  },
  {
   "property": "C91",
   "status": "proved",
   "theorems": [
    "C91_solver"
   ],
   "note": "for lattices whose symmetries the tolerances resolve, vol_th <= 1, and when quart_min returns"
  },
  {
   "property": "C92",
   "status": "proved",
   "theorems": [
    "C92_is_min"
   ],
   "note": "three dimensions; distances are NumPy floats"
  },
  {
   "property": "C93",
   "status": "proved",
   "theorems": [
    "C93_unique_rows",
    "C93_tuple"
   ],
   "note": "integer arrays; the byte order of rows is an arbitrary total order"
  },
  {
   "property": "C94",
   "status": "partial",
   "theorems": [
    "C94_last_set",
    "C94_group_kept",
    "C94_default_group",
    "C94_setLaue_refuted",
    "C94_arguments_refuted"
   ],
   "note": "getU is as stated; setLaue never returns (getLaueGroup does not exist, MartensiteError is not imported), so the group stays that of the constructor; a wrong number of arguments raises NameError"
  },
  {
   "property": "C95",
   "status": "proved",
   "theorems": [
    "C95_direct",
    "C95_hnf",
    "C95_lat_cor"
   ],
   "note": "formatting is modelled as correct rounding of the exact value, half to even; the sign of a zero is not modelled"
  },
  {
   "property": "C96",
   "status": "proved",
   "theorems": [
    "C96_diag",
    "C96_det",
    "C96_two_three"
   ],
   "note": ""
  },
  {
   "property": "C97",
   "status": "partial",
   "theorems": [
    "C97_planes_partial",
    "C97_condition",
    "C97_refuted"
   ],
   "note": "false when one is an outer eigenvalue of F^T F: volumefrac only makes one an eigenvalue, and habitplanes then returns eight planes although none exists (C97_refuted). Proved when the middle eigenvalue of F^T F is one for the four laminates; C97_condition says when that is"
  },
  {
   "property": "C98",
   "status": "partial",
   "theorems": [
    "C98_same_lattice_partial",
    "C98_scale",
    "C98_refuted"
   ],
   "note": "false when the tolerances accept a tabled isometry in one base and not in the other (C98_refuted); proved for bases in which no tabled isometry is accepted only through the tolerance; scaling is harmless for every base"
  },
  {
   "property": "C99",
   "status": "partial",
   "theorems": [
    "C99_reduced_unchanged",
    "C99_again_partial",
    "C99_refuted"
   ],
   "note": "true of every size-reduced base and always in two dimensions; false in three dimensions because LLL may return a base that is not size-reduced (C99_refuted); there the second reduction is size-reduced and a third changes nothing"
  }
 ]
}