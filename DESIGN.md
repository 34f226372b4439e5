# Formal model of PyStrucTrans in Coq 8.16.1: design, trusted base, coverage

The plan was written before the proofs and has been kept up to date with the development.
The tables are generated from the sources, `properties.jsonl`, `MANIFEST.json` and the output of `Print Assumptions`.

## Approach

* **One Gallina definition per Python function**, branch by branch. Every definition cites the file and lines it models
  and says where it simplifies. Exceptions are values: `res A := Ok a | Raise e | NoFuel` (`Py.v`).
* **Numbers.** Python ints are `Z`, without a bound (`HnfWord.v` models `hnfd` on machine integers, C111). Floats are exact reals
  of the standard library, *with the tolerances of the code kept literally* (`np.allclose` is
  `|a-b| <= 1e-8 + 1e-5 |b|`; `1e-12`, `5e-3`, ... likewise). Rounding of binary64 is not modelled, with two exceptions
  on Flocq's binary64: `FloatDiv.v` models the int/int true division inside `hnfd` (C68, C111), and `FloatVol.v` the choice of
  the sublattice sizes in `lat_cor` (C113). A division by zero, which gives
  inf or nan in numpy, is the value `Raise NaN`, so a model that reaches it stops there.
* **Matrices** are lists of rows (`list (list A)`), for any type of entries. Integer models run under `vm_compute`.
* **External calls are arguments.** `la.eig`, `np.random`, `scipy.optimize.minimize`, the memory of `np.empty`, the
  readiness of asynchronous tasks and the iteration order of Python sets are arguments of the model. The theorems
  quantify over them; what they assume of them is in the statement (for example `is_eig`: the results are
  eigenvalues with eigenvectors). `la.inv` and `la.det` are exact, and `la.inv` raises on singular matrices.
* **Versions.** Functions whose behaviour differs between Python 2 and 3, or between old and new numpy, take the version
  as an argument (`py2 py3 : division`, `npnew : bool`).
* **Loops** are structural recursion or folds. `while` loops get fuel and return `NoFuel` when it runs out. Theorems
  exclude that outcome, or say for which amounts of fuel the result is the same.
* **Where the code violates a property**, a theorem `..._refuted` exhibits a witness. The strongest restricted positive
  statement is proved beside it, with suffix `_partial`. In the manifest such a property is `partial`.

## Files (rocq/theories)

* `Py.v`, `Mat.v`, `RMat.v`, `LinAlg.v`, `Det.v`, `Eig.v`, `Spectral.v`, ...: Python results, matrices, linear algebra.
* `*Model.v` (and `TreeConc.v`, `DirectConcrete.v`): the model of the code.
* `*Spec.v`: small specifications, independent of the model.
* `Prop*.v`: the property theorems, each followed by `Print Assumptions` and by examples that meet its hypotheses.
* all others: proofs.

## Trusted base

* Coq 8.16.1's kernel, including `vm_compute`. No `native_compute`, no plugins, no switched-off checks.
* The axioms below, all from Coq's standard library (classical reals and `Classical_Prop`). No axiom was added.
  There is no `Admitted`, `Axiom`, `Parameter`, functor or module type in the development.
* That the model says what the code does. Each definition cites its lines, and the table of modelled functions is below.
* That the specification files say what the English properties say.

### Axiom sets

| label | axioms (all of the standard library) | claimed theorems |
|---|---|---|
| A0 | none: closed under the global context | 52 |
| A1 | `sig_forall_dec` | 3 |
| A2 | `functional_extensionality_dep`, `sig_forall_dec` | 81 |
| A3 | `functional_extensionality_dep`, `sig_forall_dec`, `sig_not_dec` | 270 |
| A4 | `classic`, `functional_extensionality_dep`, `sig_forall_dec`, `sig_not_dec` | 26 |

### Property -> file -> theorems

The label after a theorem is its axiom set, as printed by `Print Assumptions`.

| id | status | file | theorems |
|---|---|---|---|
| C01 | proved | PropHnf | `C01_divisors` (A0) |
| C02 | proved | PropHnf | `C02_hnf_from_diag` (A0), `C02_hnf_from_diag_any` (A0) |
| C03 | proved | PropHnf | `C03_hnf_from_det` (A0), `C03_negative_raises` (A0), `C03_zero` (A0) |
| C04 | proved | PropHnf | `C04_hnfd_factors` (A0) |
| C05 | proved | PropHnf | `C05_hnfd_invariant` (A0), `C05_hnfd_fixed_points` (A0), `C05_hnfd_decides_equivalence` (A0) |
| C06 | proved | PropHnf | `C06_every_sublattice_once` (A0) |
| C07 | partial | PropHnf | `C07_python2_refuted` (A0), `C07_python2_weak_form_partial` (A0) |
| C08 | proved | PropReduce | `C08_reduce_hnfs_transversal` (A0), `C08_orbits_are_classes` (A0) |
| C09 | proved | PropReduce | `C09_divide_work` (A0), `C09_any_split` (A0), `C09_parallel_equals_serial` (A0), `C09_two_tuples_refuted` (A0) |
| C10 | proved | PropGroups | `C10_cubic_table` (A0), `C10_square_tables` (A0), `C10_hexagonal_tables` (A3), `C10_integer_tables_are_groups` (A2) |
| C11 | proved | PropGroups | `C11_hassubgroup_decides` (A2), `C11_hassubgroup_rest` (A2), `C11_reflexive` (A2), `C11_on_groups` (A2), `C11_integers_are_separated` (A2) |
| C12 | partial | PropLattice | `C12_same_lattice_equal_partial` (A2), `C12_reflexive` (A2), `C12_dimensions` (A2), `C12_meaning_partial` (A2), `C12_exact_partial` (A2), `C12_symmetric_refuted` (A2), `C12_transitive_refuted` (A2) |
| C13 | proved | PropLattice | `C13_accepts_symmetries` (A2), `C13_meaning` (A2), `C13_sound` (A2) |
| C14 | partial | PropLattice | `C14_laue_partial` (A3), `C14_point_group_partial` (A3), `C14_other_dimensions` (A3), `C14_refuted` (A3) |
| C15 | partial | PropLattice | `C15_special_partial` (A3), `C15_lattice_group_partial` (A3), `C15_near_partial` (A3), `C15_refuted` (A3) |
| C16 | partial | PropLattice | `C16_two_dimensions_partial` (A4), `C16_cubic_axes_partial` (A3), `C16_hexagonal_axes_partial` (A3), `C16_refuted` (A3) |
| C17 | proved | PropBravais | `C17_conventional_cell` (A3) |
| C18 | proved | PropBravais | `C18_conventional_trans` (A3) |
| C19 | partial | PropBravais | `C19_round_trip_partial` (A3), `C19_same_direction` (A3), `C19_wrong_length` (A3), `C19_one_row` (A3), `C19_round_trip_refuted` (A3) |
| C20 | proved | PropBravais | `C20_symmetry_order` (A3) |
| C21 | partial | PropBravais | `C21_accepts` (A3), `C21_rejects_malformed` (A3), `C21_rejects_singular_partial` (A3), `C21_silent_nan` (A3), `C21_complete_partial` (A3), `C21_rejects_refuted` (A3) |
| C22 | partial | PropBravais | `C22_names_partial` (A3), `C22_triclinic_partial` (A3), `C22_names_refuted` (A3) |
| C23 | proved | PropRot | `C23_value` (A3), `C23_rotation` (A3), `C23_inverse` (A3), `C23_errors` (A3) |
| C24 | partial | PropRot | `C24_rodrigues_partial` (A3), `C24_is_rotation_partial` (A3), `C24_additive_partial` (A3), `C24_negative_e1_refuted` (A3) |
| C25 | proved | PropRot | `C25_dual` (A2), `C25_inverse` (A2), `C25_elementwise` (A2) |
| C26 | partial | PropMart | `C26_result_partial` (A2), `C26_accepts` (A2), `C26_rejects_partial` (A2), `C26_missing_check_partial` (A2), `C26_positive_definite_refuted` (A2), `C26_type_error_refuted` (A0) |
| C27 | partial | PropRefute, PropMart | `C27_missing_image_refuted` (A3), `C27_orbit_partial` (A3), `C27_count` (A3), `C27_tolerance_partial` (A3), `C27_irreversible` (A3) |
| C28 | partial | PropMart | `C28_nth_partial` (A3), `C28_out_of_range_refuted` (A3) |
| C29 | partial | PropMart | `C29_subgroup_partial` (A3), `C29_errors` (A3), `C29_proper_refuted` (A3) |
| C30 | partial | PropRankOne | `C30_solve_rank1_partial` (A3), `C30_AM_Solver_partial` (A3), `C30_twin_solver_partial` (A3), `C30_decomposition_exists` (A3), `C30_tiny_gap_refuted` (A3) |
| C31 | partial | PropRankOne | `C31_refuted` (A3), `C31_python3_refuted` (A2), `C31_test_partial` (A2), `C31_accepts_connected` (A3), `C31_criterion` (A3) |
| C32 | partial | PropRankOne, PropRankOneIn | `C32_refuted` (A3), `C32_accepts_partial` (A3), `C32_exact_partial` (A3), `C32_solvers_partial` (A3), `C32_sylvester_partial` (A3) |
| C33 | proved | PropTwin | `C33_table` (A3), `C33_partition` (A3), `C33_after_error` (A3) |
| C34 | partial | PropTwin | `C34_symmetric_partial` (A3), `C34_reciprocal` (A2), `C34_refuted` (A3) |
| C35 | partial | PropTwin | `C35_first_call_partial` (A3), `C35_not_twinnable` (A3), `C35_first_answer_stays` (A3), `C35_refuted` (A3), `C35_default_group` (A2) |
| C36 | proved | PropTwin2, PropTwin3 | `C36_solves` (A3), `C36_returned` (A3), `C36_pair` (A3) |
| C37 | partial | PropTwin3, PropTwinNone | `C37_normals` (A3), `C37_returned` (A3), `C37_variants_partial` (A3), `C37_refuted` (A3) |
| C38 | proved | PropTwin3 | `C38_root` (A3), `C38_variants` (A2), `C38_residual` (A3), `C38_found` (A3), `C38_pair` (A3) |
| C39 | partial | PropTwin4, PropTwin5, PropTwin6 | `C39_one_fraction` (A3), `C39_refuted` (A3), `C39_both_partial` (A3), `C39_types` (A3) |
| C40 | partial | PropTwin2 | `C40_complete` (A3), `C40_axes_partial` (A3), `C40_refuted` (A3) |
| C41 | proved | PropDist | `C41_nonnegative` (A2), `C41_zero_iff_strain_free` (A2), `C41_symmetry_invariant` (A2) |
| C42 | proved | PropDist | `C42_vectorised` (A2) |
| C43 | partial | PropDist | `C43_Ericksen_zero` (A2), `C43_Ericksen_symmetry_partial` (A2), `C43_Ericksen_symmetry_refuted` (A2), `C43_strain_3D_zero` (A3), `C43_strain_symmetry` (A3), `C43_strain_2D_refuted` (A3) |
| C44 | proved | PropVecGen | `C44_every_vector_once` (A3), `C44_negative_radius` (A3), `C44_integer_radius` (A3) |
| C45 | partial | PropVecGen | `C45_resume_partial` (A3), `C45_resume_refuted` (A3) |
| C46 | proved | PropDist | `C46_quartic_form` (A2), `C46_radius_sound` (A3), `C46_positive_bound_exists` (A2) |
| C47 | proved | PropDirect | `C47_best_so_far` (A2), `C47_best_so_far_any_distance` (A0), `C47_update_never_raises` (A0) |
| C48 | partial | PropDirect | `C48_initialisation_partial` (A2), `C48_search_partial` (A3), `C48_refuted` (A3) |
| C49 | partial | PropTree | `C49_stays_in_SL3` (A0), `C49_reached_exactly_partial` (A0), `C49_refuted` (A0) |
| C50 | partial | PropTree | `C50_local_minimum_partial` (A3), `C50_any_distance_partial` (A2), `C50_refuted` (A2), `C50_refuted_reachable` (A2) |
| C51 | proved | PropTree | `C51_best_visited` (A2), `C51_any_distance` (A2) |
| C52 | partial | PropHnfSearch | `C52_refuted` (A2), `C52_best_of_all_partial` (A2), `C52_order_partial` (A2), `C52_head_partial` (A2), `C52_lattices_partial` (A2), `C52_exact_partial` (A2) |
| C53 | proved | PropHnfSearch | `C53_async_loop` (A0), `C53_any_schedule_is_serial` (A2), `C53_no_pool` (A0) |
| C54 | partial | PropHnfSearch | `C54_sizes` (A2), `C54_refuted` (A2), `C54_positive_partial` (A2) |
| C55 | partial | PropTree | `C55_refuted` (A2) |
| C56 | proved | PropOutput | `C56_hnf` (A3), `C56_direct` (A3), `C56_direct_oriented` (A3), `C56_decomposition_exists` (A3) |
| C57 | partial | PropDirect | `C57_round_partial` (A3), `C57_refuted` (A3) |
| C58 | proved | PropLLL | `C58_same_lattice` (A3), `C58_start` (A3) |
| C59 | partial | PropLLL | `C59_reduced_partial` (A3), `C59_refuted` (A3) |
| C60 | partial | PropLLL | `C60_signal_partial` (A3), `C60_refuted` (A3) |
| C61 | partial | PropMatMath | `C61_dot_partial` (A0), `C61_T_partial` (A0), `C61_det_partial` (A0), `C61_trace_partial` (A0), `C61_refuted` (A0) |
| C62 | partial | PropMatMath | `C62_twin` (A2), `C62_mat_math_partial` (A2), `C62_refuted` (A1) |
| C63 | partial | PropVis | `C63_vertices` (A2), `C63_shapes` (A1), `C63_bonds_partial` (A2), `C63_refuted` (A2) |
| C64 | partial | PropStereo | `C64_disc_partial` (A3), `C64_mirror_partial` (A3), `C64_axis` (A3), `C64_pole_figure` (A3), `C64_refuted` (A3) |
| C65 | partial | PropScrew | `C65_screw_partial` (A3), `C65_refuted` (A3) |
| C66 | partial | PropHeap | `C66_isolated_partial` (A3), `C66_refuted` (A3) |
| C67 | partial | PropAlias | `C67_aliases_partial` (A3), `C67_refuted` (A3) |
| C68 | proved | PropFloat | `C68_quotient` (A4), `C68_hnfd` (A4), `C68_hnfd3` (A4), `C68_hnfd2` (A4), `C68_limit` (A4) |
| C69 | proved | PropDirectGlobal | `C69_one_pass_is_global` (A3), `C69_whole_ball_is_global` (A3) |
| C70 | proved | PropTree | `C70_lat_opt_ends` (A3), `C70_head_no_worse` (A3) |
| C71 | partial | PropMart, PropLaue | `C71_group` (A3), `C71_rejects` (A3), `C71_lattice_type_partial` (A4), `C71_exact_partial` (A4), `C71_trigonal_refuted` (A3) |
| C72 | proved | PropLLL2 | `C72_rounds` (A3), `C72_terminates` (A3), `C72_plain` (A3) |
| C73 | proved | PropLLL2 | `C73_short` (A3), `C73_plain` (A3) |
| C74 | partial | PropVis | `C74_box_partial` (A3), `C74_refuted` (A3) |
| C75 | partial | PropStereo | `C75_projection_partial` (A3), `C75_refuted` (A3) |
| C76 | partial | PropHeap | `C76_isolated_partial` (A3), `C76_refuted` (A3) |
| C77 | partial | PropHeap | `C77_isolated_partial` (A3), `C77_refuted` (A3) |
| C78 | proved | PropLatCor | `C78_solutions_genuine` (A3), `C78_defaults` (A3) |
| C79 | partial | PropRefute, PropLatCor | `C79_refuted` (A3), `C79_small_product` (A3), `C79_search_ends_partial` (A3), `C79_locally_best_partial` (A3) |
| C80 | partial | PropReducePy2 | `C80_covers_partial` (A0), `C80_refuted` (A0) |
| C81 | partial | PropQuart | `C81_fallback_partial` (A3), `C81_scipy_partial` (A3), `C81_fallback_refuted` (A3) |
| C82 | partial | PropQuart | `C82_gradient` (A2), `C82_equations` (A2), `C82_jacobian_refuted` (A2), `C82_jacobian_partial` (A2) |
| C83 | partial | PropDirectCor, PropDirectTol | `C83_solutions_genuine_partial` (A3), `C83_refuted` (A3) |
| C84 | partial | PropDirectCor | `C84_outcome_partial` (A3), `C84_global_partial` (A3), `C84_refuted` (A3), `C84_best_missed_refuted` (A3) |
| C85 | partial | PropDirectCor | `C85_refuted` (A3), `C85_cauchy_partial` (A3) |
| C86 | partial | PropTwin6 | `C86_classification_partial` (A3), `C86_refuted` (A3), `C86_no_axis_refuted` (A3) |
| C87 | partial | PropRefute, PropTwin6 | `C87_refuted` (A3), `C87_lengths_partial` (A3), `C87_direct_partial` (A3) |
| C88 | partial | PropTwin6 | `C88_checked` (A3), `C88_accepts` (A3), `C88_refuted` (A3) |
| C89 | partial | PropTwin6 | `C89_conventional_partial` (A3), `C89_isvariant` (A3), `C89_other_parent` (A3), `C89_refuted` (A3) |
| C90 | partial | PropInit | `C90_can_end_partial` (A2), `C90_no_start` (A3), `C90_size_refuted` (A3), `C90_too_many_refuted` (A3) |
| C91 | proved | PropInit | `C91_solver` (A3) |
| C92 | proved | PropIsMin | `C92_is_min` (A2) |
| C93 | proved | PropUnique | `C93_unique_rows` (A0), `C93_tuple` (A0) |
| C94 | partial | PropMicro | `C94_last_set` (A3), `C94_group_kept` (A3), `C94_default_group` (A3), `C94_setLaue_refuted` (A3), `C94_arguments_refuted` (A1) |
| C95 | proved | PropText | `C95_direct` (A4), `C95_hnf` (A4), `C95_lat_cor` (A4) |
| C96 | proved | PropCount | `C96_diag` (A0), `C96_det` (A0), `C96_two_three` (A0) |
| C97 | partial | PropTwin7 | `C97_planes_partial` (A3), `C97_condition` (A3), `C97_refuted` (A3) |
| C98 | partial | PropBase | `C98_same_lattice_partial` (A3), `C98_scale` (A3), `C98_refuted` (A3) |
| C99 | partial | PropLLL3 | `C99_reduced_unchanged` (A3), `C99_again_partial` (A3), `C99_refuted` (A3) |
| C100 | partial | PropDepth | `C100_depth` (A3), `C100_maximum_partial` (A3), `C100_defaults_partial` (A3), `C100_small_maxiter_refuted` (A3) |
| C101 | proved | PropUnit | `C101_similarity` (A3) |
| C102 | proved | PropUnit | `C102_unit_of_length` (A3), `C102_direct` (A3) |
| C103 | proved | PropStop | `C103_no_change_is_final` (A3), `C103_settles` (A3) |
| C104 | partial | PropMore | `C104_more_partial` (A3), `C104_first_partial` (A3) |
| C105 | partial | PropFrame | `C105_same_variants_partial` (A3), `C105_cubic_partial` (A3), `C105_refuted` (A3) |
| C106 | partial | PropSelf | `C106_refuted` (A3), `C106_exact` (A3), `C106_perfect_partial` (A3), `C106_self_partial` (A3) |
| C107 | partial | PropLatticeGroup | `C107_meaning_partial` (A2), `C107_accepts_members` (A2), `C107_agrees` (A2), `C107_integer_partial` (A2), `C107_refuted` (A2) |
| C108 | partial | PropVariants | `C108_accepted` (A3), `C108_equivalent` (A3), `C108_variants_partial` (A3), `C108_exact_partial` (A3), `C108_pipeline_partial` (A3), `C108_direct_partial` (A3), `C108_refuted` (A3) |
| C109 | partial | PropQuartStop | `C109_path` (A3), `C109_critical_partial` (A3), `C109_refuted` (A3) |
| C110 | partial | PropTwinFrame | `C110_rotated_partial` (A3), `C110_swapped_partial` (A3), `C110_conventional_partial` (A3), `C110_refuted` (A3) |
| C111 | proved | PropWord | `C111_hnfd3` (A4), `C111_hnfd2` (A4), `C111_int32_3` (A4), `C111_int32_2` (A4), `C111_limit` (A4) |
| C112 | partial | PropOrient | `C112_orientation_partial` (A3), `C112_groups_as_sets` (A2), `C112_refuted` (A3) |
| C113 | partial | PropFloatVol | `C113_sizes_partial` (A4), `C113_exact_partial` (A4), `C113_refuted` (A4) |
| C114 | proved | PropEuler | `C114_euler` (A4), `C114_other_orders` (A3), `C114_rotation` (A4) |
| C115 | proved | PropTwinOrbit | `C115_pairs` (A4), `C115_table` (A4) |
| C116 | proved | PropBurnside | `C116_closed` (A0), `C116_size` (A0), `C116_order` (A0) |
| C117 | proved | PropSameCell | `C117_same_cell` (A3), `C117_same_base` (A3), `C117_same_points` (A4), `C117_rotated` (A3), `C117_equal` (A3) |
| C118 | proved | PropTwinAll | `C118_shear` (A3), `C118_two` (A2), `C118_complete` (A3) |
| C119 | proved | PropChain | `C119_product` (A0), `C119_factor` (A0), `C119_unique` (A0), `C119_count` (A0), `C119_sums` (A0) |
| C120 | partial | PropMatEig | `C120_rows_partial` (A0), `C120_not_square_partial` (A0), `C120_refuted` (A0) |
| C121 | proved | PropTwinSym | `C121_frame` (A3), `C121_sign` (A3), `C121_exchange` (A3), `C121_symmetric` (A3), `C121_fractions` (A3) |
| C122 | proved | PropCofactor | `C122_fractions` (A3), `C122_supercompatible` (A3), `C122_reported` (A3) |
| C123 | proved | PropTwoSearches | `C123_covers` (A3), `C123_first` (A3), `C123_perfect` (A3) |
| C124 | partial | PropVolume | `C124_volume_partial` (A3), `C124_direct_partial` (A3), `C124_threshold_unused` (A3), `C124_refuted` (A3), `C124_direct_refuted` (A3) |
| C125 | partial | PropOrders | `C125_orders` (A4), `C125_number_partial` (A3), `C125_integer_partial` (A4), `C125_refuted` (A3) |
| C126 | proved | PropCellVolume | `C126_volume` (A3), `C126_right_handed` (A3), `C126_turned_over` (A3) |
| C127 | partial | PropIndifference | `C127_frame` (A3), `C127_variants` (A3), `C127_exchange_connected` (A3), `C127_exchange_refuted` (A2) |
| C128 | partial | PropRankFrame | `C128_solvers_agree_partial` (A3), `C128_agree_refuted` (A3), `C128_rotated_partial` (A3), `C128_AM_rotated_partial` (A3), `C128_twin_rotated_partial` (A3) |
| C129 | partial | PropTwinScale | `C129_scaled_partial` (A3), `C129_expanded_partial` (A3), `C129_refuted` (A3) |
| C130 | proved | PropAxisAngle | `C130_identified` (A3), `C130_length` (A3), `C130_frame` (A3), `C130_reversed` (A3), `C130_trace` (A3) |
| C131 | partial | PropVariantCount | `C131_count_partial` (A3), `C131_cubic_partial` (A3), `C131_refuted` (A3) |
| C132 | proved | PropOrientComp | `C132_compose` (A2), `C132_injective` (A2), `C132_identity` (A2), `C132_zone` (A2) |
| C133 | proved | PropOrientInt | `C133_planes` (A2), `C133_directions` (A2) |

## Per-property plan

| id | what is modelled | how it is proved |
|----|------------------|------------------|
| C01 | `divisors` over Z | list membership by arithmetic, sortedness of a filtered range |
| C02/C03 | `hnf_from_diag`, `hnf_from_det` over list matrices | induction over the list of modifications; the invariant is the set of matrices whose processed entries are free |
| C04 | `hnfd` and its helpers, fuelled Euclid loop | column operations are right multiplications by unimodular matrices; induction on the dimension; bound on the fuel |
| C05/C06 | same | uniqueness of Hermite forms by triangular induction |
| C07 | `hnfd` with the division as an argument | counterexample by `vm_compute`; weaker form for Python 2 |
| C08/C09 | `reduce_hnfs`, `divide_work` | fold invariant; group laws of the symmetry list |
| C10 | the tables as literal lists | finite case analysis lifted to all integer matrices |
| C11 | `hassubgroup` with `allclose` | list induction; Lagrange's theorem (`Lagrange.v`) |
| C12-C16 | `Lattice` over R, dimensions 2 and 3 | algebra; witnesses at the tolerances by `lra` |
| C17-C22 | `BravaisLattice` | trigonometric identities, case analysis on the id |
| C23/C24 | `Euler`, `rotation` | `ring`/`nsatz` with `sin2_cos2`, Rodrigues' formula |
| C25 | orientation relationship | matrix algebra |
| C26-C29, C71 | `Martensite` as an object with caches | invariants of reachable objects; orbit-stabiliser argument; counterexamples |
| C30-C32 | rank-one solvers; `la.eig` is an argument | square-root algebra; spectral theorem for 3 x 3 matrices (`Spectral.v`) |
| C33-C40 | `TwinSystem`, `TwinPair` | list invariants; caches as state, theorems for all call histories; polynomial identities |
| C41-C43, C46 | distances, search radius | algebra, Cauchy-Schwarz, eigenvalue bounds |
| C44/C45 | `vec_generator` | induction on the dimension; counterexample for resuming |
| C47/C48/C57/C69 | direct search as a state machine | invariants over all histories; counterexamples |
| C49/C50 | `SLNode`, `dfs` | matrix algebra; well-foundedness because finitely many integer matrices are below any distance |
| C51-C55, C70 | bookkeeping of `lat_opt` and `main_hnf`, asynchronous loop | fold invariants; induction on the schedule; counterexample |
| C56 | output stage | polar decomposition, matrix algebra |
| C58-C60, C72, C73 | `lattice_reduction` | unimodular column operations; potential function for termination; counterexample for the 1000-round cap |
| C61, C62 | batch helpers and cofactors of `mat_math`, `_brute_cof` | algebra; Python 3 counterexamples |
| C63, C74 | `visualization` | finite enumeration, linear inequalities |
| C64, C65, C75 | `stereogram`, `spacegroup` | real algebra; counterexamples |
| C66, C76, C77 | a heap of arrays with object references (`HeapModel.v`) | induction on histories of calls and array writes; counterexamples |
| C67 | the deprecated names | case analysis |
| C68 | Flocq binary64 division inside `hnfd` | monotonicity and error bound of rounding |
| C78/C79 | `lat_opt` and `lat_cor` of main_hnf.py as a whole | loop invariants of the merging for soundness; for termination, C03, C08, C15, C52, C56, C58 and C70 are put together; counterexample for small product cells |
| C80 | `reduce_hnfs` with Python 2 division | fold invariant; counterexample by `vm_compute` |
| C81/C82 | `quartic_opt.py`; `np.random.rand`, scipy's `minimize` and `la.inv` are arguments | least element of a fold; concrete counterexample; product rule on sums |
| C83-C85 | `lat_cor` of main_direct.py as a whole, in two and three dimensions; random numbers, scipy, `la.eig` and the order of sets are arguments | search history invariant (C47), ball bound (C46, C69) and report (C56) put together; concrete runs on square lattices (StopIteration) and on rectangular lattices (a perfect match is missed) |
| C86/C87/C89 | `iscompound`, `istypeI/II`, `XI`, `XII`, `direct_cof`, `twinparam` for all call histories | the axes of `ax` (C40) and the twins (C36) in closed form; counterexamples at the `1e-12` test |
| C88 | the constructor of `TwinPair` | case analysis on its test |
| C90/C91 | random initialisation of `lat_cor` and the class `Solver`; the random matrices are a stream | invariants of the solution list (C47) and the pigeonhole principle; a stream that never ends the loop is `NoFuel` for every prefix |
| C92 | `SLNode.is_min` | the twelve shears, with C50 |
| C93 | `unique_rows`, `tuple` | stable insertion sort; index arithmetic |
| C94 | class `Microstructure` | induction on the calls |
| C95 | `_sols_tostr` of both modules, Python number formats | reader of the text as specification; digits by induction, lines and words by splitting at separators |
| C96 | number of matrices listed by `hnf_from_diag`, `hnf_from_det` | induction over the positions filled; sums over tuples of divisors |
| C97 | the list returned by `habitplanes` | composes C30 and C39; a pair of variants whose laminates have one as largest eigenvalue refutes it |
| C98 | groups of two bases of one lattice, of a scaled base | the groups are determined by the answers for the tabled isometries; E^-1 Q E under change of base |
| C99 | LLL applied to its own result | one round from a base with the conditions of C59: rounding gives 0 for coefficients up to 1/2, nothing to swap |
| C100 | levels, bfs and restarts of the tree search; the options of lat_opt | invariant: nodes of a level are that many shears from the source, which is a local minimum; the loop condition with maxiter <= miniter does not depend on maxiter |
| C101 | LLL as modelled for C22 | every step is linear or a quotient of scalar products, so it commutes with a similarity: induction over the loops; the sign test by multiplicativity of the determinant |
| C102 | the whole of both searches (C78, C84) | the bases are scaled; groups by C98, the starting point by C101, distances and reports contain only ratios of lengths; equality of outcomes including exceptions |
| C103 | the search of lat_opt (C51, C78) | a level that stores nothing is the last, a level that stores something leaves a solution whose matrix was not known before; finitely many matrices can be stored, by finiteness of closer matrices |
| C104 | the search of lat_opt and of lat_cor (C51, C78) | two runs side by side: both visit the same matrices as long as both run, the list kept is the sorted list of the best classes seen, so a longer list of a larger set is at least as good position by position |
| C105 | setU, isreversible and getvariants (C26, C27) with the Laue groups of U and V | the cubic rotations accepted for V = QUQ^T are the conjugates of those accepted for U, because conjugation with a cubic rotation permutes the matrix entries up to sign and the rounding test is even; the orbit of V is the orbit of U |
| C106 | LatCorModel.v, LLLModel.v, SelfSearch.v (an integer mirror of the search) | a counterexample by computation on the mirror; the first solution is no worse than the start, whose distance is 0 when the reduced base is a rotation of the product base; distance 0 iff U = I by uniqueness of the positive square root |
| C107 | inlatticegroup of LatticeModel (lattice.py:69-85) | unfold the two tests over E^-1 E = I; exactness on integer bases through the adjugate: an integer matrix whose entries are smaller than 1 is zero |
| C108 | report (OutputModel), setU and getvariants (MartModel), lat_cor (LatCorModel, DirectCorModel) | F = Q2 F' Q1 for equivalent correspondences, uniqueness of the positive definite square root, then the orbit theorem C27 |
| C109 | roots_loop and quartic_roots of QuartModel (quartic_opt.py:34-92) | induction over the loop gives the sequence of points; Cauchy-Schwarz turns the residual into a bound on the derivative; a matrix with a row of zeros has no inverse |
| C110 | TwinModel, both objects with independent histories | C40_complete characterises the axes of each object, the half turns of the rotated pair are the rotated half turns, and V = R U R for the half turn R turns the exchange into a rotation |
| C111 | HnfWord.v: hnfd with every array operation reduced modulo 2^W | the cofactors of the Euclidean loop are bounded by the first row, so no entry leaves the range and wrapping changes nothing; vm_compute on [[2^32,1],[1,2^32]] for the limit |
| C112 | LatCorModel.v (lat_opt) and the models it uses | a relation between two runs whose solution states differ in the order of the excluded matrices only; rotation invariance of the three distances and of the LLL start (C101); the counterexample computes a short run in integers for a base that is an integer matrix over 3 |
| C113 | binary64 sums and products of Flocq in the two limits | relative error of each operation, the spacing of doubles below one, monotonicity of floor and ceil |
| C114 | RotModel.v as for C23 and C24 | spherical coordinates reach every row; a rotation that fixes a coordinate axis is a rotation about it; the axis is the skew part or a column of Q + I |
| C115 | PropTwinOrbit.v on MartModel.v and TwinModel.v | the variants are one orbit (C27), the twin matrix turns with the pair, so does the table; transitivity and double counting give the number of twins per variant |
| C116 | ReduceModel.v, HnfModel.v | Hermite forms of g h define an action on the listed sublattices; double counting of the triples (symmetry, representative, image) gives Burnside's count; two transversals of one relation have the same length |
| C117 | BravaisModel.v | conventional bases with equal scalar products differ by an orthogonal matrix; except for the trigonal type they are upper triangular with a positive diagonal, which the scalar products determine; explicit unimodular matrices for the coincidences |
| C118 | TwinModel.v | the two determinants are equal, so a . U^-1 n = 0; U^-1 V^2 U^-1 = (I + s (x) a)(I + a (x) s) gives the trace; two solutions determine the plane of the shear and a scalar equation with at most two solutions; type I has normal e and type II direction U e, which cannot coincide |
| C119 | HnfModel.v | triangular matrices with a positive diagonal have a triangular adjugate; a triangular matrix factors row by row taking the greatest common divisor of the remaining size and the diagonal entry, the off-diagonal entries by Bezout; uniqueness since m Z^N and n times the lattice lie in both sublattices |
| C120 | MatEigModel.v | induction on the list of matrices; the eigenvalue routine and the memory are arguments |
| C121 | solve_f and twinparam of TwinModel.v | solve_f depends only on det(U^2-I) and on det(U^2-I + U a(x)n), both unchanged by rotation; the exchange by evaluating the parabola of the gap at 1/2; the objects by C118: the turned twins solve the turned equation, which has exactly the two solutions the other object returns |
| C122 | XI, XII, direct_cof, volumefrac (TwinModel.v) | gap_parabola with the explicit twins of C87; cof(M) = trace(cof M) v v^T for a singular symmetric M; characteristic polynomial of U for the factor (m1^2-1)(m3^2-1) |
| C123 | lat_cor and lat_cor_hnf as modelled for C78 and C83 | C84 gives the list against every integer matrix; the product h l of a solution of lat_cor_hnf is one, with the same distance; equal distance within an orbit of the two groups |
| C124 | lat_cor and lat_cor_hnf as modelled for C78 and C83 | determinants of F (EA N) = EM and U U = F^T F; the determinant of U is the product of its eigenvalues; the threshold of C54 |
| C125 | Laue_group, point_group and the tables as modelled for C14 | fourth or sixth powers of all tabled matrices by computation in Z and Z[sqrt 3]; Lagrange's theorem for the accepted subgroup of a table; an explicit sheared cube |
| C126 | new_bravais and conventional_base as modelled for C17 | Gram determinant of the edges; upper triangular form of the conventional base with positive diagonal; circulant determinant for the trigonal base |
| C127 | isCompatible as modelled for C31 | B^-T A^T A B^-1 is conjugated by the rotation applied after B; the eigenvalues are those of C31's criterion; rank-one connection is symmetric |
| C128 | the solvers as modelled for C30 | each result lists exactly the solutions of C = (I + m (x) b)(I + b (x) m), by C30; the solution set is carried by the rotation |
| C129 | TwinPair as modelled for C40, C86, C87 | U^-1 V^2 U^-1 and the half turns relating U to V do not depend on k; the lengths in C87 scale |
| C130 | rotation as modelled for C24 | the matrix is Rodrigues' formula (C24); its skew and symmetric parts give axis and angle up to sign; the nine cofactor equations of a rotation move the cross product |
| C131 | getvariants as modelled for C27 | the block of indices listed with U is the stabiliser; for the cubic group the equations Q U Q^T = U are equations between the six entries of U, and all consistent sets of such equations are enumerated |
| C132 | direc_trans and plane_trans as modelled for C25 | the inverse and the transpose both reverse products; an accepted argument stays accepted after a matrix is applied to its rows; L^T (L u' x L v') = det(L) u' x v' as a polynomial identity |
| C133 | direc_trans and plane_trans as modelled for C25 | the images of the unit vectors are the columns of an integer inverse, so det L is a unit; conversely a unit determinant has an integer inverse |

## Which parts of the code are modelled

Generated from the citations in the model files; line numbers refer to /repo/structrans.  "reason" rows are not modelled.

**__init__.py**

| function | lines | modelled in |
|---|---|---|
| `version` | 9-10 | not modelled: constant string |

**command_line.py**

| function | lines | modelled in |
|---|---|---|
| `main` | 4-6 | not modelled: prints a greeting and sys.argv |

**crystallography/bravais_lattice.py**

| function | lines | modelled in |
|---|---|---|
| `BravaisLattice.__init__` | 14-50 | BravaisModel, HeapModel, VisModel |
| `BravaisLattice.__primitiveBase2D__` | 53-80 | BravaisModel |
| `BravaisLattice.__primitiveBase3D__` | 83-219 | BravaisModel |
| `BravaisLattice.__str__` | 221-282 | BravaisModel, HeapModel |
| `BravaisLattice.Bravais_id` | 284-288 | not modelled: returns a field |
| `BravaisLattice.getLatID` | 290-292 | AliasModel |
| `BravaisLattice.lat_param` | 294-298 | HeapModel |
| `BravaisLattice.getLatParam` | 300-302 | AliasModel, HeapModel |
| `BravaisLattice.conventional_trans` | 304-311 | BravaisModel, HeapModel |
| `BravaisLattice.getConventionalTrans` | 313-315 | AliasModel, BravaisModel, HeapModel |
| `BravaisLattice.conventional_base` | 317-321 | BravaisModel, HeapModel |
| `BravaisLattice.getConventionalBase` | 323-325 | AliasModel |
| `BravaisLattice.to_primitive_Miller` | 327-347 | BravaisModel, HeapModel |
| `BravaisLattice.toPrimitive` | 349-351 | AliasModel |
| `BravaisLattice.to_conventional_Miller` | 353-374 | BravaisModel, HeapModel |
| `BravaisLattice.toConventional` | 376-378 | AliasModel |

**crystallography/hnf.py**

| function | lines | modelled in |
|---|---|---|
| `hnf_from_diag` | 10-31 | HnfModel |
| `hnf_from_diag.set_ij` | 19-27 | HnfModel |
| `hnf_from_det` | 33-51 | HnfModel |
| `__swap_cols` | 54-59 | HnfModel |
| `__add_col` | 61-66 | HnfModel |
| `__nonneg_row` | 68-74 | HnfModel |
| `__gcd_cols` | 76-87 | FloatDiv, HnfModel |
| `hnfd` | 89-121 | FloatDiv, HnfModel |

**crystallography/lattice.py**

| function | lines | modelled in |
|---|---|---|
| `Lattice.__init__` | 13-30 | HeapModel, LatticeModel |
| `Lattice.base` | 32-39 | HeapModel |
| `Lattice.getbase` | 41-43 | AliasModel |
| `Lattice.dimension` | 45-51 | not modelled: returns a field |
| `Lattice.inpointgroup` | 53-67 | LatticeModel |
| `Lattice.inlatticegroup` | 69-85 | LatticeModel |
| `Lattice.Laue_group` | 87-107 | HeapModel, LatticeModel |
| `Lattice.getLauegroup` | 109-111 | AliasModel |
| `Lattice.point_group` | 113-130 | HeapModel, LatticeModel |
| `Lattice.getpointgroup` | 132-134 | AliasModel |
| `Lattice.special_lattice_group` | 136-148 | HeapModel, LatticeModel |
| `Lattice.getspeciallatticegroup` | 150-152 | AliasModel |
| `Lattice.lattice_group` | 154-166 | HeapModel, LatticeModel |
| `Lattice.getlatticegroup` | 168-170 | AliasModel |
| `Lattice.__eq__` | 172-184 | LatticeModel |
| `Lattice.__str__` | 186-190 | not modelled: string formatting of numpy arrays |
| `_is_square_mat` | 193-196 | LatticeModel |
| `_in_O3` | 199-207 | LatticeModel |

**crystallography/lattice_reduction.py**

| function | lines | modelled in |
|---|---|---|
| `Gram_Schmidt` | 5-17 | LLLModel |
| `Gauss_reduction` | 20-28 | LLLModel |
| `projection` | 31-38 | LLLModel |
| `swapping` | 41-49 | LLLModel |
| `LLL` | 52-73 | LLLModel |

**crystallography/matrix_group.py**

| function | lines | modelled in |
|---|---|---|
| `MatrixGroup.__init__` | 72-77 | not modelled: stores its argument |
| `MatrixGroup.matrices` | 80-85 | HeapModel, LatticeModel |
| `MatrixGroup.order` | 87-92 | HeapModel, LatticeModel |
| `MatrixGroup.hassubgroup` | 113-136 | GroupModel |

**crystallography/spacegroup.py**

| function | lines | modelled in |
|---|---|---|
| `skew` | 11-24 | ScrewModel |

**crystallography/stereogram.py**

| function | lines | modelled in |
|---|---|---|
| `stereo_proj` | 5-45 | ScrewModel |
| `pole_figure` | 47-72 | ScrewModel |

**crystallography/sublattice.py** (identical to hnf.py)

**crystallography/visualization.py**

| function | lines | modelled in |
|---|---|---|
| `vertex` | 8-28 | VisModel |
| `bonds` | 30-48 | VisModel |
| `box` | 50-82 | VisModel |
| `UnitCell.__init__` | 107-113 | VisModel |
| `UnitCell.setOrigin` | 114-115 | not modelled: unreachable: the constructor always raises (C63) |
| `UnitCell.bonds` | 117-135 | VisModel |
| `UnitCell.getPrimitive` | 137-139 | not modelled: unreachable, same reason |
| `UnitCell.getConventionalVex` | 140-142 | not modelled: unreachable, same reason |
| `UnitCell.getConventional` | 143-147 | not modelled: unreachable, same reason |
| `UnitCell.getConventionalbonds` | 148-150 | not modelled: unreachable, same reason |
| `UnitCell.getPrimitivebonds` | 151-153 | not modelled: unreachable, same reason |
| `UnitCell.copyTo` | 154-156 | not modelled: unreachable, same reason |

**marttrans/Compatibility.py**

| function | lines | modelled in |
|---|---|---|
| `isCompatible` | 13-27 | RankOneModel |
| `AM_Solver` | 30-65 | RankOneModel |
| `Microstructure.__init__` | 77-88 | MicroModel |
| `Microstructure.getU` | 90-91 | MicroModel |
| `Microstructure.setU` | 93-107 | MicroModel |
| `Microstructure.getLaue` | 110-111 | MicroModel |
| `Microstructure.setLaue` | 112-119 | MicroModel |

**marttrans/lat_cor/dfs.py**

| function | lines | modelled in |
|---|---|---|
| `dfs` | 14-44 | TreeModel |

**marttrans/lat_cor/dist.py**

| function | lines | modelled in |
|---|---|---|
| `Eric_dist` | 5-13 | DistModel, LatCorModel |
| `strain_dist` | 16-24 | DistModel |
| `Cauchy_dist` | 27-34 | DistModel |
| `Cauchy_dist_vec` | 37-49 | DistModel |

**marttrans/lat_cor/lat_opt.py**

| function | lines | modelled in |
|---|---|---|
| `lat_opt_unpack` | 14-18 | not modelled: argument passing for a process pool |
| `lat_opt` | 20-265 | LLLModel, LatCorModel, TreeConc, TreeModel |
| `lat_opt.print_ary` | 40-41 | not modelled: printing |
| `lat_opt.maxiter_by_nsol` | 43-51 | LatCorModel |
| `lat_opt.ext_sols` | 134-136 | LatCorModel, TreeModel |
| `lat_opt.truncate_sols` | 138-143 | LatCorModel, TreeModel |
| `lat_opt.update_solutions` | 146-168 | LatCorModel, TreeModel |
| `lat_opt.bfs` | 170-224 | LatCorModel, TreeModel |

**marttrans/lat_cor/main_direct.py**

| function | lines | modelled in |
|---|---|---|
| `vec_generator` | 14-43 | VecGenModel |
| `lat_cor` | 46-282 | DirectConcrete, DirectCorModel, DirectModel, DistModel, OutputModel, SolverModel |
| `lat_cor.readkw` | 72-73 | DirectCorModel |
| `lat_cor.lprint` | 82-89 | not modelled: printing |
| `lat_cor.eqlatcor` | 131-133 | DirectConcrete, DirectCorModel, DirectModel, SolverModel |
| `lat_cor.add_sol` | 157-170 | DirectConcrete, DirectCorModel, DirectModel, SolverModel |
| `lat_cor.update_sol` | 172-186 | DirectConcrete, DirectCorModel, DirectModel, SolverModel |
| `_sols_tostr` | 285-335 | TextModel |

**marttrans/lat_cor/main_direct_para.py**

| function | lines | modelled in |
|---|---|---|
| `lprint` | 47-54 | not modelled: printing |
| `log_progress` | 56-58 | not modelled: printing |
| `eqlatcor` | 98-100 | DirectModel |
| `add_sol` | 124-137 | DirectModel |
| `update_sol` | 139-153 | DirectModel |
| `calc_dist` | 179-192 | DirectModel |

**marttrans/lat_cor/main_hnf.py**

| function | lines | modelled in |
|---|---|---|
| `reduce_hnfs` | 16-34 | ReduceModel |
| `lat_cor` | 37-322 | HnfSearchModel, LatCorModel, OutputModel, ReduceModel |
| `lat_cor.readkw` | 71-72 | LatCorModel |
| `lat_cor.lprint` | 80-87 | not modelled: printing |
| `lat_cor.divide_work` | 152-154 | LatCorModel, ReduceModel |
| `lat_cor.ext_sols` | 188-192 | HnfSearchModel, LatCorModel |
| `lat_cor.add_sol` | 194-206 | HnfSearchModel, LatCorModel |
| `lat_cor.truncate_sols` | 208-219 | HnfSearchModel, LatCorModel |
| `lat_cor.merge_sols` | 221-231 | HnfSearchModel, LatCorModel |
| `_sols_tostr` | 325-386 | TextModel |

**marttrans/lat_cor/quartic_opt.py**

| function | lines | modelled in |
|---|---|---|
| `quart_min` | 8-30 | DirectCorModel, DistModel, QuartModel |
| `quart_min.jac` | 18-23 | DirectCorModel, QuartModel |
| `_quartic_roots` | 33-92 | QuartModel |
| `_quartic_roots.func` | 42-52 | QuartModel |
| `_quartic_roots.jac` | 54-79 | QuartModel |
| `quart_min` | 94-107 | QuartModel |

**marttrans/lat_cor/slnode.py**

| function | lines | modelled in |
|---|---|---|
| `SLNode.__init__` | 18-29 | TreeModel |
| `SLNode.generate_children` | 31-43 | TreeModel |
| `SLNode.cache_dist` | 47-48 | TreeModel |
| `SLNode.gobacktoparent` | 59-61 | TreeModel |
| `SLNode.gobacktouncle` | 64-75 | TreeModel |
| `SLNode.gobacktosibling` | 78-88 | TreeModel |
| `SLNode.calc_neighbor_dist` | 90-93 | IsMinModel, TreeModel |
| `SLNode.steepest_des` | 95-103 | TreeModel |
| `SLNode.is_min` | 105-106 | IsMinModel |
| `SLNode.copy` | 108-111 | not modelled: not used |
| `SLNode.__str__` | 113-114 | not modelled: string formatting |

**marttrans/lat_cor/solver.py**

| function | lines | modelled in |
|---|---|---|
| `Solver.__init__` | 16-77 | SolverModel |
| `Solver.__init__.readkw` | 39-40 | SolverModel |
| `Solver.__init__.lprint` | 49-56 | not modelled: printing |
| `Solver.__init__.log_progress` | 60-62 | not modelled: printing |
| `Solver.load_input` | 79-157 | SolverModel |
| `Solver.load_input.eqlatcor` | 102-104 | SolverModel |
| `Solver.load_input.add_sol` | 125-137 | SolverModel |
| `Solver.load_input.update_sol` | 141-155 | SolverModel |
| `Solver.initialize` | 160-184 | SolverModel |

**marttrans/martensite.py**

| function | lines | modelled in |
|---|---|---|
| `Martensite.__init__` | 17-21 | HeapModel, MartModel |
| `Martensite.setU` | 23-53 | HeapModel, MartModel |
| `Martensite.getU` | 55-64 | HeapModel, MartModel |
| `Martensite.getLaue` | 66-71 | MartModel |
| `Martensite.setLaue` | 73-91 | MartModel, MicroModel |
| `Martensite.getvariants` | 93-105 | HeapModel, MartModel |
| `Martensite.getvariant` | 107-116 | HeapModel, MartModel |
| `Martensite.isreversible` | 118-133 | HeapModel, MartModel |
| `Martensite.getLaueidx` | 135-138 | MartModel |
| `Martensite.calcvariants` | 140-169 | HeapModel, MartModel |

**marttrans/orientation_relationship.py**

| function | lines | modelled in |
|---|---|---|
| `direc_trans` | 3-21 | RotModel |
| `plane_trans` | 23-37 | RotModel |

**marttrans/twin.py**

| function | lines | modelled in |
|---|---|---|
| `TwinSystem.__init__` | 13-34 | TwinModel |
| `TwinSystem.Ulist` | 36-44 | not modelled: returns a field |
| `TwinSystem.Laue` | 46-52 | TwinModel |
| `TwinSystem.TwinTable` | 54-67 | TwinModel |
| `TwinSystem.getTwinpairs` | 69-89 | TwinModel |
| `TwinSystem.getConventional` | 91-100 | TwinModel |
| `TwinSystem.getCompound` | 102-110 | TwinModel |
| `TwinSystem.getTypeI` | 112-120 | TwinModel |
| `TwinSystem.getTypeII` | 122-128 | TwinModel |
| `TwinPair.__init__` | 140-159 | TwinModel |
| `TwinPair.Ui` | 161-168 | not modelled: returns a field |
| `TwinPair.Uj` | 170-177 | not modelled: returns a field |
| `TwinPair.istwinnable` | 179-188 | TwinModel |
| `TwinPair.isconventional` | 190-205 | TwinModel |
| `TwinPair.ax` | 207-231 | TwinModel |
| `TwinPair.iscompound` | 234-239 | TwinModel |
| `TwinPair.istypeI` | 241-246 | TwinModel |
| `TwinPair.istypeII` | 248-253 | TwinModel |
| `TwinPair.XI` | 255-265 | TwinModel |
| `TwinPair.XII` | 267-277 | TwinModel |
| `TwinPair.direct_cof` | 279-290 | TwinModel |
| `TwinPair.twinparam` | 293-309 | TwinModel |
| `TwinPair.iscompatible` | 311-323 | TwinModel |
| `TwinPair.volumefrac` | 329-348 | TwinModel |
| `TwinPair.habitplanes` | 350-376 | TwinModel |
| `_solvetwin` | 395-431 | TwinModel |
| `_solve_f` | 433-456 | TwinModel |
| `_solve_am` | 458-492 | RankOneModel |
| `_brute_cof` | 494-506 | MatMathModel, RankOneModel |
| `_isvariant` | 508-519 | TwinModel |

**mat_math.py**

| function | lines | modelled in |
|---|---|---|
| `mat_dot` | 14-28 | MatMathModel |
| `mat_trace` | 31-39 | MatMathModel |
| `mat_det` | 41-63 | MatMathModel |
| `mat_T` | 65-73 | MatMathModel |
| `mat_eig` | 75-81 | not modelled: la.eig applied row by row; np.empty with a float dimension raises in current numpy |
| `unique_rows` | 83-86 | UniqueModel |
| `tuple` | 88-92 | UniqueModel |
| `eigSort` | 94-100 | RankOneModel |
| `cofactor` | 102-114 | MatMathModel, RankOneModel |

**util/utils.py**

| function | lines | modelled in |
|---|---|---|
| `is_3_by_3` | 4-8 | RankOneModel |
| `pos_def_sym` | 10-16 | RankOneModel |
| `sort_eig` | 18-29 | RankOneModel |
| `divisors` | 31-44 | HnfModel |
| `Euler` | 46-64 | RotModel |
| `rotation` | 67-87 | RotModel |
| `solve_rank1` | 89-124 | RankOneModel |

## Assumptions and simplifications that matter

* **Exact arithmetic.** All statements about floats are about exact real arithmetic with the tolerances of the code.
  Equalities such as `det = 0` or `x == y` on floats may be decided differently by binary64. The counterexamples use
  numbers that are far from the decision limits, except where a comment says otherwise. Examples are C60, whose bases
  have entries beyond the range of doubles, and setLaue(5), whose cell is singular in exact arithmetic only.
* **64-bit integers.** numpy's wrap-around is modelled for `hnfd` only (C111, any word size); C68 does not bound the integers.
* `hnfd`: `la.inv(H).dot(M)` is exact rational arithmetic followed by rint.
* `reduce_hnfs`: the byte string of an integer array is identified with the array. `lat_cor` may pass arrays of floats
  when the fallback size is a float; then `-0.0` and `0.0` are different keys, which is not modelled.
* Python 2 dictionaries have no insertion order; `reduce_hnfs` keeps that of Python 3.7.
* `np.int`, `tostring()` and `np.random.random_integers` are taken to exist, as in the numpy of the time.
* `np.array(idx)` on lists of different lengths (`getLaueidx`) is taken to give an array of objects.
* `e == None` on arrays depends on the numpy version (`npnew`).
* LLL is modelled on arrays of floats. On arrays of ints line 14 raises a TypeError, and this is not followed.
* Heap models: the array `__Laueidx` and integer arrays are not followed.
* `TwinPair`: the fields `__fI`, `__fII` that are never read are left out.
* `lat_cor` of main_direct.py: `alpha <= 0` is not followed (the radius would be nan or complex).
* Python's recursion limit, memory and interrupts are not modelled. Neither are logging, progress messages, timers
  and the mechanics of multiprocessing: only the bookkeeping loop around the pool is. Of what is printed, only the report of
  the solutions is modelled (C95).

## Testing the theorems against wrong programs

`seeded/LOG.jsonl` lists the edits tried on scratch copies of the model, the claim each breaks, the theorems that
failed and the theorems that were tightened because they had survived.

How to read `theorems_failed`:

* It lists the theorems whose proof no longer checks after the edit, either directly or because a lemma they are
  built on no longer checks. The harness replaces a broken lemma by an admitted one in the scratch copy, and stops as
  soon as a theorem of the claim is reached.
* So an entry shows that the edit is noticed. It does not show that every theorem listed has become false: a lemma
  that describes the edited function exactly also breaks under an edit that leaves a theorem above it true. Entries
  whose `claim` says "equivalent" or "the same", and entries with a `note`, are of this kind where it was recognised;
  the others were not all examined one by one for it.
* For entries marked "automatic edit" only the first proof to fail is recorded.
* Inconclusive runs are left out of the log. Six stopped at an error the harness could not step over. Four of these
  were done again and are logged: `add_sol`, `report`, `eqlatcor`, `unique_rows`. Two did not type-check as written and
  were not done again: `distance_fn` with the Ericksen and strain distances swapped, and `search` with all sublattices
  but the first skipped. Two more have no result: `lat_dist` with the two lattices exchanged made a proof script in
  DirectConcProofs.v loop and was stopped, and `lat_dist` with the product lattice not inverted was not run after it.
* Two runs whose directory had been overwritten by another run were discarded and done again.
