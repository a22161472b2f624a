{
 "claims": [
  {
   "property": "C01",
   "status": "proved",
   "theorems": [
    "C01_region_blocks_intact",
    "C01_region_legal_calls_succeed",
    "C01_region_calls_preserve_bytes"
   ],
   "note": "Refinement of the region allocator to a stack of blocks, for all histories, sizes up to 2^62 and malloc behaviours; contents, disjointness, progress and byte-level frame."
  },
  {
   "property": "C02",
   "status": "proved",
   "theorems": [
    "C02_region_aligned_in_chunk",
    "C02_region_scratch_aligned_in_chunk"
   ],
   "note": "Alignment and containment of blocks and of scratch buffers."
  },
  {
   "property": "C03",
   "status": "proved",
   "theorems": [
    "C03_region_pop_exact",
    "C03_region_pop_reuses_address"
   ],
   "note": "Pop of any live block, in any chunk; reuse of the address in the top chunk. The popped block and the older ones must be non-empty (legal allocations are)."
  },
  {
   "property": "C04",
   "status": "proved",
   "theorems": [
    "C04_region_scratch_mark_full_refuted",
    "C04_region_scratch_mark_fresh_refuted",
    "C04_region_mark_pop_guarded"
   ],
   "note": "Settled negatively: two _refuted theorems give executions in which popping a scratch mark frees older blocks. The guarded theorem gives the condition under which it is safe."
  },
  {
   "property": "C05",
   "status": "proved",
   "theorems": [
    "C05_region_tmprealloc_use_after_free_refuted",
    "C05_region_tmprealloc_huge_copy_refuted",
    "C05_region_tmprealloc_guarded"
   ],
   "note": "Settled negatively (use after free; memcpy with a wrapped size), plus the guarded positive theorem."
  },
  {
   "property": "C06",
   "status": "proved",
   "theorems": [
    "C06_region_release_consolidates"
   ],
   "note": ""
  },
  {
   "property": "C07",
   "status": "proved",
   "theorems": [
    "C07_region_huge_request_refuted"
   ],
   "note": "Settled negatively: wrapped head+size; requests up to 2^62 are covered by C01."
  },
  {
   "property": "C08",
   "status": "proved",
   "theorems": [
    "C08_pool_objects_disjoint_intact",
    "C08_pool_reuses_last_freed",
    "C08_pool_legal_calls_succeed",
    "C08_pool_freed_apart"
   ],
   "note": "Pool on top of the region model, free list threaded through byte memory as 64-bit little-endian words."
  },
  {
   "property": "C09",
   "status": "proved",
   "theorems": [
    "C09_rlist_pop_returns_front",
    "C09_rlist_map_visits_in_order",
    "C09_rlist_operations_succeed"
   ],
   "note": "Region lists at byte level; interleaved with other allocations from the same region."
  },
  {
   "property": "C10",
   "status": "proved",
   "theorems": [
    "C10_bits_set_get_local",
    "C10_bits_size_suffices",
    "C10_bits_getn_bounded"
   ],
   "note": "1<<31 is taken to be INT_MIN."
  },
  {
   "property": "C11",
   "status": "proved",
   "theorems": [
    "C11_bits_combine_never_returns_refuted",
    "C11_bits_combine_out_of_bounds_refuted"
   ],
   "note": "Settled negatively, for every n > 0, every word operation and every array."
  },
  {
   "property": "C12",
   "status": "proved",
   "theorems": [
    "C12_memswap_exchanges"
   ],
   "note": "Byte memory, every length."
  },
  {
   "property": "C13",
   "status": "proved",
   "theorems": [
    "C13_load_store_round_trip",
    "C13_store_load_round_trip",
    "C13_reverse_involutive",
    "C13_reverse_bytes",
    "C13_cross_order_is_reverse"
   ],
   "note": "Every width; little-endian host. The big-endian preprocessor branch (which defines h_to_le twice) is not modelled."
  },
  {
   "property": "C14",
   "status": "proved",
   "theorems": [
    "C14_vector_push_keeps_elements"
   ],
   "note": "realloc is assumed to succeed and sizes not to overflow size_t."
  },
  {
   "property": "C15",
   "status": "proved",
   "theorems": [
    "C15_heap_sort_sorts",
    "C15_heap_build_makes_heap"
   ],
   "note": "Elements are moved whole (aa_memswap is C12)."
  },
  {
   "property": "C16",
   "status": "proved",
   "theorems": [
    "C16_heap_check_misses_root_refuted",
    "C16_heap_check_nonzero_is_violation",
    "C16_heap_check_zero_guarded"
   ],
   "note": "Settled negatively, plus the two directions that do hold."
  },
  {
   "property": "C17",
   "status": "proved",
   "theorems": [
    "C17_refcount_no_use_after_free",
    "C17_refcount_counts_references",
    "C17_refcount_freed_exactly_at_end"
   ],
   "note": "Sequentially consistent interleavings of single memory accesses; both implementations, through aa_rx_geom_copy/destroy."
  },
  {
   "property": "C18",
   "status": "proved",
   "theorems": [
    "C18_make_norm_exact",
    "C18_add_sub_exact",
    "C18_add_sub_cancel",
    "C18_cmp_orders_instants",
    "C18_min_max",
    "C18_deadlines",
    "C18_conversions"
   ],
   "note": "Mathematical integers: overflow of time_t/long is outside the property's range."
  },
  {
   "property": "C19",
   "status": "proved",
   "theorems": [
    "C19_qmul_monoid",
    "C19_qinv_inverse",
    "C19_qconj_inverse",
    "C19_qrot_rotation",
    "C19_qrot_mul",
    "C19_qrot_variants",
    "C19_fused_products",
    "C19_normalize",
    "C19_minimize"
   ],
   "note": "Over the reals (rounding not modelled)."
  },
  {
   "property": "C20",
   "status": "proved",
   "theorems": [
    "C20_qutr_mul_acts",
    "C20_duqu_mul_acts",
    "C20_tfmat_mul_acts",
    "C20_conversions_keep_motion",
    "C20_conversions_invertible",
    "C20_conversions_commute_mul",
    "C20_conversions_commute_inverse",
    "C20_variadic_chain"
   ],
   "note": "Over the reals. aa_tf_12* and aa_tf_93* names share the tfmat functions."
  },
  {
   "property": "C21",
   "status": "proved",
   "theorems": [
    "C21_quat2rotmat_proper",
    "C21_rotmat2quat_right_inverse",
    "C21_rotmat2quat_left_inverse_up_to_sign",
    "C21_rotmat2quat_minimal"
   ],
   "note": "Over the reals, every branch of aa_tf_rotmat2quat."
  },
  {
   "property": "C22",
   "status": "proved",
   "theorems": [
    "C22_inverse_both_sides",
    "C22_inverse_undoes_motion",
    "C22_relative_qutr",
    "C22_relative_duqu",
    "C22_relative_tfmat",
    "C22_relative_rotation"
   ],
   "note": "Over the reals."
  },
  {
   "property": "C23",
   "status": "proved",
   "theorems": [
    "C23_pure_exponential",
    "C23_exponential",
    "C23_exp_of_ln",
    "C23_ln_of_exp",
    "C23_qexp_n_guarded",
    "C23_qexp_n_refuted"
   ],
   "note": "Over the reals. Settled negatively for aa_tf_qexp_n, positively for the others."
  },
  {
   "property": "C24",
   "status": "proved",
   "theorems": [
    "C24_qutr_exponential_near",
    "C24_rotmat_expv_refuted",
    "C24_tfmat_expv_refuted",
    "C24_rotmat_expv_guarded"
   ],
   "note": "Over the reals. Settled negatively for the matrix exponentials at every angle below 2^-13; the quaternion exponentials are shown to be within 2^-78."
  },
  {
   "property": "C25",
   "status": "proved",
   "theorems": [
    "C25_velocity_roundtrip",
    "C25_qutr_true_velocity",
    "C25_duqu_true_velocity",
    "C25_tfmat_true_velocity",
    "C25_qutr_derivative_roundtrip",
    "C25_duqu_derivative_roundtrip",
    "C25_tfmat_derivative_roundtrip"
   ],
   "note": "Over the reals; derivatives in the sense of derivable_pt_lim, along arbitrary unit curves."
  },
  {
   "property": "C26",
   "status": "proved",
   "theorems": [
    "C26_slerp_arc",
    "C26_slerp_constant_rate",
    "C26_slerpdiff_derivative"
   ],
   "note": "Over the reals, every real parameter."
  },
  {
   "property": "C27",
   "status": "proved",
   "theorems": [
    "C27_slerpchaindiff_refuted",
    "C27_slerpchaindiff_fixed_ends"
   ],
   "note": "Settled negatively, plus correctness with fixed end points."
  },
  {
   "property": "C28",
   "status": "proved",
   "theorems": [
    "C28_dh_proximal",
    "C28_dh_distal"
   ],
   "note": "Over the reals."
  },
  {
   "property": "C29",
   "status": "proved",
   "theorems": [
    "C29_vecs2quat_general",
    "C29_vecs2quat_parallel",
    "C29_vecs2quat_refuted"
   ],
   "note": "Over the reals. Settled negatively for nearly parallel vectors, positively for the general and the exactly parallel cases."
  },
  {
   "property": "C30",
   "status": "proved",
   "theorems": [
    "C30_axang_forms_agree",
    "C30_principal_axes",
    "C30_euler_constructors",
    "C30_euler_zyx_of_matrix",
    "C30_euler_zyx_of_quaternion"
   ],
   "note": "Over the reals. The generated Euler functions are modelled by their generator (src/mac)."
  },
  {
   "property": "C31",
   "status": "proved",
   "theorems": [
    "C31_rotation_is_turn",
    "C31_angle_of_rotation",
    "C31_angle_roundtrip",
    "C31_cmplx_rotmat_conversion",
    "C31_rotation_products",
    "C31_rotation_inverses",
    "C31_transform_acts",
    "C31_transform_conversion",
    "C31_transform_inverses",
    "C31_transform_associative"
   ],
   "note": "Over the reals; atan2 defined in AtanModel.v and shown to be the polar angle."
  },
  {
   "property": "C32",
   "status": "proved",
   "theorems": [
    "C32_tfmul_is_composition",
    "C32_kernels",
    "C32_inline_kernels",
    "C32_tfmul_2d_two_rows",
    "C32_tfmul_2d_refuted",
    "C32_vqmul_vector_part",
    "C32_vqmul_scalar_refuted",
    "C32_qv2duqu_dual_refuted"
   ],
   "note": "Over the reals. Holds for the kernels of src/vec.c except aa_vecm_tfmul_2d; settled negatively for the functions named in the statement. Alignment of vector loads is not modelled."
  },
  {
   "property": "C33",
   "status": "proved",
   "theorems": [
    "C33_trace",
    "C33_trace_refuted"
   ],
   "note": "Over the reals. Settled negatively for negative diagonal elements."
  },
  {
   "property": "C34",
   "status": "proved",
   "theorems": [
    "C34_quadterp",
    "C34_parabola_exists",
    "C34_quadterp_dx_refuted"
   ],
   "note": "Over the reals. Settled negatively for the derivative, which is characterised exactly."
  },
  {
   "property": "C35",
   "status": "proved",
   "theorems": [
    "C35_block",
    "C35_block_errors",
    "C35_row",
    "C35_column",
    "C35_row_column_errors",
    "C35_diagonal",
    "C35_slice",
    "C35_slice_errors",
    "C35_slice_inside",
    "C35_slice_refuted",
    "C35_slice_zero_step_refuted",
    "C35_cpp_slice_refuted",
    "C35_cpp_const_view_refuted"
   ],
   "note": "Settled negatively for the cases named in the statement."
  },
  {
   "property": "C36",
   "status": "proved",
   "theorems": [
    "C36_vector_set_shift_scale",
    "C36_vector_copy",
    "C36_vector_axpy",
    "C36_vector_swap",
    "C36_matrix_set_scale",
    "C36_matrix_copy",
    "C36_matrix_axpy",
    "C36_transpose",
    "C36_squared_distance",
    "C36_size_errors",
    "C36_matrix_shift",
    "C36_matrix_shift_refuted"
   ],
   "note": "Over the reals, BLAS kernels modelled by their definition. Settled negatively for aa_dmat_inc on square views of larger matrices."
  },
  {
   "property": "C37",
   "status": "proved",
   "theorems": [
    "C37_returned_assignment_is_optimal",
    "C37_max2min_maximises",
    "C37_max2min_entries",
    "C37_returns_refuted",
    "C37_returns_for_nonpositive_costs_refuted"
   ],
   "note": "Over the reals, for all sizes. Optimality whenever the call returns; no assertion failure or overrun. Settled negatively for termination (two matrices on which the search repeats for ever)."
  },
  {
   "property": "C38",
   "status": "proved",
   "theorems": [
    "C38_formula",
    "C38_projector",
    "C38_solves",
    "C38_nearest"
   ],
   "note": "Over the reals, BLAS kernels modelled by their definition."
  },
  {
   "property": "C39",
   "status": "proved",
   "theorems": [
    "C39_fixed_steps",
    "C39_fehlberg_step",
    "C39_cash_karp_step_partial",
    "C39_dormand_prince_step_partial",
    "C39_bogacki_shampine_step",
    "C39_orders",
    "C39_polynomials",
    "C39_affine",
    "C39_linear_simulation",
    "C39_dormand_prince_refuted",
    "C39_cash_karp_refuted",
    "C39_output_order_refuted"
   ],
   "note": "Over the reals. Published tableaux proved to satisfy all order conditions; the steps proved to be those tableaux, exact on polynomials and Taylor on affine systems. Settled negatively for time-dependent Dormand-Prince, the second Cash-Karp output and the documented order of the outputs. The passage from order conditions to an O(h^(p+1)) bound for general smooth right-hand sides is not formalised."
  },
  {
   "property": "C40",
   "status": "proved",
   "theorems": [
    "C40_linear_trajectory",
    "C40_added_points",
    "C40_near_points_refuted",
    "C40_single_point_refuted"
   ],
   "note": "Over the reals. Settled negatively for the two cases named in the statement."
  },
  {
   "property": "C41",
   "status": "proved",
   "theorems": [
    "C41_blended_trajectory",
    "C41_two_points_return"
   ],
   "note": "Over the reals, about every trajectory the generator returns; that it returns is proved for two way points."
  },
  {
   "property": "C42",
   "status": "proved",
   "theorems": [
    "C42_trapezoid_refuted",
    "C42_trapezoid_speed_refuted"
   ],
   "note": "Settled negatively, over the reals, for all two-point moves."
  },
  {
   "property": "C43",
   "status": "proved",
   "theorems": [
    "C43_linear_calls",
    "C43_blend_calls",
    "C43_backwards_refuted",
    "C43_backwards_blend_refuted"
   ],
   "note": "Over the reals, for linear and parabolic-blend lists and every sequence of calls. Settled negatively for earlier times after later ones."
  },
  {
   "property": "C44",
   "status": "proved",
   "theorems": [
    "C44_init_succeeds",
    "C44_missing_parent_reported",
    "C44_ids_and_names",
    "C44_parents_come_first",
    "C44_unnamed_frame_refuted"
   ],
   "note": "Every history of calls on a new graph. Settled negatively for frames with the empty name."
  },
  {
   "property": "C45",
   "status": "proved",
   "theorems": [
    "C45_cycle_accepted_refuted",
    "C45_self_loop_aborts"
   ],
   "note": "Settled negatively: every cyclic graph without a self-loop is accepted; a self-loop aborts."
  },
  {
   "property": "C46",
   "status": "proved",
   "theorems": [
    "C46_configs_numbered",
    "C46_config_name_range_refuted",
    "C46_config_count_refuted"
   ],
   "note": "Settled negatively at the two boundaries named in the statement."
  },
  {
   "property": "C47",
   "status": "proved",
   "theorems": [
    "C47_tf",
    "C47_fk_all",
    "C47_fk_all_strided_refuted"
   ],
   "note": "Over the reals, unit quaternions and unit revolute axes. Settled negatively for aa_rx_fk_all with a stride."
  },
  {
   "property": "C48",
   "status": "proved",
   "theorems": [
    "C48_update_equals_recompute"
   ],
   "note": "Over the reals. Floating-point comparison aa_feq(a,b,0) is equality."
  },
  {
   "property": "C49",
   "status": "proved",
   "theorems": [
    "C49_matrix_agrees",
    "C49_dual_quaternion_agrees",
    "C49_prismatic_matrix_refuted",
    "C49_prismatic_dual_quaternion_refuted",
    "C49_reparent_refuted",
    "C49_overrun_refuted"
   ],
   "note": "Settled negatively for the cases named in the statement; positive for graphs without them."
  },
  {
   "property": "C50",
   "status": "proved",
   "theorems": [
    "C50_frames_between_exist",
    "C50_chain_lists_path",
    "C50_chain_kinematics"
   ],
   "note": "Over the reals."
  },
  {
   "property": "C51",
   "status": "proved",
   "theorems": [
    "C51_multiple_chains_always_empty_refuted",
    "C51_nonempty_path_refuted"
   ],
   "note": "Settled negatively, for all graphs, roots and tips."
  },
  {
   "property": "C52",
   "status": "proved",
   "theorems": [
    "C52_jacobian_is_derivative",
    "C52_root_equals_tip_refuted"
   ],
   "note": "Over the reals, derivatives in the sense of derivable_pt_lim. Settled negatively for root = tip."
  },
  {
   "property": "C53",
   "status": "proved",
   "theorems": [
    "C53_set_replaces",
    "C53_get_reads",
    "C53_get_after_set",
    "C53_expand_path",
    "C53_scatter",
    "C53_gather",
    "C53_chain_ids_valid"
   ],
   "note": ""
  },
  {
   "property": "C54",
   "status": "proved",
   "theorems": [
    "C54_limit_set_before_init",
    "C54_limit_never_wrong",
    "C54_center",
    "C54_limit_set_after_init_refuted"
   ],
   "note": "Settled negatively for limits first set after initialisation."
  },
  {
   "property": "C55",
   "status": "proved",
   "theorems": [
    "C55_copy",
    "C55_inertial_lost_refuted",
    "C55_copy_after_remove_refuted",
    "C55_copy_of_emptied_refuted"
   ],
   "note": "Settled negatively for the cases named in the statement, positively for everything else copied."
  },
  {
   "property": "C56",
   "status": "proved",
   "theorems": [
    "C56_symmetric",
    "C56_out_of_range",
    "C56_set",
    "C56_clear",
    "C56_fill",
    "C56_merge",
    "C56_create_empty",
    "C56_fill_other_size_refuted"
   ],
   "note": "Settled negatively for filling from a set of another size."
  },
  {
   "property": "C57",
   "status": "proved",
   "theorems": [
    "C57_append_succeeds",
    "C57_sequence"
   ],
   "note": "The graph is identified by its pointer; the path is a list of doubles."
  },
  {
   "property": "C58",
   "status": "proved",
   "theorems": [
    "C58_modulo_is_mathematical",
    "C58_modulo_defined_guarded",
    "C58_modulo_overflow_refuted"
   ],
   "note": "Settled negatively by overflow on every width; exact whenever the computation is defined, and defined for divisors up to 2^(w-2)."
  },
  {
   "property": "C59",
   "status": "proved",
   "theorems": [
    "C59_mixed_builds_free_early_refuted"
   ],
   "note": "Settled negatively by an explicit schedule."
  },
  {
   "property": "C60",
   "status": "proved",
   "theorems": [
    "C60_rotmat_from_axes",
    "C60_mzlook",
    "C60_mzlook_origin",
    "C60_rotmat_normalize",
    "C60_rotmat_normalize_idempotent",
    "C60_projection"
   ],
   "note": "Over the reals."
  },
  {
   "property": "C61",
   "status": "proved",
   "theorems": [
    "C61_quat_axang_round_trip",
    "C61_axang_quat_round_trip",
    "C61_rotvec2quat",
    "C61_quat_rotvec_round_trip",
    "C61_rotvec_axang",
    "C61_rotvec_permute",
    "C61_matrix_has_axis",
    "C61_matrix_log_round_trip"
   ],
   "note": "Over the reals."
  },
  {
   "property": "C62",
   "status": "proved",
   "theorems": [
    "C62_tfmat_exponential",
    "C62_qutr_exponential",
    "C62_duqu_exponential",
    "C62_flow_exists_unique",
    "C62_qutr_exp_of_ln",
    "C62_duqu_exp_of_ln",
    "C62_tfmat_exp_of_ln",
    "C62_tfmat_logarithm",
    "C62_tfmat_logarithm_series",
    "C62_qutr_logarithm",
    "C62_qutr_logarithm_series",
    "C62_qutr_integration",
    "C62_duqu_integration",
    "C62_tfmat_integration",
    "C62_quat_integration"
   ],
   "note": "Over the reals. Flows are characterised by their differential equation."
  },
  {
   "property": "C63",
   "status": "proved",
   "theorems": [
    "C63_nonunit_axis_refuted"
   ],
   "note": "Settled negatively."
  },
  {
   "property": "C64",
   "status": "proved",
   "theorems": [
    "C64_allowed_set",
    "C64_stale_refuted",
    "C64_dangling_refuted",
    "C64_uninitialised_refuted"
   ],
   "note": "Settled negatively for the histories named in the statement. FCL objects are not modelled."
  },
  {
   "property": "C65",
   "status": "proved",
   "theorems": [
    "C65_relative_pose",
    "C65_get_abs_bound_refuted"
   ],
   "note": "Over the reals. Settled negatively for the id equal to the frame count."
  },
  {
   "property": "C66",
   "status": "proved",
   "theorems": [
    "C66_slerp_pose",
    "C66_slerp_velocity",
    "C66_slerp_in_refuted"
   ],
   "note": "Over the reals. Settled negatively for the reported status."
  },
  {
   "property": "C67",
   "status": "proved",
   "theorems": [
    "C67_check_linear",
    "C67_check_blend",
    "C67_check_stale_refuted",
    "C67_check_end_refuted",
    "C67_check_cartesian_refuted"
   ],
   "note": "Over the reals. Settled negatively for the cases named in the statement."
  },
  {
   "property": "C68",
   "status": "proved",
   "theorems": [
    "C68_continuity_check_refuted"
   ],
   "note": "Settled negatively."
  },
  {
   "property": "C69",
   "status": "proved",
   "theorems": [
    "C69_linear_positions",
    "C69_blend_positions_refuted",
    "C69_trapezoid_positions_refuted"
   ],
   "note": "Over the reals. Settled negatively for parabolic blends and trapezoidal velocities."
  },
  {
   "property": "C70",
   "status": "proved",
   "theorems": [
    "C70_matrix_vector",
    "C70_matrix_matrix",
    "C70_transposed_product_refuted"
   ],
   "note": "Over the reals, BLAS kernels modelled by their definition. Settled negatively for transposed operands."
  },
  {
   "property": "C71",
   "status": "proved",
   "theorems": [
    "C71_assignment",
    "C71_operators",
    "C71_self_assignment_refuted"
   ],
   "note": "Over the reals. Settled negatively for self-assignment."
  },
  {
   "property": "C72",
   "status": "proved",
   "theorems": [
    "C72_transpose_into",
    "C72_transpose_in_place",
    "C72_transpose_strided"
   ],
   "note": ""
  },
  {
   "property": "C73",
   "status": "proved",
   "theorems": [
    "C73_damped_inverse",
    "C73_singular_values",
    "C73_damped_least_squares",
    "C73_secondary_target",
    "C73_damped_inverse_descriptor",
    "C73_size_errors"
   ],
   "note": "Over the reals. BLAS kernels by definition; dposv by exact elimination, failing exactly when a pivot is not positive."
  },
  {
   "property": "C74",
   "status": "proved",
   "theorems": [
    "C74_pseudoinverse",
    "C74_deadzone",
    "C74_deadzone_array",
    "C74_padded_operand_refuted",
    "C74_padded_result_refuted",
    "C74_padded_example_refuted"
   ],
   "note": "Over the reals. dgesdd is an arbitrary function assumed to return a decomposition for the matrix at hand. Settled negatively for gaps between columns."
  },
  {
   "property": "C75",
   "status": "proved",
   "theorems": [
    "C75_linear",
    "C75_lerp",
    "C75_column_mean",
    "C75_row_mean",
    "C75_covariance",
    "C75_padded_covariance_refuted",
    "C75_standard_deviation"
   ],
   "note": "Over the reals. Settled negatively for covariances with a gap between columns."
  },
  {
   "property": "C76",
   "status": "proved",
   "theorems": [
    "C76_weighted_product",
    "C76_matrix_vector",
    "C76_angle",
    "C76_point_plane",
    "C76_plane_hessian",
    "C76_determinant"
   ],
   "note": "Over the reals."
  },
  {
   "property": "C77",
   "status": "proved",
   "theorems": [
    "C77_fixed_run",
    "C77_fixed_stops",
    "C77_fixed_path",
    "C77_adaptive_run_partial",
    "C77_adaptive_first_point",
    "C77_adaptive_time_refuted",
    "C77_adaptive_second_step_refuted"
   ],
   "note": "Over the reals. Fixed-step runs completely; settled negatively for adaptive runs (time, initial derivative), with what does hold of them as the _partial theorem."
  },
  {
   "property": "C78",
   "status": "proved",
   "theorems": [
    "C78_gradient",
    "C78_jacobian",
    "C78_limit",
    "C78_quadratic"
   ],
   "note": "Over the reals."
  },
  {
   "property": "C79",
   "status": "proved",
   "theorems": [
    "C79_log_jacobian",
    "C79_log_jacobian_axis",
    "C79_true_log_jacobian",
    "C79_dual_log_jacobian",
    "C79_dual_log_jacobian_axis",
    "C79_conjugate_jacobian"
   ],
   "note": "Over the reals, for rotation half-angles above the series threshold (2^-13 for quaternions, eps for dual quaternions) and on the positive real axis; in between (0 < angle < threshold) the code differentiates a truncated series and the theorems say nothing."
  },
  {
   "property": "C80",
   "status": "proved",
   "theorems": [
    "C80_position_objective",
    "C80_pose_objective",
    "C80_twist_objective",
    "C80_center_objective",
    "C80_finite_difference_objective_refuted",
    "C80_turn_exists",
    "C80_limits_exist"
   ],
   "note": "Over the reals. Values for no missing turn or one of at least 2^-12 (2^-25 for the twist objective), gradients likewise and below half a turn (the value has a kink there); between, the truncated series apply and nothing is said. Settled negatively for aa_rx_ik_opt_err_qlnpv_fd."
  },
  {
   "property": "C81",
   "status": "proved",
   "theorems": [
    "C81_reaches_reference",
    "C81_closed_loop",
    "C81_half_gain"
   ],
   "note": "Over the reals. Outside the small-angle branch (missing turn 0 or at least 2^-25). The closed loop is proved for a motion that is constructed (existence), not for every solution of the differential equation."
  },
  {
   "property": "C82",
   "status": "proved",
   "theorems": [
    "C82_joint_rates",
    "C82_secondary_rates",
    "C82_center_rates",
    "C82_center_toward",
    "C82_wrong_sizes",
    "C82_no_joints"
   ],
   "note": "Over the reals, the singular value decomposition (LAPACK) taken as an oracle that returns one. Settled negatively for secondary rates with damping or near a singularity. The limits of aa_rx_wk_dqcenter are assumed to be proper intervals."
  },
  {
   "property": "C83",
   "status": "proved",
   "theorems": [
    "C83_solution",
    "C83_sizes",
    "C83_memory_refuted",
    "C83_default_jacobian_refuted",
    "C83_tol_dq_refuted",
    "C83_solved_seed",
    "C83_limits_refuted",
    "C83_angle_refuted",
    "C83_context",
    "C83_check",
    "C83_check_refuted",
    "C83_random_start"
   ],
   "note": "Over the reals; LAPACK and NLopt are oracles. Settled negatively for the angle tolerance (a factor 2), seeds outside the limits, the memory of refused calls, the default tol_dq of the Jacobian solver and aa_rx_ik_check off the root. Positive for the factor-2 tolerance and seeds within the limits."
  },
  {
   "property": "C84",
   "status": "proved",
   "theorems": [
    "C84_six_joints",
    "C84_more_joints_mixed_refuted",
    "C84_more_joints_idle_refuted",
    "C84_more_joints_limits_refuted",
    "C84_fewer_joints_refuted",
    "C84_position_limits_refuted",
    "C84_refuses"
   ],
   "note": "Over the reals; LAPACK and the linear program solver are oracles. Settled negatively for chains with fewer or more than six joints and for position limits without acceleration limits; positive for six joints."
  },
  {
   "property": "C85",
   "status": "proved",
   "theorems": [
    "C85_limits",
    "C85_sg_limits_refuted",
    "C85_path",
    "C85_last_step",
    "C85_endless_refuted",
    "C85_on_track",
    "C85_slerp",
    "C85_end_refuted",
    "C85_unlimited_joints_refuted",
    "C85_start_required",
    "C85_blend_velocity_refuted"
   ],
   "note": "Over the reals; LAPACK is an oracle. Settled negatively for joints without limits, the end of the path with the default options, steps that are not positive, and blended trajectories; the rest positive. The evaluation of the trajectory depends on the time only, as it does for the lists of aa_ct_tjx_slerp_generate (C66)."
  },
  {
   "property": "C86",
   "status": "proved",
   "theorems": [
    "C86_alloc",
    "C86_alloc_frames_refuted",
    "C86_alloc_compare_refuted",
    "C86_clone",
    "C86_compare",
    "C86_near",
    "C86_transitive_refuted",
    "C86_set_pose",
    "C86_print",
    "C86_print_efforts_refuted",
    "C86_print_fails_refuted",
    "C86_point_list",
    "C86_determined",
    "C86_kept",
    "C86_ends",
    "C86_add_joints",
    "C86_add_pose",
    "C86_efforts_lost_refuted",
    "C86_print_list",
    "C86_path_list"
   ],
   "note": "Over the reals. Settled negatively for the size of the frame arrays, the comparison of new states, transitivity, ignored efforts and the printed efforts; the rest positive. back() and front() of an empty std::list are null, as in libstdc++."
  },
  {
   "property": "C87",
   "status": "proved",
   "theorems": [
    "C87_file",
    "C87_number",
    "C87_exponent_refuted",
    "C87_long_fraction_refuted",
    "C87_library",
    "C87_garbage",
    "C87_last_line",
    "C87_last_line_refuted",
    "C87_truncated_refuted",
    "C87_total",
    "C87_indices",
    "C87_indices_refuted",
    "C87_face_material",
    "C87_face_material_refuted",
    "C87_getters",
    "C87_getters_refuted",
    "C87_mtl_file",
    "C87_mtl_total",
    "C87_mtl_early_refuted",
    "C87_mtl_last_refuted"
   ],
   "note": "Over the reals, on the text of the file. Settled negatively for exponents, long fractions, some last lines without a newline, truncated vertices, corners out of range, faces before any material, the getters at the count and values before the first material; the rest positive."
  },
  {
   "property": "C88",
   "status": "proved",
   "theorems": [
    "C88_line",
    "C88_line_grown",
    "C88_exact_line_refuted",
    "C88_long_line_refuted",
    "C88_full_region_refuted",
    "C88_numbers",
    "C88_numbers_grown",
    "C88_numbers_refuted",
    "C88_read_buffer"
   ],
   "note": "On the region model of C01-C07; strtod and the bytes of a double are oracles. Settled negatively for lines as long as the free space, for growth out of a chunk that holds nothing else, and for over-full chunks; positive when the line fits or the chunk is partly used."
  },
  {
   "property": "C89",
   "status": "proved",
   "theorems": [
    "C89_vector",
    "C89_short_line_refuted",
    "C89_getvector",
    "C89_matrix_fix",
    "C89_matrix_fix_eof_refuted",
    "C89_matrix_heap",
    "C89_matrix_heap_bad_line",
    "C89_heap_overflow_refuted",
    "C89_heap_kept_refuted",
    "C89_no_columns_refuted",
    "C89_print",
    "C89_vector_back",
    "C89_matrix_back",
    "C89_columns_back"
   ],
   "note": "Numbers are reals, strtod and printf's %f are oracles; lines fit into the free space. Settled negatively for short lines, missing rows, short arrays of the caller, memory of skipped lines and no columns; the rest positive."
  },
  {
   "property": "C90",
   "status": "proved",
   "theorems": [
    "C90_glpk_gm",
    "C90_glpk_crs",
    "C90_glpk_history",
    "C90_clp_gm",
    "C90_clp_crs",
    "C90_clp_history",
    "C90_lpsolve_gm",
    "C90_lpsolve_crs",
    "C90_lpsolve_history",
    "C90_lpsolve_fixed_refuted",
    "C90_lpsolve_lost_refuted",
    "C90_lpsolve_stale_refuted"
   ],
   "note": "The solver libraries' problem objects are records after their documentation. GLPK and CLP positive for all bounds in range; settled negatively for lp_solve with equalities (assert), free rows (a row is lost) and dropped bounds (they stay)."
  },
  {
   "property": "C91",
   "status": "proved",
   "theorems": [
    "C91_glpk",
    "C91_glpk_crs",
    "C91_glpk_history",
    "C91_clp",
    "C91_clp_crs",
    "C91_clp_history",
    "C91_lpsolve",
    "C91_lpsolve_crs",
    "C91_glpk_zero_refuted",
    "C91_agree",
    "C91_choice"
   ],
   "note": "The libraries' documented promises are hypotheses, shown satisfiable. CLP and lp_solve positive; GLPK positive when an optimum exists, settled negatively for infeasible programs: so the default solver does not meet the soundness hypothesis of C84 there."
  },
  {
   "property": "C92",
   "status": "proved",
   "theorems": [
    "C92_program",
    "C92_exact_refuted",
    "C92_diagonal_refuted",
    "C92_answer_refuted",
    "C92_solve",
    "C92_geq"
   ],
   "note": "CGAL's exact solver is a hypothesis, shown satisfiable. Constraints and linear part positive; settled negatively for the quadratic part, with the exact condition under which it is right."
  },
  {
   "property": "C93",
   "status": "proved",
   "theorems": [
    "C93_objects",
    "C93_scaled_cylinder_refuted",
    "C93_unsupported_refuted"
   ],
   "note": "FCL's shapes as point sets after its documentation; drawn shapes after amino_gl.c. Positive for meshes, boxes, spheres and unscaled cylinders; settled negatively for every scaled cylinder and for cones, grids and tori."
  },
  {
   "property": "C94",
   "status": "proved",
   "theorems": [
    "C94_check",
    "C94_exact",
    "C94_get_collision",
    "C94_allow_config"
   ],
   "note": "FCL's narrow phase is a symmetric (or exact) predicate and its broad phase any list of pairs with all pairs in contact: hypotheses, shown satisfiable."
  },
  {
   "property": "C95",
   "status": "proved",
   "theorems": [
    "C95_distances",
    "C95_symmetric",
    "C95_min_dist"
   ],
   "note": "FCL's distance and contacts are arbitrary functions, the traversal any list of pairs with every pair. The points of a pair with distance DBL_MAX are not claimed (they are those of an earlier check)."
  },
  {
   "property": "C96",
   "status": "proved",
   "theorems": [
    "C96_path",
    "C96_goal",
    "C96_start",
    "C96_start_refuted",
    "C96_track",
    "C96_codes",
    "C96_fixed_refuted",
    "C96_restart_refuted",
    "C96_replan_refuted",
    "C96_frames_refuted",
    "C96_dangling_refuted",
    "C96_unset_refuted"
   ],
   "note": "OMPL is a parameter: one call of solve is an arbitrary outcome, assumed to keep OMPL's contract (MpSpec.honest), which is shown satisfiable. C96_path covers histories with one start given before the first plan and no configuration allowed after it; the other histories are settled negatively by the _refuted theorems."
  },
  {
   "property": "C97",
   "status": "proved",
   "theorems": [
    "C97_validity",
    "C97_distance_refuted"
   ],
   "note": "One step is one access to shared memory; the region stays on the fast path of its allocator. Settled negatively for threads that ask for distances to a workspace goal."
  },
  {
   "property": "C98",
   "status": "proved",
   "theorems": [
    "C98_rotations",
    "C98_axis_angle_components",
    "C98_axis_angle_conversions",
    "C98_axis_array_refuted",
    "C98_transforms",
    "C98_quattran_of_matrix_refuted",
    "C98_dualquat_refuted",
    "C98_products",
    "C98_layout"
   ],
   "note": "Rotation vectors are covered at zero and from length 2^-12 on, axis-angles of matrices at angle 0 and from 2^-13 to pi (the series branches in between are C23 and C24). DualQuat, QuatTran of a matrix and axis arrays are settled negatively by the _refuted theorems."
  },
  {
   "property": "C99",
   "status": "proved",
   "theorems": [
    "C99_rotations",
    "C99_angles",
    "C99_transforms",
    "C99_products",
    "C99_zero_angle_refuted",
    "C99_default_cmplx"
   ],
   "note": "AngleP() is settled negatively by C99_zero_angle_refuted."
  },
  {
   "property": "C100",
   "status": "proved",
   "theorems": [
    "C100_box",
    "C100_box_normals",
    "C100_grid"
   ],
   "note": "Reals for floats. Grids need positive spacings and line counts below 2^64."
  },
  {
   "property": "C101",
   "status": "proved",
   "theorems": [
    "C101_well_formed",
    "C101_cylinder_is_cone",
    "C101_inside",
    "C101_closed",
    "C101_cylinder_normals",
    "C101_cone_normals_refuted"
   ],
   "note": "Reals for floats. The normals of cones are settled negatively by C101_cone_normals_refuted."
  },
  {
   "property": "C102",
   "status": "proved",
   "theorems": [
    "C102_sphere",
    "C102_refinement"
   ],
   "note": "Reals for floats; the radius is positive."
  },
  {
   "property": "C103",
   "status": "proved",
   "theorems": [
    "C103_torus",
    "C103_ends_refuted"
   ],
   "note": "Reals for floats; 0 <= angle <= 2 pi and 0 <= minor <= major. Open ends are settled negatively by C103_ends_refuted, for major <= 10 minor."
  },
  {
   "property": "C104",
   "status": "proved",
   "theorems": [
    "C104_called_once",
    "C104_one_caller_results",
    "C104_one_caller_returns",
    "C104_window_thread",
    "C104_two_callers_refuted",
    "C104_display_refuted",
    "C104_create_refuted",
    "C104_created_elsewhere_refuted",
    "C104_two_windows_refuted"
   ],
   "note": "Returning needs schedules without spurious wake-ups in which both threads keep getting turns. Several callers, displayed windows, creation through a call or by another thread, and concurrent creation are settled negatively by the _refuted theorems."
  },
  {
   "property": "C105",
   "status": "proved",
   "theorems": [
    "C105_options_read_back",
    "C105_specular_exchanged",
    "C105_specular_refuted"
   ],
   "note": "Green and blue of the specular colour are settled negatively; argument names are those of the header."
  },
  {
   "property": "C106",
   "status": "proved",
   "theorems": [
    "C106_lifetimes",
    "C106_nothing_left",
    "C106_copy_onto_itself_refuted"
   ],
   "note": "Simulation between the heap with reference counts and a record of who refers to what. Calls of one thread; octrees and limits of joints are not in this model."
  },
  {
   "property": "C107",
   "status": "proved",
   "theorems": [
    "C107_collision_pass",
    "C107_gl_pass",
    "C107_cone_refuted"
   ],
   "note": "Creation of the collision and GL objects themselves is C93 and C100-C103."
  },
  {
   "property": "C108",
   "status": "proved",
   "theorems": [
    "C108_arrays",
    "C108_released",
    "C108_texture_leak_refuted",
    "C108_own_copy_refuted",
    "C108_bright_refuted"
   ],
   "note": "Release of the replaced texture coordinates is settled negatively; the strongest positive statement counts the leaked copies."
  },
  {
   "property": "C109",
   "status": "proved",
   "theorems": [
    "C109_shows",
    "C109_timeline",
    "C109_timeline_unique",
    "C109_empty_first_refuted"
   ],
   "note": "Sequences with an empty first plan are settled negatively."
  },
  {
   "property": "C110",
   "status": "proved",
   "theorems": [
    "C109_shows",
    "C110_resources",
    "C110_config_leak_refuted",
    "C110_elements_leak_refuted",
    "C110_short_config_refuted",
    "C110_workspace_control_refuted"
   ],
   "note": "What is shown is part of C109_shows; leaks are counted exactly and refute complete release."
  },
  {
   "property": "C111",
   "status": "proved",
   "theorems": [
    "C111_modulo",
    "C111_norm_2pi",
    "C111_norm_pi",
    "C111_norm_pi_open_refuted",
    "C111_delta",
    "C111_degrees"
   ],
   "note": "The documented open interval and uniqueness at half a turn are refuted."
  },
  {
   "property": "C112",
   "status": "proved",
   "theorems": [
    "C112_circ_mean",
    "C112_circ_mean_turn",
    "C112_circ_std",
    "C112_circ_std_refuted",
    "C112_mean_std",
    "C112_z_score"
   ],
   "note": "aa_stat_circ_std as the circular standard deviation is refuted; the exact factor is proved."
  },
  {
   "property": "C113",
   "status": "proved",
   "theorems": [
    "C113_excluded",
    "C113_spread",
    "C113_no_outliers",
    "C113_deviation_refuted",
    "C113_excluded_circ",
    "C113_abort_refuted"
   ],
   "note": "That the stored deviation belongs to the kept samples is refuted, as is that a result is always returned."
  },
  {
   "property": "C114",
   "status": "proved",
   "theorems": [
    "C114_clamp",
    "C114_deadzone",
    "C114_sign",
    "C114_valid_f",
    "C114_valid_v"
   ],
   "note": "NaN arguments are outside the model."
  },
  {
   "property": "C115",
   "status": "proved",
   "theorems": [
    "C115_solves",
    "C115_complete",
    "C115_unreachable",
    "C115_axis_refuted"
   ],
   "note": "Points on the x axis are settled negatively."
  },
  {
   "property": "C116",
   "status": "proved",
   "theorems": [
    "C116_hsv",
    "C116_injective",
    "C116_symmetry"
   ],
   "note": "Negative colours, outside the documented range, are not claimed."
  },
  {
   "property": "C117",
   "status": "proved",
   "theorems": [
    "C117_solution",
    "C117_weights",
    "C117_real_eigenvalues",
    "C117_reports_success_refuted",
    "C117_square_refuted"
   ],
   "note": "dgees and dgels are parameters with a stated contract; that 0 means success is refuted."
  },
  {
   "property": "C118",
   "status": "proved",
   "theorems": [
    "C118_masked",
    "C118_defined_iff",
    "C118_any_frames_refuted"
   ],
   "note": "The wish that any frames may be masked is refuted; the exact condition is proved."
  },
  {
   "property": "C119",
   "status": "proved",
   "theorems": [
    "C119_visible",
    "C119_nearer",
    "C119_drawn"
   ],
   "note": "GLfloat is taken as a real number."
  },
  {
   "property": "C120",
   "status": "proved",
   "theorems": [
    "C120_moves",
    "C120_level",
    "C120_orbit",
    "C120_drag",
    "C120_redraw",
    "C120_resize_refuted"
   ],
   "note": "The wish that every change of the picture requests a redraw is refuted by a resize."
  },
  {
   "property": "C121",
   "status": "proved",
   "theorems": [
    "C121_handler",
    "C121_close",
    "C121_rebind_refuted",
    "C121_keydown_refuted"
   ],
   "note": "The wishes that later bindings replace earlier ones and that key presses can be bound as a type are refuted."
  },
  {
   "property": "C122",
   "status": "proved",
   "theorems": [
    "C122_times",
    "C122_redraw",
    "C122_quit",
    "C122_pace",
    "C122_event_refuted"
   ],
   "note": "The wish that the display function can read the event is refuted. Built without spacenav."
  },
  {
   "property": "C123",
   "status": "proved",
   "theorems": [
    "C123_once",
    "C123_none_lost",
    "C123_no_deadlock",
    "C123_twice_refuted"
   ],
   "note": "The mutex is a blocking flag; memory is sequentially consistent."
  },
  {
   "property": "C124",
   "status": "proved",
   "theorems": [
    "C124_mean_rotation",
    "C124_maxloc",
    "C124_eev_inside",
    "C124_eev_refuted"
   ],
   "note": "doubles are reals; LAPACK's geev is an oracle: unit eigenvectors that span, for symmetric matrices. C124_eev_refuted: the caller's leading dimension is used for the packed copy."
  },
  {
   "property": "C125",
   "status": "proved",
   "theorems": [
    "C125_median",
    "C125_mad",
    "C125_mad2",
    "C125_relx_mean",
    "C125_relx_median",
    "C125_float_refuted"
   ],
   "note": "doubles are reals; sorting is the modelled heap sort. C125_float_refuted: the comparison used for float arrays reads doubles."
  },
  {
   "property": "C126",
   "status": "proved",
   "theorems": [
    "C126_plane",
    "C126_origin_refuted"
   ],
   "note": "doubles are reals; the least squares solver is an oracle giving the minimum norm minimiser."
  },
  {
   "property": "C127",
   "status": "proved",
   "theorems": [
    "C127_normalize",
    "C127_normalize_fixed",
    "C127_zero_axis_refuted",
    "C127_permute2",
    "C127_near_same",
    "C127_near_best",
    "C127_quat_near",
    "C127_near_far_refuted",
    "C127_near_zero_refuted"
   ],
   "note": "doubles are reals. The refuted theorems: zero axis gives 0/0; with the zero vector or a goal beyond three turns the nearest vector is missed."
  },
  {
   "property": "C128",
   "status": "proved",
   "theorems": [
    "C128_accepts",
    "C128_sound",
    "C128_cross_matrices"
   ],
   "note": "doubles are reals; the LAPACK inverse is an oracle that inverts matrices of nonzero determinant."
  },
  {
   "property": "C129",
   "status": "proved",
   "theorems": [
    "C129_rk4_error",
    "C129_rk4_length",
    "C129_rk1_length",
    "C129_unit_refuted"
   ],
   "note": "doubles are reals; constant velocity, as the functions take it."
  },
  {
   "property": "C130",
   "status": "proved",
   "theorems": [
    "C130_text",
    "C130_endless",
    "C130_endless_refuted",
    "C130_failure_refuted"
   ],
   "note": "vsnprintf is represented by the text it formats. C130_endless_refuted: with 2^31+16 octets free, printing one character loops for ever. C130_failure_refuted: -1 from vsnprintf becomes an empty allocation."
  },
  {
   "property": "C131",
   "status": "proved",
   "theorems": [
    "C131_blocks",
    "C131_progress",
    "C131_isolation",
    "C131_exit"
   ],
   "note": "calls are atomic (each touches only its own region; malloc is thread safe); the key exists."
  },
  {
   "property": "C132",
   "status": "proved",
   "theorems": [
    "C132_jacobian",
    "C132_velocity",
    "C132_tangent"
   ],
   "note": "the two matrix products are sums over the reals; the temporaries' memory is not part of this model."
  },
  {
   "property": "C133",
   "status": "proved",
   "theorems": [
    "C133_arc",
    "C133_same_as_slerp",
    "C133_derivative"
   ],
   "note": "inside the small-angle series the functions are polynomial approximations and not covered here."
  },
  {
   "property": "C134",
   "status": "proved",
   "theorems": [
    "C134_sum_of_squares_refuted",
    "C134_distance"
   ],
   "note": "C134_sum_of_squares_refuted: (2,0,0,0) and 0 give 2, the sum of squares is 4."
  },
  {
   "property": "C135",
   "status": "proved",
   "theorems": [
    "C135_safe",
    "C135_values",
    "C135_destroy",
    "C135_leak_refuted",
    "C135_null_motion",
    "C135_null_unused",
    "C135_reference_alone_refuted",
    "C135_svd_default_refuted"
   ],
   "note": "malloc succeeds. C135_leak_refuted: aa_rx_ik_parm_destroy does not free the seed. C135_reference_alone_refuted: take_config without take_gain_config. C135_svd_default_refuted: the tolerances for the singular value step are computed from fields not yet set."
  },
  {
   "property": "C136",
   "status": "proved",
   "theorems": [
    "C136_safe",
    "C136_ledger",
    "C136_held_mesh_readable",
    "C136_shown_mesh_readable",
    "C136_readable_while_owner_lives",
    "C136_all_gone",
    "C136_plain_closed",
    "C136_copy_readable_refuted",
    "C136_closed_refuted",
    "C136_second_load_loses_first"
   ],
   "note": "C136_copy_readable_refuted: aa_rx_sg_copy shares the geometry and has no destructor, so destroying the original unmaps the arrays of the copy. C136_closed_refuted: aa_rx_sg_set_destructor overwrites the handle of an earlier plugin. Sharing a geometry is one mesh reference in the model."
  },
  {
   "property": "C137",
   "status": "proved",
   "theorems": [
    "C137_domain",
    "C137_radius",
    "C137_injective",
    "C137_onto",
    "C137_density",
    "C137_frand_range",
    "C137_frand_nonzero",
    "C137_frand_refuted",
    "C137_scores"
   ],
   "note": "Exact reals. The step from bijection and Jacobian to the distribution (change of variables in an integral) is not formalised. C137_frand_refuted: aa_frand can return zero although the documented interval is (0,1]."
  }
 ]
}