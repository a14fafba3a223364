{
 "claims": [
  {
   "property": "C01",
   "status": "proved",
   "theorems": [
    "C01_split_partition",
    "C01_split_no_group"
   ],
   "note": ""
  },
  {
   "property": "C02",
   "status": "proved",
   "theorems": [
    "C02_distribute_agree",
    "C02_distribute_combine",
    "C02_combine_shape_iff",
    "C02_combine_shape_error",
    "C02_distribute_scalar",
    "C02_distribute_gather"
   ],
   "note": ""
  },
  {
   "property": "C03",
   "status": "proved",
   "theorems": [
    "C03_pool_invariant",
    "C03_no_sharing"
   ],
   "note": ""
  },
  {
   "property": "C04",
   "status": "proved",
   "theorems": [
    "C04_extract_meets_request",
    "C04_compatible_facts"
   ],
   "note": ""
  },
  {
   "property": "C05",
   "status": "proved",
   "theorems": [
    "C05_empty_aligned"
   ],
   "note": ""
  },
  {
   "property": "C06",
   "status": "partial",
   "theorems": [
    "C06_contexts_restore_pool",
    "C06_contexts_keep_invariant",
    "C06_set_restores_exactly",
    "C06_copy_if_contents",
    "C06_copy_if_requirements_partial",
    "C06_set_exception_refuted",
    "C06_get_exception_refuted",
    "C06_copy_if_requirements_refuted"
   ],
   "note": "Normal exits proved for every nesting. The 'also if the body raises' half is false of the code (no try/finally in memory.py): refuted with witnesses. copy_if does not forward the alignment/contiguity requirement: refuted, and proved when every pool entry is compliant."
  },
  {
   "property": "C07",
   "status": "partial",
   "theorems": [
    "C07_flags_sound_partial",
    "C07_real_flags_sound",
    "C07_declared_kept",
    "C07_rules_sound",
    "C07_rules_sound_real",
    "C07_composition_flags_sound",
    "C07_addition_flags_sound_partial",
    "C07_block_diagonal_flags_sound",
    "C07_square_sound_partial",
    "C07_composition_linear",
    "C07_addition_linear",
    "C07_block_diagonal_linear",
    "C07_composition_square",
    "C07_addition_square",
    "C07_idempotent_refuted",
    "C07_square_refuted",
    "C07_unitary_refuted",
    "C07_addition_hermitian_refuted"
   ],
   "note": "Every deduced flag except idempotent is proved true of the matrix; idempotent (deduced from orthogonal and symmetric) is false of the code, so A * A may return A: refuted with a witness. Sums of complex symmetric operators are wrongly marked hermitian: refuted."
  },
  {
   "property": "C08",
   "status": "partial",
   "theorems": [
    "C08_path_denotation",
    "C08_same_object_partial",
    "C08_involution_partial",
    "C08_same_object_refuted",
    "C08_transpose_available_partial",
    "C08_inverse_available_partial",
    "C08_adjoint_refuted",
    "C08_inverse_refuted"
   ],
   "note": "The denotation of every chain of C, T, H, I is proved for all true flags. Identity of objects is proved for all flags but complex hermitian, complex orthogonal+unitary, and real involutary+idempotent non symmetric, where it is refuted. A real operator with only an adjoint method has no transpose, an orthogonal one with only an inverse method has no inverse: refuted."
  },
  {
   "property": "C09",
   "status": "proved",
   "theorems": [
    "C09_history",
    "C09_set_rule",
    "C09_set_rules",
    "C09_del_rule",
    "C09_pair"
   ],
   "note": "Every history of set_rule/del_rule over an arbitrary class hierarchy; the order of the rules tried for a pair in a composition is proved from the sort key."
  },
  {
   "property": "C10",
   "status": "partial",
   "theorems": [
    "C10_core",
    "C10_core_ends",
    "C10_zero_block_refuted",
    "C10_block_const_refuted",
    "C10_same_code_refuted",
    "C10_allclose_refuted",
    "C10_zero_absorbed_refuted",
    "C10_engine",
    "C10_engine_terminates",
    "C10_engine_merging",
    "C10_engine_exhausts",
    "C10_engine_terminates_refuted"
   ],
   "note": "The loops for arbitrary operators and sound rules (C10_engine*), and the construction of products of the core operators (diagonal, homothety, mask, zero, constant, power, block diagonal, block column, block row, sums and products of them, and arbitrary other operators) with the rules of the library: C10_core; every such construction ends, with the code's rules or the fixed ones: C10_core_ends. C10_core has block operators only with the rules fixed: the code's rules change the sizes that zero and constant operators accept (C10_zero_block_refuted, C10_block_const_refuted). Other findings: operators with the same code compare equal (C10_same_code_refuted), numbers are compared by allclose (C10_allclose_refuted), a non-square zero operator is absorbed by a rule for homotheties (C10_zero_absorbed_refuted), rules returning tuples may not terminate (C10_engine_terminates_refuted). Missing: FFT and MPI rules, multi-dimensional shapes and data types."
  },
  {
   "property": "C11",
   "status": "partial",
   "theorems": [
    "C11_core_mul",
    "C11_core_add_partial",
    "C11_core_ends",
    "C11_row_product_refuted",
    "C11_diag_column_refuted",
    "C11_separable_column_refuted",
    "C11_mask_sum_refuted",
    "C11_engine",
    "C11_engine_order",
    "C11_engine_terminates"
   ],
   "note": "The loop for arbitrary operands and sound rules (C11_engine*), and the sums and element-wise products of the core and block operators with the rules of the library (C11_core_mul, C11_core_add_partial; all of them end: C11_core_ends). C11_core_add_partial supposes that masks are added as numbers; the code adds booleans (C11_mask_sum_refuted). Block operators only with the rules fixed: see C11_row_product_refuted, C11_diag_column_refuted, C11_separable_column_refuted. Missing: multi-dimensional shapes and data types."
  },
  {
   "property": "C12",
   "status": "partial",
   "theorems": [
    "C12_core",
    "C12_row_linear_refuted",
    "C12_scalars",
    "C12_block_slice_refuted"
   ],
   "note": "The stage that moves scalars, for arbitrary operators (C12_scalars) and for the core and block operators (C12_core). Numbers form a commutative ring, complex numbers included as an instance; the data types are not modelled. The rule of BlockSliceOperator is not sound (C12_block_slice_refuted), and block rows are flagged linear even if their blocks are not (C12_row_linear_refuted)."
  },
  {
   "property": "C13",
   "status": "partial",
   "theorems": [
    "C13_product",
    "C13_product_no_exception",
    "C13_product_update",
    "C13_product_inplace_partial",
    "C13_product_nested_partial",
    "C13_call",
    "C13_call_update_partial",
    "C13_call_no_update",
    "C13_inplace_call_refuted",
    "C13_call_converted_input_refuted",
    "C13_nested_operand_refuted",
    "C13_update_lent_refuted",
    "C13_update_inplace_refuted",
    "C13_inplace_sizes_refuted",
    "C13_call_update_refuted"
   ],
   "note": "Buffer schedule of products (CompositionOperator.direct with _get_info/_get_requirements/_get_bufsizes) and of calls, over a memory with a pool. Proved for operators that do not use the pool, any in-place/size/requirement mix, with and without reduction, including absence of exceptions; in-place calls and nested pool-using operands under conditions. Findings: in-place call with one out-of-place operand, converted input, nested operand taking its input as temporary, lent output with a reduction, ignored reduction, ValueError for larger in-place intermediates, reduction into a temporary."
  },
  {
   "property": "C14",
   "status": "proved",
   "theorems": [
    "C14_sum",
    "C14_sum_no_exception"
   ],
   "note": "CommutativeCompositeOperator.direct for any operands (nested operands using the pool included), any combination of update_output; no exception for reliable operands and contiguous pool."
  },
  {
   "property": "C15",
   "status": "proved",
   "theorems": [
    "C15_block",
    "C15_constructor",
    "C15_constructor_exact",
    "C15_arguments",
    "C15_call",
    "C15_product_accepts",
    "C15_product_shapes",
    "C15_one_at_a_time",
    "C15_product_rejects",
    "C15_product_exact",
    "C15_derived",
    "C15_derived_refuted",
    "C15_intermediate_refuted",
    "C15_free_refuted",
    "C15_sum_accepts",
    "C15_sum_rejects",
    "C15_sum_refuted"
   ],
   "note": "Products: accepted when compatible, the derived shapes are right, rejected otherwise (operators whose reshape methods are converse on all shapes), same result as one operand at a time. Sums: compatible operands accepted, different explicit shapes rejected. Blocks: reshapein. Refuted: validation of intermediate shapes, free innermost operand, sums of implicit operands, derived shapes with a free operand in between."
  },
  {
   "property": "C16",
   "status": "proved",
   "theorems": [
    "C16_tile",
    "C16_pieces",
    "C16_fill",
    "C16_determined",
    "C16_inferred",
    "C16_inferred_refuted"
   ],
   "note": "tiling, reading/filling pieces, inference of sizes (wrong when the size depends on other dimensions: refuted)"
  },
  {
   "property": "C17",
   "status": "partial",
   "theorems": [
    "C17_direct",
    "C17_diagonal",
    "C17_column",
    "C17_row",
    "C17_inplace_partial",
    "C17_single_partial",
    "C17_inplace_sizes_refuted",
    "C17_inplace_axes_refuted",
    "C17_unknown_refuted",
    "C17_oversized_refuted",
    "C17_single_refuted"
   ],
   "note": "direct of block diagonal/column/row; in place only for equal axes and partitions (otherwise refuted); unknown column partitions, oversized inputs and single blocks with a new axis refuted"
  },
  {
   "property": "C18",
   "status": "proved",
   "theorems": [
    "C18_transpose",
    "C18_conjugate",
    "C18_inverse",
    "C18_symmetric_refuted",
    "C18_conjugate_operation_refuted",
    "C18_row_linear_refuted"
   ],
   "note": "transpose, conjugate, inverse; false for symmetric blocks with different axes, rows with another operation, nonlinear rows (refuted)"
  },
  {
   "property": "C19",
   "status": "partial",
   "theorems": [
    "C19_product",
    "C19_row_column",
    "C19_same_partition",
    "C19_merge_requires",
    "C19_left_partial",
    "C19_right_partial",
    "C19_sum_partial",
    "C19_sum_separable_partial",
    "C19_row_times_row_refuted",
    "C19_times_nonlinear_refuted",
    "C19_operation_lost_refuted",
    "C19_separable_refuted",
    "C19_threshold_refuted",
    "C19_sum_separable_refuted"
   ],
   "note": "products, row x column, separable operators that act piecewise, sums; counterexamples for the other cases"
  },
  {
   "property": "C20",
   "status": "proved",
   "theorems": [
    "C20_inspect",
    "C20_diagonal",
    "C20_mask",
    "C20_homothety",
    "C20_homothety_array",
    "C20_constant",
    "C20_constant_empty_refuted",
    "C20_kind",
    "C20_rejects",
    "C20_unfit_refuted",
    "C20_involutary",
    "C20_idempotent",
    "C20_inverse"
   ],
   "note": "Findings: operators made from equal coefficients forget the shape of the data (C20_unfit_refuted); a ConstantOperator without elements raises IndexError (C20_constant_empty_refuted)."
  },
  {
   "property": "C21",
   "status": "partial",
   "theorems": [
    "C21_compose",
    "C21_sum",
    "C21_sum_masks_refuted",
    "C21_scalar_refuted",
    "C21_multiply_partial",
    "C21_multiply_refuted",
    "C21_constants",
    "C21_diagonal_constant",
    "C21_constant_operator",
    "C21_as_strided_partial",
    "C21_as_strided_refuted"
   ],
   "note": "Compositions, sums (not of two masks), constants and diagonal-by-constant products are proved. C21_multiply_partial excludes one 'disabled' and one 'rightward' operand, where the claim is false (C21_multiply_refuted); C21_as_strided_partial needs C-contiguous data (C21_as_strided_refuted); sums of masks are logical ors (C21_sum_masks_refuted); 'scalar' data with dimensions (C21_scalar_refuted)."
  },
  {
   "property": "C22",
   "status": "partial",
   "theorems": [
    "C22_pack_keeps",
    "C22_unpack_places",
    "C22_adjoint",
    "C22_pack_unpack",
    "C22_unpack_pack",
    "C22_mask",
    "C22_rule_T_refuted",
    "C22_rightward",
    "C22_shapes",
    "C22_all_true_shape_refuted"
   ],
   "note": "Everything stated is proved for every mask; but the rule replacing P.T * P by the identity is false of the code (refuted: it is a masking), and the packing operator of an all-True multi-dimensional mask keeps the shape of the mask instead of being one-dimensional (refuted)."
  },
  {
   "property": "C23",
   "status": "proved",
   "theorems": [
    "C23_to1d_tond",
    "C23_tond_to1d",
    "C23_numbering",
    "C23_loops"
   ],
   "note": "All shapes of any dimension but one, both orders."
  },
  {
   "property": "C24",
   "status": "partial",
   "theorems": [
    "C24_tridiagonal",
    "C24_tridiagonal_sizes",
    "C24_tridiagonal_transpose",
    "C24_tridiagonal_conjugate",
    "C24_tridiagonal_adjoint",
    "C24_transpose_method_refuted",
    "C24_tridiagonal_symmetric",
    "C24_tridiagonal_hermitian",
    "C24_todense_partial",
    "C24_todense_refuted",
    "C24_toband",
    "C24_band_partial",
    "C24_upper_triangular",
    "C24_band_refuted",
    "C24_lower_triangular_refuted",
    "C24_band_transpose_refuted",
    "C24_rab",
    "C24_symmetric_band",
    "C24_symmetric_band_upper_refuted"
   ],
   "note": "Tridiagonal operators: product, sizes, transpose/conjugate/adjoint, flags, toband; band operators with one superdiagonal or no subdiagonal; symmetric bands in lower storage. Refuted: band operators with other numbers of superdiagonals, every lower triangular operator with a subdiagonal, every transpose of a band operator, upper storage of symmetric bands, todense with scalar off-diagonals, the in-place transpose method."
  },
  {
   "property": "C25",
   "status": "partial",
   "theorems": [
    "C25_toeplitz",
    "C25_make",
    "C25_fftsize",
    "C25_complex",
    "C25_rows_refuted",
    "C25_copy_refuted",
    "C25_empty_refuted"
   ],
   "note": "Proved for every positive number of samples and every bandwidth, with one first row or one per row of the input, for any ring with roots of unity (C25_complex: for the complex numbers, with the axioms of the real numbers). Refuted: other numbers of first rows leave rows of the output uncomputed; an output that reshape has to copy is lost; with no sample the constructor may raise."
  },
  {
   "property": "C26",
   "status": "proved",
   "theorems": [
    "C26_conventions",
    "C26_intrinsic",
    "C26_extrinsic",
    "C26_orthogonal",
    "C26_rotation2d",
    "C26_real",
    "C26_case"
   ],
   "note": "Matrices over any commutative ring, the cosines and sines of the angles being given by an oracle (C26_real: the real ones). Angles are taken element by element; degrees and dtypes are left out; DenseBlockDiagonalOperator applies the matrix (C34)."
  },
  {
   "property": "C27",
   "status": "partial",
   "theorems": [
    "C27_in_place",
    "C27_out_of_place",
    "C27_hard",
    "C27_soft",
    "C27_proximal",
    "C27_nonexpansive",
    "C27_make",
    "C27_replaced",
    "C27_product",
    "C27_hard_idempotent",
    "C27_masking",
    "C27_masking_complex",
    "C27_multiply_conjugate",
    "C27_abs2",
    "C27_abs2_real",
    "C27_maximum",
    "C27_minimum",
    "C27_clip",
    "C27_clip_empty",
    "C27_round",
    "C27_methods",
    "C27_methods_refuted",
    "C27_names_refuted",
    "C27_double_rhtmi_refuted",
    "C27_double_rhtpi_refuted",
    "C27_masking_start_refuted"
   ],
   "note": "The loops of ufuncs.c.src on a memory with arbitrary strides, the operators on rational numbers (no infinity, NaN or rounding). _refuted: RoundOperator methods rhti and rhto are documented but missing, names of the methods garbled, rounding half to minus or plus infinity changes doubles from 2^52, the masking loop compares only the first addresses."
  },
  {
   "property": "C28",
   "status": "proved",
   "theorems": [
    "C28_broadcast_spec",
    "C28_broadcast_raises",
    "C28_commutative",
    "C28_associative",
    "C28_associative_raises",
    "C28_reshape_elements",
    "C28_reshape_iff"
   ],
   "note": ""
  },
  {
   "property": "C29",
   "status": "proved",
   "theorems": [
    "C29_first",
    "C29_last",
    "C29_ifirst",
    "C29_ilast",
    "C29_ifirst_value",
    "C29_ifirst_is_not",
    "C29_first_is_not",
    "C29_last_is_not",
    "C29_merge_none",
    "C29_renumerate",
    "C29_product",
    "C29_zip_broadcast",
    "C29_inspect_special_values",
    "C29_inspect_bool"
   ],
   "note": ""
  },
  {
   "property": "C30",
   "status": "partial",
   "theorems": [
    "C30_restored_partial",
    "C30_inside",
    "C30_unknown",
    "C30_reentry_refuted"
   ],
   "note": "Restoration proved for every nesting, with exceptions, if no manager is entered again while it is active; re-entering the same manager (with rule_manager(..): with rule_manager(..): ..) loses the saved switches: refuted."
  },
  {
   "property": "C31",
   "status": "partial",
   "theorems": [
    "C31_calls",
    "C31_callback_calls",
    "C31_one_alive",
    "C31_shapes_partial",
    "C31_shapes_refuted",
    "C31_failure_refuted",
    "C31_shared_refuted"
   ],
   "note": "Calls, attribute accesses, liveness and the number of callback calls proved for every history with a callback that returns a new operator each time. The shape methods of a proxy use whichever operator is cached: refuted (proved to be those of the last index called). A callback that fails, or returns twice the same object, leads to the use of a deleted operator: refuted."
  },
  {
   "property": "C32",
   "status": "proved",
   "theorems": [
    "C32_history",
    "C32_initial_untouched",
    "C32_next_add",
    "C32_interrupted",
    "C32_restart",
    "C32_run_zero_refuted",
    "C32_cont_not_started_refuted"
   ],
   "note": "Every algorithm, buffer mode, initial buffers, stop conditions, pattern of interrupts and sequence of calls. In addition run(0) runs without bound and cont before the start raises (refuted)."
  },
  {
   "property": "C33",
   "status": "proved",
   "theorems": [
    "C33_residual",
    "C33_orthogonal",
    "C33_optimal",
    "C33_exact",
    "C33_terminates",
    "C33_success",
    "C33_failure",
    "C33_mpi",
    "C33_zero_tolerance_refuted",
    "C33_restart_refuted"
   ],
   "note": "exact arithmetic over any ordered field; floating-point rounding not modelled"
  },
  {
   "property": "C34",
   "status": "partial",
   "theorems": [
    "C34_sum",
    "C34_sum_all",
    "C34_sum_rejects",
    "C34_sum_adjoint_partial",
    "C34_sum_axis_refuted",
    "C34_difference",
    "C34_difference_adjoint",
    "C34_difference_complex_refuted",
    "C34_trapeze",
    "C34_trapeze_rejects",
    "C34_trapeze_integer_refuted",
    "C34_dense_axes",
    "C34_dense",
    "C34_dense_rejects",
    "C34_dense_adjoint",
    "C34_dense_product",
    "C34_dense_scaled_partial",
    "C34_dense_product_refuted",
    "C34_dense_product_extra_refuted",
    "C34_dense_scaled_refuted",
    "C34_rotation_scaled_refuted",
    "C34_dense_stretched_refuted"
   ],
   "note": "Sums, differences, trapezoidal integrations and dense operators (block diagonal, dense; both broadcasts) compute their definition for every shape and axis, and reject the rest; adjoints, products and scalar multiples of dense operators. Exact arithmetic. False of the code, with witnesses: the transpose of a sum along a negative axis other than -1, the transpose of a complex difference, integer abscissae, products mixing broadcasts, scalar multiples of rightward operators and of several rotations, the transpose for a broadcast input."
  },
  {
   "property": "C35",
   "status": "partial",
   "theorems": [
    "C35_columns",
    "C35_inplace",
    "C35_matrix",
    "C35_order",
    "C35_unknown",
    "C35_same",
    "C35_product",
    "C35_transpose",
    "C35_integer_refuted"
   ],
   "note": "Proved for every operator that fills its output, every pair of shapes and every content of the buffers: columns are the images of the unit vectors, in C order, in place or not, with the products and transposes of matrices. Refuted: an operator without dtype gets an integer matrix, its fractional values truncated. Not modelled: the conversions between dtypes other than the final cast."
  },
  {
   "property": "C36",
   "status": "proved",
   "theorems": [
    "C36_elapsed",
    "C36_reset_inside_refuted"
   ],
   "note": "Every well-nested sequence of enter, exit, reset and time steps. In addition: reset inside a context does not reset the time (refuted)."
  },
  {
   "property": "C37",
   "status": "partial",
   "theorems": [
    "C37_not_broken",
    "C37_nested_partial",
    "C37_handler_restored",
    "C37_interruptible_partial",
    "C37_lost_refuted",
    "C37_nested_refuted",
    "C37_interruptible_refuted",
    "C37_setting_inside",
    "C37_setting_partial",
    "C37_setting_refuted"
   ],
   "note": "Proved for every block without inner context managers, and for nested uninterruptible blocks with each re-raising at its own end. False of the code and refuted: an interrupt is lost if the block raises, a nested uninterruptible breaks the outer one, interruptible and setting do not restore after an exception."
  },
  {
   "property": "C38",
   "status": "partial",
   "theorems": [
    "C38_collectives",
    "C38_attributes",
    "C38_freed_keyval_refuted"
   ],
   "note": "Collectives for every operation; attribute caching for every history that frees a keyval only when unset. A freed keyval's number is reused and shows stale values: refuted."
  },
  {
   "property": "C39",
   "status": "partial",
   "theorems": [
    "C39_integer",
    "C39_sum",
    "C39_rejects",
    "C39_round",
    "C39_accepts",
    "C39_float_refuted",
    "C39_diagonal",
    "C39_diagonal_repeated",
    "C39_integers_refuted",
    "C39_shape_refuted",
    "C39_eigen_positive",
    "C39_eigen",
    "C39_truncated_refuted",
    "C39_power",
    "C39_power_nonlinear",
    "C39_power_compose",
    "C39_power_multiply",
    "C39_power_diagonal",
    "C39_star",
    "C39_power_inverse",
    "C39_laws_field",
    "C39_laws_real",
    "C39_close_refuted",
    "C39_root_refuted",
    "C39_star_refuted"
   ],
   "note": "Proved for all integer exponents, for diagonal operators with every broadcast, for eigendecompositions, and for the operator x**n over any numbers obeying the usual laws (nonzero elements of a field; positive real numbers, with the axioms of the real numbers). Missing: float exponents of diagonal operators, rounding. Refuted: floats equal to integers raise TypeError; powers below -1 of integer diagonals (the identity among them) raise ValueError; the explicit shape is lost; truncated eigendecompositions; exponents close to special ones are rounded; the root of a square becomes the identity; the product of powers and linear operators is not associative, since powers may be simplified into the linear identity."
  },
  {
   "property": "C40",
   "status": "partial",
   "theorems": [
    "C40_make",
    "C40_convolution",
    "C40_complex_convolution",
    "C40_correlation",
    "C40_transpose",
    "C40_homothety",
    "C40_sum",
    "C40_product",
    "C40_fourier",
    "C40_unitary",
    "C40_adjoint_partial",
    "C40_complex_numbers",
    "C40_adjoint_refuted",
    "C40_axes_refuted",
    "C40_homothety_refuted",
    "C40_copy_transpose_refuted"
   ],
   "note": "Proved for every number of dimensions, kernel and shape, over any ring with roots of unity (C40_complex_numbers: the complex numbers have them, with the axioms of the real numbers). Refuted: the so-called adjoint of the Fourier operator is the adjoint only up to the number of elements; transforms along some axes are normalised by the wrong number; products by a number which is not real are wrong; the transpose of a copy of the transpose is wrong."
  },
  {
   "property": "C41",
   "status": "proved",
   "theorems": [
    "C41_relation",
    "C41_orthonormal",
    "C41_succeeds",
    "C41_result",
    "C41_steps",
    "C41_krylov",
    "C41_exact",
    "C41_breakdown_refuted",
    "C41_input_refuted",
    "C41_none_refuted",
    "C41_steps_refuted"
   ],
   "note": "Exact arithmetic over any ordered field (the example uses the real numbers and their axioms). In addition: a maximum number of iterations above the dimension, such as the default one, always fails; the starting vector is overwritten; maxiter=None is refused; stopping with run(n) before maxiter does not give the n-step approximation (refuted)."
  },
  {
   "property": "C42",
   "status": "partial",
   "theorems": [
    "C42_history",
    "C42_scale",
    "C42_add",
    "C42_add_zero",
    "C42_penalised",
    "C42_penalised_succeeds",
    "C42_norm2",
    "C42_norm2_covariance",
    "C42_huber",
    "C42_huber_default",
    "C42_huber_tangent",
    "C42_normp",
    "C42_norm_mul",
    "C42_gradient",
    "C42_optimal",
    "C42_quadratic_norms",
    "C42_backtracking",
    "C42_stale_refuted",
    "C42_stuck_refuted",
    "C42_broadcast_refuted",
    "C42_empty_refuted",
    "C42_data_refuted",
    "C42_attribute_refuted",
    "C42_nested_refuted",
    "C42_negative_refuted",
    "C42_full_refuted",
    "C42_integers_refuted",
    "C42_norm1_refuted"
   ],
   "note": "Exact arithmetic over any ordered field, one-dimensional arrays. Proved for every history of evaluations at arrays of one positive size (changed in place or not), sums and multiples; gradients of every norm but p < 2; optimal step; backtracking from a positive value. False of the code, with witnesses: a failed evaluation spoils the cache, points are compared with broadcasting, empty arrays, multi-dimensional data, the parameter of a scaled norm, nested sums, backtracking from negative values and never at the full step, integers."
  },
  {
   "property": "C43",
   "status": "partial",
   "theorems": [
    "C43_attributes",
    "C43_run",
    "C43_maxiter",
    "C43_again",
    "C43_finite",
    "C43_decreases",
    "C43_orthogonal",
    "C43_directions",
    "C43_conjugate",
    "C43_optimal",
    "C43_exact",
    "C43_lost",
    "C43_ends",
    "C43_quadratic_criterion",
    "C43_least_squares",
    "C43_no_increase",
    "C43_huber_criterion",
    "C43_huber_norms",
    "C43_nan_refuted",
    "C43_tolerance_refuted",
    "C43_unconditional_refuted",
    "C43_guess_refuted",
    "C43_gtol_refuted",
    "C43_polak_ribiere_refuted",
    "C43_call_refuted",
    "C43_huber_increase_refuted"
   ],
   "note": "Proved: attributes after each iteration, exact solution after n iterations, orthogonality, conjugacy, optimality, decrease, run and stop conditions (any criterion, update and line search for the general theorems), Huber criteria never increase. Missing: floating-point rounding, callbacks, Polak-Ribiere update (it raises). Refuted: NaN at the exact minimum, x0 ignored, gtol, StopCondition(), __call__, hyperparameters of Huber norms."
  },
  {
   "property": "C44",
   "status": "partial",
   "theorems": [
    "C44_result",
    "C44_composition",
    "C44_out",
    "C44_merged",
    "C44_transpose",
    "C44_transpose_product",
    "C44_transpose_twice",
    "C44_sum",
    "C44_property",
    "C44_underscore",
    "C44_stale_refuted",
    "C44_class_refuted",
    "C44_property_refuted",
    "C44_symmetric_refuted",
    "C44_sum_refuted",
    "C44_merged_refuted",
    "C44_wrap_refuted",
    "C44_finalize_refuted"
   ],
   "note": "full for classes whose __array_finalize__ sets no attribute and which have no properties (C44_property for these); refuted: order of upper-case names, stale attributes of out, TypeError for out of another class, symmetric operators, sums, simplified products"
  },
  {
   "property": "C45",
   "status": "proved",
   "theorems": [
    "C45_schedule",
    "C45_identity",
    "C45_global",
    "C45_combine",
    "C45_mprint",
    "C45_filter",
    "C45_distributed",
    "C45_replicated",
    "C45_normal",
    "C45_filter_exception_refuted",
    "C45_contiguous_refuted"
   ],
   "note": "for all schedules; the collective operations are given by their results (serve); refuted: an exception in the body of filter_comm or a non-contiguous input in one process makes the others wait for ever"
  },
  {
   "property": "C46",
   "status": "partial",
   "theorems": [
    "C46_common",
    "C46_least",
    "C46_stepwise",
    "C46_exact",
    "C46_call",
    "C46_product",
    "C46_one_by_one",
    "C46_sum",
    "C46_functions",
    "C46_functions_error",
    "C46_ufunc",
    "C46_mixed_refuted",
    "C46_values_refuted",
    "C46_exact_refuted",
    "C46_diagonal_refuted",
    "C46_scalar_refuted",
    "C46_ufunc_refuted",
    "C46_half_refuted"
   ],
   "note": "Proved for every list of numeric types, operators and inputs, signed and unsigned integers not being mixed in the same product. Refuted: mixed integers (numpy's common types are not associative), overflowing integers, 64-bit integers converted to float64, diagonal operators whose dtype depends on their values, 2 * A and ufuncs in single precision, half precision"
  },
  {
   "property": "C47",
   "status": "partial",
   "theorems": [
    "C47_product",
    "C47_columns",
    "C47_format",
    "C47_construct",
    "C47_transpose",
    "C47_adjoint",
    "C47_one",
    "C47_scalar_refuted"
   ],
   "note": "the products by sparse matrices in all formats, transposes (those of bsr and dia by hypothesis), construction; the product by a number other than zero and one is refuted (endless recursion)"
  },
  {
   "property": "C48",
   "status": "partial",
   "theorems": [
    "C48_conventions",
    "C48_cartesian",
    "C48_spherical",
    "C48_shapes",
    "C48_degrees",
    "C48_inverse",
    "C48_rule",
    "C48_rule_refuted"
   ],
   "note": "Proved over the real numbers (with their axioms) for unit vectors and, for the angles, in their usual ranges outside the poles. The replacement of the product of the two conversions by the identity changes the angles that are out of their ranges or describe a pole: refuted."
  },
  {
   "property": "C49",
   "status": "partial",
   "theorems": [
    "C49_likelihood",
    "C49_gradient",
    "C49_gradient_iff",
    "C49_gradient_refuted",
    "C49_hessian",
    "C49_hessian_refuted",
    "C49_gamma",
    "C49_inverse_covariance",
    "C49_variances",
    "C49_variances_refuted",
    "C49_memory",
    "C49_memory_empty",
    "C49_tau",
    "C49_wrapper_refused",
    "C49_wrapper",
    "C49_first_guess_refuted",
    "C49_cobyla_refuted"
   ],
   "note": "The derivatives, the memory and the updates are proved on real numbers. The gradient of the code is that of the likelihood plus twice the penalization, its hessian half the derivative of its gradient, its variances come from the inverse covariance instead of the covariance, the first guess is ignored and FminCOBYLA returns None: refuted. The convergence of the loops is not modelled."
  },
  {
   "property": "C50",
   "status": "partial",
   "theorems": [
    "C50_sum_refused",
    "C50_product_refused",
    "C50_sum",
    "C50_product",
    "C50_unchanged",
    "C50_shared_refuted",
    "C50_overwritten_refuted",
    "C50_grouping_refuted",
    "C50_acquired_refuted",
    "C50_unknown_refuted"
   ],
   "note": "Refusals for all operators; consistency, attributes and frame for operators that are not shared. With shared operands the propagation changes the operands in place, so that other uses of them are refused or become inconsistent: refuted. Groupings, communicators obtained by propagation and unknown input communicators: refuted. Simplification rules left out."
  },
  {
   "property": "C51",
   "status": "partial",
   "theorems": [
    "C51_reflexive",
    "C51_similar",
    "C51_arrays",
    "C51_sequences",
    "C51_numbers",
    "C51_copy",
    "C51_exact",
    "C51_symmetric",
    "C51_transitive",
    "C51_cached",
    "C51_symmetric_refuted",
    "C51_transitive_refuted",
    "C51_small_refuted",
    "C51_shape_refuted",
    "C51_operator_refuted",
    "C51_nan_refuted",
    "C51_function_refuted"
   ],
   "note": "The comparison is characterised and copies are equal to the original. Symmetry, transitivity and the absence of exceptions hold without floating point numbers; with them they are refuted. Sets and nested sequences compared with arrays are not modelled."
  },
  {
   "property": "C52",
   "status": "partial",
   "theorems": [
    "C52_direct",
    "C52_adjoint",
    "C52_rule",
    "C52_constructor",
    "C52_2d",
    "C52_crop",
    "C52_2d_adjoint",
    "C52_adjoint_refuted",
    "C52_custom_refuted"
   ],
   "note": "Proved with the one-dimensional algorithm of PyWavelets for any filters, and with adjoint functions in two dimensions. The transpose is the adjoint in mode 'zero'; it is not in the other modes (refuted for 'symmetric'). Wavelets with one's own filters are refused: refuted. Rounding is not modelled."
  },
  {
   "property": "C53",
   "status": "partial",
   "theorems": [
    "C53_pieces",
    "C53_constant_pieces",
    "C53_left",
    "C53_right",
    "C53_sum_partial",
    "C53_constant",
    "C53_used",
    "C53_boundary_refuted",
    "C53_stretched_refuted",
    "C53_new_axis_refuted",
    "C53_declared_refuted",
    "C53_sum_column_refuted",
    "C53_empty_refuted",
    "C53_operation_refuted"
   ],
   "note": "Products on both sides, sums and element-wise products with constants, and sums with block diagonal operators of equal axes are proved for every broadcast. False: the boundary axis = ndim (IndexError), data stretched along the axis (zeros in the other blocks), a new axis without other dimensions, operators with a shape of their own, sums with block columns, homotheties with empty pieces, block rows whose operation is not the sum."
  },
  {
   "property": "C54",
   "status": "partial",
   "theorems": [
    "C54_text_diagonal",
    "C54_text_update",
    "C54_direct_partial",
    "C54_rejects",
    "C54_data_partial",
    "C54_sum_partial",
    "C54_product_left_partial",
    "C54_product_right_partial",
    "C54_pieces_partial",
    "C54_numexpr_partial",
    "C54_variable_input_refuted",
    "C54_dictionary_refuted",
    "C54_rightward_array_refuted",
    "C54_sliced_array_refuted",
    "C54_constant_refuted",
    "C54_output_name_refuted",
    "C54_op_name_refuted"
   ],
   "note": "Proved for every expression, data, broadcast and partition, when the names of the dictionary stand for numbers, are not those of the local variables of the methods, and have the same values when the operator is combined as when it was made. False: a variable called input, a dictionary changed after the construction (direct has a copy, get_data has not), arrays in the dictionary with rightward broadcast or blocks, constant expressions in sums, the names output and op for NumexprOperator."
  },
  {
   "property": "C55",
   "status": "partial",
   "theorems": [
    "C55_same_partial",
    "C55_same_broadcast_partial",
    "C55_same_errors",
    "C55_same_symmetric",
    "C55_same_tolerance",
    "C55_opposite_infinities_refuted",
    "C55_equal_partial",
    "C55_reflexive",
    "C55_dictionary_refuted",
    "C55_frozenset_refuted",
    "C55_equal_symmetric_refuted"
   ],
   "note": "Opposite infinities are accepted by assert_same, and dictionaries against lists of their keys by assert_eq; equal frozensets are rejected: refuted. Complex numbers, subclasses of ndarray and roundings are not modelled."
  },
  {
   "property": "C56",
   "status": "partial",
   "theorems": [
    "C56_least",
    "C56_int64_partial",
    "C56_logarithm",
    "C56_unique",
    "C56_bound",
    "C56_rejects",
    "C56_overflow_refuted",
    "C56_one_refuted",
    "C56_numpy2_refuted",
    "C56_rounding_refuted"
   ],
   "note": "Proved for exact integers and for 64-bit integers without overflow (C56_int64_partial), with any logarithms that are not rounded down. Refuted otherwise: overflow of the products, logarithms rounded down, factor 1 and number 0, and every call from numpy 2 on."
  },
  {
   "property": "C57",
   "status": "partial",
   "theorems": [
    "C57_operator",
    "C57_expression",
    "C57_available",
    "C57_inverse_available",
    "C57_adjoint_refuted",
    "C57_inverse_refuted"
   ],
   "note": "C57_adjoint_refuted: the adjoint of a sum of complex symmetric operators is the sum itself; C57_inverse_refuted: sums have no inverse. Block operators and MultiplicationOperator are left out of the expressions."
  },
  {
   "property": "C58",
   "status": "partial",
   "theorems": [
    "C58_linear",
    "C58_array",
    "C58_pointwise",
    "C58_scipy",
    "C58_negation_refuted",
    "C58_subtraction_refuted",
    "C58_number_refuted",
    "C58_list_refuted",
    "C58_transpose_refuted",
    "C58_rules_refuted",
    "C58_left_array_refuted"
   ],
   "note": "Proved for square operators of one shape. Refuted: -f and A - f for a non-linear f, meaning of numbers in sums with non-linear operators, differences with lists and functions, transposes of complex scipy operators, products that depend on the rules of simplification, products with an array on the left. Missing: the power 0 of non-linear operators, quotients with matrices, the fields shape and data type, and the rules of PowerOperator that change the flag linear (1 / (1 / A) is A)."
  },
  {
   "property": "C59",
   "status": "partial",
   "theorems": [
    "C59_reading",
    "C59_unambiguous",
    "C59_same_text",
    "C59_product_refuted",
    "C59_application_refuted",
    "C59_multiplication_refuted",
    "C59_dots_refuted",
    "C59_blocks_refuted",
    "C59_square_refuted"
   ],
   "note": "Proved for sums, element-wise products and compositions of names, in which sums and products stand alone inside compositions. Refuted: (a + b) * c is shown as a + b * c, (f + g)(c) as f + g(c), f and g multiplied and applied as f \u00d7 g(c); dots of elided blocks replaced by the argument; elided blocks; squares, whose text is not a str. Missing: texts with spaces (operators with explicit shapes), powers, blocks."
  },
  {
   "property": "C60",
   "status": "partial",
   "theorems": [
    "C60_group",
    "C60_stable",
    "C60_delete",
    "C60_delete_any",
    "C60_copy",
    "C60_independent_partial",
    "C60_counter",
    "C60_copy_rules_refuted",
    "C60_single_operand_refuted",
    "C60_plus_zero_refuted",
    "C60_idempotent_refuted",
    "C60_operands_refuted",
    "C60_counted_twice_refuted"
   ],
   "note": "Proved for the histories in which rules return new operators, single-operand composites keep the flags of their operand and idempotent operators are not composed with themselves; false otherwise (refuted theorems). Missing: the binary rules in the dicts, partial effects of an operation that raises."
  },
  {
   "property": "C61",
   "status": "partial",
   "theorems": [
    "C61_meaning",
    "C61_number",
    "C61_typed",
    "C61_accepted",
    "C61_forms",
    "C61_scaled_row_refuted",
    "C61_minus_row_refuted",
    "C61_outer_refuted",
    "C61_outer_product_refuted",
    "C61_sums_refuted"
   ],
   "note": "Missing: zero scalars, powers and element-wise products of variables, products with arrays. Findings: scalar multiples and negations of a transposed variable raise a ValueError, the outer product X * Y.T raises a TypeError, X * (Y.T * A) is silently element-wise, sums escape the checks."
  },
  {
   "property": "C62",
   "status": "proved",
   "theorems": [
    "C62_construction",
    "C62_elements",
    "C62_same_shape",
    "C62_shapes",
    "C62_strided_refuted",
    "C62_column_refuted",
    "C62_transpose",
    "C62_composition"
   ],
   "note": "Data types and subclasses of ndarray are left out. Outputs that are not contiguous are not written (two _refuted theorems)."
  },
  {
   "property": "C63",
   "status": "proved",
   "theorems": [
    "C63_max",
    "C63_min",
    "C63_max_all",
    "C63_min_all",
    "C63_rejects",
    "C63_minmax",
    "C63_product",
    "C63_sum",
    "C63_product_nan_refuted",
    "C63_sum_nan_refuted",
    "C63_functions"
   ],
   "note": "numpy older than version 2; data types and rounding left out. skipna of ProductOperator and linearity of SumOperator with NaN are refuted."
  },
  {
   "property": "C64",
   "status": "proved",
   "theorems": [
    "C64_met",
    "C64_either",
    "C64_bound",
    "C64_exact",
    "C64_max_iterations",
    "C64_below_refuted",
    "C64_text_refuted"
   ],
   "note": "Conditions that raise other exceptions than StopIteration are left out. Maxima below the starting count and the text of c | d are refuted."
  },
  {
   "property": "C65",
   "status": "proved",
   "theorems": [
    "C65_recursion",
    "C65_order",
    "C65_variables",
    "C65_accepted",
    "C65_shape",
    "C65_missing",
    "C65_dtype",
    "C65_distinct",
    "C65_gap_refuted",
    "C65_orphan_refuted",
    "C65_inplace_refuted",
    "C65_complex_refuted",
    "C65_display",
    "C65_display_refuted"
   ],
   "note": "All closed. Identifiers are ASCII. Refuted: values after a gap (x_old3 without x_old2) and previous values of a variable that is not given are silently ignored; an in-place recursion counts previous values it ignores; complex variables do not stay complex with an integer dtype; disp=True with several variables raises UnboundLocalError."
  },
  {
   "property": "C66",
   "status": "proved",
   "theorems": [
    "C66_unset",
    "C66_integer",
    "C66_invalid",
    "C66_cases",
    "C66_true_refuted",
    "C66_alignment_refuted",
    "C66_restored",
    "C66_closed",
    "C66_inside",
    "C66_size",
    "C66_exception_refuted",
    "C66_zero_refuted",
    "C66_removed_refuted",
    "C66_list_refuted"
   ],
   "note": "All closed. Texts are ASCII; settings of class float are read by another function than int, not modelled. Refuted: True/yes for boolean settings; an alignment of 0; nothing is restored if the block raises or for pool_threading(0); KeyError if the block removes OMP_NUM_THREADS; lists in OMP_NUM_THREADS raise ValueError, even on import."
  },
  {
   "property": "C67",
   "status": "partial",
   "theorems": [
    "C67_unit",
    "C67_others",
    "C67_in_place",
    "C67_idempotent",
    "C67_scale",
    "C67_complex_refuted"
   ],
   "note": "All shapes and positions of the output over any ordered field. Missing: rounding, zero vectors (NaN), strided arrays. Refuted: complex vectors are not given the norm 1."
  },
  {
   "property": "C68",
   "status": "partial",
   "theorems": [
    "C68_ends",
    "C68_reports",
    "C68_header",
    "C68_saved",
    "C68_residual",
    "C68_residual_refuted",
    "C68_rerun_refuted",
    "C68_quiet_refuted",
    "C68_keywords",
    "C68_stop_condition_refuted",
    "C68_misspelt_refuted",
    "C68_return_algo",
    "C68_return_algo_refuted"
   ],
   "note": "All criteria, stop conditions, callbacks and interruptions between events. Missing: rounding of the printed numbers, interruptions inside np.savez, errors of matplotlib. Refuted: the residual of each line is that of the previous iteration, a second run shows the last residual of the first one, a message is printed even if verbose is false, stop_condition and callback cannot be given, misspelt keywords are ignored, hacg ignores return_algo."
  },
  {
   "property": "C69",
   "status": "partial",
   "theorems": [
    "C69_shapes",
    "C69_broadcast",
    "C69_linear",
    "C69_layout",
    "C69_plain",
    "C69_name",
    "C69_reshape",
    "C69_homothety",
    "C69_reductions",
    "C69_minmax_refuted",
    "C69_infinite_refuted",
    "C69_nonlinear_refuted",
    "C69_round",
    "C69_floor_refuted"
   ],
   "note": "The claim that every operator has a text is refuted: MinMaxOperator and infinite or NaN homotheties have none; non-linear operators do not show their shapes. Missing: complex numbers, the letters of floats, letters beyond ASCII in lower()."
  },
  {
   "property": "C70",
   "status": "partial",
   "theorems": [
    "C70_call",
    "C70_sources",
    "C70_shown",
    "C70_hidden",
    "C70_shapes",
    "C70_text",
    "C70_shape_text",
    "C70_arrays",
    "C70_keywords_refuted",
    "C70_not_kept_refuted",
    "C70_empty_refuted"
   ],
   "note": "All signatures, attributes and equalities of values. Missing: the texts of the values themselves (given), positional-only and keyword-only parameters. Refuted: **keywords adds a positional None, arguments that are not kept are shown as None, empty arrays raise."
  },
  {
   "property": "C71",
   "status": "partial",
   "theorems": [
    "C71_eigenvectors",
    "C71_symmetric",
    "C71_trace",
    "C71_det_partial",
    "C71_bounds",
    "C71_cond_partial",
    "C71_cond_refuted",
    "C71_keywords_refuted",
    "C71_eigvals_only_refuted",
    "C71_cholesky_refuted"
   ],
   "note": "All sizes and eigenvalues over any ordered field. Missing: that det is the determinant (only that it vanishes with it), logdet, rounding, complex numbers. Refuted: cond for negative eigenvalues, the keywords of eigsh, eigen(eigvals_only=True), cholesky."
  },
  {
   "property": "C72",
   "status": "partial",
   "theorems": [
    "C72_upper",
    "C72_exact",
    "C72_raises",
    "C72_delete",
    "C72_shared_refuted",
    "C72_power_refuted"
   ],
   "note": "The footprint bounds the memory held and is exact without sharing, for operators without powers. The claim that it can be read for every operator is refuted (powers). Left out: sparse formats that are not made of arrays, the bytes of numpy scalars used as exponents."
  },
  {
   "property": "C73",
   "status": "partial",
   "theorems": [
    "C73_choices",
    "C73_no_choice",
    "C73_number",
    "C73_plural",
    "C73_bytes",
    "C73_bytes_distinct",
    "C73_ranks",
    "C73_rank",
    "C73_elapsed",
    "C73_quotes_refuted",
    "C73_negative_refuted"
   ],
   "note": "Proved for choices without quotes; refuted with quotes, and the documented effect of s for negative numbers is refuted. Missing: rounding of numbers of bytes from 2**53 on, texts that are not ASCII."
  }
 ]
}