{
 "C06": {
  "status": "partial",
  "note": "Normal exits proved for every nesting. The 'also if the body raises' half is false of the code (no try/finally in memory.py): refuted with witnesses. copy_if does not forward the alignment/contiguity requirement: refuted, and proved when every pool entry is compliant."
 },
 "C07": {
  "status": "partial",
  "note": "Every deduced flag except idempotent is proved true of the matrix; idempotent (deduced from orthogonal and symmetric) is false of the code, so A * A may return A: refuted with a witness. Sums of complex symmetric operators are wrongly marked hermitian: refuted."
 },
 "C08": {
  "status": "partial",
  "note": "The denotation of every chain of C, T, H, I is proved for all true flags. Identity of objects is proved for all flags but complex hermitian, complex orthogonal+unitary, and real involutary+idempotent non symmetric, where it is refuted. A real operator with only an adjoint method has no transpose, an orthogonal one with only an inverse method has no inverse: refuted."
 },
 "C09": {
  "status": "proved",
  "note": "Every history of set_rule/del_rule over an arbitrary class hierarchy; the order of the rules tried for a pair in a composition is proved from the sort key."
 },
 "C10": {
  "status": "partial",
  "note": "The loops for arbitrary operators and sound rules (C10_engine*), and the construction of products of the core operators (diagonal, homothety, mask, zero, constant, power, block diagonal, block column, block row, sums and products of them, and arbitrary other operators) with the rules of the library: C10_core; every such construction ends, with the code's rules or the fixed ones: C10_core_ends. C10_core has block operators only with the rules fixed: the code's rules change the sizes that zero and constant operators accept (C10_zero_block_refuted, C10_block_const_refuted). Other findings: operators with the same code compare equal (C10_same_code_refuted), numbers are compared by allclose (C10_allclose_refuted), a non-square zero operator is absorbed by a rule for homotheties (C10_zero_absorbed_refuted), rules returning tuples may not terminate (C10_engine_terminates_refuted). Missing: FFT and MPI rules, multi-dimensional shapes and data types."
 },
 "C11": {
  "status": "partial",
  "note": "The loop for arbitrary operands and sound rules (C11_engine*), and the sums and element-wise products of the core and block operators with the rules of the library (C11_core_mul, C11_core_add_partial; all of them end: C11_core_ends). C11_core_add_partial supposes that masks are added as numbers; the code adds booleans (C11_mask_sum_refuted). Block operators only with the rules fixed: see C11_row_product_refuted, C11_diag_column_refuted, C11_separable_column_refuted. Missing: multi-dimensional shapes and data types."
 },
 "C12": {
  "status": "partial",
  "note": "The stage that moves scalars, for arbitrary operators (C12_scalars) and for the core and block operators (C12_core). Numbers form a commutative ring, complex numbers included as an instance; the data types are not modelled. The rule of BlockSliceOperator is not sound (C12_block_slice_refuted), and block rows are flagged linear even if their blocks are not (C12_row_linear_refuted)."
 },
 "C13": {
  "status": "partial",
  "note": "Buffer schedule of products (CompositionOperator.direct with _get_info/_get_requirements/_get_bufsizes) and of calls, over a memory with a pool. Proved for operators that do not use the pool, any in-place/size/requirement mix, with and without reduction, including absence of exceptions; in-place calls and nested pool-using operands under conditions. Findings: in-place call with one out-of-place operand, converted input, nested operand taking its input as temporary, lent output with a reduction, ignored reduction, ValueError for larger in-place intermediates, reduction into a temporary."
 },
 "C14": {
  "status": "proved",
  "note": "CommutativeCompositeOperator.direct for any operands (nested operands using the pool included), any combination of update_output; no exception for reliable operands and contiguous pool."
 },
 "C15": {
  "status": "proved",
  "note": "Products: accepted when compatible, the derived shapes are right, rejected otherwise (operators whose reshape methods are converse on all shapes), same result as one operand at a time. Sums: compatible operands accepted, different explicit shapes rejected. Blocks: reshapein. Refuted: validation of intermediate shapes, free innermost operand, sums of implicit operands, derived shapes with a free operand in between."
 },
 "C16": {
  "status": "proved",
  "note": "tiling, reading/filling pieces, inference of sizes (wrong when the size depends on other dimensions: refuted)"
 },
 "C17": {
  "status": "partial",
  "note": "direct of block diagonal/column/row; in place only for equal axes and partitions (otherwise refuted); unknown column partitions, oversized inputs and single blocks with a new axis refuted"
 },
 "C18": {
  "status": "proved",
  "note": "transpose, conjugate, inverse; false for symmetric blocks with different axes, rows with another operation, nonlinear rows (refuted)"
 },
 "C19": {
  "status": "partial",
  "note": "products, row x column, separable operators that act piecewise, sums; counterexamples for the other cases"
 },
 "C20": {
  "status": "proved",
  "note": "Findings: operators made from equal coefficients forget the shape of the data (C20_unfit_refuted); a ConstantOperator without elements raises IndexError (C20_constant_empty_refuted)."
 },
 "C21": {
  "status": "partial",
  "note": "Compositions, sums (not of two masks), constants and diagonal-by-constant products are proved. C21_multiply_partial excludes one 'disabled' and one 'rightward' operand, where the claim is false (C21_multiply_refuted); C21_as_strided_partial needs C-contiguous data (C21_as_strided_refuted); sums of masks are logical ors (C21_sum_masks_refuted); 'scalar' data with dimensions (C21_scalar_refuted)."
 },
 "C22": {
  "status": "partial",
  "note": "Everything stated is proved for every mask; but the rule replacing P.T * P by the identity is false of the code (refuted: it is a masking), and the packing operator of an all-True multi-dimensional mask keeps the shape of the mask instead of being one-dimensional (refuted)."
 },
 "C23": {
  "status": "proved",
  "note": "All shapes of any dimension but one, both orders."
 },
 "C24": {
  "status": "partial",
  "note": "Tridiagonal operators: product, sizes, transpose/conjugate/adjoint, flags, toband; band operators with one superdiagonal or no subdiagonal; symmetric bands in lower storage. Refuted: band operators with other numbers of superdiagonals, every lower triangular operator with a subdiagonal, every transpose of a band operator, upper storage of symmetric bands, todense with scalar off-diagonals, the in-place transpose method."
 },
 "C25": {
  "status": "partial",
  "note": "Proved for every positive number of samples and every bandwidth, with one first row or one per row of the input, for any ring with roots of unity (C25_complex: for the complex numbers, with the axioms of the real numbers). Refuted: other numbers of first rows leave rows of the output uncomputed; an output that reshape has to copy is lost; with no sample the constructor may raise."
 },
 "C26": {
  "status": "proved",
  "note": "Matrices over any commutative ring, the cosines and sines of the angles being given by an oracle (C26_real: the real ones). Angles are taken element by element; degrees and dtypes are left out; DenseBlockDiagonalOperator applies the matrix (C34)."
 },
 "C27": {
  "status": "partial",
  "note": "The loops of ufuncs.c.src on a memory with arbitrary strides, the operators on rational numbers (no infinity, NaN or rounding). _refuted: RoundOperator methods rhti and rhto are documented but missing, names of the methods garbled, rounding half to minus or plus infinity changes doubles from 2^52, the masking loop compares only the first addresses."
 },
 "C30": {
  "status": "partial",
  "note": "Restoration proved for every nesting, with exceptions, if no manager is entered again while it is active; re-entering the same manager (with rule_manager(..): with rule_manager(..): ..) loses the saved switches: refuted."
 },
 "C31": {
  "status": "partial",
  "note": "Calls, attribute accesses, liveness and the number of callback calls proved for every history with a callback that returns a new operator each time. The shape methods of a proxy use whichever operator is cached: refuted (proved to be those of the last index called). A callback that fails, or returns twice the same object, leads to the use of a deleted operator: refuted."
 },
 "C32": {
  "status": "proved",
  "note": "Every algorithm, buffer mode, initial buffers, stop conditions, pattern of interrupts and sequence of calls. In addition run(0) runs without bound and cont before the start raises (refuted)."
 },
 "C33": {
  "status": "proved",
  "note": "exact arithmetic over any ordered field; floating-point rounding not modelled"
 },
 "C34": {
  "status": "partial",
  "note": "Sums, differences, trapezoidal integrations and dense operators (block diagonal, dense; both broadcasts) compute their definition for every shape and axis, and reject the rest; adjoints, products and scalar multiples of dense operators. Exact arithmetic. False of the code, with witnesses: the transpose of a sum along a negative axis other than -1, the transpose of a complex difference, integer abscissae, products mixing broadcasts, scalar multiples of rightward operators and of several rotations, the transpose for a broadcast input."
 },
 "C35": {
  "status": "partial",
  "note": "Proved for every operator that fills its output, every pair of shapes and every content of the buffers: columns are the images of the unit vectors, in C order, in place or not, with the products and transposes of matrices. Refuted: an operator without dtype gets an integer matrix, its fractional values truncated. Not modelled: the conversions between dtypes other than the final cast."
 },
 "C36": {
  "status": "proved",
  "note": "Every well-nested sequence of enter, exit, reset and time steps. In addition: reset inside a context does not reset the time (refuted)."
 },
 "C37": {
  "status": "partial",
  "note": "Proved for every block without inner context managers, and for nested uninterruptible blocks with each re-raising at its own end. False of the code and refuted: an interrupt is lost if the block raises, a nested uninterruptible breaks the outer one, interruptible and setting do not restore after an exception."
 },
 "C38": {
  "status": "partial",
  "note": "Collectives for every operation; attribute caching for every history that frees a keyval only when unset. A freed keyval's number is reused and shows stale values: refuted."
 },
 "C39": {
  "status": "partial",
  "note": "Proved for all integer exponents, for diagonal operators with every broadcast, for eigendecompositions, and for the operator x**n over any numbers obeying the usual laws (nonzero elements of a field; positive real numbers, with the axioms of the real numbers). Missing: float exponents of diagonal operators, rounding. Refuted: floats equal to integers raise TypeError; powers below -1 of integer diagonals (the identity among them) raise ValueError; the explicit shape is lost; truncated eigendecompositions; exponents close to special ones are rounded; the root of a square becomes the identity; the product of powers and linear operators is not associative, since powers may be simplified into the linear identity."
 },
 "C40": {
  "status": "partial",
  "note": "Proved for every number of dimensions, kernel and shape, over any ring with roots of unity (C40_complex_numbers: the complex numbers have them, with the axioms of the real numbers). Refuted: the so-called adjoint of the Fourier operator is the adjoint only up to the number of elements; transforms along some axes are normalised by the wrong number; products by a number which is not real are wrong; the transpose of a copy of the transpose is wrong."
 },
 "C41": {
  "status": "proved",
  "note": "Exact arithmetic over any ordered field (the example uses the real numbers and their axioms). In addition: a maximum number of iterations above the dimension, such as the default one, always fails; the starting vector is overwritten; maxiter=None is refused; stopping with run(n) before maxiter does not give the n-step approximation (refuted)."
 },
 "C42": {
  "status": "partial",
  "note": "Exact arithmetic over any ordered field, one-dimensional arrays. Proved for every history of evaluations at arrays of one positive size (changed in place or not), sums and multiples; gradients of every norm but p < 2; optimal step; backtracking from a positive value. False of the code, with witnesses: a failed evaluation spoils the cache, points are compared with broadcasting, empty arrays, multi-dimensional data, the parameter of a scaled norm, nested sums, backtracking from negative values and never at the full step, integers."
 },
 "C43": {
  "status": "partial",
  "note": "Proved: attributes after each iteration, exact solution after n iterations, orthogonality, conjugacy, optimality, decrease, run and stop conditions (any criterion, update and line search for the general theorems), Huber criteria never increase. Missing: floating-point rounding, callbacks, Polak-Ribiere update (it raises). Refuted: NaN at the exact minimum, x0 ignored, gtol, StopCondition(), __call__, hyperparameters of Huber norms."
 },
 "C44": {
  "status": "partial",
  "note": "full for classes whose __array_finalize__ sets no attribute and which have no properties (C44_property for these); refuted: order of upper-case names, stale attributes of out, TypeError for out of another class, symmetric operators, sums, simplified products"
 },
 "C45": {
  "status": "proved",
  "note": "for all schedules; the collective operations are given by their results (serve); refuted: an exception in the body of filter_comm or a non-contiguous input in one process makes the others wait for ever"
 },
 "C46": {
  "status": "partial",
  "note": "Proved for every list of numeric types, operators and inputs, signed and unsigned integers not being mixed in the same product. Refuted: mixed integers (numpy's common types are not associative), overflowing integers, 64-bit integers converted to float64, diagonal operators whose dtype depends on their values, 2 * A and ufuncs in single precision, half precision"
 },
 "C47": {
  "status": "partial",
  "note": "the products by sparse matrices in all formats, transposes (those of bsr and dia by hypothesis), construction; the product by a number other than zero and one is refuted (endless recursion)"
 },
 "C48": {
  "status": "partial",
  "note": "Proved over the real numbers (with their axioms) for unit vectors and, for the angles, in their usual ranges outside the poles. The replacement of the product of the two conversions by the identity changes the angles that are out of their ranges or describe a pole: refuted."
 },
 "C49": {
  "status": "partial",
  "note": "The derivatives, the memory and the updates are proved on real numbers. The gradient of the code is that of the likelihood plus twice the penalization, its hessian half the derivative of its gradient, its variances come from the inverse covariance instead of the covariance, the first guess is ignored and FminCOBYLA returns None: refuted. The convergence of the loops is not modelled."
 },
 "C50": {
  "status": "partial",
  "note": "Refusals for all operators; consistency, attributes and frame for operators that are not shared. With shared operands the propagation changes the operands in place, so that other uses of them are refused or become inconsistent: refuted. Groupings, communicators obtained by propagation and unknown input communicators: refuted. Simplification rules left out."
 },
 "C51": {
  "status": "partial",
  "note": "The comparison is characterised and copies are equal to the original. Symmetry, transitivity and the absence of exceptions hold without floating point numbers; with them they are refuted. Sets and nested sequences compared with arrays are not modelled."
 },
 "C52": {
  "status": "partial",
  "note": "Proved with the one-dimensional algorithm of PyWavelets for any filters, and with adjoint functions in two dimensions. The transpose is the adjoint in mode 'zero'; it is not in the other modes (refuted for 'symmetric'). Wavelets with one's own filters are refused: refuted. Rounding is not modelled."
 },
 "C53": {
  "status": "partial",
  "note": "Products on both sides, sums and element-wise products with constants, and sums with block diagonal operators of equal axes are proved for every broadcast. False: the boundary axis = ndim (IndexError), data stretched along the axis (zeros in the other blocks), a new axis without other dimensions, operators with a shape of their own, sums with block columns, homotheties with empty pieces, block rows whose operation is not the sum."
 },
 "C54": {
  "status": "partial",
  "note": "Proved for every expression, data, broadcast and partition, when the names of the dictionary stand for numbers, are not those of the local variables of the methods, and have the same values when the operator is combined as when it was made. False: a variable called input, a dictionary changed after the construction (direct has a copy, get_data has not), arrays in the dictionary with rightward broadcast or blocks, constant expressions in sums, the names output and op for NumexprOperator."
 },
 "C55": {
  "status": "partial",
  "note": "Opposite infinities are accepted by assert_same, and dictionaries against lists of their keys by assert_eq; equal frozensets are rejected: refuted. Complex numbers, subclasses of ndarray and roundings are not modelled."
 },
 "C56": {
  "status": "partial",
  "note": "Proved for exact integers and for 64-bit integers without overflow (C56_int64_partial), with any logarithms that are not rounded down. Refuted otherwise: overflow of the products, logarithms rounded down, factor 1 and number 0, and every call from numpy 2 on."
 },
 "C57": {
  "status": "partial",
  "note": "C57_adjoint_refuted: the adjoint of a sum of complex symmetric operators is the sum itself; C57_inverse_refuted: sums have no inverse. Block operators and MultiplicationOperator are left out of the expressions."
 },
 "C58": {
  "status": "partial",
  "note": "Proved for square operators of one shape. Refuted: -f and A - f for a non-linear f, meaning of numbers in sums with non-linear operators, differences with lists and functions, transposes of complex scipy operators, products that depend on the rules of simplification, products with an array on the left. Missing: the power 0 of non-linear operators, quotients with matrices, the fields shape and data type, and the rules of PowerOperator that change the flag linear (1 / (1 / A) is A)."
 },
 "C59": {
  "status": "partial",
  "note": "Proved for sums, element-wise products and compositions of names, in which sums and products stand alone inside compositions. Refuted: (a + b) * c is shown as a + b * c, (f + g)(c) as f + g(c), f and g multiplied and applied as f \u00d7 g(c); dots of elided blocks replaced by the argument; elided blocks; squares, whose text is not a str. Missing: texts with spaces (operators with explicit shapes), powers, blocks."
 },
 "C60": {
  "status": "partial",
  "note": "Proved for the histories in which rules return new operators, single-operand composites keep the flags of their operand and idempotent operators are not composed with themselves; false otherwise (refuted theorems). Missing: the binary rules in the dicts, partial effects of an operation that raises."
 },
 "C61": {
  "status": "partial",
  "note": "Missing: zero scalars, powers and element-wise products of variables, products with arrays. Findings: scalar multiples and negations of a transposed variable raise a ValueError, the outer product X * Y.T raises a TypeError, X * (Y.T * A) is silently element-wise, sums escape the checks."
 },
 "C62": {
  "status": "proved",
  "note": "Data types and subclasses of ndarray are left out. Outputs that are not contiguous are not written (two _refuted theorems)."
 },
 "C63": {
  "status": "proved",
  "note": "numpy older than version 2; data types and rounding left out. skipna of ProductOperator and linearity of SumOperator with NaN are refuted."
 },
 "C64": {
  "status": "proved",
  "note": "Conditions that raise other exceptions than StopIteration are left out. Maxima below the starting count and the text of c | d are refuted."
 },
 "C65": {
  "status": "proved",
  "note": "All closed. Identifiers are ASCII. Refuted: values after a gap (x_old3 without x_old2) and previous values of a variable that is not given are silently ignored; an in-place recursion counts previous values it ignores; complex variables do not stay complex with an integer dtype; disp=True with several variables raises UnboundLocalError."
 },
 "C66": {
  "status": "proved",
  "note": "All closed. Texts are ASCII; settings of class float are read by another function than int, not modelled. Refuted: True/yes for boolean settings; an alignment of 0; nothing is restored if the block raises or for pool_threading(0); KeyError if the block removes OMP_NUM_THREADS; lists in OMP_NUM_THREADS raise ValueError, even on import."
 },
 "C67": {
  "status": "partial",
  "note": "All shapes and positions of the output over any ordered field. Missing: rounding, zero vectors (NaN), strided arrays. Refuted: complex vectors are not given the norm 1."
 },
 "C68": {
  "status": "partial",
  "note": "All criteria, stop conditions, callbacks and interruptions between events. Missing: rounding of the printed numbers, interruptions inside np.savez, errors of matplotlib. Refuted: the residual of each line is that of the previous iteration, a second run shows the last residual of the first one, a message is printed even if verbose is false, stop_condition and callback cannot be given, misspelt keywords are ignored, hacg ignores return_algo."
 },
 "C69": {
  "status": "partial",
  "note": "The claim that every operator has a text is refuted: MinMaxOperator and infinite or NaN homotheties have none; non-linear operators do not show their shapes. Missing: complex numbers, the letters of floats, letters beyond ASCII in lower()."
 },
 "C70": {
  "status": "partial",
  "note": "All signatures, attributes and equalities of values. Missing: the texts of the values themselves (given), positional-only and keyword-only parameters. Refuted: **keywords adds a positional None, arguments that are not kept are shown as None, empty arrays raise."
 },
 "C71": {
  "status": "partial",
  "note": "All sizes and eigenvalues over any ordered field. Missing: that det is the determinant (only that it vanishes with it), logdet, rounding, complex numbers. Refuted: cond for negative eigenvalues, the keywords of eigsh, eigen(eigvals_only=True), cholesky."
 },
 "C72": {
  "status": "partial",
  "note": "The footprint bounds the memory held and is exact without sharing, for operators without powers. The claim that it can be read for every operator is refuted (powers). Left out: sparse formats that are not made of arrays, the bytes of numpy scalars used as exponents."
 },
 "C73": {
  "status": "partial",
  "note": "Proved for choices without quotes; refuted with quotes, and the documented effect of s for negative numbers is refuted. Missing: rounding of numbers of bytes from 2**53 on, texts that are not ASCII."
 }
}