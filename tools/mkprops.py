#!/usr/bin/env python3
"""Source of /verif/properties.jsonl: run `python3 tools/mkprops.py` to regenerate it."""
import json, os
P = []
def p(title, statement, quantifier, why, anchors):
    P.append(dict(id=f"C{len(P)+1:02d}", title=title, statement=statement, quantifier=quantifier,
                  why_tests_cant=why, anchors=anchors))
S = "src/pyoperators/"
p("Work splitting partitions the work",
  "split(n, m) yields exactly m slices that are contiguous, in increasing order, pairwise disjoint, start at 0 and end at n, whose lengths differ by at most one with the longer ones first; split(n, m, r) is the r-th of them.",
  "every work size n >= 0, number of groups m >= 1 and rank r < m",
  "off-by-one errors appear only for particular remainders n mod m and ranks; sizes are unbounded",
  [S+"utils/misc.py: split"])
p("Distributed shapes add up to the global shape",
  "For a global array distributed over any number of processes, the local shapes returned by distribute_shape on each rank, by distribute_shapes for all ranks, and the slices of distribute_slice/split agree with each other; stacking them with combine_shape gives the global shape back; a scalar is rejected when there is more than one process; incompatible local shapes are rejected.",
  "every global shape, every communicator size and rank, every family of local shapes",
  "needs every number of processes; the test-suite runs with a handful of MPI ranks",
  [S+"utils/mpi.py: distribute_shape, distribute_shapes, distribute_slice, combine_shape", S+"operators_mpi.py: MPIDistributionGlobalOperator"])
p("The buffer pool never hands out the same memory twice",
  "Whatever sequence of add, remove, extract, get, set, copy_if and clear is applied to a memory pool, its entries have pairwise different base addresses and are sorted by size; a buffer handed out by extract/get is not in the pool until it is given back, so two nested users never share memory.",
  "every history of pool operations, every nesting of the context managers, every allocator",
  "the aliasing bug shows only after particular interleavings of sizes and nestings",
  [S+"memory.py: MemoryPool"])
p("A pooled buffer satisfies the request",
  "extract/get return a buffer that meets the requested shape, element size, alignment and contiguity, whose size exceeds the request by at most the configured tolerance; it is the smallest compatible entry of the pool; when no entry is compatible a fresh one is returned and the pool is untouched; the view handed to the caller has exactly the requested number of bytes and stays within the buffer.",
  "every pool content, every requested shape, dtype, alignment and contiguity",
  "depends on the whole content of the pool",
  [S+"memory.py: iscompatible, MemoryPool.extract, MemoryPool.view, MemoryPool.get"])
p("Aligned allocation",
  "empty/zeros/ones return an array whose address is a multiple of the configured alignment and whose bytes lie inside the block obtained from the allocator.",
  "every address returned by the allocator, every alignment, shape and item size",
  "the address returned by malloc cannot be chosen by a test",
  [S+"memory.py: empty"])
p("The pool is left as it was after a temporary use",
  "Leaving the context of pool.get, pool.set, pool.set_if, pool.get_if or pool.copy_if gives back exactly what was borrowed: after set the pool is as before, after get it holds the same entries plus possibly the newly allocated one, and copy_if writes the buffer back to the array; this also holds if the body raises an exception.",
  "every pool content, every properly nested use, every body, raising or not",
  "needs every nesting and every crash point",
  [S+"memory.py: MemoryPool.get, set, set_if, get_if, copy_if"])
p("Algebraic flags deduced by the library are true",
  "If the flags declared for an operator (real, symmetric, hermitian, idempotent, involutary, orthogonal, unitary) hold of its matrix, then every flag the library deduces from them also holds of its matrix.",
  "every matrix of every size, every declared set of flags",
  "quantifies over all matrices and all 2^7 flag sets",
  [S+"core.py: Operator._init_flags, Operator._set_flags"])
p("Associated operators form a closed group",
  "Conjugate, transpose, adjoint and inverse are involutions that commute and compose as C.T = H, C.H = T, T.H = C and so on: following any path of .C .T .H .I from an operator leads to the same object as the reduced path; each associated operator denotes the mathematically expected map.",
  "every operator (any combination of flags, rules and user-defined methods), every path of attributes of any length",
  "paths are unbounded and the code has a separate branch for each combination of flags",
  [S+"core.py: Operator._generate_associated_operators, Operator.C, T, H, I"])
p("Simplification rules keep their documented order",
  "Adding a rule never loses another rule; redefining a rule replaces it in place; among rules on classes, a rule for a subclass is tried before one for any of its base classes; del_rule removes exactly the requested rule.",
  "every history of set_rule/del_rule, every class hierarchy",
  "order bugs depend on the insertion history and the class hierarchy",
  [S+"core.py: Operator.set_rule, Operator.del_rule"])
p("Simplifying a product of operators does not change it",
  "The operator obtained from A1 * A2 * ... * An after the library has associated and applied its simplification rules maps every input to A1(A2(...An(x))), and the simplification terminates.",
  "every list of operators, every set of sound binary rules, every order in which rules fire",
  "number of operands and rule firings are unbounded",
  [S+"core.py: CompositionOperator._apply_rules, NonCommutativeCompositeOperator._apply_rules"])
p("Simplifying a sum or element-wise product of operators does not change it",
  "The operator obtained from A1 + ... + An (or from an element-wise product) after the library has applied its rules maps every input to the sum (product) of the images, whatever the order of the operands, and the simplification terminates.",
  "every list of operands, every set of sound binary rules",
  "number of operands and rule firings are unbounded",
  [S+"core.py: CommutativeCompositeOperator._apply_rules, AdditionOperator, MultiplicationOperator"])
p("Scalars move through linear operators only",
  "Scalar factors in a product are merged and moved across operators without changing the product; a scalar is never moved across a non-linear operator, and a complex scalar is never absorbed in a way that changes the result.",
  "every list of factors, every position of the scalars",
  "number of factors is unbounded",
  [S+"core.py: CompositionOperator._apply_rule_homothety, _apply_rule_homothety_linear"])
p("Running a product uses temporaries safely",
  "Calling a product of in-place, out-of-place and strided operators writes A1(A2(...(x))) into the output, does not modify the input (unless it is also the output), does not modify any other array, and leaves in the memory pool the arrays it held.",
  "every chain of operators with any in-place capability and any intermediate sizes, every pool content, in-place or out-of-place call",
  "the buffer schedule depends on the whole chain of sizes and flags and on the pool history",
  [S+"core.py: CompositionOperator.direct, _get_info"])
p("Running a sum or element-wise product uses temporaries safely",
  "Calling a sum (element-wise product) writes the sum (product) of the images in the output and leaves the input unmodified, whichever operands know how to update an output in place.",
  "every list of operands, every combination of update_output capabilities",
  "depends on the position of the operands that can update their output",
  [S+"core.py: CommutativeCompositeOperator.direct, _get_info"])
p("Shapes propagate consistently through a product",
  "If the input shape of a product is derived by the library from its operands then feeding an array of that shape gives an array of the derived output shape; explicit, implicit and free shapes are handled; incompatible operands are rejected and compatible ones are not.",
  "every chain of explicit, implicit and free operators, every shape",
  "chains and shapes are unbounded",
  [S+"core.py: CompositionOperator._get_shapes, Operator.validatein, validateout, _validate_shapes, _init_inout"])
p("Block partitions tile the array",
  "The slices computed for a partition along an existing axis are contiguous, disjoint and cover the axis; for a new axis they select each index once; concatenating the pieces restores the array.",
  "every partition, axis, shape, block count",
  "sizes are unbounded",
  [S+"core.py: BlockOperator._get_slices, BlockDiagonalOperator, BlockColumnOperator, BlockRowOperator"])
p("Block operators act block-wise",
  "A block diagonal operator applies its i-th block to the i-th piece of the input and puts the result in the i-th piece of the output, a block column stacks the images of the whole input, a block row sums the images of the pieces, also when a block is used in place.",
  "every number of blocks, every partition, every axis, every in-place capability",
  "number of blocks and sizes are unbounded; the buffer choice depends on the flags of all blocks",
  [S+"core.py: BlockDiagonalOperator.direct, BlockColumnOperator.direct, BlockRowOperator.direct"])
p("Transposing block operators",
  "The transpose of a block diagonal is the block diagonal of the transposes with the input and output partitions exchanged, the transpose of a block column is the block row of the transposes and conversely; these are the true adjoints.",
  "every list of blocks",
  "number and sizes of blocks unbounded",
  [S+"core.py: BlockOperator._rule_operator_* , set_rule('T')"])
p("Products of block operators are merged soundly",
  "When the library merges two adjacent block operators into one, the partitions are compatible and the merged operator is equal to the product; block row times block column becomes a sum of products.",
  "every pair of block operators and partitions, with known and unknown block sizes",
  "partitions are unbounded lists with optional entries",
  [S+"core.py: BlockOperator._rule_composition, _rule_blockdiagonal_*, _validate_partition_composition"])
p("Diagonal operators specialise soundly",
  "DiagonalOperator, and the Identity, Homothety, Zero, Mask and Constant operators it morphs into according to the values of its data, all denote multiplication by the given data.",
  "every data array, broadcast mode, size",
  "depends on every value of the array",
  [S+"core.py: DiagonalOperator.__init__", S+"utils/cythonutils.pyx: inspect_special_values_*"])
p("Combining diagonal operators",
  "The sum, product and composition of two diagonal operators (with any leftward, rightward or scalar broadcast) computed on their data is the sum, product and composition of the operators.",
  "every pair of data arrays, broadcast modes and shapes",
  "shapes and ranks unbounded",
  [S+"core.py: DiagonalBase._rule_multiply, BroadcastingBase._rule_broadcast, ConstantOperator, ZeroOperator"])
p("Packing and unpacking",
  "PackOperator keeps in order the elements where the mask is True (MaskOperator, the other way round, sets to zero those where its mask is True), UnpackOperator puts them back and sets the others to zero; each is the transpose of the other; packing after unpacking is the identity; unpacking after packing masks the elements where the mask is False.",
  "every mask and every input",
  "2^n masks",
  [S+"linear.py: PackOperator, UnpackOperator, MaskOperator"])
p("Multi-index conversion is a bijection",
  "To1dOperator and ToNdOperator convert between multi-dimensional and flat indices in C or Fortran order, are inverse of each other on valid indices, and agree with row-major or column-major numbering.",
  "every shape, every order, every valid index",
  "shapes and ranks unbounded",
  [S+"nonlinear.py: _1dNdOperator, To1dOperator, ToNdOperator"])
p("Banded operators agree with their matrix",
  "TridiagonalOperator, BandOperator, SymmetricBandOperator and their transposes compute the product by the matrix whose diagonals are given; the transpose is the transposed matrix.",
  "every size, every set of diagonals, every input vector",
  "sizes unbounded",
  [S+"linear.py: TridiagonalOperator, BandOperator, SymmetricBandOperator, _band_diag"])
p("Toeplitz operators agree with their matrix",
  "SymmetricBandToeplitzOperator computes by FFT the product by the symmetric band Toeplitz matrix with the given first row, for any number of samples and correlation length, including when the band is wider than the matrix.",
  "every number of samples, every first row, every input",
  "wrap-around errors appear only for particular sizes",
  [S+"linear.py: SymmetricBandToeplitzOperator"])
p("Rotations are rotations",
  "Rotation3dOperator with any documented convention is the product of the one to three elemental rotations in the documented order; it is orthogonal with determinant one; an extrinsic convention equals the intrinsic one in reverse order; Rotation2dOperator likewise.",
  "every convention, every triple of angles",
  "angles are a continuum",
  [S+"linear.py: Rotation2dOperator, Rotation3dOperator"])
p("Element-wise non-linear operators satisfy their defining laws",
  "Clip, maximum, minimum, rounding, hard and soft thresholding obey their definitions (range, idempotence, distance to the input), in place and out of place, and masking in place agrees with masking out of place.",
  "every input value and threshold, every array",
  "real-valued inputs",
  [S+"nonlinear.py: ClipOperator, RoundOperator, HardThresholdingOperator, SoftThresholdingOperator", S+"utils/ufuncs.c.src"])
p("Broadcasting shapes is associative and commutative",
  "broadcast_shapes returns the shape of the result of broadcasting, is insensitive to the order and grouping of the shapes, and raises exactly when some dimension has two different lengths other than one.",
  "every number of shapes of every rank",
  "unbounded ranks",
  [S+"utils/misc.py: broadcast_shapes, reshape_broadcast"])
p("Sequence helpers",
  "first, last, ifirst, ilast, first_is_not, last_is_not, merge_none, renumerate, zip_broadcast, product and inspect_special_values satisfy their documented specification, including the error cases.",
  "every sequence and predicate",
  "unbounded sequences",
  [S+"utils/misc.py"])
p("Rule-switch contexts nest",
  "Each rule manager context sets the requested rule switches, and leaving it restores the switches that were active on entry, in any nesting, also when exceptions are raised.",
  "every nesting of contexts, every setting, every exit, normal or by exception",
  "unbounded nesting",
  [S+"rules.py: RuleManager"])
p("Proxied operators",
  "An operator obtained from proxy_group behaves, for each attribute and call and in any order of use, as the operator returned by the callback for its index; at most one operator is alive at a time and consecutive uses of the same index do not call the callback again.",
  "every history of uses of the proxies and of their associated operators",
  "unbounded histories",
  [S+"proxy.py: proxy_group, ProxyBase, ProxyReverseBase"])
p("Iterative algorithms keep their history",
  "After any number of iterations of an iterative algorithm, x_new, x, x_old... hold the last values in order whatever buffers are reused; running n then m iterations is the same as running n+m; restarting starts from the initial values; the stop conditions are checked in the documented order.",
  "every algorithm, number of iterations, order of the recurrence, stop conditions",
  "unbounded number of iterations",
  [S+"iterative/core.py: IterativeAlgorithm", S+"iterative/stopconditions.py"])
p("Conjugate gradient invariants",
  "At each iteration of the preconditioned conjugate gradient the residual is b - A x, the successive residuals are orthogonal for the preconditioner, the directions are A-conjugate and the exact solution is reached in at most n iterations.",
  "every symmetric positive definite matrix, preconditioner, right-hand side, start and number of iterations (exact arithmetic)",
  "all matrices and all numbers of iterations",
  [S+"iterative/cg.py: PCGAlgorithm"])
p("Linear reductions and their adjoints",
  "Sum, integration, difference and dense block-diagonal operators agree with their definition and their transpose is the adjoint for the dot product.",
  "every shape, axis, array",
  "unbounded shapes",
  [S+"linear.py: SumOperator, IntegrationTrapezeOperator, DifferenceOperator, DenseBlockDiagonalOperator"])
p("Dense matrix of an operator",
  "todense returns the matrix that multiplies the flattened input; its columns are the images of the basis; it is the same with and without the in-place mode.",
  "every linear operator and shape",
  "unbounded dimensions",
  [S+"core.py: Operator.todense"])
p("Timers nest",
  "A Timer entered in any nested fashion reports the time between the outermost enter and exit, accumulating over uses when cumulative and starting again from zero otherwise.",
  "every nesting and every clock",
  "unbounded nesting",
  [S+"utils/misc.py: Timer"])
p("Interrupts are neither lost nor early",
  "Inside uninterruptible, an interrupt never breaks the block and is re-raised once after it; the previous signal handler is restored on every exit; setting restores the attribute.",
  "every block, every moment an interrupt may arrive, every nesting",
  "the arrival time of a signal cannot be enumerated",
  [S+"utils/misc.py: uninterruptible, interruptible, setting"])
p("Single-process MPI stand-in",
  "The MPI replacement used without mpi4py implements the semantics of a communicator of size one for reductions, gathers and attribute caching.",
  "every history of attribute calls and every buffer",
  "unbounded histories",
  [S+"utils/fake_MPI.py"])
p("Powers of operators",
  "A**n is the n-fold product for n >= 0 and the n-fold product of the inverse for n < 0; powers of an eigendecomposition raise the eigenvalues only; PowerOperators compose by multiplying the exponents.",
  "every operator and integer exponent",
  "unbounded exponents",
  [S+"core.py: Operator.__pow__", S+"linear.py: EigendecompositionOperator.__pow__", S+"nonlinear.py: PowerOperator"])
p("Convolution",
  "The convolution operator computes the circular convolution by the centred kernel; its transpose is the adjoint; products and sums of convolutions are the convolutions by the convolved and added kernels; the Fourier operator times its adjoint is the identity up to the documented normalisation.",
  "every kernel and input of every size (exact arithmetic, any primitive root of unity)",
  "sizes and kernels unbounded",
  [S+"fft.py: _FFTWConvolutionOperator, _FFTWRealConvolutionOperator, _FFTWComplexForwardOperator, _get_kernel_fft"])
p("Lanczos tridiagonalisation",
  "After k iterations of the Lanczos algorithm, A V = V T + beta v e_k with T the symmetric tridiagonal matrix it returns and, for a symmetric A, the Lanczos vectors are orthonormal.",
  "every symmetric matrix, starting vector and number of iterations (exact arithmetic)",
  "unbounded iterations",
  [S+"iterative/lanczos.py: LanczosAlgorithm"])
p("Cached criterion evaluations",
  "A criterion returns the norm of model(x) - data, and its gradient, at the x it is given, whatever was evaluated before; criteria add and scale as functions; the Huber function and its derivative are consistent; the diff methods are the gradients of the criteria; the optimal step minimises a quadratic criterion along the line; backtracking returns a step that did not increase the criterion, or the last one allowed.",
  "every history of evaluations, every criterion",
  "unbounded histories",
  [S+"iterative/criterions.py", S+"iterative/linesearch.py"])
p("Conjugate gradient of criteria",
  "ConjugateGradient minimises a strictly convex quadratic criterion of n variables exactly in at most n iterations, decreasing it at each iteration, its gradients being orthogonal and its directions conjugate; it never increases a Huber criterion without hyperparameters; it stops after the first iteration for which the stop condition holds; a second run gives the same result.",
  "every criterion, data, number of iterations and stop condition (exact arithmetic)",
  "unbounded sizes and iterations",
  [S+"iterative/algorithms.py: Algorithm, StopCondition, ConjugateGradient, QuadraticConjugateGradient, HuberConjugateGradient, acg, hacg"])
p("Classes and attributes of the results",
  "The class of the result of an operator is its classout, or the class of the input, and its attributes are those of attrout and those of the input that are not replaced; a product propagates classes and attributes as its operands called one by one, also after simplification; the transpose propagates attrin and classin instead; the argument out, if it is not a plain array, gets the class and the attributes.",
  "every class, dictionary of attributes and sequence of operators, attributes given by dictionaries or functions",
  "unbounded sequences, dictionaries and functions",
  [S+"core.py: Operator.propagate_attributes, Operator.__call__, CompositionOperator.propagate_attributes, _merge_attr, _copy_reverse", S+"utils/misc.py: isclassattr, ndarraywrap"])
p("Programs of several MPI processes",
  "Whatever the order in which the collective operations of the processes take place, the programs end with the same results, without deadlock: the transposes of the distribution operators are the adjoints for the sum over the processes, combine and combine_shape give all processes the total, mprint prints the messages once and in the order of the ranks, filter_comm runs its body in the group of the processes that satisfy the condition, and the conjugate gradient stops in all processes after the same iteration with the parts of the solution that one process computes.",
  "every number of processes, distribution of the arrays, schedule of the collective operations, body and matrix",
  "all schedules and all numbers of processes",
  [S+"operators_mpi.py: MPIDistributionGlobalOperator, MPIDistributionIdentityOperator", S+"utils/mpi.py: combine, combine_shape, filter_comm, mprint", S+"iterative/cg.py: PCGAlgorithm"])
p("Data types of the results",
  "The type of the result of an operator is the common type of its dtype and of the type of the input (or that of the input), an argument out must have it, and all operands of a product work with it; the common type is the smallest to which all types can be converted without changing numbers; products and sums have the type, and the values, of their operands called one by one; complex_dtype, float_dtype, float_or_complex_dtype and float_intrinsic_dtype return the documented types.",
  "every list of numeric types, every operator and input",
  "all combinations of types and unbounded products",
  [S+"core.py: Operator._find_common_type, Operator._validate_arguments, CompositionOperator._get_dtypes, DiagonalOperator.__init__, Operator._init_flags", S+"utils/misc.py: complex_dtype, float_dtype, float_intrinsic_dtype, float_or_complex_dtype"])
p("Operators made of sparse matrices",
  "Whatever the storage format (csr, csc, coo, bsr, dia, dok), SparseOperator computes the product of the dense matrix by the input, or adds it to the output; its transpose is the adjoint; two storages of the same matrix give the same results; the shapes that are not compatible with the matrix, the LIL format and objects that are not sparse matrices are refused; it can be multiplied by a number.",
  "every sparse matrix in every format, with duplicates and explicit zeros, every input (exact arithmetic)",
  "unbounded sizes, all storages of the same matrix",
  [S+"linear.py: SparseBase, SparseOperator", S+"core.py: CompositionOperator._apply_rule_homothety_linear, asoperator"])
p("Spherical coordinates",
  "In each of the four conventions, in radians or degrees, Spherical2CartesianOperator gives the unit vectors of the directions described by the angles, Cartesian2SphericalOperator gives the angles of unit vectors in their usual ranges, each is the inverse of the other, their product is replaced by the identity only if this does not change the result, and arrays without a last dimension of the right size are refused.",
  "every unit vector, all angles, every shape and spelling of the convention (real numbers)",
  "uncountably many directions, including the poles and the boundaries of the ranges",
  [S+"nonlinear.py: _CartesianSpherical, Cartesian2SphericalOperator, Spherical2CartesianOperator", S+"linear.py: DegreesOperator, RadiansOperator"])
p("Double loop inference and the optimisers of scipy",
  "The gradient and the product by the hessian given to the optimisers are the derivatives of the criterion of the inner loop; the memory of the last point changes no value, whatever the order of the calls; the widths of the outer loop minimise the bound of the penalization and its variances are those of the posterior; tau is a number or an array of the size of the prior; a wrapper returns what the function of scipy returns when started from the first guess.",
  "every model, prior, noise covariance and data, all points and directions, every history of calls of the criterion (real numbers), every optimiser",
  "uncountably many points, all histories of calls",
  [S+"iterative/dli.py: Criterion, DoubleLoopAlgorithm", S+"iterative/optimize.py: FminWrapper, FminCOBYLA, FminNCG"])
p("MPI communicators of operators",
  "A sum, a block operator or a product of operators whose known communicators are incompatible is refused with ValueError; otherwise its communicators are the known ones of its operands, they are given to the operands that do not know theirs, and all the operators below have consistent communicators: equal in a sum, output of an operand equal to the input of the next one in a product. Building an operator does not change the others, nor what can be done with them, and grouping the factors differently does not change the answer.",
  "every tree of operators of any depth, with shared operands or not, every assignment of communicators",
  "unbounded nesting and sharing; histories of constructions",
  [S+"core.py: Operator.propagate_commin, Operator.propagate_commout, CompositeOperator.__init__, CompositeOperator._validate_comm, CompositionOperator.propagate_commin, CompositionOperator.propagate_commout, CompositionOperator._validate_comm"])
p("Comparison of operators",
  "An operator is equal to itself and to its copies; == is True exactly if the operators are the same object or have the same type and equal attributes, up to the tolerance on floating point numbers, whatever the associated operators and rules they have stored; == is symmetric and transitive and raises no exception.",
  "every operator and value, nested to any depth: mappings, sequences, arrays of any shape, numbers with infinities and NaN, strings, functions, methods",
  "unbounded nesting, all pairs and triples of values",
  [S+"core.py: Operator.__eq__", S+"utils/misc.py: all_eq"])
p("Wavelet transforms",
  "WaveletOperator returns the concatenation of the wavelet coefficients, which can be recovered from it, and Wavelet2dOperator those of two dimensions; the transposes are the adjoints, for biorthogonal wavelets too; replacing W.T * W by the identity for orthogonal wavelets does not change the result, for any mode of extension, level and size.",
  "every wavelet (filters of any length), level, size, mode of extension and input (exact arithmetic)",
  "unbounded sizes, levels and lengths of filters",
  [S+"operators_pywt.py: WaveletOperator, Wavelet2dOperator"])
p("Diagonal operators distributed over blocks",
  "The product of a diagonal, mask, homothety or identity operator and of a block operator (either way), and the sum or element-wise product of a diagonal or constant operator and of a block operator, are replaced by a block operator each block of which is combined with the part of the data that belongs to it. Applied to an array, the new operator gives what the operands give one after the other, whatever the broadcast of the data (leftward, rightward, scalar or disabled), the partitions and the axis, which may be new. The replacement must not make an expression raise that can be applied without it.",
  "every ring of scalars, every operator that a user can make, every block operator and partition, every array, every broadcast, known or implicit shapes",
  "the replacement happens when the expression is built, and whether the data is replicated or sliced depends on the broadcast, on the sign of the axis, on the number of dimensions of the data and on which shapes are known; a wrong choice silently multiplies blocks by the wrong coefficients",
  [S+"core.py: BroadcastingBase._rule_block",S+"core.py: BroadcastingBase._rule_left_block",S+"core.py: BroadcastingBase._rule_right_block",S+"core.py: ConstantOperator"])
p("Operators defined by an expression",
  "A DiagonalNumexprOperator multiplies each element of its input by the value of its expression on the element of the data that it faces, whatever the broadcast, the operators of the expression and the initial content of the output; get_data() returns these values. Its sums and products with other diagonal operators, and the operators into which it is split when it is combined with a block operator, act as it does, even if the program has gone on in between. A NumexprOperator assigns the value of its expression on the input to the output, or adds, subtracts, multiplies or divides the output by it.",
  "all expressions (any operators, functions, names and precedences), all data, dictionaries of variables, broadcasts, shapes, inputs, initial contents of the output, partitions, and changes of the dictionaries between the construction and the use",
  "The expression is any text, which is pasted into other texts and evaluated in the namespace of a method; tests use a few expressions with a few names and arrays, right after the construction.",
  [S+"linear.py: DiagonalNumexprOperator",S+"nonlinear.py: NumexprOperator",S+"utils/misc.py: operation_symbol"])
p("Comparison of results",
  "assert_same accepts two arrays exactly when they have the same shape (or, if asked for, can be broadcast) and their elements are equal within rtol and atol units of the precision of the least precise of the two floating-point types; integers are compared exactly, NaN equals NaN, an infinity equals itself only; the arguments can be exchanged, and larger tolerances accept more. assert_eq accepts exactly the equal values: texts, numbers and arrays that agree, sets that have the same elements, sequences of equal elements and dictionaries that have the same keys and equal values; any value is accepted against itself.",
  "all arrays of booleans, integers and floats, finite or not, of all shapes and precisions, all tolerances, all nested lists, tuples, dictionaries, sets, texts, numbers and arrays",
  "These functions are what the tests of the package and of its users rely on: a comparison that accepts too much hides failures of the tests themselves.",
  [S+"utils/testing.py: assert_same, assert_eq"])
p("Least greater multiple",
  "least_greater_multiple(a, factors) returns, for each element of a, the least product of powers of the factors that is greater than or equal to it; factors that are not positive are refused.",
  "all lists of numbers and of factors, with exact or 64-bit integers",
  "The answer depends on the factorisations of all the numbers above the argument; a wrong one, due to an overflow or to a rounded logarithm, is still a plausible size.",
  [S+"utils/misc.py: least_greater_multiple"])
p("Associated operators of expressions",
  "Take operators whose flags are true and whose own conjugate, transpose, adjoint and inverse, where they exist, are right, and build any expression of sums, products and groups of them, to any depth and with matrices of any sizes that fit. Any chain of .C, .T, .H and .I on the expression that gives an operator that can be applied gives the conjugate, transpose, adjoint or inverse of the expression that the chain stands for; if the operands have their conjugates, transposes and adjoints then so has the expression, and products have their inverses if the operands have.",
  "all operators over any commutative ring with conjugation, all expressions of sums, products and groups, all chains of attributes",
  "the rules of each kind of composite interact with the flags merged from the operands and with the table of the associated operators; expressions and chains are unbounded",
  [S+"core.py: AdditionOperator, CompositionOperator, GroupOperator, Operator._generate_associated_operators, _merge_flags"])
p("Arithmetic of operators with other objects",
  "Python expressions that combine linear operators with numbers, matrices, lists of numbers and arrays by +, -, *, /, ** and the unary minus mean what matrix arithmetic says: the expression is a linear operator whose direct and transpose are those of the matrix that the expression stands for, numbers being multiples of the identity, products with arrays being applications. If an operand is not linear then the operations are those of the values, element by element.",
  "all expressions of any depth, all linear and non-linear operators, all numbers, matrices, lists and arrays over any commutative ring, with or without the simplification rules",
  "each special method chooses between composition, element-wise product, constant and application from the flags of its operands and from what the rules made of them; expressions nest without bound",
  [S+"core.py: Operator.__mul__, __rmul__, __add__, __sub__, __neg__, __truediv__, __pow__, asoperator", S+"core.py: MultiplicationOperator, ConstantOperator, ZeroOperator"])
p("Texts of operators",
  "What print(op) shows of an expression of operators, read as the usual notation (composition before element-wise product before sum, f(u) for an application), is what the operator computes, and a text can be read in one way only; so operators that are shown alike compute the same.",
  "all expressions of any depth of named operators, functions with arguments, sums, element-wise products and compositions; all meanings of the names",
  "parentheses are left out or added by looking at the texts and the flags of the operands; a wrong text is only found by someone who knows the expression",
  [S+"core.py: CompositeOperator.__str__, CompositionOperator.__str__, BlockColumnOperator.__str__, BlockRowOperator.__str__", S+"nonlinear.py: SquareOperator.__str__, ClipOperator.__str__"])
p("Life of operators: copies, associated operators and deletion",
  "Over any history of creations, copies, associated operators, rule changes and deletions: a chain of .C .T .H .I only depends on its parities and never leads to a deleted operator; an associated operator stays the same object until it is deleted; delete() deletes exactly the operator and those its chains lead to, whichever of them is asked; a copy is a new object with the same attributes, its own bound methods and no associated operator, and what is done to it does not change the original (except for its rules); and the counter of freed bytes stays below the threshold of collection without forgetting a byte.",
  "all histories of operations on any number of operators, all flags, rules and methods, all thresholds",
  "a test follows one history of a few operators; the identity of the objects and the bytes counted depend on the whole history",
  [S+"core.py: Operator.copy, Operator.delete, Operator._reset, Operator._init_rules, Operator.set_rule, Operator.del_rule, Operator._generate_associated_operators, DeletedOperator, CompositeOperator.nbytes, CompositionOperator._merge", S+"memory.py: garbage_collect"])
p("Expressions with variables",
  "An expression with variables, their transposes, numbers and linear operators that gives a linear operator gives one with the meaning of the expression: a variable is a column, its transpose a row, an operator a square matrix. Products whose dimensions do not match are rejected with an exception. Operators applied to a variable, the transpose of this, and bilinear forms are accepted.",
  "all expressions, all sizes, all matrices, all values of the variables and all scalars that are not zero",
  "the expressions nest without bound, and whether a product is accepted depends on the order in which the simplification rules see the operands",
  [S+"core.py: Variable, VariableTranspose, CompositionOperator, Operator.__mul__"])
p("Reshaping keeps the elements, in order",
  "A ReshapeOperator exists exactly when both shapes are given and have the same number of elements. Its call fills a contiguous output with the elements of the input in the same (C) order and changes nothing else, whatever the strides of the input and even if both share memory. Its transpose is the opposite reshaping and its inverse; compositions of reshapings reshape directly, to the same effect.",
  "all shapes with any number of dimensions, all strides, offsets and memory contents, all overlaps of input and output",
  "strides, overlaps and dimensions are unbounded, and whether ravel gives a view or a copy depends on them",
  [S+"core.py: ReshapeOperator, IdentityOperator, BlockColumnOperator.direct, Operator._validate_arguments", S+"memory.py: iscompatible"])
p("Minima, maxima and products along an axis",
  "MaxOperator and MinOperator give, at each position, the greatest or least of the elements along the axis (or of all elements): NaN if there is one among them, or NaN is skipped if skipna is set. MinMaxOperator puts both along a new axis. ProductOperator gives the products. Invalid axes, scalars and empty reductions are rejected. Only suitable functions are accepted by ReductionOperator.",
  "all shapes, all positive and negative axes, all contents with or without NaN, any total order, any product",
  "tests use a few small arrays; the axis arithmetic, NaN and empty dimensions interact for every shape",
  [S+"core.py: ReductionOperator", S+"nonlinear.py: ProductOperator, MaxOperator, MinOperator, MinMaxOperator", S+"linear.py: SumOperator"])
p("Stop conditions stop the iterations when they say",
  "A stop condition raises exactly when it, or one of its operands, is met, with its message; c | d is met when c or d is. An iterative algorithm never passes the number of iterations at which one of its conditions is met, whatever commands are given, and runs until exactly there: it ends normally for the normal condition, which has priority, and with AbnormalStopIteration for the abnormal one.",
  "all algorithms, recursion orders, conditions combined to any depth, all sequences of commands",
  "conditions nest without bound and sequences of next, run, cont and restart are unbounded",
  [S+"iterative/stopconditions.py: StopCondition, OrStopCondition, NoStopCondition, MaxErrorStopCondition, MaxIterationStopCondition", S+"iterative/core.py: IterativeAlgorithm"])
p("The keywords of an iterative algorithm determine its recursion",
  "IterativeAlgorithm(x=..., x_old=..., x_old2=..., ...) builds the recursion that its keywords describe: from the values of n consecutive states of some variables, in any order, it is of order n and has these variables, in the alphabetical order. Keywords are accepted if and only if all the values of every variable are given, with the same shape, and there is a dtype for them; a missing value raises ValueError. A variable has the dtype given for it, or the default one made complex if one of its values is. The attributes x_new, x, x_old... of all the variables are different. Values that are not part of a complete description are reported (refuted), and disp=True displays the values (refuted for several variables).",
  "all the sets of keywords, of any names, orders, shapes and kinds of values, for recursions in place or not",
  "The names are parsed by suffixes and by a regular expression, and the order by a loop over the numerals; tests use x and x_old with one or two variables.",
  [S+"iterative/core.py: IterativeAlgorithm.__init__", S+"iterative/core.py: IterativeAlgorithm._set_order, _set_variables, _set_initial_state, _get_suffix, callback"])
p("Settings and numbers of threads in the environment",
  "A setting read from the environment (PYOPERATORS_MEMORY_ALIGNMENT, PYOPERATORS_VERBOSE...) is the integer that is written there, its default value if it is unset or blank, and its default value with a warning otherwise. Inside a block that uses pool_threading, OpenMP and MKL use one thread, and nested pools have one thread by default; after the block, the numbers of threads are what they were before (refuted if the block raises, or for an invalid size), and the pools are closed. The size of a pool is the argument, or the one in OMP_NUM_THREADS, or the number of processors.",
  "all the texts in the environment; all the programs that nest pools, change the numbers of threads, raise and catch exceptions",
  "The texts are infinitely many, and what matters for the pools is the history of the environment through nested blocks and exceptions.",
  [S+"config.py: getenv", S+"utils/misc.py: omp_num_threads, pool_threading"])
p("Normalising vectors",
  "NormalizeOperator applied to an array of real numbers replaces each vector along the last dimension which is not zero by the unit vector of its direction, whatever the number of vectors and of components; computed in place or not the result is the same and nothing but the output is written; a second application changes nothing, and vectors of the same direction give the same result.",
  "all shapes, all non-zero vectors over an ordered field in which their norms exist, all positions of the output (the input itself or apart from it)",
  "The only test compares four arrays with the formula of the code itself; it neither checks the norm of the result nor the computation in place, and uses no complex vectors.",
  [S+"nonlinear.py: NormalizeOperator"])
p("Reports of the conjugate gradients acg and hacg",
  "A run of acg or hacg ends after the first iteration, from the first one on, after which the stop condition given by maxiter, tol, gtol and cond holds; with verbose=True it prints a header, then for each iteration one line with its number and its criterion; with a savefile the results of each iteration are saved, and whenever the run is interrupted what has been saved are the results of the first iterations, with at most one iteration announced but not saved; keywords not given have the documented defaults.",
  "all sequences of criteria, gradients and solutions; all stop conditions and callbacks; all keywords; all points at which a run is interrupted",
  "No test calls acg or hacg with verbose, savefile or return_algo; the order of the callback and of the stop condition, and interruptions, show in long runs only.",
  [S+"iterative/algorithms.py: StopCondition, Callback, Algorithm.run, ConjugateGradient.iterate, define_stop_condition, define_callback, acg, hacg"])
p("The text of an operator tells operators apart",
  "The text that str gives for an operator that is not a composition determines what it shows: two linear operators with an explicit shape and the same text have the same explicit input and output shapes and the same shown name; two reshapings with the same text have the same shapes; two multiples of the identity by integers with the same text are equal; two reductions with the same text are the same reduction along the same axis. Every initialised operator has a text.",
  "all names, all explicit shapes of any number of dimensions, the three broadcasts, all integers, all axes",
  "a collision between two texts, or an operator whose text cannot be written, is a fact about all pairs of shapes and numbers; tests compare a few texts",
  [S+"core.py: Operator.__str__, ReshapeOperator.__str__, HomothetyOperator.__str__", S+"nonlinear.py: MaxOperator.__str__, MinOperator.__str__, ProductOperator.__str__, MinMaxOperator.__str__", S+"utils/misc.py: strshape"])
p("The representation of an operator gives the arguments that build it",
  "The representation of an initialised operator (repr) is a call of its class: for a constructor that keeps its arguments as attributes, Python accepts the call and it gives to each parameter the value that the operator keeps, or a default that stands for it. Only parameters of the constructor and explicit shapes are shown, each with the value kept in the operator. Every initialised operator has a representation.",
  "all constructors (any required and optional parameters), all attributes, any equality of values, which may raise",
  "which arguments are shown depends on the signature, on the attributes and on comparisons with the defaults; the tests look at the representation of a single deleted operator",
  [S+"core.py: Operator.__repr__"])
p("Eigendecompositions",
  "An operator given by orthonormal eigenvectors and eigenvalues is symmetric, multiplies each eigenvector by its eigenvalue and sends the vectors orthogonal to them to zero; its trace is the sum of the eigenvalues; for a complete decomposition, det is zero exactly when the operator is singular and bounds of the eigenvalues bound the quadratic form; cond is the condition number. The keywords are passed to the eigenvalue solver, and symmetric band operators can be decomposed.",
  "all ordered fields, sizes, numbers of eigenvectors, orthonormal vectors, eigenvalues and input vectors; all keywords",
  "the relations hold for all matrices of all sizes; there is no test of this class in the repository",
  [S+"linear.py: EigendecompositionOperator, SymmetricBandOperator.eigen, SymmetricBandOperator.cholesky"])
p("The memory footprint of an operator bounds the memory of its arrays",
  "The property nbytes of an operator is never smaller than the memory held by the distinct arrays of the operator and of its operands at any depth. It is exact when no array is shared, even if the same operand is repeated in a composite. It can be read for every operator, so that every operator can be deleted together with its associated operators.",
  "every operator: any nesting of composites, any sharing of operands and of arrays, any sizes",
  "Sharing between operands at any depth and any composite structure cannot be enumerated.",
  [S+"core.py: Operator.nbytes, Operator.delete, CompositeOperator.nbytes", S+"nonlinear.py: PowerOperator.nbytes"])
p("The texts of messages can be read back",
  "The choices enumerated in a message can be read back from between the quotes, and an empty enumeration raises ValueError. The number of things, and their name, can be read back from their text; the name is plural for all the numbers but 0 and 1. A number of bytes is written exactly, in the largest unit that makes it at least 1, and different numbers have different texts. The messages of the processes of a communicator have the same length and tell the processes apart.",
  "all lists of choices, numbers, names, sizes of communicators and ranks",
  "Unambiguity is about all pairs of inputs.",
  [S+"utils/misc.py: strenum, strplural, strnbytes, strinfo, strelapsed"])
with open(os.path.join(os.path.dirname(__file__), "..", "properties.jsonl"), "w") as f:
    for q in P:
        f.write(json.dumps(q) + "\n")
print(len(P))
