# A Rocq (Coq 8.16.1) model of pyoperators

## Layout

`rocq/theories/` holds, for each area `X`, up to four files:

* `XModel.v`  – executable Gallina functions mirroring the code branch by branch; every definition cites
  the file and lines of /repo it models and says where it simplifies. No proofs.
* `XSpec.v`   – the independent vocabulary used by the theorem statements (small).
* `XProofs.v` – lemmas.
* `XProps.v`  – only the property theorems (`Theorem … exact lemma.`), an `Example` showing that the
  hypotheses are met by a concrete non-trivial case, and `Print Assumptions`.

Values: the arithmetic is exact. Where an operator acts on numbers the theorems are stated for every commutative
ring (`Algebra.v`; with a conjugation, `Matrix.v`, or a root of unity, `Dft.v`, or an ordered field, `Ofield.v`, where
it matters), so that integers, rationals, Gaussian rationals and reals are instances; floating-point rounding is not modelled. Shapes, sizes, addresses are `nat`/`Z`.
Python exceptions are values (`option`/`result`). External calls (numpy allocator, FFTW, user callbacks, MPI)
are section variables/function arguments, universally quantified in the theorems.

## Plan per property

| id | what is modelled | how it is proved |
|----|------------------|------------------|
| C01 | `split`, generator and rank form, over Z | induction on the rank; arithmetic of div/mod |
| C02 | `distribute_shape(s)`, `distribute_slice`, `combine_shape`; a communicator is its size and the list of contributions | list induction, lemmas of C01 |
| C03 | `MemoryPool` as a list of buffers (address, size, layout) and a step function over pool operations, with a set of borrowed buffers | invariant by induction over histories |
| C04 | `iscompatible`, `extract`, `view` | case analysis; first-match lemma + sortedness |
| C05 | `empty` | arithmetic of mod |
| C06 | context managers as programs over the pool with normal/exceptional exit | structural induction on programs; the exceptional half is expected to be refuted (no try/finally in the code) |
| C07 | `_init_flags` as a function on records of booleans; matrices over a ring with conjugation | algebra; expected refutation for orthogonal+symmetric => idempotent |
| C08 | `_generate_associated_operators` with its pointer table, over all flag/rule/method combinations | finite case analysis + induction over attribute paths; denotation over matrices |
| C09 | `set_rule`/`del_rule` over a class hierarchy | list induction |
| C10 | `NonCommutativeCompositeOperator._apply_rules`; the core operators and the block operators with their rules (Calc) | loop invariant, decreasing measure |
| C11 | `CommutativeCompositeOperator._apply_rules`; the core operators and the block operators with their rules (Calc) | loop invariant, decreasing measure |
| C12 | `_apply_rule_homothety(_linear)` | list induction |
| C13 | `CompositionOperator.direct`/`_get_info` over a heap of buffers and the pool | simulation by induction over the chain |
| C14 | `CommutativeCompositeOperator.direct` over a heap | simulation |
| C15 | `_get_shapes` of compositions, `_validate_shapes` | list induction |
| C16 | `_get_slices` and array slicing | list induction |
| C17 | block `direct` methods over a heap | list induction |
| C18 | block associated rules, dot product | algebra over lists |
| C19 | partition validation/merging and block rules | list induction + algebra |
| C20 | `inspect_special_values`, morphing in `DiagonalOperator.__init__` | loop invariant, list induction |
| C21 | data-level rules of broadcasting operators | algebra over nd arrays |
| C22 | Pack/Unpack/Mask | list induction |
| C23 | To1d/ToNd coefficient computation and direct | induction on the shape |
| C24 | tridiagonal/band direct as slice updates | index-wise characterisation |
| C25 | circular embedding, with the FFT as exact circular convolution | index arithmetic modulo the fft size |
| C26 | rotation matrices over pairs (c,s) with c²+s²=1 | ring identities, for all 24 conventions |
| C27 | ufunc loops and element-wise operators over Z/Q | arithmetic, list induction |
| C28 | `broadcast_shapes`, `reshape_broadcast` | list induction |
| C29 | helpers of utils/misc.py | list induction |
| C30 | `RuleManager` state machine | induction over nested programs |
| C31 | proxy cache state machine | invariant over histories |
| C32 | `IterativeAlgorithm` state machine | induction over iterations |
| C33 | PCG iteration over an ordered field | induction over iterations |
| C34 | reductions, differences, trapeze integration, dense and dense block diagonal operators, over n-dimensional arrays | finite sums, reshaping bijections |
| C35 | `todense` loops | linearity, basis expansion |
| C36 | `Timer` state machine | induction over histories |
| C37 | signal-handler state machine | induction over event traces |
| C38 | fake MPI keyvals and collectives | state machine |
| C39 | `__pow__`, eigendecomposition, PowerOperator rules | induction on the exponent |
| C40 | circular convolution, DFT over a ring with a root of unity | finite sums |
| C41 | Lanczos iteration | induction over iterations |
| C42 | norms, criteria and their caches as a state machine over a heap of arrays, line searches | invariant over histories; analysis over ordered fields |
| C43 | the class ConjugateGradient of iterative/algorithms.py as a state machine over numbers that may be not finite, with its stop conditions; criteria of C42, Fletcher-Reeves update and optimal step | simulation of the conjugate gradient of C33, analysis over ordered fields |
| C44 | end of `__call__`, propagate_attributes, _merge_attr and _copy_reverse over dictionaries of attributes; classes are records of names, properties and finalizer | induction over the operands with equality of dictionaries |
| C45 | programs as trees of collective operations, run by any number of processes; the distribution operators, the functions of utils/mpi.py and the conjugate gradient with a communicator | the steps commute (diamond), so that one complete schedule gives all; a rule for functions that processes call together, and a simulation of the serial algorithm |
| C46 | numpy's safe conversions and find_common_type, the types of calls, products, sums and diagonal operators; the numbers that a type represents | finite checks on the types, induction over lists through least upper bounds |
| C47 | the sparse formats, the loops of SciPy's products written out, SparseOperator's constructor, direct, transpose and its rule for scalars | all products reduced to sequences of y[i] += a x[j]; the entries of each format read off its documentation; infinite recursion by induction on the fuel |
| C48 | the conversions on the real numbers of the library, arctan2 from the arctangent, conventions as strings, shapes, inverses and the rule for products | trigonometry of the standard library; uniqueness of angles in their ranges |
| C49 | the criterion of double loop inference on the real numbers of the library, with its memory; the updates of the outer loop; the wrappers of scipy.optimize around any function | derivatives of the library; induction on the history of calls; quadratic bounds |
| C50 | a memory of operators with their communicators, changed in place by the propagation; constructors of sums and products without simplification rules | induction on trees of unshared operators with a frame condition; computations for the counterexamples |
| C51 | `all_eq` and `Operator.__eq__` on trees of values with identities; numbers are rationals with infinities and NaN, arrays are compared with broadcasting | induction on values: the comparison decides an inductive relation; symmetry and transitivity without floating point numbers; computations for the counterexamples |
| C52 | wavelet operators over a commutative ring; PyWavelets' one-dimensional transforms written from their documentation, the two-dimensional ones as functions | algebra of finite sums for one level (adjoint, perfect reconstruction from the orthogonality of the filters), induction on the levels; list induction for the packing |
| C53 | `_rule_block` with its choice between replication and slicing, the data spread to a known shape, the slices of a partition, the class of each part, the rebuilt block operator | for every index of every piece the coefficient of the part is that of the whole data (two orientations of the broadcast by reversal of shapes); the block operators by the predicate `acts` of C17 to C19; counter-examples |
| C54 | the texts made of the expression, with a parser of the grammar of Python; the namespaces seen by numexpr (local variables first, dictionaries by reference or copied); `direct`, `get_data`, the rules of sums, products and blocks; NumexprOperator with its operation | a closing parenthesis ends every expression, by induction on the fuel of the parser; values of expressions depend on their names only; then the lemmas of C20, C21 and C53; counter-examples |
| C55 | assert_same and assert_eq on IEEE numbers without rounding (rationals, infinities, NaN), numpy's broadcasting and assert_allclose, nested Python values | case analysis of the arithmetic of infinities and NaN; induction on nested values with a declarative relation of equality; counter-examples |
| C56 | `least_greater_multiple` with exact or 64-bit integers and any rounding of the logarithms (Lgm) | the grid of exponents, minimum |
| C57 | rules for C, T, H, I, IC, IT, IH of sums, products and groups, the flags they merge, the table of the associated operators (C08); rectangular matrices; blocks and MultiplicationOperator left out | masks of the chains that lead back to the operator, one per flag; induction on the expression; wrong adjoint of sums of complex symmetric operators found |
| C58 | the special methods of Operator, `asoperator`, Python's dispatch between left and right operands, the rules that change whether an operator is linear; one shape, square matrices | induction on the expression with an invariant on the identities of the variables; wrong negations and differences of non-linear operators found |
| C59 | `__str__` of the composite operators on texts, with groupby, replace and the search for dots; the texts of the other operators are given | a printer of expressions shown injective by induction on their sizes, with what may follow each kind of text; the code's texts are texts of that printer; ambiguous texts found |
| C60 | a heap of operators (flags, methods, dict of rules by reference, pointers _C _T _H _I, operands, attributes with bound methods), the dicts of rules, the garbage counter; the operations create, copy, single-operand composite, assign, set_rule, del_rule, associate (with the tables of C08), square, delete | invariant over histories: the live operators with pointers form families indexed by parities; the tables checked for all flags, rules and methods by computation |
| C61 | the special methods of Variable and VariableTranspose, the homothety stage and the loop of the rules of CompositionOperator with the rules that raise, AdditionOperator without flattening; zero scalars, shapes, powers and element-wise products are not modelled | induction over expressions and over the operands; an exact description of the accepted products |
| C62 | the constructor, the transpose and composition rules, and direct over a memory with strided arrays, numpy's contiguity flag and ravel; data types and MPI are not modelled | the flag is shown to be exact; addresses in C order by induction over the dimensions |
| C63 | the constructor, validatein, reshapein and the call of reductions, numpy's reductions with NaN and with nothing to reduce, the block column of MinMaxOperator; data types and rounding are not modelled | folds over the elements; the block column by C17 |
| C64 | the five classes of conditions and __or__, on top of the model of iterative algorithms of C32; conditions that raise other exceptions are not modelled | induction over nested conditions; an invariant on the number of iterations over all commands |
| C65 | RecurModel: keywords as lists of characters, the order, the suffixes, the regular expression, sorting, the missing values, shapes and dtypes, what is displayed | the decimal numerals are injective and a name ends in at most one _old suffix, so the loop is bounded by the number of keywords; induction on the names and values |
| C66 | EnvModel: strip, int, getenv, omp_num_threads and programs using pool_threading with the environment, MKL and the open pools as a state | grammar of the integers against the parser by induction; induction on the programs with an invariant on the open pools |
| C67 | squares, sums along the last axis, roots and the loop of np.divide over a memory of addresses; exact arithmetic, the square root an oracle | invariant of the loop; algebra in ordered fields |
| C68 | StopCondition, Callback, run and cont with the numerical part as an oracle; the keywords of acg and hacg; printed numbers are not rounded | induction on the iterations, prefixes of the list of events |
| C69 | Operator.__str__, the texts of reshapings, homotheties and reductions, strshape; texts are lists of bytes, complex numbers and the letters of floats are left out | unique splitting of texts at a separator, injectivity of the decimal notation |
| C70 | Operator.__repr__; the texts of the values are given, equality of values is any function that may raise | Python's binding of arguments as the specification; induction on the parameters |
| C71 | the composition V W V.T, det, trace, cond; the keywords given to eigsh and to Operator; rounding is left out, the composition is not simplified | finite sums over an ordered field, induction on the list of eigenvalues |
| C72 | nbytes of the leaves and of the composites (FootModel), operators named by their id | the arrays that are counted, with repetitions, cover those that are held; refuted for powers (AttributeError) and for operands shared by nested composites (counted twice) |
| C73 | the five functions on strings of ASCII characters; str of a float, the logarithm and the elapsed time are oracles | a reader of the quoted texts inverts the enumeration; unique first words; induction on the digits |

## Trusted base

* Coq's kernel (8.16.1) and `coqchk`; the standard library. No other library is imported. No axiom is declared, no kernel check is switched off,
  no plugin is used. Tactics written with the `ssreflect` language use the copy that is part of the standard distribution (`Coq.ssr`).
* What Print Assumptions lists for each theorem: next section.
* That the models mirror the code: each definition cites the lines it was written from, so that this can be reviewed side by side. The code was
  read, not run.
* The semantics given to Python and NumPy in the models: exceptions are values, evaluation order is the one of the source; the few NumPy functions
  that are used (`reshape`, `einsum`, `dot`, broadcasting, slices, `diff`, `allclose`, ufunc loops over overlapping memory) are written out in the
  model files under a heading `numpy`.

### Oracles

Everything that the code calls and that is not modelled is an argument of the model's functions, universally quantified in the theorems, with the
hypotheses written in the statement:

| area | argument | hypothesis in the theorems |
|------|----------|----------------------------|
| Memory, Buffer | addresses returned by `np.empty` | fresh memory does not overlap live memory |
| Buffer, Block, Tod | the `direct` methods of the operands | compute a function of their input, do not touch other memory, respect their flags |
| Calc, Engine | meaning of the atoms, their flags (separable included); equality of operators and of data; `blocks_fixed` (false for the code) | sound (`calculus`); the refutations show where the library's own tests and its rules on block operators are not |
| Shape, BlockShape | `reshapein`, `reshapeout`, `validatein`, `validateout` of the operands | any functions; consistency where stated |
| Toep, Fft | the Fourier transform | it is the discrete Fourier transform of a ring with a root of unity (instances: Gaussian rationals, complex numbers) |
| Rot | sine and cosine | c² + s² = 1 (instance: the real functions) |
| Iter | callbacks, stop conditions, user's `iteration` | any functions of the state |
| Proxy | the callback of the user | any function of the history |
| Context | the program's events, the arrival of signals, the clock | any sequence |
| Lan, Norm | `np.sqrt`, `eig_banded` | square root of the numbers met; a spectral decomposition of the matrix given |
| Msg | str of a float, `np.log10`, `time.time` | different floats have different texts without spaces; the integer part of the logarithm is exact; any text |
| Report | the numerical part of the iterations | any functions from the iteration number to the criterion, the gradient and the solution |
| Crit | operators, norms | linear with its transpose where gradients are concerned; any otherwise |
| Spmd | the collective operations of MPI (`serve` in SpmdModel.v), the operators of the conjugate gradient | the processes of a communicator call the same operation; the operators compute the parts of A x, without deadlock |
| Dtype | `astype`, the direct methods, addition | conversions compose and the operators compute the same with a larger type, where values are compared |
| Sparse | the compiled loops of scipy.sparse.sparsetools (written out in SparseModel.v), the transposes of bsr and dia matrices | the transposed matrix has the exchanged entries |
| Sphere | arccos, cos, sin and arctan of numpy | those of the real numbers of Coq's library |
| Dli | the functions fmin_xxx of scipy.optimize; the eigenvalues and eigenvectors of the Lanczos decomposition | any function of the criterion, of the first guess, of the gradient and of the hessian; any decomposition |
| Wave | pywt.wavedec and waverec; pywt.wavedec2 and waverec2; the list of wavelets | the algorithm of the documentation, with any filters and four modes; any functions that return well-formed coefficients whose shapes depend on the shape of the input, and for the adjoint that are adjoint; any list |
| Ari | the dispatch of numpy for an array on the left of an operator; reciprocals | an array of the results for each element, as operators do not define `__array_priority__`; any function |
| Lgm | the logarithms of numpy, rounded up | not too small |
| Nex | numexpr.evaluate | the grammar of Python's expressions, the resolution of names (local variables first) and broadcasting to the output, with any functions of numbers for the operators; `*` is the product |

### How to read seeded/LOG.jsonl

Each line is one wrong program, built by `tools/mutate.py` in a scratch copy.

* `first_broken`: the lemmas or theorems whose proofs were rejected, the first one of each file.
* `theorems_failed`: the theorems of the Props files that were rejected, or that use a rejected lemma, directly or through other lemmas. The uses are found by
  name in the sources (`tools/depend.py`), so a few homonyms may be listed. A theorem that uses a rejected lemma was not refuted: its proof was lost.
* `theorems_not_rechecked`: the other theorems of the files that could not be built. Nothing is known about them.
* `caught`: a theorem failed in the sense above. Examples do not count.

An earlier version of the tool listed all the theorems of the files that could not be built as failed, and counted an edit as caught when only an example rejected
it. The fields of those lines have been computed again from the present sources. The 13 edits that only an example had rejected, and the 8 that had only broken a lemma used
by no theorem, are marked with a `note`, and were tried again with the examples and these lemmas removed. Theorems were then missing for the case of the letters of
a convention (now `C26_case`), the symbols of in-place operations (`C54_numexpr_partial`), the name of the plain operator (`C69_plain`), the texts of shapes and of
the arguments (`C70_shape_text`, `C70_text`) and the digits of ranks (`C73_rank`). One of the edits is equivalent (`decide` in DistModel.v) and stays uncaught.

### What is modelled, by file of /repo/src/pyoperators

| file | modelled | not modelled |
|------|----------|--------------|
| core.py | flags and their deductions, rules (`set_rule`, `del_rule`), associated operators, shapes and their validation, `__call__` and temporaries, `__mul__`/`__pow__`/`todense`, composites (sum, product, composition, group, block), broadcasting/diagonal/constant/identity/zero operators, reductions, communicators (C50), arithmetic with other objects (C58), texts of operators (C59, C69), representations (C70), copies, deletion and single-operand composites (C60), memory footprints (C72), expressions with `Variable` (C61), reshaping (C62), minima and maxima (C63) | the texts of the values in `__repr__`, pickling, `inspect`-based construction, dtype promotion outside C46 |
| rules.py | rule matching on subjects, priorities, `RuleManager` | merging of conflicting user classes at import |
| flags.py | all | decorators as such |
| memory.py | all | |
| linear.py | mask, pack/unpack, rotations, band, tridiagonal, Toeplitz, dense, difference, sum, trapeze, eigendecomposition (powers in C39, the rest in C71), `SparseOperator` (C47), `DiagonalNumexprOperator` (C54) | LAPACK, ARPACK |
| nonlinear.py | power, round, clip, hard/soft thresholding, mask, min/max, To1d/ToNd, ufuncs, spherical coordinates (C48), `NumexprOperator` (C54), `NormalizeOperator` (C67), texts (C69) | dtypes of numexpr |
| fft.py | convolution and FFT operators in all dimensions | FFTW planning, wisdom files, threads |
| proxy.py | all | |
| iterative/ | core (state machine), cg, lanczos, criterions, linesearch, stop conditions, algorithms (numerical part in C43, reports in C68), dli (criterion and updates), optimize | the composition of the loops of dli.py, plotting callbacks |
| utils/misc.py, ufuncs.c | sequence helpers, `least_greater_multiple` (C56), `split`, context managers, Timer, `all_eq`, ufunc loops, texts of messages (C73), `strshape` (C69) | `memory_usage` |
| utils/mpi.py, fake_MPI.py | distribution of shapes and slices, fake keyvals and collectives; combine, combine_shape, filter_comm and mprint with a model of the collective operations (C45) | real MPI, dtypes without MPI type |
| operators_mpi.py | the direct and transpose of the distribution operators (C02), run by several processes (C45) | MPI itself |
| utils/cythonutils.pyx | the loops that count -1, 0 and 1 (C20) | overflow of the counters |
| operators_pywt.py | both operators, the dictionary of corresponding wavelets | PyWavelets |
| utils/testing.py | `assert_same`, `assert_eq` (C55) | complex numbers, subclasses of ndarray, messages, the other one-line assertions, decorators of nose |
| config.py, warnings.py | `getenv` (C66) | the other settings, the classes of warnings |

Left out everywhere, unless stated otherwise: floating-point rounding (except the rounding ufuncs in C27), NaN propagation, `numpy` warnings, threads.

## Print Assumptions

Generated by `tools/mkdesign.py`. Of the 789 property theorems, 765 are closed under the global context (no axiom at all).
The others use the axioms of the standard library's real numbers:

* `C39_laws_real`, `C48_cartesian`, `C48_degrees`, `C48_inverse`, `C48_rule`, `C48_rule_refuted`, `C48_shapes`, `C48_spherical`: `ClassicalDedekindReals.sig_forall_dec`, `ClassicalDedekindReals.sig_not_dec`, `Classical_Prop.classic`, `FunctionalExtensionality.functional_extensionality_dep`
* `C25_complex`, `C26_real`, `C40_complex_numbers`, `C49_gamma`, `C49_gradient`, `C49_gradient_iff`, `C49_gradient_refuted`, `C49_hessian`, `C49_hessian_refuted`, `C49_memory`, `C49_memory_empty`: `ClassicalDedekindReals.sig_forall_dec`, `ClassicalDedekindReals.sig_not_dec`, `FunctionalExtensionality.functional_extensionality_dep`
* `C49_inverse_covariance`, `C49_likelihood`, `C49_tau`, `C49_variances`, `C49_variances_refuted`: `ClassicalDedekindReals.sig_forall_dec`, `FunctionalExtensionality.functional_extensionality_dep`

## Findings

Claims of the list, or of the documentation, that are false of the model. Each is proved false by the theorem named, with a concrete witness.

* `C06_copy_if_requirements_refuted` – Copy_if does not pass the alignment requirement to the pool, so the body may be given a misaligned array: here the pool holds a misaligned array of the right size.
* `C06_get_exception_refuted` – The buffer borrowed with pool.get is lost when the body raises.
* `C06_set_exception_refuted` – Nothing is restored when the body raises: the array given to pool.set stays in the pool.
* `C07_addition_hermitian_refuted` – The sum of complex symmetric operators is marked hermitian although it is not.
* `C07_idempotent_refuted` – A real operator declared orthogonal and symmetric is marked idempotent although it is not...
* `C07_square_refuted` – ... so that A * A gives A, which is not the product.
* `C07_unitary_refuted` – A complex operator declared orthogonal and symmetric is marked unitary although it is not.
* `C08_adjoint_refuted` – A real operator that defines the method adjoint but not transpose has neither transpose nor adjoint.
* `C08_inverse_refuted` – An orthogonal operator that defines the method inverse but not transpose has no inverse.
* `C08_same_object_refuted` – For a complex operator declared hermitian, A.H.C is not A.T.
* `C10_allclose_refuted` – Constants and diagonals that are merely close (np.allclose) are taken for equal in a product.
* `C10_block_const_refuted` – A constant operator accepts inputs of any size, but the product of a block diagonal or block row operator with it is a block operator that partitions its input.
* `C10_engine_terminates_refuted` – Termination does not hold for every set of sound rules: a sound rule that exchanges two commuting operators makes the loop run forever.
* `C10_same_code_refuted` – Two idempotent operators with the same class and code object (closures) are taken for the same operator: their product is simplified into one of them.
* `C10_zero_absorbed_refuted` – A product with the zero operator is replaced by the zero operator even if the other operand is not linear (its value at zero is not zero).
* `C10_zero_block_refuted` – A zero operator may have any output size, but its product with a block diagonal or block column operator is a block operator made of zeros, whose output has the size of the output of the block operator.
* `C11_diag_column_refuted` – The sum of a diagonal operator and a block column is replaced by a block column of sums: the slices of the diagonal operator are applied to the whole input.
* `C11_mask_sum_refuted` – The sum of two masks is a mask: the data are booleans, added with 'or'.
* `C11_row_product_refuted` – The element-wise product of two block rows is replaced by a block row of element-wise products: the product of the sums becomes the sum of the products.
* `C11_separable_column_refuted` – In the sum of a block column or a block row and a separable operator, the separable operator is added to each block: here to the blocks of two block rows, so that the squares of all the elements of the input are added to each output.
* `C12_block_slice_refuted` – The rule of BlockSliceOperator for homotheties is not a sound one: the elements outside the slices are not multiplied.
* `C12_row_linear_refuted` – A block row is flagged linear even if its blocks are not linear: scalars are moved through it.
* `C13_call_converted_input_refuted` – The same happens with distinct input and output if the input has to be converted: it is converted in the output, with which the product is then called in place.
* `C13_call_update_refuted` – A call with a reduction and a misaligned output: the reduction is done in an uninitialised temporary, which is then copied to the output.
* `C13_inplace_call_refuted` – Products declare that they can be called with their input as output, but when exactly one of the operands works out of place, this operand is given its input as output.
* `C13_inplace_sizes_refuted` – An in-place call of a product of in-place operators fails when an intermediate result is larger than the input and the output.
* `C13_nested_operand_refuted` – The output is lent to the pool while it is the input of an operand, here a sum, which takes it for its temporary.
* `C13_update_inplace_refuted` – An in-place first operand that can update its output makes the product claim that it can, but the reduction is ignored.
* `C13_update_lent_refuted` – With a reduction, the output is lent to the pool although its contents are needed.
* `C15_derived_refuted` – ... which does happen: a free operator between two explicit ones.
* `C15_free_refuted` – If the first operand applied does not know its output shape, the product does not know its own: it is taken to be the shape of the input, even if the operands applied one by one give another shape.
* `C15_intermediate_refuted` – The validation methods of the operands other than the first and the last are not called: a reduction along the axis 2 may be composed with an operator whose output has two dimensions, although it refuses such an array.
* `C15_sum_refuted` – Nothing is verified for the others: the shape methods of the first implicit operand are those of the sum.
* `C16_inferred_refuted` – Otherwise it may be wrong: the other dimensions are taken to be zero. Here the operator drops the last dimension, as To1dOperator does.
* `C17_inplace_axes_refuted` – In place, with different axes: the operator is a transposition, but the second piece has already been changed.
* `C17_inplace_sizes_refuted` – In place, with pieces of different sizes in the input and in the output: the second piece is overwritten before it is read.
* `C17_oversized_refuted` – An input longer than the partition is accepted when the blocks are square (the output then has the shape of the input, 1213-1222); the end of the output is not set.
* `C17_single_refuted` – With a new axis, a single block is not equivalent to the block operator.
* `C17_unknown_refuted` – A column or a row whose partition is not known cannot be applied, though the blocks are defined on the input.
* `C18_conjugate_operation_refuted` – The conjugate of a block row loses the operation of the row: a product becomes a sum.
* `C18_row_linear_refuted` – A block row with the default operation is said to be linear even if its blocks are not.
* `C18_symmetric_refuted` – A block diagonal operator whose blocks are symmetric is its own transpose, whatever the axes: wrong for a cyclic permutation of the axes.
* `C19_operation_lost_refuted` – A block row with another operation than the addition loses it.
* `C19_row_times_row_refuted` – The element-wise product of two block rows is merged into a row of products.
* `C19_separable_refuted` – A separable operator is moved inside a block column with a new last axis: wrong if it acts on that axis, as To1dOperator does.
* `C19_sum_separable_refuted` – Adding a separable operator to the blocks is wrong when the axes differ: here the operator is a transposition.
* `C19_threshold_refuted` – MaximumOperator, MinimumOperator and ClipOperator are said to be separable although their limits may be arrays. The product of MaximumOperator([0, 10]) and a block column of which the blocks are stacked along a new last axis applies the two limits along the axis of the blocks' own outputs instead: no error, other values.
* `C19_times_nonlinear_refuted` – The operator * with a nonlinear block operator is neither the element-wise product nor the composition.
* `C20_constant_empty_refuted` – It cannot be made from an array without elements.
* `C20_unfit_refuted` – Otherwise, the shape of the data is forgotten and any array is accepted.
* `C21_as_strided_refuted` – The strides of the data are ignored; for every other element of an array, or a transposed array, other elements are read.
* `C21_multiply_refuted` – The missing case. b has become a string when 'rightward' is looked for, so that a rightward operator is broadcast leftward when the other one does not broadcast.
* `C21_scalar_refuted` – Data with dimensions may be declared 'scalar'; they are then aligned with the first dimension of a rightward operator instead of the last one of the array.
* `C21_sum_masks_refuted` – The data of masks are booleans, and their sum is the logical or: M + M is M.
* `C22_all_true_shape_refuted` – When all the mask is True the packed array is not a vector but keeps the shape of the mask.
* `C22_rule_T_refuted` – PackOperator declares the product P.T * P to be the identity (linear.py 903); it is the masking above.
* `C24_band_refuted` – With two superdiagonals, the subdiagonals are misplaced.
* `C24_band_transpose_refuted` – The transpose of a BandOperator always raises AttributeError.
* `C24_lower_triangular_refuted` – A LowerTriangularOperator with a subdiagonal always raises ValueError.
* `C24_symmetric_band_upper_refuted` – Also if it is told that the upper part is stored.
* `C24_todense_refuted` – With a scalar, it raises ValueError.
* `C24_transpose_method_refuted` – The method that applies the transpose in place leaves the output as it was.
* `C25_copy_refuted` – If the output cannot be reshaped without a copy, it is left as it was.
* `C25_empty_refuted` – With no sample, the operator cannot always be made.
* `C25_rows_refuted` – With as many first rows as in the last axis but one (two, for an input of shape (2, 2, 3)), there is no exception, and the last rows of the output are not computed.
* `C27_double_rhtmi_refuted` – In double precision, rounding half towards minus or plus infinity changes even integers, from 2^52: adding one half has no effect on them.
* `C27_double_rhtpi_refuted` – In double precision, rounding half towards plus infinity changes even integers above 2^52.
* `C27_masking_start_refuted` – The masking loop takes an output that starts where the input starts for the input itself. Here the input is read backwards (NumPy makes a copy in this case).
* `C27_methods_refuted` – Two of the documented methods, not said to be not implemented, do not exist; the names of the methods are garbled.
* `C27_names_refuted` – The names of the rounding operators are garbled.
* `C30_reentry_refuted` – Entering the same manager again inside its own context loses the switches saved by the outer one: [with rule_manager(a=1): with rule_manager(a=0): pass] leaves a at 1.
* `C31_failure_refuted` – If the callback fails once, the operator of the previous index, which is already deleted, stays in use.
* `C31_shapes_refuted` – The methods on shapes of a proxy may be those of the operator of another index: here proxy 1 is asked and it is the operator 0 that answers, though the callback returns different operators for 0 and 1.
* `C31_shared_refuted` – If the callback returns twice the same object (operators that the user keeps), it is used after it has been deleted.
* `C32_cont_not_started_refuted` – Cont before any iteration is rejected only for recursions of order one.
* `C32_run_zero_refuted` – Run(0) does not do zero iterations but an unlimited number of them.
* `C33_restart_refuted` – The method restart lets escape the exception that ends the run when there is nothing to iterate, which the method run catches.
* `C33_zero_tolerance_refuted` – With the tolerance zero the exact solution is reached and the algorithm goes on by dividing zero by zero: the result is NaN. The documentation does not exclude this tolerance.
* `C34_dense_product_extra_refuted` – So does the product of rightward operators with different numbers of extra axes.
* `C34_dense_product_refuted` – The product of a leftward by a rightward operator becomes a rightward one, which is something else.
* `C34_dense_scaled_refuted` – The product by a scalar forgets that the broadcast is rightward.
* `C34_dense_stretched_refuted` – If the input is broadcast, the transpose does not sum over the blocks.
* `C34_difference_complex_refuted` – The imaginary part is lost by the transpose (here of the array of the only element i).
* `C34_rotation_scaled_refuted` – Several rotations by 0 times a scalar: the matrices are taken for angles, and a vector becomes an array of 4 dimensions.
* `C34_sum_axis_refuted` – With a negative axis before the last one, the transpose puts the new axis at the wrong place: it raises, or gives a wrong result.
* `C34_trapeze_integer_refuted` – With integer abscissae, the weights 1/2, 3/2 and 1 are truncated: the integral of the function 1 from 0 to 3 is found to be 2.
* `C35_integer_refuted` – Todense of an operator without dtype is computed with integers: 1/2 becomes 0.
* `C36_reset_inside_refuted` – Reset inside a context does not reset the time.
* `C37_interruptible_refuted` – Interruptible does not restore the handler when its block is interrupted.
* `C37_lost_refuted` – An interrupt is lost when the block raises another exception after it.
* `C37_nested_refuted` – An interrupt inside a nested uninterruptible block breaks the enclosing one.
* `C37_setting_refuted` – Not after an exception.
* `C38_freed_keyval_refuted` – A keyval freed while some communicator has a value for it: the next keyval created has the same number, and the value is seen through it.
* `C39_close_refuted` – Exponents merely close to special ones are replaced by them: the power 2.00001 is the square.
* `C39_float_refuted` – A float equal to an integer is refused with a TypeError.
* `C39_integers_refuted` – With integers, and in particular for the identity made without a dtype, exponents below -1 are refused.
* `C39_root_refuted` – The square root of the square is simplified into the identity, whatever the sign of the input is.
* `C39_shape_refuted` – The shape of the operator is lost: the power accepts an input that the operator refuses.
* `C39_star_refuted` – The product of operators is not associative: the product of the square and of the reciprocal is simplified into the identity, which is linear, and the product of the identity and a linear operator B is B instead of the element-wise product of their results. Here B doubles its input, and the input is 3: Square * (Reciprocal * B) gives 9 * (1/3 * 6) = 18, and (Square * Reciprocal) * B gives 6.
* `C39_truncated_refuted` – For the eigsh default, some of the eigenvectors only, the power 0 is not the identity, and the power -1, given as the inverse, is not the inverse.
* `C40_adjoint_refuted` – What is called the adjoint is not, because the transform is not normalised.
* `C40_axes_refuted` – If the transform is along some of the axes, it is not divided by the right number.
* `C40_copy_transpose_refuted` – The transpose of a copy of the transpose is not the operator (a copy does not remember that it is one).
* `C40_homothety_refuted` – The operator multiplied by a number which is not real is wrong.
* `C41_breakdown_refuted` – A maximum number of iterations larger than the dimension, such as the default one, always fails: beta vanishes and NaNs appear, the algorithm does not stop.
* `C41_input_refuted` – The user's starting vector is overwritten, if it is contiguous.
* `C41_none_refuted` – The documented maxiter=None is refused.
* `C41_steps_refuted` – Run(n) with fewer iterations than maxiter gives another operator than the algorithm made for n iterations.
* `C42_attribute_refuted` – A scaled norm forgets its parameter: its public attribute is a dictionary.
* `C42_broadcast_refuted` – The comparison with the last point broadcasts: after (1, 1, 1), the norm of (1) is said to be 3.
* `C42_data_refuted` – The data of an operator whose output has several dimensions are refused, and flattened data are accepted although they cannot be subtracted.
* `C42_empty_refuted` – With an empty array, the operator is never applied.
* `C42_full_refuted` – The optimal step itself is never tried ('starts with optimal steps'): even where it reaches the minimum, half of it is returned.
* `C42_integers_refuted` – The Huber function of integers is truncated.
* `C42_negative_refuted` – Backtracking from a negative value, as with a negative hyperparameter: the step is neither tried nor reduced, and may increase the criterion.
* `C42_nested_refuted` – Sum([criterion, ...]) nests criteria, for which there is no optimal step.
* `C42_norm1_refuted` – For p = 1, the derivative at 0 does not exist.
* `C42_stale_refuted` – An evaluation that fails spoils the cache of a criterion: the same evaluation then returns the value at the previous point.
* `C42_stuck_refuted` – With a recent NumPy, an evaluation at an array of a wrong size makes all others fail.
* `C43_call_refuted` – The method __call__ of the algorithms, unlike run, does not return the solution.
* `C43_gtol_refuted` – The argument gtol of StopCondition is compared to the square of the norm of the gradient, and the gradient is not that of the solution: here the norm of the gradient is 1/3 and gtol is 1/4.
* `C43_guess_refuted` – The argument x0 of ConjugateGradient is ignored: the algorithm starts from zero.
* `C43_huber_increase_refuted` – Hacg may increase the criterion: the optimal step does not take the hyperparameters of Huber norms into account.
* `C43_nan_refuted` – ConjugateGradient returns NaN when it finds the exact minimum, which it does for the identity model and the default stop condition: the next iteration divides 0 by 0.
* `C43_polak_ribiere_refuted` – ConjugateGradient with update_type=polak_ribiere raises AttributeError at the second iteration: there is no function numpy.norm.
* `C43_tolerance_refuted` – ConjugateGradient with a tolerance on the criterion only does not end after the exact minimum: the residual is NaN.
* `C43_unconditional_refuted` – The stop condition without test, StopCondition(), never ends.
* `C44_class_refuted` – An operator without attributes, an array without attributes, and the result of another operator as argument out: the call fails with TypeError, after the computation.
* `C44_finalize_refuted` – A class whose __array_finalize__ sets attributes: a product forgets those of the intermediate class, that its operands called one by one keep.
* `C44_merged_refuted` – A product that is simplified by a rule may propagate other attributes: here the class attribute unit, which the intermediate class does not have, is kept.
* `C44_property_refuted` – Attributes beginning with an underscore are not set first, as the comment in the code says: not before those beginning with an upper-case letter, so that a property Unit is overwritten by the one of the input.
* `C44_stale_refuted` – The argument out keeps attributes of an earlier computation, that the result does not have.
* `C44_sum_refuted` – The attributes of the second operand of a sum are lost, even if the first one has none; its class is not.
* `C44_symmetric_refuted` – The transpose of a symmetric operator propagates attrout and classout instead of attrin and classin.
* `C44_wrap_refuted` – The class of the result of a product may be numpy.ndarray when it is ndarraywrap for its operands called one by one.
* `C45_contiguous_refuted` – MPIDistributionGlobalOperator.transpose views its input as bytes: an input that is not contiguous in one process raises a ValueError there, and the other processes wait for ever.
* `C45_filter_exception_refuted` – Filter_comm has no try/finally: an exception of the body in one process skips the collective call of Free, in which the other processes of the group wait for ever. (The documentation presents it as a context manager, which releases the communicator in any case.)
* `C46_diagonal_refuted` – The type of a diagonal operator depends on the values of the diagonal: it is None if they are all equal to one, and the argument dtype is lost if they are zeros and ones, because the operator becomes a MaskOperator. DiagonalOperator([1., 1.]) and DiagonalOperator([1, 0], dtype=float) return integers for integers.
* `C46_exact_refuted` – The integers of 64 bits are converted to floating-point numbers of 64 bits, which do not represent all of them: calling an operator of type float64 with them rounds the input.
* `C46_half_refuted` – There is no complex type of 4 bytes: half precision becomes double precision, not the single precision that suffices, and does not come back.
* `C46_mixed_refuted` – Numpy's common types are not associative: with signed and unsigned integers, the type of the result of a product is not that of its operands called one by one. (x of type int8, B of type uint8, A of type float16: (A * B)(x) is a float16, A(B(x)) a float32.)
* `C46_scalar_refuted` – The product of an operator by a Python integer does not have the type of the operator: 2 * A gives double precision for single precision inputs.
* `C46_ufunc_refuted` – An operator made of a ufunc, such as numpy.exp, that has a loop for single precision gives double precision for single precision inputs.
* `C46_values_refuted` – The input of a product is converted before the first operand is applied: with operators that do not compute the same with larger types, as those on integers that overflow, the result is not that of the operands called one by one.
* `C47_scalar_refuted` – The product of a number other than zero and one and an operator made of a sparse matrix cannot be formed: the rule that absorbs the number multiplies the matrix by the operator of the number, which is the same product again, without end (RecursionError). Thus 2 * S, S * 2, -S and A - S raise an exception.
* `C48_rule_refuted` – The product of Cartesian2SphericalOperator and Spherical2CartesianOperator is replaced by the identity, although it brings the angles into their usual ranges: without simplification it gives the azimuth 0 at the poles, and azimuths between 0 and 2 pi.
* `C49_cobyla_refuted` – FminCOBYLA returns None: the result of the optimiser is put in current_solution, which is then replaced by optimizer_output, never set
* `C49_first_guess_refuted` – The first guess x0 is not used: it is replaced by None at the end of __init__ and by zeros in __call__. The inner loop of the double loop algorithm does not start from the last solution.
* `C49_gradient_refuted` – The gradient method of the criterion of the inner loop is not its gradient: the penalization has a factor 2 in dpen and none in __call__ (the comment kept in the code has the factor in both). The line search and the Newton steps do not minimise the same function.
* `C49_hessian_refuted` – Hessian_p is not the derivative of gradient, unless both are zero: the factors 2 of the gradient are lost
* `C49_variances_refuted` – Z is not the posterior variance diag(B A^-1 B^T) of the coefficients, which the double loop algorithm requires: the eigenvalues of the inverse covariance are used instead of their inverses
* `C50_acquired_refuted` – The communicators obtained by propagation are not validated: an operator that adopts the communicator of its right neighbour may then be incompatible with its left neighbour.
* `C50_grouping_refuted` – A product of three operators may be accepted although it is refused when two of them are multiplied first: the communicators that are given to an operand depend on the grouping.
* `C50_overwritten_refuted` – The construction of a product may change silently the communicators inside an unrelated operator, which becomes inconsistent
* `C50_shared_refuted` – Using an operator in a product changes it: a sum S multiplied by an operator of communicator X gets X for ever, and S times an operator of communicator Y, possible before, is then a ValueError
* `C50_unknown_refuted` – The output communicator of an operator whose input communicator is unknown is not given to the sum applied after it
* `C51_function_refuted` – Operators with functions that differ are found equal: a bound method is compared without its object, and a function without the values of its free variables, so Operator(lambda x, out: ... n ...) for two values of n are equal
* `C51_nan_refuted` – A copy of an operator with a NaN is not equal to it, although the operator is equal to itself
* `C51_operator_refuted` – The comparison of two operators may raise an exception instead of being False: ValueError for diagonals of different sizes, since the arrays are compared before the shapes of the operators, and TypeError for a number and None
* `C51_shape_refuted` – Arrays of different shapes are found equal if they are so after broadcasting, for instance [1] and [1, 1], and an array with no element is equal to any number
* `C51_small_refuted` – Operators with small coefficients are found equal when they are not: the diagonals (1e-9, 1e-9) and (-2e-9, 0), since the absolute tolerance is 1e-8 whatever the scale
* `C51_symmetric_refuted` – The comparison is not symmetric: PowerOperator(n) compared with a value that is not a number raises TypeError if the number is on the left and is False if it is on the right, and the tolerance is relative to the number on the right (utils/misc.py, 157-163)
* `C51_transitive_refuted` – The comparison is not transitive: 0, 1e-8 and 2e-8
* `C52_adjoint_refuted` – In the other modes of extension, the transpose of WaveletOperator is not its adjoint: for instance 'symmetric', with an orthogonal wavelet and an input of odd size
* `C52_custom_refuted` – A Wavelet object with filters of one's own, whose name is not in the list of PyWavelets, is refused with KeyError although Wavelet objects are accepted as argument: the corresponding wavelet is looked up by name (operators_pywt.py, 58-61)
* `C53_boundary_refuted` – The test of core.py 4070 is axis > ndim, where the first axis that the data does not cover is axis = ndim: the product of DiagonalOperator([2, 3], broadcast='rightward') and of a block diagonal operator along the axis 1, whose blocks have implicit shapes, raises IndexError although its operands can be applied one after the other.
* `C53_declared_refuted` – DiagonalOperator([2, 2, 2, 2]) is a HomothetyOperator of shape (4,); when the shape of the arrays is not known to the block operator, core.py 4052-4054, this operator itself is given to the blocks, whose arrays have another shape: the application raises ValueError.
* `C53_empty_refuted` – A homothety and a block operator of known shape one of whose pieces is empty: HomothetyOperator reads the first element of an empty slice, core.py 4357-4360, and the product raises IndexError.
* `C53_new_axis_refuted` – For a new axis -1 and one-dimensional data that is broadcast rightward, the data is replicated, core.py 4057-4067: if the array has no other dimension, then the data lies along the new axis and each block is multiplied by all of it: the application raises ValueError, where the operands can be applied one after the other.
* `C53_operation_refuted` – The operation of a block row is not passed on, core.py 4113-4121: a BlockRowOperator whose operation is a product becomes a sum when it is composed with a diagonal operator.
* `C53_stretched_refuted` – Data of size one along the axis is stretched by the broadcast but sliced by the rule when the shapes are implicit, core.py 4094-4111: the second slice of DiagonalOperator([[2, 3, 4]], broadcast='rightward') is empty, a DiagonalOperator without elements is a ZeroOperator, and the product with a block diagonal operator silently gives zeros in the second block.
* `C53_sum_column_refuted` – In the sum of a diagonal operator and of a block column, the parts for the output partition are added to the blocks, core.py 4130-4135, but each part is then applied to the whole input. Here DiagonalOperator([2, 3, 4, 5, ...]) is of size 4 and the blocks are 2 x 4 matrices: the sum is a 4 x 4 operator, but its first block would apply a diagonal of size 2 to a vector of size 4.
* `C54_constant_refuted` – The expression may not be a constant: the data of DiagonalNumexprOperator([1, 2], '5') is a scalar, and its sum with the identity refuses the inputs of shape (2,).
* `C54_dictionary_refuted` – When the dictionary of the user changes, the operator is not changed, but its sums and products with other diagonal operators are: direct uses a copy of the dictionary, get_data does not.
* `C54_op_name_refuted` – A name 'op' of the dictionary can be used, but not when the result is added to the output, as in a sum of operators.
* `C54_output_name_refuted` – A name 'output' of the dictionary of a NumexprOperator is not used: the memory in which the result will be written is.
* `C54_rightward_array_refuted` – Arrays of the dictionary are not transposed when the data is broadcast rightward, and the data is: the operator and its product with the identity are different.
* `C54_sliced_array_refuted` – Arrays of the dictionary are not sliced when the operator is distributed over blocks: the operators for the blocks then raise an exception, or use the wrong elements.
* `C54_variable_input_refuted` – The variable may not be called 'input': DiagonalNumexprOperator([2, 3], 'input', var='input') squares its input, although its data is [2, 3].
* `C55_dictionary_refuted` – A dictionary equals the list of its keys, whatever its values.
* `C55_equal_symmetric_refuted` – The order of the arguments of assert_eq matters: the tolerance is relative to the second one.
* `C55_frozenset_refuted` – Equal frozensets are rejected when they are iterated over in different orders.
* `C55_opposite_infinities_refuted` – Opposite infinities are accepted: the difference is infinite, and so is the tolerance.
* `C56_numpy2_refuted` – From numpy 2 on, every call with valid arguments raises ValueError: np.amin is given the argument where without the argument initial.
* `C56_one_refuted` – The factor 1 makes the function raise OverflowError, or ValueError, although it changes nothing to the products; so does a number equal to 0, whose least multiple is 1.
* `C56_overflow_refuted` – The largest powers of all the factors are multiplied together, so that the integers overflow: for a = 251251301585999003, far below 2^63, the number that is returned is not a product of powers of 2 and 3 (the right answer is 259700248434180096).
* `C56_rounding_refuted` – If a logarithm is rounded down, as happens in double precision for 10^15 + 1 and the factor 10, or 2^49 + 1 and the factor 2, no value is found and the result is 0.
* `C57_adjoint_refuted` – The adjoint of the sum of two complex symmetric operators is the sum itself: AdditionOperator._merge_flags, core.py 2031, reads the flag symmetric of the operands for the flag hermitian, and the adjoint of a hermitian operator is the operator.
* `C57_inverse_refuted` – A sum does not have an inverse even if the sum of the matrices is invertible: AdditionOperator has no rule and no method for it. Then neither has a product with such a sum.
* `C58_left_array_refuted` – The product of an array and an operator is not what __rmul__ computes for a list, the transpose of the operator applied to it: numpy makes an array of as many operators as the array has elements.
* `C58_list_refuted` – A list or a function can be added to any operator, but never subtracted: __sub__ applies the unary minus to the list or function, which raises TypeError, although asoperator accepts both.
* `C58_negation_refuted` – The negation of an operator that is not linear is not the negation of its values: -f is the element-wise product of HomothetyOperator(-1) and f, so (-f)(x) is -x f(x). For the square, (-f)(2) is -8.
* `C58_number_refuted` – A number is a constant in a product with an operator that is not linear, but a multiple of the identity in a sum: f * 3 is 3 f(x) and f + 3 is f(x) + 3 x. For the square, f * 3 at 2 is 12 and f + 3 at 2 is 10, not 7.
* `C58_rules_refuted` – The meaning of a product depends on the rules of simplification: (A / 1) * B is a linear operator, the composition, only because a rule makes A / 1 linear. With the rules switched off it is the element-wise product of the values: with A = 3 and B = 5, it is 3 x 5 x instead of 15 x.
* `C58_subtraction_refuted` – The same happens to differences: with the square f and A = 3, (A - f)(2) is 6 - 8 and not 6 - 4, although (A + f)(2) is 6 + 4.
* `C58_transpose_refuted` – The transpose of asoperator(L), for a complex LinearOperator L of scipy, is its adjoint: rmatvec, which scipy defines as the product with the adjoint, is taken as transpose. For L = [[i]] the transpose of the operator computes -i.
* `C59_application_refuted` – The composition of a sum of operators that are not linear with an operator is shown as if only the last one was applied to it: (f + g)(c) and f + g(c) have the same text.
* `C59_blocks_refuted` – Block columns and rows are shown by their first and last blocks only, whatever is between them and however many there are.
* `C59_dots_refuted` – The dots that stand for the blocks left out are mistaken for the place of the argument: a block diagonal operator with three blocks f, g and h, applied after the operator a, is shown as if it had the block a.
* `C59_multiplication_refuted` – The same for element-wise products.
* `C59_product_refuted` – The product of a sum and an operator is shown without parentheses: (a + b) * c and a + b * c have the same text but compute 4 x and 3 x if a and b are the identity and c is the double.
* `C59_square_refuted` – A square, or anything that has a square among its operands, has no text: SquareOperator.__str__ returns bytes, so that str raises TypeError.
* `C60_copy_rules_refuted` – A copy shares the rules of the original: a rule set on the copy is set on the original.
* `C60_counted_twice_refuted` – The bytes of the operands are counted as freed when a composite is deleted, although they are not, and counted again when the operands are deleted: here two operators of 8 bytes count for 32.
* `C60_idempotent_refuted` – Composing an idempotent operator P with itself, as in A * P * P, resets P: P.T then is a new operator, the transpose t read before being still there with t.T = P. Deleting P leaves t, whose transpose is a deleted operator.
* `C60_operands_refuted` – Deleting an operator leaves the composites that have it as operand, with a deleted operand.
* `C60_plus_zero_refuted` – For an operator A = Operator(direct, transpose=..., flags='linear,involutary'), the operator A + 0 has the rules of A, in which the inverse is the operator itself, but not its flag involutary: its transpose is overwritten by the transpose of its inverse, an operator without direct method, so that (A + 0).T cannot be applied although A.T can.
* `C60_single_operand_refuted` – AdditionOperator([A], flags='symmetric') changes A, which shares its rules: A.T then is A, although A is not symmetric.
* `C61_minus_row_refuted` – -X.T and X.T - Y.T, which are products with HomothetyOperator(-1), raise a ValueError.
* `C61_outer_product_refuted` – X * (Y.T * A), the product of a column and a row, silently gives an element-wise product, whereas X * Y.T raises an exception.
* `C61_outer_refuted` – X * Y.T raises a TypeError: Variable.__mul__ has a case for it, but the composition it makes is always rejected by the rule of Variable.
* `C61_scaled_row_refuted` – A scalar cannot be multiplied with a transposed variable. 2 * X.T, X.T * 2, (2 * X).T, 2 * (X.T * Y) and X.T * (2 * A), all of which have a meaning, raise a ValueError, because the scalar is moved to the front of the product, where the rule of VariableTranspose rejects any operator.
* `C61_sums_refuted` – Sums escape the checks. (X + Y) * A is accepted as a composition although X * A is not one, and so are X + X.T and X + A; none of these has a meaning.
* `C62_column_refuted` – BlockColumnOperator([ReshapeOperator(n, (n, 1)), ...], axisout=1) leaves its output uninitialised when n > 1 and there are several blocks: each block is given the column output[:, j:j+1], which is not contiguous, and writes nothing to it.
* `C62_strided_refuted` – A ReshapeOperator called with an output that is not contiguous (out=a[:, ::2]) writes nothing: it assigns to output.ravel(), which is then a copy, and it does not ask for a contiguous output. The call returns the output as it was, whatever it contained.
* `C63_product_nan_refuted` – ProductOperator has the default skipna=True, documented as if NaN elements were not counted; but it passes np.multiply, whose reduction does not know skipna with numpy 1: the product of [2, NaN] is NaN, not 2.
* `C63_sum_nan_refuted` – SumOperator is declared linear, but its default skipna=True counts NaN for zero: the sum of x + y is not the sum of x plus the sum of y if x contains NaN. Products that the rules of linear operators rearrange then give other results.
* `C64_below_refuted` – MaxIterationStopCondition compares with ==, not >=, and the count starts at the order of the recursion minus one: a maximum less than this, or negative, never stops the iterations.
* `C64_text_refuted` – Str(c | d) raises TypeError: OrStopCondition.__str__ has no return statement.
* `C65_complex_refuted` – The documentation of the argument dtype says that "complex variables stay complex", which is false for a dtype that is not a floating-point one: with dtype=int a complex initial value becomes an integer. With half precision it raises TypeError, since there is no complex dtype of that precision.
* `C65_display_refuted` – With disp=True, an algorithm with several variables whose recursion is not in place raises UnboundLocalError at its first iteration: the default callback builds the dictionary of their values, but does not assign it to the local variable it prints.
* `C65_gap_refuted` – An initial value that cannot be used is not reported. IterativeAlgorithm(x=..., x_old=..., x_old3=...), in which x_old2 is missing, is accepted as a recursion of order 2: x_old3 is silently ignored.
* `C65_inplace_refuted` – An in-place recursion ignores the previous values, but counts them in its order: IterativeAlgorithm(x=..., x_old=..., inplace_recursion=True) has only the attribute x, no x_old, yet starts with niterations equal to 1.
* `C65_orphan_refuted` – The previous value of a variable whose current value is not given is silently ignored: IterativeAlgorithm(x=..., x_old=..., y_old=...) has the only variable x, instead of raising the error "The initial value 'y' is not specified".
* `C66_alignment_refuted` – PYOPERATORS_MEMORY_ALIGNMENT=0 is accepted without a warning, although addresses are then reduced modulo 0 (memory.py 112 and core.py 2518), which raises ZeroDivisionError.
* `C66_exception_refuted` – The context manager pool_threading restores nothing if its block raises: OMP_NUM_THREADS remains equal to 1, MKL remains limited to one thread and the pool is not closed.
* `C66_list_refuted` – The values of OMP_NUM_THREADS that OpenMP allows for nested parallelism, such as 4,2, are not understood: pool_threading() raises ValueError, and so does importing the package if PyFFTW is available, since fft.py calls omp_num_threads at line 23.
* `C66_removed_refuted` – If OMP_NUM_THREADS is not set beforehand and the block removes it from the environment, KeyError is raised at the end of the block.
* `C66_true_refuted` – PYOPERATORS_VERBOSE=True or PYOPERATORS_NO_MPI=yes do not set these boolean settings: only integers are read, and other texts leave the default value (with a warning).
* `C66_zero_refuted` – Pool_threading(0) raises ValueError after it has changed the numbers of threads, which are not restored.
* `C67_complex_refuted` – NormalizeOperator(dtype=complex) adds the squares of the elements, not the squares of their moduli: the norm of the result is not 1. Here the vector is (5, 3i), and the squared norm of the result is 17/8; the vector (1, i) would be divided by zero.
* `C68_misspelt_refuted` – A misspelt keyword is accepted and ignored: acg(model, data, max_iter=10) has no limit on the number of iterations.
* `C68_quiet_refuted` – Even with verbose=False each run prints the message that the class Algorithm is deprecated.
* `C68_rerun_refuted` – A stop condition keeps its residual between runs, and the algorithms made without the argument stop_condition share one: the first line of the second run shows the last residual of the first run.
* `C68_residual_refuted` – The residual printed by acg and hacg with verbose=True is not that of the iteration of the line: the callback is called before the stop condition computes the residual. The first line has none and the others have that of the iteration before: here the second line says 1/2, whereas the decrease of the second iteration, from 8 to 4, is 1/4 of the first criterion.
* `C68_return_algo_refuted` – Hacg ignores its argument return_algo and returns the solution alone.
* `C68_stop_condition_refuted` – The functions acg and hacg cannot be given a stop condition or a callback: they pass their own ones besides those of the caller, and Python raises TypeError.
* `C69_floor_refuted` – RoundOperator.__str__ (nonlinear.py 753) compares the end of the method with 'rmi' instead of 'tmi': no rounding is ever shown as floor, and RoundOperator('rtmi'), which is np.floor, is shown as round_tmi, whereas 'rtpi' and 'rtz' are shown as round_ceil and round_trunc.
* `C69_infinite_refuted` – HomothetyOperator.__str__ (core.py 4376-4384) calls int(data) before any test: HomothetyOperator(np.nan) and HomothetyOperator(np.inf), which can be built and applied, have no text: str raises ValueError or OverflowError.
* `C69_minmax_refuted` – MinMaxOperator.__str__ (nonlinear.py 530-531) reads self.axis, which neither MinMaxOperator.__init__ nor BlockColumnOperator.__init__ sets: str(MinMaxOperator()) and str of any composite that contains it raise AttributeError, for any axis.
* `C69_nonlinear_refuted` – The shapes are shown for linear operators only (core.py 1567): two non-linear operators of different explicit shapes have the same text.
* `C70_empty_refuted` – The representation of an array reads its first element (core.py 1650): repr raises IndexError for an operator that keeps an empty array, such as MaximumOperator(np.zeros(0)).
* `C70_keywords_refuted` – Inspect.signature lists **keywords (core.py 1591-1593), whose default is inspect._empty like that of a required parameter, so __repr__ adds a positional None to the representation of every operator whose constructor has **keywords, which nearly all the classes of the library have: ClipOperator(0, 1) is shown as ClipOperator(0, 1, None), a call that fails. When a keyword is shown before, the text is not Python. When the call is accepted, an optional parameter takes None.
* `C70_not_kept_refuted` – An argument that the constructor does not keep is shown as None (core.py 1619): ProductOperator, MaxOperator and MinOperator do not keep skipna, so MaxOperator(axis=0, skipna=True) and MaxOperator(axis=0) are both shown as MaxOperator(axis=0, skipna=None, None).
* `C71_cholesky_refuted` – SymmetricBandOperator.cholesky (linear.py 1697-1700) gives two positional arguments to LowerTriangularOperator and UpperTriangularOperator, which take one: it raises TypeError for every positive definite operator.
* `C71_cond_refuted` – Cond (linear.py 1942-1943) divides the largest by the smallest eigenvalue instead of their absolute values: for the eigenvalues 1 and -2 it gives -1/2 instead of 2, for -1 and -2, 1/2. It raises when all the eigenvalues are zero.
* `C71_eigvals_only_refuted` – SymmetricBandOperator.eigen(eigvals_only=True) (linear.py 1674) unpacks the array of the eigenvalues into w and v: it raises ValueError unless there are two, and then the second one is taken for the eigenvectors.
* `C71_keywords_refuted` – The keywords of EigendecompositionOperator are documented as passed to eigsh, but they are also given to Operator.__init__ (linear.py 1896 and 1902), and no keyword is a parameter of both: EigendecompositionOperator(A, k=3) or with any other keyword raises TypeError, after the decomposition has been computed.
* `C72_power_refuted` – The footprint of PowerOperator(3), and of the square, square root and reciprocal, raises AttributeError, since the exponent is a Python number; the operator, or a composite that contains it, cannot be deleted.
* `C72_shared_refuted` – An operand that is shared by two composites inside a composite is counted twice: the footprint exceeds the memory that is held.
* `C73_negative_refuted` – The documentation says that the string s is appended if n > 0, but it is also appended for negative numbers.
* `C73_quotes_refuted` – A choice that contains a quote makes the enumeration ambiguous: two different lists have the same text.
