{"id": "C01", "title": "Formula simplification never changes values", "statement": "When a user combines formulas with +, -, *, /, unary minus, dot product, Sum, Square or integer/rational constants, KeOps rewrites the result on the fly (constant folding, factorising, moving exponentials, removing zeros and broadcasts). Whenever the construction succeeds, the formula returned computes, for every value of the variables at which the operands are defined, exactly the vector (same dimension, same entries with scalar broadcasting) obtained by applying the mathematical operation to the values of the operands.", "quantifier": "all operand formulas (any depth, built from every operation of the modelled catalogue), all variable values in the reals", "why_tests_cant": "Rewrites fire on the shape of the expression tree; there are infinitely many trees and nested rewrites re-enter each other, so a finite test-suite only covers a few shapes.", "anchors": ["keopscore/keopscore/formulas/maths/Add.py: Add", "keopscore/keopscore/formulas/maths/Subtract.py: Subtract", "keopscore/keopscore/formulas/maths/Mult.py: Mult", "keopscore/keopscore/formulas/maths/Minus.py: Minus", "keopscore/keopscore/formulas/maths/Divide.py: Divide", "keopscore/keopscore/formulas/maths/Sum.py: Sum", "keopscore/keopscore/formulas/maths/SumT.py: SumT", "keopscore/keopscore/formulas/maths/Scalprod.py: Scalprod", "keopscore/keopscore/formulas/maths/Square.py: Square", "keopscore/keopscore/formulas/maths/Pow.py: Pow", "keopscore/keopscore/formulas/variables/IntCst.py: IntCst", "keopscore/keopscore/formulas/variables/RatCst.py: RatCst", "keopscore/keopscore/formulas/Operation.py: Broadcast"]}
{"id": "C02", "title": "Building a formula always terminates, and errors only on real incompatibilities", "statement": "Combining two formulas of compatible dimensions (equal, or one of them scalar) with +, -, * always terminates and yields a formula; the only way it can fail is an incompatibility of dimensions or an explicit division by zero. In particular adding or subtracting an integer constant and a rational constant succeeds in either order.", "quantifier": "all pairs of formulas", "why_tests_cant": "Rewrites call each other recursively (a*(b*c), exponentials moved right, constants moved left); termination for every tree and absence of failing branches cannot be sampled.", "anchors": ["keopscore/keopscore/formulas/maths/Add.py: Add", "keopscore/keopscore/formulas/maths/Subtract.py: Subtract", "keopscore/keopscore/formulas/maths/Mult.py: Mult"]}
{"id": "C03", "title": "Symbolic gradients are true adjoint derivatives", "statement": "Grad(f, v, g), the formula produced by automatic differentiation, evaluates to the vector-Jacobian product: for every point where f is differentiable and every direction h, the derivative at t=0 of <g, f(v + t h)> equals <Grad(f,v,g), h>; and the gradient has the dimension of v.", "quantifier": "all formulas of the differentiable catalogue, all variables v, all incoming gradients, all points of the differentiability domain", "why_tests_cant": "Finite differences at random points test a handful of formulas; the chain rule has to be right for every composition, including broadcasts between scalar and vector operands.", "anchors": ["keopscore/keopscore/formulas/VectorizedScalarOp.py: VectorizedScalarOp.DiffT", "keopscore/keopscore/formulas/maths/*.py: DiffT, Derivative", "keopscore/keopscore/formulas/autodiff/Grad.py: Grad", "keopscore/keopscore/formulas/variables/Var.py: Var.DiffT"]}
{"id": "C04", "title": "Gradients of broadcast two-argument operations have the right shape", "statement": "For an operation that accepts a scalar and a vector operand (atan2, power with a formula exponent, ...) the gradient with respect to the scalar operand is a formula of the dimension of that operand (contributions of all components are summed).", "quantifier": "all dimensions d>1, all operand formulas", "why_tests_cant": "Operations are tested with equal dimensions; the defect only shows for the mixed case and for each pair of argument positions.", "anchors": ["keopscore/keopscore/formulas/VectorizedScalarOp.py: VectorizedScalarOp.DiffT", "keopscore/keopscore/formulas/maths/Atan2.py: Atan2", "keopscore/keopscore/formulas/maths/Powf.py: Powf", "pykeops/pykeops/common/lazy_tensor.py: atan2, __pow__"]}
{"id": "C05", "title": "The gradient of a kernel sum is the gradient of the summed output", "statement": "For a sum reduction a_i = sum_j F(x_i, y_j, p), the gradient reduction that KeOps derives with respect to a variable (sum over j for i-variables, sum over i for j-variables, sum over both for parameters) equals the gradient of sum_i <e_i, a_i> with respect to every row of that variable.", "quantifier": "all sizes M, N, all formulas, all rows, all incoming gradients e", "why_tests_cant": "Involves an exchange of two sums of arbitrary length for arbitrary formulas.", "anchors": ["keopscore/keopscore/formulas/reductions/Sum_Reduction.py: Sum_Reduction.DiffT", "pykeops/pykeops/torch/generic/generic_red.py: GenredAutograd_fun._backward"]}
{"id": "C06", "title": "Min/Max and ArgMin/ArgMax reductions return the optimum and its first index", "statement": "min/argmin (max/argmax) reductions return, per output component, the minimum (maximum) over the reduction index and the smallest index at which it is attained, for any non-empty reduction range; on an empty range they return +inf (-inf) and index 0.", "quantifier": "all lengths, all value sequences including repeated values", "why_tests_cant": "Ties and every length must be handled; tests use random data which has no ties.", "anchors": ["keopscore/keopscore/formulas/reductions/Min_ArgMin_Reduction_Base.py", "keopscore/keopscore/formulas/reductions/Max_ArgMax_Reduction_Base.py", "keopscore/keopscore/formulas/reductions/Min_Reduction.py", "keopscore/keopscore/formulas/reductions/ArgMin_Reduction.py"]}
{"id": "C07", "title": "Kmin / argKmin return the K smallest values in order with stable indices", "statement": "Kmin, argKmin and Kmin_argKmin return the K smallest values of the sequence in increasing order with the positions they come from, ties resolved by smallest position first; when fewer than K values are available the remaining slots hold +inf and index 0.", "quantifier": "all K, all lengths, all sequences including ties", "why_tests_cant": "Insertion in a sorted accumulator has to be right for every insertion position and every K; tests use a few K and tie-free data.", "anchors": ["keopscore/keopscore/formulas/reductions/KMin_ArgKMin_Reduction.py", "keopscore/keopscore/formulas/reductions/KMin_Reduction.py", "keopscore/keopscore/formulas/reductions/ArgKMin_Reduction.py"]}
{"id": "C08", "title": "Partial K-min accumulators can be merged", "statement": "Combining the K-min accumulators of two consecutive pieces of the reduction range gives the K-min accumulator of the whole range, so the parallel (two-dimensional GPU) schedule returns the same values and indices as the sequential one.", "quantifier": "all K, all pairs of sequences", "why_tests_cant": "The merge loop must be right for each interleaving of two sorted lists.", "anchors": ["keopscore/keopscore/formulas/reductions/KMin_ArgKMin_Reduction.py: ReducePair", "keopscore/keopscore/mapreduce/gpu/GpuReduc2D.py"]}
{"id": "C09", "title": "The online log-sum-exp is exact and never leaves the safe range", "statement": "The running (max, scaled sum) accumulator used for logsumexp and softmax reductions represents, after any sequence of updates and merges in any grouping, the pair (m, s) where m is the maximum of the values seen and s = sum_j w_j exp(f_j - m); hence m + log s = log sum_j w_j exp(f_j). Every exponential evaluated has a non-positive argument, so it cannot overflow.", "quantifier": "all sequences of finite values, all weights, all groupings into blocks", "why_tests_cant": "Depends on the order of new maxima and the grouping into blocks; unbounded many cases.", "anchors": ["keopscore/keopscore/formulas/reductions/Max_SumShiftExpWeight_Reduction.py", "pykeops/pykeops/common/operations.py: preprocess, postprocess"]}
{"id": "C10", "title": "Minus-infinity (masked) entries in log-sum-exp", "statement": "Entries equal to -inf contribute zero to logsumexp, whatever their position in the sequence.", "quantifier": "all sequences of values in the extended reals", "why_tests_cant": "The failure depends on the position of the masked value relative to finite ones.", "anchors": ["keopscore/keopscore/formulas/reductions/Max_SumShiftExpWeight_Reduction.py: ReducePairShort, ReducePair", "keopscore/keopscore/formulas/reductions/sum_schemes.py"]}
{"id": "C11", "title": "All summation schemes compute the same sum", "statement": "direct_sum, block_sum and kahan_scheme return the same result in exact arithmetic: block partial sums are flushed so that every term is counted exactly once, and the compensation of the Kahan scheme is identically zero in exact arithmetic.", "quantifier": "all numbers of terms, all block periods, all term values", "why_tests_cant": "Block boundaries are at data-dependent positions (period sqrt(N)); each residue of N matters.", "anchors": ["keopscore/keopscore/formulas/reductions/sum_schemes.py: direct_sum, block_sum, kahan_scheme", "keopscore/keopscore/formulas/reductions/Sum_Reduction.py", "keopscore/keopscore/mapreduce/cpu/CpuReduc.py"]}
{"id": "C12", "title": "The CPU reduction loop computes the mathematical reduction", "statement": "For every number of rows M and N, the dense CPU routine writes in output row i the reduction over all j in [0,N) of F(x_i, y_j, p) (or, for reductions over axis 0, in output row j the reduction over i), reading each argument at its own row and leaving every other memory cell unchanged.", "quantifier": "all M, N, formulas, argument tables", "why_tests_cant": "Universal over sizes and data.", "anchors": ["keopscore/keopscore/mapreduce/cpu/CpuReduc.py", "keopscore/keopscore/mapreduce/MapReduce.py", "keopscore/keopscore/formulas/reductions/Reduction.py", "keopscore/keopscore/utils/code_gen_utils.py: direct_table"]}
{"id": "C13", "title": "GPU tiling is independent of the block size and thread schedule", "statement": "The tiled one-dimensional GPU scheme gives every output row exactly the reduction over all j, for every block size >= 1 and every M, N, including the last incomplete block and tile; no thread reads beyond the shared-memory tile or the input arrays, and no thread skips a barrier.", "quantifier": "all M, N, block sizes, per-thread interleavings between barriers", "why_tests_cant": "Boundary conditions depend on the residues of M and N modulo the block size chosen at run time from the device properties.", "anchors": ["keopscore/keopscore/mapreduce/gpu/GpuReduc1D.py", "keopscore/keopscore/include/CudaSizes.h"]}
{"id": "C14", "title": "The two-dimensional GPU scheme agrees with the sequential reduction", "statement": "Splitting the reduction index into blocks, reducing each block separately and then combining the partial accumulators gives the same output as the sequential reduction, for sums, min/max with index, K-min and log-sum-exp.", "quantifier": "all M, N, block sizes, all supported reductions", "why_tests_cant": "Needs associativity of each merge operation on all reachable accumulators.", "anchors": ["keopscore/keopscore/mapreduce/gpu/GpuReduc2D.py", "keopscore/keopscore/formulas/reductions/*: ReducePair"]}
{"id": "C15", "title": "Block-sparse reductions visit exactly the requested pairs", "statement": "With a `ranges` argument (ranges_i, slices_i, redranges_j), output row i in block r is the reduction over the concatenation of the intervals redranges_j[slices_i[r-1]..slices_i[r]); rows that belong to no block get the neutral value of the reduction; nothing else is read. The GPU version, which splits rows in thread blocks and merges adjacent intervals, gives the same result.", "quantifier": "all lists of blocks and intervals satisfying the documented format, all sizes", "why_tests_cant": "Universal over arbitrary user-supplied interval structures.", "anchors": ["keopscore/keopscore/mapreduce/cpu/CpuReduc_ranges.py", "keopscore/keopscore/mapreduce/gpu/GpuReduc1D_ranges.py", "keopscore/keopscore/include/Ranges.h", "keopscore/keopscore/include/ranges_utils.h"]}
{"id": "C16", "title": "Batch dimensions follow numpy broadcasting", "statement": "With leading batch dimensions, each argument having size 1 or the common size along each of them, the row read for batch index (b_1..b_k) and point i is the row numpy broadcasting prescribes: (b'_1..b'_k, i) with b'_q = 0 when the argument has size 1 there and b_q otherwise; the address is inside the array.", "quantifier": "all numbers of batch dimensions, all shapes, all indices", "why_tests_cant": "Mixed-radix index arithmetic must be right for every shape.", "anchors": ["keopscore/keopscore/include/ranges_utils.h: broadcast_index", "keopscore/keopscore/include/Sizes.h", "keopscore/keopscore/include/Ranges.h", "keopscore/keopscore/mapreduce/cpu/CpuReduc_ranges.py"]}
{"id": "C17", "title": "Boolean block matrices are converted to equivalent ranges", "statement": "from_matrix(ranges_i, ranges_j, keep) yields ranges such that block I interacts with block J exactly when keep[I,J] is true, in both directions: the first three tensors describe the reduction over j and the last three its transpose.", "quantifier": "all boolean matrices, all cluster ranges", "why_tests_cant": "Universal over boolean matrices of arbitrary size.", "anchors": ["pykeops/pykeops/numpy/cluster/matrix.py: from_matrix", "pykeops/pykeops/torch/cluster/matrix.py: from_matrix", "pykeops/pykeops/numpy/cluster/utils.py: swap_axes"]}
{"id": "C18", "title": "Sorting by clusters gives contiguous clusters described by the returned ranges", "statement": "After sort_clusters the points of each label are contiguous, every point is kept exactly once, and cluster_ranges returns for each label the interval of its points.", "quantifier": "all label vectors", "why_tests_cant": "Universal over label vectors, including empty clusters.", "anchors": ["pykeops/pykeops/numpy/cluster/utils.py: sort_clusters, cluster_ranges", "pykeops/pykeops/torch/cluster/utils.py"]}
{"id": "C19", "title": "Grid clustering labels identify cells", "statement": "grid_cluster gives two points the same label if and only if they lie in the same cell of the cubic grid.", "quantifier": "all point clouds in dimension 1 to 3 and all cell sizes", "why_tests_cant": "Collisions only happen for clouds whose spread exceeds an unstated bound.", "anchors": ["pykeops/pykeops/numpy/cluster/grid_cluster.py: grid_cluster", "pykeops/pykeops/torch/cluster/grid_cluster.py: grid_cluster"]}
{"id": "C20", "title": "Chunked evaluation in high dimension is exact", "statement": "Evaluating a formula by chunks of 64 components for its high-dimensional variables, accumulating the partial results and then evaluating the remaining formula gives the value of the original formula; every component of every chunked variable is used exactly once, for every dimension.", "quantifier": "all dimensions, all chunkable formulas", "why_tests_cant": "Depends on dim mod 64, on the last partial chunk and on the position of chunked sub-formulas in the tree.", "anchors": ["keopscore/keopscore/mapreduce/gpu/GpuReduc1D_chunks.py", "keopscore/keopscore/mapreduce/Chunk_Mode_Constants.py", "keopscore/keopscore/formulas/Chunkable_Op.py", "keopscore/keopscore/formulas/Operation.py: post_chunk_formula"]}
{"id": "C21", "title": "Final-chunk mode is exact", "statement": "Reducing sum_j K(x_i,y_j) * b_j with a high-dimensional b processed by chunks gives in each of the output components exactly the plain sum.", "quantifier": "all dimensions, sizes, formulas K", "why_tests_cant": "Depends on dim mod 64 and on which argument position holds b.", "anchors": ["keopscore/keopscore/mapreduce/gpu/GpuReduc1D_finalchunks.py", "pykeops/pykeops/common/lazy_tensor.py: binary, reduction"]}
{"id": "C22", "title": "Distinct computations never share a compiled module", "statement": "Two requests for a compiled reduction that differ in formula, aliases, number of arguments, data type, accumulator type, summation scheme or backend options use different compiled modules (different cache keys).", "quantifier": "all pairs of requests", "why_tests_cant": "A collision would need a specific pair of strings; sampling cannot exclude it.", "anchors": ["keopscore/keopscore/get_keops_dll.py", "keopscore/keopscore/utils/Cache.py", "pykeops/pykeops/common/keops_io/LoadKeOps.py", "keopscore/keopscore/utils/misc_utils.py"]}
{"id": "C23", "title": "Results do not depend on the history of calls and option changes", "statement": "A call returns a module compiled with the options currently in force: changing a global option (automatic factorisation, compilation flags, chunk options) between two calls takes effect, and options left at their default are not influenced by earlier calls.", "quantifier": "all sequences of calls and option changes", "why_tests_cant": "Needs a history; tests run each call in a fresh configuration.", "anchors": ["keopscore/keopscore/utils/Cache.py: Cache, Cache_partial", "keopscore/keopscore/get_keops_dll.py", "keopscore/keopscore/config/chunks.py"]}
{"id": "C24", "title": "A crash during compilation never poisons the build folder", "statement": "If the process is killed at any moment while a module is being generated, the next request for the same module in the same build folder either finds a complete entry or rebuilds it.", "quantifier": "all crash points and all interleavings of two processes sharing the build folder", "why_tests_cant": "The window between two file writes cannot be hit reliably.", "anchors": ["keopscore/keopscore/binders/LinkCompile.py: get_dll_and_params, save_info, read_info", "keopscore/keopscore/binders/cpp/Cpu_link_compile.py", "keopscore/keopscore/binders/nvrtc/Gpu_link_compile.py"]}
{"id": "C25", "title": "Module metadata survives the round trip through the build folder", "statement": "The metadata read back for a previously built module (output dimension, reduced axis, dimension of the j-variables) are those computed when it was built.", "quantifier": "all metadata values and formulas", "why_tests_cant": "Universal over strings; depends on characters of the formula.", "anchors": ["keopscore/keopscore/binders/LinkCompile.py: save_info, read_info"]}
{"id": "C26", "title": "Named variables and positional variables denote the same formula", "statement": "Declaring arguments through aliases (\"x = Vi(3)\", \"p = Pm(2)\", \"y = Vj(1,4)\") is equivalent to writing Var(position, dimension, category) in the formula: the front-end and the engine attribute to each argument the same position, dimension and category, and an alias list that leaves a position undeclared is completed from the formula.", "quantifier": "all alias lists of the documented syntax", "why_tests_cant": "Universal over strings.", "anchors": ["pykeops/pykeops/common/parse_type.py: get_type, get_sizes, complete_aliases", "pykeops/pykeops/common/keops_io/LoadKeOps.py: init"]}
{"id": "C27", "title": "LazyTensor argument renumbering preserves the formula", "statement": "Turning object identities into argument positions before a reduction is a faithful simultaneous renaming: each distinct tensor appearing in the formula gets exactly one position, tensors used several times are passed once, unused tensors are not passed, and evaluating the renumbered formula on the resulting argument list gives the value of the original expression.", "quantifier": "all formulas, all tuples of tensors with repetitions, all object identities", "why_tests_cant": "The textual substitutions are done one after the other; a clash depends on object addresses.", "anchors": ["pykeops/pykeops/common/lazy_tensor.py: fixvariables, new_variable_index"]}
{"id": "C28", "title": "Batch shapes are checked and combined like numpy", "statement": "Combining two LazyTensors whose batch shapes are numpy-compatible gives the numpy broadcast shape and raises an error for incompatible shapes; the operation is commutative and associative.", "quantifier": "all pairs of shapes", "why_tests_cant": "Universal over shapes, including sizes 0 and 1 and different lengths.", "anchors": ["pykeops/pykeops/common/utils.py: check_broadcasting", "pykeops/pykeops/common/lazy_tensor.py: join", "pykeops/pykeops/common/keops_io/LoadKeOps.py: genred"]}
{"id": "C29", "title": "Transposing a LazyTensor swaps the roles of i and j", "statement": "K.T evaluated at (j,i) is K evaluated at (i,j), and K.T.T is K.", "quantifier": "all formulas and all index pairs", "why_tests_cant": "Done by successive textual substitutions that could capture each other.", "anchors": ["pykeops/pykeops/common/lazy_tensor.py: t"]}
{"id": "C30", "title": "The conjugate gradient solver only returns solutions with the requested residual", "statement": "When solve returns without hitting the iteration limit, the returned a satisfies ||(alpha I + K) a - b||^2 < size * eps^2 (in exact arithmetic); for a symmetric positive definite operator the iteration terminates after at most size steps.", "quantifier": "all operators, right-hand sides and tolerances", "why_tests_cant": "The maintained residual could drift from the true residual in some branch; tests check a few matrices.", "anchors": ["pykeops/pykeops/common/operations.py: ConjugateGradientSolver", "pykeops/pykeops/numpy/operations.py: KernelSolve", "pykeops/pykeops/torch/operations.py: KernelSolve"]}
{"id": "C31", "title": "Half-precision packing counts every pair once", "statement": "The packing of half-precision arrays by pairs (with duplication of the reduced argument) makes each output row see every reduction index exactly once, for even and odd sizes, and unpacking returns the rows in order.", "quantifier": "all sizes M, N", "why_tests_cant": "Parity and wrap-around cases for every size.", "anchors": ["pykeops/pykeops/torch/half2_convert.py"]}
{"id": "C32", "title": "Half-precision with block-sparse ranges", "statement": "Using ranges with half-precision tensors gives the same pairs as in single precision.", "quantifier": "all ranges and sizes", "why_tests_cant": "Needs specific ranges; not covered by sampled tests.", "anchors": ["pykeops/pykeops/torch/half2_convert.py: ranges2half2"]}
{"id": "C33", "title": "Indices returned by Arg reductions are exact", "statement": "Indices computed by argmin/argKmin style reductions are returned exactly although they are stored in floating-point cells; sizes for which this would fail are rejected.", "quantifier": "all reduction sizes accepted by the guard", "why_tests_cant": "Only fails beyond millions of points.", "anchors": ["pykeops/pykeops/numpy/generic/generic_red.py: Genred.__call__", "pykeops/pykeops/torch/generic/generic_red.py: Genred.__call__", "keopscore/keopscore/formulas/reductions/KMin_ArgKMin_Reduction.py"]}
{"id": "C34", "title": "Output layout of multi-valued reductions", "statement": "Kmin returns an array of shape (..., K, D) whose entry [k,d] is the k-th smallest value of component d; argmin and min parts of combined reductions are split correctly; softmax reductions divide each weighted component by the common weight.", "quantifier": "all K, D and data", "why_tests_cant": "Index arithmetic with two interleaved strides.", "anchors": ["pykeops/pykeops/common/operations.py: postprocess", "keopscore/keopscore/formulas/reductions/KMin_Reduction.py: FinalizeOutput", "keopscore/keopscore/formulas/reductions/KMin_ArgKMin_Reduction.py: FinalizeOutput"]}
{"id": "C35", "title": "Factorising common sub-formulas preserves values", "statement": "Factorize(f,g) and AutoFactorize(f) evaluate to the same value as f.", "quantifier": "all formulas without pre-existing factorised aliases", "why_tests_cant": "Substitution of sub-trees in arbitrary trees.", "anchors": ["keopscore/keopscore/formulas/factorization/Factorize.py", "keopscore/keopscore/formulas/Operation.py: replace"]}
{"id": "C36", "title": "Tensor contractions follow the documented index convention", "statement": "keops_tensordot(f,g,dimfa,dimfb,contfa,contfb) equals the sum over the contracted axes of products of entries, in row-major order, with the output axes ordered as in numpy.tensordot; matvecmult, vecmatmult, tensorprod, kron are the usual products.", "quantifier": "all shapes and contraction axes", "why_tests_cant": "Stride computations for arbitrary ranks.", "anchors": ["keopscore/keopscore/formulas/maths/TensorDot.py", "keopscore/keopscore/formulas/maths/MatVecMult.py", "keopscore/keopscore/formulas/maths/VecMatMult.py", "keopscore/keopscore/formulas/maths/TensorProd.py", "keopscore/keopscore/formulas/maths/Kron.py"]}
{"id": "C37", "title": "Complex LazyTensors implement complex arithmetic", "statement": "Addition, subtraction, multiplication, division, conjugation, exponential, modulus, sums and real scaling of complex LazyTensors, stored as interleaved real and imaginary parts, agree with complex arithmetic, and their gradients are adjoint.", "quantifier": "all complex values and dimensions", "why_tests_cant": "Universal over values; sign errors in one part only show for particular data.", "anchors": ["keopscore/keopscore/formulas/complex/*.py", "pykeops/pykeops/common/lazy_tensor.py: ComplexGenericLazyTensor"]}
{"id": "C38", "title": "Lists of complex constants are read correctly", "statement": "A LazyTensor parameter built from a Python list of complex numbers holds those numbers.", "quantifier": "all lists of complex numbers", "why_tests_cant": "Fails only for lists of length at least two.", "anchors": ["pykeops/pykeops/common/lazy_tensor.py: ComplexGenericLazyTensor.__init__"]}
{"id": "C39", "title": "Consistent arguments are never read out of bounds, inconsistent ones are rejected", "statement": "A call whose array arguments have inconsistent row counts (or feature dimensions different from the declared ones) is rejected; accepted calls never read outside the arguments.", "quantifier": "all argument shapes", "why_tests_cant": "Out-of-bounds reads are silent on most data.", "anchors": ["pykeops/pykeops/common/parse_type.py: get_sizes", "keopscore/keopscore/include/Sizes.h: check_args", "keopscore/keopscore/mapreduce/cpu/CpuReduc.py"]}
{"id": "C40", "title": "Forward-mode derivatives and divergence/Laplacian agree with calculus", "statement": "Diff(f,v,u) is the directional derivative of f along u; Divergence(f,v) and Laplacian(f,v) are the usual traces; TraceOperator(f,v) accepted by the linearity check is the trace of the linear map.", "quantifier": "all formulas of the catalogue", "why_tests_cant": "Linearity is decided syntactically; soundness has to hold for each tree.", "anchors": ["keopscore/keopscore/formulas/autodiff/Diff.py", "keopscore/keopscore/formulas/autodiff/Divergence.py", "keopscore/keopscore/formulas/autodiff/Laplacian.py", "keopscore/keopscore/formulas/LinearOperators/*.py", "keopscore/keopscore/formulas/Operation.py: is_linear"]}
{"id": "C41", "title": "Gradients of broadcast batch arguments have the shape of the argument", "statement": "In back-propagation, an argument that was broadcast along batch dimensions receives the sum of the gradients over these dimensions, in its own shape.", "quantifier": "all batch shapes", "why_tests_cant": "Universal over shapes.", "anchors": ["pykeops/pykeops/torch/generic/generic_red.py: GenredAutograd_fun._backward"]}
{"id": "C42", "title": "The shape announced by a LazyTensor is the shape of the result", "statement": "For each operation of the LazyTensor API the announced feature dimension equals the dimension of the engine formula it builds, so that the shape attribute is the shape of the value computed.", "quantifier": "all LazyTensor expressions of the modelled operations", "why_tests_cant": "Two code bases compute dimensions independently; only agreement for every expression guarantees shapes.", "anchors": ["pykeops/pykeops/common/lazy_tensor.py: unary, binary, ternary, reduction", "keopscore/keopscore/formulas/maths/*.py: dim"]}
{"id": "C43", "title": "B-splines are those of Cox and de Boor", "statement": "For every number of knots, every order, every sorted sequence of knots (repeated or not) and every sampling point, in the precision of the arguments, BSpline(knots,x,order) returns the values at x of the B-spline functions defined by the recursion of Cox and de Boor, where a quotient with a zero denominator counts for zero; it reads and writes only inside its arrays; the values are nonnegative, vanish outside of the support, and sum to one on the interval where all the functions are defined; arguments with which this makes no sense are refused, and no others.", "quantifier": "All numbers of knots, orders, sorted knots, real sampling points, contents of the output array before the call.", "why_tests_cant": "Repeated knots and points equal to knots need exact coincidences; the in-place recursion is only wrong for some orders and positions if an index is off by one.", "anchors": ["keopscore/keopscore/formulas/maths/BSpline.py: BSpline_Impl.__init__, Op, BSpline", "keopscore/keopscore/utils/code_gen_utils.py: c_variable.binary_op, ternary"]}
{"id": "C44", "title": "Soft-DTW and its gradient are those of the definition", "statement": "For all sequences x of n and y of m numbers and every gamma different from zero, SoftDTW_SqDist returns -gamma log(sum over all alignments of exp(-cost/gamma)), where an alignment goes from the first to the last pair of positions by steps of one position in one or both sequences and costs the sum of its squared differences; GradSoftDTW_SqDist returns the n+m partial derivatives of that number; both read and write only inside their arrays, and the results depend neither on the rounding of the minimum that they subtract nor on the contents of arrays not initialised.", "quantifier": "All lengths, all real sequences, all gamma, all functions used as minimum, all initial contents of arrays.", "why_tests_cant": "The number of alignments grows exponentially with the lengths, so the definition can be evaluated for tiny sequences only; gradients are tested up to tolerance.", "anchors": ["keopscore/keopscore/formulas/maths/SoftDTW_SqDist.py: SoftDTW_SqDist.Op, GradSoftDTW_SqDist.Op"]}
{"id": "C45", "title": "Options reach the engine as the user gave them", "statement": "The backend named by the user (or chosen automatically) is the one used: device, 1D or 2D scheme, memory of the arrays; names that do not exist and arrays of mixed memories are refused. The computation takes place on the device that holds the arrays, or on the one requested, and a request that contradicts the arrays is refused. The final-chunks mode, which is only valid for sums of a scalar formula times a variable, is selected only if the user or the LazyTensor asked for it, and then gives the sum; in back-propagation and in forward differentiation it is used again for the variable it was used for.", "quantifier": "All backend names, arrays, devices, values of the option, positions of the arguments, formulas, dimensions, sizes and schedules.", "why_tests_cant": "The options only have an effect on machines with one or several GPUs and for dimensions above 146; the wrong path gives wrong numbers rather than an error.", "anchors": ["pykeops/pykeops/common/get_options.py: SetBackend, get_tag_backend", "pykeops/pykeops/torch/generic/generic_red.py: set_device, GenredAutograd_base._forward, _backward, GenredAutograd.jvp", "pykeops/pykeops/numpy/generic/generic_red.py: Genred.__init__", "pykeops/pykeops/torch/operations.py: KernelSolveAutograd.forward", "keopscore/keopscore/get_keops_dll.py", "keopscore/keopscore/config/chunks.py"]}
{"id": "C46", "title": "Gradients of log-sum-exp and softmax reductions", "statement": "The array returned by back-propagation for any argument of a log-sum-exp or softmax reduction is the gradient of the loss with respect to that argument, and the tangents of forward differentiation are the derivatives of the output, although the maximum subtracted for stability is treated as a constant.", "quantifier": "All formulas, weights, declarations, positions and categories of the argument, both axes, all sizes, all values at which the formulas are differentiable, all incoming gradients and directions, both schemes of the forward pass.", "why_tests_cant": "The derivation relies on the output being finalised by the bindings and on the cancellation of the derivative of the maximum; tests compare a few kernels to autograd.", "anchors": ["keopscore/keopscore/formulas/reductions/Max_SumShiftExpWeight_Reduction.py: DiffT, Diff", "keopscore/keopscore/formulas/reductions/Sum_Reduction.py: Diff", "pykeops/pykeops/torch/generic/generic_red.py: GenredAutograd_base._backward, GenredAutograd.jvp", "pykeops/pykeops/common/operations.py: preprocess, postprocess"]}
{"id": "C47", "title": "The code generated for a formula computes its value", "statement": "The C++ code generated by calling a formula on an output array and a table of arguments runs without any access outside an array, any read of a value that is not initialised or any use of an undeclared name; it fills the output with the value of the formula and changes nothing else. No name is declared twice.", "quantifier": "All well-formed formulas, all values inside the domains of the operations, all tables, all memories in which the arguments are loaded, all states of the generator of names.", "why_tests_cant": "Code is generated by assembling strings with names made on the fly, offsets into arrays and nested loops; tests run a few formulas and cannot see an access outside an array that does not crash, or a clash of names that only appears in a nested formula.", "anchors": ["keopscore/keopscore/formulas/Operation.py: Operation.__call__", "keopscore/keopscore/formulas/VectorizedScalarOp.py: VectorizedScalarOp.Op", "keopscore/keopscore/utils/code_gen_utils.py: new_c_varname, c_array.split, c_array.assign, c_for_loop, VectApply, VectCopy", "keopscore/keopscore/formulas/maths/*.py: Op, ScalarOp", "keopscore/keopscore/utils/math_functions.py"]}
{"id": "C48", "title": "The code generated for the dense CPU routine computes the reduction", "statement": "For a formula and a reduction, code generation produces one routine which, for all data and sizes and with the rows in any order, runs without undefined behaviour, writes in every row of the output the reduction of the values of the formula (sum, minimum or maximum with its first index, log-sum-exp), and changes nothing else. The indices of the loops are not hidden by a variable of the generated code.", "quantifier": "All well-formed formulas, declared variables, reductions Sum, Min, Max, Min_ArgMin, Max_ArgMax, ArgMin, ArgMax and Max_SumShiftExp(Weight), schemes accepted for them, types of the data and of the accumulator accepted by the generator, sizes, data in the domain of the formula, orders of the rows.", "why_tests_cant": "The routine is assembled as a string from the code of the formula, of the reduction, of the scheme and of the table of arguments; a wrong stride, a temporary accumulator that is not emptied or a period computed with the wrong size shows only for some sizes, and memory errors do not show in the values.", "anchors": ["keopscore/keopscore/mapreduce/cpu/CpuReduc.py: CpuReduc.get_code", "keopscore/keopscore/mapreduce/MapReduce.py: MapReduce.get_code", "keopscore/keopscore/formulas/reductions/sum_schemes.py: direct_sum, block_sum, kahan_scheme", "keopscore/keopscore/formulas/reductions/*.py: InitializeReduction, ReducePair, ReducePairShort, KahanScheme, FinalizeOutput", "keopscore/keopscore/utils/code_gen_utils.py: Var_loader.direct_table, c_variable.binary_op"]}
{"id": "C49", "title": "Gradients of kernel linear systems", "statement": "The solution of (alpha Id + K) a = b returned by KernelSolve has the requested residual, and the gradients returned for the right-hand side, the points and the parameters are those of the solution: when the two linear solves are exact, the derivative of <E, a(t)> along any motion of an argument is <G, H>, and with two conjugate gradients of tolerance eps the error is at most a constant times eps. The systems near the given arguments have exactly one solution.", "quantifier": "All sum reductions of well-formed formulas linear in the unknown, all sizes, arguments where the operator is symmetric positive definite and the formula is differentiable, all arguments (right-hand side, i-variables, j-variables, parameters), directions and incoming gradients, all tolerances in (0, 1].", "why_tests_cant": "The gradient uses the symmetry of the operator, the solution in place of the unknown, and the opposite of a second solve as incoming gradient; a wrong sign or the right-hand side left in place of the solution gives gradients of the right shape and magnitude, and finite differences of an iterative solver are inexact.", "anchors": ["pykeops/pykeops/torch/operations.py: KernelSolveAutograd.forward, KernelSolveAutograd.backward", "pykeops/pykeops/common/operations.py: ConjugateGradientSolver", "keopscore/keopscore/formulas/reductions/Sum_Reduction.py: Sum_Reduction.DiffT"]}
{"id": "C50", "title": "Linear systems given by symbolic tensors", "statement": "LazyTensor.solve passes to KernelSolve the formula K * u (or the formula with the unknown given by var), the position and axis of the unknown, and the arguments in the order in which the formula reads them: the value of the formula on the arguments, with any x at the position of the unknown, is the product of the value of K by x.", "quantifier": "All symbolic tensors carrying an expression, all second members with data or symbolic, all axes, all meanings of the operations and contents of the memory.", "why_tests_cant": "The unknown takes a position among the symbolic variables before the tensors are numbered; a shifted position exchanges two arguments, which for tensors of equal shapes gives a solution of another system without error.", "anchors": ["pykeops/pykeops/common/lazy_tensor.py: solve, __call__", "pykeops/pykeops/torch/operations.py: KernelSolve.__init__", "pykeops/pykeops/numpy/operations.py: KernelSolve.__init__"]}
{"id": "C51", "title": "Centroids of clusters", "statement": "cluster_centroids returns the weighted mean of the points of each class; cluster_ranges_centroids returns the ranges of C18, these means and the total weights of the classes; the barycenter is preserved and each centroid lies between the extremal coordinates of its class.", "quantifier": "All numbers of points, dimensions, labels (with empty classes) and positive weights; any weights for torch.", "why_tests_cant": "The numpy and torch versions differ (bincount, clamped weights, sparse sums) and agree on usual data; empty classes and tiny weights are rarely tested, and centroids are only used to choose ranges, where an error is not visible in results.", "anchors": ["pykeops/pykeops/numpy/cluster/utils.py: cluster_centroids, cluster_ranges_centroids", "pykeops/pykeops/torch/cluster/utils.py: cluster_centroids, cluster_ranges_centroids"]}
{"id": "C52", "title": "Rounding errors of the summation schemes", "statement": "The rounding error of a sum is bounded by a multiple of the sum of the absolute values of the terms: a number of roundings of order n for the direct scheme, of order sqrt(n) for the block scheme, of order n/B + B on GPU with tiles of B columns, and a constant number for the compensated scheme; an accumulator of larger type leaves one rounding to the type of the data.", "quantifier": "All numbers of terms, all terms of the type of the data, all binary floating-point types with at least two digits, all sizes of tiles and lists of slices.", "why_tests_cant": "Bounds hold for all data; tests compare a few random sums with a tolerance, with few terms, where all the schemes pass, and do not see that a scheme has lost its effect.", "anchors": ["keopscore/keopscore/formulas/reductions/sum_schemes.py: direct_sum, block_sum, kahan_scheme", "keopscore/keopscore/formulas/reductions/Sum_Reduction.py: KahanScheme", "keopscore/keopscore/mapreduce/MapReduce.py: get_code", "keopscore/keopscore/mapreduce/cpu/CpuReduc.py: get_code", "keopscore/keopscore/mapreduce/cpu/CpuReduc_ranges.py: get_code", "keopscore/keopscore/mapreduce/gpu/GpuReduc1D.py: get_code"]}
{"id": "C53", "title": "Chunked kernel with ranges or batches", "statement": "The kernel that evaluates by chunks of 64 components, on blocks of pairs or with batches, computes for each row of a block the reduction of the formula over the columns of the block, for each batch index the rows of numpy broadcasting, and writes nothing else.", "quantifier": "All formulas, dimensions, block patterns, batch shapes, sizes of blocks of threads, orders of execution between barriers, orders of enumeration of sets.", "why_tests_cant": "The kernel is selected only for formulas of dimension above 100 on a GPU; tests never combine this with ranges or batches.", "anchors": ["keopscore/keopscore/mapreduce/gpu/GpuReduc1D_ranges_chunks.py: do_chunk_sub, get_code", "keopscore/keopscore/utils/code_gen_utils.py: load_vars_chunks_offsets, load_vars, load_vars_chunks"]}
{"id": "C54", "title": "Final chunks with ranges or batches", "statement": "The kernel for sum_j k(x_i,y_j) b_j that processes b by chunks of 64 components, on blocks of pairs or with batches, computes for each row of a block the sum of the formula over the columns of the block, for each batch index the rows of numpy broadcasting, and writes nothing else.", "quantifier": "All kernels k of dimension 1, all dimensions and positions of b, block patterns, batch shapes, sizes of blocks of threads, orders of execution between barriers.", "why_tests_cant": "The kernel is selected only for a last factor of dimension above 146 on a GPU; tests never combine this with ranges or batches.", "anchors": ["keopscore/keopscore/mapreduce/gpu/GpuReduc1D_ranges_finalchunks.py: do_finalchunk_sub_ranges, get_code", "keopscore/keopscore/utils/code_gen_utils.py: load_vars_chunks_offsets"]}
{"id": "C55", "title": "Formulas written by symbolic tensors are read as they were meant", "statement": "The text of the formula of a symbolic tensor, made by any sequence of methods, is read by Python's eval in the engine as the expression whose root is the last method applied and whose operands are those of the method, before and after the variables have got their positions; evaluated, it gives the formula built by the engine for this expression, with the same values.", "quantifier": "All symbolic tensors made by the methods, all integers (negative too), all renamings of the variables; for the values: terms of the formula language of C01.", "why_tests_cant": "Texts are composed by concatenation at more than sixty places; a missing parenthesis or a wrong order of operands changes the expression only for some nestings, and often no error is raised.", "anchors": ["pykeops/pykeops/common/lazy_tensor.py: unary, binary, ternary, methods", "keopscore/keopscore/formulas/GetReduction.py: eval of the text", "keopscore/keopscore/formulas/Operation.py: operators (106-270)"]}
{"id": "C56", "title": "The printed form of a formula is the formula", "statement": "The text printed for a formula is read by Python with the structure of the formula, and evaluated to the formula that the engine builds for it, with the same values.", "quantifier": "All formulas in the fragment told by faithful and evaluable (PrintSpec.v).", "why_tests_cant": "Parentheses are chosen by comparing levels; a wrong level shows only in some nestings, and the text is then read as another formula without error. TestFormula evaluates this text.", "anchors": ["keopscore/keopscore/utils/Tree.py: recursive_str (8-50)", "keopscore/keopscore/formulas/maths/*.py: print_spec", "keopscore/keopscore/utils/TestFormula.py: 14-25"]}
{"id": "C57", "title": "The reduction asked for is the reduction that the engine makes", "statement": "A reduction of a symbolic tensor, with weights or a number K, gives a text and a list of arguments: the engine reads from the text the class that is asked for, on the other axis, with the formula of the tensor (and of the weights, preceded by the constant 1 for softmax sums) in which every tensor is the variable numbered by its place among the arguments.", "quantifier": "All symbolic tensors made by the methods of computes (PyReadSpec.v), with batch dimensions and symbolic variables, all weights made in the same way, all K different from 0, both axes, all reductions by name.", "why_tests_cant": "The text is composed by string operations in four functions (fixvariables, preprocess, Genred, GetReduction) and evaluated by Python; an argument at the wrong place gives another reduction without error.", "anchors": ["pykeops/pykeops/common/utils.py: axis2cat (11-22)", "pykeops/pykeops/torch/generic/generic_red.py: Genred.__init__ (517-535)", "pykeops/pykeops/numpy/generic/generic_red.py: 152-182", "pykeops/pykeops/common/lazy_tensor.py: reduction (718-786)", "keopscore/keopscore/formulas/GetReduction.py: __new__ (20-40)", "keopscore/keopscore/formulas/reductions/*.py: constructors"]}
{"id": "C58", "title": "The texts of gradients are read as gradients, at any order", "statement": "The text that a backward pass (or a tangent pass) writes for an argument is read by the engine as the transposed derivative (or the derivative) of the reduction that it makes of the text it was given. Starting from any sum or log-sum-exp reduction of regular formulas, after any number of passes with respect to any arguments, one more pass gives the gradient of the last operation for the argument asked for, and a tangent pass gives its derivative in the direction of the tangent.", "quantifier": "All parameters that the engine accepts, all sets of arguments that need a gradient, all sequences of passes of any length, all declarations whose positions are their places, all sizes M, N at least 1, all values of the arguments at which the first formulas are regular.", "why_tests_cant": "The text nests at each order and is evaluated by Python in another package; tests compare first and a few second derivatives of a few formulas.", "anchors": ["pykeops/pykeops/torch/generic/generic_red.py: check_AD_supported (21-44), _backward (152-259), jvp (319-380)", "keopscore/keopscore/formulas/autodiff/Grad_WithSavedForward.py", "keopscore/keopscore/formulas/autodiff/Diff_WithSavedForward.py", "keopscore/keopscore/formulas/reductions/*.py: DiffT, Diff", "keopscore/keopscore/formulas/GetReduction.py: 26-31", "pykeops/pykeops/common/keops_io/LoadKeOps.py: 47-64"]}
{"id": "C59", "title": "Derivatives of any order are always built", "statement": "For a formula without rational constants (and without the operations whose derivatives bring them) the gradient with respect to any variable is built without an exception, has the dimension of the variable and is again such a formula. So the engine accepts the text of every backward pass, at any order, and with C58 the gradient exists and is right.", "quantifier": "All such formulas, variables and incoming gradients of the dimension of the formula; all sequences of passes of any length with respect to any arguments.", "why_tests_cant": "The failures are exceptions raised while a gradient of some order is simplified; each formula and order gives other simplifications, so no finite set of formulas shows that none fails.", "anchors": ["keopscore/keopscore/formulas/maths/*.py: DiffT, Derivative, the functions Add, Subtract, Mult, Minus, Divide, Sum, Scalprod, SumT, Square, Pow", "keopscore/keopscore/formulas/maths/Add.py: 71-74", "pykeops/pykeops/torch/generic/generic_red.py: _backward (152-259)"]}
{"id": "C60", "title": "The GPU is used exactly when its devices work, and launches respect their limits", "statement": "CUDA is enabled exactly when the libraries load, the driver starts and counts at least one device and every device answers; the flags of the compiler then give each device its own limits (threads of a block, bytes of shared memory), as the preprocessor reads them; and every block that is launched respects the limits of its device.", "quantifier": "All answers of the machine (libraries, driver, files, environment), all numbers of devices, all histories of sessions, all sequences of loaded modules and launches.", "why_tests_cant": "The failures need machines with several different GPUs, broken devices or missing libraries, and histories of sessions; the test machines have one GPU or none.", "anchors": ["keopscore/keopscore/config/cuda.py: CUDAConfig (50-491)", "keopscore/keopscore/config/base_config.py: build folder (77-121)", "keopscore/keopscore/utils/gpu_utils.py: get_gpu_props (173-258)", "keopscore/keopscore/include/CudaSizes.h: SetGpuProps", "keopscore/keopscore/binders/nvrtc/Gpu_link_compile.py: 14-46", "keopscore/keopscore/binders/nvrtc/keops_nvrtc.cpp: 353-379, 441-458"]}
{"id": "C61", "title": "A generic operation reduces the formula that its names and declarations describe", "statement": "generic_sum, generic_logsumexp, generic_argkmin and generic_argmin, given a formula written with names and declarations in the documented syntax, make the engine build the reduction of the formula in which each name is the variable with the position, dimension and category of its declaration, indexed like the declared output; generic_argkmin keeps as many values as the declared dimension.", "quantifier": "All texts of formulas that Python reads as an expression of the syntax (names, calls, operators, opposites, powers, numbers beside formulas), all lists of declarations with spaces anywhere, all outputs.", "why_tests_cant": "The tests use a handful of formulas and always declare the arguments in the order of the names; a mistake of precedence, of numbering or of axis for other texts would not show.", "anchors": ["pykeops/pykeops/torch/generic/generic_ops.py: generic_sum, generic_logsumexp, generic_argkmin, generic_argmin", "pykeops/pykeops/numpy/generic/generic_ops.py: the same", "pykeops/pykeops/common/utils.py: cat2axis, axis2cat (11-34)", "pykeops/pykeops/common/parse_type.py: get_type (71-131)", "pykeops/pykeops/common/keops_io/LoadKeOps.py: 47-64", "keopscore/keopscore/formulas/GetReduction.py: 20-40"]}
{"id": "C62", "title": "A launch on the GPU gives its kernels the right memory, frees what it allocates and nothing else, and returns what the last kernel leaves", "statement": "For an accepted request, each kernel is launched on live separate blocks with a grid that covers the rows and no more, a table of pointers to the arrays or to copies of them apart from the output, and, with ranges or batches, tables that hold the cut of the ranges in blocks, the ends of the slices, the ranges of columns and the offsets; the blocks freed were allocated by the launch; without a failure of the driver all of them are freed and the output of the host holds what the last kernel left; an error means that a call of the driver failed. A module that is created, called and released leaves the device as it was.", "quantifier": "All drivers (where blocks are placed, which calls fail, what kernels do to the memory), all devices, all requests on the host or the device, dense, with ranges or with batches, 1D and 2D schemes, all sequences of calls of a module.", "why_tests_cant": "Leaks, reads past the end of an array and overwritten tables do not change results on most runs, and the continuous integration has no GPU; failures of the driver are not provoked.", "anchors": ["keopscore/keopscore/binders/nvrtc/keops_nvrtc.cpp: DevicePointer (41-71), build_offset_tables (75-149), range_preprocess_from_device (152-248), range_preprocess_from_host (250-325), KeOps_module (328-644)", "keopscore/keopscore/include/utils_pe.h: 15-37, 57-100", "keopscore/keopscore/include/Ranges.h"]}
{"id": "C63", "title": "A reduction called inside torch.vmap returns the results of the calls on the slices of the mapped arguments", "statement": "When a reduction is called inside torch.vmap with some arguments mapped along one of their dimensions, the result is the stack, along a new first dimension, of the results of the calls on the slices of these arguments, the other arguments being given whole.", "quantifier": "All formulas, reductions and schemes, all numbers of arguments, all choices of mapped dimensions, any batch dimensions, all contents of the arguments, all contents of the memory before the calls, all orders of the parallel loops.", "why_tests_cant": "Tests map one argument along its first dimension with one kernel; which of the ranks, dimensions and optional arguments are handled is not visible there.", "anchors": ["pykeops/pykeops/torch/generic/generic_red.py: GenredAutograd.vmap (304-317), _forward (71-131), __call__ (657-695)", "pykeops/pykeops/common/keops_io/LoadKeOps.py: 177-245", "keopscore/keopscore/include/Ranges.h: 19-100"]}
{"id": "C64", "title": "In the R interface keops_kernel and keops_grad compute the reduction written in the text and its gradient", "statement": "keops_kernel of a text computes the reduction written in it, with the documented meaning of the axis, on the values given for each argument; keops_grad computes its gradient for the variable given by name or by position, at any order.", "quantifier": "All texts of reductions with spaces anywhere, all lists of declarations with or without positions, all formulas, all choices of the variable, all names of the incoming gradient, all data.", "why_tests_cant": "Tests compile a few kernels and compare gradients of order one of sums over j; the cutting of texts at commas and parentheses, axes, positions and other reductions are not covered.", "anchors": ["rkeops/R/keops_kernel.R: keops_kernel (139-265)", "rkeops/R/keops_utils.R: get_pykeops_formula (43-155)", "rkeops/R/formula_args.R: parse_args, parse_extra_args (68-230)", "rkeops/R/keops_grad.R: get_gradient_formula, keops_grad (20-205)", "rkeops/inst/python/generic_red_R.py", "keopscore/keopscore/formulas/autodiff/Grad.py"]}
{"id": "C65", "title": "In the R interface an operation on LazyTensors is the operation on what they stand for and a reduction computes it on their matrices", "statement": "An operation on the LazyTensors of the R interface stands for the operation on the matrices and vectors they were made from, also when they share matrices; a reduction gives the engine the formula of the program and, for each variable, its matrix; the announced inner dimension is that of the formula, and what R accepts the engine accepts; grad computes the gradient for the given variable.", "quantifier": "All programs of unary, binary, ternary operations, scalar products, integers, matrices and vectors, used any number of times and with any index; all reductions, without third argument, with a number or with a weight; all addresses.", "why_tests_cant": "Tests reduce a few formulas of two or three matrices; renaming of addresses inside texts, removal of repeated arguments and dimensions of composed operations are not covered for programs of any size.", "anchors": ["rkeops/R/lazytensor_preprocess.R: LazyTensor (96-206), unaryop, binaryop, ternaryop (345-760), get_inner_dim (1009-1030), identifier, fix_variables (1163-1230), preprocess_reduction (1316-1380)", "rkeops/R/lazytensor_operations.R: concat (3588-3593), reduction.LazyTensor (3800-3830), min (4032-4040), grad (4866-4920)"]}
{"id": "C66", "title": "In the R interface a call of a function on LazyTensors stands for the mathematical function of its name", "statement": "A call of the functions of the R interface (arithmetic, powers, elementary functions, norms, weighted norms, scalar products, distances, clamp, ifelse, mod, elem, extract, one_hot, tensorprod, matvecmult, vecmatmult, elemT, extractT) on LazyTensors, numbers and vectors gives the engine a formula whose value at the rows i and j is the mathematical function of the rows of the matrices, coordinate by coordinate; the announced dimension is that of the result; calls whose arguments fit are accepted, and what is accepted the engine accepts.", "quantifier": "All compositions of calls, all matrices, vectors and numbers, all rows, all coordinates; all reductions without third argument, with a number or with a weight.", "why_tests_cant": "Tests compare the texts of a few calls with expected texts; the values, the special cases for powers and integers, broadcasting and the dimensions of composed calls are not compared with the mathematical functions.", "anchors": ["rkeops/R/lazytensor_operations.R: arithmetic (109-505), powers (845-870), elementary functions (614-2225), clamp, ifelse, mod (2260-2507), norms and distances (2532-2621), elem, elemT, extract, extractT (3260-3565), one_hot, matvecmult, vecmatmult, tensorprod (3610-3770)", "rkeops/R/lazytensor_preprocess.R: is.LazyParameter, is.LazyVector, is.LazyMatrix, is.int (819-976)"]}
{"id": "C67", "title": "In the R interface the reductions of a call give the sums, optima, K smallest values, log-sum-exp and weighted means of its values", "statement": "In the R interface, sum, min, argmin, min_argmin, max, argmax, max_argmax, Kmin, argKmin, Kmin_argKmin, logsumexp and sumsoftmaxweight (and their variants ..._reduction) of a call of the functions on LazyTensors over i or j make the CPU routine of the engine write, for each row of the other index and each coordinate, the sum of the values of the call, their minimum or maximum and the first index where it is taken, the K smallest values in order and their indices, the maximum and sum from which the logarithm of the sum of exponentials is finished, and the numbers from which the mean of the weights by the exponentials is finished; they accept every index i or j and, except sum, min, argmin, max, argmax and sumsoftmaxweight, refuse a missing one.", "quantifier": "All compositions of calls, all matrices, vectors and numbers, all numbers of rows, all coordinates, all K > 0, all orders in which the routine treats its rows, all ways of summing.", "why_tests_cant": "Tests compare the reductions of a few formulas with the base functions of R on small random matrices; the path from the call to the text, to the formula that the engine reads and to the order of the arrays and of the outputs is not covered for all calls.", "anchors": ["rkeops/R/lazytensor_operations.R: sum, min, argmin, min_argmin, max, argmax, max_argmax (3905-4463), Kmin, argKmin, Kmin_argKmin (4497-4653), logsumexp, logsumexp_reduction (4696-4738), sumsoftmaxweight, sumsoftmaxweight_reduction (4777-4811)", "rkeops/R/lazytensor_preprocess.R: reduction.LazyTensor, preprocess_reduction", "keopscore/keopscore/mapreduce/cpu/CpuReduc.py; keopscore/keopscore/formulas/reductions"]}
