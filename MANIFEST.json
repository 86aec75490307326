{
 "claims": [
  {
   "property": "C01",
   "status": "proved",
   "theorems": [
    "C01_add",
    "C01_subtract",
    "C01_mult",
    "C01_minus",
    "C01_square",
    "C01_divide",
    "C01_pow",
    "C01_sum",
    "C01_scalprod",
    "C01_sumT",
    "C01_rational",
    "C01_expression"
   ],
   "note": "Every constructor with simplification rules and whole expressions, any depth; values over exact reals, outside nan/inf."
  },
  {
   "property": "C02",
   "status": "partial",
   "theorems": [
    "C02_operations_terminate",
    "C02_incompatible_rejected",
    "C02_add_partial",
    "C02_subtract_partial",
    "C02_mult_partial",
    "C02_expression_partial",
    "C02_rational_plus_integer_refuted",
    "C02_expression_refuted",
    "C02_degenerate_broadcast_refuted"
   ],
   "note": "Termination is proved for all formulas. Absence of errors is proved for formulas without division (and without SumT(f,1)); for the rest the full statement is false of the code and refuted: RatCst +/- IntCst raises AttributeError (e.g. x/2 + 3*x), SumT(s,1)*v raises."
  },
  {
   "property": "C03",
   "status": "partial",
   "theorems": [
    "C03_gradient_is_adjoint_partial",
    "C03_gradient_terminates",
    "C03_ifelse_vector_condition_refuted"
   ],
   "note": "Proved for all formulas of the modelled catalogue without scalar/vector mixes in Atan2, Powf, IfElse and without vector conditions in IfElse; there the claim is false of the code and refuted (here and in C04)."
  },
  {
   "property": "C04",
   "status": "partial",
   "theorems": [
    "C04_arithmetic_partial",
    "C04_atan2_first_refuted",
    "C04_atan2_second_refuted",
    "C04_power_exponent_refuted",
    "C04_power_base_refuted",
    "C04_ifelse_branch_refuted"
   ],
   "note": "Proved for the arithmetic operations; for Atan2, Powf and IfElse with mixed dimensions the claim is false of the code, refuted with witnesses."
  },
  {
   "property": "C05",
   "status": "partial",
   "theorems": [
    "C05_kernel_sum_gradient_partial"
   ],
   "note": "All sizes, categories and gradients; formulas restricted as in C03 (unmixed). Two-dimensional arguments, no batch dimensions."
  },
  {
   "property": "C06",
   "status": "proved",
   "theorems": [
    "C06_optimum_and_first_index",
    "C06_sparse_indices"
   ],
   "note": "Component by component, any length including 0, any values except NaN; also for sparse increasing indices."
  },
  {
   "property": "C07",
   "status": "partial",
   "theorems": [
    "C07_k_smallest_partial",
    "C07_infinite_value_index_refuted"
   ],
   "note": "All K, dimensions and sequences of values below +inf; with +inf among the values the returned index is wrong, refuted with a witness."
  },
  {
   "property": "C08",
   "status": "proved",
   "theorems": [
    "C08_merge_two_pieces",
    "C08_merge_any_pieces"
   ],
   "note": "Two pieces and any number of consecutive pieces; values below +inf."
  },
  {
   "property": "C09",
   "status": "proved",
   "theorems": [
    "C09_max_and_scaled_sum",
    "C09_exponent_not_positive",
    "C09_user_logsumexp",
    "C09_user_softmax",
    "C09_merge_of_nothing_refuted",
    "C09_empty_reduction_refuted"
   ],
   "note": "Any interleaving of updates and merges; user-level logsumexp and softmax on the CPU. Merging two accumulators that have seen nothing (reached by the default scheme on an empty reduction) gives NaN: refuted separately."
  },
  {
   "property": "C10",
   "status": "partial",
   "theorems": [
    "C10_masked_first_refuted",
    "C10_masked_block_start_refuted",
    "C10_masked_later_partial",
    "C10_order_matters_refuted"
   ],
   "note": "False of the code: -inf first (or at the start of a block with the default scheme) gives NaN for every such sequence, refuted; -inf at any other position contributes zero, proved."
  },
  {
   "property": "C11",
   "status": "partial",
   "theorems": [
    "C11_every_scheme_sums",
    "C11_direct_and_block",
    "C11_any_period",
    "C11_kahan_compensation_zero",
    "C11_logsumexp_schemes",
    "C11_kahan_logsumexp_refuted",
    "C11_kahan_infinite_refuted"
   ],
   "note": "Sum: all schemes, sizes and finite terms; direct_sum and block_sum also for infinite and NaN terms, and for log-sum-exp. False for kahan_scheme on log-sum-exp (accepted, then raises) and on infinite terms (NaN): refuted."
  },
  {
   "property": "C12",
   "status": "proved",
   "theorems": [
    "C12_sum",
    "C12_optimum",
    "C12_logsumexp",
    "C12_every_reduction",
    "C12_zero"
   ],
   "note": "All M, N, formulas, completion orders of the parallel loop, all reductions; memory level (flat arrays). Two-dimensional arguments (batch dimensions go through the ranges scheme, C15/C16)."
  },
  {
   "property": "C13",
   "status": "partial",
   "theorems": [
    "C13_sum",
    "C13_every_reduction",
    "C13_logsumexp",
    "C13_in_bounds",
    "C13_block_size",
    "C13_wide_rows_refuted"
   ],
   "note": "All M, N, block sizes >= 1, formulas, orders of the assignments between barriers; all reductions. Exact integers (grid sizes are 32-bit in the code). When one row of the j variables does not fit in shared memory the launcher chooses block size 0 and divides by zero: refuted."
  },
  {
   "property": "C14",
   "status": "partial",
   "theorems": [
    "C14_sum",
    "C14_logsumexp",
    "C14_other_reductions_refuted",
    "C14_other_schemes_refuted"
   ],
   "note": "Sum and log-sum-exp, all sizes and block sizes. False for min, max, argmin, argmax, K-min and for the schemes direct_sum and kahan_scheme, whose code generation always fails: refuted."
  },
  {
   "property": "C15",
   "status": "partial",
   "theorems": [
    "C15_cpu",
    "C15_gpu",
    "C15_gpu_uncovered_rows_refuted",
    "C15_gpu_empty_last_block_refuted",
    "C15_gpu_host_ranges_refuted",
    "C15_cpu_empty_logsumexp_refuted"
   ],
   "note": "CPU: all patterns, reductions and schemes; GPU: all block sizes and orders, ranges in device memory, when the last block visits a column. False on the GPU for rows of no block (left uninitialised), a last block without columns (read out of bounds), ranges in host memory (over-read); on the CPU for log-sum-exp on a block without columns (NaN): refuted."
  },
  {
   "property": "C16",
   "status": "partial",
   "theorems": [
    "C16_address",
    "C16_in_bounds",
    "C16_batch_dimensions",
    "C16_cpu",
    "C16_gpu",
    "C16_many_rows_refuted",
    "C16_no_columns_refuted",
    "C16_parameters_only_refuted"
   ],
   "note": "All numbers of batch dimensions, shapes and indices, up to 2^31 rows per argument, M, N >= 1: address and whole computation on CPU and GPU. False from 2^31 rows, for N = 0 (division by zero) and for formulas of parameters only: refuted. Consistency of the sizes is a hypothesis (the code does not check it)."
  },
  {
   "property": "C17",
   "status": "proved",
   "theorems": [
    "C17_describes",
    "C17_pairs",
    "C17_swap",
    "C17_swap_matrix",
    "C17_cpu_sum"
   ],
   "note": "For all boolean matrices and cluster ranges with matching sizes: the six arrays encode the pattern of keep and its transpose; swap_axes exchanges them; with the CPU program for ranges the sums are over exactly the kept blocks. Indices are unbounded non-negative integers."
  },
  {
   "property": "C18",
   "status": "partial",
   "theorems": [
    "C18_sort",
    "C18_sort_torch",
    "C18_ranges",
    "C18_ranges_given",
    "C18_ranges_torch",
    "C18_ranges_torch_refuted"
   ],
   "note": "Sorting and ranges proved for numpy for all label vectors and any (possibly unstable) sort, empty clusters included; for torch up to 2^24 points. Refuted for torch beyond: the counts are summed in single precision and the range of a cluster of 2^24+1 points misses the last one."
  },
  {
   "property": "C19",
   "status": "partial",
   "theorems": [
    "C19_numpy",
    "C19_torch",
    "C19_numpy_refuted",
    "C19_torch_refuted"
   ],
   "note": "Proved for numpy and torch when the coordinates spread over fewer than 1024 cells (first coordinate: 2^40 cells for numpy, 2^32, 2^22, 2^12 for torch in dimension 1, 2, 3); refuted beyond (collisions). Real arithmetic for x/size; allocation of the table is assumed to succeed."
  },
  {
   "property": "C20",
   "status": "partial",
   "theorems": [
    "C20_mode_total",
    "C20_formula",
    "C20_partition",
    "C20_sum_partial",
    "C20_every_reduction_partial",
    "C20_logsumexp_partial",
    "C20_scalar_parameters",
    "C20_generated_partial",
    "C20_parameters_refuted",
    "C20_scalars_refuted"
   ],
   "note": "Formula level proved for all formulas and dimensions (sum over chunks, each component in exactly one chunk). Kernel proved for all block sizes and orders when no chunked parameter coexists with another parameter and the kernel is generated. False otherwise: chunked parameters are loaded over the other ones; scalar variables of the chunked formula alone are missing from the tables: refuted. The variant with ranges and batch dimensions is C53."
  },
  {
   "property": "C21",
   "status": "partial",
   "theorems": [
    "C21_sum_partial",
    "C21_position_refuted",
    "C21_operation_refuted",
    "C21_reduction_refuted",
    "C21_dimensions_refuted"
   ],
   "note": "Proved for all dimensions, sizes, block sizes and orders when b occurs in the kernel or comes after its reduced variables. Refuted otherwise (offsets of the whole formula used on the rows of the kernel), and for formulas that are not such products or reductions that are not sums, for which the mode is selected all the same (wrong results or errors). Exact arithmetic; the variant with ranges and batch dimensions is C54."
  },
  {
   "property": "C22",
   "status": "partial",
   "theorems": [
    "C22_requests",
    "C22_loads",
    "C22_parsed_partial",
    "C22_module_texts_partial",
    "C22_names_refuted",
    "C22_parsed_refuted"
   ],
   "note": "Keys of the tables in memory: distinct for distinct requests (proved for all admissible formula texts). Names of files and of parsed reductions: the hashed texts are distinct, but the name keeps 10 characters of a digest, so collisions exist whatever the digest: refuted."
  },
  {
   "property": "C23",
   "status": "partial",
   "theorems": [
    "C23_direct_partial",
    "C23_front_ends_partial",
    "C23_factorize_refuted",
    "C23_flags_refuted",
    "C23_defaults_refuted"
   ],
   "note": "Direct calls: after any history the module is the one for the request and the factorisation in force, if the chunk options are given uniformly and no names collide. Front-ends: proved if the options are not changed during the session. Refuted for changes of auto_factorize or of the compilation flags between two calls, and for default values of the chunk options after another request."
  },
  {
   "property": "C24",
   "status": "partial",
   "theorems": [
    "C24_cpu_partial",
    "C24_gpu_partial",
    "C24_cpu_refuted",
    "C24_gpu_refuted",
    "C24_information_refuted",
    "C24_tables_refuted",
    "C24_empty_tables_refuted",
    "C24_two_writers"
   ],
   "note": "Exact description, for every crash point, of when the next request gets the right module (CPU and GPU), which also covers a second process starting meanwhile; two processes that both build the module leave complete files in every interleaving. The claim is false at the other crash points: permanent errors, wrong dimension read from a truncated file, tables that cannot be read: refuted."
  },
  {
   "property": "C25",
   "status": "partial",
   "theorems": [
    "C25_partial",
    "C25_truncated",
    "C25_refuted"
   ],
   "note": "Proved for all integers and all formulas on one line; a truncated file is never read as the right information. Refuted for formulas with a line feed. Carriage returns in the formula are not covered."
  },
  {
   "property": "C26",
   "status": "partial",
   "theorems": [
    "C26_declarations_partial",
    "C26_completion",
    "C26_old_types_refuted",
    "C26_named_variable_refuted",
    "C26_gap_refuted",
    "C26_shared_list_refuted"
   ],
   "note": "Front-end and engine agree with the meaning of every list of declarations in the syntax name = Xy(pos,dim), name = Xy(dim), Xy(..), Var(..), with any spacing; completion from the formula is proved for every enumeration order. Refuted for the old types Vx and Vy (the engine takes the previous category or fails), for name = Var(..), for unused positions, and for lists shared between two numpy formulas."
  },
  {
   "property": "C27",
   "status": "partial",
   "theorems": [
    "C27_numbering_partial",
    "C27_built",
    "C27_clash_refuted",
    "C27_absent_refuted"
   ],
   "note": "For every expression that the constructors and operations build, the numbering is a simultaneous renaming, each tensor is passed once, and the value is kept; hypothesis: no identity of a tensor is one of the new positions. Refuted when an identity is a position (two tensors are confused), and for a gradient with respect to a tensor that the expression does not contain (its identity stays as a position)."
  },
  {
   "property": "C28",
   "status": "partial",
   "theorems": [
    "C28_shape_partial",
    "C28_commutative",
    "C28_associative_partial",
    "C28_output_partial",
    "C28_zero_refuted"
   ],
   "note": "The broadcast shape is the one of numpy for compatible shapes with no dimension of size zero, the operation is commutative, associative when it does not fail, and the batch dimensions of the output agree. Refuted for dimensions of size zero."
  },
  {
   "property": "C29",
   "status": "partial",
   "theorems": [
    "C29_transpose_partial",
    "C29_involution_partial",
    "C29_reduction_refuted",
    "C29_negative_refuted"
   ],
   "note": "The value at (j,i) of the transposed expression is the value at (i,j), sizes, axis and ranges are exchanged, and transposing twice gives back all of it; formulas with one part, positions of symbolic variables natural and distinct from identities. Refuted: a product by a variable of more than 100 components keeps its factors untransposed, so its reduction is wrong; symbolic variables of negative position are not transposed."
  },
  {
   "property": "C30",
   "status": "partial",
   "theorems": [
    "C30_residual",
    "C30_kernel_residual",
    "C30_preconditioned_residual",
    "C30_terminates_partial",
    "C30_preconditioned_terminates_partial",
    "C30_empty_refuted",
    "C30_preconditioned_null_refuted"
   ],
   "note": "In exact arithmetic: when the conjugate gradient returns, the mean of the squared residual is below the tolerance, for the plain, the kernel (with regularisation alpha) and the preconditioned solver; it returns within n steps for a symmetric positive operator, a nonempty right-hand side and a nonzero tolerance; the preconditioned solver too, for any symmetric positive preconditioner and a nonzero right-hand side. Refuted: an empty right-hand side never ends, and the preconditioned solver never ends for a zero right-hand side. Rounding is not modelled."
  },
  {
   "property": "C31",
   "status": "partial",
   "theorems": [
    "C31_reduction_partial",
    "C31_pairs",
    "C31_degenerate_refuted",
    "C31_empty_refuted"
   ],
   "note": "The packed reduction visits every pair of rows exactly once and gives the unpacked result, for even and odd sizes, for reductions that are commutative and associative with the neutral element used as padding. Refuted: without a variable on the axis of the output two rows are returned; an empty axis is a Python error."
  },
  {
   "property": "C32",
   "status": "partial",
   "theorems": [
    "C32_whole_partial",
    "C32_columns_refuted",
    "C32_copies_refuted",
    "C32_second_call_refuted",
    "C32_boundary_refuted"
   ],
   "note": "A single range that covers everything visits the rows of the unpacked call. Refuted for other ranges: the reduction ranges are built from the wrong block, the array of the caller is modified so a second call differs, and a boundary inside a pair merges two blocks."
  },
  {
   "property": "C33",
   "status": "partial",
   "theorems": [
    "C33_exact_partial",
    "C33_double_refuted",
    "C33_half_guard",
    "C33_single_guard"
   ],
   "note": "Every index of a size accepted by the guard is returned exactly in half, single and double precision (at most 2^53, which the guard does not check: refuted above), through any copies at least as precise; the two thresholds are shown to be needed. Round to nearest even of Flocq."
  },
  {
   "property": "C34",
   "status": "partial",
   "theorems": [
    "C34_kmin_partial",
    "C34_argkmin_partial",
    "C34_kmin_argkmin_partial",
    "C34_empty_refuted",
    "C34_min_argmin",
    "C34_argmin",
    "C34_softmax",
    "C34_logsumexp",
    "C34_user_softmax",
    "C34_user_logsumexp",
    "C34_logsumexpweight_refuted"
   ],
   "note": "postprocess modelled on arrays of any leading shape: K-min values, indices and both, min with argmin, softmax and log-sum-exp are put at the right entry, starting from the accumulators of C06, C07 and C09; softmax and log-sum-exp are followed from the name given by the user (preprocess) to the entries of the answer. Refuted: no row at all is an error for K-min, and LogSumExpWeight is never finalized. The last dimension is dropped when there is one component."
  },
  {
   "property": "C35",
   "status": "partial",
   "theorems": [
    "C35_factorize_partial",
    "C35_auto_partial",
    "C35_formulas_partial",
    "C35_unfactored",
    "C35_nested_refuted"
   ],
   "note": "Any sequence of factorisations, and AutoFactorize (which terminates and leaves nothing to factorise), keep the value, for an arbitrary signature of operations and for the formulas of Formula.v; the generated code is replaced by its value. Refuted for factorised parts below the root: an alias escapes its scope and is read as an input."
  },
  {
   "property": "C36",
   "status": "partial",
   "theorems": [
    "C36_accepted",
    "C36_tensordot_partial",
    "C36_default_partial",
    "C36_gradients_partial",
    "C36_kron_partial",
    "C36_matvec",
    "C36_vecmat",
    "C36_tensorprod",
    "C36_names_refuted"
   ],
   "note": "Values of tensordot with and without permutation, exactly the accepted contractions, Kronecker products, matrix products, and the adjoint gradients. Missing: with 22 axes or more the generated code is not valid (names of loop variables), shown by C36_names_refuted; the floating-point division of the dimension is modelled as exact."
  },
  {
   "property": "C37",
   "status": "partial",
   "theorems": [
    "C37_sum",
    "C37_difference",
    "C37_product",
    "C37_quotient",
    "C37_accepted",
    "C37_methods",
    "C37_exp1j",
    "C37_scaling",
    "C37_gradients_partial",
    "C37_differentiable_partial",
    "C37_ends",
    "C37_odd_refuted",
    "C37_numbers_refuted",
    "C37_parts_refuted",
    "C37_plus_refuted"
   ],
   "note": "Operators, methods and gradients of complex formulas; ComplexAngle and the simplification rules are not modelled. The false parts are stated as refuted: gradients with respect to variables of odd dimension, numbers with complex LazyTensors, reciprocals and squares, real LazyTensor plus complex number."
  },
  {
   "property": "C38",
   "status": "partial",
   "theorems": [
    "C38_single_partial",
    "C38_lists_refuted",
    "C38_right_lists"
   ],
   "note": "Right for one number only; C38_lists_refuted gives what every longer list becomes."
  },
  {
   "property": "C39",
   "status": "partial",
   "theorems": [
    "C39_count",
    "C39_consistent",
    "C39_dense_partial",
    "C39_batches_partial",
    "C39_result_partial",
    "C39_exact_partial",
    "C39_accepted_refuted",
    "C39_too_small_refuted",
    "C39_batch_wraps_refuted",
    "C39_batch_skipped_refuted",
    "C39_lazy",
    "C39_lazy_rejects"
   ],
   "note": "Consistent calls (CPU routines, with or without batch dimensions) read only numbers of their arrays, and their result depends on nothing else. The rejection of inconsistent calls is refuted for Genred: the tests of Sizes.h are not compiled; every two-dimensional call with the right number of arguments is accepted, and any array that is too small is read outside. LazyTensors reject different numbers of rows. User ranges, non-contiguous arrays and the GPU routines are not covered."
  },
  {
   "property": "C40",
   "status": "partial",
   "theorems": [
    "C40_adjoint",
    "C40_linear",
    "C40_linear_refuted",
    "C40_sum",
    "C40_weighted_sum_partial",
    "C40_trace_partial",
    "C40_weighted_trace_partial",
    "C40_diff_partial",
    "C40_divergence_partial",
    "C40_divergence_refuted",
    "C40_laplacian_partial",
    "C40_constant_refuted",
    "C40_matrix_refuted",
    "C40_operators_terminate",
    "C40_derivatives_terminate"
   ],
   "note": "Adjoint, sum and trace operators and Diff, Divergence, Laplacian give the mathematical value whenever accepted, and end, for all formulas of degree one (C40_linear) whose sums over components of the variable are not nested. Refuted: a divergence with nested sums is wrong (exchanged weights), is_linear accepts x*exp(x), constants and matrix products are refused. Tuples of variables and reductions are not modelled."
  },
  {
   "property": "C41",
   "status": "partial",
   "theorems": [
    "C41_variable",
    "C41_parameter",
    "C41_variable_gradient",
    "C41_parameter_gradient",
    "C41_unpadded_refuted"
   ],
   "note": "For all batch shapes with the same number of dimensions (which LazyTensors ensure by padding), the gradient has the shape of the argument, sums over the broadcast dimensions, and is the gradient by the chain rule. Refuted for a parameter without batch dimensions: an error. The operations of PyTorch (sum, reshape) are modelled on row-major arrays."
  },
  {
   "property": "C42",
   "status": "partial",
   "theorems": [
    "C42_announced",
    "C42_accepted",
    "C42_shape",
    "C42_formula",
    "C42_gradient_partial",
    "C42_gradient_refuted",
    "C42_grad_matrix_refuted",
    "C42_difference_matrix_refuted"
   ],
   "note": "For all sequences of the modelled methods, the announced dimension and shape are those of the expression accepted by the engine, and of the formula it builds. Gradients: first order, when functions of two arguments do not mix dimensions. Refuted: gradient with respect to the scalar operand of atan2, grad_matrix and difference_matrix, whose formulas the engine cannot read. Complex tensors and the reductions are covered by C37 and C26-C28."
  },
  {
   "property": "C43",
   "status": "partial",
   "theorems": [
    "C43_basis",
    "C43_rejects",
    "C43_support",
    "C43_unity",
    "C43_right_end_refuted",
    "C43_double_refuted"
   ],
   "note": "In single precision, for all sorted knots. Refuted: in every other precision no code is generated, since the sampling point is a C++ variable of type float and binary_op refuses two types (C43_double_refuted); at the last knot of the domain, if repeated, all values are zero (C43_right_end_refuted). The gradient raises NotImplementedError and is not modelled."
  },
  {
   "property": "C44",
   "status": "proved",
   "theorems": [
    "C44_alignments",
    "C44_value",
    "C44_gradient",
    "C44_bounds"
   ],
   "note": "In exact arithmetic, for arguments with at least one element. The gradient with respect to gamma is refused by the code and is not part of the claim. C44_bounds compares the value with the least cost."
  },
  {
   "property": "C45",
   "status": "partial",
   "theorems": [
    "C45_backend",
    "C45_backend_accepts",
    "C45_backend_rejects",
    "C45_names_refuted",
    "C45_cpu_refuted",
    "C45_device",
    "C45_device_refuted",
    "C45_selected_partial",
    "C45_selected_when",
    "C45_default_refuted",
    "C45_product_partial",
    "C45_opposite_refuted",
    "C45_scaled_refuted",
    "C45_entrywise_refuted",
    "C45_backward",
    "C45_second_pass",
    "C45_jvp",
    "C45_gradient_partial",
    "C45_repeated_refuted",
    "C45_branch_refuted"
   ],
   "note": "Backend names and devices for all inputs, except: a request is not compared with arrays of device 0 (refuted), CPU is accepted for arrays of the device (refuted), the textual variant always fails (refuted). The final-chunks mode is selected only if asked for with numpy and the solvers; with torch the default False selects it, and wrong numbers follow (refuted). When asked for, it computes the sum and the gradient for scalar formulas that are not rewritten by the product; opposites, integer multiples, entry-wise products, gradients of sum_j k(x_i,y_j) y_j and of branches are errors (refuted)."
  },
  {
   "property": "C46",
   "status": "partial",
   "theorems": [
    "C46_saved",
    "C46_logsumexp",
    "C46_softmax",
    "C46_logsumexp_jvp_partial",
    "C46_softmax_jvp_partial",
    "C46_raw_refuted"
   ],
   "note": "Gradients and tangents for all formulas when accepted; the saved rows are those computed by the CPU schemes of C09 (not Kahan). PyTorch's own differentiation of the post-processing (+, log, /, slices) is written out and trusted. Gradients of the raw rows (m, s), which LogSumExpWeight returns, are wrong (refuted)."
  },
  {
   "property": "C47",
   "status": "partial",
   "theorems": [
    "C47_code_computes_formula_partial",
    "C47_generation",
    "C47_names_declared_once",
    "C47_engine_names",
    "C47_onehot_refuted"
   ],
   "note": "The text of the code is replaced by its syntax tree, and the fragment of C++ it uses has a small semantics (CSem.v). Exact reals, one floating point type, the CPU branch of the functions; the operations of Formula.v (not the complex operations, TensorDot, Factorize, BSpline, SoftDTW, Round). Without the condition on the index, OneHot writes outside its output (refuted)."
  },
  {
   "property": "C48",
   "status": "partial",
   "theorems": [
    "C48_routine_partial",
    "C48_sum_partial",
    "C48_optimum_partial",
    "C48_logsumexp_partial",
    "C48_indices_not_hidden",
    "C48_double_accumulator_refuted"
   ],
   "note": "Exact reals, the operations of C47, the reductions listed (not KMin), dense routine. The rows are executed one after the other in any order, and the arrays of the caller do not overlap. An accumulator in double precision for data in simple precision is accepted by the options for log-sum-exp reductions but the generator raises for it (refuted)."
  },
  {
   "property": "C49",
   "status": "partial",
   "theorems": [
    "C49_residual",
    "C49_exact_partial",
    "C49_gradient_partial",
    "C49_parameter_shape",
    "C49_batch_parameter_refuted"
   ],
   "note": "Exact reals; the restriction unmixed of C03; without batch dimensions and ranges; the gradient formula is accepted. The gradient of a parameter is refuted in the presence of a batch dimension: the sum over the rows raises an error or has the wrong shape."
  },
  {
   "property": "C50",
   "status": "partial",
   "theorems": [
    "C50_data_partial",
    "C50_array_partial",
    "C50_later",
    "C50_symbolic_partial",
    "C50_unknown_partial",
    "C50_unknown_data_refuted",
    "C50_deferred_refuted"
   ],
   "note": "Real tensors; options of the call are left out; the call itself is C49. Refuted: with an unknown given by var and a second member with data, solve always raises ValueError, contrary to the documentation; without any data the returned object can never be called, as the alias of the unknown is lost."
  },
  {
   "property": "C51",
   "status": "partial",
   "theorems": [
    "C51_weighted_partial",
    "C51_plain_partial",
    "C51_ranges_partial",
    "C51_torch_partial",
    "C51_torch_small_refuted",
    "C51_counts_refuted"
   ],
   "note": "Exact real arithmetic; arrays of size one are not repeated. Refuted: torch replaces the weights below min_weight, so the centroid is not the weighted mean for small weights; given counts with empty last classes raise an error."
  },
  {
   "property": "C52",
   "status": "partial",
   "theorems": [
    "C52_direct_partial",
    "C52_direct_mixed_partial",
    "C52_block_partial",
    "C52_block_mixed_partial",
    "C52_gpu_block_partial",
    "C52_gpu_others_partial",
    "C52_kahan_partial",
    "C52_ranges_direct_partial",
    "C52_ranges_kahan_partial",
    "C52_ones_refuted",
    "C52_ranges_block_refuted",
    "C52_ranges_ones_refuted",
    "C52_double_acc_refuted",
    "C52_exact_partial"
   ],
   "note": "Rounding to nearest, no overflow, no reordering by the compiler; the errors of the evaluation of the terms are not included; the bound of the compensated sum supposes n times the unit roundoff at most 1. Refuted: the block scheme with use_double_acc still accumulates in the type of the data inside of a block, and with ranges or batches on CPU it is the direct sum in the type of the data, whatever the accumulator."
  },
  {
   "property": "C53",
   "status": "partial",
   "theorems": [
    "C53_blocks_partial",
    "C53_ignores",
    "C53_interval_partial",
    "C53_indices_refuted",
    "C53_batches_partial",
    "C53_parameters_refuted"
   ],
   "note": "Blocks: reductions that do not use the index of a term, and for the other ones the exact (shifted) indices of a block of one interval. Batches: every reduction, if all parameters have the same batch sizes. As in C20, no chunked parameter next to another parameter, and scalar variables of the chunked formula occur in the remaining one. Refuted: with user ranges the index of a term is counted from the start of the interval, so ArgMin and ArgMax are wrong; with batches, the offsets of the parameters are taken in another order than the parameters."
  },
  {
   "property": "C54",
   "status": "partial",
   "theorems": [
    "C54_blocks_partial",
    "C54_batches_partial",
    "C54_parameters_refuted",
    "C54_operation_refuted",
    "C54_rows_refuted"
   ],
   "note": "Proved if no parameter has batch sizes other than 1. Refuted: with batches every block reads the parameters of the first batch; the operation is not examined (x + b gives x * b), as in C21; a factor b indexed by the output rows cannot be generated. Unlike C21, no condition on the position of b."
  },
  {
   "property": "C55",
   "status": "partial",
   "theorems": [
    "C55_one_reading",
    "C55_reading",
    "C55_reading_any",
    "C55_numbered",
    "C55_value_partial",
    "C55_meaning_partial",
    "C55_methods_partial"
   ],
   "note": "The reading is proved for every text made by the methods of C42; the values for the operations of the formula language of C01 (no TensorDot, Kron, Round, BSpline, SoftDTW, DifferenceMatrix, Factorize) when dimensions, categories and positions are not negative. Python's grammar is modelled for the fragment that occurs."
  },
  {
   "property": "C56",
   "status": "partial",
   "theorems": [
    "C56_structure_partial",
    "C56_value_partial",
    "C56_sum_refuted",
    "C56_equality_refuted",
    "C56_rejected_refuted"
   ],
   "note": "Refuted in general: a scalar product or a comparison directly under a sum is printed without parentheses and read as another formula; equalities are evaluated on the formulas themselves, so that a mask becomes 0; rational constants, constants as arguments of functions, coordinates and concatenations are printed as texts that are not formulas. Outside these the text is proved to be read back."
  },
  {
   "property": "C57",
   "status": "partial",
   "theorems": [
    "C57_reduction_partial",
    "C57_names_refuted",
    "C57_zero_refuted",
    "C57_factorized_refuted"
   ],
   "note": "Proved for the methods of computes, when no identity of a tensor is one of the positions (C27). Refuted: the names MinArgMin, MaxArgMax and KMinArgKMin have no class; K = 0 is left out of the text; the option auto_factorize changes the child of the reduction but not the formula that is compiled. Zero_Reduction is not modelled."
  },
  {
   "property": "C58",
   "status": "partial",
   "theorems": [
    "C58_one_reduction",
    "C58_text",
    "C58_tangent_text",
    "C58_orders_partial",
    "C58_regular_partial",
    "C58_tangent_partial",
    "C58_lse",
    "C58_zero",
    "C58_positions_refuted",
    "C58_flag_refuted",
    "C58_zero_tangent",
    "C58_lse_text",
    "C58_softmax_text"
   ],
   "note": "The text theorems are complete for two-dimensional arguments (texts of gradients and tangents, of weighted log-sum-exps and soft-maxes). The values are proved for sums when the engine accepts the text, in exact real arithmetic and without batch dimensions; tangents only as the last pass; the first pass through a log-sum-exp is the one of C46, and the later ones treat the saved output as a constant, as the code does. Refuted: with explicit positions in another order than the list, the gradient returned for an argument is the one of another argument; the flag rec_multVar_highdim is lost for the multiplied variable when an argument before it needs a gradient."
  },
  {
   "property": "C59",
   "status": "partial",
   "theorems": [
    "C59_gradient_partial",
    "C59_orders_partial",
    "C59_exists_partial",
    "C59_rational_refuted"
   ],
   "note": "Left out: rational constants, Sqrt, Rsqrt, Asin, Acos (whose derivatives have the constant 1/2), Clamp, Mod, constant denominators, scalar/vector mixes in Atan2, Powf, IfElse; tangent passes. Refuted with rational constants: the gradient of x/2 + z + 3 x for x raises AttributeError."
  },
  {
   "property": "C60",
   "status": "partial",
   "theorems": [
    "C60_detection",
    "C60_flags_partial",
    "C60_flags_refuted",
    "C60_launches_partial",
    "C60_devices_refuted",
    "C60_sessions_refuted",
    "C60_folder_refuted",
    "C60_version_refuted",
    "C60_old_refuted"
   ],
   "note": "The detection and the flags are proved for all machines; launches for one device per session and sessions that see the same limits. Refuted: the limits are global variables set at loading, so with two different devices a launch exceeds the limits of its own; the binder compiled for one value of CUDA_VISIBLE_DEVICES is reused for another; devices above 12; the import fails without libcudart, or when CUDA_VISIBLE_DEVICES is set and only the compiler knows the headers; the older get_gpu_props ignores failures. Left out: folders of the libraries, nvrtc flags, fp16 headers."
  },
  {
   "property": "C61",
   "status": "partial",
   "theorems": [
    "C61_generic_partial",
    "C61_refused",
    "C61_dimension_refuted",
    "C61_twice_refuted",
    "C61_hidden_refuted",
    "C61_zero_refuted"
   ],
   "note": "Proved for expressions of the operations of Formula, names declared once that hide no function that is used, arguments with at least one coordinate. Refuted: the declared dimension of the output is not compared with the formula; a name declared twice silently takes its last declaration; an argument with the name of a function makes the formula fail; generic_argkmin with 0 values fails. Left out: complex formulas, VarSymb, options that do not go into the text."
  },
  {
   "property": "C62",
   "status": "partial",
   "theorems": [
    "C62_launch_partial",
    "C62_session_partial",
    "C62_host_ranges_refuted",
    "C62_leak_refuted",
    "C62_empty_refuted",
    "C62_size_refuted"
   ],
   "note": "Proved for data on the device in all modes and for data on the host without ranges nor batches, with at least one row, one column and one argument, and fewer than 2^31 elements per array of the host. Refuted: with data on the host, ranges or batches read past the end of the slices (undefined); a failing call leaves the blocks allocated; a launch without rows is refused and leaks; an output of 2^32 elements on the host is silently not written, its size being computed in an int. The rows of the offset table are given (C05, C53); half precision only changes the given sizes; contexts and modules are calls that succeed or fail."
  },
  {
   "property": "C63",
   "status": "partial",
   "theorems": [
    "C63_vmap_partial",
    "C63_equal_partial",
    "C63_third_dimension_refuted",
    "C63_ranges_refuted",
    "C63_out_refuted",
    "C63_no_columns_refuted",
    "C63_parameters_only_refuted"
   ],
   "note": "Proved for mapped dimensions among the first two, at least one row and one column, without ranges or out; the equality of all numbers for the direct scheme and for sums, the same reduced values otherwise. Refuted: a third dimension is exchanged with the first instead of moved, so that the rows and components of the result are exchanged; with ranges the call is undefined; with out the result has no new dimension and the memory after out is written; without columns the call fails although each slice gives 0; for a formula of parameters one result is returned. CPU routines, contiguous tensors; torch transposes, contiguous copies and the vmap transform itself are the functions of Vmap.v."
  },
  {
   "property": "C64",
   "status": "partial",
   "theorems": [
    "C64_kernel",
    "C64_axis_partial",
    "C64_grad_text",
    "C64_second_order_refuted",
    "C64_gradient_partial",
    "C64_summed_index_refuted",
    "C64_lse_refuted",
    "C64_vector_refuted",
    "C64_data_partial",
    "C64_position_refuted",
    "C64_row_vector_refuted"
   ],
   "note": "Proved: operation, formula, axis and third argument of the text of any reduction (C64_kernel) and of its first derivative (C64_grad_text); the index of a sum; the gradient of sums of formulas of dimension 1 for a variable having the index of the result; the arrays for matrices, named or not. Refuted: derivatives after the first are lost; for a variable with the summed index the incoming gradient has the index of the variable (the example of the documentation); the derivative of a log-sum-exp is the log-sum-exp of the derivatives; for a formula of dimension 3 the gradient has one component; values named in the call are ordered by place although positions are written; a vector with inner_dim row is one point. Not modelled: options, precision, reticulate, the results of the routine; the regular expressions of R are the functions of RKeops.v."
  },
  {
   "property": "C65",
   "status": "partial",
   "theorems": [
    "C65_text",
    "C65_plain",
    "C65_number",
    "C65_weight",
    "C65_data",
    "C65_reduction_partial",
    "C65_weighted_partial",
    "C65_usual_partial",
    "C65_usual_weighted_partial",
    "C65_gradient_refuted",
    "C65_concat_refuted",
    "C65_min_refuted"
   ],
   "note": "Proved for all programs: names, declarations and order of the matrices, with sharing (C65_text); texts of reductions, also with a number or a weight (C65_plain, C65_number, C65_weight); the arrays (C65_data); the reduction that the engine makes, for all reductions, also with a number or a weight (C65_reduction_partial, C65_weighted_partial); for the usual operations the formula is well formed and has the announced dimension (C65_usual_partial, C65_usual_weighted_partial). Refuted: grad ignores the variable that is given and computes the gradient for the first matrix of the formula; concat announces the number of columns of the matrix inside its argument; min without index keeps the dimension of its argument. Assumed: different objects have different addresses of the form 0x and hexadecimal digits, names of operations do not contain A0x. Not modelled: complex tensors, the regular expressions of R beyond the functions of RLazy.v, the results of the routine."
  },
  {
   "property": "C66",
   "status": "partial",
   "theorems": [
    "C66_value",
    "C66_accepted",
    "C66_reduction_partial",
    "C66_weighted_partial",
    "C66_extractT_refuted",
    "C66_extractT_dimension_refuted",
    "C66_elemT_refuted",
    "C66_elemT_dimension_refuted",
    "C66_weights_refuted"
   ],
   "note": "Proved for all calls: the value of the formula where the functions are defined and the announced dimension (C66_value); fitting calls are accepted (C66_accepted; one_hot for parameters only); with the reductions of C65, the engine reduces a formula with these values on the matrices of the call, also with a weight (C66_reduction_partial, C66_weighted_partial). Refuted: extractT accepts one coordinate too many and announces the dimension of its argument; elemT takes any formula with an integer constant for a number and announces dimension 1; weightedsqnorm does not compare the number of weights with the dimension (C66_weights_refuted). Not modelled: complex tensors, round, functions of the base package of R; the regular expressions of R are searches of texts."
  },
  {
   "property": "C67",
   "status": "partial",
   "theorems": [
    "C67_accepted",
    "C67_no_index",
    "C67_sum_partial",
    "C67_optimum_partial",
    "C67_smallest_partial",
    "C67_logsumexp_partial",
    "C67_softmax_partial"
   ],
   "note": "Proved for all calls, where their functions are defined (for one_hot: numbers below the number of places) and the engine builds the formula: sums (C67_sum_partial), optima and first indices (C67_optimum_partial), K smallest values and indices (C67_smallest_partial), log-sum-exp for one coordinate (C67_logsumexp_partial), the means of weights by exponentials (C67_softmax_partial); the reductions are accepted when an index is given (C67_accepted) and without one sum is the sum of the coordinates and the others are refused (C67_no_index), where min, argmin, max and argmax (see C65_min_refuted) and sumsoftmaxweight are not covered. Over exact real numbers. Missing: the GPU routines; log-sum-exp and sumsoftmaxweight with compensated summation; the conversion of the output to a matrix of R; complex tensors; that the engine builds every formula of a call."
  }
 ]
}