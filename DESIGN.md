# Formal model of KeOps in Rocq — design

Source: `/repo` (getkeops/keops), read as text only. The model lives in
`rocq/theories`, built with `coq_makefile -f _CoqProject -o Makefile && make`.

## Method

* Python and C++ functions are transcribed as total computable Gallina functions, branch by branch.
  Python exceptions and `KeOps_Error` are *values* of a result type (`Result.v`): `KErr` for an explicit
  `raise`, `PyErr` for an unintended exception or an undefined behaviour of C++; recursive functions whose
  termination is not structural take fuel and return an explicit `OutOfFuel`, and the theorems either show that
  it is not returned or speak of results `Ok` only.
* Formulas are a deep embedding (one constructor or operator code per KeOps operation class); the generated C++
  is modelled by an evaluator over the reals (`eval`), one clause per `ScalarOp`/`Op` method. For the operations of
  `Formula.v`, C47 derives this evaluator from the generated code itself, represented by its syntax tree,
  and C48 derives the dense CPU routine (loops, schemes, accumulators) from its generated code.
* Reductions act on arrays of cells holding extended reals with NaN (`XReal.v`); loops, tiles, blocks, chunks and ranges
  are modelled at the level of the addresses that are read and written.
* Specifications are in separate files (`*Spec.v`) and do not use the helpers of the model.
* The theorems answering the property `Cnn` are in `Cnn.v`, which holds nothing else than examples; each is closed by
  `exact lemma.` and followed by `Print Assumptions`.
* Names: a suffix `_partial` means that the English claim is proved for a part of its domain, told in the comment;
  `_refuted` means that the claim, or a part of it, is false of the code: the theorem gives a witness or the exact set of failures.
* `seeded/LOG.jsonl` lists the wrong programs against which the theorems were tested. A theorem is listed as failed when its proof, or that of a lemma it uses, no longer compiles; that its statement became false is not checked separately.

## Trusted base

* The kernel of Coq 8.16.1, and the compilation chain `coq_makefile`/`coqc`.
* The axioms of the standard library listed at the end of this file, theorem by theorem. No axiom is added; no other
  library brings one (Flocq, used by C33 and C52, rests on the same axioms of the real numbers).
* The reading of the code: that the Gallina definitions, each with a comment citing file and lines, do what the code does.
  The simplifications are stated in the header of each model file, reproduced below.
* Behaviours taken as parameters of the model (section variables or arguments), about which nothing or only what is stated is assumed:
  - the digest used for names (C22, C23: injectivity is a hypothesis of the theorems that need it), the printing of formulas,
    the evaluation of the text of a formula (both parameters there; the model of the text is in C55 and C56), the generated code, the compiler, `pickle`, where a file is cut by a crash;
  - `argsort` and `sort` of numpy and torch (a permutation that sorts, stable where the documentation says so),
    the order of enumeration of Python sets, the identities of objects and of the views that `t()` makes;
  - the order in which GPU threads act between two barriers and the order of OpenMP iterations (any permutation).
* Arithmetic: values of formulas are exact reals. Infinities and NaN appear where the property is about them (C06-C16).
  Number formats are modelled in C33, and the rounding of sums in C52, only. Integers are unbounded except where stated (C16: 32-bit block index).
* Python's expressions: `PyRead.v` gives the grammar and the evaluation of the fragment that occurs in formulas (names, integers,
  calls, lists, items, `-`, `**`, `*`, `/`, `+`, `|`, comparisons); that Python reads texts in this way is trusted.
* PyTorch and numpy: `sum`, `reshape`, `view`, `cat`, `max` of shapes are modelled on row-major arrays; strides are not represented.

## Not modelled

Compilers (g++, nvrtc) and the C++ language beyond the generated loops; the CUDA memory model beyond barriers; rounding of values of
formulas; torch autograd itself (the functions that KeOps gives to it are modelled: C05, C41); rkeops; installation and configuration
code; the R and C++ interfaces;
`ComplexAngle`; the operation Round as a function (its dimension is in `Methods.v`); the `DiffT` methods of BSpline and SoftDTW, which call or refuse the modelled code; random number generators.


## Plan per property

| id | what is modelled | how it is proved |
|----|------------------|------------------|
| C01 | smart constructors Add/Subtract/Mult/Minus/Divide/Sum/SumT/Scalprod/Square/Pow/IntCst/RatCst/Broadcast, mutually recursive with fuel | induction on fuel: any `Ok` result has the dimension and the value of the mathematical operation |
| C02 | same | termination measure on trees; error branches characterised; the Rat±Int branch of the code raises, refuted with a witness |
| C03 | `DiffT` of each operation using the smart constructors | structural induction; directional derivative with `derivable_pt_lim` |
| C04 | generic `VectorizedScalarOp.DiffT` | dimension computation; refuted with a witness for the mixed case |
| C05 | Sum_Reduction.DiffT and tagIJ choice | exchange of finite sums + C03 |
| C06 | ReducePairShort/ReducePair/Finalize of Min/Max/Arg | invariant by induction over the sequence |
| C07, C08 | insertion loop and merge loop of KMin_ArgKMin on arrays | refinement to insertion sort / stable merge |
| C09, C10 | Max_SumShiftExpWeight on reals; on extended reals with NaN | invariant; witness for the -inf case |
| C11 | sum_schemes (direct, block, kahan) as state machines | invariant over the loop |
| C12, C13, C14 | loop nests as folds, threads of a block as a list of states stepping between barriers | induction over tiles |
| C15, C16 | ranges loops and broadcast_index | mixed radix arithmetic, list concatenation |
| C17, C18, C19 | from_matrix, sort_clusters, cluster_ranges, grid labels | lists over nat/Z |
| C20, C21 | chunk constants, chunked evaluation | partition of [0,dim) |
| C22, C23 | cache key strings, caches as state machines | injectivity on strings; counterexample histories |
| C24, C25 | file system as finite map with steps of the build; info file text | exhaustive reasoning over steps for arbitrary contents; round trip over strings |
| C26, C27, C29 | alias parsing and textual renaming on token lists/strings | round trip, substitution lemmas |
| C28 | check_broadcasting | against a position-wise specification |
| C30 | ConjugateGradientSolver over an abstract inner product on R^n | loop invariant |
| C31, C32 | half2_convert | permutation lemmas / witness |
| C33 | size guard and binary32/binary16 formats (Flocq) | exactness of integers below 2^24 / 2^11 |
| C34 | postprocess, FinalizeOutput | index arithmetic |
| C35 | replace, Factorize | structural induction |
| C36 | TensorDot parameters and loops | mixed radix arithmetic |
| C37, C38 | complex operations on interleaved vectors | against pairs of reals |
| C39 | get_sizes, Sizes checks | safety lemma for consistent sizes, witness for inconsistent ones |
| C40 | is_linear, AdjointOperator, TraceOperator, Divergence | structural induction; witness for unsound rule |
| C41 | collapse of batch dimensions in `_backward` | sums over multi-indices |
| C42 | dimres of LazyTensor operations | case analysis |
| C43 | the in-place recursion of B-splines | invariants of the two loops; support of the functions |
| C44 | forward and backward passes of soft-DTW | loop invariants; sums over alignments; exchange of sums over a grid |
| C45 | get_options.py, set_device, the flag of the final-chunks mode and its use in gradients | case analysis on names; gradients with respect to absent variables are the formula zero; C21 |
| C46 | DiffT and Diff of Max_SumShiftExpWeight_Reduction, backward and jvp for it, differentiated post-processing | C03, C40 and the linearity of the adjoint in the incoming gradient; uniqueness of derivatives; C09 for the saved rows |
| C47 | Operation.__call__, the methods Op and ScalarOp, new_c_varname, c_array, VectApply, VectCopy; a semantics for the generated fragment of C++ | induction on the formula; a frame for the memory outside the output; freshness of names |
| C48 | MapReduce.get_code, CpuReduc.get_code, the methods of the reductions, the three schemes, direct_table, as functions that build code; meaning of the loops on i and j | one lemma per piece of code (accumulator as a cell function), invariant of the loop on j per scheme, rows disjoint; values by C12 |
| C49 | KernelSolveAutograd.forward/backward on the sum of KernelSum and the solver of Solver.v; shape of the gradient of a parameter | dependence of n+1 vectors, inverse of the operator bounds solutions near 0, derivative by symmetry, gradient formula by C05, termination by C30 |
| C50 | LazyTensor.solve, the part of __call__ for it, the position of the unknown in KernelSolve.__init__ | numbering of C27 applied to the product with the unknown |
| C51 | cluster_centroids and cluster_ranges_centroids (numpy and torch) on exact arrays | sums by class as filtered sums, by induction on the points |
| C52 | the sum schemes and the CPU, CPU ranges and GPU 1D loops with rounded operations (Flocq formats) | number of roundings of each term, standard error analysis by induction; compensated sum by an invariant on the accumulator and the compensation |
| C53 | GpuReduc1D_ranges_chunks: tiles, chunks, offsets of batches, merged intervals, blocks of threads | the generic grid argument of C15 over the tiles of C20; invariants per tile and per interval |
| C54 | GpuReduc1D_ranges_finalchunks: tiles, chunks, offsets of batches, merged intervals, blocks of threads | the generic grid argument of C53 over the chunks of C21; sums over intervals by induction |
| C55 | lexing, grammar and evaluation of the fragment of Python used by formulas; operators of Operation; functions and classes by name | tokens and parsing by structural induction on terms; evaluation compared with the construction of C01 |
| C56 | Tree.recursive_str, print_spec and string_id of the classes | levels of the grammar compared with the levels of print_spec by induction on formulas |
| C57 | axis2cat, the text of Genred, LazyTensor.reduction, constructors of reductions, GetReduction | the numbering of C27, the reading of C55 and the construction of C01 composed |
| C58 | the loops of _backward and jvp, Grad_WithSavedForward, Diff_WithSavedForward, DiffT and Diff of the reductions | reading extended to arguments of calls (ReadArgs), closure of regular formulas under DiffT (DiffClosure), C05 and C46 composed by induction on passes |
| C59 | DiffT and the simplifying constructors (Diff, Simplify), BackText | the simplifications never fail on such operands (C02) and keep the condition on nodes; induction on the formula, then on the passes with C58 |
| C60 | CUDAConfig, build folders, import of keopscore and pykeops, SetGpuProps and the preprocessor on the flags, modules and launches of the binder (GpuConfig) | case analysis on the answers; splitting of the text of the flags; invariants on sessions and on sequences of actions |
| C61 | generic_sum and the three others, cat2axis, the table of names of GetReduction (GenericOps), over get_type (Aliases), the text of Genred (RedText) and the reader (PyRead) | the translation of C26, the reading of arguments of C58, evaluation under names compared with that of the term by induction on the expression, the construction of C01 |
| C62 | every allocation, copy, release and launch of the binder over a memory of bytes, with the driver as an oracle (GpuMemory) | a rule for each call of the driver, separation of the live blocks, the cut of the ranges by induction |
| C63 | the vmap rule, the sizes seen by the call, the shape of the output and the choice of the routine (Vmap), over the routines of C12 and C16 | consistency of the transposed sizes, then the routine with batches (C16) |
| C64 | the cutting of texts, the declarations, the operators, the gradient texts and the order of the data (RKeops), over the reading of texts of C55 and C61 | text lemmas on parentheses and commas, then the gradient of C05 for the formula read from the text |
| C65 | the LazyTensors of R, their operations, the renaming of arguments, reductions and grad (RLazy), over the operators of C64 | induction on programs; replacement of names in texts; reading of the text as in C55 and C61 |
| C66 | the functions of R on LazyTensors (RMethods), over the LazyTensors of C65 | induction on calls, with the formula and the value of each function; reading of texts for the refutations |
| C67 | the reductions of R on LazyTensors (RReduce), over the calls of C66 and the CPU routine of C12 | the formula of the call from C65 and C66, safe where the call is defined (induction on calls), then the CPU routine on its arrays (C06, C07, C12) |

## What is modelled, file by file

The text is the header of each model file. Within the files each definition cites the lines it models.

### `Formula.v`

Deep embedding of KeOps formulas: abstract syntax, output dimensions, well-formedness
(the checks made by the class constructors) and evaluation over the reals.

Models keopscore/keopscore/formulas/Operation.py (class Operation, lines 13-245),
VectorizedScalarOp.py (lines 6-50) and the classes of formulas/maths and
formulas/variables, one constructor (or operator code) per class.

Simplifications: the generated C++ is replaced by its meaning over exact reals
(no rounding, no overflow); half2 code paths are not modelled.

### `Simplify.v`

The formula-building functions of KeOps with their simplification rules.

Every function is transcribed rule by rule, in the order of the source.  The Python
functions Add, Subtract, Mult and Minus call each other recursively without a
structural argument; the model adds a fuel argument (suffix F) and returns
[OutOfFuel] when it runs out.  Termination.v shows that the fuel used by the
top-level definitions at the end of this file is always sufficient.

### `Diff.v`

Symbolic differentiation: the DiffT methods of KeOps formulas.

[f.DiffT(v, gradin)] is the formula of the adjoint derivative of f with respect to
the variable v applied to gradin.  The Python methods recurse on children, except
Clamp and Mod which differentiate an equivalent formula built on the fly; the model
therefore takes a fuel argument, shown sufficient in DiffTermination.v.

### `Build.v`

Building a whole expression.

A user writes an expression with the operators and functions of the formula language;
Python evaluates it bottom-up, so that each node is produced by the corresponding
function (with its simplification rules) or class constructor.  [build] performs this
on the tree [f] of the expression as written.

Models the operator overloads of keopscore/keopscore/formulas/Operation.py 106-190
and [eval] of a formula string in formulas/GetReduction.py 11-34.  Operations without a
simplifying function are class constructors: the result is the node itself, if the
checks of __init__ pass ([mk]).

### `KernelSum.v`

Sum reductions over pairs of rows, and their gradients.

### `XReal.v`

Extended reals with NaN: the values of C++ floating-point cells in exact arithmetic
(no rounding; infinities and NaN propagate as in IEEE 754, signed zeros are not
distinguished).

### `Reductions.v`

Accumulators of the final reductions, cell by cell.

Models keopscore/keopscore/formulas/reductions: Reduction.py, Sum_Reduction.py,
Min_Reduction.py, Max_Reduction.py, Min_ArgMin_Reduction_Base.py,
Max_ArgMax_Reduction_Base.py, (Arg)Min/(Arg)Max and Min_ArgMin/Max_ArgMax reductions,
KMin_ArgKMin_Reduction.py, KMin_Reduction.py, ArgKMin_Reduction.py,
Max_SumShiftExpWeight_Reduction.py.

An array of C++ cells is a function from positions to extended reals.  Data type "half2"
is not modelled (the code raises for all these reductions except Sum).

### `CpuReduc.v`

Dense CPU reduction: keopscore/keopscore/mapreduce/cpu/CpuReduc.py lines 24-69 and
formulas/reductions/sum_schemes.py.

### `Postprocess.v`

Post-processing of one row of output: pykeops/pykeops/common/operations.py lines 37-86.

### `Loader.v`

Variables of a formula and the tables of pointers used to evaluate it.

Models keopscore/keopscore/formulas/Operation.py lines 34-50 (Vars_ and Vars) and
keopscore/keopscore/utils/code_gen_utils.py lines 521-716 (Var_loader, table,
direct_table, load_vars).

### `CpuConv.v`

The dense CPU routine at the level of memory: keopscore/keopscore/mapreduce/cpu/CpuReduc.py
lines 22-88 and CpuAssignZero.py lines 37-70.

### `GpuConv.v`

The dense GPU routines: keopscore/keopscore/mapreduce/gpu/GpuReduc1D.py lines 20-92,
GpuReduc2D.py lines 20-205, formulas/reductions/sum_schemes.py and the launches of
binders/nvrtc/keops_nvrtc.cpp lines 441-457 and 507-620.

Between two barriers the threads of a block act in any order; this is modelled by applying
the assignments made in the phase in any order, one cell at a time.  Registers are local to
a thread and a thread is sequential.  Integers are unbounded (the C++ code stores the grid
and block sizes in 32-bit unsigned integers).

### `RangesConv.v`

Block-sparse reductions and batch dimensions.

Models keopscore/keopscore/mapreduce/cpu/CpuReduc_ranges.py lines 102-285,
mapreduce/gpu/GpuReduc1D_ranges.py lines 77-172, include/ranges_utils.h, include/Sizes.h
lines 170-411, include/Ranges.h lines 13-88, and the preparation of the block table in
binders/nvrtc/keops_nvrtc.cpp lines 75-325.

Arrays of integers are lists; reading outside one (undefined behaviour in C++) is [PyErr].
Integers are non-negative and unbounded, except the value returned by broadcast_index, an int
of 32 bits.  Half precision (use_half) is not modelled here.

### `Clusters.v`

Clusters and block-sparse patterns.

Models pykeops/pykeops/numpy/cluster/{matrix,utils,grid_cluster}.py and
pykeops/pykeops/torch/cluster/{matrix,utils,grid_cluster}.py.

One-dimensional arrays are lists; a two-dimensional array of booleans or indices is its two
sizes and its entries.  cluster_centroids is in Centroids.v.

### `Chunks.v`

Chunked evaluation for high-dimensional variables.

Models the chunk methods of keopscore/keopscore/formulas/Chunkable_Op.py lines 6-55,
Operation.py lines 221-243, VectorizedScalarOp.py lines 45-75, variables/Var.py lines 64-85,
keopscore/keopscore/config/chunks.py, mapreduce/Chunk_Mode_Constants.py lines 6-133,
get_keops_dll.py lines 98-110, utils/code_gen_utils.py lines 634-660 (table4) and 734-771
(load_vars_chunks), mapreduce/gpu/GpuReduc1D_chunks.py lines 20-306.

The classes deriving from Chunkable_Op are Sum_Impl and Scalprod_Impl.  Chunkable_Op.py
imports the value of enable_chunk when it is loaded: it is the constant True there.

### `FinalChunks.v`

Reductions sum_j k(x_i,y_j) * b_j with a high-dimensional b, by chunks of b:
keopscore/keopscore/mapreduce/gpu/GpuReduc1D_finalchunks.py and the selection of the mode,
keopscore/keopscore/config/chunks.py lines 45-65 and get_keops_dll.py lines 94-100.

Same conventions as GpuConv.v.  Sums are in exact arithmetic, in the real numbers.
blocksize_chunks (line 123, number of cells of fout) and the block size of the launch
(keops_nvrtc.cpp lines 450-457) are computed by the same formula: both are bd.

### `Keys.v`

Cache keys and names of compiled modules.

Models
- keopscore/keopscore/utils/Cache.py lines 30-34 ([Cache.__call__]) and
lines 84-86 ([Cache_partial.__call__]): the key is the concatenation,
without separator, of the texts of all arguments and of a text
describing the environment;
- keopscore/keopscore/utils/code_gen_utils.py lines 11-14
([get_hash_name]);
- keopscore/keopscore/binders/LinkCompile.py lines 15-35 (name of the
generated file);
- pykeops/pykeops/common/keops_io/LoadKeOps.py lines 66-103 and 127-144
(the arguments sent to [get_keops_dll]).

Simplifications: a Python string is a Coq [string] whose characters are
read as the code points 0-255; the text of a Python value is modelled for
the four kinds of values that occur in keys: integers, booleans, strings
and lists of strings, and dictionaries from strings to integers or
strings.  SHA-256 and the printing of a formula are parameters.

### `History.v`

Tables of modules and global options over the life of a session.

Models
- keopscore/keopscore/utils/Cache.py ([Cache.__call__] lines 30-34,
[Cache_partial.__call__] lines 84-97 without cache file);
- keopscore/keopscore/config/chunks.py lines 5-17, 23-31, 59-68 (the global
options and the functions that set them);
- keopscore/keopscore/get_keops_dll.py lines 77-137;
- keopscore/keopscore/formulas/GetReduction.py lines 18-41;
- keopscore/keopscore/binders/LinkCompile.py lines 15-47, 91-107;
- pykeops/pykeops/common/keops_io/LoadKeOps.py lines 33-144 and
LoadKeOps_cpp.py lines 20-47.

Parameters: the evaluation of the text of a formula ([parse]), its printing
([printed]), the class of scheme selected ([cpu_class], [gpu_class]), the
generated code ([code]), the digest, and the text of the function
[env_param].

Simplifications: one session, one build folder; the tables saved on disk at
exit and read by later sessions are not modelled; [get_keops_dll_impl]
looks up the same parsed reduction several times, the model once; the
existence of a generated file and its contents are one table
([st_files]); a compiled module is described by the code and the flags it
was compiled with.

### `Folder.v`

The build folder: files written for one module, and what a request finds.

Models
- keopscore/keopscore/binders/LinkCompile.py lines 48-107 ([save_info],
[read_info], [write_code], [get_dll_and_params]);
- keopscore/keopscore/binders/cpp/Cpu_link_compile.py lines 7-25;
- keopscore/keopscore/binders/nvrtc/Gpu_link_compile.py lines 49-96 and
nvrtc_jit.cpp lines 129-134 (the compiled code is written to a file);
- pykeops/pykeops/common/keops_io/LoadKeOps_cpp.py lines 19-46
([init_phase1], [init_phase2]);
- keopscore/keopscore/utils/Cache.py lines 20-28, 41-44, 72-79, 106-109 (tables saved when
the session ends, and read when the next one starts).

Simplifications: characters are code points 0-255.  [open(f, "w")] creates
the file or empties it; the text is then written in one or several
non-empty pieces, and the process may be killed between any two of these
operations.  The compiler, [pickle] and the way a text is cut are
parameters.  [KeOps_OS_Run] ignores the errors of the compiler
(misc_utils.py lines 38-48).  [eval] is modelled on the texts of integers;
it is an error on other texts, which the code never writes.

### `Aliases.v`

Declarations of arguments.

Models
- pykeops/pykeops/common/parse_type.py lines 9-45 ([complete_aliases]) and
71-131 ([get_type]);
- pykeops/pykeops/common/keops_io/LoadKeOps.py lines 47-64 (translation of
the declarations for the engine).

Simplifications: the regular expressions are modelled by the equivalent
scanners given below.  [eval] is modelled on the decimal texts of integers
(Folder.py_eval); it is an error on other texts.  The order of enumeration of
a set of strings is a parameter.

### `Broadcast.v`

Batch shapes.

Models
- pykeops/pykeops/common/utils.py lines 73-97 ([max_tuple], [check_broadcasting]);
- pykeops/pykeops/common/lazy_tensor.py lines 196, 424 (batch shape of an array
with more than three dimensions, of a combination);
- pykeops/pykeops/common/keops_io/LoadKeOps.py lines 215-225 (batch shape of
the output of a reduction).

A shape is a list of integers; [None] is the absence of batch dimensions.

### `LazyTensors.v`

Symbolic tensors: construction of formulas, numbering of the variables,
transposition, reductions.

Models pykeops/pykeops/common/lazy_tensor.py:
- lines 103-260 ([__init__]), 270-328 ([new_variable_index], [fixvariables]),
355-428 ([promote], [init], [join]), 432-643 ([unary], [binary], [ternary]),
721-777 ([reduction]), 2529-2601 ([t]).

Simplifications: a tensor is its identity (the value of [id]) and its shape, a list of
floats its identity and its length; the identity of a new view is a parameter.
An object on which a reduction has been called is a different type here, so
the checks on the attribute [reduction_op] do not appear, and [t] is
modelled when [formula2] is [None].  Regular expressions are modelled by the
equivalent scanners below.  [tools], [Genred], [KernelSolve] and [backend] are left out, as are
complex tensors (see Complex).

### `Solver.v`

Conjugate gradient solvers.

Models pykeops/pykeops/common/operations.py lines 88-115 ([ConjugateGradientSolver]) and 124-147
([PreconditionedConjugateGradientSolver]), and the operators of
pykeops/pykeops/numpy/operations.py lines 263-275, pykeops/pykeops/torch/operations.py lines 62-81
and [KernelLinOp] of common/operations.py.

Simplifications: arrays are flattened, an array of size [n] is a function of which the values
below [n] matter; arithmetic is exact.  When a denominator vanishes, the quotient is inf or nan
in floating point, every entry of the residual is then inf or nan for ever, the test is false
and the loop does not end: the model answers [OutOfFuel] for any number of steps.

### `Half2.v`

Half precision: rows by pairs.

Models pykeops/pykeops/torch/half2_convert.py, the parts of
pykeops/pykeops/common/keops_io/LoadKeOps.py lines 187-243 and of keopscore/keopscore/include/Sizes.h
lines 211-222 and 413-436 about [use_half], and the evaluation of a formula by lanes in a kernel.

Simplifications: arrays have no batch dimensions; a batch dimension repeats the same operations on
every element.  An array of shape (M, D) is a number of rows and a function of the row and the column.
[view] and [contiguous] are written with the position in memory.  The values are of any type, rounding
is part of the formula and of the reduction.

### `HalfRanges.v`

Half precision and ranges.

Models [ranges2half2] (pykeops/pykeops/torch/half2_convert.py lines 51-71) and the pairs of rows that the
kernel visits with the ranges it gives.

Simplifications: one triple of ranges (those of the output and of the reduction), without batch
dimensions.  Only the numbers are modelled: in the code, the concatenation of integer
and floating-point arrays gives floating-point numbers, whose address is then
given to the kernel as one of integers.  The first array is modified in place, so the model also
returns what the array of the caller becomes: [_forward] (torch/generic/generic_red.py lines 118-122)
does not copy a contiguous array of type int64.

### `ArgIndices.v`

Indices stored as floating-point numbers.

Models the guard of pykeops/pykeops/numpy/generic/generic_red.py lines 340-357 and
pykeops/pykeops/torch/generic/generic_red.py lines 668-680, the storage of an index in a
floating-point accumulator (keopscore/keopscore/formulas/reductions/Min_ArgMin_Reduction_Base.py lines 27-48,
Max_ArgMax_Reduction_Base.py, KMin_ArgKMin_Reduction.py lines 51-110) and the final
conversion by [tools.long] (pykeops/pykeops/common/operations.py lines 38-86).

Simplifications: a floating-point type is a precision and a minimal exponent, without overflow (the
largest index is far below); conversions from integers round to nearest, ties to even.  In
[KMin_ArgKMin_Reduction] the indices are also copied through an integer variable: this truncates.

### `Layout.v`

Layout of the outputs given to the user.

Models [postprocess], pykeops/pykeops/common/operations.py lines 38-86, with the tools
pykeops/pykeops/numpy/utils.py lines 60-66 and pykeops/pykeops/torch/utils.py lines 61-78,
and [preprocess], lines 7-35.

An array is a shape and its entries in row-major order: strides are not represented, an array
that shares its data with another one is the array of the same entries.  The last argument of
[postprocess] (dtype) and [nout] are not read by the code.  The broadcast division by an array
whose last dimension is 1 is written for equal leading dimensions only.

### `Factor.v`

Factorisation of common sub-formulas.

Models keopscore/keopscore/formulas/factorization/Factorize.py lines 10-124 ([Factorize_Impl],
[Factorize_], [Factorize], [AutoFactorize]), [Operation.replace] and [replace_and_count]
(keopscore/keopscore/formulas/Operation.py lines 52-64), the attribute [Vars_] (lines 36-39) and the
evaluation of formulas on a table of variables ([Operation.__call__], lines 66-114, and
[Factorize_Impl.__call__]).

The operations are those of an arbitrary signature: [op] are the classes with their parameters,
[osem] the value that the code of [Op] computes from the values of the children, [odim] the
attribute [dim].  Var is [Leaf].  The lists of variables are not sorted and may hold repetitions:
the code uses them as sets.  [replace] builds nodes again with the constructors of the classes, which
only check dimensions: dimensions do not change (C35Proofs.v, [replace_dim]).
The code that is generated is replaced by the values that it computes; the table is threaded, since
[Factorize_Impl.__call__] appends to the list of its caller.

### `FactorFm.v`

Formulas of Formula.v as trees of Factor.v: what [Factorize] and [AutoFactorize] see.

A value is an array with its dimension, as the c_array objects of the generated code
(keopscore/keopscore/utils/code_gen_utils.py, class c_array).

### `Tensordot.v`

Tensor contractions.

Models keopscore/keopscore/formulas/maths/TensorDot.py (lines 9-49: the functions on lists, lines
56-148: the constructor, 150-196: the code that is generated, 198-222: the gradient), Kron.py
(lines 18-33), MatVecMult.py (lines 19-46), VecMatMult.py (lines 19-46), TensorProd.py (lines 18-43).

The generated code is modelled by its execution: nested loops over arrays of reals, in the row major
order (C_CONTIGUOUS, the only one that TensorDot has).  A read or write outside of an array, and the use
of a variable that is not declared, are [KErr]; so are the assertions.  Exceptions of Python are [PyErr].
Python integers are unbounded; the division of line 108 is made in floating point by the code and is
exact here.  Indices given by users may be negative ([list Z]).

### `Complex.v`

Operations on complex vectors.

Models keopscore/keopscore/formulas/complex/*.py (all operations of that directory except ComplexAngle),
VectorizedComplexScalarOp.py (lines 6-26), ComplexVectApply of utils/code_gen_utils.py (lines 434-456),
and the real operations that their gradients use: Add, Mult and the operations with one
argument (VectorizedScalarOp.py lines 34-41, Formula.v, Diff.v).

A complex vector is an array of reals, real and imaginary parts alternating.  The generated code, a loop with
step 2 that writes out[i] and out[i+1], is modelled by the value of out[k] according to the parity of k.
The real operations are built without the simplification rules of Formula.v (C01: they keep the values),
and only those with operands of equal dimensions, or with an operand of dimension one that
is the derivative of a scalar function, are differentiated.  The reals are exact.

### `ArgCheck.v`

Calls of a reduction: sizes of the arguments, checks, and addresses read.

Models
- pykeops/pykeops/common/parse_type.py lines 48-68 ([get_sizes]);
- pykeops/pykeops/numpy/generic/generic_red.py lines 292-345 and
pykeops/pykeops/torch/generic/generic_red.py lines 79-83, 657-664 (call of a Genred object: the same
tests and sizes for both libraries);
- pykeops/pykeops/common/keops_io/LoadKeOps.py lines 177-245 ([genred]: shape of the output);
- the choice between the dense routine and the routine with ranges on the CPU, and
keopscore/keopscore/include/Ranges.h lines 19-88 when no ranges are given.

Simplifications: arrays are contiguous; no user ranges; not half precision; the output is allocated
by the call; the formula is not Zero.  In Sizes.h the tests are between
[#if do_checks] and [#endif], and [do_checks] is defined as 0 (line 12), so that they are not compiled:
there is nothing to model.

### `LinOps.v`

Linear operators and forward derivatives.

Models
- keopscore/keopscore/formulas/Operation.py lines 14-25, variables/Zero.py lines 10-11,
variables/Var.py lines 22-23 ([is_linear]; the attribute linearity_type of each class);
- formulas/LinearOperators/LinearOperator.py lines 29-50, AdjointOperator.py, TraceOperator.py,
SumLinOperator.py;
- formulas/autodiff/Diff.py, Divergence.py, Laplacian.py.

Simplifications: formulas only (not reductions); one variable at a time (not the tuples of Diff); the
category -1 of the temporary variable is represented by 3, which differs from 0, 1 and 2.  The Python methods call
each other; the model takes a bound on the depth of the calls, and the proofs show that the bound
given here is never reached.

### `BackShape.v`

Shapes of gradients in back-propagation.

Models pykeops/pykeops/torch/generic/generic_red.py lines 218-256 (GenredAutograd_base._backward, from the gradient
returned by the engine to the gradient returned to PyTorch).

A tensor is its shape and its numbers in row-major order.  [sum_dims], [sum_rows] and [reshape] are the operations
[sum(dims, keepdim=True)], [sum(-2)] and [reshape] of PyTorch, on contiguous tensors.

### `Methods.v`

Methods of symbolic tensors, and dimensions in the engine.

Models pykeops/pykeops/common/lazy_tensor.py: lines 1018-1181 (arithmetic), 1182-1365 (functions, powers),
1366-1475 (comparisons, clamp, ifelse, mod, round), 1490-1690 (norms, distances, indexing), 1691-1735 (one_hot,
bspline, concat), 1771-1905 (products), 1907-2005 (grad, diff, factorize, auto_factorize, grad_matrix), the branches
of sum, min, argmin, max, argmax for the last axis (2055-2370), 940-945 ([__str__]) and 992-1011 (shapes).

Models the constructors of keopscore/keopscore/formulas (VectorizedScalarOp.py 11-22 and the classes of
formulas/maths, each cited below) as far as dimensions are concerned.

Simplifications: an array or a number given to a method is a symbolic tensor already
(line 493 converts it); the shortcuts for the numbers 0, 1 and -1 in the arithmetic methods, which return the
tensor itself, its opposite, its inverse or 0, are left out, and so are complex tensors (see Complex).
[sinc], [weightedsqdist], [norm], [concatenate] and [cat] call the methods below.  Integers are unbounded and
the division made by keops_tensordot in floating point is exact.

### `BSpline.v`

B-splines.

Models keopscore/keopscore/formulas/maths/BSpline.py (lines 18-110 and 117-118), the tests on the types of operands made by
[c_variable.binary_op] and [ternary] (keopscore/keopscore/utils/code_gen_utils.py lines 112-136 and 185-200) and the code
of Extract.py for this use.

The generated code is modelled by its execution on arrays of reals, as in Tensordot: a read or write outside of an
array is [KErr], and so are the errors raised.  Arithmetic is exact.

### `SoftDTW.v`

Soft dynamic time warping.

Models keopscore/keopscore/formulas/maths/SoftDTW_SqDist.py: the constructors (lines 22-30 and 101-110), the code written
by [SoftDTW_SqDist.Op] (lines 32-83) and the code written by [GradSoftDTW_SqDist.Op] (lines 112-212).

The generated code is modelled by its execution on arrays of reals, as in Tensordot: a read or write outside of an array
is [KErr], as is an error raised.  Arithmetic is exact, with the functions exp and ln of the reals.  [fminf] is any
function of two numbers: in double precision the one called by the code rounds its arguments.  The contents of arrays
declared without initialisation, and of the array of the result, are arguments.

### `Options.v`

Options on their way from the front-ends to the engine:
- pykeops/pykeops/common/get_options.py: choice of the backend;
- pykeops/pykeops/torch/generic/generic_red.py lines 46-67 (set_device), 73-76 (flag of the
final-chunks mode), 168-214 (options of the gradients), 345-376 (options of jvp);
- pykeops/pykeops/numpy/generic/generic_red.py lines 164-167, pykeops/pykeops/torch/operations.py
lines 30-32, pykeops/pykeops/numpy/operations.py lines 157-160: the same flag elsewhere;
- keopscore/keopscore/get_keops_dll.py lines 94-101 and config/chunks.py lines 45-75: use of
the flag.

A ValueError or a TypeError raised by these functions is KErr, any other exception is PyErr.

### `RedGrad.v`

Gradients and tangents of log-sum-exp and softmax reductions.

### `CodeGen.v`

The code generated for a formula.

Models keopscore/keopscore/formulas/Operation.py lines 66-125 ([__call__]),
VectorizedScalarOp.py lines 23-31, the methods [Op] and [ScalarOp] of formulas/maths and
formulas/variables, keopscore/utils/math_functions.py (column cpu_code) and
keopscore/utils/code_gen_utils.py: [new_c_varname] (lines 35-54), [c_variable], [c_for_loop],
[c_array], [VectApply] (lines 390-431), [VectCopy] and [c_if].

The text of the generated code is replaced by its syntax tree.  Simplifications: one floating
point type (no half2), whose values are exact reals; integers are unbounded; the functions of
the C library are the real functions; the branch C_CONTIGUOUS (MapReduce.py line 46) of the
preprocessor, and the CPU branch; in a loop [for (int k=a; k<b; k+=1)] the bounds are constants
and the body does not assign [k].

### `CSem.v`

Meaning of the generated code.

A memory is the stack of the variables in scope, innermost first; the cells of a new array are
not initialised.  [None] is undefined behaviour: reading a cell that is not initialised, or
reading or writing outside an array, or using a name that is not declared or not of the right
kind.  It is also the result of an operation or of a function of the library applied outside its
domain (division by 0, [log] of a number that is not positive, ...), where the code gives nan or
inf.  Infinities, and nan, come from the constants of the reductions: sums, differences,
products, comparisons and [exp] are defined for them.

The indices of the loops of the kernel are in memory, as other variables; the value of a
pointer [(p+x*d)] is given by the environment [rho], where only these loops put values.

### `KernelCode.v`

The code of the dense CPU routine.

Models keopscore/keopscore/mapreduce/MapReduce.py lines 41-80, mapreduce/cpu/CpuReduc.py lines
22-88, formulas/reductions (Sum, Min, Max, Min_ArgMin, Max_ArgMax, ArgMin, ArgMax,
Max_SumShiftExpWeight: methods InitializeReduction, ReducePair, ReducePairShort, KahanScheme,
FinalizeOutput), sum_schemes.py, and keopscore/utils/code_gen_utils.py: Var_loader and
direct_table (lines 618-630).

As in CodeGen.v the text of the code is replaced by its syntax tree.  The functions
ReducePair, ... return a result because building the code may raise.  Not modelled here: the
KMin reductions, half2, the headers and the wrappers launch_keops_cpu.  The attribute [dim] of
ArgMin and ArgMax is the dimension of the formula, that of Min_ArgMin and Max_ArgMax twice
that.

### `KernelSem.v`

Meaning of the generated CPU routine.

keopscore/keopscore/mapreduce/cpu/CpuReduc.py lines 44-86: CpuConv and launch_keops.  [s] is
the body of the loop on i.  The iterations of "#pragma omp parallel for" are executed in an order
given by [schedule].  The memory of the caller holds the array [out] and, under the name
[arg[k]], the k-th argument: these arrays do not overlap.

### `KernelSolve.v`

Kernel linear systems and their gradients.

Models pykeops/pykeops/torch/operations.py, class [KernelSolveAutograd], lines 22-162, for sum
reductions without batch dimensions and ranges.

Simplifications: arithmetic is exact; the number of steps of the solver is bounded by [fuel], see
Solver.v; the call of the compiled module in [linop] (lines 64-76) is the sum of KernelSum.v.  The
selection of the gradients that are needed (lines 108-112) is left to the caller, who asks for one
argument at a time.

### `LazySolve.v`

Linear systems given by symbolic tensors.

Models pykeops/pykeops/common/lazy_tensor.py, [solve] (lines 779-898) and the part of
[__call__] (lines 900-957) that concerns it, and the reading of the position of the unknown in
[KernelSolve.__init__], pykeops/pykeops/torch/operations.py lines 321-330 and
pykeops/pykeops/numpy/operations.py lines 165-174.

Simplifications: real tensors; the options of the call (regularisation, backend, ranges) are not
represented; indices of symbolic variables are not negative.

### `Centroids.v`

Centroids of clusters.

Models pykeops/pykeops/numpy/cluster/utils.py lines 97-224 and
pykeops/pykeops/torch/cluster/utils.py lines 101-232 ([cluster_centroids],
[cluster_ranges_centroids]).

One-dimensional arrays are lists, the points are the list of their rows.  Arithmetic is exact; a
quotient by zero, which is an infinity or not a number, is [None].

### `SumRounding.v`

Sums in floating point arithmetic.

Models the sum schemes with rounded operations: keopscore/keopscore/formulas/reductions/
sum_schemes.py, Sum_Reduction.py lines 21-41 ([InitializeReduction], [ReducePairScalar],
[KahanScheme]), Reduction.py [FinalizeOutput], in the loops of mapreduce/cpu/CpuReduc.py lines 48-62,
mapreduce/cpu/CpuReduc_ranges.py lines 189-228 and mapreduce/gpu/GpuReduc1D.py lines 59-97.

The accumulator [acc] has the type [dtypeacc] (MapReduce.py line 74); the temporary accumulator of the scheme
has the type [dtype] of the data (MapReduce.py line 59).  [fa] and [fd] are the roundings of
these types.  One component of the output; the term [x j] is the content of [fout], a number of the
type of the data, that is converted exactly to the type of the accumulator.

Simplifications: operations round to nearest, ties to even, in the format with subnormal numbers
and without largest number (no overflow); the compiler does not reorder operations.

### `RangesChunks.v`

Block-sparse and batched reductions by chunks.

Models keopscore/keopscore/mapreduce/gpu/GpuReduc1D_ranges_chunks.py ([do_chunk_sub_ranges] lines 21-183,
[get_code] lines 200-499) and utils/code_gen_utils.py lines 663-731 ([load_vars], with [indsref]),
734-810 ([load_vars_chunks], [load_vars_chunks_offsets]); the routine is selected by get_keops_dll.py
lines 98-110 as in Chunks.v.  The table of blocks and the offsets are those of RangesConv.v.

The private memory of the threads without output row is not represented.  Half precision is not
modelled here.

### `RangesFinal.v`

Block-sparse and batched sums of k(x_i,y_j) * b_j by chunks of b.

Models keopscore/keopscore/mapreduce/gpu/GpuReduc1D_ranges_finalchunks.py
([do_finalchunk_sub_ranges] lines 20-91, [get_code] lines 103-338).  Constants and sizes of chunks are those
of FinalChunks.v, the table of blocks, the offsets and the loops over intervals those of RangesConv.v
and RangesChunks.v.  The number of cells of fout and the block size of the launch are the same
number bd, as in FinalChunks.v.

The rows of the output are written by the thread of the row only, if no row is in two blocks; the
row is part of the state of the thread and is stored at the end.  The private memory of the threads
without output row is not represented.  Sums are in the real numbers.

### `PyRead.v`

How the text of a formula is read.

Models [eval] of a formula text, keopscore/keopscore/formulas/GetReduction.py lines 24-31 (and
utils/TestFormula.py lines 16-27), for the expressions that formulas are made of: names, integers, calls, lists,
items, the operators + - * / | ** and the comparisons, with the precedences of the Python language; then the operators
on formulas, formulas/Operation.py lines 120-257 ([__add__], ..., [int2Op]), and the functions and classes of
formulas/maths that have a counterpart in Formula.v.

Simplifications: other characters and constructions of Python (strings, attributes, keywords, decimal points,
trailing commas, numbers with leading zeros) are refused by the reader here, and nothing is said about them.
Floating point numbers are represented without their value, comparing them is refused.  A function
given the wrong number or kind of arguments raises ([PyErr]); so does a name that is not in the table below, though
the engine may know it.  Negative dimensions and positions are refused.

### `PrintTree.v`

Printing of formulas.

Models keopscore/keopscore/utils/Tree.py lines 8-50 (Tree.recursive_str, which is also __str__ and __repr__) with the
attributes [print_spec] and [string_id] of the classes of formulas/maths and formulas/variables, and
RatCst_Impl.recursive_str (variables/RatCst.py line 12).

A node is given by its [print_spec], its [string_id], its children (with the level of their [print_spec]) and its
parameters, which are integers.

### `RedText.v`

The text of a reduction, and the reduction that the engine makes of it.

Models pykeops/pykeops/common/utils.py lines 11-22 ([axis2cat]), the text built by [Genred]
(pykeops/pykeops/torch/generic/generic_red.py lines 517-535, pykeops/pykeops/numpy/generic/generic_red.py lines
152-182) after [preprocess] (see Layout), [reduction] of symbolic tensors
(pykeops/pykeops/common/lazy_tensor.py lines 718-786), the constructors of
keopscore/keopscore/formulas/reductions and GetReduction.__new__ (keopscore/keopscore/formulas/GetReduction.py
lines 20-40).

Simplifications: formulas are real; arguments of [Genred] that do not go into the text (types, schemes, chunks)
are left out, see Options; the library of reductions already made is in Keys; the tree walk of [check_formula]
only prints.  Zero_Reduction is left out: its first argument is not a formula.

### `BackText.v`

The texts of the gradients, and the reductions that the engine makes of them.

Models pykeops/pykeops/torch/generic/generic_red.py lines 21-44 ([check_AD_supported]), 152-259 (the loop of
[_backward]: which texts and declarations are asked for) and 319-380 (the loop of [jvp]);
keopscore/keopscore/formulas/autodiff/Grad_WithSavedForward.py and Diff_WithSavedForward.py, and the methods DiffT and Diff of
keopscore/keopscore/formulas/reductions; the names of GetReduction.py lines 26-31.

Simplifications: arguments are two-dimensional, no batch dimensions (no collapsed dimensions); devices and
backends are left out.  The tensors themselves appear in KernelSum.  Formulas are real.

### `GpuConfig.v`

Configuration of the GPU: detection, flags of the compiler, limits of the devices.

Models
- keopscore/keopscore/config/cuda.py lines 50-62 ([__init__]), 115-151
([_cuda_libraries_available], [set_use_cuda]), 170-176 ([set_specific_gpus]), 202-225 (folders),
249-278 ([get_cuda_version]), 280-341 ([get_cuda_include_path]), 343-354
([get_include_file_abspath]), 379-491 ([get_gpu_props]);
- keopscore/keopscore/config/base_config.py lines 77-85, 95-100, 110-121 (cache folder, build folder);
- keopscore/keopscore/utils/gpu_utils.py lines 173-258 (the older [get_gpu_props]);
- keopscore/keopscore/__init__.py lines 30-38 and
keopscore/keopscore/binders/nvrtc/Gpu_link_compile.py lines 14-46 (import);
- pykeops/pykeops/__init__.py lines 40-44 and pykeops/pykeops/config.py lines 24-35 (binder);
- keopscore/keopscore/include/CudaSizes.h lines 23-99 ([SetGpuProps]);
- keopscore/keopscore/binders/nvrtc/keops_nvrtc.cpp lines 353-379 (constructor of a module) and
441-458 (block size).

Simplifications: the libraries, the driver, the compiler and the file system are a record of
answers, fixed during a session.  A call of the driver answers [None] when its code is not
CUDA_SUCCESS, and then leaves its output unchanged.  Paths are joined with one slash.  The
folders of the libraries, the flags of nvrtc and the warnings are left out.  Compiling the binder
succeeds.

### `GenericOps.v`

Generic operations on formulas with named arguments.

Models [generic_sum], [generic_logsumexp], [generic_argkmin] and [generic_argmin]
(pykeops/pykeops/torch/generic/generic_ops.py lines 6-203, pykeops/pykeops/numpy/generic/generic_ops.py lines 6-228),
[cat2axis] (pykeops/pykeops/common/utils.py lines 24-34), and the names that the engine gives to the arguments
(keopscore/keopscore/formulas/GetReduction.py lines 26-32).

Simplifications: the options that do not go into the text are left out (see Options).  The declarations are given to
the engine by LoadKeOps.py (see Aliases).  The reading of a text is a relation (see PyRead), hence so is the table of
the names.  A name that is declared hides the function of the same name, and calling it raises, here even in the part of a
chain of comparisons that is not reached.

### `GpuMemory.v`

The device memory of a launch

Model of keopscore/binders/nvrtc/keops_nvrtc.cpp (DevicePointer, lines 41-71;
build_offset_tables, lines 75-149; range_preprocess_from_device, lines 152-248;
range_preprocess_from_host, lines 250-325; KeOps_module, lines 328-644), of
include/Ranges.h and of load_args_FromDevice and load_args_FromHost of include/utils_pe.h
(lines 57-100): every allocation, copy, release and kernel launch of one call, in order.

The device is a set of live blocks and a memory of bytes.  The driver is an oracle: it tells
which of its calls fail, where a block is placed, and what a kernel does to the bytes.

Simplifications.  Contexts, modules and streams are calls that succeed or fail and have no
other effect.  The contents of a row of the offset table are given (they are modelled in
RangesConv.v); half precision (switch_to_half2_indexing) changes nx, ny and the sizes, which
are given here.  What the kernels compute is modelled in the other files.

### `Vmap.v`

Reductions under torch.vmap.

Models
- pykeops/pykeops/torch/generic/generic_red.py lines 304-317 ([GenredAutograd.vmap]), 71-131
([GenredAutograd_base._forward]) and 657-695 (sizes of a call of a Genred object);
- pykeops/pykeops/common/keops_io/LoadKeOps.py lines 177-245 ([genred]: ranges, shape of the output, output
given by the caller);
- keopscore/keopscore/include/Ranges.h lines 19-100 (user ranges, batches, both).

A tensor of torch is a list of sizes and a value for each list of indices: strides and views are not
represented.  [contents] is what [.contiguous()] puts in memory.  Inside torch.vmap, a mapped tensor is seen
without the dimension [in_dim]; the static method vmap receives the whole tensors and the list of the
dimensions, None for the tensors that are not mapped, and returns a tensor whose first dimension is the mapped
one ([return ..., (0, None)]).

Simplifications: routines of the CPU; not half precision; the formula is not Zero; a single level of vmap; the
post-processing of the output is in Layout.v.  [PyErr] also stands for undefined behaviours of the compiled
code.

### `RKeops.v`

The operators of the R interface.

Models rkeops/R/keops_kernel.R lines 139-265 ([keops_kernel] and the function that it returns),
rkeops/R/keops_utils.R lines 43-155 ([get_pykeops_formula]), rkeops/R/formula_args.R lines 68-230 ([parse_args],
[parse_extra_args]), rkeops/R/keops_grad.R lines 20-205 ([get_gradient_formula], [keops_grad]),
rkeops/inst/python/generic_red_R.py, and keopscore/keopscore/formulas/autodiff/Grad.py lines 14-26 with the third
argument given.

Simplifications: texts have no ends of lines; the regular expressions are replaced by the equivalent scanners
below; a text without parentheses, a missing part of a Grad and a number that is not written with digits are errors
(they are NA in R); two arguments do not have the same name; options (precision, backend, scheme) are left out.  The
random name of [random_varname] is a parameter.

### `RLazy.v`

The symbolic tensors of the R interface.

Models rkeops/R/lazytensor_preprocess.R lines 96-206 ([LazyTensor]), 345-410 ([unaryop.LazyTensor]), 446-576
([binaryop.LazyTensor]), 621-723 ([ternaryop.LazyTensor]), 1009-1036 ([get_inner_dim]), 1058-1105
([check_inner_dim]), 1130-1140 ([index_to_int]), 1163-1171 ([identifier]), 1199-1232 ([fix_variables]), 1316-1360
([preprocess_reduction]), and rkeops/R/lazytensor_operations.R lines 958-963 (the scalar product), 3588-3593
([concat]), 3800-3822 ([reduction.LazyTensor]), 4866-4931 ([grad]).

Simplifications: real tensors; the address of an object is given with it, as is the choice between an integer and a
vector of one number; integers are written with digits; the names of operations, the checks of dimensions and the
dimensions of results are the arguments of the three constructors, the methods that choose them (the rest of
lazytensor_operations.R) being written by the theorems; the option formula_only is not set.  The regular expressions
are replaced by scanners.

### `RMethods.v`

Model of the functions on the symbolic tensors of the R interface: rkeops/R/lazytensor_operations.R (the functions
for real tensors; lines are given below) and rkeops/R/lazytensor_preprocess.R lines 819-830 ([is.LazyParameter]),
907-912 ([is.LazyVector]), 945-950 ([is.LazyMatrix]), 973-976 ([is.int]).

Simplifications: real tensors; whether a number is an integer is given with it; a call that R sends to a function of
the base package is an error; the regular expressions are replaced by searches of texts; [round] is not here; the functions [concat], [min], [grad] are in RLazy.

### `RReduce.v`

The reductions of the R interface, as functions of symbolic tensors.

Models rkeops/R/lazytensor_operations.R lines 3905-4811: [sum], [min], [argmin], [min_argmin], [max], [argmax],
[max_argmax], [Kmin], [argKmin], [Kmin_argKmin], [logsumexp], [sumsoftmaxweight] and their variants [..._reduction].

Simplifications: real tensors; an index is "i", "j" or NA, other values are refused as NA is where it has no meaning;
the number of [Kmin] is an integer.

## Files of specifications and proofs

Specifications (definitions only, independent of the helpers of the model): `FormulaSpec.v`, `GradSpec.v`, `KernelSumSpec.v`, `SumSpec.v`, `LseSpec.v`, `ReductionSpec.v`, `CpuConvSpec.v`, `RangesSpec.v`, `ClusterSpec.v`, `ChunkSpec.v`, `KeySpec.v`, `HistorySpec.v`, `FolderSpec.v`, `AliasSpec.v`, `BroadcastSpec.v`, `LazySpec.v`, `TransposeSpec.v`, `SolverSpec.v`, `Half2Spec.v`, `LayoutSpec.v`, `FactorSpec.v`, `TensordotSpec.v`, `ComplexSpec.v`, `ArgCheckSpec.v`, `LinOpsSpec.v`, `BackShapeSpec.v`, `MethodsSpec.v`, `BSplineSpec.v`, `SoftDTWSpec.v`, `OptionsSpec.v`, `RedGradSpec.v`, `CodeGenSpec.v`, `KernelCodeSpec.v`, `KernelSolveSpec.v`, `CentroidSpec.v`, `SumRoundingSpec.v`, `RangesChunkSpec.v`, `RangesFinalSpec.v`, `PyReadSpec.v`, `PrintSpec.v`, `RedTextSpec.v`, `BackSpec.v`, `GradReadySpec.v`, `GpuConfigSpec.v`, `GenericOpsSpec.v`, `GpuMemorySpec.v`, `VmapSpec.v`, `RKeopsSpec.v`, `RLazySpec.v`, `RMethodsSpec.v`, `RReduceSpec.v`.

Theorems answering the properties, with nothing else than examples: `C01.v` to `C67.v`.

Everything else in `_CoqProject` contains lemmas.

## What `Print Assumptions` lists

Four axioms of the standard library appear; no other one does.

* `forall_dec`: `ClassicalDedekindReals.sig_forall_dec : forall P : nat -> Prop, (forall n, {P n} + {~ P n}) -> {n | ~ P n} + {forall n, P n}`
* `not_dec`: `ClassicalDedekindReals.sig_not_dec : forall P : Prop, {~ ~ P} + {~ P}`
* `funext`: `FunctionalExtensionality.functional_extensionality_dep`
* `classic`: `Classical_Prop.classic : forall P : Prop, P \/ ~ P`


| theorem | axioms |
|---|---|
| `C01_add` | forall_dec, not_dec, classic, funext |
| `C01_divide` | forall_dec, not_dec, classic, funext |
| `C01_expression` | forall_dec, not_dec, classic, funext |
| `C01_minus` | forall_dec, not_dec, classic, funext |
| `C01_mult` | forall_dec, not_dec, classic, funext |
| `C01_pow` | forall_dec, not_dec, classic, funext |
| `C01_rational` | forall_dec, not_dec, classic, funext |
| `C01_scalprod` | forall_dec, not_dec, classic, funext |
| `C01_square` | forall_dec, not_dec, classic, funext |
| `C01_subtract` | forall_dec, not_dec, classic, funext |
| `C01_sum` | forall_dec, not_dec, classic, funext |
| `C01_sumT` | forall_dec, not_dec, classic, funext |
| `C02_add_partial` | forall_dec, not_dec, classic, funext |
| `C02_degenerate_broadcast_refuted` | none |
| `C02_expression_partial` | forall_dec, not_dec, classic, funext |
| `C02_expression_refuted` | none |
| `C02_incompatible_rejected` | forall_dec, not_dec, classic, funext |
| `C02_mult_partial` | forall_dec, not_dec, classic, funext |
| `C02_operations_terminate` | none |
| `C02_rational_plus_integer_refuted` | none |
| `C02_subtract_partial` | forall_dec, not_dec, classic, funext |
| `C03_gradient_is_adjoint_partial` | forall_dec, not_dec, classic, funext |
| `C03_gradient_terminates` | none |
| `C03_ifelse_vector_condition_refuted` | forall_dec, not_dec, classic, funext |
| `C04_arithmetic_partial` | forall_dec, not_dec, classic, funext |
| `C04_atan2_first_refuted` | none |
| `C04_atan2_second_refuted` | none |
| `C04_ifelse_branch_refuted` | none |
| `C04_power_base_refuted` | none |
| `C04_power_exponent_refuted` | none |
| `C05_kernel_sum_gradient_partial` | forall_dec, not_dec, classic, funext |
| `C06_optimum_and_first_index` | forall_dec, funext |
| `C06_sparse_indices` | forall_dec, funext |
| `C07_infinite_value_index_refuted` | forall_dec, funext |
| `C07_k_smallest_partial` | forall_dec, funext |
| `C08_merge_any_pieces` | forall_dec, funext |
| `C08_merge_two_pieces` | forall_dec, funext |
| `C09_empty_reduction_refuted` | forall_dec, not_dec, funext |
| `C09_exponent_not_positive` | forall_dec, funext |
| `C09_max_and_scaled_sum` | forall_dec, not_dec, classic, funext |
| `C09_merge_of_nothing_refuted` | forall_dec, not_dec, funext |
| `C09_user_logsumexp` | forall_dec, not_dec, classic, funext |
| `C09_user_softmax` | forall_dec, not_dec, funext |
| `C10_masked_block_start_refuted` | forall_dec, not_dec, classic, funext |
| `C10_masked_first_refuted` | forall_dec, not_dec, classic, funext |
| `C10_masked_later_partial` | forall_dec, not_dec, classic, funext |
| `C10_order_matters_refuted` | forall_dec, not_dec, classic, funext |
| `C11_any_period` | forall_dec, funext |
| `C11_direct_and_block` | forall_dec, funext |
| `C11_every_scheme_sums` | forall_dec, funext |
| `C11_kahan_compensation_zero` | forall_dec, funext |
| `C11_kahan_infinite_refuted` | forall_dec |
| `C11_kahan_logsumexp_refuted` | forall_dec, not_dec, funext |
| `C11_logsumexp_schemes` | forall_dec, not_dec, funext |
| `C12_every_reduction` | forall_dec, not_dec, classic, funext |
| `C12_logsumexp` | forall_dec, not_dec, classic, funext |
| `C12_optimum` | forall_dec, not_dec, classic, funext |
| `C12_sum` | forall_dec, not_dec, classic, funext |
| `C12_zero` | forall_dec |
| `C13_block_size` | none |
| `C13_every_reduction` | forall_dec, not_dec, classic, funext |
| `C13_in_bounds` | none |
| `C13_logsumexp` | forall_dec, not_dec, classic, funext |
| `C13_sum` | forall_dec, not_dec, classic, funext |
| `C13_wide_rows_refuted` | forall_dec, not_dec, classic, funext |
| `C14_logsumexp` | forall_dec, not_dec, classic, funext |
| `C14_other_reductions_refuted` | forall_dec, not_dec, classic, funext |
| `C14_other_schemes_refuted` | forall_dec, not_dec, classic, funext |
| `C14_sum` | forall_dec, not_dec, classic, funext |
| `C15_cpu` | forall_dec, not_dec, classic, funext |
| `C15_cpu_empty_logsumexp_refuted` | forall_dec, not_dec, classic, funext |
| `C15_gpu` | forall_dec, not_dec, classic, funext |
| `C15_gpu_empty_last_block_refuted` | forall_dec, not_dec, classic, funext |
| `C15_gpu_host_ranges_refuted` | forall_dec, not_dec, classic, funext |
| `C15_gpu_uncovered_rows_refuted` | forall_dec, not_dec, classic, funext |
| `C16_address` | none |
| `C16_batch_dimensions` | none |
| `C16_cpu` | forall_dec, not_dec, classic, funext |
| `C16_gpu` | forall_dec, not_dec, classic, funext |
| `C16_in_bounds` | none |
| `C16_many_rows_refuted` | none |
| `C16_no_columns_refuted` | forall_dec, not_dec, classic, funext |
| `C16_parameters_only_refuted` | none |
| `C17_cpu_sum` | forall_dec, not_dec, classic, funext |
| `C17_describes` | none |
| `C17_pairs` | none |
| `C17_swap` | none |
| `C17_swap_matrix` | none |
| `C18_ranges` | none |
| `C18_ranges_given` | none |
| `C18_ranges_torch` | none |
| `C18_ranges_torch_refuted` | none |
| `C18_sort` | none |
| `C18_sort_torch` | none |
| `C19_numpy` | forall_dec, funext |
| `C19_numpy_refuted` | forall_dec, funext |
| `C19_torch` | forall_dec, funext |
| `C19_torch_refuted` | forall_dec, funext |
| `C20_every_reduction_partial` | forall_dec, not_dec, classic, funext |
| `C20_formula` | forall_dec, not_dec, classic, funext |
| `C20_generated_partial` | forall_dec, not_dec, classic, funext |
| `C20_logsumexp_partial` | forall_dec, not_dec, classic, funext |
| `C20_mode_total` | forall_dec, not_dec, classic, funext |
| `C20_parameters_refuted` | forall_dec, not_dec, classic, funext |
| `C20_partition` | forall_dec, not_dec, classic, funext |
| `C20_scalar_parameters` | forall_dec, not_dec, classic, funext |
| `C20_scalars_refuted` | forall_dec, not_dec, classic, funext |
| `C20_sum_partial` | forall_dec, not_dec, classic, funext |
| `C21_dimensions_refuted` | forall_dec, not_dec, classic, funext |
| `C21_operation_refuted` | forall_dec, not_dec, classic, funext |
| `C21_position_refuted` | forall_dec, not_dec, classic, funext |
| `C21_reduction_refuted` | forall_dec, not_dec, classic, funext |
| `C21_sum_partial` | forall_dec, not_dec, classic, funext |
| `C22_loads` | none |
| `C22_module_texts_partial` | none |
| `C22_names_refuted` | none |
| `C22_parsed_partial` | none |
| `C22_parsed_refuted` | none |
| `C22_requests` | none |
| `C23_defaults_refuted` | none |
| `C23_direct_partial` | none |
| `C23_factorize_refuted` | none |
| `C23_flags_refuted` | none |
| `C23_front_ends_partial` | none |
| `C24_cpu_partial` | none |
| `C24_cpu_refuted` | none |
| `C24_empty_tables_refuted` | none |
| `C24_gpu_partial` | none |
| `C24_gpu_refuted` | none |
| `C24_information_refuted` | none |
| `C24_tables_refuted` | none |
| `C24_two_writers` | none |
| `C25_partial` | none |
| `C25_refuted` | none |
| `C25_truncated` | none |
| `C26_completion` | none |
| `C26_declarations_partial` | none |
| `C26_gap_refuted` | none |
| `C26_named_variable_refuted` | none |
| `C26_old_types_refuted` | none |
| `C26_shared_list_refuted` | none |
| `C27_absent_refuted` | none |
| `C27_built` | none |
| `C27_clash_refuted` | none |
| `C27_numbering_partial` | none |
| `C28_associative_partial` | none |
| `C28_commutative` | none |
| `C28_output_partial` | none |
| `C28_shape_partial` | none |
| `C28_zero_refuted` | none |
| `C29_involution_partial` | none |
| `C29_negative_refuted` | none |
| `C29_reduction_refuted` | none |
| `C29_transpose_partial` | none |
| `C30_empty_refuted` | forall_dec, funext |
| `C30_kernel_residual` | forall_dec, funext |
| `C30_preconditioned_null_refuted` | forall_dec, funext |
| `C30_preconditioned_residual` | forall_dec, funext |
| `C30_preconditioned_terminates_partial` | forall_dec, funext |
| `C30_residual` | forall_dec, funext |
| `C30_terminates_partial` | forall_dec, funext |
| `C31_degenerate_refuted` | none |
| `C31_empty_refuted` | none |
| `C31_pairs` | none |
| `C31_reduction_partial` | none |
| `C32_boundary_refuted` | none |
| `C32_columns_refuted` | none |
| `C32_copies_refuted` | none |
| `C32_second_call_refuted` | none |
| `C32_whole_partial` | none |
| `C33_double_refuted` | forall_dec, not_dec, classic, funext |
| `C33_exact_partial` | forall_dec, not_dec, classic, funext |
| `C33_half_guard` | forall_dec, not_dec, classic, funext |
| `C33_single_guard` | forall_dec, not_dec, classic, funext |
| `C34_argkmin_partial` | forall_dec, not_dec, classic, funext |
| `C34_argmin` | forall_dec, not_dec, classic, funext |
| `C34_empty_refuted` | forall_dec, not_dec, classic, funext |
| `C34_kmin_argkmin_partial` | forall_dec, not_dec, classic, funext |
| `C34_kmin_partial` | forall_dec, not_dec, classic, funext |
| `C34_logsumexp` | forall_dec, not_dec, classic, funext |
| `C34_logsumexpweight_refuted` | forall_dec, not_dec, classic, funext |
| `C34_min_argmin` | forall_dec, not_dec, classic, funext |
| `C34_softmax` | forall_dec, not_dec, classic, funext |
| `C34_user_logsumexp` | forall_dec, not_dec, classic, funext |
| `C34_user_softmax` | forall_dec, not_dec, classic, funext |
| `C35_auto_partial` | none |
| `C35_factorize_partial` | none |
| `C35_formulas_partial` | forall_dec, not_dec, classic, funext |
| `C35_nested_refuted` | forall_dec, not_dec, classic, funext |
| `C35_unfactored` | none |
| `C36_accepted` | none |
| `C36_default_partial` | forall_dec, funext |
| `C36_gradients_partial` | forall_dec, funext |
| `C36_kron_partial` | forall_dec, funext |
| `C36_matvec` | forall_dec |
| `C36_names_refuted` | forall_dec |
| `C36_tensordot_partial` | forall_dec, funext |
| `C36_tensorprod` | forall_dec |
| `C36_vecmat` | forall_dec |
| `C37_accepted` | forall_dec, not_dec, classic, funext |
| `C37_difference` | forall_dec, not_dec, classic, funext |
| `C37_differentiable_partial` | forall_dec, funext |
| `C37_ends` | forall_dec, funext |
| `C37_exp1j` | forall_dec, not_dec, classic, funext |
| `C37_gradients_partial` | forall_dec, not_dec, classic, funext |
| `C37_methods` | forall_dec, not_dec, classic, funext |
| `C37_numbers_refuted` | forall_dec, funext |
| `C37_odd_refuted` | forall_dec, not_dec, classic, funext |
| `C37_parts_refuted` | forall_dec, not_dec, classic, funext |
| `C37_plus_refuted` | forall_dec, not_dec, classic, funext |
| `C37_product` | forall_dec, not_dec, classic, funext |
| `C37_quotient` | forall_dec, not_dec, classic, funext |
| `C37_scaling` | forall_dec, not_dec, classic, funext |
| `C37_sum` | forall_dec, not_dec, classic, funext |
| `C38_lists_refuted` | forall_dec |
| `C38_right_lists` | forall_dec |
| `C38_single_partial` | forall_dec |
| `C39_accepted_refuted` | none |
| `C39_batch_skipped_refuted` | forall_dec, not_dec, classic, funext |
| `C39_batch_wraps_refuted` | forall_dec, not_dec, classic, funext |
| `C39_batches_partial` | none |
| `C39_consistent` | none |
| `C39_count` | none |
| `C39_dense_partial` | none |
| `C39_exact_partial` | none |
| `C39_lazy` | none |
| `C39_lazy_rejects` | none |
| `C39_result_partial` | forall_dec, not_dec, classic, funext |
| `C39_too_small_refuted` | forall_dec, not_dec, classic, funext |
| `C40_adjoint` | forall_dec, not_dec, classic, funext |
| `C40_constant_refuted` | none |
| `C40_derivatives_terminate` | none |
| `C40_diff_partial` | forall_dec, not_dec, classic, funext |
| `C40_divergence_partial` | forall_dec, not_dec, classic, funext |
| `C40_divergence_refuted` | forall_dec, not_dec, classic, funext |
| `C40_laplacian_partial` | forall_dec, not_dec, classic, funext |
| `C40_linear` | forall_dec, not_dec, classic, funext |
| `C40_linear_refuted` | forall_dec, not_dec, classic, funext |
| `C40_matrix_refuted` | none |
| `C40_operators_terminate` | none |
| `C40_sum` | forall_dec, not_dec, classic, funext |
| `C40_trace_partial` | forall_dec, not_dec, classic, funext |
| `C40_weighted_sum_partial` | forall_dec, not_dec, classic, funext |
| `C40_weighted_trace_partial` | forall_dec, not_dec, classic, funext |
| `C41_parameter` | forall_dec, funext |
| `C41_parameter_gradient` | forall_dec, funext |
| `C41_unpadded_refuted` | forall_dec |
| `C41_variable` | forall_dec, funext |
| `C41_variable_gradient` | forall_dec, funext |
| `C42_accepted` | none |
| `C42_announced` | none |
| `C42_difference_matrix_refuted` | none |
| `C42_formula` | forall_dec, not_dec, classic, funext |
| `C42_grad_matrix_refuted` | none |
| `C42_gradient_partial` | forall_dec, not_dec, classic, funext |
| `C42_gradient_refuted` | none |
| `C42_shape` | none |
| `C43_basis` | forall_dec, funext |
| `C43_double_refuted` | forall_dec, funext |
| `C43_rejects` | forall_dec, funext |
| `C43_right_end_refuted` | forall_dec, funext |
| `C43_support` | forall_dec, funext |
| `C43_unity` | forall_dec, funext |
| `C44_alignments` | none |
| `C44_bounds` | forall_dec, not_dec, classic, funext |
| `C44_gradient` | forall_dec, not_dec, classic, funext |
| `C44_value` | forall_dec, not_dec, classic, funext |
| `C45_backend` | none |
| `C45_backend_accepts` | none |
| `C45_backend_rejects` | none |
| `C45_backward` | none |
| `C45_branch_refuted` | forall_dec, not_dec, classic, funext |
| `C45_cpu_refuted` | none |
| `C45_default_refuted` | forall_dec, not_dec, classic, funext |
| `C45_device` | none |
| `C45_device_refuted` | none |
| `C45_entrywise_refuted` | forall_dec, not_dec, classic, funext |
| `C45_gradient_partial` | forall_dec, not_dec, classic, funext |
| `C45_jvp` | none |
| `C45_names_refuted` | none |
| `C45_opposite_refuted` | forall_dec, not_dec, classic, funext |
| `C45_product_partial` | forall_dec, not_dec, classic, funext |
| `C45_repeated_refuted` | forall_dec, not_dec, classic, funext |
| `C45_scaled_refuted` | forall_dec, not_dec, classic, funext |
| `C45_second_pass` | none |
| `C45_selected_partial` | none |
| `C45_selected_when` | forall_dec |
| `C46_logsumexp` | forall_dec, not_dec, classic, funext |
| `C46_logsumexp_jvp_partial` | forall_dec, not_dec, classic, funext |
| `C46_raw_refuted` | forall_dec, not_dec, classic, funext |
| `C46_saved` | forall_dec, not_dec, classic, funext |
| `C46_softmax` | forall_dec, not_dec, classic, funext |
| `C46_softmax_jvp_partial` | forall_dec, not_dec, classic, funext |
| `C47_code_computes_formula_partial` | forall_dec, not_dec, classic, funext |
| `C47_engine_names` | none |
| `C47_generation` | none |
| `C47_names_declared_once` | none |
| `C47_onehot_refuted` | forall_dec, not_dec, classic, funext |
| `C48_double_accumulator_refuted` | none |
| `C48_indices_not_hidden` | none |
| `C48_logsumexp_partial` | forall_dec, not_dec, classic, funext |
| `C48_optimum_partial` | forall_dec, not_dec, classic, funext |
| `C48_routine_partial` | forall_dec, not_dec, classic, funext |
| `C48_sum_partial` | forall_dec, not_dec, classic, funext |
| `C49_batch_parameter_refuted` | none |
| `C49_exact_partial` | forall_dec, not_dec, classic, funext |
| `C49_gradient_partial` | forall_dec, not_dec, classic, funext |
| `C49_parameter_shape` | none |
| `C49_residual` | forall_dec, not_dec, classic, funext |
| `C50_array_partial` | none |
| `C50_data_partial` | none |
| `C50_deferred_refuted` | none |
| `C50_later` | none |
| `C50_symbolic_partial` | none |
| `C50_unknown_data_refuted` | none |
| `C50_unknown_partial` | none |
| `C51_counts_refuted` | forall_dec, funext |
| `C51_plain_partial` | forall_dec, funext |
| `C51_ranges_partial` | forall_dec, funext |
| `C51_torch_partial` | forall_dec, funext |
| `C51_torch_small_refuted` | forall_dec, funext |
| `C51_weighted_partial` | forall_dec, funext |
| `C52_block_mixed_partial` | forall_dec, not_dec, classic, funext |
| `C52_block_partial` | forall_dec, not_dec, classic, funext |
| `C52_direct_mixed_partial` | forall_dec, not_dec, classic, funext |
| `C52_direct_partial` | forall_dec, not_dec, classic, funext |
| `C52_double_acc_refuted` | forall_dec, not_dec, classic, funext |
| `C52_exact_partial` | forall_dec |
| `C52_gpu_block_partial` | forall_dec, not_dec, classic, funext |
| `C52_gpu_others_partial` | forall_dec, not_dec, classic, funext |
| `C52_kahan_partial` | forall_dec, not_dec, classic, funext |
| `C52_ones_refuted` | forall_dec, not_dec, classic, funext |
| `C52_ranges_block_refuted` | forall_dec, not_dec, classic, funext |
| `C52_ranges_direct_partial` | forall_dec, not_dec, classic, funext |
| `C52_ranges_kahan_partial` | forall_dec, not_dec, classic, funext |
| `C52_ranges_ones_refuted` | forall_dec, not_dec, classic, funext |
| `C53_batches_partial` | forall_dec, not_dec, classic, funext |
| `C53_blocks_partial` | forall_dec, not_dec, classic, funext |
| `C53_ignores` | forall_dec, not_dec, funext |
| `C53_indices_refuted` | forall_dec, not_dec, classic, funext |
| `C53_interval_partial` | forall_dec, not_dec, classic, funext |
| `C53_parameters_refuted` | forall_dec, not_dec, classic, funext |
| `C54_batches_partial` | forall_dec, not_dec, classic, funext |
| `C54_blocks_partial` | forall_dec, not_dec, classic, funext |
| `C54_operation_refuted` | forall_dec, not_dec, classic, funext |
| `C54_parameters_refuted` | forall_dec, not_dec, classic, funext |
| `C54_rows_refuted` | forall_dec, not_dec, classic, funext |
| `C55_meaning_partial` | forall_dec, not_dec, classic, funext |
| `C55_methods_partial` | forall_dec, not_dec, classic, funext |
| `C55_numbered` | none |
| `C55_one_reading` | none |
| `C55_reading` | none |
| `C55_reading_any` | none |
| `C55_value_partial` | forall_dec, not_dec, classic, funext |
| `C56_equality_refuted` | forall_dec, not_dec, classic, funext |
| `C56_rejected_refuted` | none |
| `C56_structure_partial` | none |
| `C56_sum_refuted` | forall_dec, not_dec, classic, funext |
| `C56_value_partial` | forall_dec, not_dec, classic, funext |
| `C57_factorized_refuted` | none |
| `C57_names_refuted` | none |
| `C57_reduction_partial` | forall_dec, not_dec, classic, funext |
| `C57_zero_refuted` | none |
| `C58_flag_refuted` | none |
| `C58_lse` | forall_dec, not_dec, classic, funext |
| `C58_lse_text` | none |
| `C58_one_reduction` | none |
| `C58_orders_partial` | forall_dec, not_dec, classic, funext |
| `C58_positions_refuted` | forall_dec, not_dec, classic, funext |
| `C58_regular_partial` | forall_dec, not_dec, classic, funext |
| `C58_softmax_text` | forall_dec, not_dec, classic, funext |
| `C58_tangent_partial` | forall_dec, not_dec, classic, funext |
| `C58_tangent_text` | classic |
| `C58_text` | classic |
| `C58_zero` | forall_dec, not_dec, classic, funext |
| `C58_zero_tangent` | classic |
| `C59_exists_partial` | forall_dec, not_dec, classic, funext |
| `C59_gradient_partial` | forall_dec, not_dec, classic, funext |
| `C59_orders_partial` | forall_dec, not_dec, classic, funext |
| `C59_rational_refuted` | forall_dec, not_dec, classic, funext |
| `C60_detection` | none |
| `C60_devices_refuted` | none |
| `C60_flags_partial` | none |
| `C60_flags_refuted` | none |
| `C60_folder_refuted` | none |
| `C60_launches_partial` | none |
| `C60_old_refuted` | none |
| `C60_sessions_refuted` | none |
| `C60_version_refuted` | none |
| `C61_dimension_refuted` | none |
| `C61_generic_partial` | forall_dec, not_dec, classic, funext |
| `C61_hidden_refuted` | none |
| `C61_refused` | none |
| `C61_twice_refuted` | none |
| `C61_zero_refuted` | none |
| `C62_empty_refuted` | none |
| `C62_host_ranges_refuted` | none |
| `C62_launch_partial` | none |
| `C62_leak_refuted` | none |
| `C62_session_partial` | none |
| `C62_size_refuted` | none |
| `C63_equal_partial` | forall_dec, not_dec, classic, funext |
| `C63_no_columns_refuted` | forall_dec, not_dec, classic, funext |
| `C63_out_refuted` | forall_dec, not_dec, classic, funext |
| `C63_parameters_only_refuted` | forall_dec, not_dec, classic, funext |
| `C63_ranges_refuted` | forall_dec, not_dec, classic, funext |
| `C63_third_dimension_refuted` | forall_dec, not_dec, classic, funext |
| `C63_vmap_partial` | forall_dec, not_dec, classic, funext |
| `C64_axis_partial` | none |
| `C64_data_partial` | none |
| `C64_grad_text` | none |
| `C64_gradient_partial` | forall_dec, not_dec, classic, funext |
| `C64_kernel` | none |
| `C64_lse_refuted` | forall_dec, not_dec, classic, funext |
| `C64_position_refuted` | none |
| `C64_row_vector_refuted` | forall_dec |
| `C64_second_order_refuted` | none |
| `C64_summed_index_refuted` | forall_dec, not_dec, classic, funext |
| `C64_vector_refuted` | none |
| `C65_concat_refuted` | forall_dec |
| `C65_data` | none |
| `C65_gradient_refuted` | none |
| `C65_min_refuted` | forall_dec |
| `C65_number` | none |
| `C65_plain` | none |
| `C65_reduction_partial` | forall_dec, not_dec, classic, funext |
| `C65_text` | none |
| `C65_usual_partial` | forall_dec, not_dec, classic, funext |
| `C65_usual_weighted_partial` | forall_dec, not_dec, classic, funext |
| `C65_weight` | none |
| `C65_weighted_partial` | forall_dec, not_dec, classic, funext |
| `C66_accepted` | forall_dec, not_dec, classic, funext |
| `C66_elemT_dimension_refuted` | forall_dec |
| `C66_elemT_refuted` | forall_dec |
| `C66_extractT_dimension_refuted` | forall_dec |
| `C66_extractT_refuted` | forall_dec |
| `C66_reduction_partial` | forall_dec, not_dec, classic, funext |
| `C66_value` | forall_dec, not_dec, classic, funext |
| `C66_weighted_partial` | forall_dec, not_dec, classic, funext |
| `C66_weights_refuted` | forall_dec, funext |
| `C67_accepted` | forall_dec, not_dec, classic, funext |
| `C67_logsumexp_partial` | forall_dec, not_dec, classic, funext |
| `C67_no_index` | forall_dec, funext |
| `C67_optimum_partial` | forall_dec, not_dec, classic, funext |
| `C67_smallest_partial` | forall_dec, not_dec, classic, funext |
| `C67_softmax_partial` | forall_dec, not_dec, classic, funext |
| `C67_sum_partial` | forall_dec, not_dec, classic, funext |
