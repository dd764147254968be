# Formal model of cnine (Rocq/Coq 8.16.1)

Source under study: `/repo` (risi-kondor/cnine, header-only C++), read as text.
Nothing was compiled or run.  All theorems are about the Gallina model in
`rocq/theories`; every definition cites the file and lines it models.

## Layout

* `Base.v` — outcome type (`Ok`/`Throw`/`UB`), list helpers, commutative ring record, memory.
* `Model_*.v` — the executable model, one file per subsystem, no proofs.
* `Spec_*.v` — small specifications independent of the model's helpers.
* `Proofs_*.v` — lemmas.
* `Prop_*.v` — only `Theorem … exact lemma. Qed. Print Assumptions …` and the `Example`s
  showing that the hypotheses are met by concrete non-trivial cases.

Naming: `Cnn_…` proves property Cnn; `…_refuted` is a machine-checked counterexample
to the property as stated (a finding about the code); `…_partial` proves a part only.

## Modelling conventions

* Integers are unbounded `Z`/`nat` unless the property is about overflow.
* Element type: an arbitrary commutative ring (record `cring`), so floating-point rounding is not
  modelled; statements hold for exact arithmetic.
* Memory: cells addressed by (block, offset), partial: an access to a cell that is not
  allocated is the outcome `UB`, never a default value.
* `CNINE_ASSRT` throws (`Throw`); range/dim check macros are compiled out by default and are
  therefore not modelled as checks.
* Only the CPU (`dev==0`) paths are modelled, except for the CUDA files of `Model_Cuda` and `Model_CuReduce`.  There a launch outside the
  device's limits does nothing (the code does not look at the error) and each thread's statement is one step.

## Plan per property

| id | modelled | how proved |
|----|----------|-----------|
| C01 | `Gindex(int,Gdims)`, `to_int`, `asize` as list recursions | mixed-radix induction on the shape |
| C02 | the recursive index loop as a trace of callback arguments | trace = lexicographic list of all in-range indices, NoDup; rank 0 refuted |
| C03 | row-major stride construction, `offs` | bijection [0,asize) by induction |
| C04 | `is_regular`, `is_contiguous`, `memsize` | sorted-stride argument; zero stride refuted |
| C05 | Gdims list operations | list induction |
| C06 | GindexSymm formula | quadratic inequality |
| C07–C10 | views as (block, offset, dims, strides) | element address equations by list induction |
| C11 | inductive/chain type of view operations | invariant: all addresses inside the block, injective |
| C12 | `block` with its comparison operators | proof for elementwise check; lexicographic check refuted |
| C13–C17, C20 | loops as folds over memory with UB | loop lemma: disjoint writes of a permutation of all addresses |
| C18, C19, C21 | same memory model | restricted positive theorem + refutation |
| C22–C23 | block map as list of (offset,size,live) | invariant over op lists; UB of `free` refuted |
| C24–C30 | representation (buffer, directory) and ops | refinement to lists / finite maps over all histories |
| C31–C38 | gather maps, row loops, programs | sums over multisets, transposition, induction over program |
| C39–C41 | heap of observers/observables, caches | invariant over histories |
| C42–C44 | small-step interleaving semantics | invariants over all schedules; deadlock/race schedules as refutations |
| C45–C49 | sieve, factored rationals, factorial cache, cyclic, permutations | arithmetic + induction |
| C50–C52 | argsort, combination recursion | sortedness/permutation, enumeration induction |
| C53–C55 | trees | structural induction |
| C56–C59 | graphs, spanning tree, backtracking search | invariants; soundness and completeness of search |
| C60–C64 | sparse matrices | refinement to functions (i,j) -> value |
| C65–C67 | string parser, strided loop nests | characterisation of letter classes; sums over index boxes |
| C68–C69 | convolution loops | sum reindexing, adjointness |
| C70–C73 | misc | direct |

This table is the plan; the outcome per property is in `MANIFEST.json` and in the sections below.

## Trusted base

* Coq 8.16.1's kernel and the standard library's definitions (ZArith, List, Ascii, String, Permutation, Sorting, QArith, Reals, Ring).
* `Print Assumptions` follows every theorem named in `MANIFEST.json`; for every theorem of
  C01–C108 and C112 and those after it the answer is `Closed under the global context`: no axiom is used.
  The theorems of C109–C111 are about the real numbers of Coq's standard library (the code's `float` and `double`) and
  list its three axioms: `ClassicalDedekindReals.sig_forall_dec`, `ClassicalDedekindReals.sig_not_dec` and
  `FunctionalExtensionality.functional_extensionality_dep`.  There is no axiom of ours and none of another library.
  (`vcheck` also lists seven `Coq.ssr.ssrunder` constants: opaque parameters of the standard library that come along with `Require`;
  no theorem depends on them.)
* The fidelity of the model: that each Gallina definition does what the cited C++ lines do.  This was done by
  reading; nothing was compiled, run or extracted.  Every citation was compared with the line it points at.
* What the C++ standard leaves undefined, or what never ends, is the outcome `UB`; what throws or exits is `Throw`.
  No theorem draws a conclusion from `UB` other than that it occurs.

### Modelled

| model file | source |
|---|---|
| `Model_Index` | `include/Gdims.hpp`, `Gindex.hpp`, `GindexSymm.hpp`, `GstridesB.hpp`, `gvectr.hpp` |
| `Model_View` | views and reshapes of `tensors/TensorView.hpp` and its `.inc` files, `include/MemArr.hpp` |
| `Model_Tensor` | copying, filling, accumulation, products, reductions of `TensorView` on the CPU; the loops of `Rtensor2_view` they call |
| `Model_Memory` | `include/SimpleMemoryManager.hpp` |
| `Model_Containers` | `array_pool`, `bidirectional_map`, `double_indexed_map`, `hlists`, `map_of_lists`, `map_of_maps`, `multivec`, `IntTensor` |
| `Model_Gather`, `Model_Gather2` | gather maps, packs, programs, weighted maps, `GatherRows`, `GatherSlices` (CPU) |
| `Model_Observer`, `Model_Memo` | observers, pointer-indexed banks, `object_bank`, `once`, `cachedf` |
| `Model_Threads` | `ThreadGroup`, `MultiLoop` as a small-step machine over all schedules |
| `Model_BG` | batch/grid reconciliation, cell-wise parallel traversal |
| `Model_Math` | primes, factored rationals, factorials, `cyclic`, determinant, delta factors, `SortRowsUnique` |
| `Model_Perm`, `Model_Comb`, `Model_Tree`, `Model_Graph` | `combinatorial/`: permutations, combinations, labelled and prefix trees, graphs, planted subgraph search; `auto_array`, `int_pool` |
| `Model_Sparse`, `Model_Block` | `CSRmatrix`, `SparseRmatrix`, `BlockCsparseMatrix`, `SparseIndexer2`, the storage of `SparseTensorView` |
| `Model_Einsum`, `Model_Convolve` | einsum strings and loops, `Convolve1D` and its gradients (CPU) |
| `Model_JSON` | `utility/JSONlike.hpp` |
| `Model_Convolve2D` | `hpc/Convolve2D.hpp` (CPU branches) |
| `Model_Ops` | tensors/TensorView_functions.hpp, TensorView_gen_ops.inc, TensorView_lambdas.inc, TensorView_constructors.hpp, parts of TensorView.hpp and TensorView_scalar_ops.inc |
| `Model_RView` | tensor_views/Rtensor1_view.hpp, Rtensor2_view.hpp, Rtensor3_view.hpp (CPU branches), functions/GivensSomeSlicesFn.hpp, functions/ScaleSomeSlicesFn.hpp |
| `Model_CView` | tensor_views/Ctensor1_view.hpp .. Ctensor4_view.hpp (CPU branches), two kernels of BasicCtensorProducts.hpp |
| `Model_RConv` | tensor_views/functions/RtensorConvolve2d.hpp, RtensorConvolve3d.hpp, RtensorConvolve2dSparse.hpp, RtensorConvolve3dSparse.hpp, RtensorConvolve3d_back0.hpp (CPU branches) |
| `Model_Plan` | `einsum/EinsumHelpers.hpp`, `EinsumForm.hpp`, `ContractionNode.hpp`, `ContractionTree.hpp`, `ContractionTrees.hpp`; the index sets of `etree2/ctree_index_set.hpp` and the loop orders of `etree2/LoopTrees.hpp` (not the loop trees built from them, nor the code they print) |
| `Model_Ltensor` | `tensors/Ltensor.hpp`, `DimLabels.hpp`, `LtensorSpec.hpp`: labels, batches, cells, fused views, the float product, index manipulations, stacking |
| `Model_Gtensor` | `include/Gtensor.hpp` (CPU branches). Not modelled: the constructor from a vector of pointers and the rank-7 printer (neither compiles nor ends), and the difference of `delete` and `delete[]` |
| `Model_Spaces` | `tensors/functions/ColumnSpace.hpp`, `ComplementSpace.hpp`, `IntersectionSpace.hpp`, `random_unitary` of `tensors/TensorView_constructors.hpp`; floating point numbers are the real numbers of Coq's library |
| `Model_Components` | `ConnectedComponents` and `range_set` of `tensors/functions/BlockDiagonalize.hpp`; not `BlockDiagonalize` (it needs Eigen's singular values) |
| `Model_BGprod` | `tensors/BGtensor_products.hpp`, `tensors/functions/ForEachCellMultiScalar.hpp`, the views of `tensors/BGtensor.hpp`; a call of a lambda is one step, and `add_norm` is not modelled |
| `Model_EinsumFn` | `tensor_views/functions/EinsumFnBase.hpp`, `RtensorEinsumFn.hpp`, `CtensorEinsumFn.hpp`; loops over one, two or three axes are one function, and a complex view is one with a last axis of side two |
| `Model_Column` | `tensors/TensorView.hpp:300-313, 636-759, 770-825` and the quotient, rectifier and broadcast of `tensors/TensorView_cumulative_ops.inc`; not the views of double tensors |
| `Model_Mask` | include/Rmask1.hpp (not the GPU arrays), tensor_views/Aggregator.hpp and TensorView_accumulator.hpp (CPU), fuse0X of CtensorView/CtensorD_view, tensors/TensorAccessor.hpp, tensors/FixedTensorAccessor.hpp |
| `Model_Groups` | include/GindexSet.hpp, GindexMap.hpp (ndims), Gdims.hpp (select, unite, combined, map, range checks), GstridesB.hpp (map, offs(j,source), fuser, fusible), Gindex.hpp (range checks); the constructors of Rtensor1/2_view, Itensor1/2_view and Ctensor1/2/3_view from sets of axes |
| `Model_Keyed` | `containers/indexed_map.hpp` (indexed_map, indexed_mapB), `containers/associative_container.hpp` (the containers, their iterators as traversals; not str, not clear/operator= of associative_container, which do not compile) |
| `Model_ArgCache` | `containers/ptr_arg_indexed_cache.hpp`, `containers/ptr_arg_indexed_object_bank.hpp` (`containers/ptr_indexed_cache.hpp` has the text of ptr_indexed_object_bank, see `Model_Observer`) |
| `Model_HView` | `tensor_views/Rtensor4_view.hpp` to `Rtensor7_view.hpp`: constructors, slices, fusions, blocks, add, reductions, broadcasts, gtensor; the slices, fusions and as_real of `Ctensor4_view.hpp` to `Ctensor6_view.hpp` |
| `Model_BGpack` | `tensors/BGtensorPack.hpp:26-315` except gradients, `batch`, `transp` and the products |
| `Model_PoolMem` | containers/array_pool.hpp (ownership of the array: construction, destruction, reserve, push_back, copies, assignments, moves, view, to_tensor), tensors/IntTensor.hpp (assignments) |
| `Model_IView` | `tensor_views/Itensor1_view.hpp`, `Itensor2_view.hpp`, `Itensor3_view.hpp`, `tensor1_view.hpp` (all members on the CPU except printing), the constructors of `tensors/IntTensor.hpp` from them |
| `Model_Graph2` | combinatorial/sparse_graph.hpp (named graphs, matrices, equality, insert, edge tensors, labels); random() is not modelled |
| `Model_IntTensor` | `tensors/IntTensor.hpp` for any number of axes: construction, element access with and without range checking, copies, moves, self-assignment, growth, `cat`, `==`, rows, conversion from and to `Gtensor`; left out: views (`is_view`), the device |
| `Model_BlockMul` | `matrices/BlockCsparseMatrix.hpp` operator* of two block sparse matrices, gather_mapL/R, row_offsets; `hpc/GatherMapB.hpp` constructor from a map of maps |
| `Model_Shape` | `include/Gstrides.hpp`; the product, joining and conversion functions of `include/Gdims.hpp`; the joining and entry functions of `include/gvectr.hpp`; cat, comparison and offsets of `include/Gindex.hpp` |
| `Model_XView` | `tensor_views/RtensorView.hpp`, `tensor_views/CtensorView.hpp`: access, slices, fusions, as_real, gtensor |
| `Model_Cuda` | `cuda/TensorView_assign.cu`, `cuda/TensorView_add.cu`, `cuda/TensorView_inc.cu`: kernels, launch configurations, launch limits of CUDA devices (an assumption about the hardware), any order of the threads of a launch |
| `Model_CuReduce` | `cuda/RtensorReduce.cu` (launches as in `Model_Cuda`) |
| `Model_CuGather` | `cuda/TensorView_gather.cu:24-337` (gather of slices on the device; table from `array_pool::to_tensor`) |
| `Model_CuConv` | `cuda/RtensorConvolve2d.cu`, `cuda/RtensorConvolve3d.cu` and the device branches of `tensor_views/functions/RtensorConvolve2d.hpp`, `RtensorConvolve3d.hpp` (launches as in `Model_Cuda`) |
| `Model_DevAssign` | `tensors/functions/TensorView_assign.hpp`, `tensors/TensorView.hpp` (copies and moves between devices) |
| `Model_CuBlas` | device branches of `tensor_views/Rtensor1_view.hpp`, `Rtensor2_view.hpp`, `Rtensor3_view.hpp` and `inplace_times` of `tensors/TensorView.hpp` that call cuBLAS; the library calls gemm, gemmStridedBatched, axpy and asum are modelled after the documentation of the library (trusted) |
| `Model_CuRtensor` | `cuda/RtensorUtils.cu`, `cuda/CUDAhelpers.hpp` and the device branches of `set`, `add`, `sum0_into`, `avg0_into`, `sum1_into`, `add_ReLU`, `add_ReLU_back` of `tensor_views/Rtensor1_view.hpp`, `Rtensor2_view.hpp`, `Rtensor3_view.hpp` (launches as in `Model_Cuda`) |
| `Model_CuColumns` | `tensor_views/Rtensor2_view.hpp` (destructive reductions, `broadcast0`), `tensor_views/Rtensor3_view.hpp` (`reduce1_destructively`), `tensors/TensorView.hpp` (`add_scale_columns`, `add_mul_columns`), device branches; `batched_add_cu` of `cuda/RtensorUtils.cu` |
| `Model_CuComplex` | `tensor_views/Ctensor2_view.hpp` (`add`, `add_matmul_AA`, `_AH`, `_HA`), `tensor_views/Ctensor3_view.hpp` (`add`, `add_mix_1_0`), device branches |
| `Model_CuMixLast` | device branches of `add_mix_2_0`, `add_mix_2_H` (`Ctensor3_view`), `add_mix_3_0`, `add_mix_3_H` (`Ctensor4_view`) |
| `Model_CuContract` | kernels of `cuda/BasicCtensorProducts.cu` and the device branches that call them: `add_contract_aib_aib_ab_to`, `add_contract_abic_bic_abc_to`, `add_expand_2` (the `Ctensor2_add_otimes` kernels are called by nothing and not modelled) |
| `Model_CuREinsum` | `cuda/RtensorEinsumProducts.cu`: all host functions and kernels |
| `Model_CopyStrides` | `tensors/TensorView.hpp` (`copy_keeping_strides`, the constructor from sides and strides), CPU |
| `Model_Reconcile` | `include/device_helpers.hpp` (`reconcile_devices`) and `add_mprod`, `add_mprod_AH`, `add_mvprod` of `tensors/TensorView.hpp` across devices |
| `Model_CuMask` | `cuda/TensorView_accumulators.cu`, `prepare` of `include/Rmask1.hpp` (the arrays on the device), device branches of `tensor_views/Aggregator.hpp` and `TensorView_accumulator.hpp` for matrices |
| `Model_TupleMap` | `containers/double_map.hpp`, `triple_map.hpp`, `quadruple_map.hpp`, `quintuple_map.hpp`; the standard hash table underneath is modelled as buckets (iteration and erasure are not modelled) |
| `Model_Minivec` | `containers/minivec.hpp` (not `str` and the stream operator); memory is a heap of numbered arrays, devices are 0 and 1, allocation does not fail |

### Not modelled

* All CUDA code (`cuda/`, `curoutines/`, every `#ifdef _WITH_CUDA` branch) other than that of `Model_Cuda` and `Model_CuReduce`, device transfers, ATen conversions, Python bindings.
* Floating point: elements are ring elements or integers.  Complex arithmetic only as a commutative ring.
* `legacy/`, `abandoned/`, `backup/`, `hold/` directories; `etree*`, `latex`, the code-generating part of `einsum/`.
* Printing, colours, file input and output, logging, timing, random number generation (draws are arguments).
* Allocation failure, object lifetime outside the observer and memory-manager models, signed overflow except where
  a property is about it.
* The `tensor_views` classes other than the rows and matrices the modelled loops use, except where listed above.

## Mutation tests

`seeded/LOG.jsonl` has one line per seeded error: the definition changed, the change, the claim it breaks and the lemmas or
theorems that no longer prove.  Theorems tightened because an error went unnoticed are named there.

## Outcome per property

`proved`: the statement in `properties.jsonl` holds of the model as quantified.  `partial`: part of it is false of the code
(the `_refuted` theorems) or a part is missing; the note says which.

| id | status | what is proved, what is false, what is missing |
|---|---|---|
| C01 | proved | As stated. |
| C02 | partial | Holds for rank >= 1; for rank 0 the callback is never called (C02_rank0_refuted). |
| C03 | proved | As stated. |
| C04 | partial | Proved for strides without broadcast; a broadcast view counts as contiguous (C04_contiguous_broadcast_refuted). |
| C05 | proved | As stated. |
| C06 | proved | As stated. |
| C07 | proved | As stated. |
| C08 | proved | As stated. |
| C09 | partial | unsqueeze(0) reads strides[-1] (refuted theorem); fuse01 does not check the stride condition (refuted theorem); everything else proved. |
| C10 | partial | diag(ix) proved for increasing positions; other orders refuted. |
| C11 | proved | As stated. |
| C12 | partial | block(dims,offs) with non-negative offsets proved; block(dims) and negative offsets refuted by concrete counterexamples. |
| C13 | partial | Proved for every layout with strides in [0,INT_MAX), at least one of them positive (or rank 0). One-element tensors whose strides are all 0 are left unchanged by the code (C13_zero_stride_refuted). |
| C14 | partial | copy() proved in full; operator= proved for the layouts of C13. |
| C15 | proved | As stated. |
| C16 | proved | As stated. |
| C17 | partial | add_mvprod_T is right for square matrices only; wide matrices run out of bounds and tall ones lose rows (two refuted theorems). The other products are proved in full. |
| C18 | partial | set_zero does nothing on non-contiguous views, and every operation that tests is_contiguous runs out of bounds on broadcast views (refuted theorems). inplace_times, sum, norm2, max are proved for all views with non-negative strides and separate cells; inp for all views. |
| C19 | partial | Proved for row-major tensors; with any other layout operator== returns true (refuted). |
| C20 | proved | As stated. |
| C21 | partial | A.add(A.transp()) is refuted; the index-by-index case is proved. |
| C22 | partial | Proved for every history of non-negative request sizes, under both readings of the stale iterator; alloc<TYPE>(n) truncates the byte count to int, so requests of 2 GiB and more are refuted. |
| C23 | partial | Strictly every release reads an erased iterator and releasing the last block of an arena dereferences the end iterator (two refuted theorems). Read with the usual behaviour of std::map nodes, coalescing and re-use are proved. |
| C24 | proved | As stated. |
| C25 | partial | Appending rows, pre-sized rows and construction from a map are proved. The constructor without fill_noalloc marks rows as full, and pushing a set of two or more elements loses all but the last (refuted). |
| C26 | proved | As stated. |
| C27 | partial | Proved for histories in which each insertion repeats a stored pair or uses a new key and a new value; the other two cases are refuted. |
| C28 | proved | As stated. |
| C29 | partial | Histories proved in full. operator== compares spare capacity and uninitialised cells (refuted); it is right for copies, which carry no spare capacity. |
| C30 | proved | As stated. |
| C31 | partial | Constructors from lists and from a matrix, push_back and the gather itself (with column factors) are proved. The constructor from two vectors throws for every non-empty input (refuted). |
| C32 | partial | Proved for maps without fixed-width parts; the inverse of a graded map loses the graded rows (refuted). |
| C33 | partial | Proved for all programs over any number of variables whose instructions have no column factors and gather between two different variables; an instruction that gathers a variable into itself is refuted. |
| C34 | partial | Grading and sorting keep the entries, and the gathered result, for maps without column factors; a graded map with column factors gives a wrong result (refuted). |
| C35 | partial | Packs built from a vector are proved for maps without column factors; push_back computes wrong offsets for maps of different sizes and column factors break the row ranges (both refuted). |
| C36 | partial | inv() is right until it has been called once; afterwards every edit leaves the old inverse in place (refuted for all histories of edits). |
| C37 | partial | naive() proved for ranks 1-4 and any strides. operator() is proved when fusing the other axes leaves one or two of unit stride; the last axis throws, other strides exchange source and target, three remaining axes use the wrong size, four do nothing (refuted). |
| C38 | partial | The weighted kernel and the weighted inverse are proved. operator() runs the unweighted loop afterwards, the constructor from vectors throws and sort() converts the weights to integers (refuted). |
| C39 | proved | Proved for every history of adding, removing, creating and destroying. Outside that history: a copied observer and a direct attach_observer break the invariant (refuted). |
| C40 | proved | One, two, three and list keys, every history with address reuse. |
| C41 | partial | Proved for generators that do not return null. A default-constructed object_bank dereferences null, a null-returning generator is run again by oncep/cachedf, and cachedf(std::function<OBJ()>) uses a dangling reference (refuted). |
| C42 | proved | Every interleaving, length and thread limit, including the limits passed to nested loops. |
| C43 | partial | False as stated: with more indices than threads (at least 2) the wake-up can be lost and the loop never returns (refuted for all such sizes). Proved: every execution is finite up to spurious wake-ups, and it returns unless a worker decrements the counter between the main thread's test and its blocking; always returns for n <= nthreads. |
| C44 | partial | Proved for any number of tensors, every schedule and every moment: no (batch, grid index) pair is visited twice and on return all have been visited once (C44_each_cell_once); the cells handed over are exactly the matching ones in row-major order if the target has one batch or only one thread is allowed (C44_sequential), and for every schedule if there is no grid (C44_no_grid). False with a grid and two or more threads: the cell views are shared by the threads, and for all such tensors a schedule is exhibited in which the call for batch 0 gets the cells of batch 1 (C44_shared_views_refuted). Three tensors: a grid only the third has is not traversed (C44_third_grid_refuted). for_each_batch_multi is right for equal batch sizes or a single-batch result, and visits every batch twice, once with a slice beyond x, if only x has one batch (C44_batch_multi_refuted). |
| C45 | proved | Every history of extension requests, over unbounded integers. |
| C46 | partial | Proved for every sequence of conversions of positive integers, quotients, products, factored factorials and squared delta factors in a fresh process, in Q; p_not_one/q_not_one included. Missing: the library has no operator==, so equality is stated on exponents; comparing the maps literally is refuted (C46_maps_differ_refuted). Zero and negative integers are outside the quantifier; what happens to them is recorded in the refuted theorems. Conversions to double and strings are not modelled. |
| C47 | proved | All histories of calls; also shows that every larger argument overflows. |
| C48 | partial | Sums, differences and negatives are proved congruent for moduli up to 2^30. Refuted: congruent numbers get different representatives, and above 2^30 sums overflow. The class has no multiplication and no operator==. |
| C49 | partial | Composition, inverse, associativity, identity, is_valid, inv(i) and equality are proved for all sizes. The in-place product p*=x is shown to compute x*p (C49_in_place_reversed), so it equals p*x exactly when the two commute (C49_in_place_refuted). |
| C50 | proved | ordering, reverse_ordering and ordering by a comparison, for every strict weak order and every vector; ties keep their original order, which determines the permutation uniquely. For an arbitrary comparison the result is still a permutation. |
| C51 | proved | for_each on every object of the expected shape, and on every object the bank returns after any earlier requests. |
| C52 | partial | operator[] and index are shown inverse to each other and to agree with the enumeration for objects whose counts are right; the bank gives right counts for m=1 (C52_single). For m>=2 the count is accumulated into uninitialised storage (C52_count_refuted), and even from zero it would be (n-m+1)(n+m-2)/2 (C52_zeroed_count_refuted). |
| C53 | proved | Any label type with decidable equality, any collection of paths in any order. |
| C54 | proved | All trees with integer labels; the flat form is read back by both traversals, with node positions distinct and parents matching the indexed traversal. |
| C55 | proved | Any label type; the listing of maximal paths is proved for every order in which the hash tables may be walked. |
| C56 | proved | Any sequence of set calls, tables walked in any order. Also: nedges() halves the number of entries, so it equals the number of edges exactly when there are no self loops (C56_nedges_simple). |
| C57 | partial | False as stated: with an odd number of self loops as_int_pool writes one entry past the end of the pool (C57_odd_loops_refuted, all such graphs). With an even number the round trip preserves the neighbour relation and the vertex count; all weights come back as 1. |
| C58 | proved | Every graph and every root in range; an edge of weight 0 does not count as an edge, and a root out of range is undefined (C58_root_range). Recursion is bounded by fuel; the theorem holds for all sufficiently large fuel. |
| C59 | partial | Proved for connected patterns with induced meaning equal weights on every two distinct vertices. Self loops are never compared, so a copy need not preserve them (C59_self_loop_refuted). |
| C60 | partial | Dense round trip, transpose (entries and stored elements) and double transpose proved for every integer matrix, range checks on or off. Refuted: transp() caches its result and neither set_at nor assignment drops it, so after a change transp() returns the old transpose (C60_stale_transpose_refuted). |
| C61 | partial | Proved for every stored element. Refuted for absent ones: the loop runs over twice as many positions as the row has, so an absent element throws or is answered from the cells after the row (C61_absent_element_refuted, C61_diagonal_refuted), never as zero; with range checks on, the row index is compared with the number of columns, so rows beyond it cannot be read (C61_tall_matrix_refuted). |
| C62 | partial | Last-write reads, transpose, dense conversions and equality proved for every sequence of in-range writes; equality means equal entries when no zero is stored. Refuted: a stored zero or row(i) on an absent row breaks equality, vector equality is one-sided, from_matrix drops negative entries, from_list throws for every non-empty list, csrmatrix() leaves the sizes 0 by 0. |
| C63 | proved | For every mask (repetitions allowed), block shape and data over any commutative ring, with operands in memory not overlapping the result: apply_to and apply_transp_to add the dense product, and they are adjoint. |
| C64 | partial | Listed pairs get distinct offsets inside the storage and their dense blocks tile it, for every list and every shape. Refuted: an unlisted pair is reported as offset 0, the block of the first listed pair (C64_unlisted_pair_refuted). |
| C65 | proved | Well-formed one- and two-operand strings of any length are parsed into exactly the letter classes of the mathematical definition, and malformed strings are refused. |
| C66 | partial | Proved for strings without the gather letter S and with at most four transferred/summed/broadcast letters (the code refuses more): add_einsum adds exactly the einsum and operator() returns it, on any strides, provided that when a fourth transferred letter exists its strides in both tensors agree. Refuted without that proviso: the parameter table stores the output stride of the fourth letter from the input (C66_fourth_letter_refuted). Not modelled: gather variants and the GPU path. |
| C67 | partial | Proved for strings without S and *, including convolution letters, on any strides, with the size limits the code checks and the fourth-letter proviso of C66. Refuted in general: the fourth transferred letter uses a wrong stride (C67_fourth_letter_refuted) and letters S or * are silently dropped (C67_gather_letter_refuted). GPU path not modelled. |
| C68 | partial | Proved for one-channel (sets), multi-channel and multi-column (adds) input of any sizes, strides and padding, and for convolve1d. Refuted for batches: tensors of four or five dimensions are silently left unchanged, and convolve1d refuses four dimensions (C68_batched_refuted, for all such inputs). |
| C69 | partial | Adjointness of the derivative formulas, and the filter gradient (batches included, sequential execution) in general; the input gradient whenever the two centred paddings match. Refuted otherwise: when R-X+W-1 is odd the input gradient is that of a correlation shifted by one (C69_input_gradient_shifted_refuted, characterised for all sizes). The convolution letters of einsum are covered by C77. |
| C70 | partial | Strings, ints, non-empty int vectors and vectors of non-empty vectors are read back; a dictionary filled by any assignments with plain keys and values and at most 1000 keys is parsed back from its text. The full statement is false: no text parses into more than 1000 entries, a nested dictionary, or keys or values with blanks or closing braces (general refutation); an empty vector is read as one indeterminate element, and an empty object parses as invalid. Elements of vectors are ints; floating-point elements and initializer lists are not modelled. |
| C71 | partial | Batch sizes of two, three and four tensors, and grids and cells of two tensors, are reconciled exactly as claimed and independently of the order. The grid of the third of three or four tensors is never looked at, so the claim fails for them (C71_grid3_refuted, C71_grid3_mismatch_refuted, C71_grid3_ignores_third, C71_grid4_ignores_third). |
| C72 | proved | Integer entries (a strict total order on entries); every matrix view with any strides. |
| C73 | proved | Any commutative ring; any strides. |
| C74 | partial | Identity, transposition and random are proved, the latter for every sequence of draws in range. contiguous_cycle writes outside its array or returns a non-permutation for every argument pair except (0,n) (C74_contiguous_cycle_refuted). |
| C75 | partial | Stores, resizes and reads are proved for all histories; the copy constructor copies no entries (C75_copy_refuted). |
| C76 | proved | All trees built by additions, all label collections. |
| C77 | partial | Gradients proved equal to the exact derivative sums for one and two operands, convolution letters included, when the backward letter tables fit (at most four transferred, three contracted) and filters are no longer than the result (x-gradient). Refuted beyond: C77_long_filter_refuted (out-of-bounds read), C77_five_letters_refuted (table overrun is not refused), C77_four_letters_refuted (the fourth summed letter is left out). |
| C78 | partial | Proved for every rank the in-place form accepts, batches included, and for the value-returning form on 2, 3 and 4 dimensions. Refuted for the value-returning form on batches (5 dimensions): the result is made without the batch dimension (and with the first length twice), so every call throws. Batches run in sequence in the model. |
| C79 | partial | Proved for the filter gradient at all sizes and for the input gradient when the paddings match along both axes (even slack, or no overlap with the padding). Refuted otherwise: the input gradient is that of a correlation shifted by one along each mismatched axis. Threads of the batched filter gradient race on the filter; the model runs them in sequence. |
| C80 | partial | Proved for all shapes and strides (scalar addition and odot for rank at least one; matrix product for two matrices). Refuted: for rank 0 adding a scalar changes nothing and odot returns 0 (C80_rank0_refuted, general); matrix times vector is undefined behaviour although the operator computes its shape (C80_matvec_refuted, general). |
| C81 | partial | Proved for kron and add_tprod of ranks 1 to 3 and oplus of rank at least one, any sides and strides. Refuted: kron of rank 0 or at least 4 returns zeros (C81_kron_rank_refuted, general); oplus of two scalars returns the second. |
| C82 | partial | Proved for all shapes; list of rows only for rows of equal length. Refuted: rows of unequal length are not detected (out-of-bounds write, overwritten row, padding); a unit vector with its one outside the range writes outside the block. |
| C83 | partial | Proved for all shapes of rank at least one and arbitrary functions and state. Refuted: the element of a rank-0 tensor is never visited (C83_rank0_refuted, general). |
| C84 | partial | Proved for min, max_abs (integers) and diff2 (any ring, equal shapes). Refuted: the free function min returns the greatest element (C84_free_min_refuted, general); diff2 of equal sizes but different shapes pairs wrong elements or reads outside the tensor. |
| C85 | partial | proved for vectors and matrices of any strides and for 3-tensors, with the corner behaviour and the size checks. Refuted: add(x,c) of two regular 3-tensors ignores c, for all such views; add_ReLU with different strides reads x with the stride of r (a witness). With equal strides add_ReLU is proved. |
| C86 | partial | proved for the explicit products, matrix-vector, outer and batched products and for add_mprod with a regular result and a regular or transposed factor. Refuted: in every other layout add_mprod changes nothing, for all such views; the deprecated product of a 3-tensor with a matrix throws whenever the result matrices are not square, and otherwise fills only as many rows as there are batches. |
| C87 | partial | proved for all axes and shapes except those refuted: the overload of sum1_into for const matrices throws unless the matrix is square, and reduce0_destructively of a regular matrix with one row doubles it, both for all such inputs. 3-tensor reductions along axes 0 and 2 need a regular tensor, as the code asserts; axis 0 with one slice and 1x1x1 tensors meet the same doubling and are left out. |
| C88 | partial | proved for targets with at least one row and, for 3-tensors, sources whose rows follow each other. Refuted: broadcast0 into a regular matrix without rows writes outside it (witness), add_broadcast0 ignores alpha for all inputs, broadcast0 and broadcast2 of 3-tensors misread strided sources (witness). |
| C89 | partial | all sub-views proved for all strides except fuse01 of a matrix, which is proved when the rows follow each other and refuted for every other matrix with at least two rows and one column. |
| C90 | partial | matrices: proved. 3-tensors: refuted for all inputs, the second slice gets the opposite sign (the source says hack); the exact effect is proved. Norm preservation and scaling are proved for both ranks. The index and coefficient tensors are modelled as lists. |
| C91 | partial | Element access, add, add(x,c) and assign are proved for all shapes and strides (regular and strided paths), mismatches refused in rank 1 and 2. Refuted: rank-3 add does not compare the last side and then writes outside r (C91_mismatch_rank3_refuted). |
| C92 | partial | matmul AA/AH/HA/NA and mix_1 are proved without restriction; mix_2 and the rank-4 forms for views whose fused slices follow each other. Refuted: contract and expand store instead of adding (C92_contract_refuted, C92_expand_refuted; the stored values are proved in the _partial theorems), add_matmul_AA does not compare sides, and mix_2_0 on a result with gaps writes outside it. |
| C93 | partial | Slices, transp, flip, split0, unsqueeze0/2, as_real and, for contiguous slices, the fuse forms are proved. Refuted: unsqueeze1 of a matrix uses the wrong stride, fuse01 with gaps, fuse01 of a matrix is s0 times too long, split2 with a tile that does not divide the axis reaches outside. |
| C94 | partial | Proved for rank 3 for all sizes and strides when there is padding on the second axis, and without padding when rows of taps follow on in both operands; with channels, for the layouts the matrix product handles. Refuted: for every other layout the result is left as it was (C94_layouts_refuted), in particular convolve2D with channels and a filter stored row by row returns zeros (C94_row_by_row_refuted); sizes that leave one zero to add read past the row (C94_uneven_refuted); rows with gaps are read as if they had none (C94_gaps_refuted). |
| C95 | proved | Ranks 3 to 6 in two dimensions and 4 to 6 in three, any strides, any list of stored taps. |
| C96 | partial | Proved for filters whose second and third axes are equally long, or without padding on the third axis; with channels, for the layouts the matrix product handles. Refuted: a filter with a shorter second axis is cut to that length along the third (C96_box_refuted, general), one with a longer second axis is read beyond its end (C96_box_witness_refuted); filters of other layouts leave the result as it was, so convolve3D with channels and a filter stored row by row returns zeros (C96_row_by_row_refuted). |
| C97 | partial | Proved for results of the size convolve3D gives, with the restrictions of C96 applied to the reversed filter. Refuted when the sizes leave one zero to add: the gradient is shifted by one (C97_uneven_refuted). |
| C98 | partial | Proved for every expression whose last tensor has an axis. Refuted otherwise: a last tensor without axes ('i,->i') is dropped, so the expression is read as one with a tensor fewer (C98_last_scalar_refuted). |
| C99 | partial | Proved except for the last clause. The result is in the list of arguments too, so the root never holds it (C99_root_form_refuted), nor does it hold tensors that no contracted index links to it (C99_root_refuted); a tree without contractions has no root (C99_root). Arguments are numbered from 1, because the number is passed by reference to a constructor called after it is increased (C99_nodes). |
| C100 | partial | Proved for sets with an element. The empty set gets no permutation instead of one (C100_permutations_refuted), so that no loop order at all is tried once some contraction leaves no index (C100_scalar_refuted). |
| C101 | partial | Proved for all labelled tensors and in-range batches and cells, with the partition into cells and the refusals (C101_shape to C101_rejects); the traversals for a non-empty grid. Refuted: an unbatched tensor reports one batch but for_each_batch throws; for_each_cell of a tensor without grid visits nothing; grid positions and negative batch numbers are not checked. |
| C102 | partial | Proved for a positive number of batches, for specifications, for the fills and for copy. Refuted: with batch count 0 the tensor gets a leading dimension of length 0 and has no elements; a tensor with 0 batches loses its batch dimension through its specification; the static function ones returns uninitialised memory. |
| C103 | partial | Proved when batch and grid (and, for the product, the rows) are evenly spaced in memory; of y only the first cell enters the product. Refuted: a grid broadcast along its last dimension divides by zero; a transposed grid is counted as one cell. |
| C104 | partial | Proved for col, cols, row, rows, diag, broadcast, unsqueeze (not at the end), split, transp and stack of a vector. fuse is right only if the first fused dimension runs fastest (C104_fuse_partial); for every new matrix with sides over 1 it leaves the matrix (C104_fuse_refuted). The overload of stack for a list in braces ignores the dimension, and the one for references never succeeds. |
| C105 | partial | Proved for shapes of rank one or more. Refuted: rank zero is undefined behaviour (C105_scalar_refuted); arrays of cells filled by a function have unfilled elements (C105_array_fill_refuted); indices of another rank are not detected, or read as prefixes (C105_index_refuted); slicing with a full index is undefined behaviour (C105_slice_refuted); set-slice of a longer tensor overwrites the next slice (C105_set_slice_refuted); reshaped views of arrays of cells show padding (C105_reshape_refuted). |
| C106 | partial | Proved for programs without self-assignment and without assignment to views. Refuted: copying a padded array is undefined behaviour (C106_copy_refuted), converting one leaves elements unset (C106_convert_refuted), self-assignment and self-move-assignment (C106_self_assign_refuted, C106_self_move_refuted), assigning to a view leaks the new array (C106_view_assign_refuted). |
| C107 | partial | Proved for ordinary tensors. Refuted: == ignores the shape (C107_equal_refuted); on arrays of cells the in-place operations and == skip elements (C107_array_refuted, C107_array_equal_refuted). |
| C108 | partial | Proved for contracted sizes of at least one and left operands of rank two or more. Refuted: a vector on the left or an empty contraction is undefined behaviour in the general product (C108_add_matmul_refuted). |
| C109 | partial | Proved for real matrices except that the argument is kept: it is overwritten (C109_argument_kept_refuted gives when). For complex matrices the columns returned are not orthogonal (C109_complex_refuted). |
| C110 | partial | Both classes assert on an assignment to a default constructed tensor, so neither ever returns (C110_complement_refuted, C110_intersection_refuted; C110_complement_throws: an exception on every readable matrix). C110_complement_loop_partial: the loops of ComplementSpace are right if they are given storage. Nothing is proved about what IntersectionSpace would compute. |
| C111 | partial | Proved whenever no random vector is a combination of those before it; otherwise there is a division by 0 (C111_dependent_refuted). Exact real numbers, no rounding. |
| C112 | partial | Proved for symmetric conditions; for others only that no node is related to one of a later component, and C112_directed_refuted shows related nodes in different components. |
| C113 | partial | False in three cases, each stated as a refuted theorem: fewer than two of the three tensors with cells (nothing is computed), a target without cells for two factors with cells (nothing is added), and a grid that only the tensor in third place has (its first cell is used everywhere). Proved in all others. |
| C114 | proved | For targets with and without cells. The grid must not be the third tensor's only (C113). |
| C115 | proved | The division is any function; the law of quotients assumes a/b*b=a for nonzero b. |
| C116 | partial | add_mprod_back1 is wrong: it throws unless the matrices are square, and then computes another product (two refuted theorems). All the rest is proved. |
| C117 | proved | With the shape of the result and the element each index shows. |
| C118 | partial | Proved for strings whose letters are not x, where every letter of y is in x or r, with up to three letters of each kind, and where r has the sides and strides of x and y at the axes of contracted letters (so in full for products without contraction). Refuted otherwise: the loops of a contraction take sides and strides from r, letters only in y are not summed, the letter x marks a used character, more than three transferred letters do nothing, and a malformed string is not refused. |
| C119 | partial | Proved for strings whose letters are not x, where every letter of y is in x or r, with up to four transferred and three contracted or repeated letters, unless there are three contracted letters and x is conjugated. Refuted otherwise: in that case y's conjugate is inverted, letters only in y are not summed, five transferred letters do nothing, an empty part (a sum to a scalar) and a malformed string are undefined. |
| C120 | partial | Proved for row-major matrices and a vector of stride 1 (refusal of sizes that do not fit proved in general); refuted in other layouts, because strides are ignored (C120_layout_refuted). The inner products of columns are right in every layout but are put into r instead of added: refuted whenever the element of r was not 0. |
| C121 | partial | Quotients proved in every layout. The leaky rectifier is proved for row-major tensors and refuted in other layouts, because strides are ignored. Its gradient tests the sign of g and never reads x: proved where g and x have the same sign, refuted otherwise. Broadcasting adds x dims[d] times to the d-th slice along the first axis: proved for one slice along axis 0, refuted for two. |
| C122 | partial | Equal elements give equal hash codes: proved in every layout. Equal comparison gives equal codes: proved for row-major tensors; refuted in other layouts, where the comparison returns true without looking at the elements. |
| C123 | partial | Views of rank one to three proved for int, float and complex<float>, including writes. The flat view is proved for row-major tensors and refuted for other contiguous ones, whose elements come in the order of memory. The views of double tensors, which reinterpret doubles as floats, are not modelled. |
| C124 | partial | Refuted in two points: a copy or move of a mask has N0=M0=0 (C124_copy_refuted) and the mask of a matrix whose last row is zero has a smaller N0 (C124_matrix_size_refuted). Everything else is proved for all histories. |
| C125 | partial | Two axes: every layout. Three and four axes need trailing axes that can be fused and any number of axes needs strides proportional to row-major ones; without that the claim is refuted (C125_unfusable_refuted, C125_gaps_refuted: memory between rows is overwritten). Views with no axis besides the complex one are not covered. |
| C126 | partial | TensorAccessor is right in every layout. FixedTensorAccessor takes strides from its type without comparing them: C126_fixed shows it is right exactly when they agree with the view's on axes longer than 1. FixedTensorAccessor0 takes any vector (C126_fixed_scalar_refuted). The model's accessor has any number of axes; the code has up to six. |
| C127 | partial | The mapped shape and strides are proved to describe the diagonals for every map that names each axis once, and acceptance is characterised exactly (C127_accepts). Refuted without that: a map that names one axis twice and leaves another out passes the checks and describes elements outside the tensor (C127_repeated_axis_refuted). |
| C128 | partial | is_disjoint, covers(n), covers(n,x), select, unite and combined are proved, with rejection of axes that do not exist when assertions are compiled in. Refuted: is_contiguous is false for every non-empty set and undefined for the empty one (C128_contiguous_refuted); covers(n,x,y) ignores y (C128_covers3_refuted). |
| C129 | partial | Refuted as shipped: since is_contiguous is never true, every such constructor throws, or is undefined when the first set is empty, whenever its tests are compiled in (C129_group_view_refuted; always so for the real views, which test with CNINE_ASSRT). With the tests compiled out the element correspondence is proved for any number of groups in any order (C129_group_view_partial). The second array of the complex views is not modelled. |
| C130 | partial | Success is proved to mean one progression, and rearranged row-major layouts with all sides at least two are proved to be recognised. Refuted: with an axis of length one a single progression can be missed (C130_unit_axis_refuted); an empty shape is undefined behaviour and fusible always reads ordering[-1] (C130_empty_refuted). Strides are assumed positive and below INT_MAX. |
| C131 | partial | Proved for source strides t times those of a row-major layout. Refuted for other source layouts, whose strides do not decrease (C131_transposed_refuted). |
| C132 | partial | Proved for all checks with range checking compiled in. Refuted otherwise: without CNINE_RANGE_CHECKING the checks for separate indices accept everything (C132_unchecked_refuted). |
| C133 | partial | Proved for all histories over any number of maps. Refuted: clear forgets its objects without deleting them, assignment of a map to itself empties it, a copy files objects under their own key() instead of the key they were entered under, looking up an absent key makes it exist, and the move assignment of indexed_map does not return. Keys are integers, standing for any totally ordered KEY. |
| C134 | proved | All histories. clear and operator= do not compile (delete _map.second) and are left out; assert is taken to stop the call, as in a build without NDEBUG. Keys are integers, standing for any totally ordered KEY. |
| C135 | partial | All histories of both classes (also the ptr_arg_indexed_object_bank, which leaves stale look-up lists). Refuted: insert(key,arg,val) keeps an existing value. The overloads taking shared_ptr<const KEY>, and the default constructor of the bank, do not compile when used. |
| C136 | partial | Proved for slices, double slices and blocks at every rank, constructors of rank 4-6, and fusions of axes that follow each other. Refuted: fusing other layouts (C136_fuse_refuted), the rank 7 constructor (C136_seven_refuted), Ctensor6_view::slice5 (C136_complex_slice_refuted). |
| C137 | proved | At rank 4 and more. |
| C138 | partial | Proved for axes that are joined on both sides of the reduced one and at least two slices. Refuted: a single slice along axis 0 of a row-major view is doubled (C138_single_refuted); axes not joined (C138_case_refuted). |
| C139 | partial | Proved for a row-major argument and a view whose other axes are joined. Refuted for other layouts of the argument (C139_case_refuted). |
| C140 | partial | Proved for the classes with four to six axes. Refuted with seven axes (C140_seven_refuted). |
| C141 | proved | As stated. |
| C142 | proved | As stated. |
| C143 | partial | Refuted as stated (C143_subtract_refuted): the loop of subtract runs over the parts of x and subtracts x from itself. Proved for all packs: p.subtract(x) and x-y set x (y) to zero and leave p (the copy of x) as it was; the claim holds when both packs have the same parts. |
| C144 | proved | As stated. |
| C145 | proved | As stated. |
| C146 | partial | C146_values and C146_all_returned: any program over any number of pools without views, self-assignment or use of a moved-from pool runs, leaves the rows it means, and every array has one owner; nothing is leaked. Refuted: assigning or moving a pool to itself keeps the size and loses the rows; a pool moved from keeps its size and reading, pushing to or copying it is undefined; even an empty one with reserved room can be used again after a move construction but not after a move assignment. |
| C147 | partial | Sharing, independence of copies of views and of assigned views, and destruction of views are proved. Refuted: a row pushed through a view of a full pool frees the pool's array (the pool's rows and its destructor are then undefined, and the view's new array is never freed); with spare room rows pushed through the view and the pool overwrite each other; assigning a view back to its pool is undefined. |
| C148 | partial | Proved for every pool reachable by a program of pushes, copies, assignments and moves. Refuted for pools made from heads and lengths: the table gives each row its room, not its length. |
| C149 | partial | add(x) copies instead of adding as soon as one of the vectors is strided (C149_add_refuted: for all such vectors); proved for contiguous vectors, all matrices and all 3-tensors. A 3-tensor x larger than r is outside the domain: its sides are not checked. |
| C150 | partial | Products of matrices are proved for all sizes. The batched product rejects results that are not square (C150_batched_refuted), leaves the rows from the number of batches on unchanged (C150_batched_rows_refuted) and with more batches than rows runs into the next batch (C150_batched_many_refuted, a concrete case); it is right when there are as many batches as rows and columns. |
| C151 | partial | fuse01 of a matrix does not check that the rows follow each other (C151_fuse_refuted); everything else is proved. |
| C152 | proved | Allocation is the choice of an unused block; the leak in repeat0 (its cell is never freed) is outside the statement. |
| C153 | partial | complete, star, and cycle for n>=3 proved with edge counts. C153_cycle_refuted: cycle(1) is a self loop counted as no edge, cycle(2) has a single edge, cycle(n) for n<=0 joins n-1 and 0, which are not vertices. |
| C154 | partial | dense, the graph of a matrix, and the round trip proved. C154_upper_refuted: only the lower half of the matrix is read, so an asymmetric matrix loses its upper half. C154_outside_refuted: an edge to a vertex beyond the last is accepted by set, and dense() then writes outside the matrix. Edges of weight zero do not survive the round trip. |
| C155 | partial | C155_equality characterises operator== for all histories: besides sizes and edges it also compares which vertices were ever mentioned. C155_asking_refuted: neighbors(i) of an isolated vertex creates an empty row and makes the graph differ from an equal one. Without queries (C155_equality_sets) the claim holds. The iteration-order dependent hash is not covered. |
| C156 | partial | Proved when the places are distinct vertices, at least as many as H has vertices. C156_insert_short_refuted: a list shorter than an edge of H needs is read past its end. C156_insert_negative_refuted: negative places are accepted. |
| C157 | partial | Lists, tensors with at least one edge, and labels proved. C157_negative_refuted: only the largest entry of the tensor is checked, so negative numbers are accepted as ends. C157_labelled_constructor_refuted: the constructor that takes labels assigns them to an empty tensor and always fails. A tensor without edges is refused when n is 0. |
| C158 | partial | zeros, ones, sequential, raw tensors and conversion from and to Gtensor are proved for every shape with an axis. Refuted for vectors: C158_of_vector_refuted shows that a vector of n numbers becomes a tensor with n axes of side 0 (Gdims(int) is a list of zeros), and that nothing is made when ranges are checked. |
| C159 | partial | Proved for indices and one to four ints, both with and without range checking. Refuted: with range checking every access by five ints is refused (C159_five_refuted); an index with too few entries reads the element with zeros in the missing places (C159_short_index_refuted). |
| C160 | partial | Copies, moves, assignment from another tensor, set and set_zero are proved. Refuted: assigning a tensor to itself, by copy or by move, loses every element (C160_self_refuted); the host copy of an empty tensor does not equal its other copy (C160_empty_copy_refuted); without range checking set(x) of a smaller tensor reads past its end (C160_set_from_refuted). |
| C161 | partial | Proved for slices with at least one element, for any sequence. Refuted for slices without elements: the capacity divides by zero (C161_empty_slices_refuted). |
| C162 | partial | Proved for tensors that agree in all axes but the first. Tensors that do not agree are not refused: C162_overrun_refuted (memory overrun), C162_holes_refuted (elements without a value). |
| C163 | partial | Proved for tensors without spare room. Refuted after push_back_slice0: the tensor differs from its own copy and comparing it with itself reads unset cells (C163_spare_room_refuted). |
| C164 | partial | Proved for lists no longer than the row. Refuted without range checking: one entry too many is written into the next row (C164_set_row_spills_refuted). |
| C165 | partial | Refuted as stated: operator* default-constructs its result and never sets nblocks, mblocks, blockn, blockm, yet block(i,k) compares with them. Reading them is undefined; modelled as arbitrary integers un, um, ubn, ubm: the product is right if un and um happen to exceed every block row and column of it (C165_product), throws otherwise (C165_uninitialised_refuted), and the reported sizes are whatever the members held (C165_sizes_refuted). |
| C166 | proved | CPU side only; row_offsets as a list instead of a one-dimensional tensor. |
| C167 | partial | Proved except that the six-argument constructor writes past the end of a vector of five (C167_six_refuted) and a shape without axes is refused or, with asserts off, written out of bounds (C167_no_axes_refuted). |
| C168 | partial | Yes implies a gap-free layout for all positive strides; the converse is proved when all sides are at least 2 and refuted with a side of 1 (C168_side_one_refuted). memsize bounds every offset when the axes step over one another in some order (C168_memsize); it is too small for overlapping strides (C168_memsize_refuted) and 0 for a tensor without axes. |
| C169 | partial | Proved for sources in which every stride exceeds all distances covered by the later axes, which includes row-major ones; for column-major sources the result is wrong (C169_column_major_refuted, for all matrices with both sides at least 2), and a stride of zero divides by zero. |
| C170 | partial | Proved, except that removing the only axis leaves stride 1 (C170_remove_last_refuted) and negative positions are refused by the assert (C170_remove_negative_refuted); with asserts off they count from the end as documented. |
| C171 | partial | Proved; the contracted sides are not compared by the four product shapes (C171_unequal_refuted), and a tensor without axes makes the loop leave its vector (C171_no_axes_refuted). |
| C172 | proved | For positions beyond the end, std::copy leaves the list (C172_insert_outside_refuted). |
| C173 | partial | The entries are as stated; the last sentence is false: reading outside the list and max or min of an empty list are undefined (C173_outside_refuted, C173_empty_refuted). |
| C174 | proved | No restriction on the lists. |
| C175 | partial | Reading, setting and incrementing with an index in range touch exactly the element, for real and complex views, and indices out of range are refused; proved for every view. False parts, refuted in general: an index with too few entries is accepted and padded with zeros (C175_short_refuted); the four-index set of a complex view writes the element whose last index is 0 (C175_four_indices_refuted). |
| C176 | partial | slice0..slice3 advance by position times side where position times stride is meant. Proved right when the position is 0 or the side equals the stride; otherwise every element is misplaced (C176_slice_refuted, C176_matrix_row_refuted). slice01 and slice012 have the same error (C176_front gives both directions). Slices of a vector have a stride but no side (C176_vector_refuted). Refusals proved. |
| C177 | partial | fuse (axis counted from either end), fuse01, fuse12, fuse_all_but_last_two, view1..view6 proved. fuse23 multiplies side 2 by side 1 (refuted; right when they agree). matricize proved when the leading axes can be walked as one and the others are row-major; refuted for a last stride other than 1, and n=0 reads strides[-1]. flatten refuses every tensor that is not a vector when ranges are checked (refuted); unchecked it is right whenever the axes can be walked as one. |
| C178 | partial | as_real proved for every view with adjacent parts and refused otherwise. gtensor proved for row-major strides; for interleaved storage (strides twice the row-major ones) entry i is the element of rank i/2 (C178_interleaved_refuted), and a view without axes reads past the strides. |
| C179 | partial | Proved for vectors shorter than 1024 or of a multiple of 1024 above it, matrices whose last side is at most 1024 or a multiple of it, and rank three with the corresponding limits (cu_fits). Refuted for every other shape: a vector of exactly 1024 elements is not touched at all; above 1024 the part beyond the last multiple of 1024 is missed and the first elements get the statement twice; rank three with more than 64 and fewer than 128 elements in the last side, or a middle side above 65535, is not touched; rank 0 and rank 4 or more are not touched. |
| C180 | partial | Proved for two or more rows, rows one after the other (middle stride equal to the last side, last stride 1), and at most 2048 elements per block or a last side that is a multiple of 1024. Refuted otherwise: one row is doubled, rows longer than 1024 and not of a multiple of 1024 keep their ends unsummed, and the middle stride is not used at all. |
| C181 | partial | Proved for slices with last side below 1024 that fit one launch (gath_fits). Refuted: with a last side of 1024 or more no kernel is launched at all or the call is refused (C181_long_refuted, C181_1024_refuted); with a block of three thread axes and last side above 64 the launch is not valid and nothing happens (C181_thin_refuted); with five axes and two of them over blocks the kernel uses the source's last stride for the target (C181_stride_refuted). Rows with equal targets race and are not covered. Launch limits are assumptions as in C179. |
| C182 | partial | Proved for all layouts (unlike on the CPU, C94) and orders when the launch fits (C<=1024 columns; N0*N1<=65535 pixels in a batch) and, if both paddings come out as zero, the filter stays inside x. Refuted beyond: C182_large_refuted (nothing is added, no error), C182_outside_refuted (a filter larger by one than fits gives padding 0 and the kernel reads outside x). |
| C183 | partial | Proved for all layouts and orders when the launch fits (output channels times columns <=1024) and, if all paddings come out as zero, the filter stays inside x. Refuted beyond: C183_large_refuted (only a message or a failed launch; nothing is added). |
| C184 | partial | Row-major tensors of any rank between any devices; matrices of any strides from the card to the host when one launch covers them, also into rows with gaps between them; all assignments on the host; moves to the device a tensor is on. Refuted: host to card for matrices that are not row-major and for strided vectors (endless recursion), move_to_device of column-major matrices (elements change places). Not covered: tensors of rank 3 and more with other strides. |
| C185 | partial | Rows of adjacent elements, at least their length apart. Refuted: C185_repeated_refuted and C185_empty_refuted (program ends), C185_layout_refuted (nothing added), C185_stride_refuted (last strides ignored). cuBLAS itself is modelled after its documentation. |
| C186 | partial | add for all strides that are not negative, add_broadcast0 for adjacent elements, reduce() without negative elements. Refuted: C186_sum_refuted (absolute values), C186_times_refuted and C186_times_strided_refuted (vectors are multiplied by 1+c, strided ones not at all), C186_negative_refuted (with a negative stride other cells are read). |
| C187 | partial | Missing because false: strided vectors not a multiple of 1024 long, adjacent 3-tensors (set), 3-tensors of at most 1024 elements with last side over 64, 3-tensors in which every two sides have a product over 1024, add(x,c) of matrices; each has a _refuted theorem. |
| C188 | partial | sum0_into and avg0_into in full; sum1_into for last sides up to 1024, refuted beyond (nothing is launched). |
| C189 | partial | Refuted: both calls overwrite their target. Proved what they write, and that add_ReLU is right on a zero vector. Adjacent elements only, as the kernels ignore strides. |
| C190 | partial | Proved for regular matrices with two rows or more (reduce0, reduce0 into a vector), matrices stored by columns (reduce1), 3-tensors with regular slices and a middle side of two or more (at most 67107840 elements per slice when there are no gaps between the slices), and regular matrices and vectors (broadcast0), for every order of the updates in a launch. Refuted: a single row is doubled; for other layouts nothing is launched. |
| C191 | partial | Refuted: the library call multiplies column j of r by y(j) and never reads x, so r=0 stays 0 whatever x and y are. The theorem states what r becomes, for r and y stored without gaps; the rejection of wrong sizes is proved. |
| C192 | partial | Proved for operands stored by rows without gaps (in add_mix_1_0 gaps between the slices of x are allowed), with sides of at least 1 where the library requires a leading dimension of 1, for every order of the updates. Targets of another layout are rejected. Refuted: other layouts of x and y are read as if stored by rows without gaps, and add_matmul_AA does not compare the numbers of rows. |
| C193 | partial | Refuted: the call adds n0*n1 floats although the operands hold 2*n0*n1 (matrices) or 2*n0*n1*n2 (3-tensors), so at best the first half of r is increased. The theorems state what r becomes; the rejection of other sides and layouts is proved. |
| C194 | partial | Proved for operands stored without gaps, any sides with n,c>=1 and any order of the updates; targets whose rows have gaps are rejected. Refuted for gaps between the slices: the stride of the first axis is dropped, so the slices are taken to follow each other and memory outside the target changes (C194_gap_refuted, C194_outside_refuted). |
| C195 | partial | Proved for operands of any layout, any number of summed terms, and sides within the launch limits (last side at most 1024; for add_expand_2 also b,d<=65535, and at most 64 channels unless b*d*c>1024). Refuted outside: C195_contract_refuted, C195_expand_refuted show that nothing is computed and no error reaches the caller, e.g. for 65 channels in small tensors. |
| C196 | partial | Proved for 0_0_0, 0_1_0 and 1_q_0 without restriction on the sides that an int holds and a grid allows, for 2_q_0 when n1<=65535, for 3_1_0 when n1,n2<=65535 and n2<=64 or the result has more than 1024 elements (beyond these sides no launch is legal and nothing is computed: C196_2_refuted, C196_3_1_refuted). Refuted: 3_0_0 launches a row of n0*n1 threads for results of up to 1024 elements, so only elements (i,0,0) change and cells behind r are written (C196_3_0_refuted, C196_3_0_refuted_outside); 0_2_0 ignores the second stride of y and uses that of x (C196_0_2_refuted); 3_2_0 has no return after its launches, so the sum is added up to four times, and its kernel uses the last stride of x for y (C196_3_2_refuted). The _partial theorems give the shapes and strides for which these three are right. |
| C197 | partial | CPU. Proved for all layouts whose elements lie below the largest product of a side with its stride, in particular for axes that are nested in some order (dense tensors, their permutations, slices and blocks). Refuted otherwise: the elements (i,j) at 2i+3j with i<3, j<2 are distinct, but the new array has 6 cells and the last element is at 7 (C197_copy_refuted, C197_new_refuted). Views with stride 0 along a side above 1 (repeated elements) are not covered. |
| C198 | partial | Proved: with r on the host and on the card, add_mprod and add_mprod_AH add the product for every placement of x and y, provided operands on the other device are row-major (and, for r on the card, the rows of the matrices have unit inner stride); add_mvprod with r on the host; misfitting sides throw, in all three. Refuted: a host operand that is not row-major with r on the card makes the copy recurse without end; add_mvprod with r on the card computes nothing. |
| C199 | partial | Proved: for any mask and thread order the first c of the 2c cells of every row of r gain the sums of the mask, and nothing else changes; misfitting widths and layouts throw. Refuted: the kernel is told that a row has c cells, so the other half of each row (always including the imaginary part of the last column) gains nothing; matrices of more than 6144 columns are rejected. |
| C200 | proved | By refinement over all histories, for arbitrary hash functions; std::unordered_map is modelled as a table of buckets that may be enlarged at any insertion. |
| C201 | partial | Proved for every history that moves only vectors on the host: each live vector holds its own elements, no call is UB, nothing leaks. Refuted: the move constructor does not take over the device, so a vector moved on the graphics card believes itself on the host and its destruction is UB. The constructor with a fill value passes on its own device number before that is initialized: shown right if it happens to read 0 and UB if it reads 1. Devices are 0 and 1; allocation does not fail. |
