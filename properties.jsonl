{"id": "C01", "title": "Flat and multi-dimensional indices are inverse to each other", "statement": "For a tensor shape with positive sides, converting a flat position to a multi-index (Gindex(a,dims)) and back (Gindex::to_int) returns the same position, and converting an in-range multi-index to a flat position and back returns the same multi-index; the flat position of an in-range multi-index always lies in [0, number of elements).", "quantifier": "every shape of every rank with positive sides, every flat position in range, every in-range multi-index", "why_tests_cant": "the claim ranges over unboundedly many ranks, side lengths and positions; a test samples a few shapes", "anchors": ["include/Gindex.hpp: Gindex(const int a, const Gdims& dims), to_int", "include/Gdims.hpp: asize"]}
{"id": "C02", "title": "Index iteration visits every element exactly once in row-major order", "statement": "Iterating over a shape (Gdims::for_each_index) calls the callback once for every in-range multi-index, in lexicographic order and with no repetitions; a shape with no dimensions still denotes one element, so it should be visited once.", "quantifier": "every shape of every rank, including shapes with a zero side and the shape of rank zero", "why_tests_cant": "exhaustive enumeration is a statement about all ranks and sizes; an off-by-one may appear only at some rank", "anchors": ["include/Gdims.hpp: for_each_index, foreach_index"]}
{"id": "C03", "title": "A freshly allocated tensor gives distinct elements distinct cells inside its own buffer", "statement": "With the default (row-major) strides, two different in-range indices address two different cells, each address lies in [0, number of elements), and every cell in that range is the address of some index; the address equals the flat position of the index.", "quantifier": "every shape of every rank with non-negative sides, every pair of in-range indices", "why_tests_cant": "injectivity and surjectivity over all pairs of indices of all shapes cannot be enumerated", "anchors": ["include/GstridesB.hpp: GstridesB(const Gdims&), offs, operator()", "include/Gdims.hpp: asize", "include/Gindex.hpp: to_int"]}
{"id": "C04", "title": "A tensor reported contiguous really occupies one solid run of cells", "statement": "If a view with positive strides reports is_contiguous, its elements occupy exactly as many consecutive cells as it has elements, each exactly once; a view reported regular has exactly the row-major layout. This is what lets set, scale and reduction kernels run over the raw buffer. It should hold for every view, including broadcast views.", "quantifier": "every shape and every stride vector, including zero strides", "why_tests_cant": "requires reasoning about all stride vectors, most of which no test constructs", "anchors": ["include/GstridesB.hpp: is_regular, is_contiguous, memsize", "tensors/TensorView.hpp: is_contiguous, is_regular"]}
{"id": "C05", "title": "Shape algebra is consistent", "statement": "Concatenating shapes multiplies element counts; inserting a side and removing it again gives back the shape; removing then inserting the removed side gives back the shape; chunks of a shape concatenate to the shape; permuting and then inverse-permuting a shape is the identity.", "quantifier": "every shape, every valid position, every permutation", "why_tests_cant": "universally quantified algebraic laws over all ranks", "anchors": ["include/Gdims.hpp: cat, insert, remove, chunk, permute, asize", "include/gvectr.hpp: Gvec"]}
{"id": "C06", "title": "Packed storage of a symmetric matrix uses one cell per unordered pair", "statement": "The symmetric index maps (i,j) and (j,i) to the same cell, distinct unordered pairs to distinct cells, and covers exactly the cells 0..n(n+1)/2-1.", "quantifier": "every size n and every pair of indices below n", "why_tests_cant": "injectivity over all pairs of indices for all n", "anchors": ["include/GindexSymm.hpp: operator()(int,int)"]}
{"id": "C07", "title": "Transposed and permuted views show the same elements at permuted indices", "statement": "For a tensor x, x.transp()(i,j) is x(j,i), transp(a,b) swaps the two named indices, permute_indices(p) reads x at the permuted index, the view shares memory with x, and the shape is permuted accordingly; transposing twice gives back the same view.", "quantifier": "every shape, every stride vector, every permutation, every index", "why_tests_cant": "holds for arbitrary strides and ranks, including views of views", "anchors": ["tensors/TensorView_reshapes.inc: transp, permute_indices", "include/GstridesB.hpp: transp, permute", "include/Gdims.hpp: transp, permute"]}
{"id": "C08", "title": "Slices, row ranges and blocks are windows onto the parent", "statement": "slice(d,i), slices(d,i,n), rows(i,n), cols(i,n), row(i), col(i) and block(...) produce views whose element at index ix is the parent's element at the corresponding shifted or extended index, and whose in-range indices always map to in-range parent indices.", "quantifier": "every parent shape and strides, every slicing position, every index of the view", "why_tests_cant": "needs to hold for arbitrary ranks, strides and nested windows", "anchors": ["tensors/TensorView_subtensors.inc: slice, slices, rows, cols, row, col, block"]}
{"id": "C09", "title": "Reshaping views keep the element order", "statement": "reshape on a contiguous tensor, fuse of two stride-compatible neighbouring dimensions, split of a dimension, squeeze and unsqueeze enumerate the same elements in the same row-major order as the original.", "quantifier": "every shape, every stride vector meeting the stated compatibility condition, every split factorisation", "why_tests_cant": "order preservation is a statement about all flat positions of all shapes", "anchors": ["tensors/TensorView_reshapes.inc: reshape, fuse, split, squeeze0, unsqueeze, split0", "include/GstridesB.hpp: fuse"]}
{"id": "C10", "title": "Broadcast and diagonal views repeat or select exactly the right elements", "statement": "cinflate and broadcast views read the same parent element at every index along the inflated dimension; diag views read the parent's elements with equal indices.", "quantifier": "every shape, every stride vector, every inflated dimension, every index", "why_tests_cant": "statement about all ranks and strides", "anchors": ["tensors/TensorView_reshapes.inc: cinflate, insert_dim, diag"]}
{"id": "C11", "title": "No chain of view operations escapes the tensor's buffer", "statement": "Starting from a freshly allocated tensor, any finite sequence of valid transpose, permute, slice, window, diagonal, split, fuse and broadcast operations yields a view all of whose in-range elements lie inside the original allocation; unless a broadcast was applied, distinct indices still address distinct cells.", "quantifier": "every shape, every finite sequence of valid view operations of any length", "why_tests_cant": "quantifies over all operation sequences; testing can only try a few compositions", "anchors": ["tensors/TensorView_reshapes.inc", "tensors/TensorView_subtensors.inc", "include/GstridesB.hpp"]}
{"id": "C12", "title": "Bounds checking of blocks rejects every out-of-range request", "statement": "x.block(dims) and x.block(dims,offsets) either give a view lying entirely inside x or throw.", "quantifier": "every tensor shape, requested block shape and offset vector", "why_tests_cant": "the comparison used by the check is wrong only for particular mixtures of sides", "anchors": ["tensors/TensorView_subtensors.inc: block", "include/gvectr.hpp: operator<=", "include/Gdims.hpp"]}
{"id": "C13", "title": "In-place addition adds every element exactly once, whatever the layout", "statement": "r.add(x) with equal shapes and r's elements not aliased sets every element of r to its old value plus the matching element of x, touches no other memory and performs no out-of-bounds access, for every combination of strides and every internal dispatch path (rank 1,2,3, contiguous, dimension-merging, general).", "quantifier": "every shape, every pair of stride vectors, every memory content", "why_tests_cant": "the dimension-merging optimiser picks among many paths depending on strides; tests cover few stride patterns", "anchors": ["tensors/functions/TensorView_add.hpp: TensorView_add", "tensors/TensorView_cumulative_ops.inc: add", "include/Gdims.hpp: co_scrunch"]}
{"id": "C14", "title": "Assignment and copy reproduce every element, whatever the layout", "statement": "Assigning y to a tensor (operator=) with the same shape makes every element equal to y's and touches nothing else; copy() returns a tensor of the same shape and elements in fresh memory so that later writes to either do not affect the other.", "quantifier": "every shape, every pair of stride vectors, every memory content", "why_tests_cant": "same layout-dependent dispatch as addition", "anchors": ["tensors/functions/TensorView_assign.hpp", "tensors/TensorView.hpp: operator=, copy"]}
{"id": "C15", "title": "Scaled addition, subtraction and elementwise product are elementwise", "statement": "add(x,c), subtract(x) and add_prod(x,y) update each element by c*x, -x, x*y respectively, exactly once, and change nothing else.", "quantifier": "every shape, stride vector, scalar and memory content", "why_tests_cant": "all layouts, all ranks", "anchors": ["tensors/TensorView_cumulative_ops.inc: add(x,c), subtract, add_prod"]}
{"id": "C16", "title": "Summing out a dimension gives the sum of the slices", "statement": "add_sum(d,x) adds to every element of the result the sum over the d-th index of x.", "quantifier": "every shape, dimension d, stride vector and memory content", "why_tests_cant": "all ranks and layouts", "anchors": ["tensors/TensorView_cumulative_ops.inc: add_sum"]}
{"id": "C17", "title": "Matrix products are matrix products", "statement": "add_mprod(x,y) adds to each r(i,j) the sum over k of x(i,k) y(k,j); the matrix-vector product adds sum_k x(i,k) y(k); the transposed matrix-vector product is the adjoint of the plain one.", "quantifier": "every compatible shape and stride vector, every memory content", "why_tests_cant": "all sizes and layouts, and adjointness is a bilinear identity over all vectors", "anchors": ["tensors/TensorView_gen_ops.inc: add_mprod, add_mvprod, add_mvprod_T"]}
{"id": "C18", "title": "Whole-tensor operations act on exactly the tensor's elements for every view", "statement": "set_zero, inplace_times, set and the reductions (sum, max) applied to any view read and write precisely the elements of that view.", "quantifier": "every view reachable by the view operations, contiguous or not, broadcast or not", "why_tests_cant": "depends on layout tests that are wrong only for unusual strides", "anchors": ["tensors/TensorView_scalar_ops.inc", "tensors/TensorView.hpp: set_zero, inplace_times, sum"]}
{"id": "C19", "title": "Tensor equality compares elements", "statement": "x==y is true exactly when the two tensors have the same shape and the same elements, whatever their layouts.", "quantifier": "every pair of tensors of every layout", "why_tests_cant": "layout-dependent shortcut; the failing layouts are rarely compared in tests", "anchors": ["tensors/TensorView.hpp: operator=="]}
{"id": "C20", "title": "Stacking concatenates along the chosen dimension", "statement": "stack(d, list) produces a tensor whose d-th side is the sum of the d-th sides of the parts and whose elements are those of the parts in order.", "quantifier": "every list of tensors of compatible shapes, every dimension d", "why_tests_cant": "list length, ranks and offsets unbounded", "anchors": ["tensors/TensorView.hpp: stack"]}
{"id": "C21", "title": "Adding a tensor to itself through an overlapping view", "statement": "r.add(view of r) should give old r plus old view; this is needed for expressions such as A+=A^T.", "quantifier": "every square matrix content", "why_tests_cant": "the result depends on traversal order and on the values; symmetric test inputs hide it", "anchors": ["tensors/functions/TensorView_add.hpp", "tensors/TensorView_reshapes.inc: transp"]}
{"id": "C22", "title": "Live allocations of the pooled memory manager never overlap", "statement": "For any history of allocation and release requests, every live block lies inside the arena, is at least as large as requested, is suitably aligned, and no two live blocks overlap.", "quantifier": "every arena size, every finite sequence of malloc/free calls", "why_tests_cant": "history-dependent; fragmentation patterns are unbounded", "anchors": ["include/SimpleMemoryManager.hpp: malloc, free"]}
{"id": "C23", "title": "Released memory becomes available again", "statement": "Releasing a block never corrupts the manager, and after all blocks are released a request for the whole arena succeeds again.", "quantifier": "every history of requests and releases, including releasing the last block of the arena", "why_tests_cant": "the coalescing step misbehaves only for particular neighbours", "anchors": ["include/SimpleMemoryManager.hpp: free"]}
{"id": "C24", "title": "array_pool behaves as a list of integer lists", "statement": "After any sequence of push_back operations, size() is the number of pushed lists and element i is exactly the i-th pushed list, across all internal reallocations; concatenating pools concatenates the lists.", "quantifier": "every sequence of pushed lists of any lengths", "why_tests_cant": "history- and growth-dependent", "anchors": ["containers/array_pool.hpp: push_back, reserve, operator(), cat, size"]}
{"id": "C25", "title": "hlists keeps every head with its list", "statement": "After any sequence of push_back(head, list) the i-th head and i-th list are those pushed, and pushing single elements to pre-sized lists fills them in order and refuses overflow.", "quantifier": "every sequence of pushes", "why_tests_cant": "history-dependent", "anchors": ["containers/hlists.hpp: push_back, head, operator()"]}
{"id": "C26", "title": "map_of_lists and map_of_maps are faithful multimaps", "statement": "After any sequence of push_back(key,value) the list stored for a key is exactly the values pushed for that key in order; for map_of_maps the value at (i,j) is the last one written and absent pairs are reported absent.", "quantifier": "every sequence of operations", "why_tests_cant": "history-dependent", "anchors": ["containers/map_of_lists.hpp", "containers/map_of_maps.hpp"]}
{"id": "C27", "title": "bidirectional_map keeps its two directions mutually inverse", "statement": "After any sequence of insert and erase operations, backward(forward(k))=k and forward(backward(v))=v and the two sides have the same number of entries, including re-inserting an existing key with a new value.", "quantifier": "every sequence of insert/erase operations", "why_tests_cant": "history-dependent; the failing history needs a key or value reuse", "anchors": ["containers/bidirectional_map.hpp: insert, erase_forward, erase_backward"]}
{"id": "C28", "title": "double_indexed_map rows and columns agree", "statement": "After any sequence of writes, the value found by row then column equals the value found by column then row, is the last value written there, and enumeration by rows and by columns lists the same entries.", "quantifier": "every sequence of set operations", "why_tests_cant": "history-dependent", "anchors": ["containers/double_indexed_map.hpp: set, operator(), for_each"]}
{"id": "C29", "title": "Growing integer tables preserve their contents", "statement": "For a growable integer table (IntTensor) any sequence of push_back/reserve/resize leaves earlier rows unchanged, and two tables with the same rows compare equal.", "quantifier": "every sequence of pushes and reservations", "why_tests_cant": "capacity histories are unbounded", "anchors": ["tensors/IntTensor.hpp: push_back, reserve0, resize0, operator=="]}
{"id": "C30", "title": "multivec keeps columns aligned", "statement": "After any sequence of push_back of tuples, row i of a multivec is the i-th tuple pushed and all columns have equal length.", "quantifier": "every sequence of pushes", "why_tests_cant": "history-dependent", "anchors": ["containers/multivec.hpp"]}
{"id": "C31", "title": "Gathering rows adds exactly the listed rows", "statement": "GatherRows applied with a gather map adds to each target row the sum (with multiplicity) of its listed source rows, leaves all other rows unchanged, and never reads or writes outside the matrices when the map's indices are in range.", "quantifier": "every gather map, every number of columns, every matrix content", "why_tests_cant": "all maps and sizes", "anchors": ["hpc/GatherRows.hpp: operator()", "hpc/GatherMapB.hpp"]}
{"id": "C32", "title": "The inverse gather map is the adjoint", "statement": "inv() of a gather map contains the entry (source -> target) exactly as often as the map contains (target <- source), so gathering with the inverse is the transpose: <gather(m,x),y> = <x,gather(inv m,y)> for all x,y; taking the inverse twice gives the same multiset of entries.", "quantifier": "every gather map and all matrices x, y", "why_tests_cant": "bilinear identity over all data and maps", "anchors": ["hpc/GatherMapB.hpp: inv, make_inv"]}
{"id": "C33", "title": "Backward execution of a tensor program is the adjoint of forward execution", "statement": "For a tensor program made of gather instructions between variables, running inv() propagates gradients: the inner product of the final variables with any cotangent equals the inner product of the initial variables with the result of the inverse program.", "quantifier": "every program of any length over any number of variables, all inputs and cotangents", "why_tests_cant": "induction over program length and bilinearity over all data", "anchors": ["hpc/TensorProgram.hpp: operator(), inv", "hpc/TensorProgramHelpers.hpp: TensorProgramInstruction::inv"]}
{"id": "C34", "title": "Optimised (graded) gather maps give the same result", "statement": "Splitting a gather map into fixed-width parts (grade / FixedkGatherMap) and applying them gives the same matrix as the original map.", "quantifier": "every gather map and every matrix", "why_tests_cant": "depends on the distribution of list lengths; unbounded", "anchors": ["hpc/GatherMapB.hpp: grade", "hpc/FixedkGatherMap.hpp", "hpc/GatherRows.hpp"]}
{"id": "C35", "title": "A pack of gather maps acts block-diagonally", "statement": "Applying a GatherMapPack to stacked inputs equals applying each map to its own block of input rows and output rows.", "quantifier": "every list of maps and all data", "why_tests_cant": "offset arithmetic over lists of unbounded length", "anchors": ["hpc/GatherMapPack.hpp"]}
{"id": "C36", "title": "The inverse of a gather map is never stale", "statement": "After any interleaving of edits to a gather map and calls to inv(), inv() reflects the current contents of the map.", "quantifier": "every sequence of push_back/set/inv calls", "why_tests_cant": "history-dependent cache invalidation", "anchors": ["hpc/GatherMapB.hpp: inv, push_back, _inv"]}
{"id": "C37", "title": "Gathering slices of higher-rank tensors adds exactly the listed slices", "statement": "GatherSlices along dimension d adds to each target slice the sum of its listed source slices, for all tensors regardless of strides.", "quantifier": "every rank, stride vector, dimension and map", "why_tests_cant": "stride-dependent branches", "anchors": ["hpc/GatherSlices.hpp: operator(), naive"]}
{"id": "C38", "title": "Weighted gather maps apply their weights", "statement": "Building a weighted gather map from (source,target,weight) data and gathering with it adds weight times the source row to each target row; sorting the map does not change its weights.", "quantifier": "every list of weighted entries and all data", "why_tests_cant": "bit-level storage of floats in integer tables; failing cases depend on the weights", "anchors": ["hpc/WeightedGatherMapB.hpp", "hpc/GatherRows.hpp"]}
{"id": "C39", "title": "Observer and observed always know each other", "statement": "After any history of adding, removing and destroying observers and observables, an object is in an observer's list exactly when the observer is in the object's list, and no list mentions a destroyed party.", "quantifier": "every finite history of add/remove/destroy in any order", "why_tests_cant": "destruction orders are unbounded", "anchors": ["utility/observable.hpp: observable, observer"]}
{"id": "C40", "title": "Pointer-keyed caches never return an object computed for a dead key", "statement": "For any history of lookups, key destructions and address reuse, a cache keyed by object addresses (one, two, three or a list of keys) returns an object computed from the currently living key objects, and computes it at most once per lifetime of the keys.", "quantifier": "every finite history including destruction of keys and reuse of their addresses", "why_tests_cant": "address reuse depends on the allocator; histories unbounded", "anchors": ["containers/ptr_indexed_object_bank.hpp", "containers/ptr_pair_indexed_object_bank.hpp", "containers/ptr_triple_indexed_cache.hpp", "containers/plist_indexed_object_bank.hpp"]}
{"id": "C41", "title": "Memoised values are computed at most once and never change", "statement": "For object banks, once-values and cached functions, any sequence of lookups runs the generator at most once per key and always returns the same value for the same key.", "quantifier": "every sequence of lookups", "why_tests_cant": "history-dependent", "anchors": ["containers/object_bank.hpp", "utility/once.hpp", "wrappers/cachedf.hpp"]}
{"id": "C42", "title": "Parallel loops run every index exactly once, with bounded parallelism, before returning", "statement": "MultiLoop(n,f) calls f once for each index below n, never runs more than the configured number of threads at once, and returns only after all calls have finished.", "quantifier": "every n, every thread limit, every interleaving of the worker and main threads", "why_tests_cant": "interleavings cannot be enumerated by tests", "anchors": ["include/MultiLoop.hpp", "include/ThreadGroup.hpp: add, done"]}
{"id": "C43", "title": "Parallel loops always terminate", "statement": "If every body terminates then MultiLoop returns under every fair schedule.", "quantifier": "every interleaving", "why_tests_cant": "a lost wake-up needs a particular interleaving", "anchors": ["include/ThreadGroup.hpp: add, done, cv"]}
{"id": "C44", "title": "Cell-wise parallel traversal hands each callback its own cell", "statement": "for_each_cell_multi calls the callback with the batch and grid index and exactly the matching cells of its arguments, broadcasting arguments whose batch or grid is trivial, for every schedule of the worker threads.", "quantifier": "every batch size, grid shape, strides and interleaving", "why_tests_cant": "a data race is visible only under some schedules", "anchors": ["tensors/functions/ForEachCellMulti.hpp", "tensors/BatchedTensor.hpp: for_each_batch_multi"]}
{"id": "C45", "title": "The prime table lists exactly the primes", "statement": "After any sequence of lookups and extensions, the table contains all primes up to its limit, in ascending order and nothing else, and primes[i] is the (i+1)-st prime covered.", "quantifier": "every history of extension requests", "why_tests_cant": "unbounded limits and incremental histories", "anchors": ["math/Primes.hpp: extend, operator[]"]}
{"id": "C46", "title": "Prime-factored rationals compute exactly", "statement": "Converting a positive integer to factored form, multiplying and dividing factored rationals gives the exact rational number; the factored factorial of n has value n!; equality of factored forms is equality of numbers.", "quantifier": "every positive integer and every expression", "why_tests_cant": "unbounded integers and expression shapes", "anchors": ["math/frational.hpp", "math/FFactorial.hpp", "combinatorial/DeltaFactor.hpp"]}
{"id": "C47", "title": "Cached factorials are factorials", "statement": "Factorial of n returns n! as a machine integer for every n for which n! is representable, independently of earlier calls.", "quantifier": "every history of calls, every n", "why_tests_cant": "cache history and overflow boundary", "anchors": ["math/Factorial.hpp"]}
{"id": "C48", "title": "Modular numbers form the ring Z/n", "statement": "Arithmetic on cyclic numbers agrees with arithmetic modulo n, and two cyclic numbers that are congruent compare equal.", "quantifier": "every modulus and all values", "why_tests_cant": "truncated remainder differs from mathematical mod only for negative intermediate results", "anchors": ["math/cyclic.hpp"]}
{"id": "C49", "title": "Permutations form a group", "statement": "For valid permutations the product is composition, the inverse composes to the identity on both sides, is_valid recognises exactly the bijections, and the in-place product agrees with the product.", "quantifier": "every n and every pair of permutations of n", "why_tests_cant": "n! many inputs for every n", "anchors": ["combinatorial/cpermutation.hpp: operator*, operator*=, inverse, is_valid"]}
{"id": "C50", "title": "ordering() returns a stable sorting permutation", "statement": "The ordering of a sequence is a permutation that arranges it in non-decreasing order, with ties kept in original order; reverse ordering likewise in non-increasing order.", "quantifier": "every sequence of every length", "why_tests_cant": "all inputs and tie patterns", "anchors": ["combinatorial/cpermutation.hpp: ordering, reverse_ordering"]}
{"id": "C51", "title": "Combination enumeration lists every subset once", "statement": "Enumerating the m-element combinations of n visits every increasing sequence of m numbers below n exactly once in lexicographic order.", "quantifier": "every n and m", "why_tests_cant": "binomially many outputs for all n,m", "anchors": ["combinatorial/CombinationsB.hpp: for_each"]}
{"id": "C52", "title": "Combination counts and ranks are consistent", "statement": "The number of combinations reported for (n,m) is the binomial coefficient and the i-th combination by index is the i-th one enumerated.", "quantifier": "every n, m and index", "why_tests_cant": "recursive counting; wrong only from a certain m on", "anchors": ["combinatorial/CombinationsBank.hpp: get", "combinatorial/CombinationsB.hpp: operator[], index"]}
{"id": "C53", "title": "Labelled trees store exactly the paths added", "statement": "After adding any collection of rooted paths, a path is reported contained exactly when it is a prefix of an added path; maximal paths listed are exactly the maximal ones, each once.", "quantifier": "every collection of paths in any order", "why_tests_cant": "all tree shapes", "anchors": ["combinatorial/labeled_tree.hpp: add_rooted_path, contains_rooted_path, for_each_maximal_path"]}
{"id": "C54", "title": "Tree serialisation preserves structure", "statement": "Storing a labelled tree as a flat integer tree and traversing it gives the same depth-first sequence of (label, parent) as traversing the original.", "quantifier": "every tree", "why_tests_cant": "all tree shapes and sizes", "anchors": ["combinatorial/int_tree.hpp", "combinatorial/labeled_tree.hpp: as_int_tree"]}
{"id": "C55", "title": "Prefix trees recognise exactly the prefixes of inserted words", "statement": "After any sequence of add_path, find succeeds exactly on prefixes of added words and the enumeration of maximal paths lists each word that is not a proper prefix of another exactly once.", "quantifier": "every sequence of insertions", "why_tests_cant": "all insertion histories", "anchors": ["combinatorial/PrefixTree.hpp: add_path, find, for_each_maximal_path"]}
{"id": "C56", "title": "Sparse graphs are symmetric and list each edge once", "statement": "After any sequence of edge insertions the neighbour relation is symmetric, the label read for (i,j) is the last one set for that pair, and edge enumeration visits every undirected edge exactly once.", "quantifier": "every sequence of insertions", "why_tests_cant": "history-dependent", "anchors": ["combinatorial/sparse_graph.hpp: set, for_each_edge"]}
{"id": "C57", "title": "Flattening a graph to an integer pool preserves it", "statement": "Converting a graph to an int_pool and reading it back gives the same graph and never writes outside the allocated pool.", "quantifier": "every graph, with or without self loops", "why_tests_cant": "size arithmetic wrong only for certain numbers of self loops", "anchors": ["combinatorial/sparse_graph.hpp: as_int_pool"]}
{"id": "C58", "title": "The greedy spanning tree spans the connected component", "statement": "The spanning tree grown from a root contains every vertex reachable from the root exactly once and every tree link is an edge of the graph.", "quantifier": "every graph and root", "why_tests_cant": "all graphs", "anchors": ["combinatorial/sparse_graph.hpp: greedy_spanning_tree"]}
{"id": "C59", "title": "Planted subgraph search finds exactly the induced copies", "statement": "For a connected pattern H, the search in G returns every vertex set of G that carries an induced, label-preserving copy of H, each set once, and nothing else.", "quantifier": "every pattern graph and every host graph", "why_tests_cant": "exponentially many graphs; completeness cannot be tested exhaustively", "anchors": ["combinatorial/FindPlantedSubgraphs.hpp: FindPlantedSubgraphs, make_recursive"]}
{"id": "C60", "title": "Compressed sparse matrices round-trip with dense ones and transpose correctly", "statement": "Converting a dense matrix to CSR and back is the identity; the CSR transpose represents the transposed matrix; transposing twice gives back the same matrix.", "quantifier": "every matrix", "why_tests_cant": "all sizes and sparsity patterns", "anchors": ["matrices/CSRmatrix.hpp: CSRmatrix(TensorView), operator TensorView, transp"]}
{"id": "C61", "title": "Element access of a compressed sparse matrix returns that element", "statement": "A(i,j) returns the stored value at (i,j) or zero if none is stored.", "quantifier": "every matrix and every in-range (i,j)", "why_tests_cant": "reads past the row only when the element is absent", "anchors": ["matrices/CSRmatrix.hpp: operator()(i,j)"]}
{"id": "C62", "title": "Map-based sparse matrices have last-write semantics", "statement": "After any sequence of set operations, reading (i,j) returns the last value written or zero; transposing swaps indices; equality means equal entries; list and dense conversions preserve entries.", "quantifier": "every sequence of writes", "why_tests_cant": "history-dependent", "anchors": ["matrices/SparseRmatrix.hpp"]}
{"id": "C63", "title": "Block sparse matrices act as the sum of their blocks", "statement": "Applying a block sparse matrix to a vector adds each block times the matching segment, and apply_transp is the adjoint of apply.", "quantifier": "every mask, block shape and data", "why_tests_cant": "all masks and sizes; bilinear identity", "anchors": ["matrices/BlockCsparseMatrix.hpp: apply_to, apply_transp_to"]}
{"id": "C64", "title": "Sparse index tables map each filled block to its own storage", "statement": "The index table of a sparse tensor maps each listed pair to a distinct storage offset and reports unlisted pairs as absent.", "quantifier": "every list of filled pairs", "why_tests_cant": "duplicates and absent pairs in all combinations", "anchors": ["sparse/SparseIndexer2.hpp", "sparse/SparseTensorView.hpp"]}
{"id": "C65", "title": "Einsum strings are parsed into exactly the right index classes", "statement": "Parsing an einsum string assigns every letter position of every operand to exactly one class: transfer if the letter occurs in an input and the output, summation if only in an input, broadcast if only in the output, contraction if in both inputs but not the output; position lists are complete.", "quantifier": "every well-formed einsum string of any length", "why_tests_cant": "all strings", "anchors": ["tensors/functions/EinsumForm1.hpp", "tensors/functions/EinsumForm2.hpp"]}
{"id": "C66", "title": "One-operand einsum computes the einsum", "statement": "The evaluated result adds to each output element the sum over all assignments of summation letters of the input element selected by the letters.", "quantifier": "every einsum string, every shape, stride and data", "why_tests_cant": "all strings and shapes; wrong only with enough distinct letters", "anchors": ["tensors/functions/Einsum1.hpp"]}
{"id": "C67", "title": "Two-operand einsum computes the einsum", "statement": "The evaluated result adds to each output element the sum over contracted and summed letters of the product of the selected elements.", "quantifier": "every einsum string, shapes, strides and data", "why_tests_cant": "all strings and shapes", "anchors": ["tensors/functions/Einsum2.hpp"]}
{"id": "C68", "title": "One-dimensional convolution is zero-padded correlation", "statement": "Convolve1D adds (or sets) r(i)=sum_j x(i+j-pad) w(j) with x taken as zero outside its range, never reading outside x, for single, multi-channel and batched input.", "quantifier": "every length, kernel width, padding, channel count and data", "why_tests_cant": "boundary arithmetic over all sizes and paddings", "anchors": ["hpc/Convolve1D.hpp"]}
{"id": "C69", "title": "Convolution gradients are adjoint to the convolution", "statement": "The input-gradient and kernel-gradient of a convolution are the adjoints of the forward map with respect to the input and the kernel.", "quantifier": "every size, padding and data", "why_tests_cant": "bilinear identity; wrong only for some parities of sizes", "anchors": ["hpc/Convolve1D.hpp: back0, back1", "tensors/functions/Einsum2.hpp"]}
{"id": "C70", "title": "Structured text values survive storage and retrieval", "statement": "For the JSON-like store, values written as strings, integers, non-empty vectors and vectors of vectors are read back unchanged, and printing then parsing a dictionary gives the same dictionary.", "quantifier": "every value and every dictionary", "why_tests_cant": "all strings", "anchors": ["utility/JSONlike.hpp"]}
{"id": "C71", "title": "Batch and grid sizes are reconciled symmetrically", "statement": "Combining batched tensors succeeds exactly when all batch sizes other than one agree, returning that size, and likewise for grid shapes; the outcome does not depend on argument order.", "quantifier": "all batch sizes and grid shapes of two, three or four tensors", "why_tests_cant": "combinations of sizes unbounded", "anchors": ["tensors/BGtensor_reconcilers.hpp: dominant_batch, dominant_gdims, dominant_cdims"]}
{"id": "C72", "title": "Sorting rows uniquely returns the set of rows in order", "statement": "SortRowsUnique returns every distinct row of a matrix once, in lexicographic order.", "quantifier": "every matrix", "why_tests_cant": "all matrices", "anchors": ["algorithms/SortRowsUnique.hpp"]}
{"id": "C73", "title": "Determinants of 3x3 matrices", "statement": "The 3x3 determinant is multilinear and alternating with determinant of the identity equal to one, i.e. equals the Leibniz sum.", "quantifier": "all matrices over any commutative ring", "why_tests_cant": "polynomial identity in nine variables", "anchors": ["math/Determinant.hpp: determinant"]}
{"id": "C74", "title": "Named permutation constructors return permutations", "statement": "The identity, transposition, random and contiguous-cycle constructors return valid permutations of the requested size; the transposition exchanges exactly its two arguments and fixes the rest.", "quantifier": "every size, every pair of positions, every sequence of random draws", "why_tests_cant": "all sizes and all random outcomes", "anchors": ["combinatorial/permutation.hpp: Identity, transposition, random, contiguous_cycle"]}
{"id": "C75", "title": "Self-growing arrays never lose a stored value", "statement": "After any sequence of stores, resizes and reads on a growing array, reading a position returns the last value stored there; a copy of the array has the same contents.", "quantifier": "every sequence of operations and every index", "why_tests_cant": "reallocation happens at unpredictable points of long histories", "anchors": ["containers/auto_array.hpp: set, get, resize, reserve, copy constructor"]}
{"id": "C76", "title": "Looking for a rooted path with a given set of labels", "statement": "A labelled tree reports a rooted path consisting of the given labels exactly when some path from the root visits each given label once and no other label.", "quantifier": "every tree built by additions and every collection of labels", "why_tests_cant": "backtracking search over all subsets and trees", "anchors": ["combinatorial/labeled_tree.hpp: contains_rooted_path_consisting_of"]}
{"id": "C77", "title": "Einsum gradients are the gradients of the einsum", "statement": "For every einsum string the backward functions add to the gradient of each operand exactly the derivative of the einsum: for every element of the operand the sum over all assignments of the other letters of the incoming gradient times the other operand's element, including convolved letters; nothing else changes.", "quantifier": "every einsum string, shapes, strides and data", "why_tests_cant": "the space of letter patterns times shapes times strides is unbounded", "anchors": ["tensors/functions/Einsum1.hpp: add_einsum_back", "tensors/functions/Einsum2.hpp: add_einsum_back0, add_einsum_back1, make_params_back0, make_params_back1"]}
{"id": "C78", "title": "Two-dimensional convolution is zero-padded correlation", "statement": "Convolving an image with a filter gives at each pixel the sum over the filter of the products with the zero-padded image, with the padding that centres the filter along each axis; with channels the correlations are summed over input channels and added to the result, with columns and with a batch dimension the same holds for every column and every image of the batch; the value-returning form gives a new tensor of the requested size holding exactly these values. Nothing outside the result changes.", "quantifier": "every size, filter size, padding, number of channels, columns and batches, every stride pattern and all data", "why_tests_cant": "boundary windows depend on four sizes and the position along both axes; batches and strides multiply the cases", "anchors": ["hpc/Convolve2D.hpp: Convolve2D, convolve2d"]}
{"id": "C79", "title": "Gradients of two-dimensional convolution are its adjoints", "statement": "The two backward functions add to the gradient of the input and to that of the filter exactly the adjoint of the correlation applied to the gradient of the result, for one or several channels, columns and batches.", "quantifier": "every size, filter size, number of channels, columns and batches, every stride pattern and all data", "why_tests_cant": "an off-by-one in the reversed filter shows only for some parities of the sizes along each axis", "anchors": ["hpc/Convolve2D.hpp: Convolve2D_back0, Convolve2D_back1"]}
{"id": "C80", "title": "Arithmetic operators on tensors return new tensors with the right elements", "statement": "For tensors x, y of equal shape and a scalar c, x+y, x-y, -x, x*c, c*x, x.times(c), x+c, c+x, x-c, c-x and x.odot(y) return a new tensor of the shape of x whose element at each index is the corresponding combination of the operands' elements; x*y for a p-by-n and an n-by-q matrix returns the p-by-q matrix product, and x.sum(d) the sums over dimension d. The operands and all other memory are unchanged.", "quantifier": "all well-formed operands (any strides), shapes, scalars, memories and element rings", "why_tests_cant": "The operands may be views with arbitrary strides and sizes, and the result must be right at every index; the rank-0 cases and the matrix-vector case fail silently or read out of bounds, which tests on ordinary matrices never exercise.", "anchors": ["tensors/TensorView_functions.hpp:28-116", "tensors/TensorView_gen_ops.inc:19-40"]}
{"id": "C81", "title": "Kronecker product and direct sum", "statement": "kron(x,y) of two tensors of equal rank has sides d_i*e_i and its element at index k is x(k div e)*y(k mod e), taken side by side; add_tprod adds that product to an existing tensor; oplus(x,y) has sides d_i+e_i, holds x in the low corner, y in the high corner and zeros elsewhere. Nothing else changes.", "quantifier": "all pairs of well-formed tensors of equal rank, any strides, any memory, any element ring", "why_tests_cant": "The index arithmetic must be right for every combination of sides and every position, including empty sides; ranks above three silently give zeros.", "anchors": ["tensors/TensorView_functions.hpp:131-146", "tensors/TensorView.hpp:594-630", "include/Gdims.hpp:509-515"]}
{"id": "C82", "title": "Initialising constructors and map fill every element", "statement": "A tensor built as constant, ones, sequential, identity, unit vector, scalar, from a list or from a list of rows has the stated shape and the stated value at every index; a non-square identity is refused; x.map(f) has at every index f applied to the index and the element of x. No other memory changes.", "quantifier": "all shapes, values, lists of rows, functions and memories", "why_tests_cant": "The claim covers every shape and every index; rows of unequal length write outside the block or into the next row without being noticed.", "anchors": ["tensors/TensorView_constructors.hpp:54-246", "tensors/TensorView.hpp:144-198", "tensors/TensorView_lambdas.inc:351-357"]}
{"id": "C83", "title": "for_each and zip visit each element once in row-major order", "statement": "for_each calls the function on every element exactly once in row-major order of the indices; zip does so on the elements with equal index of two or three tensors of equal shape and refuses different shapes.", "quantifier": "all shapes of all ranks, all strides, all functions with any state, including ones that stop with an error", "why_tests_cant": "The function is arbitrary and may write through the references it gets, the number of dimensions is unbounded, and different code runs for ranks one to five and above; rank zero visits nothing.", "anchors": ["tensors/TensorView_lambdas.inc:18-103", "tensors/TensorView_lambdas.inc:125-348"]}
{"id": "C84", "title": "Least element, greatest magnitude and squared distance", "statement": "min() returns an element no greater than any other, max_abs() the greatest absolute value of an element, and x.diff2(y) the sum over all indices of the squared difference of the elements of two tensors of equal shape.", "quantifier": "all non-empty well-formed tensors with non-negative strides (min, max_abs), all pairs of tensors of equal shape (diff2)", "why_tests_cant": "The value depends on all elements in an order that depends on the strides, for every shape; the free function min returns the maximum, which a test on a constant tensor does not show.", "anchors": ["tensors/TensorView_scalar_ops.inc:28-53", "tensors/TensorView_scalar_ops.inc:156-179", "tensors/TensorView_functions.hpp:152-165"]}
{"id": "C85", "title": "Filling, copying and accumulating into fixed-rank real views", "statement": "For a vector, matrix or 3-tensor view r whose elements lie in distinct cells: set(v) makes every element v; set(x) and operator= make every element of r the element of x at the same index; add(x), add(v) and add(x,c) increase every element by x, v and c*x. add_ReLU(x,alpha) adds the leaky ReLU of x and add_ReLU_back(g,x,alpha) adds g scaled by its slope at x. All this holds for every pair of strides, whether or not the flat loop for regular views is taken, and no cell outside r changes. Vectors or matrices of different sizes are rejected before anything is written; a smaller 3-tensor only affects the corner of r it covers.", "quantifier": "all views r and x of rank 1, 2 or 3 (any sides and strides, distinct cells in r, x equal to r or not overlapping it at other indices), all memories in which both are allocated, all scalars in any commutative ring", "why_tests_cant": "Whether the flat or the strided loop runs depends on both views' strides; the cases where a branch forgets the scalar or uses the other view's stride only show for particular stride combinations.", "anchors": ["tensor_views/Rtensor1_view.hpp:91-99", "tensor_views/Rtensor1_view.hpp:155-259", "tensor_views/Rtensor2_view.hpp:156-214", "tensor_views/Rtensor3_view.hpp:122-165"]}
{"id": "C86", "title": "Products of fixed-rank real views", "statement": "add_matmul_AA, add_matmul_AT and add_matmul_TA increase every element of r by the matching element of x*y, x*transpose(y) and transpose(x)*y; add_mprod increases r by x*y whatever the layout of the three matrices; add_mprod_to increases a vector by a matrix times a vector; add_outer increases a matrix by x_i*y_j; the batched add_mprod multiplies the same matrix x with every matrix of the batch y. No cell outside r changes.", "quantifier": "all matrices, vectors and batches with matching sides (including 0), any strides, r with distinct cells and disjoint from the arguments", "why_tests_cant": "Shapes and layouts are unbounded; a product that silently does nothing for one combination of layouts passes every test with another combination.", "anchors": ["tensor_views/Rtensor2_view.hpp:220-349", "tensor_views/Rtensor3_view.hpp:172-203"]}
{"id": "C87", "title": "Sums and destructive reductions of fixed-rank real views", "statement": "sum() returns the sum of all elements; sum0_into, sum1_into, sum2_into and sum01_into (and the avg forms) increase r by the sums (averages) along the named axes. reduce0_destructively, reduce1_destructively and reduce2_destructively leave the sum along the axis in the first slice and change nothing outside the tensor; the _into forms add that sum to r.", "quantifier": "all matrices and 3-tensors with at least one slice along the reduced axis, any strides with distinct cells", "why_tests_cant": "The pairwise halving of reduce0_destructively takes a different number of rounds for every number of rows; correctness for all row counts needs an invariant over the halving, and single-row matrices behave differently.", "anchors": ["tensor_views/Rtensor1_view.hpp:140-145", "tensor_views/Rtensor2_view.hpp:355-479", "tensor_views/Rtensor3_view.hpp:240-395"]}
{"id": "C88", "title": "Broadcasting into fixed-rank real views", "statement": "broadcast0(x) and broadcast1(x) make every row (column) of a matrix equal to x; broadcast0, broadcast1 and broadcast2 of a 3-tensor make every slice along the axis equal to the matrix x; add_broadcast0(x,alpha) increases every row by alpha*x. No cell outside the target changes.", "quantifier": "all matrices and 3-tensors of any sides (including 0), any strides of target and source, disjoint in memory", "why_tests_cant": "broadcast0 of a regular matrix copies by doubling the filled part, so that each row count takes a different sequence of copies; degenerate sides and strided sources reach code that tests on ordinary tensors do not.", "anchors": ["tensor_views/Rtensor2_view.hpp:485-553", "tensor_views/Rtensor3_view.hpp:401-418"]}
{"id": "C89", "title": "Sub-views of fixed-rank real views", "statement": "block, rows, cols, slice0/1/2, transp, transp01, diag, diag01/02/12, fuse01, fuse12, split0, split1 and repeat0/1/2 return views whose element at every index is the element of the original at the documented index, and lie inside the original.", "quantifier": "all views of rank 1, 2 or 3 with any sides and strides, all admissible block bounds and slice numbers", "why_tests_cant": "Every stride combination gives a different address computation; a formula that is right for contiguous views only passes all tests on contiguous views.", "anchors": ["tensor_views/Rtensor1_view.hpp:147-149", "tensor_views/Rtensor2_view.hpp:139-150", "tensor_views/Rtensor2_view.hpp:559-596", "tensor_views/Rtensor3_view.hpp:424-523"]}
{"id": "C90", "title": "Rotating and scaling slices", "statement": "GivensSomeSlices applied with a list of (p,q,a,b) replaces slices p and q of a tensor by a*x_p+b*x_q and a*x_q-b*x_p, one after the other; with a*a+b*b=1 the sum of squares along the first axis is unchanged. ScaleSomeSlices multiplies the listed slices by their factors. Other slices and other memory do not change.", "quantifier": "all matrices and 3-tensors with distinct cells, all lists of operations of any length with valid distinct slice numbers", "why_tests_cant": "The lists are unbounded and operations may share slices, so their order matters; a sign error in one rank leaves norms unchanged and is invisible to norm-based tests.", "anchors": ["tensor_views/functions/GivensSomeSlicesFn.hpp:33-87", "tensor_views/functions/ScaleSomeSlicesFn.hpp:31-69"]}
{"id": "C91", "title": "Addition and assignment of fixed-rank complex views", "statement": "Reading, setting or increasing one element of a complex view touches exactly the real and imaginary cell of that element. add(x), add(x,c) and assignment between complex views of equal shape add (or copy) x, or c times x, element by element, for rank 1 to 3, and leave all other memory alone; arguments of a different shape are refused.", "quantifier": "all complex views of rank 1 to 3 with any sides, strides and offset between real and imaginary parts, x equal to, disjoint from or cell-aligned with the result", "why_tests_cant": "Strides and the real/imaginary offset are independent integers; the contiguous fast path and the strided path run different code, and interleaved, split and transposed layouts all have to agree.", "anchors": ["tensor_views/Ctensor1_view.hpp:71-114", "tensor_views/Ctensor2_view.hpp:110-152", "tensor_views/Ctensor3_view.hpp:111-166"]}
{"id": "C92", "title": "Products of fixed-rank complex views", "statement": "add_matmul_AA, _AH, _HA and _NA increase the matrix r by x*y, x*y^H, x^H*y and (real x)*y; add_mix_1_0, add_mix_1_H, add_mix_2_0, add_mix_2_H of rank 3 and add_mix_1_0, add_mix_1_H, add_mix_3_0, add_mix_3_H of rank 4 increase r by the product of x with the matrix y (or y^H) along the named axis; add_contract_aib_aib_ab, add_contract_abic_bic_abc and add_expand_2 increase r by the named contraction or expansion. Sides that do not fit are refused and memory outside r does not change.", "quantifier": "all complex views with disjoint operands, any sides (including empty sums) and strides", "why_tests_cant": "The number of summands is unbounded and sign errors in the imaginary part vanish for real or symmetric inputs; views with gaps behave differently from contiguous ones.", "anchors": ["tensor_views/Ctensor2_view.hpp:158-295", "tensor_views/Ctensor3_view.hpp:170-274", "tensor_views/Ctensor4_view.hpp:125-166", "tensor_views/BasicCtensorProducts.hpp:54-129"]}
{"id": "C93", "title": "Sub-views of fixed-rank complex views", "statement": "Slices, transposes, flips, fused and split views, unsqueezed views and real views of complex views have the documented shape and show, at every index, the complex element of the original at the documented index; all their elements lie inside the original.", "quantifier": "all complex views of rank 1 to 4 with any sides, strides and real/imaginary offset, all slice numbers and tile sizes", "why_tests_cant": "Every stride combination gives a different address; a stride taken from the wrong axis is invisible on square or single-row inputs.", "anchors": ["tensor_views/Ctensor2_view.hpp:329-392", "tensor_views/Ctensor3_view.hpp:102-105", "tensor_views/Ctensor3_view.hpp:280-355", "tensor_views/Ctensor4_view.hpp:172-218"]}
{"id": "C94", "title": "Two-dimensional convolution of fixed-rank real views", "statement": "RtensorConvolve2d increases the result by the cross-correlation of the input (with zeros around it) with the filter of each output channel, summed over the input channels, for each extra column, block and batch; convolve2D returns a new tensor holding it for the padding it is given. Nothing else changes.", "quantifier": "every size, filter size, padding, number of channels, columns, blocks and batches, every stride pattern and all data", "why_tests_cant": "whether the row of taps is read as one run depends on the sizes and the padding, and the matrix product inside depends on the strides: tests on contiguous data see one path", "anchors": ["tensor_views/functions/RtensorConvolve2d.hpp:34-216"]}
{"id": "C95", "title": "Two- and three-dimensional convolution with sparse filters", "statement": "RtensorConvolve2dSparse and RtensorConvolve3dSparse increase the result by the cross-correlation with the filter whose taps are the rows of the sparse matrix, for each column, block and batch; the convolve2D and convolve3D taking a sparse filter return it in a new tensor and refuse a filter of the wrong width. A filter converted from a dense matrix gives the dense convolution.", "quantifier": "every size, filter size, padding, number of channels, columns, blocks and batches, every stride pattern, every set of stored taps in any order, with repetitions", "why_tests_cant": "the position of a tap is recovered from its column by divisions, which can be wrong for some shapes only; the number of shapes is unbounded", "anchors": ["tensor_views/functions/RtensorConvolve2dSparse.hpp:32-173", "tensor_views/functions/RtensorConvolve3dSparse.hpp:37-163"]}
{"id": "C96", "title": "Three-dimensional convolution of fixed-rank real views", "statement": "RtensorConvolve3d increases the result by the three-dimensional cross-correlation of the zero-padded input with the filter of each output channel, for each column and batch; convolve3D returns a new tensor holding it. Nothing else changes.", "quantifier": "every size, box-shaped filter, padding, number of channels, columns and batches, every stride pattern and all data", "why_tests_cant": "tests use cubic filters, for which a loop over the wrong axis cannot be seen", "anchors": ["tensor_views/functions/RtensorConvolve3d.hpp:35-173"]}
{"id": "C97", "title": "The input gradient of three-dimensional convolution", "statement": "RtensorConvolve3d_back0 adds to the gradient of the input the transpose of the convolution applied to the gradient of the result: against every input it gives what the gradient of the result gives against the convolution of that input.", "quantifier": "every size, filter, padding, number of channels, columns and batches, every stride pattern and all data", "why_tests_cant": "a shift by one in the reversed filter shows only for some parities of the sizes", "anchors": ["tensor_views/functions/RtensorConvolve3d_back0.hpp:26-53"]}
{"id": "C98", "title": "Reading Einstein sums of several tensors", "statement": "EinsumForm reads an expression such as i(row)j,j(row)->i: it numbers the labels without repetition, records for the result and every tensor which label stands at which axis (so that unpacking gives the axes back), and sorts the labels: those of two or more tensors but not of the result are contracted, those of one tensor are summed or broadcast, those of the result and others are transferred (with their position in each), and two-letter labels starting with c in the result and two tensors are convolved. A convolved label in another number of tensors, a missing arrow or an open parenthesis raises an exception. Tuples of indices are totally ordered.", "quantifier": "every expression: any number of tensors, any number of axes, repeated labels, labels of any length in parentheses", "why_tests_cant": "the labels are renumbered through a sorted map, so that errors show only for particular spellings and repetitions", "anchors": ["einsum/EinsumForm.hpp:42-162", "einsum/EinsumHelpers.hpp:31-62"]}
{"id": "C99", "title": "Trees of contractions", "statement": "ContractionTrees lists trees for the contractions of an expression. In every tree each tensor is used once and each contraction made once; the product of what the remaining nodes compute is the sum, over all values of the contracted indices, of the product of all the tensors; each node lists its free indices, divides them in those shared by all its children and the others, and has as level its height. Two tensors meet in a node exactly if contracted indices link them. Every order of the contractions gives the levels of exactly one listed tree, and the root of a tree holds all the tensors.", "quantifier": "every number of tensors, every set of index tuples, every list of contracted indices, every order the pointers of the nodes happen to have in memory, every commutative ring", "why_tests_cant": "the number of orders is factorial and the frontier is a set of pointers, whose order changes from run to run", "anchors": ["einsum/ContractionTree.hpp:32-79", "einsum/ContractionTrees.hpp:35-62", "einsum/ContractionNode.hpp:29-63"]}
{"id": "C100", "title": "Index sets and loop orders", "statement": "The index set of a contraction is the union of those of its factors without the contracted index; minus removes exactly the given indices; permutations() lists every order of a set once; and every choice of a loop order for each contraction is tried once.", "quantifier": "all index sets, all numbers of contractions", "why_tests_cant": "the numbers of permutations and of choices grow without bound", "anchors": ["etree2/ctree_index_set.hpp:38-68", "etree2/LoopTrees.hpp:21-55"]}
{"id": "C101", "title": "Batches and cells of a labelled tensor", "statement": "In a tensor with a batch dimension, grid dimensions and cell dimensions, batch(i) shows exactly the elements of batch i, cell(ix), cell(b,ix) and batched_cell(ix) exactly those of the given cell, with the labels of what remains; every element belongs to exactly one cell; for_each_batch and for_each_cell visit each batch or cell once, in row-major order; and asking for a batch or cell that does not exist is refused.", "quantifier": "every labelled tensor of any rank, shape and strides, every batch number and grid index", "why_tests_cant": "the offsets depend on all strides and on the number of grid dimensions, which are unbounded", "anchors": ["tensors/Ltensor.hpp:406-430", "tensors/Ltensor.hpp:444-542", "tensors/DimLabels.hpp:56-104"]}
{"id": "C102", "title": "Construction of labelled tensors", "statement": "A tensor built for a number of batches, a grid shape and cell dimensions has these; the specification of a tensor rebuilds its shape and labels; zero, ones, sequential and gaussian fill it as they say; a copy has the same labels and elements and shares no memory.", "quantifier": "all batch counts including none, all shapes, all element types, all contents of uninitialised memory", "why_tests_cant": "what uninitialised memory holds varies from run to run; all shapes must agree", "anchors": ["tensors/Ltensor.hpp:94-210", "tensors/Ltensor.hpp:260-285", "tensors/LtensorSpec.hpp:29-140"]}
{"id": "C103", "title": "All cells as one dimension, and products", "statement": "The fused views show all cells of a labelled tensor along one dimension, in row-major order of batch and grid index; and x*y multiplies every cell of x, a matrix, with the matrix y.", "quantifier": "all numbers of batches and grid dimensions, all shapes and strides, every commutative ring", "why_tests_cant": "the fusion divides strides, which is correct for some layouts and not for others", "anchors": ["tensors/Ltensor.hpp:456-468", "tensors/Ltensor.hpp:942-979", "tensors/Ltensor.hpp:1006-1015"]}
{"id": "C104", "title": "Index manipulations and stacking of labelled tensors", "statement": "col, cols, row, rows, diag, broadcast, unsqueeze, split, fuse and transp return views of the elements they name; stack puts the given tensors one after the other along the given dimension, for each of its three overloads.", "quantifier": "all ranks, shapes, strides and numbers of tensors", "why_tests_cant": "ranks and strides are unbounded", "anchors": ["tensors/Ltensor.hpp:677-788", "tensors/Ltensor.hpp:821-865"]}
{"id": "C105", "title": "Stand-alone tensors: construction, elements, slices and reshaped views", "statement": "A stand-alone tensor constructed from a shape and a fill has the requested elements; arrays of cells (padded so that cells start at aligned places) likewise; reading, setting and incrementing an element touches that element only; a slice holds a copy of the fixed part, set-slice overwrites it, and the reshaped and flat views show the same elements in row-major order.", "quantifier": "all ranks, shapes, fills, memory states and indices", "why_tests_cant": "ranks and shapes are unbounded and the padding shows only for arrays of several cells", "anchors": ["include/Gtensor.hpp:94-278", "include/Gtensor.hpp:378-396", "include/Gtensor.hpp:440-845", "include/Gtensor.hpp:851-866"]}
{"id": "C106", "title": "Stand-alone tensors: copies, moves, assignments and destruction", "statement": "Every array is freed exactly once and none leaks, in every program that declares, copies, moves, assigns, views and destroys stand-alone tensors; copies and assignments give independent tensors with the same elements; a moved-from tensor holds nothing; a conversion converts every element.", "quantifier": "all programs of such operations, of any length, over any number of objects", "why_tests_cant": "the property ranges over unbounded sequences of operations", "anchors": ["include/Gtensor.hpp:64-69", "include/Gtensor.hpp:284-396"]}
{"id": "C107", "title": "Stand-alone tensors: elementwise arithmetic, reductions and comparison", "statement": "Sums, differences, elementwise products, scalings, conjugates and their in-place forms act element by element and change nothing else, also if an operand is the tensor itself; norm, inner products and squared distance are the sums over all elements; operands of different sizes are refused; == holds exactly if the tensors are equal.", "quantifier": "all shapes, commutative rings and element values", "why_tests_cant": "shapes are unbounded and operands may alias", "anchors": ["include/Gtensor.hpp:884-964", "include/Gtensor.hpp:1085-1161", "include/Gtensor.hpp:1177-1267"]}
{"id": "C108", "title": "Stand-alone tensors: products", "statement": "The matrix product, matrix-vector product, transposed product, and the general product contracting the last dimension of one tensor with the first of another, together with its two backward forms, compute (or add) the sums of products that define them.", "quantifier": "all ranks, shapes and element values, every commutative ring", "why_tests_cant": "ranks and shapes are unbounded", "anchors": ["include/Gtensor.hpp:970-1067", "include/Gtensor.hpp:1269-1330"]}
{"id": "C109", "title": "An orthonormal basis of the column space", "statement": "ColumnSpace of a real matrix, with a threshold, returns orthonormal columns, each a combination of the columns of the matrix; every column of the matrix is within the threshold of a combination of them, and exactly those columns whose part outside the span of the ones found before is longer than the threshold give a new one. The matrix given, which is const, keeps its elements. The same holds of complex matrices.", "quantifier": "all matrices, all strides without overlap, all thresholds >= 0", "why_tests_cant": "sizes and real entries are unbounded", "anchors": ["tensors/functions/ColumnSpace.hpp:20-60", "tensors/TensorView_scalar_ops.inc:57-137"]}
{"id": "C110", "title": "Complements and intersections of spaces", "statement": "ComplementSpace returns an orthonormal basis of the vectors orthogonal to all columns of the matrix, and IntersectionSpace a basis of what two row spaces have in common.", "quantifier": "all real matrices and thresholds", "why_tests_cant": "sizes and real entries are unbounded", "anchors": ["tensors/functions/ComplementSpace.hpp:20-80", "tensors/functions/IntersectionSpace.hpp:20-60", "tensors/TensorView.hpp:213-218"]}
{"id": "C111", "title": "Random unitary matrices", "statement": "random_unitary returns a square matrix whose rows are orthonormal and whose columns are orthonormal; row i is random vector i minus its projections to the rows before, divided by its length. Anything but a square shape is refused.", "quantifier": "all sizes, all random vectors, real and complex", "why_tests_cant": "the random numbers are arbitrary and sizes unbounded", "anchors": ["tensors/TensorView_constructors.hpp:144-159"]}
{"id": "C112", "title": "Connected components", "statement": "ConnectedComponents puts every node into exactly one component; two nodes are in the same component exactly when there is a chain of nodes, each satisfying the condition with the next, from one to the other.", "quantifier": "all finite sets of nodes and all conditions", "why_tests_cant": "there are unboundedly many graphs", "anchors": ["tensors/functions/BlockDiagonalize.hpp:24-76"]}
{"id": "C113", "title": "Products of batched and gridded tensors", "statement": "r.add_prod(x,y) adds, for every batch, grid cell and index inside the cell, the product of the element of x and that of y to the element of r, a tensor with one batch, without grid or without cells counting the same everywhere; other memory is unchanged. x*y is a new tensor with these products. Products of tensors without cells, and sums into a tensor without cells, are included.", "quantifier": "all batch sizes, grids and cell shapes that fit together, all layouts, all element types, and all numbers of threads when the target has one batch or there is no grid", "why_tests_cant": "shapes, layouts and values are unbounded, and the schedule of the threads is not controlled", "anchors": ["tensors/BGtensor_products.hpp:24-49", "tensors/functions/ForEachCellMultiScalar.hpp:70-132"]}
{"id": "C114", "title": "Gradients of products of batched and gridded tensors", "statement": "r.add_prod_XC(x,y) adds x times the conjugate of y, also into a tensor without cells, which gets the inner products of the cells. add_prod_back0 and add_prod_back1 are the adjoints of the product in its first and second factor: the pairing of the output gradient with the product of dx is the pairing of the input gradient with dx, broadcasts included.", "quantifier": "all batch sizes, grids and cell shapes that fit together, all layouts, all element types with a conjugation", "why_tests_cant": "an identity between sums over unboundedly many shapes and values", "anchors": ["tensors/BGtensor_products.hpp:51-78"]}
{"id": "C115", "title": "Quotients of batched and gridded tensors", "statement": "add_div adds x times the inverse of the element of y for the batch and grid cell; x/y times y is x wherever y is not zero; a divisor with cells is refused. add_div_back0 is the adjoint of the quotient in x; add_div_back1_to subtracts, for every batch and grid cell, the inner product of x and the output gradient divided by the conjugate of the square of y.", "quantifier": "all batch sizes, grids and cell shapes that fit together, all layouts, all element types with a division and a conjugation", "why_tests_cant": "shapes, layouts and values are unbounded", "anchors": ["tensors/BGtensor_products.hpp:81-117", "tensors/functions/ForEachCellMultiScalar.hpp:137-189"]}
{"id": "C116", "title": "Matrix products of batched and gridded tensors", "statement": "add_mprod adds to every cell of r the matrix product of the cells of x and y; mprod returns a new tensor with them and refuses cells that are not matrices with the same inner size; add_mprod_AH and add_mprod_back0 multiply with the transposed second factor, and add_mprod_back1 with the transposed first factor, for all matrix shapes.", "quantifier": "all batch sizes, grids and matrix sizes that fit together, all layouts, all element types", "why_tests_cant": "shapes, layouts and values are unbounded", "anchors": ["tensors/BGtensor_products.hpp:120-155"]}
{"id": "C117", "title": "Batches, cells and transposes of batched and gridded tensors", "statement": "batch(b), cell(ix) and cell(b,ix) are views of the same memory with exactly the elements of that batch, that grid cell, or both; transp() shows every matrix cell transposed and refuses cells that are not matrices.", "quantifier": "all batch sizes, grids, cell shapes and strides", "why_tests_cant": "shapes, indices and strides are unbounded", "anchors": ["tensors/BGtensor.hpp:84-90", "tensors/BGtensor.hpp:239-241", "tensors/BGtensor.hpp:314-328"]}
{"id": "C118", "title": "Einstein sums of two real views", "statement": "Calling an Einstein-sum function built from a string like \"ij,jk->ik\" on a result view r and two argument views x and y adds to each element of r, at each assignment of indices to the letters of r's part of the string, the sum over the letters that occur in the arguments only of the product of the matching elements of x and y; it changes no other cell. A letter that occurs only in r repeats the same sum along that axis. A string that is not of this form is refused, and every string of this form is carried out in full.", "quantifier": "all strings with any letters in any order, repeated or shared, up to the number of letters of each kind the function supports; all views of any sides, strides and offsets whose elements are readable, with r disjoint from the arguments; all rings", "why_tests_cant": "the number of strings, of ways letters may repeat and of layouts is unbounded; tests try a few square contiguous cases, where the sides and strides of r happen to agree with those of x and y", "anchors": ["tensor_views/functions/RtensorEinsumFn.hpp:32-278", "tensor_views/functions/EinsumFnBase.hpp:27-118"]}
{"id": "C119", "title": "Einstein sums of two complex views", "statement": "Calling a complex Einstein-sum function built from a string like \"ij*,jk->ik\" adds to each element of r the sum over the letters that occur in the arguments only of the product of the matching elements of x and y, each conjugated if its part of the string is marked with a star; a star on r's part conjugates both. It changes no other cell. A string that is not of this form is refused, and every string of this form is carried out in full.", "quantifier": "all strings with any letters and any stars, up to the number of letters of each kind the function supports; all complex views of any sides, strides and offsets whose elements are readable, with r disjoint from the arguments; all rings", "why_tests_cant": "there are eight combinations of stars for each of unboundedly many strings and layouts, and the number of contracted letters selects different code for each", "anchors": ["tensor_views/functions/CtensorEinsumFn.hpp:37-357", "tensor_views/functions/EinsumFnBase.hpp:27-118"]}
{"id": "C120", "title": "Operations on the columns of a matrix", "statement": "Adding the columns of a matrix x scaled by the entries of a vector y (or by their conjugates, or divided by them) changes element (i,j) of the matrix r by x(i,j) times (or divided by) y(j), and changes no other cell. Matrices and vectors whose sides do not fit are refused. Adding the inner products of the columns of two matrices adds to element i of a vector r the sum over j of x(j,i) times the conjugate of y(j,i).", "quantifier": "all numbers of rows and columns, all strides and offsets, all memories in which the operands are readable and r's cells are distinct and not read after being written; all rings, all conjugations and divisions", "why_tests_cant": "the loops read memory in order whatever the strides are, so they agree with the claim on every freshly made matrix and disagree on transposed and sliced ones, of which there are unboundedly many", "anchors": ["tensors/TensorView.hpp:636-759"]}
{"id": "C121", "title": "Elementwise quotients, the leaky rectifier and broadcasting", "statement": "Adding the quotient of x and y adds to each element of r the quotient of the matching elements. Adding the leaky rectifier of x adds x where x is positive, alpha times x where x is negative, and nothing elsewhere. Adding its gradient adds g times 1, alpha or 0 as x is positive, negative or zero. Adding x broadcast along axis d adds x to every slice of r along axis d. No other cell is changed.", "quantifier": "all shapes, strides and offsets; all memories in which the operands are readable; all rings, divisions and slopes; every axis d", "why_tests_cant": "the wrong sign test is seen only when a gradient and an input differ in sign, and layout errors only on views that are not row-major", "anchors": ["tensors/TensorView_cumulative_ops.inc:270-329"]}
{"id": "C122", "title": "Hash codes of tensors", "statement": "Two tensors of the same shape with the same elements have the same hash code, however they are laid out and wherever they are stored. So tensors that compare equal have equal hash codes.", "quantifier": "all shapes, strides, offsets and memories; all hash functions of the elements and of the sides", "why_tests_cant": "the code takes one loop for row-major tensors and another for all others, and the two must visit the elements in the same order for every shape", "anchors": ["tensors/TensorView.hpp:814-825", "include/Gdims.hpp:524-532"]}
{"id": "C123", "title": "Fixed-rank views of a tensor", "statement": "The view of a tensor as one of one, two or three axes has the tensor's elements and shares its memory: writing an element through either is seen through the other. For complex tensors the view has the real and imaginary parts. Tensors of another rank are refused. The flat view of a contiguous tensor lists its elements in row-major order.", "quantifier": "all shapes of the given rank, all strides and offsets, all memories and all stored values", "why_tests_cant": "aliasing has to hold for every element, stride and offset, and the complex views double every address", "anchors": ["tensors/TensorView.hpp:300-313", "tensors/TensorView.hpp:770-803"]}
{"id": "C124", "title": "Sparse masks hold what was pushed, and their inverses are the exchanged masks", "statement": "A mask (Rmask1) built by any sequence of push(i,j,v), inv() and copies holds exactly the pushed entries: its rows are visited in increasing order and within a row the entries come in the order of the pushes. inv() returns the mask with the same entries and rows and columns exchanged, also when entries were pushed after an earlier call of inv(), and leaves the mask as it is. N0 and M0 are the smallest numbers of rows and columns that have room for all entries, also for a copy. Rmask1::matrix(M) holds exactly the nonzero entries of M and is as large as M.", "quantifier": "all sequences of pushes, inversions, copies and moves; all matrices of any size in any layout and all weights", "why_tests_cant": "A test pushes a few entries once; a stale cached inverse, a lost size after copying, or a reordering only shows for particular interleavings of calls.", "anchors": ["include/Rmask1.hpp:57-120", "include/Rmask1.hpp:171-180"]}
{"id": "C125", "title": "Aggregation by a mask adds the weighted rows", "statement": "Aggregator(r,x,mask) on complex views with equally long trailing axes changes r(i,...) to r(i,...) plus the sum over the mask's entries (i,j,w) of w*x(j,...), for two, three, four or any number of axes and any strides, and changes no other memory. With the mask of a matrix M this adds M*x, and with the inverse of that mask the transpose of M times x.", "quantifier": "all masks with entries in range, all numbers of axes and sizes, all memory contents and all views r with distinct cells apart from x", "why_tests_cant": "Tests use freshly allocated tensors; whether the views can be fused, and what happens to memory between the rows of a view, depends on strides that tests rarely vary.", "anchors": ["tensor_views/Aggregator.hpp:40-80", "tensor_views/TensorView_accumulator.hpp:31-40", "tensor_views/CtensorView.hpp:222-226"]}
{"id": "C126", "title": "Element accessors reach exactly the elements of the view", "statement": "TensorAccessor<TYPE,k>(x) and FixedTensorAccessor<TYPE,k> give, by operator() and set, exactly the elements of x: operator()(i0,..) returns x(i0,..) and set(i0,..,v) changes that element to v and no other memory, for every layout of x; a view with another number of axes is refused.", "quantifier": "all views with up to six axes in all layouts, all indices in range, all memory contents", "why_tests_cant": "An accessor that ignores or confuses strides agrees with the view on symmetric or packed examples.", "anchors": ["tensors/TensorAccessor.hpp:33-231", "tensors/FixedTensorAccessor.hpp:48-330"]}
{"id": "C127", "title": "Index maps describe diagonals", "statement": "For an index map that assigns each axis of a tensor to one group, with all axes of a group of the same length, the mapped shape has one axis per group with the common length, and the mapped strides place the element at j where the tensor has the element whose component along every axis is the component of j of that axis's group; that element exists and is unique. A map with the wrong number of axes, an empty group, an axis that does not exist or axes of different lengths in one group is rejected with an exception.", "quantifier": "all shapes, strides and index maps", "why_tests_cant": "Index maps group any subset of any number of axes", "anchors": ["include/Gdims.hpp:314-329", "include/GstridesB.hpp:268-282", "include/GindexMap.hpp:36-41"]}
{"id": "C128", "title": "Sets of axes answer questions about themselves", "statement": "is_contiguous is true exactly of sets of consecutive axes, is_disjoint exactly of sets without a common member, covers(n), covers(n,x) and covers(n,x,y) exactly when the sets together contain 0..n-1; select returns the sides along the axes of the set in order and unite their product, and combined(a,b) the product of the sides from a to b-1.", "quantifier": "all finite sets of axes, all shapes", "why_tests_cant": "All combinations of sets and ranks cannot be listed", "anchors": ["include/GindexSet.hpp:32-73", "include/Gdims.hpp:190-196", "include/Gdims.hpp:292-308"]}
{"id": "C129", "title": "Views by groups of axes", "statement": "Viewing a row-major tensor through sets of consecutive axes that together cover all axes gives a tensor with one axis per set, whose element at (j1,..,jr) is the element whose components along the k'th set have row-major position jk; every element is shown exactly once.", "quantifier": "all ranks, shapes, groupings and orders of the groups", "why_tests_cant": "Every grouping of every rank", "anchors": ["tensor_views/Rtensor1_view.hpp:77-85", "tensor_views/Rtensor2_view.hpp:75-87", "tensor_views/Itensor1_view.hpp:54-62", "tensor_views/Itensor2_view.hpp:55-67", "tensor_views/Ctensor1_view.hpp:57-65", "tensor_views/Ctensor2_view.hpp:79-91", "tensor_views/Ctensor3_view.hpp:80-99"]}
{"id": "C130", "title": "Strides that walk a tensor in one progression", "statement": "fuser returns a stride t and a count n such that the offsets of the elements are exactly 0, t, 2t, .., (n-1)t, each reached by one index, whenever it reports success; and it reports success for every rearrangement of the axes of a row-major layout.", "quantifier": "all shapes and positive strides", "why_tests_cant": "The number of axes and their order are unbounded", "anchors": ["include/GstridesB.hpp:329-359", "include/GstridesB.hpp:288-299"]}
{"id": "C131", "title": "Offsets translated between layouts", "statement": "Given the offset of an element in a row-major layout, offs(j,source) returns the offset of the same element under other strides.", "quantifier": "all shapes, all in-range indices, all target strides", "why_tests_cant": "All shapes and offsets", "anchors": ["include/GstridesB.hpp:314-323"]}
{"id": "C132", "title": "Range checks reject exactly the indices outside the shape", "statement": "check_in_range (for a vector and for one to five indices), check_in_range_d, check_range and check_arange return normally exactly when the index has one component per axis and each component lies in its axis, and throw otherwise; check_eq and check_cell_eq throw exactly when the shapes differ; valid is true exactly of shapes without negative sides.", "quantifier": "all shapes and indices", "why_tests_cant": "All indices and shapes", "anchors": ["include/Gdims.hpp:180-184", "include/Gdims.hpp:380-423", "include/Gindex.hpp:187-201"]}
{"id": "C133", "title": "Indexed maps own each object once", "statement": "Under every history of creating, inserting, pushing, looking up, copying, moving, assigning, wiping, clearing and destroying any number of indexed maps, no object is read or deleted after its deletion, each live object is held once by one map, size counts the objects entered, [i] gives the i'th entered, [key] the last entered under that key, exists is true of the keys entered; copies are independent; without clear no object is lost, and destroying all maps frees every object.", "quantifier": "all histories of any length over any number of maps, all keys and objects", "why_tests_cant": "Ownership errors show only after particular sequences of copies, moves and deletions", "anchors": ["containers/indexed_map.hpp:33-94", "containers/indexed_map.hpp:109-201"]}
{"id": "C134", "title": "Associative containers own one object per key", "statement": "Under every history of creating, inserting, indexing, assigning through an index, copying, moving and destroying associative containers, no object is used after deletion, none is lost or deleted twice, each key shows the object last stored under it, iteration visits the objects once each in increasing key order, first is the one with the smallest key; inserting under a taken key and const indexing of an absent key stop.", "quantifier": "all histories of any length over any number of containers, all keys and objects", "why_tests_cant": "Unbounded histories; leaks and double deletes are invisible to value checks", "anchors": ["containers/associative_container.hpp:24-55", "containers/associative_container.hpp:172-286"]}
{"id": "C135", "title": "Caches keyed by an object and an argument", "statement": "For every history in which key objects are created (also at the address of a dead one) and destroyed, entries are looked up and values are inserted, the caches keyed by an object's address and an argument answer with the value belonging to the object living now: the first value computed or inserted for it and that argument; make_obj runs at most once per object and argument, and contains is true exactly of the living entries.", "quantifier": "every finite history including address reuse, any order of notification", "why_tests_cant": "Address reuse depends on the allocator; histories are unbounded", "anchors": ["containers/ptr_arg_indexed_cache.hpp:27-108", "containers/ptr_arg_indexed_object_bank.hpp:26-87"]}
{"id": "C136", "title": "Slices, fusions and blocks of views with four to seven axes show the right elements", "statement": "A view with four, five or six axes can be built from sides and strides. slice_d(i) and slice_de(i,j) fix one or two axes, fuse_d joins the axes d and d+1 into one, and block(i..,m..) is a window. Each element of the new view is exactly the stated element of the old one, and the new view has the stated sides. (Fusing needs axes that follow each other in memory and does not test it; the seven-axis constructor refuses seven sides and over-reads six; the last slice of a complex view with six axes mixes up the strides of its imaginary parts.)", "quantifier": "For every memory block, offset, number of axes, sides and strides, every axis or pair of axes, every position inside the sides and every window inside the sides.", "why_tests_cant": "Wrong strides only show on particular layouts and positions; there are over a hundred such members, one per rank and axis, and tests would need every combination of layout and index.", "anchors": ["tensor_views/Rtensor4_view.hpp:47-93", "tensor_views/Rtensor4_view.hpp:188-271", "tensor_views/Rtensor7_view.hpp:48-65", "tensor_views/Ctensor6_view.hpp:190-192"]}
{"id": "C137", "title": "Adding one view with four to seven axes to another adds element by element", "statement": "r.add(y) increases each element of r by the element of y at the same index and changes nothing else, whatever the strides; it is refused when the sides differ.", "quantifier": "For every ring of scalars, every number of axes, sides, strides and memory contents where r's elements are in distinct cells and y is r itself or does not overlap it.", "why_tests_cant": "The result must hold for all strides and shapes, including overlapping and permuted layouts.", "anchors": ["tensor_views/Rtensor4_view.hpp:99-109", "tensor_views/Rtensor6_view.hpp:105-119"]}
{"id": "C138", "title": "Destructive reductions of views with four to seven axes sum along one axis", "statement": "reduceN_destructively replaces the first slice along axis N by the sum of all slices along it and touches no memory outside the view; reduceN_destructively_into(r) adds that sum to r. (True when the other axes follow each other in memory and the axis has at least two positions; a row-major view with a single slice along the first axis is doubled instead.)", "quantifier": "For every ring, every number of axes from three up, axes 0 to 3, all sides, offsets and memory contents with the layout described.", "why_tests_cant": "The reduction works by repeatedly fusing axes and halving rows in place; mistakes depend on sizes and strides and need all of them.", "anchors": ["tensor_views/Rtensor4_view.hpp:115-150", "tensor_views/Rtensor5_view.hpp:120-155", "tensor_views/Rtensor6_view.hpp:125-160"]}
{"id": "C139", "title": "Broadcasts into views with four to six axes copy the argument along one axis", "statement": "v.broadcastN(x) makes the element of v at each index equal to the element of x at that index without its N-th entry, and touches nothing else; an argument with other sides is refused. (True when v's other axes follow each other in memory and x is row-major; other layouts of x are not refused and copy the wrong elements.)", "quantifier": "For every ring, every number of axes from three up, every axis, all sides, offsets and memory contents with the layout described.", "why_tests_cant": "The broadcast fuses axes of both views and doubles rows in place; correctness depends on the sizes and strides of both.", "anchors": ["tensor_views/Rtensor4_view.hpp:156-182", "tensor_views/Rtensor5_view.hpp:161-199", "tensor_views/Rtensor6_view.hpp:166-218"]}
{"id": "C140", "title": "A tensor made from a view with four to six axes has the same sides and elements", "statement": "gtensor() returns a new tensor, owning a new array, with the sides of the view and at every index the element of the view; nothing else in memory changes. (With seven axes the new tensor is given six sides and the call fails at the first element.)", "quantifier": "For every ring, every number of axes, sides, strides, offsets and memory contents.", "why_tests_cant": "Every stride pattern has to be copied to the right place of a fresh row-major array.", "anchors": ["tensor_views/Rtensor4_view.hpp:278-286", "tensor_views/Rtensor6_view.hpp:366-376", "tensor_views/Rtensor7_view.hpp:376-387"]}
{"id": "C141", "title": "Packs of tensors: filing, finding and removing", "statement": "A pack files tensors under keys. After any sequence of insertions and removals on a new pack, looking up a key returns the tensor inserted first since the key was last free, and throws for a key not in use; inserting under a key in use changes nothing; all parts have the batch size and grid of the pack; for_each visits every part exactly once in ascending order of the keys. An insertion is accepted exactly if the pack is empty (whatever batch size and grid it was made with) or the tensor has the pack's batch size and grid, and throws otherwise.", "quantifier": "all packs, keys, tensors, batch sizes, grids and histories of insertions and removals", "why_tests_cant": "Tests insert a few parts; they do not cover every history, nor mismatched shapes after removals.", "anchors": ["tensors/BGtensorPack.hpp:165-194"]}
{"id": "C142", "title": "Packs of tensors: sums and scalar multiples", "statement": "For packs with the same keys and shapes, p.add(x) adds to every element of p the corresponding element of x and changes no other memory, also when x is p or shares its parts; on packs with different keys it does not run through. x+y returns a new pack in new memory with the sums, x*c one with the multiples; their operands and all other memory are unchanged, and the batch size and grid are those of x (for x*c if x is not empty).", "quantifier": "all packs with any number of parts of any shapes and strides, all memory contents over any commutative ring", "why_tests_cant": "Tests use packs of one or two parts with unrelated memory and check few entries.", "anchors": ["tensors/BGtensorPack.hpp:284-309", "tensors/BGtensorPack.hpp:99-110"]}
{"id": "C143", "title": "Packs of tensors: differences", "statement": "p.subtract(x) takes from every element of p the corresponding element of x and leaves x alone; x-y returns a new pack with the differences and leaves y alone.", "quantifier": "all packs with the same keys and shapes, all memory contents over any commutative ring", "why_tests_cant": "A test that subtracts equal packs or a pack from itself does not see that the loop runs over the wrong pack.", "anchors": ["tensors/BGtensorPack.hpp:290-294", "tensors/BGtensorPack.hpp:311-315"]}
{"id": "C144", "title": "Packs of tensors: copies and assignment", "statement": "A copy-constructed pack has the very parts of the original; copy() makes a pack with the same keys, shapes and contents in memory of its own. Assigning a pack x to a pack p with the same batch size, grid, keys and shapes gives every element of p the value of the corresponding element of x and changes nothing else. A key of p that x lacks makes the assignment fail (reading through a null pointer); keys of x that p lacks are passed over.", "quantifier": "all packs, shapes, strides and memory contents", "why_tests_cant": "Aliasing between copies and missing keys are not tried by tests.", "anchors": ["tensors/BGtensorPack.hpp:62-91"]}
{"id": "C145", "title": "Packs of tensors: cells", "statement": "For a grid index inside the grid, cell(ix) returns a pack without grid with the same keys and batch size whose part under each key shows, in the memory of the original, the cell ix of every batch of the original part. An index of the wrong length throws.", "quantifier": "all packs, grids, grid indices in range, cell shapes and strides", "why_tests_cant": "Tests look at single cells of small packs.", "anchors": ["tensors/BGtensorPack.hpp:272-278"]}
{"id": "C146", "title": "Pools of integer arrays are values, and give their memory back", "statement": "Pools can be created, grown, pushed to, written to, copied, assigned, moved and destroyed in any order. Afterwards every pool holds the rows it should: copies and assignments are independent, moves hand the rows over, growing keeps them. Every allocated array belongs to exactly one pool in scope, and once no pool is in scope nothing is allocated. Assigning a pool to itself should leave it as it was, and a pool moved from should be empty or at least consistent.", "quantifier": "all programs over any number of pools, rows and sizes", "why_tests_cant": "Leaks, double frees and aliasing appear only for particular orders of operations, of which a test tries a few.", "anchors": ["containers/array_pool.hpp:45-110", "containers/array_pool.hpp:197-300", "containers/array_pool.hpp:494-510", "tensors/IntTensor.hpp:251-284"]}
{"id": "C147", "title": "Views of pools of integer arrays", "statement": "view() of a pool shows the rows of the pool; a write through either is seen through both, other pools are untouched, and destroying the view leaves the pool usable. A copy of a view is a pool of its own, and so is a view after it has been assigned to. Pushing through a view, and assigning a view back to its pool, should be as safe as the same operation on a pool.", "quantifier": "all programs that make the pool, all sequences of writes through pool and view, all rows", "why_tests_cant": "What goes wrong with the memory of a view shows up only later, when the pool is read or destroyed.", "anchors": ["containers/array_pool.hpp:305-316", "containers/array_pool.hpp:197-300"]}
{"id": "C148", "title": "Pools of integer arrays as one table", "statement": "to_tensor() gives an array that begins with the number of rows, then the positions in the array itself where each row begins and where the last one ends, then the rows: the entries between the positions of row i and row i+1 are row i. This holds for pools with spare room in their rows as well.", "quantifier": "all pools reachable by any program; all pools made from heads and lengths", "why_tests_cant": "The table is meant for the GPU; its positions are not compared with the rows in tests.", "anchors": ["containers/array_pool.hpp:336-348"]}
{"id": "C149", "title": "Copies and sums of integer vectors, matrices and 3-tensors", "statement": "set(x), operator= and set(v) give every element of the view the value of the element of x at the same index (or v); add(x), add(x,c) and add(v) add to every element the element of x, c times it, or v; no other memory changes, whatever the strides, and also if the two views share memory as long as no element of one lies in the cell of a different element of the other. Vectors and matrices of other sizes are rejected before anything is written; a smaller 3-tensor is applied to the leading corner. broadcast(v) is rejected for strided vectors.", "quantifier": "all shapes, strides, offsets and memory contents over any commutative ring", "why_tests_cant": "Which loop runs depends on the strides; tests use contiguous tensors.", "anchors": ["tensor_views/Itensor1_view.hpp:103-163", "tensor_views/tensor1_view.hpp:73-209", "tensor_views/Itensor2_view.hpp:116-156", "tensor_views/Itensor3_view.hpp:103-123"]}
{"id": "C150", "title": "Products of integer matrices", "statement": "r.add_matmul_AA(x,y) adds the matrix product of x and y to r and changes nothing else, for all sizes that fit together and all strides; sizes that do not fit are rejected. For a 3-tensor x and 3-tensor r it should do so in every batch.", "quantifier": "all sizes, numbers of batches, strides and memory contents over any commutative ring", "why_tests_cant": "Square test matrices with as many batches as rows do not show that the bounds of the loops are mixed up.", "anchors": ["tensor_views/Itensor2_view.hpp:159-173", "tensor_views/Itensor3_view.hpp:125-142"]}
{"id": "C151", "title": "Blocks, slices, fusions and splits of integer views", "statement": "block, rows, slice, diag, transp, fuse and split of an integer vector, matrix or 3-tensor have the sides announced and show, in the same memory, exactly the elements they name; a diagonal of a matrix that is not square, a split into factors that do not multiply to the side and a fusion of a 3-tensor that is not contiguous are rejected. fuse01 of a matrix should show the elements row by row.", "quantifier": "all sides, strides, offsets and arguments in range", "why_tests_cant": "A test compares a few elements of contiguous tensors.", "anchors": ["tensor_views/Itensor1_view.hpp:95-97", "tensor_views/Itensor2_view.hpp:105-110", "tensor_views/Itensor2_view.hpp:281-347", "tensor_views/Itensor3_view.hpp:236-312"]}
{"id": "C152", "title": "Integer tensors made from views, sums, repeated values and hash codes", "statement": "gtensor() of a view and the IntTensor constructors from a view give a new tensor of the same shape with the same elements in memory of its own and change no other memory, whatever the strides of the view. sum() and reduce() are the sum of the entries. repeat0(x,n) shows x at n places, and a write through any of them is seen through all. Vectors with equal entries have equal hash codes whatever their strides.", "quantifier": "all shapes, strides and memory contents; all hash functions of the entries", "why_tests_cant": "Tests copy contiguous views.", "anchors": ["tensor_views/Itensor1_view.hpp:148-174", "tensor_views/Itensor2_view.hpp:321-327", "tensor_views/Itensor3_view.hpp:279-286", "tensor_views/tensor1_view.hpp:134-263", "tensors/IntTensor.hpp:671-716"]}
{"id": "C153", "title": "Named graphs have the edges their names promise", "statement": "complete(n) has n vertices and joins every two different ones, n(n-1)/2 edges; cycle(n) joins each vertex to the next and the last to the first, n edges; star(m) has m+1 vertices and joins vertex 0 to the others, m edges; trivial, edge, triangle and square are the cases named. All edges have weight 1 and there are no self loops. A negative size is refused.", "quantifier": "all sizes n and m", "why_tests_cant": "Tests print graphs of a few vertices.", "anchors": ["combinatorial/sparse_graph.hpp:105-138"]}
{"id": "C154", "title": "Graphs and their matrices", "statement": "dense() is a new n by n matrix with the weight of every pair of vertices and 0 where there is no edge, and changes no other memory. The graph made from a square matrix has the weights of the matrix, and a matrix that is not square is refused. A graph turned into a matrix and back has the same weights.", "quantifier": "all graphs with all sets of weighted edges; all matrices, strides and memory contents", "why_tests_cant": "Tests print one small symmetric matrix.", "anchors": ["combinatorial/sparse_graph.hpp:156-170"]}
{"id": "C155", "title": "Equality of graphs", "statement": "Two graphs compare equal exactly when they have the same number of vertices and the same weighted edges, in whatever order the edges were set, and asking questions about a graph does not change what it is equal to.", "quantifier": "all sequences of set, nneighbors and neighbors on each of the two graphs", "why_tests_cant": "The outcome depends on the whole history of queries; tests compare freshly built graphs.", "anchors": ["combinatorial/sparse_graph.hpp:220-253", "combinatorial/sparse_graph.hpp:263-270", "containers/map_of_maps.hpp:98-124"]}
{"id": "C156", "title": "Placing one graph inside another", "statement": "insert(H,v) sets, for every edge of H, the edge between the two places v gives its ends to the weight it has in H, and leaves every other pair of vertices, the labels and the degrees as they were. A place that is not a vertex of the graph, or a list of places shorter than H, is refused.", "quantifier": "all graphs G and H, all lists of places", "why_tests_cant": "No test inserts a graph.", "anchors": ["combinatorial/sparse_graph.hpp:255-261"]}
{"id": "C157", "title": "Graphs from lists of edges, tensors of edges and labels", "statement": "A graph built from a list of edges, or from a 2 by k tensor of edges and a number of vertices, has exactly those edges with weight 1. From a list the number of vertices is one more than the largest end. A tensor that names a number that is not a vertex is refused. Labels and degrees are attached to the graph when there is one for each vertex and refused otherwise.", "quantifier": "all lists, all tensors of edges whatever their strides, all numbers of vertices, all vectors of labels", "why_tests_cant": "Tests build graphs of a few vertices without labels.", "anchors": ["combinatorial/sparse_graph.hpp:54-99", "combinatorial/sparse_graph.hpp:233-245"]}
{"id": "C158", "title": "Integer tensors are made with the shape and elements asked for", "statement": "IntTensor::zeros(dims), ones(dims) and sequential(dims) give a tensor of shape dims, for any number of axes at least one, whose elements are all 0, all 1, or the row-major positions 0,1,2,...; a raw tensor has the shape and no element that may be read. An empty shape is refused. A tensor made from a Gtensor has its shape and elements, and gtensor() gives back a Gtensor with the same shape and elements. A tensor made from a vector of n numbers has one axis of side n that holds them.", "quantifier": "all shapes with at least one axis and no negative side, all Gtensors with values, all vectors", "why_tests_cant": "Tests try two or three small shapes; sides of 0 and 1 and many axes have their own stride arithmetic.", "anchors": ["tensors/IntTensor.hpp:73-171", "tensors/IntTensor.hpp:375-394", "include/Gdims.hpp:64-65"]}
{"id": "C159", "title": "Elements of integer tensors are read and written one by one", "statement": "set(ix,x) changes the element at ix to x and no other; get and operator() with an index or with one to five ints read the same element. With range checking compiled in, access by ints is refused exactly for indices out of range. An index with too few entries is refused.", "quantifier": "all tensors of any shape, all indices, both settings of range checking", "why_tests_cant": "The number of shape and index combinations is unbounded; access with five ints or the wrong number of them is rarely tried.", "anchors": ["tensors/IntTensor.hpp:483-579", "include/Gindex.hpp:116-122"]}
{"id": "C160", "title": "Copies and assignments of integer tensors hold the same elements", "statement": "The copy constructors, the copy to the host and assignment give a tensor of the same shape and elements; a move takes them over and leaves nothing readable. set(x) takes over all elements of a tensor of the same shape and refuses another shape, set_zero() makes every element 0. Assigning a tensor to itself changes nothing. All copies of a tensor are equal.", "quantifier": "all tensors of any shape, with or without spare room, both settings of range checking", "why_tests_cant": "Assignment to itself, empty tensors and tensors with spare room are corner cases that value tests miss, and reading freed or unset memory often goes unnoticed.", "anchors": ["tensors/IntTensor.hpp:177-284", "tensors/IntTensor.hpp:320-322", "tensors/IntTensor.hpp:464-477"]}
{"id": "C161", "title": "Integer tensors grow along their first axis", "statement": "Any sequence of push_back_slice0(x) puts the slices x after the rows the tensor had, in order, and keeps all elements; a slice of another shape is refused. reserve0(n) makes room and changes no element; resize0(n) changes the first side to n, keeps the elements and refuses to shrink. This holds for slices of any size.", "quantifier": "all tensors with at least one axis, all sequences of slices, all n", "why_tests_cant": "The capacity doubles at data-dependent moments; long sequences and slices without elements are needed to see mistakes.", "anchors": ["tensors/IntTensor.hpp:337-369", "tensors/IntTensor.hpp:648-664"]}
{"id": "C162", "title": "Concatenating integer tensors stacks their rows", "statement": "cat(list) of tensors that agree in all axes but the first gives the tensor whose rows are the rows of all of them in order; an empty list and tensors that do not agree are refused.", "quantifier": "all non-empty lists of tensors, all shapes", "why_tests_cant": "Lists of mismatched shapes corrupt memory silently instead of failing.", "anchors": ["tensors/IntTensor.hpp:396-420"]}
{"id": "C163", "title": "Equality of integer tensors is equality of shape and elements", "statement": "x==y is true exactly when the two tensors have the same shape and the same element at every index, whatever room they have reserved.", "quantifier": "all pairs of tensors", "why_tests_cant": "Tests compare freshly made tensors only, where the reserved room agrees.", "anchors": ["tensors/IntTensor.hpp:581-587"]}
{"id": "C164", "title": "Rows of integer matrices are read and written as lists", "statement": "row(i) is the list of the entries of row i and row(i,beg) the list from column beg on; beg beyond the end is refused, and with range checking so is a row that does not exist. set_row(i,list) replaces the first entries of row i by the list and changes nothing else; a tensor that is not a matrix is refused.", "quantifier": "all matrices of any size, all rows, lists of any length, both settings of range checking", "why_tests_cant": "Lists longer than the row silently change another row.", "anchors": ["tensors/IntTensor.hpp:593-614"]}
{"id": "C165", "title": "Products of block sparse matrices", "statement": "Multiplying two block sparse matrices with matching block sides gives a block sparse matrix that has a block exactly at the places (i,k) for which some j has a block (i,j) in the first and a block (j,k) in the second; each block of the result holds the corresponding entries of the matrix product; outside them the matrix product is zero; the operands are not changed. The result reports the sizes of the product. Blocks with sides that do not match are refused.", "quantifier": "For all pairs of block sparse matrices made from any masks (with repetitions, any order), all block sides, all block contents in any commutative ring.", "why_tests_cant": "The set of masks is infinite, and the defect found (sizes of the result never set) shows only for particular contents of uninitialised memory, so that a test may pass by luck.", "anchors": ["matrices/BlockCsparseMatrix.hpp:208-230", "matrices/BlockCsparseMatrix.hpp:73-73", "matrices/BlockCsparseMatrix.hpp:144-148"]}
{"id": "C166", "title": "Tables made from the offsets of a block sparse matrix", "statement": "The left gather map of a block sparse matrix has one row for each block row with at least one block, in increasing order, listing its block columns in increasing order without repetition; the right one does the same with rows and columns exchanged; their numbers of targets and sources are one more than the largest index present. The table of row offsets gives, for each of these rows, the storage position of its first block.", "quantifier": "For all masks of any length and order, with repetitions.", "why_tests_cant": "Masks are unbounded, and correctness depends on the order in which two nested maps are walked.", "anchors": ["matrices/BlockCsparseMatrix.hpp:52-64", "hpc/GatherMapB.hpp:172-195", "containers/double_indexed_map.hpp:83-86"]}
{"id": "C167", "title": "Row-major strides", "statement": "The stride vector built from a shape and a base stride s0 has, on each axis, s0 times the product of the later sides; the offset it computes for an index is s0 times the index's row-major rank, so different indices get different offsets when s0 is positive. The regularity check answers yes exactly for the row-major strides with base 1. Constructing a stride vector from one to six integers gives those integers.", "quantifier": "every shape with at least one axis, every base stride, every index in range, every list of strides", "why_tests_cant": "Tests try a few shapes; a wrong factor on one axis is invisible for square or unit sides, and the six argument constructor is never called.", "anchors": ["include/Gstrides.hpp:37-85", "include/Gstrides.hpp:103-112", "include/Gstrides.hpp:143-165"]}
{"id": "C168", "title": "Contiguity and memory size of strides", "statement": "For positive strides the contiguity check answers yes exactly when the elements occupy the addresses 0..N-1 without gaps or overlaps, N being their number. The memory size computed from strides and a shape is larger than the offset of every element.", "quantifier": "every list of positive strides and every shape of the same length", "why_tests_cant": "Layouts with permuted axes, axes of side one or overlapping strides are rarely built in tests, and an answer that is too small shows only as memory corruption.", "anchors": ["include/Gstrides.hpp:114-141"]}
{"id": "C169", "title": "Converting offsets between layouts", "statement": "Given the offset of an element in a source layout, offs(j,source) returns the offset of the same element in the target layout; converting back returns the original offset.", "quantifier": "every pair of layouts of a shape and every element", "why_tests_cant": "Tests use row-major sources only; for other source layouts the greedy division gives a wrong but plausible offset.", "anchors": ["include/Gstrides.hpp:218-227"]}
{"id": "C170", "title": "Fusing, removing, appending, cutting and combining strides", "statement": "Fusing neighbouring axes that can be walked as one gives strides under which the row-major rank of the fused indices reaches the same element; removing an axis leaves the offsets of the elements with index 0 on it, and negative positions count from the end; appending adds the axis at the end; chunk returns the requested run of strides; combine returns the stride of the diagonal along the given axes.", "quantifier": "every list of strides, every position and every list of distinct axes", "why_tests_cant": "The effect is an address; an error shows only when the wrong element is read, and only in layouts with more axes than tests use.", "anchors": ["include/Gstrides.hpp:167-216"]}
{"id": "C171", "title": "Shapes of products and convolutions", "statement": "The shape of a product of two tensors is the remaining sides of the first followed by those of the second, for each of the four choices of contracted axes; a matrix-vector product exists exactly when the leading sides agree and the contracted sides agree, and otherwise is refused; an index belongs to the shape of a convolution exactly when the window placed there fits.", "quantifier": "all shapes of all ranks, all windows with positive sides", "why_tests_cant": "Tests use a few matrix shapes; batch axes and rank mismatches are not reached.", "anchors": ["include/Gdims.hpp:222-286"]}
{"id": "C172", "title": "Joining and inserting lists of sides", "statement": "Joining two lists, with or without an integer between or before, joining a list of lists, extending, concatenating integers and lists in any order, and inserting a list or a repeated value at a position all give the corresponding concatenation.", "quantifier": "all lists, all positions up to the length, any number of arguments", "why_tests_cant": "The loops compute positions by hand; off-by-one errors appear only when one of the lists is empty or the position is at an end.", "anchors": ["include/Gdims.hpp:98-102", "include/Gdims.hpp:209-211", "include/Gdims.hpp:239-243", "include/Gdims.hpp:446-454", "include/gvectr.hpp:44-62", "include/gvectr.hpp:147-162", "include/gvectr.hpp:222-249"]}
{"id": "C173", "title": "Entries of lists of sides", "statement": "Reading at a non-negative index counts from the front and at a negative one from the end; back and set_back count from the end; first, last, max and min return the named entries, and multiplication by an integer multiplies each entry. Outside the list, and for the largest entry of an empty list, the behaviour is defined.", "quantifier": "all lists and all indices", "why_tests_cant": "Reading out of range usually returns a harmless value in tests.", "anchors": ["include/gvectr.hpp:68-129", "include/Gstrides.hpp:94-101"]}
{"id": "C174", "title": "Multi-indices", "statement": "Concatenating two multi-indices gives an index whose row-major rank in the concatenated shape is the rank of the first times the size of the second shape plus the rank of the second; building one from a vector keeps exactly the non-negative entries in order; applying strides gives the offset, and too few strides are refused; equality holds exactly for equal indices.", "quantifier": "all multi-indices, shapes and strides", "why_tests_cant": "Ranks of concatenated indices are only checked for tiny shapes; negative entries do not occur in tests.", "anchors": ["include/Gindex.hpp:42-44", "include/Gindex.hpp:116-122", "include/Gindex.hpp:146-151", "include/Gindex.hpp:170-175"]}
{"id": "C175", "title": "Elements of views with any number of axes", "statement": "Reading, setting and incrementing a real or complex view at an index touches exactly the element of that index. An index out of range, and one with fewer entries than the view has axes, is refused when ranges are checked.", "quantifier": "all views, offsets, strides, numbers of axes and indices, any memory", "why_tests_cant": "Tests read back through the same accessor, so a wrong but consistent address goes unnoticed.", "anchors": ["tensor_views/RtensorView.hpp:81-159", "tensor_views/CtensorView.hpp:80-174"]}
{"id": "C176", "title": "Slices of views with any number of axes", "statement": "Fixing an axis at a position gives the view whose elements are those with that position inserted; fixing the first two or three axes likewise. Positions out of range and missing axes are refused when ranges are checked.", "quantifier": "all views, axes, positions and strides", "why_tests_cant": "The result has the right shape whatever the offset; only the contents tell, and only for positions other than 0.", "anchors": ["tensor_views/RtensorView.hpp:237-284"]}
{"id": "C177", "title": "Fusing, flattening and matricizing views", "statement": "Fusing two adjacent axes whose strides fit, all axes but the last two, or the leading and the remaining axes of a tensor gives a view with the product sides in which the fused index is the row-major rank of the fused indices; flatten fuses all axes; conversion to a view with a fixed number of axes keeps all elements and refuses other numbers of axes.", "quantifier": "all shapes, strides and axes", "why_tests_cant": "Square shapes and contiguous tensors hide a wrong factor.", "anchors": ["tensor_views/RtensorView.hpp:188-232", "tensor_views/RtensorView.hpp:290-323"]}
{"id": "C178", "title": "Complex views as real ones and as lists", "statement": "as_real gives a view with one more axis of side 2 holding real and imaginary parts, and refuses parts that are not adjacent. gtensor lists the elements in row-major order.", "quantifier": "all complex views with row-major or interleaved storage, any memory", "why_tests_cant": "Only the values tell whether a flat position was turned into the right index, and only for storage that is not contiguous.", "anchors": ["tensor_views/CtensorView.hpp:67-70", "tensor_views/CtensorView.hpp:232-238"]}
{"id": "C179", "title": "Assigning, adding and incrementing on a graphics card reach every element once", "statement": "When a tensor on a CUDA device is assigned or added from another tensor of the same shape, or incremented by a number, then for every order in which the threads of each launch run, every element gets its new value exactly once and no other memory changes; operands of other shapes are refused.", "quantifier": "all element types and statements, all layouts of target and sources without shared cells, all memory contents, all orders of the threads of each launch, all shapes", "why_tests_cant": "Tests use a few small shapes; the kernels chosen, and the device's launch limits, depend on the sides, and the order of threads is not under the test's control.", "anchors": ["cuda/TensorView_assign.cu:26-130", "cuda/TensorView_add.cu:26-130", "cuda/TensorView_inc.cu:26-129", "tensors/TensorView_cumulative_ops.inc:24-38", "tensors/functions/TensorView_add.hpp:33-87"]}
{"id": "C180", "title": "Reducing a device view along its middle axis sums its rows", "statement": "The in-place reduction of a view with three axes on a CUDA device makes position 0 of the middle axis the sum over the middle axis, for every order of the threads of each launch, and changes nothing outside the view.", "quantifier": "all sides, all strides, all memory contents, all orders of the threads of each launch", "why_tests_cant": "The number of rounds, the sizes of the launches and the interleaving of threads depend on the sides and on the device; tests see a few sizes and one schedule.", "anchors": ["cuda/RtensorReduce.cu:27-66"]}
{"id": "C181", "title": "Gathering slices on the device adds to each target slice the slices its row names", "statement": "When both tensors are on the device, gathering along the first axis with a map whose rows have pairwise different targets adds, to every element of every target slice, the sum of the elements at the same place in the source slices that the row names. Slices no row targets and all memory outside the target stay as they were, whatever order the threads run in.", "quantifier": "All maps (any number of rows of any length), all strides, all contents, all numbers of slices and all orders of the threads; slices with one to three axes (four when three fit in a block) whose last side is below 1024; target and source disjoint.", "why_tests_cant": "A device test sees one order of the threads and a few shapes; the failures are tied to the launch limits (last side 1024, or above 64 in a three-axis block) and report no error, and one kernel uses the wrong stride only where the two layouts differ.", "anchors": ["cuda/TensorView_gather.cu:24-337", "containers/array_pool.hpp:336-348", "hpc/GatherSlices.hpp:161-169"]}
{"id": "C182", "title": "Two-dimensional convolution on a device adds the bank of filters", "statement": "RtensorConvolve2d on device views with columns (4 axes) and batches of them (5 axes) adds to every element of r the sum over the filter positions and input channels of x times w, x counting as zero outside its range, in whatever order the threads run, and changes nothing else.", "quantifier": "all views r, x, w with matching sides and any strides, all sizes, all values in a commutative ring, all orders of the threads of the launch", "why_tests_cant": "The tests never run on a device; which sizes exceed the launch limits or how the threads are ordered cannot be enumerated.", "anchors": ["cuda/RtensorConvolve2d.cu:32-165", "tensor_views/functions/RtensorConvolve2d.hpp:69-122"]}
{"id": "C183", "title": "Three-dimensional convolution on a device adds the bank of filters", "statement": "RtensorConvolve3d on device views without columns (4 axes), with columns (5 axes) and in batches (6 axes) adds to every element of r the sum over the filter positions and input channels of x times w, x counting as zero outside its range, in whatever order the threads run, and changes nothing else.", "quantifier": "all views r, x, w with matching sides and any strides, all sizes, all values in a commutative ring, all orders of the threads of the launch", "why_tests_cant": "The tests never run on a device; which sizes exceed the launch limits or how the threads are ordered cannot be enumerated.", "anchors": ["cuda/RtensorConvolve3d.cu:34-281", "tensor_views/functions/RtensorConvolve3d.hpp:35-132"]}
{"id": "C184", "title": "Copying and moving tensors between the host and the graphics card keeps their elements", "statement": "A tensor copied to another device (copy constructor with a device argument, copy(dev)) has the same sides and elements as the source, on host and card alike, and move_to_device leaves every element of the tensor as it was, with all other memory unchanged. Proved for row-major tensors between any two devices, and for matrices with any strides copied from the card to the host whenever one launch has a thread for every element, whatever the order in which threads run. Refuted: a host matrix that is not row-major, or a host vector with stride other than 1, is never copied to the card (the assignment calls itself without end); a column-major matrix moved from the card to the host comes back with its elements in other places.", "quantifier": "for all tensors of any rank and size with row-major strides, all device pairs, all n x k matrices with any strides (card to host), all thread orders, all stack depths (refutation), all memory contents", "why_tests_cant": "Tests run on CPU-only builds or with row-major tensors; a transposed view moved to the card needs a GPU build, and the endless recursion or the scrambled elements appear only for strided views.", "anchors": ["tensors/functions/TensorView_assign.hpp:37-99", "tensors/TensorView.hpp:266-276", "tensors/TensorView.hpp:231-242"]}
{"id": "C185", "title": "Matrix products on a device add the product of the factors", "statement": "On a device, add_matmul_AA, add_matmul_AT, add_matmul_TA and add_mprod of matrix views, and add_mprod of a matrix with a batch of matrices, add to every element of the result the sum of products that the host code adds, in whatever order the library updates the elements, and change nothing else. Proved when the elements of each row are adjacent and rows are at least their length (and at least 1) apart. Refuted: a factor that repeats one row or a product over an empty range ends the program; add_mprod adds nothing for other layouts; in batches the last strides of the result and of the batch are never looked at.", "quantifier": "all matrix and batch sizes, all row distances, all values in a commutative ring, all update orders", "why_tests_cant": "The tests do not run on a device, and only one order of updates can be observed in a run; row distances and sizes cannot be enumerated.", "anchors": ["tensor_views/Rtensor2_view.hpp:220-326", "tensor_views/Rtensor3_view.hpp:192-221", "include/Cnine_base_CUDA.hpp:30-57"]}
{"id": "C186", "title": "Sums and scalings on a device", "statement": "On a device, add(x,c) of vector views adds c times x, add_broadcast0(x,c) adds c times x to every row, reduce() returns the sum of the elements, and inplace_times(c) multiplies every element by c. Proved for add with any strides that are not negative, for add_broadcast0 on rows of adjacent elements, and for reduce() when no element is negative. Refuted: reduce() adds up absolute values; inplace_times(c) multiplies by 1+c.", "quantifier": "all vector lengths and strides, all values in a commutative ring (integers for reduce), all update orders", "why_tests_cant": "The tests do not run on a device; reduce() is right on every test vector without negative elements.", "anchors": ["tensor_views/Rtensor1_view.hpp:183-220", "tensor_views/Rtensor2_view.hpp:534-553", "tensors/TensorView.hpp:486-500"]}
{"id": "C187", "title": "Copying and adding fixed-rank tensor views on a device", "statement": "On a device, set(x) of vector, matrix and 3-tensor views copies every element of x, and add(x) and add(x,c) of matrix and 3-tensor views add x or c times x, whatever the strides and the order of the threads. Proved for adjacent vectors and matrices, for strided vectors whose length is a multiple of 1024, for strided matrices of up to 65535 columns or 1024 rows, for 3-tensors with two sides whose product is at most 1024, and for add of adjacent 3-tensors. Refuted: the last n mod 1024 elements of a strided vector are not copied; of adjacent 3-tensors only the first n0*n1 elements are copied; small 3-tensors with a last side over 64 are left as they were; larger 3-tensors with other strides are written behind the end of the array; add(x,c) of matrices ends the program.", "quantifier": "all view shapes, strides and offsets, all contents, all orders of threads", "why_tests_cant": "The tests do not run on a device, and the wrong cases depend on sides and strides (a multiple of 1024, a side over 64) that a test would have to guess.", "anchors": ["tensor_views/Rtensor1_view.hpp:161-171", "tensor_views/Rtensor2_view.hpp:163-214", "tensor_views/Rtensor3_view.hpp:130-165", "cuda/CUDAhelpers.hpp:29-128", "cuda/RtensorUtils.cu:361-445"]}
{"id": "C188", "title": "Sums along an axis on a device", "statement": "On a device, sum0_into(r) adds to element j of r the sum of column j, avg0_into(r) that sum divided by the number of rows, and sum1_into(r) adds to element (i,j) of r the sum over the middle axis. Proved for matrices of any shape and strides, and for 3-tensors whose last side is at most 1024. Refuted for longer last sides: sum1_into does nothing.", "quantifier": "all shapes, strides and offsets, all values in a commutative ring, all orders of threads", "why_tests_cant": "The tests do not run on a device; the lost case needs a last side over 1024.", "anchors": ["tensor_views/Rtensor2_view.hpp:394-422", "tensor_views/Rtensor3_view.hpp:253-268", "cuda/RtensorUtils.cu:225-260", "cuda/RtensorUtils.cu:459-489"]}
{"id": "C189", "title": "Rectifying vectors on a device", "statement": "On a device, add_ReLU(x,alpha) adds to every element of a vector the rectified element of x, and add_ReLU_back adds the gradient where x is positive and alpha times the gradient elsewhere. Refuted: the elements are replaced instead of added to; proved for what replaces them, and for add_ReLU on a vector of zeros.", "quantifier": "all vector lengths, offsets and values in a commutative ring with any test for positive elements, all orders of threads", "why_tests_cant": "The tests do not run on a device, and a test starting from a zero vector passes.", "anchors": ["tensor_views/Rtensor1_view.hpp:236-259", "cuda/RtensorUtils.cu:322-334", "cuda/RtensorUtils.cu:560-581"]}
{"id": "C190", "title": "Destructive reductions and broadcasts on a device", "statement": "On a device, reduce0_destructively() of a matrix makes row 0 the sum of its rows, reduce1_destructively() makes column 0 the sum of its columns, reduce0_destructively_into(r) adds the sums of the columns to r, reduce1_destructively() of a 3-tensor makes its slices 0 along the middle axis the sum of those slices, and broadcast0(x) makes every row equal to x; memory outside the operands does not change. Wrong sizes are rejected.", "quantifier": "all matrices and 3-tensors of every size and layout, all contents over any commutative ring, all orders of the updates within each library call or kernel launch", "why_tests_cant": "The rounds halve a power of two that depends on the number of rows, and each round is a parallel launch that reads and writes the same array; tests run a few sizes on one schedule, and need a GPU.", "anchors": ["tensor_views/Rtensor2_view.hpp:435-508", "tensor_views/Rtensor3_view.hpp:352-393", "cuda/RtensorUtils.cu:212-218", "cuda/RtensorUtils.cu:448-456"]}
{"id": "C191", "title": "Adding scaled columns on a device", "statement": "On a device, r.add_scale_columns(x,y) and r.add_mul_columns(x,y) add x(i,j)*y(j) to every element r(i,j), as they do on the CPU, and reject operands of the wrong rank or sizes.", "quantifier": "all matrices r and x and vectors y of every size, all contents over any commutative ring, all orders of the updates within the library call", "why_tests_cant": "The device branch is one library call whose arguments decide which matrix is read and written; no test without a GPU can execute it.", "anchors": ["tensors/TensorView.hpp:636-680"]}
{"id": "C192", "title": "Products of complex matrices on a device", "statement": "On a device, add_matmul_AA (add_matmul, add_mprod), add_matmul_AH and add_matmul_HA increase the complex matrix r by x*y, x*y^H and x^H*y, and add_mix_1_0 increases the complex 3-tensor r(a,b,c) by the sum over k of x(a,k,c)*y(k,b); nothing else changes, and operands whose sides do not fit are rejected.", "quantifier": "all complex matrices and 3-tensors of every size and layout, all contents over any commutative ring, all orders of the updates within the library call", "why_tests_cant": "Each product is one call of a column-major library with swapped operands, leading dimensions and conjugation flags; tests need a GPU and check a few sizes, where a wrong leading dimension or flag may not show.", "anchors": ["tensor_views/Ctensor2_view.hpp:154-257", "tensor_views/Ctensor3_view.hpp:170-211"]}
{"id": "C193", "title": "Sums of complex matrices and 3-tensors on a device", "statement": "On a device, r.add(x) adds to every real and imaginary part of the complex matrix or 3-tensor r that of x, changes nothing else, and rejects operands of other sides or of a layout it cannot handle.", "quantifier": "all complex matrices and 3-tensors of every size and layout, all contents over any commutative ring, all orders of the updates within the library call", "why_tests_cant": "How many floats the library call adds depends on the sides; no test without a GPU executes it.", "anchors": ["tensor_views/Ctensor2_view.hpp:138-152", "tensor_views/Ctensor3_view.hpp:152-166"]}
{"id": "C194", "title": "Products along the last axis of complex tensors on a device", "statement": "For views on a device, r.add_mix_2_0(x,y) and r.add_mix_2_H(x,y) of rank 3, and r.add_mix_3_0(x,y) and r.add_mix_3_H(x,y) of rank 4, increase every element of r by the product of the corresponding last row of x with the matrix y, or with its conjugate transpose; nothing outside r changes.", "quantifier": "all sides, all layouts of the operands, all contents of memory, all orders in which the device performs the updates", "why_tests_cant": "The result depends on the layout of operands with arbitrarily many slices and on the order of the updates; tests run a few sizes without gaps on one device.", "anchors": ["tensor_views/Ctensor3_view.hpp:253-259", "tensor_views/Ctensor3_view.hpp:292-294", "tensor_views/Ctensor4_view.hpp:135-141", "tensor_views/Ctensor4_view.hpp:188-190"]}
{"id": "C195", "title": "Contractions and outer products of complex tensors on a device", "statement": "For views on a device, x.add_contract_aib_aib_ab_to(r,y) and x.add_contract_abic_bic_abc_to(r,y) increase every element of r by the sum over i of the products of the elements of x and y, and r.add_expand_2(x,y) increases r(a,b,d,c) by x(a,b,c)*y(b,d,c); nothing outside r changes; sides that do not fit are rejected.", "quantifier": "all sides, all layouts of the operands, all contents of memory, all orders in which the threads of a launch run", "why_tests_cant": "Which kernel runs, and whether the launch is legal, depends on products of sides over an unbounded range; tests run a few small shapes on one device.", "anchors": ["cuda/BasicCtensorProducts.cu:160-220", "tensor_views/BasicCtensorProducts.hpp:54-130", "tensor_views/Ctensor3_view.hpp:263-274", "tensor_views/Ctensor4_view.hpp:145-166"]}
{"id": "C196", "title": "Einstein sums of two real arrays on a device", "statement": "The device functions Rtensor_addEinsum_p_q_0_cu (p=0..3 indices of the result, q=0..2 summed indices, the combinations that cuda/RtensorEinsumProducts.cu defines) add to every element r(i) the sum over j of x(i,j)*y(i,j), addressed through the strides given for x, y and r, and change no other memory. They do so for every order in which the threads of a launch run.", "quantifier": "For all arrays x, y, r, all strides for which the elements of r are distinct and do not overlap x or y, all sides that a launch allows, all numbers of summed indices, all memories and all thread orders.", "why_tests_cant": "A test runs a few shapes, usually with equal or trivial strides and one thread order. The functions choose between up to four kernels by the size of the result, and stride mistakes do not show for arrays of the usual layout.", "anchors": ["cuda/RtensorEinsumProducts.cu:97-247", "cuda/RtensorEinsumProducts.cu:258-261", "cuda/RtensorEinsumProducts.cu:263-272", "cuda/RtensorEinsumProducts.cu:274-291", "cuda/RtensorEinsumProducts.cu:293-316", "cuda/RtensorEinsumProducts.cu:319-325", "cuda/RtensorEinsumProducts.cu:327-339", "cuda/RtensorEinsumProducts.cu:341-359", "cuda/RtensorEinsumProducts.cu:361-385", "cuda/RtensorEinsumProducts.cu:388-394", "cuda/RtensorEinsumProducts.cu:396-408", "cuda/RtensorEinsumProducts.cu:410-428", "cuda/RtensorEinsumProducts.cu:430-451"]}
{"id": "C197", "title": "Copying a tensor together with its strides", "statement": "x.copy_keeping_strides() returns a new tensor with the sides and strides of x, in memory of its own, whose elements equal those of x; nothing else changes. A tensor constructed from sides and strides has memory for all its elements, and sides and strides of different number are rejected.", "quantifier": "all element types, all ranks, sides, strides and offsets for which the elements of x are distinct, all contents of memory", "why_tests_cant": "The size of the new array is a maximum over the axes, which is enough for some layouts and too small for others; a write behind the array often goes unnoticed in a test.", "anchors": ["tensors/TensorView.hpp:244-249", "tensors/TensorView.hpp:125-131", "tensors/TensorView.hpp:133-138", "include/GstridesB.hpp:142-150"]}
{"id": "C198", "title": "Products of matrices on different devices", "statement": "r.add_mprod(x,y), r.add_mprod_AH(x,y) and r.add_mvprod(x,y) for real tensors, each of r, x and y being on the host or on a graphics card: an operand that is not on r's device is copied there first. Afterwards every element of r has gained the corresponding element of the matrix product (with y transposed for AH), computed from the values x and y had before the call, whatever the order in which the device threads run. x, y and everything else in memory, other than the two temporary copies, is as it was. Sides that do not fit throw.", "quantifier": "for all coefficient rings, all sizes including zero, all placements of the three tensors, all layouts, all memories and all thread orders", "why_tests_cant": "Each of the eight placements, the layouts of the operands and every interleaving of the device threads is a separate case. The transposed host operand that makes the copy recurse for ever, and the device matrix-vector product that prints a message and computes nothing, only show up on a machine with a card.", "anchors": ["include/device_helpers.hpp:39-52", "include/device_helpers.hpp:55-68", "tensors/TensorView.hpp:515-535", "tensors/TensorView.hpp:561-573", "tensors/TensorView.hpp:576-588", "tensors/TensorView.hpp:266-269"]}
{"id": "C199", "title": "Aggregating rows by a mask on a device", "statement": "Aggregator(r,x,mask) and Ctensor2view_accumulator(r,x,mask) for complex matrices r and x on a graphics card: whatever the order in which the device threads run, every element (i,k) of r has afterwards gained the sum of v*x(j,k) over the entries (i,j,v) pushed into the mask, real and imaginary parts alike, and everything else in memory is as it was. The result is the same as on the host. Matrices with different numbers of columns are rejected.", "quantifier": "for all masks built by any sequence of pushes, inversions, copies and moves, all numbers of rows and columns, all memories and all thread orders", "why_tests_cant": "The kernel only runs on a machine with a card. It handles half of the cells of each row, so any test on a few columns shows it, but no test shows which cells are right for every mask, width and interleaving. The width at which the call is refused depends on the shared memory of a block.", "anchors": ["cuda/TensorView_accumulators.cu:29-65", "cuda/TensorView_accumulators.cu:70-89", "include/Rmask1.hpp:125-166", "tensor_views/Aggregator.hpp:52-62", "tensor_views/TensorView_accumulator.hpp:41-51"]}
{"id": "C200", "title": "Maps keyed by several indices", "statement": "double_map, triple_map, quadruple_map and quintuple_map: after any sequence of reads M(i1,..) and assignments M(i1,..)=o, reading M(i1,..) gives the object last assigned to exactly these indices, or a default object if none was assigned; assignments to other index tuples, including ones with the same hash value or with the same indices in another order, and growth of the table make no difference. The map has an entry for exactly the tuples read or assigned. operator< of double_index is a strict total order, comparing the first indices first.", "quantifier": "for all index types with an equality and a hash function (arbitrary, so with any collisions), all object types, all histories and all moments at which the table grows", "why_tests_cant": "Collisions depend on the values of the standard library's hash functions and on the number of buckets; tests meet few of them and never all orders of growth and insertion.", "anchors": ["containers/double_map.hpp:24-80", "containers/triple_map.hpp:24-74", "containers/quadruple_map.hpp:24-76", "containers/quintuple_map.hpp:24-78"]}
{"id": "C201", "title": "Small vectors own their memory through any history", "statement": "After any history of constructing, copying, moving, transporting between host and graphics card, writing and destroying vectors of class minivec, no call reads, writes or frees memory it may not; every live vector has the device, size and elements that the same history gives for plain values (a copy is independent of its source, a moved vector hands its elements and device over); and once all vectors are destroyed nothing stays allocated. The constructor with a fill value makes a vector of that many equal elements on the given device.", "quantifier": "all element types, all finite histories of calls over any number of vectors of any size on the host or the card", "why_tests_cant": "Ownership bugs depend on the order of copies, moves and destructions over several objects, and on a device tests rarely have; memory errors and leaks often show no wrong value.", "anchors": ["containers/minivec.hpp:28-48", "containers/minivec.hpp:50-54", "containers/minivec.hpp:60-71", "containers/minivec.hpp:79-107", "containers/minivec.hpp:117-131"]}
