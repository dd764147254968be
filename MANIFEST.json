{
 "claims": [
  {
   "property": "C01",
   "status": "proved",
   "theorems": [
    "C01_flat_multi_flat",
    "C01_multi_flat_multi",
    "C01_element_count"
   ],
   "note": ""
  },
  {
   "property": "C02",
   "status": "partial",
   "theorems": [
    "C02_index_iteration",
    "C02_rank0_refuted"
   ],
   "note": "Holds for rank >= 1; for rank 0 the callback is never called (C02_rank0_refuted)."
  },
  {
   "property": "C03",
   "status": "proved",
   "theorems": [
    "C03_row_major_bijection"
   ],
   "note": ""
  },
  {
   "property": "C04",
   "status": "partial",
   "theorems": [
    "C04_contiguous_solid",
    "C04_regular_is_row_major",
    "C04_contiguous_broadcast_refuted"
   ],
   "note": "Proved for strides without broadcast; a broadcast view counts as contiguous (C04_contiguous_broadcast_refuted)."
  },
  {
   "property": "C05",
   "status": "proved",
   "theorems": [
    "C05_cat_counts",
    "C05_insert_then_remove",
    "C05_remove_then_insert",
    "C05_chunks_cat",
    "C05_permute_inverse",
    "C05_permute_count",
    "C05_fuse"
   ],
   "note": ""
  },
  {
   "property": "C06",
   "status": "proved",
   "theorems": [
    "C06_symmetric",
    "C06_injective",
    "C06_in_bounds",
    "C06_covers"
   ],
   "note": ""
  },
  {
   "property": "C07",
   "status": "proved",
   "theorems": [
    "C07_transpose",
    "C07_transpose_ab",
    "C07_permute"
   ],
   "note": ""
  },
  {
   "property": "C08",
   "status": "proved",
   "theorems": [
    "C08_slice",
    "C08_slices",
    "C08_slice_prefix",
    "C08_rows_and_columns",
    "C08_block"
   ],
   "note": ""
  },
  {
   "property": "C09",
   "status": "partial",
   "theorems": [
    "C09_reshape",
    "C09_squeeze",
    "C09_unsqueeze",
    "C09_unsqueeze_front_refuted",
    "C09_split",
    "C09_fuse",
    "C09_fuse01",
    "C09_fuse01_unchecked_refuted"
   ],
   "note": "unsqueeze(0) reads strides[-1] (refuted theorem); fuse01 does not check the stride condition (refuted theorem); everything else proved."
  },
  {
   "property": "C10",
   "status": "partial",
   "theorems": [
    "C10_insert_dim",
    "C10_cinflate",
    "C10_cinflate_rejects",
    "C10_diag",
    "C10_diag_many",
    "C10_diag_order_refuted"
   ],
   "note": "diag(ix) proved for increasing positions; other orders refuted."
  },
  {
   "property": "C11",
   "status": "proved",
   "theorems": [
    "C11_chain_safe"
   ],
   "note": ""
  },
  {
   "property": "C12",
   "status": "partial",
   "theorems": [
    "C12_block_offsets_checked",
    "C12_block_dims_refuted",
    "C12_negative_offset_refuted"
   ],
   "note": "block(dims,offs) with non-negative offsets proved; block(dims) and negative offsets refuted by concrete counterexamples."
  },
  {
   "property": "C13",
   "status": "partial",
   "theorems": [
    "C13_add",
    "C13_zero_stride_refuted"
   ],
   "note": "Proved for every layout with strides in [0,INT_MAX), at least one of them positive (or rank 0). One-element tensors whose strides are all 0 are left unchanged by the code (C13_zero_stride_refuted)."
  },
  {
   "property": "C14",
   "status": "partial",
   "theorems": [
    "C14_assign",
    "C14_copy"
   ],
   "note": "copy() proved in full; operator= proved for the layouts of C13."
  },
  {
   "property": "C15",
   "status": "proved",
   "theorems": [
    "C15_add_scaled",
    "C15_subtract",
    "C15_subtract_scaled",
    "C15_add_prod"
   ],
   "note": ""
  },
  {
   "property": "C16",
   "status": "proved",
   "theorems": [
    "C16_add_sum"
   ],
   "note": ""
  },
  {
   "property": "C17",
   "status": "partial",
   "theorems": [
    "C17_matrix_product",
    "C17_matrix_product_AT",
    "C17_matrix_vector",
    "C17_matrix_vector_T_partial",
    "C17_adjoint_partial",
    "C17_matrix_vector_T_wide_refuted",
    "C17_matrix_vector_T_tall_refuted"
   ],
   "note": "add_mvprod_T is right for square matrices only; wide matrices run out of bounds and tall ones lose rows (two refuted theorems). The other products are proved in full."
  },
  {
   "property": "C18",
   "status": "partial",
   "theorems": [
    "C18_set_zero_partial",
    "C18_times",
    "C18_add_scalar",
    "C18_sum",
    "C18_norm2",
    "C18_inp",
    "C18_max",
    "C18_set_zero_strided_refuted",
    "C18_broadcast_refuted",
    "C18_add_scalar_rank0_refuted"
   ],
   "note": "set_zero does nothing on non-contiguous views, and every operation that tests is_contiguous runs out of bounds on broadcast views (refuted theorems). inplace_times, sum, norm2, max are proved for all views with non-negative strides and separate cells; inp for all views."
  },
  {
   "property": "C19",
   "status": "partial",
   "theorems": [
    "C19_equality_row_major_partial",
    "C19_layout_refuted"
   ],
   "note": "Proved for row-major tensors; with any other layout operator== returns true (refuted)."
  },
  {
   "property": "C20",
   "status": "proved",
   "theorems": [
    "C20_stack"
   ],
   "note": ""
  },
  {
   "property": "C21",
   "status": "partial",
   "theorems": [
    "C21_self_transpose_refuted",
    "C21_self_same_index_partial"
   ],
   "note": "A.add(A.transp()) is refuted; the index-by-index case is proved."
  },
  {
   "property": "C22",
   "status": "partial",
   "theorems": [
    "C22_no_overlap_partial",
    "C22_alloc_refuted",
    "C22_alloc_partial"
   ],
   "note": "Proved for every history of non-negative request sizes, under both readings of the stale iterator; alloc<TYPE>(n) truncates the byte count to int, so requests of 2 GiB and more are refuted."
  },
  {
   "property": "C23",
   "status": "partial",
   "theorems": [
    "C23_strict_refuted",
    "C23_last_block_refuted",
    "C23_release_partial",
    "C23_whole_arena_partial",
    "C23_reuse_partial"
   ],
   "note": "Strictly every release reads an erased iterator and releasing the last block of an arena dereferences the end iterator (two refuted theorems). Read with the usual behaviour of std::map nodes, coalescing and re-use are proved."
  },
  {
   "property": "C24",
   "status": "proved",
   "theorems": [
    "C24_history",
    "C24_cat",
    "C24_equality"
   ],
   "note": ""
  },
  {
   "property": "C25",
   "status": "partial",
   "theorems": [
    "C25_pushes",
    "C25_presized",
    "C25_filled_constructor_refuted",
    "C25_push_set_refuted",
    "C25_from_map"
   ],
   "note": "Appending rows, pre-sized rows and construction from a map are proved. The constructor without fill_noalloc marks rows as full, and pushing a set of two or more elements loses all but the last (refuted)."
  },
  {
   "property": "C26",
   "status": "proved",
   "theorems": [
    "C26_map_of_lists",
    "C26_map_of_maps",
    "C26_equality"
   ],
   "note": ""
  },
  {
   "property": "C27",
   "status": "partial",
   "theorems": [
    "C27_fresh_history_partial",
    "C27_reinsert_refuted",
    "C27_value_reuse_refuted"
   ],
   "note": "Proved for histories in which each insertion repeats a stored pair or uses a new key and a new value; the other two cases are refuted."
  },
  {
   "property": "C28",
   "status": "proved",
   "theorems": [
    "C28_rows_columns"
   ],
   "note": ""
  },
  {
   "property": "C29",
   "status": "partial",
   "theorems": [
    "C29_history",
    "C29_equality_refuted",
    "C29_equality_of_copies_partial"
   ],
   "note": "Histories proved in full. operator== compares spare capacity and uninitialised cells (refuted); it is right for copies, which carry no spare capacity."
  },
  {
   "property": "C30",
   "status": "proved",
   "theorems": [
    "C30_multivec"
   ],
   "note": ""
  },
  {
   "property": "C31",
   "status": "partial",
   "theorems": [
    "C31_from_lists",
    "C31_from_matrix",
    "C31_from_matrix_checked",
    "C31_from_matrix_sizes",
    "C31_push_back",
    "C31_from_vectors_refuted",
    "C31_gather",
    "C31_gather_columns"
   ],
   "note": "Constructors from lists and from a matrix, push_back and the gather itself (with column factors) are proved. The constructor from two vectors throws for every non-empty input (refuted)."
  },
  {
   "property": "C32",
   "status": "partial",
   "theorems": [
    "C32_inverse",
    "C32_adjoint",
    "C32_graded_refuted"
   ],
   "note": "Proved for maps without fixed-width parts; the inverse of a graded map loses the graded rows (refuted)."
  },
  {
   "property": "C33",
   "status": "partial",
   "theorems": [
    "C33_adjoint",
    "C33_forward",
    "C33_in_place_refuted"
   ],
   "note": "Proved for all programs over any number of variables whose instructions have no column factors and gather between two different variables; an instruction that gathers a variable into itself is refuted."
  },
  {
   "property": "C34",
   "status": "partial",
   "theorems": [
    "C34_grade",
    "C34_sort",
    "C34_sort_order",
    "C34_sort_order_new",
    "C34_sort_after_grade_refuted",
    "C34_columns_refuted"
   ],
   "note": "Grading and sorting keep the entries, and the gathered result, for maps without column factors; a graded map with column factors gives a wrong result (refuted)."
  },
  {
   "property": "C35",
   "status": "partial",
   "theorems": [
    "C35_pack",
    "C35_push_back",
    "C35_push_back_refuted",
    "C35_columns_refuted"
   ],
   "note": "Packs built from a vector are proved for maps without column factors; push_back computes wrong offsets for maps of different sizes and column factors break the row ranges (both refuted)."
  },
  {
   "property": "C36",
   "status": "partial",
   "theorems": [
    "C36_edits_then_inverse",
    "C36_frozen_refuted",
    "C36_stale_refuted"
   ],
   "note": "inv() is right until it has been called once; afterwards every edit leaves the old inverse in place (refuted for all histories of edits)."
  },
  {
   "property": "C37",
   "status": "partial",
   "theorems": [
    "C37_naive",
    "C37_fused_partial",
    "C37_last_dimension_refuted",
    "C37_strided_refuted",
    "C37_rank4_refuted",
    "C37_rank5_refuted"
   ],
   "note": "naive() proved for ranks 1-4 and any strides. operator() is proved when fusing the other axes leaves one or two of unit stride; the last axis throws, other strides exchange source and target, three remaining axes use the wrong size, four do nothing (refuted)."
  },
  {
   "property": "C38",
   "status": "partial",
   "theorems": [
    "C38_weighted",
    "C38_inverse",
    "C38_gather_refuted",
    "C38_from_vectors_refuted",
    "C38_sort_refuted"
   ],
   "note": "The weighted kernel and the weighted inverse are proved. operator() runs the unweighted loop afterwards, the constructor from vectors throws and sort() converts the weights to integers (refuted)."
  },
  {
   "property": "C39",
   "status": "proved",
   "theorems": [
    "C39_observers",
    "C39_copied_observer_refuted",
    "C39_attached_observer_refuted"
   ],
   "note": "Proved for every history of adding, removing, creating and destroying. Outside that history: a copied observer and a direct attach_observer break the invariant (refuted)."
  },
  {
   "property": "C40",
   "status": "proved",
   "theorems": [
    "C40_one",
    "C40_pair",
    "C40_triple",
    "C40_list"
   ],
   "note": "One, two, three and list keys, every history with address reuse."
  },
  {
   "property": "C41",
   "status": "partial",
   "theorems": [
    "C41_object_bank",
    "C41_object_bank_total",
    "C41_once",
    "C41_oncep",
    "C41_default_bank_refuted",
    "C41_null_runs_again_refuted",
    "C41_cachedf_reference_refuted"
   ],
   "note": "Proved for generators that do not return null. A default-constructed object_bank dereferences null, a null-returning generator is run again by oncep/cachedf, and cachedf(std::function<OBJ()>) uses a dangling reference (refuted)."
  },
  {
   "property": "C42",
   "status": "proved",
   "theorems": [
    "C42_loop"
   ],
   "note": "Every interleaving, length and thread limit, including the limits passed to nested loops."
  },
  {
   "property": "C43",
   "status": "partial",
   "theorems": [
    "C43_lost_wakeup_refuted",
    "C43_finite",
    "C43_returns_partial",
    "C43_few_indices"
   ],
   "note": "False as stated: with more indices than threads (at least 2) the wake-up can be lost and the loop never returns (refuted for all such sizes). Proved: every execution is finite up to spurious wake-ups, and it returns unless a worker decrements the counter between the main thread's test and its blocking; always returns for n <= nthreads."
  },
  {
   "property": "C44",
   "status": "partial",
   "theorems": [
    "C44_each_cell_once",
    "C44_sequential",
    "C44_no_grid",
    "C44_shared_views_refuted",
    "C44_two_tensors",
    "C44_third_grid_refuted",
    "C44_batch_multi",
    "C44_batch_multi_refuted",
    "C44_batch_multi3"
   ],
   "note": "Proved for any number of tensors, every schedule and every moment: no (batch, grid index) pair is visited twice and on return all have been visited once (C44_each_cell_once); the cells handed over are exactly the matching ones in row-major order if the target has one batch or only one thread is allowed (C44_sequential), and for every schedule if there is no grid (C44_no_grid). False with a grid and two or more threads: the cell views are shared by the threads, and for all such tensors a schedule is exhibited in which the call for batch 0 gets the cells of batch 1 (C44_shared_views_refuted). Three tensors: a grid only the third has is not traversed (C44_third_grid_refuted). for_each_batch_multi is right for equal batch sizes or a single-batch result, and visits every batch twice, once with a slice beyond x, if only x has one batch (C44_batch_multi_refuted)."
  },
  {
   "property": "C45",
   "status": "proved",
   "theorems": [
    "C45_prime_table",
    "C45_ith_prime"
   ],
   "note": "Every history of extension requests, over unbounded integers."
  },
  {
   "property": "C46",
   "status": "partial",
   "theorems": [
    "C46_exact",
    "C46_equality",
    "C46_lowest_terms",
    "C46_nonpositive_refuted",
    "C46_zero_loops_refuted",
    "C46_maps_differ_refuted"
   ],
   "note": "Proved for every sequence of conversions of positive integers, quotients, products, factored factorials and squared delta factors in a fresh process, in Q; p_not_one/q_not_one included. Missing: the library has no operator==, so equality is stated on exponents; comparing the maps literally is refuted (C46_maps_differ_refuted). Zero and negative integers are outside the quantifier; what happens to them is recorded in the refuted theorems. Conversions to double and strings are not modelled."
  },
  {
   "property": "C47",
   "status": "proved",
   "theorems": [
    "C47_factorials",
    "C47_too_large"
   ],
   "note": "All histories of calls; also shows that every larger argument overflows."
  },
  {
   "property": "C48",
   "status": "partial",
   "theorems": [
    "C48_arithmetic",
    "C48_representatives_refuted",
    "C48_canonical",
    "C48_overflow_refuted"
   ],
   "note": "Sums, differences and negatives are proved congruent for moduli up to 2^30. Refuted: congruent numbers get different representatives, and above 2^30 sums overflow. The class has no multiplication and no operator==."
  },
  {
   "property": "C49",
   "status": "partial",
   "theorems": [
    "C49_product",
    "C49_inverse",
    "C49_group",
    "C49_is_valid",
    "C49_inv_at",
    "C49_equality",
    "C49_in_place_reversed",
    "C49_in_place_refuted"
   ],
   "note": "Composition, inverse, associativity, identity, is_valid, inv(i) and equality are proved for all sizes. The in-place product p*=x is shown to compute x*p (C49_in_place_reversed), so it equals p*x exactly when the two commute (C49_in_place_refuted)."
  },
  {
   "property": "C50",
   "status": "proved",
   "theorems": [
    "C50_ordering",
    "C50_reverse_ordering",
    "C50_ordering_by",
    "C50_always_permutation",
    "C50_unique"
   ],
   "note": "ordering, reverse_ordering and ordering by a comparison, for every strict weak order and every vector; ties keep their original order, which determines the permutation uniquely. For an arbitrary comparison the result is still a permutation."
  },
  {
   "property": "C51",
   "status": "proved",
   "theorems": [
    "C51_enumeration",
    "C51_from_bank"
   ],
   "note": "for_each on every object of the expected shape, and on every object the bank returns after any earlier requests."
  },
  {
   "property": "C52",
   "status": "partial",
   "theorems": [
    "C52_index_partial",
    "C52_rank_partial",
    "C52_rank_inverse_partial",
    "C52_single",
    "C52_count_refuted",
    "C52_zeroed_count_refuted"
   ],
   "note": "operator[] and index are shown inverse to each other and to agree with the enumeration for objects whose counts are right; the bank gives right counts for m=1 (C52_single). For m>=2 the count is accumulated into uninitialised storage (C52_count_refuted), and even from zero it would be (n-m+1)(n+m-2)/2 (C52_zeroed_count_refuted)."
  },
  {
   "property": "C53",
   "status": "proved",
   "theorems": [
    "C53_contains",
    "C53_maximal",
    "C53_order_irrelevant"
   ],
   "note": "Any label type with decidable equality, any collection of paths in any order."
  },
  {
   "property": "C54",
   "status": "proved",
   "theorems": [
    "C54_flat_form",
    "C54_traversals_agree"
   ],
   "note": "All trees with integer labels; the flat form is read back by both traversals, with node positions distinct and parents matching the indexed traversal."
  },
  {
   "property": "C55",
   "status": "proved",
   "theorems": [
    "C55_find",
    "C55_maximal",
    "C55_some_walk"
   ],
   "note": "Any label type; the listing of maximal paths is proved for every order in which the hash tables may be walked."
  },
  {
   "property": "C56",
   "status": "proved",
   "theorems": [
    "C56_symmetric_last_value",
    "C56_edges_once",
    "C56_nedges",
    "C56_nedges_simple"
   ],
   "note": "Any sequence of set calls, tables walked in any order. Also: nedges() halves the number of entries, so it equals the number of edges exactly when there are no self loops (C56_nedges_simple)."
  },
  {
   "property": "C57",
   "status": "partial",
   "theorems": [
    "C57_round_trip_even_loops_partial",
    "C57_odd_loops_refuted"
   ],
   "note": "False as stated: with an odd number of self loops as_int_pool writes one entry past the end of the pool (C57_odd_loops_refuted, all such graphs). With an even number the round trip preserves the neighbour relation and the vertex count; all weights come back as 1."
  },
  {
   "property": "C58",
   "status": "proved",
   "theorems": [
    "C58_spanning_tree",
    "C58_root_range"
   ],
   "note": "Every graph and every root in range; an edge of weight 0 does not count as an edge, and a root out of range is undefined (C58_root_range). Recursion is bounded by fuel; the theorem holds for all sufficiently large fuel."
  },
  {
   "property": "C59",
   "status": "partial",
   "theorems": [
    "C59_planted_subgraphs",
    "C59_self_loop_refuted"
   ],
   "note": "Proved for connected patterns with induced meaning equal weights on every two distinct vertices. Self loops are never compared, so a copy need not preserve them (C59_self_loop_refuted)."
  },
  {
   "property": "C60",
   "status": "partial",
   "theorems": [
    "C60_dense_round_trip",
    "C60_stores_the_nonzeros",
    "C60_transpose_elements",
    "C60_transpose_is_the_transpose",
    "C60_transpose_twice",
    "C60_first_transp",
    "C60_stale_transpose_refuted"
   ],
   "note": "Dense round trip, transpose (entries and stored elements) and double transpose proved for every integer matrix, range checks on or off. Refuted: transp() caches its result and neither set_at nor assignment drops it, so after a change transp() returns the old transpose (C60_stale_transpose_refuted)."
  },
  {
   "property": "C61",
   "status": "partial",
   "theorems": [
    "C61_stored_element",
    "C61_nonzero_entry",
    "C61_absent_element_refuted",
    "C61_diagonal_refuted",
    "C61_tall_matrix_refuted"
   ],
   "note": "Proved for every stored element. Refuted for absent ones: the loop runs over twice as many positions as the row has, so an absent element throws or is answered from the cells after the row (C61_absent_element_refuted, C61_diagonal_refuted), never as zero; with range checks on, the row index is compared with the number of columns, so rows beyond it cannot be read (C61_tall_matrix_refuted)."
  },
  {
   "property": "C62",
   "status": "partial",
   "theorems": [
    "C62_last_write",
    "C62_outside_refused",
    "C62_transpose",
    "C62_equality_of_written",
    "C62_equality_is_equal_entries",
    "C62_stored_zero_refuted",
    "C62_row_access_refuted",
    "C62_vector_equality_one_sided",
    "C62_vector_equality_refuted",
    "C62_dense_round_trip",
    "C62_dense_of_written",
    "C62_from_matrix_refuted",
    "C62_from_list_refuted",
    "C62_csr_elements",
    "C62_csr_sizes_refuted"
   ],
   "note": "Last-write reads, transpose, dense conversions and equality proved for every sequence of in-range writes; equality means equal entries when no zero is stored. Refuted: a stored zero or row(i) on an absent row breaks equality, vector equality is one-sided, from_matrix drops negative entries, from_list throws for every non-empty list, csrmatrix() leaves the sizes 0 by 0."
  },
  {
   "property": "C63",
   "status": "proved",
   "theorems": [
    "C63_blocks",
    "C63_apply",
    "C63_apply_transp",
    "C63_adjoint"
   ],
   "note": "For every mask (repetitions allowed), block shape and data over any commutative ring, with operands in memory not overlapping the result: apply_to and apply_transp_to add the dense product, and they are adjoint."
  },
  {
   "property": "C64",
   "status": "partial",
   "theorems": [
    "C64_listed_pairs_distinct",
    "C64_unlisted_pair_refuted",
    "C64_blocks_tile_storage"
   ],
   "note": "Listed pairs get distinct offsets inside the storage and their dense blocks tile it, for every list and every shape. Refuted: an unlisted pair is reported as offset 0, the block of the first listed pair (C64_unlisted_pair_refuted)."
  },
  {
   "property": "C65",
   "status": "proved",
   "theorems": [
    "C65_one_operand",
    "C65_two_operands",
    "C65_malformed"
   ],
   "note": "Well-formed one- and two-operand strings of any length are parsed into exactly the letter classes of the mathematical definition, and malformed strings are refused."
  },
  {
   "property": "C66",
   "status": "partial",
   "theorems": [
    "C66_add_einsum",
    "C66_call",
    "C66_refuses",
    "C66_fourth_letter_refuted"
   ],
   "note": "Proved for strings without the gather letter S and with at most four transferred/summed/broadcast letters (the code refuses more): add_einsum adds exactly the einsum and operator() returns it, on any strides, provided that when a fourth transferred letter exists its strides in both tensors agree. Refuted without that proviso: the parameter table stores the output stride of the fourth letter from the input (C66_fourth_letter_refuted). Not modelled: gather variants and the GPU path."
  },
  {
   "property": "C67",
   "status": "partial",
   "theorems": [
    "C67_add_einsum",
    "C67_call",
    "C67_too_many",
    "C67_fourth_letter_refuted",
    "C67_gather_letter_refuted"
   ],
   "note": "Proved for strings without S and *, including convolution letters, on any strides, with the size limits the code checks and the fourth-letter proviso of C66. Refuted in general: the fourth transferred letter uses a wrong stride (C67_fourth_letter_refuted) and letters S or * are silently dropped (C67_gather_letter_refuted). GPU path not modelled."
  },
  {
   "property": "C68",
   "status": "partial",
   "theorems": [
    "C68_one_channel",
    "C68_channels",
    "C68_columns",
    "C68_convolve1d",
    "C68_batched_refuted"
   ],
   "note": "Proved for one-channel (sets), multi-channel and multi-column (adds) input of any sizes, strides and padding, and for convolve1d. Refuted for batches: tensors of four or five dimensions are silently left unchanged, and convolve1d refuses four dimensions (C68_batched_refuted, for all such inputs)."
  },
  {
   "property": "C69",
   "status": "partial",
   "theorems": [
    "C69_adjoint",
    "C69_input_gradient",
    "C69_input_gradient_shifted_refuted",
    "C69_filter_gradient"
   ],
   "note": "Adjointness of the derivative formulas, and the filter gradient (batches included, sequential execution) in general; the input gradient whenever the two centred paddings match. Refuted otherwise: when R-X+W-1 is odd the input gradient is that of a correlation shifted by one (C69_input_gradient_shifted_refuted, characterised for all sizes). The convolution letters of einsum are covered by C77."
  },
  {
   "property": "C70",
   "status": "partial",
   "theorems": [
    "C70_string",
    "C70_int",
    "C70_numerals",
    "C70_vector",
    "C70_vector_vector",
    "C70_lookup",
    "C70_dictionary",
    "C70_dictionary_lookup",
    "C70_dictionary_refuted",
    "C70_blank_refuted",
    "C70_empty_refuted",
    "C70_empty_object_refuted"
   ],
   "note": "Strings, ints, non-empty int vectors and vectors of non-empty vectors are read back; a dictionary filled by any assignments with plain keys and values and at most 1000 keys is parsed back from its text. The full statement is false: no text parses into more than 1000 entries, a nested dictionary, or keys or values with blanks or closing braces (general refutation); an empty vector is read as one indeterminate element, and an empty object parses as invalid. Elements of vectors are ints; floating-point elements and initializer lists are not modelled."
  },
  {
   "property": "C71",
   "status": "partial",
   "theorems": [
    "C71_batch2",
    "C71_batch3",
    "C71_batch4",
    "C71_order",
    "C71_grid2",
    "C71_cells2",
    "C71_grid3_ignores_third",
    "C71_grid4_ignores_third",
    "C71_grid3_refuted",
    "C71_grid3_mismatch_refuted"
   ],
   "note": "Batch sizes of two, three and four tensors, and grids and cells of two tensors, are reconciled exactly as claimed and independently of the order. The grid of the third of three or four tensors is never looked at, so the claim fails for them (C71_grid3_refuted, C71_grid3_mismatch_refuted, C71_grid3_ignores_third, C71_grid4_ignores_third)."
  },
  {
   "property": "C72",
   "status": "proved",
   "theorems": [
    "C72_sorted_distinct_rows"
   ],
   "note": "Integer entries (a strict total order on entries); every matrix view with any strides."
  },
  {
   "property": "C73",
   "status": "proved",
   "theorems": [
    "C73_leibniz",
    "C73_multilinear",
    "C73_alternating",
    "C73_identity",
    "C73_other_shapes"
   ],
   "note": "Any commutative ring; any strides."
  },
  {
   "property": "C74",
   "status": "partial",
   "theorems": [
    "C74_identity",
    "C74_transposition",
    "C74_random",
    "C74_contiguous_cycle_refuted"
   ],
   "note": "Identity, transposition and random are proved, the latter for every sequence of draws in range. contiguous_cycle writes outside its array or returns a non-permutation for every argument pair except (0,n) (C74_contiguous_cycle_refuted)."
  },
  {
   "property": "C75",
   "status": "partial",
   "theorems": [
    "C75_growth",
    "C75_copy_refuted"
   ],
   "note": "Stores, resizes and reads are proved for all histories; the copy constructor copies no entries (C75_copy_refuted)."
  },
  {
   "property": "C76",
   "status": "proved",
   "theorems": [
    "C76_path_of_labels"
   ],
   "note": "All trees built by additions, all label collections."
  },
  {
   "property": "C77",
   "status": "partial",
   "theorems": [
    "C77_one_operand",
    "C77_in_y",
    "C77_in_x",
    "C77_long_filter_refuted",
    "C77_five_letters_refuted",
    "C77_four_letters_refuted"
   ],
   "note": "Gradients proved equal to the exact derivative sums for one and two operands, convolution letters included, when the backward letter tables fit (at most four transferred, three contracted) and filters are no longer than the result (x-gradient). Refuted beyond: C77_long_filter_refuted (out-of-bounds read), C77_five_letters_refuted (table overrun is not refused), C77_four_letters_refuted (the fourth summed letter is left out)."
  },
  {
   "property": "C78",
   "status": "partial",
   "theorems": [
    "C78_one_channel",
    "C78_channels",
    "C78_columns",
    "C78_batches",
    "C78_convolve2d",
    "C78_batched_result_refuted"
   ],
   "note": "Proved for every rank the in-place form accepts, batches included, and for the value-returning form on 2, 3 and 4 dimensions. Refuted for the value-returning form on batches (5 dimensions): the result is made without the batch dimension (and with the first length twice), so every call throws. Batches run in sequence in the model."
  },
  {
   "property": "C79",
   "status": "partial",
   "theorems": [
    "C79_adjoint",
    "C79_input_gradient",
    "C79_input_gradient_shifted_refuted",
    "C79_filter_gradient"
   ],
   "note": "Proved for the filter gradient at all sizes and for the input gradient when the paddings match along both axes (even slack, or no overlap with the padding). Refuted otherwise: the input gradient is that of a correlation shifted by one along each mismatched axis. Threads of the batched filter gradient race on the filter; the model runs them in sequence."
  },
  {
   "property": "C80",
   "status": "partial",
   "theorems": [
    "C80_add",
    "C80_sub",
    "C80_neg",
    "C80_times",
    "C80_add_scalar",
    "C80_sub_scalar",
    "C80_scalar_sub",
    "C80_mprod",
    "C80_odot",
    "C80_sum",
    "C80_rank0_refuted",
    "C80_matvec_refuted"
   ],
   "note": "Proved for all shapes and strides (scalar addition and odot for rank at least one; matrix product for two matrices). Refuted: for rank 0 adding a scalar changes nothing and odot returns 0 (C80_rank0_refuted, general); matrix times vector is undefined behaviour although the operator computes its shape (C80_matvec_refuted, general)."
  },
  {
   "property": "C81",
   "status": "partial",
   "theorems": [
    "C81_add_tprod",
    "C81_kron",
    "C81_oplus",
    "C81_kron_rank_refuted",
    "C81_oplus_rank0_refuted"
   ],
   "note": "Proved for kron and add_tprod of ranks 1 to 3 and oplus of rank at least one, any sides and strides. Refuted: kron of rank 0 or at least 4 returns zeros (C81_kron_rank_refuted, general); oplus of two scalars returns the second."
  },
  {
   "property": "C82",
   "status": "partial",
   "theorems": [
    "C82_constant",
    "C82_ones",
    "C82_sequential",
    "C82_identity",
    "C82_identity_refuses",
    "C82_unit",
    "C82_scalar",
    "C82_vec",
    "C82_mat",
    "C82_map",
    "C82_ragged_refuted",
    "C82_unit_outside_refuted"
   ],
   "note": "Proved for all shapes; list of rows only for rows of equal length. Refuted: rows of unequal length are not detected (out-of-bounds write, overwritten row, padding); a unit vector with its one outside the range writes outside the block."
  },
  {
   "property": "C83",
   "status": "partial",
   "theorems": [
    "C83_for_each",
    "C83_zip2",
    "C83_zip3",
    "C83_zip_refuses",
    "C83_rank0_refuted"
   ],
   "note": "Proved for all shapes of rank at least one and arbitrary functions and state. Refuted: the element of a rank-0 tensor is never visited (C83_rank0_refuted, general)."
  },
  {
   "property": "C84",
   "status": "partial",
   "theorems": [
    "C84_min",
    "C84_max_abs",
    "C84_diff2",
    "C84_free_min_refuted",
    "C84_diff2_shape_refuted"
   ],
   "note": "Proved for min, max_abs (integers) and diff2 (any ring, equal shapes). Refuted: the free function min returns the greatest element (C84_free_min_refuted, general); diff2 of equal sizes but different shapes pairs wrong elements or reads outside the tensor."
  },
  {
   "property": "C85",
   "status": "partial",
   "theorems": [
    "C85_fill",
    "C85_set",
    "C85_add",
    "C85_add_scalar",
    "C85_add_scaled",
    "C85_add_scaled_rank3_refuted",
    "C85_corner",
    "C85_sizes",
    "C85_ReLU",
    "C85_ReLU_refuted"
   ],
   "note": "proved for vectors and matrices of any strides and for 3-tensors, with the corner behaviour and the size checks. Refuted: add(x,c) of two regular 3-tensors ignores c, for all such views; add_ReLU with different strides reads x with the stride of r (a witness). With equal strides add_ReLU is proved."
  },
  {
   "property": "C86",
   "status": "partial",
   "theorems": [
    "C86_batched_AA_rows",
    "C86_matmul",
    "C86_mprod",
    "C86_mprod_refuted",
    "C86_vector",
    "C86_outer",
    "C86_batched",
    "C86_batched_AA_refuted"
   ],
   "note": "proved for the explicit products, matrix-vector, outer and batched products and for add_mprod with a regular result and a regular or transposed factor. Refuted: in every other layout add_mprod changes nothing, for all such views; the deprecated product of a 3-tensor with a matrix throws whenever the result matrices are not square, and otherwise fills only as many rows as there are batches."
  },
  {
   "property": "C87",
   "status": "partial",
   "theorems": [
    "C87_sum",
    "C87_sum_into",
    "C87_sum1_const_refuted",
    "C87_sum_into3",
    "C87_reduce",
    "C87_reduce_refuted",
    "C87_reduce_into",
    "C87_reduce3",
    "C87_reduce3_into"
   ],
   "note": "proved for all axes and shapes except those refuted: the overload of sum1_into for const matrices throws unless the matrix is square, and reduce0_destructively of a regular matrix with one row doubles it, both for all such inputs. 3-tensor reductions along axes 0 and 2 need a regular tensor, as the code asserts; axis 0 with one slice and 1x1x1 tensors meet the same doubling and are left out."
  },
  {
   "property": "C88",
   "status": "partial",
   "theorems": [
    "C88_broadcast",
    "C88_no_rows_refuted",
    "C88_add",
    "C88_alpha_refuted",
    "C88_broadcast3",
    "C88_strided_refuted"
   ],
   "note": "proved for targets with at least one row and, for 3-tensors, sources whose rows follow each other. Refuted: broadcast0 into a regular matrix without rows writes outside it (witness), add_broadcast0 ignores alpha for all inputs, broadcast0 and broadcast2 of 3-tensors misread strided sources (witness)."
  },
  {
   "property": "C89",
   "status": "partial",
   "theorems": [
    "C89_views2",
    "C89_fuse_refuted",
    "C89_views3",
    "C89_from_matrix",
    "C89_vector_block"
   ],
   "note": "all sub-views proved for all strides except fuse01 of a matrix, which is proved when the rows follow each other and refuted for every other matrix with at least two rows and one column."
  },
  {
   "property": "C90",
   "status": "partial",
   "theorems": [
    "C90_givens",
    "C90_givens_rank3_refuted",
    "C90_isometry",
    "C90_scale"
   ],
   "note": "matrices: proved. 3-tensors: refuted for all inputs, the second slice gets the opposite sign (the source says hack); the exact effect is proved. Norm preservation and scaling are proved for both ranks. The index and coefficient tensors are modelled as lists."
  },
  {
   "property": "C91",
   "status": "partial",
   "theorems": [
    "C91_numbers",
    "C91_element",
    "C91_add",
    "C91_add_scaled",
    "C91_assign",
    "C91_mismatch",
    "C91_mismatch_rank3_refuted"
   ],
   "note": "Element access, add, add(x,c) and assign are proved for all shapes and strides (regular and strided paths), mismatches refused in rank 1 and 2. Refuted: rank-3 add does not compare the last side and then writes outside r (C91_mismatch_rank3_refuted)."
  },
  {
   "property": "C92",
   "status": "partial",
   "theorems": [
    "C92_matmul",
    "C92_mix_1",
    "C92_mix_2",
    "C92_mix_rank4",
    "C92_mix_rank4_last",
    "C92_contract_partial",
    "C92_contract_rank4_partial",
    "C92_expand_partial",
    "C92_contract_refuted",
    "C92_expand_refuted",
    "C92_mismatch",
    "C92_mismatch_refuted",
    "C92_mix_2_refuted"
   ],
   "note": "matmul AA/AH/HA/NA and mix_1 are proved without restriction; mix_2 and the rank-4 forms for views whose fused slices follow each other. Refuted: contract and expand store instead of adding (C92_contract_refuted, C92_expand_refuted; the stored values are proved in the _partial theorems), add_matmul_AA does not compare sides, and mix_2_0 on a result with gaps writes outside it."
  },
  {
   "property": "C93",
   "status": "partial",
   "theorems": [
    "C93_rank1",
    "C93_rank2",
    "C93_rank3",
    "C93_fuse",
    "C93_split2",
    "C93_unsqueeze1_partial",
    "C93_unsqueeze1_refuted",
    "C93_fuse_refuted",
    "C93_fuse_matrix_refuted",
    "C93_split2_refuted"
   ],
   "note": "Slices, transp, flip, split0, unsqueeze0/2, as_real and, for contiguous slices, the fuse forms are proved. Refuted: unsqueeze1 of a matrix uses the wrong stride, fuse01 with gaps, fuse01 of a matrix is s0 times too long, split2 with a tile that does not divide the axis reaches outside."
  },
  {
   "property": "C94",
   "status": "partial",
   "theorems": [
    "C94_plain_partial",
    "C94_channels_partial",
    "C94_batches_partial",
    "C94_blocks_partial",
    "C94_layouts_refuted",
    "C94_convolve2D_partial",
    "C94_row_by_row_refuted",
    "C94_uneven_refuted",
    "C94_gaps_refuted",
    "C94_rejects"
   ],
   "note": "Proved for rank 3 for all sizes and strides when there is padding on the second axis, and without padding when rows of taps follow on in both operands; with channels, for the layouts the matrix product handles. Refuted: for every other layout the result is left as it was (C94_layouts_refuted), in particular convolve2D with channels and a filter stored row by row returns zeros (C94_row_by_row_refuted); sizes that leave one zero to add read past the row (C94_uneven_refuted); rows with gaps are read as if they had none (C94_gaps_refuted)."
  },
  {
   "property": "C95",
   "status": "proved",
   "theorems": [
    "C95_two_d",
    "C95_three_d",
    "C95_converted",
    "C95_convolve2D",
    "C95_convolve3D",
    "C95_rejects"
   ],
   "note": "Ranks 3 to 6 in two dimensions and 4 to 6 in three, any strides, any list of stored taps."
  },
  {
   "property": "C96",
   "status": "partial",
   "theorems": [
    "C96_plain_partial",
    "C96_box_refuted",
    "C96_box_witness_refuted",
    "C96_channels_partial",
    "C96_layouts_refuted",
    "C96_convolve3D_partial",
    "C96_row_by_row_refuted",
    "C96_rejects"
   ],
   "note": "Proved for filters whose second and third axes are equally long, or without padding on the third axis; with channels, for the layouts the matrix product handles. Refuted: a filter with a shorter second axis is cut to that length along the third (C96_box_refuted, general), one with a longer second axis is read beyond its end (C96_box_witness_refuted); filters of other layouts leave the result as it was, so convolve3D with channels and a filter stored row by row returns zeros (C96_row_by_row_refuted)."
  },
  {
   "property": "C97",
   "status": "partial",
   "theorems": [
    "C97_plain_partial",
    "C97_channels_partial",
    "C97_adjoint",
    "C97_uneven_refuted"
   ],
   "note": "Proved for results of the size convolve3D gives, with the restrictions of C96 applied to the reversed filter. Refuted when the sizes leave one zero to add: the gradient is shifted by one (C97_uneven_refuted)."
  },
  {
   "property": "C98",
   "status": "partial",
   "theorems": [
    "C98_reads",
    "C98_sorts",
    "C98_accepts",
    "C98_malformed",
    "C98_last_scalar_refuted",
    "C98_tuple_order"
   ],
   "note": "Proved for every expression whose last tensor has an axis. Refuted otherwise: a last tensor without axes ('i,->i') is dropped, so the expression is read as one with a tensor fewer (C98_last_scalar_refuted)."
  },
  {
   "property": "C99",
   "status": "partial",
   "theorems": [
    "C99_value",
    "C99_value_form",
    "C99_nodes",
    "C99_complete",
    "C99_components",
    "C99_orders",
    "C99_levelwise_equal",
    "C99_root",
    "C99_root_refuted",
    "C99_root_form_refuted"
   ],
   "note": "Proved except for the last clause. The result is in the list of arguments too, so the root never holds it (C99_root_form_refuted), nor does it hold tensors that no contracted index links to it (C99_root_refuted); a tree without contractions has no root (C99_root). Arguments are numbered from 1, because the number is passed by reference to a constructor called after it is increased (C99_nodes)."
  },
  {
   "property": "C100",
   "status": "partial",
   "theorems": [
    "C100_sets",
    "C100_permutations",
    "C100_permutations_refuted",
    "C100_loop_orders",
    "C100_scalar_refuted",
    "C100_order"
   ],
   "note": "Proved for sets with an element. The empty set gets no permutation instead of one (C100_permutations_refuted), so that no loop order at all is tried once some contraction leaves no index (C100_scalar_refuted)."
  },
  {
   "property": "C101",
   "status": "partial",
   "theorems": [
    "C101_shape",
    "C101_batch",
    "C101_cell",
    "C101_cell_of_batch",
    "C101_batched_cell",
    "C101_visits_partial",
    "C101_partition",
    "C101_rejects",
    "C101_unbatched_refuted",
    "C101_no_grid_refuted",
    "C101_outside_refuted"
   ],
   "note": "Proved for all labelled tensors and in-range batches and cells, with the partition into cells and the refusals (C101_shape to C101_rejects); the traversals for a non-empty grid. Refuted: an unbatched tensor reports one batch but for_each_batch throws; for_each_cell of a tensor without grid visits nothing; grid positions and negative batch numbers are not checked."
  },
  {
   "property": "C102",
   "status": "partial",
   "theorems": [
    "C102_batch_and_grid",
    "C102_spec",
    "C102_spec_round_trip",
    "C102_spec_zero_refuted",
    "C102_no_batch_refuted",
    "C102_filled",
    "C102_ones_refuted",
    "C102_copy"
   ],
   "note": "Proved for a positive number of batches, for specifications, for the fills and for copy. Refuted: with batch count 0 the tensor gets a leading dimension of length 0 and has no elements; a tensor with 0 batches loses its batch dimension through its specification; the static function ones returns uninitialised memory."
  },
  {
   "property": "C103",
   "status": "partial",
   "theorems": [
    "C103_fused_partial",
    "C103_fused_rejects",
    "C103_mult_partial",
    "C103_broadcast_refuted",
    "C103_transposed_refuted"
   ],
   "note": "Proved when batch and grid (and, for the product, the rows) are evenly spaced in memory; of y only the first cell enters the product. Refuted: a grid broadcast along its last dimension divides by zero; a transposed grid is counted as one cell."
  },
  {
   "property": "C104",
   "status": "partial",
   "theorems": [
    "C104_columns",
    "C104_unsqueeze",
    "C104_unsqueeze_end_refuted",
    "C104_split_broadcast",
    "C104_diag",
    "C104_fuse_partial",
    "C104_fuse_refuted",
    "C104_stack",
    "C104_stack_list_refuted",
    "C104_stack_refs_refuted"
   ],
   "note": "Proved for col, cols, row, rows, diag, broadcast, unsqueeze (not at the end), split, transp and stack of a vector. fuse is right only if the first fused dimension runs fastest (C104_fuse_partial); for every new matrix with sides over 1 it leaves the matrix (C104_fuse_refuted). The overload of stack for a list in braces ignores the dimension, and the one for references never succeeds."
  },
  {
   "property": "C105",
   "status": "partial",
   "theorems": [
    "C105_new",
    "C105_identity",
    "C105_from_vector",
    "C105_array",
    "C105_laid",
    "C105_laid_array",
    "C105_access",
    "C105_set_all",
    "C105_slice",
    "C105_set_slice",
    "C105_reshape",
    "C105_flat",
    "C105_scalar_refuted",
    "C105_array_fill_refuted",
    "C105_index_refuted",
    "C105_slice_refuted",
    "C105_set_slice_refuted",
    "C105_reshape_refuted"
   ],
   "note": "Proved for shapes of rank one or more. Refuted: rank zero is undefined behaviour (C105_scalar_refuted); arrays of cells filled by a function have unfilled elements (C105_array_fill_refuted); indices of another rank are not detected, or read as prefixes (C105_index_refuted); slicing with a full index is undefined behaviour (C105_slice_refuted); set-slice of a longer tensor overwrites the next slice (C105_set_slice_refuted); reshaped views of arrays of cells show padding (C105_reshape_refuted)."
  },
  {
   "property": "C106",
   "status": "partial",
   "theorems": [
    "C106_copy",
    "C106_copy_refuted",
    "C106_convert",
    "C106_convert_refuted",
    "C106_program",
    "C106_start",
    "C106_assign",
    "C106_move",
    "C106_move_assign",
    "C106_destroy",
    "C106_independent",
    "C106_self_assign_refuted",
    "C106_self_move_refuted",
    "C106_view_assign_refuted"
   ],
   "note": "Proved for programs without self-assignment and without assignment to views. Refuted: copying a padded array is undefined behaviour (C106_copy_refuted), converting one leaves elements unset (C106_convert_refuted), self-assignment and self-move-assignment (C106_self_assign_refuted, C106_self_move_refuted), assigning to a view leaks the new array (C106_view_assign_refuted)."
  },
  {
   "property": "C107",
   "status": "partial",
   "theorems": [
    "C107_binary",
    "C107_unary",
    "C107_in_place",
    "C107_sizes",
    "C107_sums",
    "C107_equal",
    "C107_equal_refuted",
    "C107_array_refuted",
    "C107_array_equal_refuted"
   ],
   "note": "Proved for ordinary tensors. Refuted: == ignores the shape (C107_equal_refuted); on arrays of cells the in-place operations and == skip elements (C107_array_refuted, C107_array_equal_refuted)."
  },
  {
   "property": "C108",
   "status": "partial",
   "theorems": [
    "C108_matmul",
    "C108_matvec",
    "C108_matmul_TA",
    "C108_add_matmul",
    "C108_add_matmul_AH",
    "C108_add_matmul_HA",
    "C108_sizes",
    "C108_add_matmul_refuted"
   ],
   "note": "Proved for contracted sizes of at least one and left operands of rank two or more. Refuted: a vector on the left or an empty contraction is undefined behaviour in the general product (C108_add_matmul_refuted)."
  },
  {
   "property": "C109",
   "status": "partial",
   "theorems": [
    "C109_column_space",
    "C109_exact",
    "C109_selection",
    "C109_shape",
    "C109_argument_kept_refuted",
    "C109_complex_refuted"
   ],
   "note": "Proved for real matrices except that the argument is kept: it is overwritten (C109_argument_kept_refuted gives when). For complex matrices the columns returned are not orthogonal (C109_complex_refuted)."
  },
  {
   "property": "C110",
   "status": "partial",
   "theorems": [
    "C110_complement_refuted",
    "C110_complement_throws",
    "C110_intersection_refuted",
    "C110_complement_loop_partial"
   ],
   "note": "Both classes assert on an assignment to a default constructed tensor, so neither ever returns (C110_complement_refuted, C110_intersection_refuted; C110_complement_throws: an exception on every readable matrix). C110_complement_loop_partial: the loops of ComplementSpace are right if they are given storage. Nothing is proved about what IntersectionSpace would compute."
  },
  {
   "property": "C111",
   "status": "partial",
   "theorems": [
    "C111_random_unitary",
    "C111_dependent_refuted",
    "C111_shape"
   ],
   "note": "Proved whenever no random vector is a combination of those before it; otherwise there is a division by 0 (C111_dependent_refuted). Exact real numbers, no rounding."
  },
  {
   "property": "C112",
   "status": "partial",
   "theorems": [
    "C112_components",
    "C112_symmetric",
    "C112_range",
    "C112_directed_refuted"
   ],
   "note": "Proved for symmetric conditions; for others only that no node is related to one of a later component, and C112_directed_refuted shows related nodes in different components."
  },
  {
   "property": "C113",
   "status": "partial",
   "theorems": [
    "C113_add_prod",
    "C113_runs",
    "C113_times",
    "C113_few_cells_refuted",
    "C113_scalars_refuted",
    "C113_inner_refuted",
    "C113_third_grid_refuted"
   ],
   "note": "False in three cases, each stated as a refuted theorem: fewer than two of the three tensors with cells (nothing is computed), a target without cells for two factors with cells (nothing is added), and a grid that only the tensor in third place has (its first cell is used everywhere). Proved in all others."
  },
  {
   "property": "C114",
   "status": "proved",
   "theorems": [
    "C114_add_prod_XC",
    "C114_back0_adjoint",
    "C114_back1_adjoint"
   ],
   "note": "For targets with and without cells. The grid must not be the third tensor's only (C113)."
  },
  {
   "property": "C115",
   "status": "proved",
   "theorems": [
    "C115_add_div",
    "C115_add_div_back0",
    "C115_add_div_back1",
    "C115_cells_throw",
    "C115_quotient",
    "C115_back0_adjoint"
   ],
   "note": "The division is any function; the law of quotients assumes a/b*b=a for nonzero b."
  },
  {
   "property": "C116",
   "status": "partial",
   "theorems": [
    "C116_add_mprod",
    "C116_add_mprod_AH",
    "C116_mprod",
    "C116_mprod_shapes",
    "C116_back1_refuted",
    "C116_back1_square_refuted"
   ],
   "note": "add_mprod_back1 is wrong: it throws unless the matrices are square, and then computes another product (two refuted theorems). All the rest is proved."
  },
  {
   "property": "C117",
   "status": "proved",
   "theorems": [
    "C117_batch",
    "C117_cell",
    "C117_one_cell",
    "C117_transp",
    "C117_transp_throws"
   ],
   "note": "With the shape of the result and the element each index shows."
  },
  {
   "property": "C118",
   "status": "partial",
   "theorems": [
    "C118_add",
    "C118_contraction_refuted",
    "C118_y_only_refuted",
    "C118_letter_x_refuted",
    "C118_many_ignored",
    "C118_malformed"
   ],
   "note": "Proved for strings whose letters are not x, where every letter of y is in x or r, with up to three letters of each kind, and where r has the sides and strides of x and y at the axes of contracted letters (so in full for products without contraction). Refuted otherwise: the loops of a contraction take sides and strides from r, letters only in y are not summed, the letter x marks a used character, more than three transferred letters do nothing, and a malformed string is not refused."
  },
  {
   "property": "C119",
   "status": "partial",
   "theorems": [
    "C119_add",
    "C119_three_refuted",
    "C119_y_only_refuted",
    "C119_many_ignored",
    "C119_scalar_refuted",
    "C119_malformed_refuted"
   ],
   "note": "Proved for strings whose letters are not x, where every letter of y is in x or r, with up to four transferred and three contracted or repeated letters, unless there are three contracted letters and x is conjugated. Refuted otherwise: in that case y's conjugate is inverted, letters only in y are not summed, five transferred letters do nothing, an empty part (a sum to a scalar) and a malformed string are undefined."
  },
  {
   "property": "C120",
   "status": "partial",
   "theorems": [
    "C120_columns",
    "C120_sizes",
    "C120_layout_refuted",
    "C120_inner_products_set",
    "C120_inner_products_add_refuted"
   ],
   "note": "Proved for row-major matrices and a vector of stride 1 (refusal of sizes that do not fit proved in general); refuted in other layouts, because strides are ignored (C120_layout_refuted). The inner products of columns are right in every layout but are put into r instead of added: refuted whenever the element of r was not 0."
  },
  {
   "property": "C121",
   "status": "partial",
   "theorems": [
    "C121_div",
    "C121_relu",
    "C121_relu_layout_refuted",
    "C121_relu_back_same_signs",
    "C121_relu_back_refuted",
    "C121_broadcast_one",
    "C121_broadcast_refuted"
   ],
   "note": "Quotients proved in every layout. The leaky rectifier is proved for row-major tensors and refuted in other layouts, because strides are ignored. Its gradient tests the sign of g and never reads x: proved where g and x have the same sign, refuted otherwise. Broadcasting adds x dims[d] times to the d-th slice along the first axis: proved for one slice along axis 0, refuted for two."
  },
  {
   "property": "C122",
   "status": "partial",
   "theorems": [
    "C122_hash",
    "C122_equal_hash_row_major",
    "C122_equal_hash_refuted"
   ],
   "note": "Equal elements give equal hash codes: proved in every layout. Equal comparison gives equal codes: proved for row-major tensors; refuted in other layouts, where the comparison returns true without looking at the elements."
  },
  {
   "property": "C123",
   "status": "partial",
   "theorems": [
    "C123_view",
    "C123_complex_view",
    "C123_complex_write",
    "C123_complex_rank",
    "C123_flat",
    "C123_flat_cells",
    "C123_flat_refuted"
   ],
   "note": "Views of rank one to three proved for int, float and complex<float>, including writes. The flat view is proved for row-major tensors and refuted for other contiguous ones, whose elements come in the order of memory. The views of double tensors, which reinterpret doubles as floats, are not modelled."
  },
  {
   "property": "C124",
   "status": "partial",
   "theorems": [
    "C124_entries",
    "C124_inverse",
    "C124_sizes",
    "C124_copy_refuted",
    "C124_matrix",
    "C124_matrix_size_refuted"
   ],
   "note": "Refuted in two points: a copy or move of a mask has N0=M0=0 (C124_copy_refuted) and the mask of a matrix whose last row is zero has a smaller N0 (C124_matrix_size_refuted). Everything else is proved for all histories."
  },
  {
   "property": "C125",
   "status": "partial",
   "theorems": [
    "C125_two_axes",
    "C125_three_axes",
    "C125_four_axes",
    "C125_any_axes",
    "C125_matrix",
    "C125_transpose",
    "C125_unfusable_refuted",
    "C125_gaps_refuted"
   ],
   "note": "Two axes: every layout. Three and four axes need trailing axes that can be fused and any number of axes needs strides proportional to row-major ones; without that the claim is refuted (C125_unfusable_refuted, C125_gaps_refuted: memory between rows is overwritten). Views with no axis besides the complex one are not covered."
  },
  {
   "property": "C126",
   "status": "partial",
   "theorems": [
    "C126_accessor",
    "C126_rank",
    "C126_scalar",
    "C126_fixed",
    "C126_fixed_scalar_refuted"
   ],
   "note": "TensorAccessor is right in every layout. FixedTensorAccessor takes strides from its type without comparing them: C126_fixed shows it is right exactly when they agree with the view's on axes longer than 1. FixedTensorAccessor0 takes any vector (C126_fixed_scalar_refuted). The model's accessor has any number of axes; the code has up to six."
  },
  {
   "property": "C127",
   "status": "partial",
   "theorems": [
    "C127_index_map",
    "C127_accepts",
    "C127_repeated_axis_refuted"
   ],
   "note": "The mapped shape and strides are proved to describe the diagonals for every map that names each axis once, and acceptance is characterised exactly (C127_accepts). Refuted without that: a map that names one axis twice and leaves another out passes the checks and describes elements outside the tensor (C127_repeated_axis_refuted)."
  },
  {
   "property": "C128",
   "status": "partial",
   "theorems": [
    "C128_contiguous_refuted",
    "C128_disjoint",
    "C128_covers",
    "C128_covers3_refuted",
    "C128_shapes",
    "C128_bad_axis",
    "C128_combined"
   ],
   "note": "is_disjoint, covers(n), covers(n,x), select, unite and combined are proved, with rejection of axes that do not exist when assertions are compiled in. Refuted: is_contiguous is false for every non-empty set and undefined for the empty one (C128_contiguous_refuted); covers(n,x,y) ignores y (C128_covers3_refuted)."
  },
  {
   "property": "C129",
   "status": "partial",
   "theorems": [
    "C129_group_view_refuted",
    "C129_group_view_partial"
   ],
   "note": "Refuted as shipped: since is_contiguous is never true, every such constructor throws, or is undefined when the first set is empty, whenever its tests are compiled in (C129_group_view_refuted; always so for the real views, which test with CNINE_ASSRT). With the tests compiled out the element correspondence is proved for any number of groups in any order (C129_group_view_partial). The second array of the complex views is not modelled."
  },
  {
   "property": "C130",
   "status": "partial",
   "theorems": [
    "C130_fuser",
    "C130_fuser_complete",
    "C130_unit_axis_refuted",
    "C130_empty_refuted"
   ],
   "note": "Success is proved to mean one progression, and rearranged row-major layouts with all sides at least two are proved to be recognised. Refuted: with an axis of length one a single progression can be missed (C130_unit_axis_refuted); an empty shape is undefined behaviour and fusible always reads ordering[-1] (C130_empty_refuted). Strides are assumed positive and below INT_MAX."
  },
  {
   "property": "C131",
   "status": "partial",
   "theorems": [
    "C131_offset_translation",
    "C131_transposed_refuted"
   ],
   "note": "Proved for source strides t times those of a row-major layout. Refuted for other source layouts, whose strides do not decrease (C131_transposed_refuted)."
  },
  {
   "property": "C132",
   "status": "partial",
   "theorems": [
    "C132_checks",
    "C132_axis",
    "C132_unchecked_refuted",
    "C132_shapes"
   ],
   "note": "Proved for all checks with range checking compiled in. Refuted otherwise: without CNINE_RANGE_CHECKING the checks for separate indices accept everything (C132_unchecked_refuted)."
  },
  {
   "property": "C133",
   "status": "partial",
   "theorems": [
    "C133_histories",
    "C133_all_freed",
    "C133_clear_refuted",
    "C133_self_assign_refuted",
    "C133_copy_rekeys_refuted",
    "C133_lookup_refuted",
    "C133_move_assign_refuted"
   ],
   "note": "Proved for all histories over any number of maps. Refuted: clear forgets its objects without deleting them, assignment of a map to itself empties it, a copy files objects under their own key() instead of the key they were entered under, looking up an absent key makes it exist, and the move assignment of indexed_map does not return. Keys are integers, standing for any totally ordered KEY."
  },
  {
   "property": "C134",
   "status": "proved",
   "theorems": [
    "C134_histories",
    "C134_all_freed"
   ],
   "note": "All histories. clear and operator= do not compile (delete _map.second) and are left out; assert is taken to stop the call, as in a build without NDEBUG. Keys are integers, standing for any totally ordered KEY."
  },
  {
   "property": "C135",
   "status": "partial",
   "theorems": [
    "C135_histories",
    "C135_insert_refuted"
   ],
   "note": "All histories of both classes (also the ptr_arg_indexed_object_bank, which leaves stale look-up lists). Refuted: insert(key,arg,val) keeps an existing value. The overloads taking shared_ptr<const KEY>, and the default constructor of the bank, do not compile when used."
  },
  {
   "property": "C136",
   "status": "partial",
   "theorems": [
    "C136_constructors",
    "C136_seven_refuted",
    "C136_slices",
    "C136_slices2",
    "C136_complex_slice_refuted",
    "C136_fuse",
    "C136_fuse_refuted",
    "C136_block",
    "C136_as_real"
   ],
   "note": "Proved for slices, double slices and blocks at every rank, constructors of rank 4-6, and fusions of axes that follow each other. Refuted: fusing other layouts (C136_fuse_refuted), the rank 7 constructor (C136_seven_refuted), Ctensor6_view::slice5 (C136_complex_slice_refuted)."
  },
  {
   "property": "C137",
   "status": "proved",
   "theorems": [
    "C137_add",
    "C137_refused"
   ],
   "note": "At rank 4 and more."
  },
  {
   "property": "C138",
   "status": "partial",
   "theorems": [
    "C138_reduce",
    "C138_reduce_into",
    "C138_single_refuted"
   ],
   "note": "Proved for axes that are joined on both sides of the reduced one and at least two slices. Refuted: a single slice along axis 0 of a row-major view is doubled (C138_single_refuted); axes not joined (C138_case_refuted)."
  },
  {
   "property": "C139",
   "status": "partial",
   "theorems": [
    "C139_broadcast",
    "C139_refused"
   ],
   "note": "Proved for a row-major argument and a view whose other axes are joined. Refuted for other layouts of the argument (C139_case_refuted)."
  },
  {
   "property": "C140",
   "status": "partial",
   "theorems": [
    "C140_gtensor",
    "C140_seven_refuted"
   ],
   "note": "Proved for the classes with four to six axes. Refuted with seven axes (C140_seven_refuted)."
  },
  {
   "property": "C141",
   "status": "proved",
   "theorems": [
    "C141_history",
    "C141_insert"
   ],
   "note": ""
  },
  {
   "property": "C142",
   "status": "proved",
   "theorems": [
    "C142_add",
    "C142_keys",
    "C142_plus",
    "C142_times",
    "C142_times_empty"
   ],
   "note": ""
  },
  {
   "property": "C143",
   "status": "partial",
   "theorems": [
    "C143_subtract_clears",
    "C143_subtract_self_partial",
    "C143_minus_clears",
    "C143_subtract_refuted"
   ],
   "note": "Refuted as stated (C143_subtract_refuted): the loop of subtract runs over the parts of x and subtracts x from itself. Proved for all packs: p.subtract(x) and x-y set x (y) to zero and leave p (the copy of x) as it was; the claim holds when both packs have the same parts."
  },
  {
   "property": "C144",
   "status": "proved",
   "theorems": [
    "C144_shared",
    "C144_copy",
    "C144_assign",
    "C144_assign_missing",
    "C144_assign_first_missing",
    "C144_assign_refused",
    "C144_assign_extra"
   ],
   "note": ""
  },
  {
   "property": "C145",
   "status": "proved",
   "theorems": [
    "C145_cell",
    "C145_rank"
   ],
   "note": ""
  },
  {
   "property": "C146",
   "status": "partial",
   "theorems": [
    "C146_values",
    "C146_all_returned",
    "C146_self_assignment_refuted",
    "C146_self_move_refuted",
    "C146_moved_from_refuted",
    "C146_moved_room_refuted"
   ],
   "note": "C146_values and C146_all_returned: any program over any number of pools without views, self-assignment or use of a moved-from pool runs, leaves the rows it means, and every array has one owner; nothing is leaked. Refuted: assigning or moving a pool to itself keeps the size and loses the rows; a pool moved from keeps its size and reading, pushing to or copying it is undefined; even an empty one with reserved room can be used again after a move construction but not after a move assignment."
  },
  {
   "property": "C147",
   "status": "partial",
   "theorems": [
    "C147_shares",
    "C147_assigned_view",
    "C147_copied_view",
    "C147_growth_refuted",
    "C147_pushes_refuted",
    "C147_assigned_back_refuted"
   ],
   "note": "Sharing, independence of copies of views and of assigned views, and destruction of views are proved. Refuted: a row pushed through a view of a full pool frees the pool's array (the pool's rows and its destructor are then undefined, and the view's new array is never freed); with spare room rows pushed through the view and the pool overwrite each other; assigning a view back to its pool is undefined."
  },
  {
   "property": "C148",
   "status": "partial",
   "theorems": [
    "C148_table",
    "C148_room_refuted"
   ],
   "note": "Proved for every pool reachable by a program of pushes, copies, assignments and moves. Refuted for pools made from heads and lengths: the table gives each row its room, not its length."
  },
  {
   "property": "C149",
   "status": "partial",
   "theorems": [
    "C149_fill",
    "C149_set",
    "C149_add",
    "C149_add_refuted",
    "C149_add_scaled",
    "C149_corner",
    "C149_sizes"
   ],
   "note": "add(x) copies instead of adding as soon as one of the vectors is strided (C149_add_refuted: for all such vectors); proved for contiguous vectors, all matrices and all 3-tensors. A 3-tensor x larger than r is outside the domain: its sides are not checked."
  },
  {
   "property": "C150",
   "status": "partial",
   "theorems": [
    "C150_matmul",
    "C150_matmul_sizes",
    "C150_batched",
    "C150_batched_rows_refuted",
    "C150_batched_refuted",
    "C150_batched_many_refuted"
   ],
   "note": "Products of matrices are proved for all sizes. The batched product rejects results that are not square (C150_batched_refuted), leaves the rows from the number of batches on unchanged (C150_batched_rows_refuted) and with more batches than rows runs into the next batch (C150_batched_many_refuted, a concrete case); it is right when there are as many batches as rows and columns."
  },
  {
   "property": "C151",
   "status": "partial",
   "theorems": [
    "C151_vector",
    "C151_matrix",
    "C151_fuse_refuted",
    "C151_tensor"
   ],
   "note": "fuse01 of a matrix does not check that the rows follow each other (C151_fuse_refuted); everything else is proved."
  },
  {
   "property": "C152",
   "status": "proved",
   "theorems": [
    "C152_copies",
    "C152_reduce",
    "C152_repeat",
    "C152_hash"
   ],
   "note": "Allocation is the choice of an unused block; the leak in repeat0 (its cell is never freed) is outside the statement."
  },
  {
   "property": "C153",
   "status": "partial",
   "theorems": [
    "C153_complete",
    "C153_cycle",
    "C153_star",
    "C153_small",
    "C153_cycle_refuted"
   ],
   "note": "complete, star, and cycle for n>=3 proved with edge counts. C153_cycle_refuted: cycle(1) is a self loop counted as no edge, cycle(2) has a single edge, cycle(n) for n<=0 joins n-1 and 0, which are not vertices."
  },
  {
   "property": "C154",
   "status": "partial",
   "theorems": [
    "C154_dense",
    "C154_of_dense",
    "C154_of_dense_shape",
    "C154_round_trip",
    "C154_upper_refuted",
    "C154_outside_refuted"
   ],
   "note": "dense, the graph of a matrix, and the round trip proved. C154_upper_refuted: only the lower half of the matrix is read, so an asymmetric matrix loses its upper half. C154_outside_refuted: an edge to a vertex beyond the last is accepted by set, and dense() then writes outside the matrix. Edges of weight zero do not survive the round trip."
  },
  {
   "property": "C155",
   "status": "partial",
   "theorems": [
    "C155_equality",
    "C155_equality_sets",
    "C155_asking_refuted"
   ],
   "note": "C155_equality characterises operator== for all histories: besides sizes and edges it also compares which vertices were ever mentioned. C155_asking_refuted: neighbors(i) of an isolated vertex creates an empty row and makes the graph differ from an equal one. Without queries (C155_equality_sets) the claim holds. The iteration-order dependent hash is not covered."
  },
  {
   "property": "C156",
   "status": "partial",
   "theorems": [
    "C156_insert",
    "C156_insert_refused",
    "C156_insert_short_refuted",
    "C156_insert_negative_refuted"
   ],
   "note": "Proved when the places are distinct vertices, at least as many as H has vertices. C156_insert_short_refuted: a list shorter than an edge of H needs is read past its end. C156_insert_negative_refuted: negative places are accepted."
  },
  {
   "property": "C157",
   "status": "partial",
   "theorems": [
    "C157_of_list",
    "C157_of_edges",
    "C157_of_no_edges",
    "C157_shape_refused",
    "C157_negative_refuted",
    "C157_labels",
    "C157_labelled_constructor_refuted"
   ],
   "note": "Lists, tensors with at least one edge, and labels proved. C157_negative_refuted: only the largest entry of the tensor is checked, so negative numbers are accepted as ends. C157_labelled_constructor_refuted: the constructor that takes labels assigns them to an empty tensor and always fails. A tensor without edges is refused when n is 0."
  },
  {
   "property": "C158",
   "status": "partial",
   "theorems": [
    "C158_zeros",
    "C158_ones",
    "C158_sequential",
    "C158_raw",
    "C158_no_axes",
    "C158_of_gtensor",
    "C158_gtensor",
    "C158_of_vector_refuted"
   ],
   "note": "zeros, ones, sequential, raw tensors and conversion from and to Gtensor are proved for every shape with an axis. Refuted for vectors: C158_of_vector_refuted shows that a vector of n numbers becomes a tensor with n axes of side 0 (Gdims(int) is a list of zeros), and that nothing is made when ranges are checked."
  },
  {
   "property": "C159",
   "status": "partial",
   "theorems": [
    "C159_set",
    "C159_ints",
    "C159_checked",
    "C159_five_unchecked",
    "C159_five_refuted",
    "C159_short_index_refuted"
   ],
   "note": "Proved for indices and one to four ints, both with and without range checking. Refuted: with range checking every access by five ints is refused (C159_five_refuted); an index with too few entries reads the element with zeros in the missing places (C159_short_index_refuted)."
  },
  {
   "property": "C160",
   "status": "partial",
   "theorems": [
    "C160_copy",
    "C160_assign",
    "C160_to_host",
    "C160_move",
    "C160_set_from",
    "C160_set_from_checked",
    "C160_set_zero",
    "C160_set_from_refuted",
    "C160_self_refuted",
    "C160_empty_copy_refuted"
   ],
   "note": "Copies, moves, assignment from another tensor, set and set_zero are proved. Refuted: assigning a tensor to itself, by copy or by move, loses every element (C160_self_refuted); the host copy of an empty tensor does not equal its other copy (C160_empty_copy_refuted); without range checking set(x) of a smaller tensor reads past its end (C160_set_from_refuted)."
  },
  {
   "property": "C161",
   "status": "partial",
   "theorems": [
    "C161_pushes",
    "C161_push_refused",
    "C161_reserve",
    "C161_resize",
    "C161_empty_slices_refuted"
   ],
   "note": "Proved for slices with at least one element, for any sequence. Refuted for slices without elements: the capacity divides by zero (C161_empty_slices_refuted)."
  },
  {
   "property": "C162",
   "status": "partial",
   "theorems": [
    "C162_cat",
    "C162_cat_none",
    "C162_overrun_refuted",
    "C162_holes_refuted"
   ],
   "note": "Proved for tensors that agree in all axes but the first. Tensors that do not agree are not refused: C162_overrun_refuted (memory overrun), C162_holes_refuted (elements without a value)."
  },
  {
   "property": "C163",
   "status": "partial",
   "theorems": [
    "C163_equal",
    "C163_spare_room_refuted"
   ],
   "note": "Proved for tensors without spare room. Refuted after push_back_slice0: the tensor differs from its own copy and comparing it with itself reads unset cells (C163_spare_room_refuted)."
  },
  {
   "property": "C164",
   "status": "partial",
   "theorems": [
    "C164_row",
    "C164_row_from",
    "C164_row_checked",
    "C164_set_row",
    "C164_set_row_matrix",
    "C164_set_row_spills_refuted"
   ],
   "note": "Proved for lists no longer than the row. Refuted without range checking: one entry too many is written into the next row (C164_set_row_spills_refuted)."
  },
  {
   "property": "C165",
   "status": "partial",
   "theorems": [
    "C165_product",
    "C165_uninitialised_refuted",
    "C165_sizes_refuted",
    "C165_sides"
   ],
   "note": "Refuted as stated: operator* default-constructs its result and never sets nblocks, mblocks, blockn, blockm, yet block(i,k) compares with them. Reading them is undefined; modelled as arbitrary integers un, um, ubn, ubm: the product is right if un and um happen to exceed every block row and column of it (C165_product), throws otherwise (C165_uninitialised_refuted), and the reported sizes are whatever the members held (C165_sizes_refuted)."
  },
  {
   "property": "C166",
   "status": "proved",
   "theorems": [
    "C166_left",
    "C166_right",
    "C166_row_offsets"
   ],
   "note": "CPU side only; row_offsets as a list instead of a one-dimensional tensor."
  },
  {
   "property": "C167",
   "status": "partial",
   "theorems": [
    "C167_strides",
    "C167_regular",
    "C167_regular_total",
    "C167_call",
    "C167_up_to_five",
    "C167_six_refuted",
    "C167_no_axes_refuted"
   ],
   "note": "Proved except that the six-argument constructor writes past the end of a vector of five (C167_six_refuted) and a shape without axes is refused or, with asserts off, written out of bounds (C167_no_axes_refuted)."
  },
  {
   "property": "C168",
   "status": "partial",
   "theorems": [
    "C168_sound",
    "C168_complete",
    "C168_side_one_refuted",
    "C168_memsize",
    "C168_memsize_is",
    "C168_memsize_refuted",
    "C168_no_axes_refuted"
   ],
   "note": "Yes implies a gap-free layout for all positive strides; the converse is proved when all sides are at least 2 and refuted with a side of 1 (C168_side_one_refuted). memsize bounds every offset when the axes step over one another in some order (C168_memsize); it is too small for overlapping strides (C168_memsize_refuted) and 0 for a tensor without axes."
  },
  {
   "property": "C169",
   "status": "partial",
   "theorems": [
    "C169_convert",
    "C169_round_trip",
    "C169_from_row_major",
    "C169_zero_stride_refuted",
    "C169_lengths",
    "C169_column_major_refuted"
   ],
   "note": "Proved for sources in which every stride exceeds all distances covered by the later axes, which includes row-major ones; for column-major sources the result is wrong (C169_column_major_refuted, for all matrices with both sides at least 2), and a stride of zero divides by zero."
  },
  {
   "property": "C170",
   "status": "partial",
   "theorems": [
    "C170_fuse",
    "C170_remove",
    "C170_remove_negative_refuted",
    "C170_remove_outside",
    "C170_remove_last_refuted",
    "C170_append",
    "C170_chunk",
    "C170_combine",
    "C170_combine_outside"
   ],
   "note": "Proved, except that removing the only axis leaves stride 1 (C170_remove_last_refuted) and negative positions are refused by the assert (C170_remove_negative_refuted); with asserts off they count from the end as documented."
  },
  {
   "property": "C171",
   "status": "partial",
   "theorems": [
    "C171_products",
    "C171_transposes",
    "C171_transpose_rank",
    "C171_unequal_refuted",
    "C171_no_axes_refuted",
    "C171_matrix_vector",
    "C171_matrix_vector_else",
    "C171_convolve",
    "C171_convolve_ranks"
   ],
   "note": "Proved; the contracted sides are not compared by the four product shapes (C171_unequal_refuted), and a tensor without axes makes the loop leave its vector (C171_no_axes_refuted)."
  },
  {
   "property": "C172",
   "status": "proved",
   "theorems": [
    "C172_join",
    "C172_concat",
    "C172_cat",
    "C172_insert",
    "C172_insert_outside_refuted",
    "C172_unsqueeze"
   ],
   "note": "For positions beyond the end, std::copy leaves the list (C172_insert_outside_refuted)."
  },
  {
   "property": "C173",
   "status": "partial",
   "theorems": [
    "C173_entries",
    "C173_outside_refuted",
    "C173_set_back",
    "C173_first_last",
    "C173_max_min",
    "C173_empty_refuted",
    "C173_times"
   ],
   "note": "The entries are as stated; the last sentence is false: reading outside the list and max or min of an empty list are undefined (C173_outside_refuted, C173_empty_refuted)."
  },
  {
   "property": "C174",
   "status": "proved",
   "theorems": [
    "C174_cat",
    "C174_of",
    "C174_dot",
    "C174_eq"
   ],
   "note": "No restriction on the lists."
  },
  {
   "property": "C175",
   "status": "partial",
   "theorems": [
    "C175_get",
    "C175_set",
    "C175_refused",
    "C175_complex_refused",
    "C175_short_refuted",
    "C175_complex_get",
    "C175_complex_set",
    "C175_four_indices_refuted"
   ],
   "note": "Reading, setting and incrementing with an index in range touch exactly the element, for real and complex views, and indices out of range are refused; proved for every view. False parts, refuted in general: an index with too few entries is accepted and padded with zeros (C175_short_refuted); the four-index set of a complex view writes the element whose last index is 0 (C175_four_indices_refuted)."
  },
  {
   "property": "C176",
   "status": "partial",
   "theorems": [
    "C176_slice",
    "C176_slice_refuted",
    "C176_vector_refuted",
    "C176_slice_range",
    "C176_slice_rank",
    "C176_front",
    "C176_front_refused",
    "C176_matrix_row_refuted"
   ],
   "note": "slice0..slice3 advance by position times side where position times stride is meant. Proved right when the position is 0 or the side equals the stride; otherwise every element is misplaced (C176_slice_refuted, C176_matrix_row_refuted). slice01 and slice012 have the same error (C176_front gives both directions). Slices of a vector have a stride but no side (C176_vector_refuted). Refusals proved."
  },
  {
   "property": "C177",
   "status": "partial",
   "theorems": [
    "C177_fuse",
    "C177_fuse01_12",
    "C177_fuse23_refuted",
    "C177_fuse23",
    "C177_fuse_front",
    "C177_matricize",
    "C177_matricize_refuted",
    "C177_matricize_zero_refuted",
    "C177_rank",
    "C177_view",
    "C177_flatten",
    "C177_flatten_refuted",
    "C177_flatten_unchecked"
   ],
   "note": "fuse (axis counted from either end), fuse01, fuse12, fuse_all_but_last_two, view1..view6 proved. fuse23 multiplies side 2 by side 1 (refuted; right when they agree). matricize proved when the leading axes can be walked as one and the others are row-major; refuted for a last stride other than 1, and n=0 reads strides[-1]. flatten refuses every tensor that is not a vector when ranges are checked (refuted); unchecked it is right whenever the axes can be walked as one."
  },
  {
   "property": "C178",
   "status": "partial",
   "theorems": [
    "C178_as_real",
    "C178_as_real_refused",
    "C178_gtensor",
    "C178_interleaved_refuted",
    "C178_scalar_refuted"
   ],
   "note": "as_real proved for every view with adjacent parts and refused otherwise. gtensor proved for row-major strides; for interleaved storage (strides twice the row-major ones) entry i is the element of rank i/2 (C178_interleaved_refuted), and a view without axes reads past the strides."
  },
  {
   "property": "C179",
   "status": "partial",
   "theorems": [
    "C179_fits",
    "C179_missed_refuted",
    "C179_dichotomy",
    "C179_exclusive",
    "C179_twice_refuted",
    "C179_shapes",
    "C179_add",
    "C179_add_merged_partial",
    "C179_number_refuted",
    "C179_number_matrix_refuted"
   ],
   "note": "Proved for vectors shorter than 1024 or of a multiple of 1024 above it, matrices whose last side is at most 1024 or a multiple of it, and rank three with the corresponding limits (cu_fits). Refuted for every other shape: a vector of exactly 1024 elements is not touched at all; above 1024 the part beyond the last multiple of 1024 is missed and the first elements get the statement twice; rank three with more than 64 and fewer than 128 elements in the last side, or a middle side above 65535, is not touched; rank 0 and rank 4 or more are not touched."
  },
  {
   "property": "C180",
   "status": "partial",
   "theorems": [
    "C180_reduce",
    "C180_single_refuted",
    "C180_long_refuted",
    "C180_stride_refuted"
   ],
   "note": "Proved for two or more rows, rows one after the other (middle stride equal to the last side, last stride 1), and at most 2048 elements per block or a last side that is a multiple of 1024. Refuted otherwise: one row is doubled, rows longer than 1024 and not of a multiple of 1024 keep their ends unsummed, and the middle stride is not used at all."
  },
  {
   "property": "C181",
   "status": "partial",
   "theorems": [
    "C181_gather",
    "C181_long_refuted",
    "C181_1024_refuted",
    "C181_thin_refuted",
    "C181_stride_refuted"
   ],
   "note": "Proved for slices with last side below 1024 that fit one launch (gath_fits). Refuted: with a last side of 1024 or more no kernel is launched at all or the call is refused (C181_long_refuted, C181_1024_refuted); with a block of three thread axes and last side above 64 the launch is not valid and nothing happens (C181_thin_refuted); with five axes and two of them over blocks the kernel uses the source's last stride for the target (C181_stride_refuted). Rows with equal targets race and are not covered. Launch limits are assumptions as in C179."
  },
  {
   "property": "C182",
   "status": "partial",
   "theorems": [
    "C182_channels_partial",
    "C182_batches_partial",
    "C182_large_refuted",
    "C182_outside_refuted"
   ],
   "note": "Proved for all layouts (unlike on the CPU, C94) and orders when the launch fits (C<=1024 columns; N0*N1<=65535 pixels in a batch) and, if both paddings come out as zero, the filter stays inside x. Refuted beyond: C182_large_refuted (nothing is added, no error), C182_outside_refuted (a filter larger by one than fits gives padding 0 and the kernel reads outside x)."
  },
  {
   "property": "C183",
   "status": "partial",
   "theorems": [
    "C183_plain_partial",
    "C183_channels_partial",
    "C183_batches_partial",
    "C183_large_refuted"
   ],
   "note": "Proved for all layouts and orders when the launch fits (output channels times columns <=1024) and, if all paddings come out as zero, the filter stays inside x. Refuted beyond: C183_large_refuted (only a message or a failed launch; nothing is added)."
  },
  {
   "property": "C184",
   "status": "partial",
   "theorems": [
    "C184_copy_partial",
    "C184_move_partial",
    "C184_to_host_partial",
    "C184_gaps_partial",
    "C184_host",
    "C184_stay",
    "C184_to_device_refuted",
    "C184_vector_refuted",
    "C184_move_refuted"
   ],
   "note": "Row-major tensors of any rank between any devices; matrices of any strides from the card to the host when one launch covers them, also into rows with gaps between them; all assignments on the host; moves to the device a tensor is on. Refuted: host to card for matrices that are not row-major and for strided vectors (endless recursion), move_to_device of column-major matrices (elements change places). Not covered: tensors of rank 3 and more with other strides."
  },
  {
   "property": "C185",
   "status": "partial",
   "theorems": [
    "C185_matmul_partial",
    "C185_mprod_partial",
    "C185_batch_partial",
    "C185_repeated_refuted",
    "C185_empty_refuted",
    "C185_layout_refuted",
    "C185_stride_refuted"
   ],
   "note": "Rows of adjacent elements, at least their length apart. Refuted: C185_repeated_refuted and C185_empty_refuted (program ends), C185_layout_refuted (nothing added), C185_stride_refuted (last strides ignored). cuBLAS itself is modelled after its documentation."
  },
  {
   "property": "C186",
   "status": "partial",
   "theorems": [
    "C186_add",
    "C186_broadcast_partial",
    "C186_sum_partial",
    "C186_sum_refuted",
    "C186_times_refuted",
    "C186_times_strided_refuted",
    "C186_negative_refuted"
   ],
   "note": "add for all strides that are not negative, add_broadcast0 for adjacent elements, reduce() without negative elements. Refuted: C186_sum_refuted (absolute values), C186_times_refuted and C186_times_strided_refuted (vectors are multiplied by 1+c, strided ones not at all), C186_negative_refuted (with a negative stride other cells are read)."
  },
  {
   "property": "C187",
   "status": "partial",
   "theorems": [
    "C187_set1_partial",
    "C187_set2_partial",
    "C187_set3_partial",
    "C187_add2_partial",
    "C187_add3_partial",
    "C187_set1_refuted",
    "C187_set3_refuted",
    "C187_thin_refuted",
    "C187_wide_refuted",
    "C187_addc2_refuted",
    "C187_sides"
   ],
   "note": "Missing because false: strided vectors not a multiple of 1024 long, adjacent 3-tensors (set), 3-tensors of at most 1024 elements with last side over 64, 3-tensors in which every two sides have a product over 1024, add(x,c) of matrices; each has a _refuted theorem."
  },
  {
   "property": "C188",
   "status": "partial",
   "theorems": [
    "C188_sum0",
    "C188_sum1_partial",
    "C188_sum1_refuted",
    "C188_sides"
   ],
   "note": "sum0_into and avg0_into in full; sum1_into for last sides up to 1024, refuted beyond (nothing is launched)."
  },
  {
   "property": "C189",
   "status": "partial",
   "theorems": [
    "C189_relu_refuted",
    "C189_relu_partial",
    "C189_relu_back_refuted",
    "C189_rejects"
   ],
   "note": "Refuted: both calls overwrite their target. Proved what they write, and that add_ReLU is right on a zero vector. Adjacent elements only, as the kernels ignore strides."
  },
  {
   "property": "C190",
   "status": "partial",
   "theorems": [
    "C190_reduce0_partial",
    "C190_reduce1_partial",
    "C190_into_partial",
    "C190_into_rejects",
    "C190_middle_partial",
    "C190_slices_partial",
    "C190_one_row_refuted",
    "C190_one_slice_refuted",
    "C190_layout_refuted",
    "C190_layout1_refuted",
    "C190_layout3_refuted",
    "C190_broadcast_partial",
    "C190_broadcast_rejects",
    "C190_broadcast_layout_refuted"
   ],
   "note": "Proved for regular matrices with two rows or more (reduce0, reduce0 into a vector), matrices stored by columns (reduce1), 3-tensors with regular slices and a middle side of two or more (at most 67107840 elements per slice when there are no gaps between the slices), and regular matrices and vectors (broadcast0), for every order of the updates in a launch. Refuted: a single row is doubled; for other layouts nothing is launched."
  },
  {
   "property": "C191",
   "status": "partial",
   "theorems": [
    "C191_columns_refuted",
    "C191_sum_refuted",
    "C191_rejects"
   ],
   "note": "Refuted: the library call multiplies column j of r by y(j) and never reads x, so r=0 stays 0 whatever x and y are. The theorem states what r becomes, for r and y stored without gaps; the rejection of wrong sizes is proved."
  },
  {
   "property": "C192",
   "status": "partial",
   "theorems": [
    "C192_AA_partial",
    "C192_AH_partial",
    "C192_HA_partial",
    "C192_mix_partial",
    "C192_target_rejects",
    "C192_AH_rejects",
    "C192_HA_rejects",
    "C192_mix_rejects",
    "C192_layout_refuted",
    "C192_sides_refuted"
   ],
   "note": "Proved for operands stored by rows without gaps (in add_mix_1_0 gaps between the slices of x are allowed), with sides of at least 1 where the library requires a leading dimension of 1, for every order of the updates. Targets of another layout are rejected. Refuted: other layouts of x and y are read as if stored by rows without gaps, and add_matmul_AA does not compare the numbers of rows."
  },
  {
   "property": "C193",
   "status": "partial",
   "theorems": [
    "C193_matrix_refuted",
    "C193_empty",
    "C193_tensor_refuted",
    "C193_rejects",
    "C193_layout_rejects"
   ],
   "note": "Refuted: the call adds n0*n1 floats although the operands hold 2*n0*n1 (matrices) or 2*n0*n1*n2 (3-tensors), so at best the first half of r is increased. The theorems state what r becomes; the rejection of other sides and layouts is proved."
  },
  {
   "property": "C194",
   "status": "partial",
   "theorems": [
    "C194_mix_2_0_partial",
    "C194_mix_2_H_partial",
    "C194_mix_3_0_partial",
    "C194_mix_3_H_partial",
    "C194_target_rejects",
    "C194_target4_rejects",
    "C194_sides_rejects",
    "C194_gap_refuted",
    "C194_outside_refuted"
   ],
   "note": "Proved for operands stored without gaps, any sides with n,c>=1 and any order of the updates; targets whose rows have gaps are rejected. Refuted for gaps between the slices: the stride of the first axis is dropped, so the slices are taken to follow each other and memory outside the target changes (C194_gap_refuted, C194_outside_refuted)."
  },
  {
   "property": "C195",
   "status": "partial",
   "theorems": [
    "C195_contract_partial",
    "C195_contract4_partial",
    "C195_expand_partial",
    "C195_contract_rejects",
    "C195_expand_rejects",
    "C195_contract4_rejects",
    "C195_contract_refuted",
    "C195_expand_refuted"
   ],
   "note": "Proved for operands of any layout, any number of summed terms, and sides within the launch limits (last side at most 1024; for add_expand_2 also b,d<=65535, and at most 64 channels unless b*d*c>1024). Refuted outside: C195_contract_refuted, C195_expand_refuted show that nothing is computed and no error reaches the caller, e.g. for 65 channels in small tensors."
  },
  {
   "property": "C196",
   "status": "partial",
   "theorems": [
    "C196_0",
    "C196_1",
    "C196_2_partial",
    "C196_3_1_partial",
    "C196_2_refuted",
    "C196_3_1_refuted",
    "C196_3_0_partial",
    "C196_3_0_refuted",
    "C196_3_0_refuted_outside",
    "C196_0_2_refuted",
    "C196_0_2_partial",
    "C196_3_2_refuted",
    "C196_3_2_partial"
   ],
   "note": "Proved for 0_0_0, 0_1_0 and 1_q_0 without restriction on the sides that an int holds and a grid allows, for 2_q_0 when n1<=65535, for 3_1_0 when n1,n2<=65535 and n2<=64 or the result has more than 1024 elements (beyond these sides no launch is legal and nothing is computed: C196_2_refuted, C196_3_1_refuted). Refuted: 3_0_0 launches a row of n0*n1 threads for results of up to 1024 elements, so only elements (i,0,0) change and cells behind r are written (C196_3_0_refuted, C196_3_0_refuted_outside); 0_2_0 ignores the second stride of y and uses that of x (C196_0_2_refuted); 3_2_0 has no return after its launches, so the sum is added up to four times, and its kernel uses the last stride of x for y (C196_3_2_refuted). The _partial theorems give the shapes and strides for which these three are right."
  },
  {
   "property": "C197",
   "status": "partial",
   "theorems": [
    "C197_copy_partial",
    "C197_copy_nested_partial",
    "C197_copy_refuted",
    "C197_new_partial",
    "C197_new_refuted",
    "C197_new_rejects"
   ],
   "note": "CPU. Proved for all layouts whose elements lie below the largest product of a side with its stride, in particular for axes that are nested in some order (dense tensors, their permutations, slices and blocks). Refuted otherwise: the elements (i,j) at 2i+3j with i<3, j<2 are distinct, but the new array has 6 cells and the last element is at 7 (C197_copy_refuted, C197_new_refuted). Views with stride 0 along a side above 1 (repeated elements) are not covered."
  },
  {
   "property": "C198",
   "status": "partial",
   "theorems": [
    "C198_mprod_host_partial",
    "C198_mprod_AH_host_partial",
    "C198_mvprod_host_partial",
    "C198_mprod_device_partial",
    "C198_mprod_AH_device_partial",
    "C198_to_device_refuted",
    "C198_mvprod_refuted",
    "C198_rejects",
    "C198_mvprod_rejects"
   ],
   "note": "Proved: with r on the host and on the card, add_mprod and add_mprod_AH add the product for every placement of x and y, provided operands on the other device are row-major (and, for r on the card, the rows of the matrices have unit inner stride); add_mvprod with r on the host; misfitting sides throw, in all three. Refuted: a host operand that is not row-major with r on the card makes the copy recurse without end; add_mvprod with r on the card computes nothing."
  },
  {
   "property": "C199",
   "status": "partial",
   "theorems": [
    "C199_device_partial",
    "C199_half_refuted",
    "C199_wide_refuted",
    "C199_rejects"
   ],
   "note": "Proved: for any mask and thread order the first c of the 2c cells of every row of r gain the sums of the mask, and nothing else changes; misfitting widths and layouts throw. Refuted: the kernel is told that a row has c cells, so the other half of each row (always including the imaginary part of the last column) gains nothing; matrices of more than 6144 columns are rejected."
  },
  {
   "property": "C200",
   "status": "proved",
   "theorems": [
    "C200_double",
    "C200_triple",
    "C200_quadruple",
    "C200_quintuple",
    "C200_order"
   ],
   "note": "By refinement over all histories, for arbitrary hash functions; std::unordered_map is modelled as a table of buckets that may be enlarged at any insertion."
  },
  {
   "property": "C201",
   "status": "partial",
   "theorems": [
    "C201_histories_partial",
    "C201_fill_partial",
    "C201_fill_refuted",
    "C201_move_refuted",
    "C201_move_device"
   ],
   "note": "Proved for every history that moves only vectors on the host: each live vector holds its own elements, no call is UB, nothing leaks. Refuted: the move constructor does not take over the device, so a vector moved on the graphics card believes itself on the host and its destruction is UB. The constructor with a fill value passes on its own device number before that is initialized: shown right if it happens to read 0 and UB if it reads 1. Devices are 0 and 1; allocation does not fail."
  }
 ]
}
