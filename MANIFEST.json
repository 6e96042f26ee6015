{
 "claims": [
  {
   "property": "C01",
   "status": "proved",
   "theorems": [
    "C01_euclidean_div_mod",
    "C01_euclid_unique",
    "C01_positive_divisor_variants",
    "C01_no_ub_refuted"
   ],
   "note": "For every width and every pair where the quotient is representable; C01_no_ub_refuted shows INT_MIN / -1 is undefined behaviour."
  },
  {
   "property": "C02",
   "status": "proved",
   "theorems": [
    "C02_floor_div",
    "C02_ceil_div",
    "C02_round_div",
    "C02_align_up",
    "C02_align_down"
   ],
   "note": ""
  },
  {
   "property": "C03",
   "status": "proved",
   "theorems": [
    "C03_saturating"
   ],
   "note": ""
  },
  {
   "property": "C04",
   "status": "proved",
   "theorems": [
    "C04_overflow_flag_exact"
   ],
   "note": ""
  },
  {
   "property": "C05",
   "status": "proved",
   "theorems": [
    "C05_gcd",
    "C05_gcd_signed",
    "C05_lcm",
    "C05_lcm_zero_refuted",
    "C05_is_power_of_two"
   ],
   "note": "C05_lcm_zero_refuted: lcm(0,0) divides by zero."
  },
  {
   "property": "C06",
   "status": "proved",
   "theorems": [
    "C06_staircase_bounds_sound",
    "C06_staircase_bounds_tight",
    "C06_staircase_bounds_defined",
    "C06_no_ub_refuted"
   ],
   "note": "C06_no_ub_refuted: the C++ int arithmetic overflows for large parameters."
  },
  {
   "property": "C07",
   "status": "proved",
   "theorems": [
    "C07_modulus_remainder_sound",
    "C07_modulus_remainder_mod_sound",
    "C07_zero_visible",
    "C07_mod_unreduced_refuted",
    "C07_results_reduced"
   ],
   "note": "C07_mod_unreduced_refuted: the % result is not always reduced."
  },
  {
   "property": "C08",
   "status": "proved",
   "theorems": [
    "C08_operator",
    "C08_arithmetic",
    "C08_comparisons",
    "C08_clamp",
    "C08_min_max_of_list",
    "C08_boolean",
    "C08_constant_fold",
    "C08_constant_fold_defined",
    "C08_constant_fold_div_refuted"
   ],
   "note": ""
  },
  {
   "property": "C09",
   "status": "proved",
   "theorems": [
    "C09_evaluate_sound",
    "C09_evaluate_defined",
    "C09_laziness",
    "C09_let_scoping",
    "C09_duplicate_let_refuted"
   ],
   "note": ""
  },
  {
   "property": "C10",
   "status": "proved",
   "theorems": [
    "C10_rule_preserves_value",
    "C10_rule_preserves_value_finite",
    "C10_rule_preserves_value_small",
    "C10_infinity_refuted",
    "C10_staircase_truncation_refuted",
    "C10_overflowed_condition_refuted"
   ],
   "note": "Each rule is proved separately (479 lemmas, Rules*_Proofs.v) and lifted to the rewrite engine. The restrictions are necessary: C10_infinity_refuted, C10_staircase_truncation_refuted, C10_overflowed_condition_refuted. Values are compared in unbounded arithmetic with infinities."
  },
  {
   "property": "C11",
   "status": "proved",
   "theorems": [
    "C11_engine_sound",
    "C11_first_rule",
    "C11_no_match_missed",
    "C11_match_found"
   ],
   "note": "Any rule list; C11_no_match_missed: the search over operand orders is complete."
  },
  {
   "property": "C12",
   "status": "proved",
   "theorems": [
    "C12_binary",
    "C12_not",
    "C12_select",
    "C12_call",
    "C12_constants",
    "C12_min_infinity_refuted",
    "C12_buffer_at_refuted",
    "C12_constant_division_refuted"
   ],
   "note": "All 13 binary operators, !, select and calls (simplify_exprs.cc). The restrictions are hypotheses; C12_*_refuted show each is needed."
  },
  {
   "property": "C13",
   "status": "proved",
   "theorems": [
    "C13_encloses_contains",
    "C13_add",
    "C13_sub",
    "C13_min",
    "C13_max",
    "C13_mul",
    "C13_div",
    "C13_mod",
    "C13_less",
    "C13_less_equal",
    "C13_equal",
    "C13_not_equal",
    "C13_and",
    "C13_or",
    "C13_not",
    "C13_select",
    "C13_abs",
    "C13_call_other",
    "C13_ex_mul",
    "C13_ex_sub_div",
    "C13_ex_tighten",
    "C13_ex_tighten_ok",
    "C13_ex_min_max",
    "C13_not_refuted",
    "C13_and_refuted",
    "C13_select_refuted",
    "C13_mul_infinity_refuted"
   ],
   "note": "Each operation of bounds_of is modelled (simplify_bounds.cc); operand intervals whose ends have values. Side conditions: constants in the ranges for which C10/C12 hold, logical operands with non-negative ends, 0*infinity only as literals; refuted statements show the cases without them. simplify() inside the min/max tightening is a parameter assumed to preserve values."
  },
  {
   "property": "C14",
   "status": "proved",
   "theorems": [
    "C14_intersection",
    "C14_union_contains",
    "C14_union_smallest",
    "C14_all_none",
    "C14_union_identity",
    "C14_intersection_identity",
    "C14_shift",
    "C14_negate",
    "C14_reflect",
    "C14_scale",
    "C14_scale_exact",
    "C14_contains",
    "C14_extent_empty",
    "C14_construct",
    "C14_clamp",
    "C14_select",
    "C14_box_union",
    "C14_box_union_contains",
    "C14_box_intersection",
    "C14_box_intersection_defined",
    "C14_simplify_intersection",
    "C14_ex_ok",
    "C14_ex",
    "C14_ex_simplify",
    "C14_box_intersection_refuted",
    "C14_box_union_refuted",
    "C14_union_of_empty_refuted"
   ],
   "note": "interval_expr algebra (expr.cc): union, intersection, shift, negate, reflect, scale, contains, clamp, select, boxes; refuted: intersection/union of boxes of different rank, union with an empty interval is not exact"
  },
  {
   "property": "C15",
   "status": "proved",
   "theorems": [
    "C15_compare_total_order",
    "C15_match_iff_equal",
    "C15_node_less_strict_total",
    "C15_match_same_value",
    "C15_interval_match"
   ],
   "note": ""
  },
  {
   "property": "C16",
   "status": "proved",
   "theorems": [
    "C16_meaning",
    "C16_never_captures",
    "C16_evaluate",
    "C16_evaluate_never_captures",
    "C16_interval",
    "C16_dim",
    "C16_symbols",
    "C16_eliminated",
    "C16_defined",
    "C16_value_refuted",
    "C16_field_refuted",
    "C16_ex"
   ],
   "note": "C16_value_refuted: where a let of e binds a symbol of the replacement, the target is left unsubstituted instead of being captured, so the literal claim fails; C16_meaning/C16_evaluate assume no let captures, C16_never_captures shows that no value changes otherwise. C16_field_refuted: a buffer field of the target can only be replaced when the replacement is a variable (assert)."
  },
  {
   "property": "C17",
   "status": "proved",
   "theorems": [
    "C17_depends_on_exact",
    "C17_depends_on_any_exact",
    "C17_evaluate",
    "C17_depends_on",
    "C17_depends_on_any",
    "C17_depends_on_interval",
    "C17_flags",
    "C17_can_substitute_buffer",
    "C17_find_dependencies",
    "C17_find_dependencies_sorted",
    "C17_find_buffer_data_dependency",
    "C17_is_pure",
    "C17_has_side_effects",
    "C17_run",
    "C17_depends_on_stmt",
    "C17_depends_on_any_stmt",
    "C17_find_dependencies_run",
    "C17_find_dependencies_stmt",
    "C17_find_dependencies_stmt_sorted",
    "C17_find_buffer_dependencies",
    "C17_find_buffer_dependencies_sorted",
    "C17_depends_on_access",
    "C17_clone_refuted",
    "C17_closure_refuted"
   ],
   "note": "depends_on, can_substitute_buffer, find_dependencies, find_buffer_dependencies, find_buffer_data_dependency, is_pure, has_side_effects; exactness for expressions; for statements non-interference of the evaluator, given that call functions only look at their inputs, outputs and scalars (calls_read_named) and that closures pass symbols under their own names (plain_closures). Findings: a clone of x that is not used is not reported (C17_clone_refuted), closures with other lets (C17_closure_refuted)."
  },
  {
   "property": "C18",
   "status": "proved",
   "theorems": [
    "C18_crop_bounds",
    "C18_crop_keeps_addresses",
    "C18_crop_adds_nothing",
    "C18_crop_empty_is_null",
    "C18_crop_nonempty_not_null",
    "C18_crop_past_rank",
    "C18_crop_crop",
    "C18_crop_idempotent"
   ],
   "note": ""
  },
  {
   "property": "C19",
   "status": "proved",
   "theorems": [
    "C19_slice_at_address",
    "C19_slice_rank",
    "C19_slice_null_iff",
    "C19_slice_in_bounds",
    "C19_slice_default",
    "C19_slice_default_folded_refuted",
    "C19_slice_many",
    "C19_slice_many_past_rank_refuted",
    "C19_slice_buffer"
   ],
   "note": "Refuted corners are theorems: slice(d) of a folded dimension does not move the base to the minimum; slice(span) with a dimension past the rank accesses the dims array out of bounds."
  },
  {
   "property": "C20",
   "status": "proved",
   "theorems": [
    "C20_translate_address",
    "C20_translate_bounds",
    "C20_translate_folded_refuted"
   ],
   "note": "Unfolded (or stride 0) dimensions; C20_translate_folded_refuted shows folded dimensions do move."
  },
  {
   "property": "C21",
   "status": "proved",
   "theorems": [
    "C21_auto_strides_assigned",
    "C21_elements_disjoint",
    "C21_no_ub_small_rank",
    "C21_rank6_ub_refuted"
   ],
   "note": "Any rank whenever init_strides has no undefined behaviour; proved UB-free up to rank 5; C21_rank6_ub_refuted shows copy_small_n_backward breaks at rank 6."
  },
  {
   "property": "C22",
   "status": "proved",
   "theorems": [
    "C22_init_strides_covers",
    "C22_init_strides_tight",
    "C22_allocate_covers",
    "C22_allocate_negative_refuted",
    "C22_size_bytes_covers",
    "C22_size_bytes_tight",
    "C22_make_covers"
   ],
   "note": "Non-negative strides for allocate and make (C22_allocate_negative_refuted shows negative strides start before the block); size_bytes for all strides."
  },
  {
   "property": "C23",
   "status": "proved",
   "theorems": [
    "C23_for_each_element",
    "C23_for_each_contiguous_slice",
    "C23_every_index_once",
    "C23_no_address_twice",
    "C23_two_contiguous_dims_refuted"
   ],
   "note": "for_each_element: equality of the list of calls with the list of all indices (any number of buffers, ranks, folds, broadcasts, null and partially out-of-bounds buffers). Contiguous slices: permutation. With two dimensions of stride elem_size the runs go out of bounds: C23_two_contiguous_dims_refuted. index_t unbounded."
  },
  {
   "property": "C24",
   "status": "proved",
   "theorems": [
    "C24_copy",
    "C24_copy_padded",
    "C24_pad",
    "C24_pad_point_refuted",
    "C24_padded_broadcast_refuted",
    "C24_padded_stride0_refuted",
    "C24_padded_folded_refuted"
   ],
   "note": "Unpadded copy, padded copy (also in place) and pad, for every memory. Padded copies: buffers without folds, stride-0 source dimensions are [0,0], not both those and strided single-index dimensions; refuted counterexamples show each restriction is needed (a bounds of [0,0] in pad is taken for a broadcast)."
  },
  {
   "property": "C25",
   "status": "proved",
   "theorems": [
    "C25_fill",
    "C25_fill_buffer"
   ],
   "note": "optimize_fill_value + fill for every element size and value, and a copy of one element to a whole buffer."
  },
  {
   "property": "C26",
   "status": "proved",
   "theorems": [
    "C26_fuse_dim",
    "C26_attempt_fuse",
    "C26_fuse_contiguous_dims",
    "C26_sort_dims",
    "C26_optimize_dims",
    "C26_optimize_dims_sets",
    "C26_folded_point_refuted",
    "C26_broadcast_point_refuted",
    "C26_first_broadcast_refuted",
    "C26_dim_sets_refuted"
   ],
   "note": "Elements of all buffers, with multiplicity, over the indices of the first. Needs: fold factors positive; a dimension that is a single index with a stride is not mixed with folded or (out of bounds) broadcast dimensions; broadcasts of the first buffer are points. The _refuted theorems show each precondition is needed, and that the dim_sets argument of optimize_dims is not respected after a fuse."
  },
  {
   "property": "C27",
   "status": "proved",
   "theorems": [
    "C27_context_restored",
    "C27_objects_stay_below",
    "C27_async_refuted",
    "C27_duplicate_let_refuted"
   ],
   "note": "Any statement whose lets bind distinct symbols, any host (calls, allocator, schedules), any result. Buffer objects are restored for all addresses. Refuted: the symbol of an async is set to 0 (C27_async_refuted); a let that binds a symbol twice (C27_duplicate_let_refuted)."
  },
  {
   "property": "C28",
   "status": "proved",
   "theorems": [
    "C28_failure_reported",
    "C28_stops_at_first_failure",
    "C28_block"
   ],
   "note": "C28_failure_reported for every program (parallel loops and asyncs included); C28_stops_at_first_failure for programs without them; C28_block gives the exact meaning of a block as a relation."
  },
  {
   "property": "C29",
   "status": "proved",
   "theorems": [
    "C29_serial",
    "C29_parallel",
    "C29_negative_extent_refuted",
    "C29_negative_step_refuted",
    "C29_last_index_refuted"
   ],
   "note": "Serial: positive steps. Parallel: positive steps, hi >= lo - 1, and a thread pool that hands out every iteration once (C05, C06); iterations run one after the other in any order on any workers. Refuted outside: C29_negative_extent_refuted, C29_negative_step_refuted, C29_last_index_refuted."
  },
  {
   "property": "C30",
   "status": "proved",
   "theorems": [
    "C30_every_block_freed",
    "C30_balanced",
    "C30_allocate",
    "C30_stack"
   ],
   "note": "Ledger of config->allocate and config->free over every program; C30_allocate says when the block of one allocate is given back; the free intrinsic counts as giving back, and then the end of the allocate does nothing."
  },
  {
   "property": "C31",
   "status": "proved",
   "theorems": [
    "C31_items_at_most_once",
    "C31_done_means_each_item_once",
    "C31_worker_leaves_nothing_behind",
    "C31_parallel_for_plan",
    "C31_size_wrap_refuted"
   ],
   "note": "All interleavings of any number of threads; sequentially consistent atomics. C31_size_wrap_refuted: n >= 2^61 wraps."
  },
  {
   "property": "C32",
   "status": "proved",
   "theorems": [
    "C32_wait_returns_after_all_finished",
    "C32_one_completion",
    "C32_worker_limit",
    "C32_parallel_for_no_deadlock",
    "C32_no_lost_wakeup",
    "C32_two_waiters_lost_wakeup_refuted"
   ],
   "note": "C32_two_waiters_lost_wakeup_refuted: two threads waiting for one task can lose a wake-up."
  },
  {
   "property": "C33",
   "status": "proved",
   "theorems": [
    "C33_wait_all_or_nothing",
    "C33_never_negative",
    "C33_permits_conserved",
    "C33_duplicate_semaphore_refuted"
   ],
   "note": "Each semaphore intrinsic is one atomic step (it runs under the thread pool mutex). C33_duplicate_semaphore_refuted: a wait naming one semaphore twice drives it negative."
  },
  {
   "property": "C34",
   "status": "proved",
   "theorems": [
    "C34_no_access_after_destruction",
    "C34_handles_are_valid",
    "C34_destroyed_once",
    "C34_destroyed_exactly",
    "C34_destroyed_iff_unreferenced",
    "C34_members_dropped",
    "C34_assign",
    "C34_move",
    "C34_calls_complete",
    "C34_example",
    "C34_self_move_refuted"
   ],
   "note": "Transition system with interleaved atomic counter steps, handles that are members of objects (cascading destruction), take/assume. Self-assignment by copy is covered (C34_assign); self-assignment by move destroys the object: C34_self_move_refuted (finding)."
  },
  {
   "property": "C35",
   "status": "proved",
   "theorems": [
    "C35_insert_unique_fresh",
    "C35_insert_lookup_name"
   ],
   "note": ""
  },
  {
   "property": "C36",
   "status": "proved",
   "theorems": [
    "C36_scopes_refine_environments",
    "C36_scope_restores"
   ],
   "note": ""
  },
  {
   "property": "C37",
   "status": "proved",
   "theorems": [
    "C37_flat",
    "C37_same_execution",
    "C37_pair"
   ],
   "note": "For all lists of flat statements (what block::make itself yields); the raw block constructor is private in the code."
  },
  {
   "property": "C38",
   "status": "proved",
   "theorems": [
    "C38_contains_iff",
    "C38_overloads_agree",
    "C38_address_at",
    "C38_buffer_at",
    "C38_buffer_at_null_iff"
   ],
   "note": ""
  },
  {
   "property": "C39",
   "status": "proved",
   "theorems": [
    "C39_empty_intersection"
   ],
   "note": ""
  },
  {
   "property": "C40",
   "status": "proved",
   "theorems": [
    "C40_fold_shares_iff",
    "C40_window_disjoint",
    "C40_fold_slots"
   ],
   "note": "The run-time addressing of folded dimensions; the choice of the fold factor by the scheduler (slide_and_fold_storage.cc) is not modelled here."
  },
  {
   "property": "C41",
   "status": "proved",
   "theorems": [
    "C41_learn",
    "C41_guard",
    "C41_intersection",
    "C41_small",
    "C41_variables",
    "C41_forgotten",
    "C41_ex_hypotheses",
    "C41_ex",
    "C41_max_refuted",
    "C41_min_refuted",
    "C41_not_boolean_refuted",
    "C41_mod_zero_refuted"
   ],
   "note": "learn_from_true/false/less/less_equal/equal, expr_info::merge, add_var_info and the scoping of knowledge. Three kinds of conditions are excluded (learnable) because the code learns falsehoods from them: C41_max_refuted, C41_min_refuted, C41_not_boolean_refuted, C41_mod_zero_refuted. Rewrites of bounds are covered for operands with constants below 2^30 (C41_small) or any other check that admits only value-preserving rewrites (C41_learn)."
  },
  {
   "property": "C42",
   "status": "proved",
   "theorems": [
    "C42_transpose_address",
    "C42_transpose_dims"
   ],
   "note": ""
  },
  {
   "property": "C43",
   "status": "proved",
   "theorems": [
    "C43_constant_lower_bound",
    "C43_constant_upper_bound",
    "C43_evaluate_constant",
    "C43_evaluate_constant_bounds",
    "C43_evaluation",
    "C43_logical_operand_refuted"
   ],
   "note": "For all expressions whose logical operands are boolean expressions, constants or variables, all environments (infinite values included). C43_evaluation links it to the evaluator of C09. Refuted without the side condition: C43_logical_operand_refuted."
  },
  {
   "property": "C44",
   "status": "proved",
   "theorems": [
    "C44_add_constant",
    "C44_least_constant_refuted"
   ],
   "note": "For all expressions and constants; UB of the code (c = INT64_MIN times -1) is C44_least_constant_refuted."
  },
  {
   "property": "C45",
   "status": "proved",
   "theorems": [
    "C45_own_context",
    "C45_async",
    "C45_parallel_loop",
    "C45_serial"
   ],
   "note": "make_closure is optimizations.cc:1797-1810 without the mutation of the body; serial execution of a closure differs only at symbols of asyncs (C45_serial)."
  },
  {
   "property": "C46",
   "status": "proved",
   "theorems": [
    "C46_meaning",
    "C46_dimensions",
    "C46_known",
    "C46_capture_refuted",
    "C46_ex"
   ],
   "note": "Uses of the buffer's address (buffer_at) are not covered. C46_capture_refuted: lets of e capture symbols of the new dimensions, because enter_decl only compares with the target."
  },
  {
   "property": "C47",
   "status": "proved",
   "theorems": [
    "C47_meaning",
    "C47_evaluate",
    "C47_target",
    "C47_shadow_refuted",
    "C47_ex"
   ],
   "note": "C47_shadow_refuted: lets that shadow symbols of the target are not looked at."
  },
  {
   "property": "C48",
   "status": "proved",
   "theorems": [
    "C48_simplify",
    "C48_bounds_of",
    "C48_prove_true",
    "C48_prove_false",
    "C48_attempt_to_prove",
    "C48_simplify_interval",
    "C48_bounds_of_interval",
    "C48_checks",
    "C48_ex",
    "C48_max_refuted",
    "C48_condition_refuted"
   ],
   "note": "Theorems are about runs with checks: a run that is not stopped by a check is a run of the code with the same result (first conclusion of each theorem), and then the value is kept. C48_checks: computable checks. The refuted theorems show bugs the checks stop. Lets are not modelled (UB); recursion has fuel."
  },
  {
   "property": "C49",
   "status": "proved",
   "theorems": [
    "C49_condvar",
    "C49_condvar_stops",
    "C49_condvar_waits",
    "C49_condvar_ex",
    "C49_futex",
    "C49_int32",
    "C49_futex_stops",
    "C49_futex_waits",
    "C49_time_limit",
    "C49_futex_ex",
    "C49_table_refuted",
    "C49_shared_entry_refuted",
    "C49_notify_one_refuted"
   ],
   "note": "Sequentially consistent interleavings.  C49_table_refuted and C49_shared_entry_refuted: lost wakeups for other types than int32_t (until the 2 s limit) and for entries shared between int32_t and other types."
  },
  {
   "property": "C50",
   "status": "proved",
   "theorems": [
    "C50_match",
    "C50_compare_match",
    "C50_compare_opposite",
    "C50_compare_transitive",
    "C50_compare_congruent",
    "C50_compare_undefined",
    "C50_canonicalize_expr",
    "C50_canonicalize",
    "C50_canonicalize_same",
    "C50_storage_refuted",
    "C50_workers_refuted"
   ],
   "note": "C50_match, C50_compare_*: matching is equality up to the attributes [forget] removes, compare a total order of its classes; C50_canonicalize*: canonicalize_nodes keeps the statement up to (resp. exactly, if no two statements differ only in) these. C50_storage_refuted, C50_workers_refuted: the ignored attributes do change the program. Targets of calls and contents of constant buffers are opaque."
  },
  {
   "property": "C51",
   "status": "proved",
   "theorems": [
    "C51_no_use_after_free",
    "C51_same_runs",
    "C51_freed_after_last_use",
    "C51_async_refuted",
    "C51_nested_refuted",
    "C51_constant_refuted"
   ],
   "note": "Three findings: the task and the body of an async that share a buffer (C51_async_refuted: use after free), nested allocations with one symbol (C51_nested_refuted: double free), a constant with the symbol of the allocation (C51_constant_refuted). Build_pipeline runs deshadow before, which removes the last two; allocation identities are assumed fresh. Safety is about a trace semantics that over-approximates evaluation."
  },
  {
   "property": "C52",
   "status": "proved",
   "theorems": [
    "C52_implement_copy",
    "C52_implement_copy_padded",
    "C52_memory",
    "C52_memory_padded",
    "C52_is_linear",
    "C52_two_symbols_refuted",
    "C52_select_refuted",
    "C52_folded_refuted",
    "C52_padded_offset_refuted",
    "C52_padding_refuted"
   ],
   "note": "is_linear, is_copy, is_copy_dst_dim and implement_copy in full, run by the model of evaluate; five refuted theorems delimit the restrictions (two symbols in an index, select conditions, folded sources, padded copies with indices that refer to dst, padding with several elements)"
  },
  {
   "property": "C53",
   "status": "proved",
   "theorems": [
    "C53_by_value",
    "C53_same_values",
    "C53_in_place_crop_refuted",
    "C53_alias_refuted"
   ],
   "note": "Simulation between the evaluator and VSem_Spec.vexec (environment of values). Closures must hand on symbols under their own names (what mutate_closure makes); copy_stmt is excluded (implemented by calls, C52). Findings: C53_in_place_crop_refuted, C53_alias_refuted."
  },
  {
   "property": "C54",
   "status": "proved",
   "theorems": [
    "C54_substitute",
    "C54_evaluate",
    "C54_defined",
    "C54_capture_refuted",
    "C54_workers_refuted",
    "C54_async_refuted",
    "C54_async_run_refuted",
    "C54_copy_refuted",
    "C54_alias_refuted"
   ],
   "note": "Statement-level substitute: result refines let x = rep in s in the value semantics (C54_substitute), hence the evaluator gives the same code, effects and log (C54_evaluate); definedness (C54_defined). Statements without closures, copies and asyncs; findings as _refuted theorems."
  },
  {
   "property": "C55",
   "status": "proved",
   "theorems": [
    "C55_optimize",
    "C55_evaluate",
    "C55_truncate_refuted",
    "C55_crop_refuted",
    "C55_alias_refuted",
    "C55_stale_refuted",
    "C55_workers_refuted"
   ],
   "note": "C55_optimize: definedness and refinement in the value semantics; C55_evaluate: the evaluator itself, via C53. Statements with asyncs, copies, closures, and those listed in the property are not covered; the _refuted theorems show why most of these conditions are needed."
  },
  {
   "property": "C56",
   "status": "proved",
   "theorems": [
    "C56_deshadow",
    "C56_evaluate",
    "C56_unshadowed",
    "C56_free",
    "C56_defined",
    "C56_insert_unique",
    "C56_allocate_refuted",
    "C56_twice_refuted",
    "C56_truncate_refuted",
    "C56_async_refuted"
   ],
   "note": "C56_deshadow is the refinement in the value semantics of C53 (asyncs, closures and checks of free excluded: none exist when the pass runs), C56_evaluate the consequence for the evaluator, C56_unshadowed the absence of shadowing (allocations apart: C56_allocate_refuted), C56_free the free symbols and kept names, C56_defined that no assert fails, C56_insert_unique the fresh names. Findings: C56_*_refuted."
  },
  {
   "property": "C57",
   "status": "proved",
   "theorems": [
    "C57_fuse",
    "C57_evaluate",
    "C57_defined",
    "C57_done",
    "C57_unshadowed",
    "C57_capture_refuted",
    "C57_in_place_refuted",
    "C57_truncate_refuted",
    "C57_allocations_refuted"
   ],
   "note": "Refinement of fuse_siblings in the value semantics and in the evaluator, termination, and that no adjacent siblings are left. Without asyncs, copies and closures; adjacent equal allocations and capture are excluded, and shown as findings."
  },
  {
   "property": "C58",
   "status": "proved",
   "theorems": [
    "C58_remove",
    "C58_remove_all",
    "C58_evaluate",
    "C58_defined",
    "C58_free",
    "C58_unshadowed",
    "C58_slices",
    "C58_empty_refuted",
    "C58_minima_refuted",
    "C58_stale_refuted",
    "C58_scalars_refuted",
    "C58_throws_refuted"
   ],
   "note": "The functions that are called are universally quantified; the hypothesis on them (pure_calls) is what min_rank promises. The evaluator theorem is through the value semantics of C53. Asyncs, copies and closures are outside. Shapes at which the statement fails without the hypotheses are the C58_*_refuted theorems."
  },
  {
   "property": "C59",
   "status": "proved",
   "theorems": [
    "C59_sort",
    "C59_nests",
    "C59_defined",
    "C59_unique"
   ],
   "note": "compute_at with an undefined variable (an assert in loop_id::operator==) is outside the model."
  },
  {
   "property": "C60",
   "status": "proved",
   "theorems": [
    "C60_program",
    "C60_twice_refuted"
   ],
   "note": "The calls and loops that make_loop makes, before lay_out_allocations wraps allocations around them; the finding is C60_twice_refuted."
  },
  {
   "property": "C61",
   "status": "proved",
   "theorems": [
    "C61_laid_out",
    "C61_lifetime_refuted"
   ],
   "note": "C61_lifetime_refuted: one buffer whose lifetime does not end inside the loop is enough to misplace another one"
  },
  {
   "property": "C62",
   "status": "proved",
   "theorems": [
    "C62_built",
    "C62_not_allocated_refuted"
   ],
   "note": "Calls, loops, allocations and constants of the built program; not the crops and checks around them. The store_at of a buffer is a loop around its producer and consumers (storable): C62_not_allocated_refuted shows what happens otherwise."
  },
  {
   "property": "C63",
   "status": "proved",
   "theorems": [
    "C63_needed_inside",
    "C63_unchecked",
    "C63_ex",
    "C63_small_refuted",
    "C63_output_refuted"
   ],
   "note": "The bounds of the whole buffers; that inferred bounds do not mention dimension variables and that runs of bounds_of are accepted by the checks of C48 are hypotheses (both computed in the example)."
  },
  {
   "property": "C64",
   "status": "proved",
   "theorems": [
    "C64_sliding_window",
    "C64_ex",
    "C64_two_dims_refuted",
    "C64_gap_refuted",
    "C64_alignment_refuted",
    "C64_warm_up_refuted",
    "C64_step_refuted"
   ],
   "note": ""
  },
  {
   "property": "C65",
   "status": "proved",
   "theorems": [
    "C65_once",
    "C65_ex",
    "C65_repeated_dim_refuted",
    "C65_other_dim_refuted"
   ],
   "note": ""
  },
  {
   "property": "C66",
   "status": "proved",
   "theorems": [
    "C66_same",
    "C66_memory",
    "C66_runs",
    "C66_at_once",
    "C66_ex",
    "C66_pad_refuted",
    "C66_shadow_refuted",
    "C66_async_refuted"
   ],
   "note": ""
  },
  {
   "property": "C67",
   "status": "proved",
   "theorems": [
    "C67_stages",
    "C67_synchronized",
    "C67_in_order",
    "C67_program",
    "C67_iterations",
    "C67_no_deadlock",
    "C67_ends",
    "C67_data",
    "C67_ex",
    "C67_declined_refuted",
    "C67_early_refuted",
    "C67_gaps_refuted"
   ],
   "note": "All loop bodies, schedules and interleavings. The _refuted theorems are the conditions of C67_data and C67_synchronized: enough workers allowed, windows without gaps."
  },
  {
   "property": "C68",
   "status": "proved",
   "theorems": [
    "C68_copies",
    "C68_padded",
    "C68_concat",
    "C68_concat_sorted",
    "C68_stack",
    "C68_ex",
    "C68_stack_cropped_refuted",
    "C68_metadata_refuted",
    "C68_pad_output_crop_refuted",
    "C68_padded_ex"
   ],
   "note": "Concatenations, stacks, copies of several inputs and padded copies, for any function that copies. C68_stack_cropped_refuted and C68_pad_output_crop_refuted are findings; C68_metadata_refuted shows that the condition on the bounds is needed."
  },
  {
   "property": "C69",
   "status": "proved",
   "theorems": [
    "C69_needed_buffers",
    "C69_crops"
   ],
   "note": "Crops of a loop body: which buffers and dimensions are cropped, compared with cropping everything. Buffers allocated in the body are not modelled. Refuted without the hypotheses: a source of a copy that something outside of the body uses, too, and cyclic graphs."
  },
  {
   "property": "C70",
   "status": "proved",
   "theorems": [
    "C70_accepts",
    "C70_no_metadata",
    "C70_values",
    "C70_undefined"
   ],
   "note": "Expressions in the value semantics (VSem_Spec.v). C70_values: the values of sanitized expressions inside are those of the original with the external buffers as outside; C70_no_metadata, C70_accepts (iff), C70_undefined. Indices of buffer_at must have the same value outside of everything: C70_local_refuted."
  },
  {
   "property": "C71",
   "status": "proved",
   "theorems": [
    "C71_whole_inputs",
    "C71_same",
    "C71_allocation"
   ],
   "note": "Value semantics (VSem_Spec.v), plain statements without async. C71_whole_inputs and C71_allocation: equal to the original run with calls that are given the whole buffers; C71_same: equal to the original run if functions do not distinguish. Copies of replaced buffers are excluded; symbols defined again inside: C71_shadow_refuted."
  },
  {
   "property": "C72",
   "status": "proved",
   "theorems": [
    "C72_same",
    "C72_names",
    "C72_address"
   ],
   "note": "all statements without copies and closures; the values of the trace intrinsics depend on their arguments only, and trace_end is not 0"
  }
 ]
}