{
 "C01": {
  "note": "For every width and every pair where the quotient is representable; C01_no_ub_refuted shows INT_MIN / -1 is undefined behaviour."
 },
 "C04": {
  "note": ""
 },
 "C05": {
  "note": "C05_lcm_zero_refuted: lcm(0,0) divides by zero."
 },
 "C06": {
  "note": "C06_no_ub_refuted: the C++ int arithmetic overflows for large parameters."
 },
 "C07": {
  "note": "C07_mod_unreduced_refuted: the % result is not always reduced."
 },
 "C31": {
  "note": "All interleavings of any number of threads; sequentially consistent atomics. C31_size_wrap_refuted: n >= 2^61 wraps."
 },
 "C32": {
  "note": "C32_two_waiters_lost_wakeup_refuted: two threads waiting for one task can lose a wake-up."
 },
 "C33": {
  "note": "Each semaphore intrinsic is one atomic step (it runs under the thread pool mutex). C33_duplicate_semaphore_refuted: a wait naming one semaphore twice drives it negative."
 },
 "C19": {
  "note": "Refuted corners are theorems: slice(d) of a folded dimension does not move the base to the minimum; slice(span) with a dimension past the rank accesses the dims array out of bounds."
 },
 "C20": {
  "note": "Unfolded (or stride 0) dimensions; C20_translate_folded_refuted shows folded dimensions do move."
 },
 "C40": {
  "note": "The run-time addressing of folded dimensions; the choice of the fold factor by the scheduler (slide_and_fold_storage.cc) is not modelled here."
 },
 "C21": {
  "note": "Any rank whenever init_strides has no undefined behaviour; proved UB-free up to rank 5; C21_rank6_ub_refuted shows copy_small_n_backward breaks at rank 6."
 },
 "C22": {
  "note": "Non-negative strides for allocate and make (C22_allocate_negative_refuted shows negative strides start before the block); size_bytes for all strides."
 },
 "C10": {
  "note": "Each rule is proved separately (479 lemmas, Rules*_Proofs.v) and lifted to the rewrite engine. The restrictions are necessary: C10_infinity_refuted, C10_staircase_truncation_refuted, C10_overflowed_condition_refuted. Values are compared in unbounded arithmetic with infinities."
 },
 "C11": {
  "note": "Any rule list; C11_no_match_missed: the search over operand orders is complete."
 },
 "C12": {
  "note": "All 13 binary operators, !, select and calls (simplify_exprs.cc). The restrictions are hypotheses; C12_*_refuted show each is needed."
 },
 "C43": {
  "note": "For all expressions whose logical operands are boolean expressions, constants or variables, all environments (infinite values included). C43_evaluation links it to the evaluator of C09. Refuted without the side condition: C43_logical_operand_refuted."
 },
 "C44": {
  "note": "For all expressions and constants; UB of the code (c = INT64_MIN times -1) is C44_least_constant_refuted."
 },
 "C27": {
  "note": "Any statement whose lets bind distinct symbols, any host (calls, allocator, schedules), any result. Buffer objects are restored for all addresses. Refuted: the symbol of an async is set to 0 (C27_async_refuted); a let that binds a symbol twice (C27_duplicate_let_refuted)."
 },
 "C28": {
  "note": "C28_failure_reported for every program (parallel loops and asyncs included); C28_stops_at_first_failure for programs without them; C28_block gives the exact meaning of a block as a relation."
 },
 "C29": {
  "note": "Serial: positive steps. Parallel: positive steps, hi >= lo - 1, and a thread pool that hands out every iteration once (C05, C06); iterations run one after the other in any order on any workers. Refuted outside: C29_negative_extent_refuted, C29_negative_step_refuted, C29_last_index_refuted."
 },
 "C30": {
  "note": "Ledger of config->allocate and config->free over every program; C30_allocate says when the block of one allocate is given back; the free intrinsic counts as giving back, and then the end of the allocate does nothing."
 },
 "C37": {
  "note": "For all lists of flat statements (what block::make itself yields); the raw block constructor is private in the code."
 },
 "C23": {
  "note": "for_each_element: equality of the list of calls with the list of all indices (any number of buffers, ranks, folds, broadcasts, null and partially out-of-bounds buffers). Contiguous slices: permutation. With two dimensions of stride elem_size the runs go out of bounds: C23_two_contiguous_dims_refuted. index_t unbounded."
 },
 "C26": {
  "note": "Elements of all buffers, with multiplicity, over the indices of the first. Needs: fold factors positive; a dimension that is a single index with a stride is not mixed with folded or (out of bounds) broadcast dimensions; broadcasts of the first buffer are points. The _refuted theorems show each precondition is needed, and that the dim_sets argument of optimize_dims is not respected after a fuse."
 },
 "C24": {
  "note": "Unpadded copy, padded copy (also in place) and pad, for every memory. Padded copies: buffers without folds, stride-0 source dimensions are [0,0], not both those and strided single-index dimensions; refuted counterexamples show each restriction is needed (a bounds of [0,0] in pad is taken for a broadcast)."
 },
 "C25": {
  "note": "optimize_fill_value + fill for every element size and value, and a copy of one element to a whole buffer."
 },
 "C34": {
  "note": "Transition system with interleaved atomic counter steps, handles that are members of objects (cascading destruction), take/assume. Self-assignment by copy is covered (C34_assign); self-assignment by move destroys the object: C34_self_move_refuted (finding)."
 },
 "C14": {
  "note": "interval_expr algebra (expr.cc): union, intersection, shift, negate, reflect, scale, contains, clamp, select, boxes; refuted: intersection/union of boxes of different rank, union with an empty interval is not exact"
 },
 "C13": {
  "note": "Each operation of bounds_of is modelled (simplify_bounds.cc); operand intervals whose ends have values. Side conditions: constants in the ranges for which C10/C12 hold, logical operands with non-negative ends, 0*infinity only as literals; refuted statements show the cases without them. simplify() inside the min/max tightening is a parameter assumed to preserve values."
 },
 "C17": {
  "note": "depends_on, can_substitute_buffer, find_dependencies, find_buffer_dependencies, find_buffer_data_dependency, is_pure, has_side_effects; exactness for expressions; for statements non-interference of the evaluator, given that call functions only look at their inputs, outputs and scalars (calls_read_named) and that closures pass symbols under their own names (plain_closures). Findings: a clone of x that is not used is not reported (C17_clone_refuted), closures with other lets (C17_closure_refuted)."
 },
 "C45": {
  "note": "make_closure is optimizations.cc:1797-1810 without the mutation of the body; serial execution of a closure differs only at symbols of asyncs (C45_serial)."
 },
 "C16": {
  "note": "C16_value_refuted: where a let of e binds a symbol of the replacement, the target is left unsubstituted instead of being captured, so the literal claim fails; C16_meaning/C16_evaluate assume no let captures, C16_never_captures shows that no value changes otherwise. C16_field_refuted: a buffer field of the target can only be replaced when the replacement is a variable (assert)."
 },
 "C46": {
  "note": "Uses of the buffer's address (buffer_at) are not covered. C46_capture_refuted: lets of e capture symbols of the new dimensions, because enter_decl only compares with the target."
 },
 "C47": {
  "note": "C47_shadow_refuted: lets that shadow symbols of the target are not looked at."
 },
 "C41": {
  "note": "learn_from_true/false/less/less_equal/equal, expr_info::merge, add_var_info and the scoping of knowledge. Three kinds of conditions are excluded (learnable) because the code learns falsehoods from them: C41_max_refuted, C41_min_refuted, C41_not_boolean_refuted, C41_mod_zero_refuted. Rewrites of bounds are covered for operands with constants below 2^30 (C41_small) or any other check that admits only value-preserving rewrites (C41_learn)."
 },
 "C48": {
  "note": "Theorems are about runs with checks: a run that is not stopped by a check is a run of the code with the same result (first conclusion of each theorem), and then the value is kept. C48_checks: computable checks. The refuted theorems show bugs the checks stop. Lets are not modelled (UB); recursion has fuel."
 },
 "C49": {
  "note": "Sequentially consistent interleavings.  C49_table_refuted and C49_shared_entry_refuted: lost wakeups for other types than int32_t (until the 2 s limit) and for entries shared between int32_t and other types."
 },
 "C50": {
  "note": "C50_match, C50_compare_*: matching is equality up to the attributes [forget] removes, compare a total order of its classes; C50_canonicalize*: canonicalize_nodes keeps the statement up to (resp. exactly, if no two statements differ only in) these. C50_storage_refuted, C50_workers_refuted: the ignored attributes do change the program. Targets of calls and contents of constant buffers are opaque."
 },
 "C51": {
  "note": "Three findings: the task and the body of an async that share a buffer (C51_async_refuted: use after free), nested allocations with one symbol (C51_nested_refuted: double free), a constant with the symbol of the allocation (C51_constant_refuted). Build_pipeline runs deshadow before, which removes the last two; allocation identities are assumed fresh. Safety is about a trace semantics that over-approximates evaluation."
 },
 "C52": {
  "note": "is_linear, is_copy, is_copy_dst_dim and implement_copy in full, run by the model of evaluate; five refuted theorems delimit the restrictions (two symbols in an index, select conditions, folded sources, padded copies with indices that refer to dst, padding with several elements)"
 },
 "C53": {
  "note": "Simulation between the evaluator and VSem_Spec.vexec (environment of values). Closures must hand on symbols under their own names (what mutate_closure makes); copy_stmt is excluded (implemented by calls, C52). Findings: C53_in_place_crop_refuted, C53_alias_refuted."
 },
 "C54": {
  "note": "Statement-level substitute: result refines let x = rep in s in the value semantics (C54_substitute), hence the evaluator gives the same code, effects and log (C54_evaluate); definedness (C54_defined). Statements without closures, copies and asyncs; findings as _refuted theorems."
 },
 "C55": {
  "note": "C55_optimize: definedness and refinement in the value semantics; C55_evaluate: the evaluator itself, via C53. Statements with asyncs, copies, closures, and those listed in the property are not covered; the _refuted theorems show why most of these conditions are needed."
 },
 "C56": {
  "note": "C56_deshadow is the refinement in the value semantics of C53 (asyncs, closures and checks of free excluded: none exist when the pass runs), C56_evaluate the consequence for the evaluator, C56_unshadowed the absence of shadowing (allocations apart: C56_allocate_refuted), C56_free the free symbols and kept names, C56_defined that no assert fails, C56_insert_unique the fresh names. Findings: C56_*_refuted."
 },
 "C57": {
  "note": "Refinement of fuse_siblings in the value semantics and in the evaluator, termination, and that no adjacent siblings are left. Without asyncs, copies and closures; adjacent equal allocations and capture are excluded, and shown as findings."
 },
 "C58": {
  "note": "The functions that are called are universally quantified; the hypothesis on them (pure_calls) is what min_rank promises. The evaluator theorem is through the value semantics of C53. Asyncs, copies and closures are outside. Shapes at which the statement fails without the hypotheses are the C58_*_refuted theorems."
 },
 "C59": {
  "note": "compute_at with an undefined variable (an assert in loop_id::operator==) is outside the model."
 },
 "C60": {
  "note": "The calls and loops that make_loop makes, before lay_out_allocations wraps allocations around them; the finding is C60_twice_refuted."
 },
 "C61": {
  "note": "C61_lifetime_refuted: one buffer whose lifetime does not end inside the loop is enough to misplace another one"
 },
 "C62": {
  "note": "Calls, loops, allocations and constants of the built program; not the crops and checks around them. The store_at of a buffer is a loop around its producer and consumers (storable): C62_not_allocated_refuted shows what happens otherwise."
 },
 "C63": {
  "note": "The bounds of the whole buffers; that inferred bounds do not mention dimension variables and that runs of bounds_of are accepted by the checks of C48 are hypotheses (both computed in the example)."
 },
 "C68": {
  "note": "Concatenations, stacks, copies of several inputs and padded copies, for any function that copies. C68_stack_cropped_refuted and C68_pad_output_crop_refuted are findings; C68_metadata_refuted shows that the condition on the bounds is needed."
 },
 "C67": {
  "note": "All loop bodies, schedules and interleavings. The _refuted theorems are the conditions of C67_data and C67_synchronized: enough workers allowed, windows without gaps."
 },
 "C69": {
  "note": "Crops of a loop body: which buffers and dimensions are cropped, compared with cropping everything. Buffers allocated in the body are not modelled. Refuted without the hypotheses: a source of a copy that something outside of the body uses, too, and cyclic graphs."
 },
 "C70": {
  "note": "Expressions in the value semantics (VSem_Spec.v). C70_values: the values of sanitized expressions inside are those of the original with the external buffers as outside; C70_no_metadata, C70_accepts (iff), C70_undefined. Indices of buffer_at must have the same value outside of everything: C70_local_refuted."
 },
 "C71": {
  "note": "Value semantics (VSem_Spec.v), plain statements without async. C71_whole_inputs and C71_allocation: equal to the original run with calls that are given the whole buffers; C71_same: equal to the original run if functions do not distinguish. Copies of replaced buffers are excluded; symbols defined again inside: C71_shadow_refuted."
 },
 "C72": {
  "note": "all statements without copies and closures; the values of the trace intrinsics depend on their arguments only, and trace_end is not 0"
 }
}