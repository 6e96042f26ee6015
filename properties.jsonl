{"id": "C01", "title": "Euclidean division and modulo", "statement": "euclidean_div(a,b) and euclidean_mod(a,b) return the unique q and r with a = b*q + r and 0 <= r < |b| when b != 0, and both return 0 (the documented default) when b = 0; the positive-divisor variants agree with them for b > 0; within 64-bit range no intermediate step overflows except a = INT64_MIN, b = -1.", "quantifier": "every pair of 64-bit signed integers a, b", "why_tests_cant": "The implementation uses sign masks and shifts; a test samples a few sign combinations, the law must hold for all 2^128 pairs including extreme values.", "anchors": ["slinky/base/arithmetic.h: euclidean_div, euclidean_mod, euclidean_div_mod_internal, euclidean_div_positive_divisor, euclidean_mod_positive_divisor"]}
{"id": "C02", "title": "Rounding division and alignment", "statement": "floor_div/ceil_div/round_div return the floor, ceiling and nearest (ties up) integer of a/b; align_down/align_up return the greatest multiple of b not above a / least multiple of b not below a, for positive divisors.", "quantifier": "every a and every positive b for which no intermediate overflows", "why_tests_cant": "Boundary cases (negative numerators, exact multiples) are unbounded in number.", "anchors": ["slinky/base/arithmetic.h: floor_div, ceil_div, round_div, align_down, align_up"]}
{"id": "C03", "title": "Saturating arithmetic clamps the exact result", "statement": "add_sat, sub_sat, mul_sat and div_sat return the exact mathematical result when representable and otherwise the nearest representable 64-bit bound.", "quantifier": "every pair of 64-bit signed integers (nonzero divisor for div)", "why_tests_cant": "Overflow boundaries form a two-dimensional surface that tests cannot enumerate.", "anchors": ["slinky/base/arithmetic.h: add_sat, sub_sat, mul_sat, div_sat"]}
{"id": "C04", "title": "Checked arithmetic reports overflow exactly", "statement": "add/sub/mul/div_with_overflow (used to fold constants) flag overflow if and only if the exact result is not representable, and otherwise deliver the exact result, so a folded constant is never a wrapped value.", "quantifier": "every pair of 64-bit signed integers", "why_tests_cant": "Needs every pair around the representability boundary.", "anchors": ["slinky/base/arithmetic.h: add_with_overflow etc.", "slinky/builder/rewrite.h: binary_overflows"]}
{"id": "C05", "title": "gcd and lcm", "statement": "gcd(a,b) terminates and is the greatest common divisor of the non-negative operands; lcm(a,b) is their least common multiple.", "quantifier": "all integers accepted by the functions", "why_tests_cant": "Termination and maximality are universally quantified claims.", "anchors": ["slinky/base/arithmetic.h: gcd, lcm", "slinky/base/modulus_remainder.h"]}
{"id": "C06", "title": "Staircase bounds", "statement": "The interval computed for the correlated sum of two staircases, (x+a1)/b1*c1 + (x+a2)/b2*c2, contains the value of that sum for every integer x, and its finite ends are attained.", "quantifier": "all integers x and all constants a1,b1,c1,a2,b2,c2 in the supported range", "why_tests_cant": "x ranges over all integers; the code scans only one period.", "anchors": ["slinky/base/arithmetic.cc: staircase_sum_bounds", "slinky/builder/simplify_bounds.cc"]}
{"id": "C07", "title": "Modulus-remainder analysis is sound", "statement": "If a is congruent to r1 mod m1 and b to r2 mod m2, then a op b is in the congruence class computed by the modulus_remainder operators (+,-,*,/,%,union,intersection), where modulus 0 means the exact constant.", "quantifier": "all integers a, b and all modulus_remainder pairs that contain them", "why_tests_cant": "Ranges over all pairs of congruence classes and all members.", "anchors": ["slinky/base/modulus_remainder.h: modulus_remainder operators"]}
{"id": "C08", "title": "Expression construction preserves value", "statement": "Building an expression with the overloaded operators (including the canonical reordering of operands of commutative operators and the implemented folding) yields an expression whose value equals the operation applied to the operands' values.", "quantifier": "all operand expressions and all variable assignments", "why_tests_cant": "Expressions and environments are unbounded.", "anchors": ["slinky/runtime/expr.h", "slinky/runtime/expr_stmt.cc: add::make ... , operator+ ..."]}
{"id": "C09", "title": "Expression evaluation is the mathematical semantics", "statement": "evaluate(e, ctx) returns the value obtained by the usual compositional semantics of e (Euclidean division, lazy select, short-circuiting and_then/or_else, let scoping), whenever no 64-bit overflow occurs.", "quantifier": "all expressions and contexts", "why_tests_cant": "Unbounded nesting of lets, selects and calls.", "anchors": ["slinky/runtime/evaluate.cc: evaluator visit(...) for exprs"]}
{"id": "C10", "title": "Every simplifier rewrite rule preserves value", "statement": "For each of the 479 rewrite rules in the simplifier's tables: whenever its pattern matches and its side conditions hold, the replacement has the same value as the matched expression (if that has a value), infinite values included. Two groups of rules hold only under a restriction: fourteen rules that confuse INT64_MAX/INT64_MIN with infinity or look at an operand the original ignores need all subexpressions finite; seven rules whose condition can overflow or is computed in 32-bit ints need the constants of the expression below 2^30 in absolute value.", "quantifier": "every rule, every binding of wildcards and constants, every environment", "why_tests_cant": "Each rule quantifies over all integers; fuzzing samples them.", "anchors": ["slinky/builder/simplify_rules.h"]}
{"id": "C11", "title": "The rewrite engine applies rules soundly", "statement": "Pattern matching with commutative variants, side-condition evaluation and replacement construction (with overflow aborting the rewrite) never yields an expression with a different value provided the applied rule is valid; if no rule applies the expression is unchanged.", "quantifier": "all patterns, expressions, rule lists and environments", "why_tests_cant": "The matcher explores an exponential number of operand orders on arbitrary expressions.", "anchors": ["slinky/builder/rewrite.h: match, substitute, rewriter, base_rewriter"]}
{"id": "C12", "title": "Simplification helpers preserve value", "statement": "simplify(op, a, b) for min, max, add, sub, mul, div, mod, comparisons, logical operators, select and intrinsics returns an expression with the same value as op applied to a and b, wherever that value is defined. Exceptions, shown to be needed: min/max/comparisons of expressions with constants of 2^30 or more (they inherit C10's exceptions), select and equality of selects over infinite values, buffer_at on empty buffers or buffers whose base is not the address of their min.", "quantifier": "all operand expressions, all environments", "why_tests_cant": "Unbounded expressions.", "anchors": ["slinky/builder/simplify_exprs.cc"]}
{"id": "C13", "title": "Bounds of an expression contain its value", "statement": "The interval returned by bounds_of for an operation given intervals for its operands contains the operation's value for every choice of operand values within their intervals; an undefined/infinite end claims nothing.", "quantifier": "all intervals (finite or infinite ends), all operand values in them", "why_tests_cant": "Interval ends and values range over all integers.", "anchors": ["slinky/builder/simplify_bounds.cc: bounds_of"]}
{"id": "C14", "title": "Interval and box algebra", "statement": "Union of intervals contains both operands and is the smallest such interval; intersection contains exactly the common points; scaling, shifting and the box versions act per dimension.", "quantifier": "all intervals/boxes and all points", "why_tests_cant": "All integers and all ranks.", "anchors": ["slinky/runtime/expr_stmt.cc: interval_expr operators, operator|, operator&"]}
{"id": "C15", "title": "Structural match is an equivalence consistent with a total order", "statement": "compare(a,b) is a total order on expressions, match(a,b) holds exactly when compare is 0, exactly when a and b are structurally identical, and matching expressions have equal values in every environment.", "quantifier": "all expressions", "why_tests_cant": "Transitivity/antisymmetry over unbounded trees cannot be tested exhaustively.", "anchors": ["slinky/builder/substitute.cc: matcher, match, compare"]}
{"id": "C16", "title": "Substitution computes the value with the variable bound", "statement": "substitute(e, x, r) evaluated in an environment equals e evaluated with x bound to r's value, and never captures variables of r.", "quantifier": "all expressions e, r, variables x and environments", "why_tests_cant": "Shadowing interacts with arbitrary nesting.", "anchors": ["slinky/builder/substitute.cc: substitutor, var_substitutor"]}
{"id": "C17", "title": "Dependency analysis is sound", "statement": "If depends_on(e, x) reports no dependency, then changing x in the context cannot change the value of e, nor (if x is not itself cloned in s) the effects of a statement s; with can_substitute_buffer only the dimensions of the buffer x matter. find_dependencies lists exactly the free symbols of an expression and every free symbol of a statement, sorted and without duplicates; find_buffer_dependencies lists every buffer that a call or copy reads or writes, also through crops, slices, transposes and clones; a pure expression does not depend on buffers and one without side effects calls no function with effects.", "quantifier": "all expressions/statements, all symbols, all pairs of contexts", "why_tests_cant": "Non-interference is a relational property of all contexts.", "anchors": ["slinky/runtime/depends_on.cc"]}
{"id": "C18", "title": "Cropping a buffer keeps every remaining element at its address", "statement": "After crop(dim,min,max) the bounds are the intersection of old and requested bounds and every index still in bounds maps to the same address as before; it is idempotent.", "quantifier": "all buffers (any rank, stride, fold factor), all crop ranges, all indices", "why_tests_cant": "All ranks, strides and indices.", "anchors": ["slinky/runtime/buffer.h: raw_buffer::crop, buffer::crop", "slinky/runtime/evaluate.cc: crop_buffer, crop_dim"]}
{"id": "C19", "title": "Slicing a buffer keeps addresses", "statement": "After slice(dim, at) with at in bounds, element (x without dim) of the slice has the address of element (x with at inserted at dim) in the original; slicing several dims equals slicing one by one; out-of-bounds slices yield a null base.", "quantifier": "all buffers, dims, coordinates and indices", "why_tests_cant": "All ranks and indices.", "anchors": ["slinky/runtime/buffer.h: raw_buffer::slice", "slinky/runtime/buffer.cc: slice helpers", "slinky/runtime/evaluate.cc: slice_buffer, slice_dim"]}
{"id": "C20", "title": "Translate shifts coordinates only", "statement": "After translate(offset) the address of x+offset equals the previous address of x (in unfolded dimensions), and contains() shifts accordingly.", "quantifier": "all buffers, offsets, indices", "why_tests_cant": "All integers.", "anchors": ["slinky/runtime/buffer.h: dim::translate, raw_buffer::translate"]}
{"id": "C21", "title": "Default strides give disjoint elements", "statement": "After strides are assigned automatically, distinct in-bounds indices address non-overlapping byte ranges, given the user-specified strides (if any) were themselves consistent; no dimension keeps an unassigned stride.", "quantifier": "all ranks, extents, fold factors and sets of pre-specified strides", "why_tests_cant": "Unbounded rank and extents.", "anchors": ["slinky/runtime/buffer.cc: raw_buffer::init_strides, init_strides_impl"]}
{"id": "C22", "title": "Allocation covers every element", "statement": "The number of bytes reserved for a buffer, starting at the computed base, covers the bytes of every in-bounds element, and is never more than needed beyond alignment.", "quantifier": "all ranks, extents, (positive/negative/zero) strides, fold factors, alignments", "why_tests_cant": "All buffers.", "anchors": ["slinky/runtime/buffer.cc: calculate_flat_bounds, alloc_size, raw_buffer::allocate, raw_buffer::make"]}
{"id": "C23", "title": "Buffer iteration visits each index exactly once", "statement": "for_each_element calls the callback exactly once for every index in the first buffer's bounds, in a consistent order (dimension 0 fastest), with the address of that index in every buffer, or null where the index is out of that buffer's bounds; the runs of for_each_contiguous_slice are contiguous in every buffer and together visit those same indices, each exactly once, provided at most one dimension of the first buffer that is not a single index has the stride of the elements.", "quantifier": "all ranks, bounds, strides, folds, numbers of buffers", "why_tests_cant": "All loop-nest shapes and index sets.", "anchors": ["slinky/runtime/buffer.cc: for_each_impl, make_for_each_loops, for_each_contiguous_slice"]}
{"id": "C24", "title": "copy and pad semantics", "statement": "copy(src, dst) without padding gives each element of dst the element of src at the same index; with padding, elements of dst out of bounds of src get padding's element; pad(bounds, dst, padding) writes padding to the elements of dst out of the bounds only. Nothing else changes. The source does not overlap dst, or (padded copy) is in place.", "quantifier": "all buffers: shapes, strides, broadcasts, folds where allowed, all memory contents", "why_tests_cant": "All shapes and memory contents.", "anchors": ["slinky/runtime/buffer.cc: copy, pad, fill"]}
{"id": "C25", "title": "filling with an element writes the right bytes", "statement": "Copying a single element (or an innermost broadcast) to a buffer makes every element's bytes equal to that element's bytes, irrespective of the internal choice of a byte fill, a word fill of up to 64 bytes or an element-wise fill, and leaves other bytes unchanged.", "quantifier": "all element sizes, values and buffer shapes", "why_tests_cant": "All byte patterns and sizes.", "anchors": ["slinky/runtime/buffer.cc: fill, is_repeated_byte, optimize_fill_value"]}
{"id": "C26", "title": "Dimension fusion, sorting and optimisation preserve element addresses", "statement": "fuse of two dims for which can_fuse holds, attempt_fuse, sort_dims, fuse_contiguous_dims and optimize_dims yield buffers that address exactly the same elements (as tuples over all the buffers, with multiplicity); sort_dims puts the strides of the first buffer in ascending order.", "quantifier": "all lists of buffers whose strided points are not mixed with folds or out-of-bounds broadcasts, all indices", "why_tests_cant": "All ranks/strides.", "anchors": ["slinky/runtime/buffer.h: can_fuse, fuse", "slinky/runtime/buffer.cc: fuse_contiguous_dims, sort_dims, optimize_dims"]}
{"id": "C27", "title": "Evaluating a statement restores the caller's context", "statement": "When evaluate(s, ctx) returns, whether with success or failure, every symbol has again the value it had before (except the symbols of asyncs, which are 0), and every buffer cropped or truncated in place is restored.", "quantifier": "all statements, contexts and callback behaviours", "why_tests_cant": "All nestings and all failure points.", "anchors": ["slinky/runtime/evaluate.cc: evaluator visit(...) for stmts"]}
{"id": "C28", "title": "Errors stop execution and are returned", "statement": "If a call or check in a block fails, later statements of the block and later iterations of a serial loop do not run and evaluate returns the first failing code; with no failure every statement runs once, in order, and 0 is returned.", "quantifier": "all programs, all callback results", "why_tests_cant": "All failure points in all programs.", "anchors": ["slinky/runtime/evaluate.cc: block, loop, check, call_stmt"]}
{"id": "C29", "title": "Serial and parallel loops run each iteration exactly once", "statement": "A loop over [min,max] with step s runs the body for min, min+s, ... up to max: in order and exactly once when serial; exactly once each, in any interleaving, when parallel.", "quantifier": "all bounds, steps, worker counts and schedules", "why_tests_cant": "Interleavings are unbounded.", "anchors": ["slinky/runtime/evaluate.cc: eval_loop_serial, eval_loop_parallel"]}
{"id": "C30", "title": "Every allocation is freed exactly once", "statement": "Each heap block obtained by an allocate node is given back exactly once: when the body ends, on success and failure, or before, by the free intrinsic; never before it is obtained. Stack allocations never reach the heap functions.", "quantifier": "all programs and failure points", "why_tests_cant": "All failure points.", "anchors": ["slinky/runtime/evaluate.cc: allocate"]}
{"id": "C31", "title": "Thread-pool task covers each item exactly once", "statement": "A task for n items, shared by any number of workers with work stealing between shards, hands out each item 0..n-1 exactly once.", "quantifier": "all n, all shard counts, all interleavings of atomic operations", "why_tests_cant": "All schedules.", "anchors": ["slinky/base/thread_pool_impl.h/.cc: task_impl"]}
{"id": "C32", "title": "Thread-pool completion", "statement": "wait/parallel_for returns only after every item's callback has finished; exactly one participant observes the completing decrement; the number of simultaneous workers never exceeds the limit.", "quantifier": "all schedules", "why_tests_cant": "All schedules.", "anchors": ["slinky/base/thread_pool_impl.cc: work_on_task, wait_for, parallel_for"]}
{"id": "C33", "title": "Semaphores never go negative and waits are atomic", "statement": "semaphore_wait acquires all of its permits or none, no count ever becomes negative, and permits are conserved.", "quantifier": "all sequences of init/wait/signal by any number of threads", "why_tests_cant": "All interleavings.", "anchors": ["slinky/runtime/evaluate.cc: semaphore_init, semaphore_signal, semaphore_wait"]}
{"id": "C34", "title": "Reference counting frees exactly when the last reference goes", "statement": "An object managed by ref_count is destroyed exactly once, precisely when its last handle is dropped or reassigned, for any sequence of copy, move, assign and destroy, including self-assignment.", "quantifier": "all histories of handle operations", "why_tests_cant": "All histories.", "anchors": ["slinky/base/ref_count.h"]}
{"id": "C35", "title": "Fresh symbols are fresh", "statement": "node_context::insert_unique returns a symbol whose name was not in the table, insert/lookup/name are mutually inverse, ids are never reused.", "quantifier": "all histories of insertions", "why_tests_cant": "All histories.", "anchors": ["slinky/runtime/expr_stmt.cc: node_context"]}
{"id": "C36", "title": "Scoped symbol values", "statement": "A scoped value in a symbol_map shadows the outer value exactly during its lifetime and restores it (or its absence) afterwards.", "quantifier": "all properly nested scopes", "why_tests_cant": "All nestings.", "anchors": ["slinky/runtime/expr.h: symbol_map, scoped_value_in_symbol_map"]}
{"id": "C37", "title": "Blocks flatten without changing meaning", "statement": "block::make removes undefined statements and nested blocks without changing the sequence of executed statements; it yields no nested block and no block of fewer than two statements.", "quantifier": "all statement lists", "why_tests_cant": "All nestings.", "anchors": ["slinky/runtime/expr_stmt.cc: block::make"]}
{"id": "C38", "title": "Bounds checks at pipeline entry are adequate", "statement": "If the generated/validated constraints hold, then every access made in the declared bounds is inside the buffer: contains() and buffer_at agree with the dims, buffer_at gives null exactly for indices out of bounds.", "quantifier": "all buffers and indices", "why_tests_cant": "All indices.", "anchors": ["slinky/runtime/evaluate.cc: eval_buffer_at", "slinky/runtime/buffer.h: contains, address_at"]}
{"id": "C39", "title": "Intersection test on sorted sets", "statement": "The merge-style intersection test on two sorted symbol sets reports \"empty\" exactly when the sets are disjoint.", "quantifier": "all pairs of sorted sets", "why_tests_cant": "All lists.", "anchors": ["slinky/base/set.h: empty_intersection"]}
{"id": "C40", "title": "Storage folding keeps live elements distinct", "statement": "If a dimension is folded with factor f, any two coordinates less than f apart address distinct storage slots, and coordinates a multiple of f apart share one, so a sliding window of at most f elements never overwrites a live element.", "quantifier": "all windows, factors and loop iterations", "why_tests_cant": "All iterations and window positions.", "anchors": ["slinky/runtime/buffer.h: dim::flat_offset_bytes", "slinky/builder/slide_and_fold_storage.cc"]}
{"id": "C41", "title": "Facts learned from a condition follow from it", "statement": "When a branch is simplified under the assumption that its condition is true (or false), every bound or equality the simplifier records about variables or sub-expressions is implied by that assumption, for every value of the variables.", "quantifier": "all conditions and all environments satisfying (or falsifying) them", "why_tests_cant": "All conditions and all integer environments.", "anchors": ["slinky/builder/simplify.cc: learn_from_true, learn_from_false, learn_from_less, learn_from_less_equal, learn_from_equal"]}
{"id": "C42", "title": "Transpose only permutes dimensions", "statement": "The buffer made by a transpose with a list of dimensions naming every input dimension once addresses, at the permuted index, exactly the element the input has at the index; dimensions past the rank are broadcasts and trailing broadcasts may be dropped.", "quantifier": "all buffers, all permutations (with extra broadcast dimensions), all indices", "why_tests_cant": "All ranks, permutations and indices.", "anchors": ["slinky/runtime/evaluate.cc: transpose", "slinky/runtime/evaluate.cc: remove_trailing_broadcasts"]}
{"id": "C43", "title": "Constant bounds and constant evaluation are conservative", "statement": "If constant_lower_bound(e) (or evaluate_constant_lower_bound) returns a constant c, then e >= c for every value of the variables for which e has a value; symmetrically for constant_upper_bound; and if evaluate_constant(e) returns c, then e == c for every value of the variables. (The operands of logical operators are boolean expressions, constants or variables: the bound is wrong for other operands.)", "quantifier": "all expressions with 64-bit constants, all values of all variables, all buffers and user functions", "why_tests_cant": "expressions are unbounded trees and the claim ranges over all values of the variables; a wrong rounding direction shows only for particular sign patterns", "anchors": ["slinky/builder/simplify.cc: constant_evaluator, constant_lower_bound, constant_upper_bound, evaluate_constant", "slinky/builder/simplify.h"]}
{"id": "C44", "title": "Adding a constant to an expression without adding nodes", "statement": "Whenever the simplifier folds a constant c into an expression a without creating nodes (the helper behind a + c), the resulting expression has the value a + c for every value of the variables; otherwise it gives no expression.", "quantifier": "all expressions, all index_t constants, all values of the variables", "why_tests_cant": "the constant is pushed through arbitrarily nested +, -, *, min, max, select and let nodes, with the sign changing and the constant being divided on the way", "anchors": ["slinky/builder/simplify.cc: constant_adder, add_constant"]}
{"id": "C45", "title": "Closures capture everything a parallel body or an async task uses", "statement": "A parallel loop body or async task that is given its own context, holding only the symbols of the closure the optimizer made for it (and junk elsewhere), does exactly what it would do in a copy of the whole parent context.", "quantifier": "all statements, hosts, schedules and contexts", "why_tests_cant": "A missed symbol reads stale junk that often happens to be right; only all contexts and all statements settle it.", "anchors": ["slinky/builder/optimizations.cc: reuse_shadows::mutate_closure", "slinky/runtime/evaluate.cc: init_context, eval_loop_parallel, async", "slinky/runtime/depends_on.cc: find_dependencies"]}
{"id": "C46", "title": "Substituting buffer metadata keeps the value", "statement": "substitute_buffer(e, x, elem_size, dims, def) evaluated in an environment equals e evaluated with x bound to a buffer that has the given metadata: a defined member gives the field, an undefined one the field of def, dimensions that are not given are zero.", "quantifier": "all expressions e that read only metadata of x, all dims, environments and buffers", "why_tests_cant": "Every combination of given and missing members, ranks and nested lets.", "anchors": ["slinky/builder/substitute.cc: buffer_substitutor, substitute_buffer", "slinky/runtime/depends_on.cc: can_substitute_buffer"]}
{"id": "C47", "title": "Replacing an expression by an equal one keeps the value", "statement": "substitute(e, target, replacement) has the value of e whenever target and replacement have the same value and no let in e binds a symbol of either.", "quantifier": "all expressions e, target, replacement and environments", "why_tests_cant": "Occurrences at any depth, under any lets.", "anchors": ["slinky/builder/substitute.cc: expr_substitutor"]}
{"id": "C48", "title": "The simplifier keeps values, and what it proves is true", "statement": "For variables whose values satisfy the given bounds and alignments: simplify(e) has the value of e, bounds_of(e) encloses it, simplify of an interval keeps its set of values, and prove_true, prove_false and attempt_to_prove only give answers that are right, provided no operation of the run leaves the range the rewrite rules are valid in.", "quantifier": "all expressions without lets, all given bounds and alignments, all values of the variables, all buffers and functions, all answers of the pointer comparisons", "why_tests_cant": "The visitor re-simplifies its own results with everything learned from enclosing conditions; a wrong value may need any nesting of operators, facts and alignments.", "anchors": ["slinky/builder/simplify.cc: simplifier, simplify, bounds_of, prove_true, prove_false, attempt_to_prove", "slinky/builder/simplify.h"]}
{"id": "C49", "title": "atomic_wait loses no wakeups", "statement": "A thread in atomic_wait(p, v) is not left asleep once *p differs from v and the store was followed by atomic_notify_all (or by atomic_notify_one where at most one other thread may wait for p); notify calls always return; and atomic_wait returns only when it has seen another value.  For atomics that are not int32_t on Linux a wakeup may be late by the time limit of the futex wait, and only if another notify overtook the waiter.", "quantifier": "all numbers of threads, all interleavings of the steps of the calls, all maps from addresses to entries of the contention table, all spurious wakeups", "why_tests_cant": "A lost wakeup needs one particular interleaving of loads, stores and system calls of several threads, possibly with unrelated atomics that share an entry of the table.", "anchors": ["slinky/base/atomic_wait.h: __cxx_atomic_wait, __cxx_atomic_try_wait_slow, __cxx_atomic_notify_all, __cxx_atomic_notify_one, __contention"]}
{"id": "C50", "title": "Statements match when they are the same, and canonicalize_nodes keeps the program", "statement": "match(a, b) on statements holds exactly when a and b are equal up to the number of workers of loops, the memory type of allocations and the kind of lets; compare is a total order on the classes of matching statements; canonicalize_nodes(s) matches s, and is s when no two statements in s differ only in those three attributes.", "quantifier": "all statements and expressions", "why_tests_cant": "Statements nest without bound; an order used as the key of a map must be transitive for all triples.", "anchors": ["slinky/builder/substitute.cc: matcher, match, compare", "slinky/builder/substitute.h: node_less", "slinky/builder/optimizations.cc: node_canonicalizer, canonicalize_nodes"]}
{"id": "C51", "title": "Freeing early never frees memory that is still used", "statement": "insert_early_free(s) runs as s does, apart from additional frees. Each of these frees memory of a heap allocation that is still allocated, that has not been freed before and that nothing uses afterwards, in all orders and interleavings in which loops and asynchronous tasks may run and however statements fail; and in a block the free comes right after the last statement that refers to the buffer. It requires that no allocation, constant or task in the body of an allocation has the symbol of that allocation, and that no async uses the buffer in both its task and its body.", "quantifier": "all statements, all aliases made by crops, slices, transposes, clones, lets and make_buffer, all interleavings and failures", "why_tests_cant": "The order of accesses depends on scheduling, and aliases nest without bound.", "anchors": ["slinky/builder/optimizations.cc: insert_free_into_allocate, early_free_inserter, insert_early_free", "slinky/runtime/depends_on.cc: depends_on", "slinky/runtime/evaluate.cc: free"]}
{"id": "C52", "title": "A copy statement is implemented by calls that copy the same elements", "statement": "Implementing a copy statement gives a statement whose calls to the copy function assign, together, exactly what the copy statement means: each element of the destination, once, from the element of the source at the coordinates that the indices give, or from the padding if there is none; so the memory afterwards is that of the copy, in whatever way the copy was split into loops and strided calls. It requires that each source index uses at most one symbol of the destination, only for its value and not in the condition of a select; that source dimensions whose index uses a symbol are not folded; that indices which refer to the destination buffer are in bounds; and that the padding is one element.", "quantifier": "all sources, destinations, ranks, strides, bounds and index expressions (linear or not), and all simplifiers that keep values", "why_tests_cant": "Index expressions, ranks and bounds are unbounded; a wrong stride, offset or bound in one dimension shows only for particular buffers.", "anchors": ["slinky/builder/optimizations.cc: is_linear, is_copy, is_copy_dst_dim, implement_copy, implement_copies", "slinky/builder/optimizations.h: implement_copy"]}
{"id": "C53", "title": "Statements work on values", "statement": "Evaluating a statement gives the return code, the calls (with the buffers and scalars that they see), the allocations and the frees of a semantics in which each symbol stands for a number or for a copy of a buffer: a declaration gives its symbol a value in its body and nowhere else, crops, slices, transposes and clones give new buffers computed from the old one, and the iterations of parallel loops and the tasks of asyncs start from the values at the loop or async. So addresses, changes of buffer objects in place, the restoring of values and the copies of contexts that workers get cannot be observed. It requires that calls only look at the buffers and scalars that they are given, that lets are distinct, that no address of a buffer is used as a number, that an object which is changed in place is not seen through another name or by another worker, and that the bounds of an in-place crop_buffer after the first do not refer to the buffer.", "quantifier": "all statements without copies, all states of the evaluator, all call functions, allocators and schedules", "why_tests_cant": "Programs nest without bound, and whether an in-place change can be observed depends on all enclosing declarations and on the schedule.", "anchors": ["slinky/runtime/evaluate.cc: evaluator, eval, visit(crop_buffer), visit(crop_dim), visit(transpose), visit(loop), visit(async), init_context", "slinky/runtime/evaluate.h: eval_context"]}
{"id": "C54", "title": "Substitution in statements", "statement": "substitute(s, x, e) gives a statement that does the same as s with x bound to e around it (let x = e in s): the same return code, calls (with the same buffers and scalars), allocations and frees, in the same order, for every state in which the latter runs. e may be an expression, or another buffer or number. It requires that s has no closures, copies and asyncs, that no declaration in s captures a symbol of e where x is used, that x is not in the number of workers of a loop, and that replacing x by another buffer does not make a change in place visible under a second name. The result is defined whenever x is used only as a number, or e is a variable.", "quantifier": "all statements, symbols, replacement expressions, states, call functions, allocators and schedules", "why_tests_cant": "Statements nest without bound, and capture depends on all enclosing declarations; a wrong rewrite can go unnoticed for most values.", "anchors": ["slinky/builder/substitute.cc: substitutor::visit (all statements), substitute_crop_bounds, mutate_let, var_substitutor, substitute(const stmt&, var, const expr&)", "slinky/builder/node_mutator.cc: visit(const block*), visit(const check*)", "slinky/builder/substitute.h: substitutor"]}
{"id": "C55", "title": "Doing crops, slices and transposes in place", "statement": "optimize_symbols(s) does not fail, and gives a statement that does the same as s: the same return code, calls (with the same buffers and scalars), allocations and frees, in the same order, for every state in which s runs, although crops, slices and transposes of buffers that are not used in their bodies now change the buffer they are made from, and the bodies of loops that are not serial see only the symbols handed on by a closure. Required: s has no closures, copies and asyncs and no shadowed symbols; the buffers it declares have no second names and no clones, are not truncated by a transpose, are not in the bounds that a crop_buffer of them has for its second and later dimensions, and are not in the number of workers of a loop.", "quantifier": "all such statements, all sound provers for 'this number of workers is serial', all states, call functions, allocators and schedules", "why_tests_cant": "Whether a buffer can be changed in place depends on everything in the scope of the crop and on the scopes around it, which nest without bound; a wrong decision shows only for a use of the buffer somewhere else.", "anchors": ["slinky/builder/optimizations.cc: reuse_shadows, optimize_symbols", "slinky/builder/substitute.cc: substitute(const stmt&, var, const expr&)", "slinky/runtime/depends_on.cc: depends_on, find_dependencies"]}
{"id": "C56", "title": "Removing shadowed declarations", "statement": "deshadow(s, external symbols, context) gives a statement that does the same as s: the same return code, calls (with the same buffers and scalars), copies, allocations and frees in the same order, for every state in which s runs. In the result no declaration, but for allocations, declares a symbol that is in scope there or is external, also not in let expressions and in the coordinates of copies; it depends on no symbol that s does not depend on; and all symbols of the context keep their names: those that are new get names that are not in use. It does not fail if all asyncs have a symbol. Required for the same behaviour: all symbols are in the context, no asyncs, closures and checks of free, no let or copy declares a symbol twice, no transpose that only truncates is done in place, and no argument of a buffer_at is the minimum of a buffer in that dimension.", "quantifier": "all such statements, external symbols and contexts, all states, call functions, copy functions, allocators and schedules", "why_tests_cant": "Capture shows only for particular nestings of the scopes of equal symbols, which nest without bound, and with names that collide with generated names.", "anchors": ["slinky/builder/optimizations.cc: deshadower, deshadow", "slinky/builder/substitute.cc: substitutor", "slinky/runtime/expr_stmt.cc: node_context::insert_unique, node_context::insert, node_context::name"]}
{"id": "C57", "title": "Fusing sibling declarations", "statement": "fuse_siblings(s) gives a statement that does the same as s: the same return code, calls (with the same buffers and scalars), allocations and frees in the same order, for every state in which s runs. It always terminates. In no block of the result are two adjacent statements crops, slices, transposes, make_buffers or allocations with the same parameters, and the result depends on no symbol that s does not depend on. Required for the same behaviour: no asyncs, copies and closures; adjacent allocations differ in storage, element size or dimensions (those that do not are made one allocation); and the body of a declaration does not use an outer symbol that has the name of an earlier declaration with the same parameters in the same block, which is so after deshadow.", "quantifier": "all such statements, all states, call functions, allocators and schedules", "why_tests_cant": "Capture by the first declaration shows only for particular bodies and names; chains of siblings, and siblings that appear in the bodies of fused ones, are unbounded.", "anchors": ["slinky/builder/optimizations.cc: sibling_fuser, fuse_siblings", "slinky/builder/node_mutator.cc: stmt_mutator"]}
{"id": "C58", "title": "Slicing dimensions of extent one off the buffers of calls", "statement": "remove_pure_dims(s) gives a statement that does the same as s for every state in which s succeeds: the same effects of the calls, allocations and frees, in the same order, if (1) each called function with a min_rank behaves the same when dimensions from min_rank on, in which each output has at most one index, are sliced off all its buffers at the minimum of the first output, at least for the calls it reports no error for; (2) the allocator keeps the bounds; (3) the scalars of such calls do not use the buffers of the call; (4) no let, loop or crop_dim reuses the name of a buffer declared around it, which is so after deshadow. It fails only if a buffer has more than 64 dimensions or a call has no output, and depends on no symbol that s does not depend on. An output cropped to one index of a dimension from min_rank on has that dimension sliced off.", "quantifier": "all such statements, all states, call functions, min_ranks, allocators and schedules", "why_tests_cant": "What is known of a buffer is tracked through chains of crops, slices, transposes and clones of any depth, with any shadowing, and must hold of the bounds at run time for every state.", "anchors": ["slinky/builder/optimizations.cc: pure_dims_remover, remove_pure_dims", "slinky/builder/node_mutator.cc: stmt_mutator"]}
{"id": "C59", "title": "Functions are ordered, and computed in the innermost loops around their consumers", "statement": "For any finite graph of funcs, build_pipeline's sort ends; it rejects the pipeline (assert) if and only if a func that an output needs uses its own result, and otherwise orders each needed func once, consumers before producers. A func without compute_at is computed inside as many loops as are around all its consumers (the longest common prefix of their loop nests), a func with compute_at in the nest that ends with that loop, which must be around all consumers, and a func that no other uses outside of all loops. The loop nest of each func is uniquely determined by this. If no func has a compute_at other than the root, no assert fails.", "quantifier": "all finite graphs of funcs (any number of inputs, outputs and consumers), loops and compute_at locations", "why_tests_cant": "Graphs, loop nests and their common ancestors are unbounded.", "anchors": ["slinky/builder/pipeline.cc: topological_sort_impl, topological_sort, find_path_from_root, compare_paths_up_to, lca, compute_innermost_locations", "slinky/builder/pipeline.h: loop_id, func::loops, func::compute_at"]}
{"id": "C60", "title": "Each function is called once, in its loops, after its producers", "statement": "In the program that build_pipeline makes from the funcs, the call of each needed func occurs once, inside exactly the loops where it is to be computed (C59) and its own loops, in this order; and the calls of the producers of a func occur before it, in the order of the program. The construction ends. Required: no func has two loops over the same variable.", "quantifier": "all finite acyclic graphs of funcs, loops and valid compute_at locations", "why_tests_cant": "That a producer comes before each of its consumers must hold for every graph and every combination of compute_at, at every depth of nesting.", "anchors": ["slinky/builder/pipeline.cc: pipeline_builder::build, pipeline_builder::make_loop", "slinky/builder/pipeline.cc: compute_innermost_locations"]}
{"id": "C61", "title": "Allocations are placed around the whole lifetime of each buffer", "statement": "Given consecutive statements that make the calls lo..hi of a loop level, and the buffers that are stored at this level, each with a lifetime (from its producer up to its last consumer) within lo..hi, the layout of the allocations ends, and its assert does not fail. The result makes the calls lo..hi, each once and in the same order; it has exactly one allocation of each of the buffers (and what was allocated before), around all calls of its lifetime. A constant is declared at most once, around the allocations of all buffers it is copied to, unless some of these are not allocated here.", "quantifier": "all sequences of statements, numbers of buffers, lifetimes, copy dependencies and constants", "why_tests_cant": "The tree of allocations is built greedily, shortest lifetime first, and how lifetimes overlap is unbounded; a misplaced allocation is a use after free for that combination only.", "anchors": ["slinky/builder/pipeline.cc: pipeline_builder::lay_out_allocations, place_constrained_buffers, place_constant_buffers, produce_allocation, has_all_allocations", "slinky/builder/pipeline.cc: statement_with_range, allocation_candidate"]}
{"id": "C62", "title": "Every buffer of a pipeline is allocated once, where it is stored, around all functions that use it", "statement": "For a pipeline whose function graph is acyclic and whose schedule is valid, building succeeds (no assert fails), and the program that is built has exactly the calls and loops of the schedule, in order. Each intermediate buffer of a needed function is allocated exactly once, in the loop given by store_at (the root by default, or the innermost loop its producer is computed in), around the call that produces it and around all calls that use it. Each constant buffer that a function uses is declared exactly once, around all calls that use it.", "quantifier": "all acyclic graphs of functions with any numbers of inputs and outputs, loops, compute_at, store_at, copies and constants", "why_tests_cant": "The builder interleaves recursion over loops with shared state (candidates per loop, numbers of consumers made, lifetimes); a misplaced allocation needs one combination of consumers, store_at and copies.", "anchors": ["slinky/builder/pipeline.cc: pipeline_builder::build, make_loop, produce, compute_deps_count, lay_out_allocations, make_buffers", "slinky/builder/pipeline.h: loop_id, func, buffer_expr::store_at"]}
{"id": "C63", "title": "If a pipeline's checks hold, every element its functions read to compute the outputs is in its buffer", "statement": "Take the elements of the pipeline's output buffers, and, transitively, every element of an input or intermediate buffer that lies in the bounds (and crop) a function declares for that input, for values of its dimension variables that are coordinates of needed elements of its outputs (skipping sliced dimensions). If bounds inference succeeds and each pipeline input passes its checks, and each intermediate buffer has the inferred bounds or passes its allocation checks, then each of these elements lies inside its buffer (or is the one element of a broadcast dimension). Not so for an intermediate buffer whose bounds the user set without strides: the simplifier removes its checks; nor for a pipeline output that another function reads: it has no checks.", "quantifier": "all pipelines (any functions, inputs, outputs, slices, crops, bounds expressions), all buffers and values of the variables for which the runs of bounds_of are accepted (C48), and all needed elements", "why_tests_cant": "Which elements are needed depends on chains of interval expressions, unions over consumers, slices and run-time buffer bounds; a wrong boundary only shows for some shape.", "anchors": ["slinky/builder/pipeline.cc: get_output_bounds, compute_input_bounds, compute_allocation_bounds, produce_allocation, add_input_checks", "slinky/builder/simplify.cc: visit_logical, visit(const check*)"]}
{"id": "C64", "title": "Sliding windows and folded storage lose no element: what an iteration reads was computed, and is still there", "statement": "When a buffer is produced and consumed in a loop, the builder reduces what is produced in an iteration to the part that is new, moves the beginning of the loop back, and folds the storage of the buffer. If the box that is required depends on the loop variable in one dimension only, and the expressions found in simplification are still right in the iterations before the original beginning, then in every iteration every element that the consumer reads was written in that iteration or an earlier one, and since then nothing else was written to its place. Without these conditions elements are lost: if two dimensions depend on the loop variable, if consecutive windows do not touch, if the minimum of the loop is not a multiple of its step, if what is required changes before the original beginning, and if the loop is moved back by a part of a step.", "quantifier": "all loops (minimum, step, number of iterations), required boxes (any expressions and rank), values of the other symbols, beginnings moved further back by other buffers, and all elements and iterations, for the runs accepted by C48's checks", "why_tests_cant": "A lost element needs particular windows, steps, loop minimums and fold factors together; a wrong value shows only if the element was overwritten or never computed for that combination.", "anchors": ["slinky/builder/slide_and_fold_storage.cc: slide_and_fold_buffer, where_true_upper_bound, constant_fold_factor, visit(const loop*)"]}
{"id": "C65", "title": "The explicit loops of a function compute every element of its outputs exactly once", "statement": "A function with explicit loops is computed tile by tile: each loop runs over the union of the bounds of the outputs in its dimension, and each iteration crops the outputs to the tile. However the extents divide, each element inside an output buffer is computed by exactly one call (if each loop goes over one dimension of that output), nothing outside is computed, and the buffers the calls are given have each element at its address. An output with the same dimension variable twice is only computed on the diagonal tiles; one that does not have a loop's dimension is computed again in each of its iterations.", "quantifier": "all functions (any outputs, ranks, bounds, dimension variables), loops (any number, order and positive steps, run serially), and elements", "why_tests_cant": "A tile boundary that is wrong by one shows only for extents and steps that do not divide, and for outputs whose bounds differ.", "anchors": ["slinky/builder/pipeline.cc: crop_for_loop, get_loop_bounds, make_loop"]}
{"id": "C66", "title": "Statements run at the same time by parallelize_tasks do what the block did", "statement": "However the threads of the result of parallelize_tasks are interleaved, the same calls, copies and checks are performed as by the original statement, each as often, and any two of which one writes what the other one reads or writes (also through crops, clones, slices and transposes of the same buffer, and for a check the buffers it is about) happen in the order of the original program; so the memory at the end is the same. Statements with semaphores are not reordered. Calls that do not touch what another one writes can be interleaved in any way. Not so for a copy whose padding is computed in the same block, for a symbol that is declared again inside of a view, and for a block inside of an async that is there already.", "quantifier": "all statements (any nesting of blocks, declarations, serial and race-free parallel loops), all numbers of iterations and steps, all interleavings, all contents of memory", "why_tests_cant": "A missing dependency shows only under some interleavings, and the graph of stages has to be right for every pattern of producers and consumers.", "anchors": ["slinky/builder/optimizations.cc: task_parallelizer, parallelize_tasks"]}
{"id": "C67", "title": "Pipelined loops run each stage in order, do not deadlock, and folded buffers hold what is read", "statement": "A loop that slide_and_fold_storage makes pipelined does each part of its body once per iteration in the order of the program; a synchronized part begins in an iteration only after it ended in all earlier ones; a run never gets stuck, and the first unfinished iteration can always go on, whatever the other workers do; and while a synchronized part runs, the folded buffers that synchronized parts computed before it hold all the rows that the iteration needs (fold factor of one iteration plus one overlap for each further worker), provided that the windows of the iterations leave no gaps. All parts with folded outputs are synchronized if the schedule allows more workers than there are such calls. Otherwise an iteration can read rows that are overwritten or not computed yet; and so can one whose windows have gaps.", "quantifier": "all loop bodies (any nesting of blocks, scopes and inner loops), all bounds and positive steps (also a min that is no multiple of the step), all numbers of workers, all interleavings of the workers, all windows of rows", "why_tests_cant": "A missing wait or a fold that is too small shows only in rare interleavings of several workers, and the folded array of semaphores is right only because of an invariant over all runs.", "anchors": ["slinky/builder/slide_and_fold_storage.cc: loop_info::add_synchronization, slide_and_fold::mutate, visit_call_or_copy, add_synchronization_buffers, visit(const loop*)", "slinky/runtime/evaluate.cc: eval_semaphore_wait, eval_semaphore_signal, eval_loop_parallel", "slinky/base/thread_pool_impl.cc: task_impl"]}
{"id": "C68", "title": "Copies from several inputs, padded copies, concatenations and stacks", "statement": "The statement that a func made by make_copy, make_concat or make_stack becomes, when it runs, sets each element of the destination that an input provides to the element that the last such input has for it, and changes nothing else. Of a concatenation, the element at x in the dimension of the concatenation with bounds[i] <= x < bounds[i + 1] is the element of the i-th source at x - bounds[i] (bounds in order: exactly one source for each x). Of a stack, the element at i is the one of the i-th source at the other coordinates; the dimension is clamped to the last. A padded copy has the padding where the source has no element, in the output crop; it does not pad outside of it, in spite of the comment in pipeline.h. A stack into a destination that does not have the index of a source (a consumer cropped it) calls the copy with a destination that has elements but no memory.", "quantifier": "all numbers of inputs, ranks, dimensions, bounds (in 63 bits), strides, folds and places in memory, all expressions of coordinates, crops and slices that do not use the buffers themselves, all functions that copy as slinky::copy is meant to", "why_tests_cant": "The slices and crops of each input are applied in place to the shared destination, and which input provides an element depends on all bounds at once; tests have two or three inputs of fixed sizes.", "anchors": ["slinky/builder/pipeline.cc: make_copy_func, func::make_call, func::make_concat, func::make_stack", "slinky/builder/pipeline.h: func::input, func::make_copy, func::make_concat, func::make_stack", "slinky/runtime/evaluate.cc: visit(const copy_stmt*), visit(const crop_buffer*), visit(const slice_buffer*)"]}
{"id": "C69", "title": "A loop's body is cropped as if everything was cropped", "statement": "In the body of a loop, the pipeline builder crops only the buffers that depend on the outputs of the loop's function and are needed by what the body computes or copies, and of these only the dimensions whose bounds vary in the loop. Nevertheless every buffer that the body needs has the elements that cropping every dimension of every buffer to its inferred bounds would give, at the same places; intermediate buffers also have exactly the same bounds, and inputs have the same bounds in the dimensions that vary and are otherwise as outside of the loop. The search for the needed buffers finds exactly those on paths of dependences to the outputs of the loop's function.", "quantifier": "all acyclic pipelines, all bounds that use the metadata of buffers (not addresses or sizes), all loops, bodies, buffers of any rank and place, and all orders of functions in which producers come after consumers", "why_tests_cant": "Which dimensions may be left out depends on the whole graph of bounds between the buffers; tests have a few pipelines, and a missing crop only makes a function compute more than needed, which gives the same output.", "anchors": ["slinky/builder/pipeline.cc: dependent_dims_finder, find_dependent_dims, find_transitive_deps_impl, find_transitive_deps, add_crop, make_loop"]}
{"id": "C70", "title": "Metadata in the user's expressions means that of the external buffers", "statement": "The pipeline builder replaces each use of metadata of external buffers, and each address of an element, in the user's expressions (bounds, crops, steps of loops, coordinates and scalars) by a fresh variable, which is defined by a let outside of everything. Wherever a sanitized expression is evaluated afterwards, inside of any crops, slices, lets and loops, it has the value that the user's expression has with the external buffers as the caller gave them. Each distinct use of metadata is evaluated once, no use is left, and expressions with metadata of other buffers are rejected.", "quantifier": "all expressions of any depth, all lists of them, all external buffers, all places where they are evaluated, and all orders of the definitions", "why_tests_cant": "The crops and slices around an expression are generated from the whole pipeline; tests that use metadata in bounds cover a few of them, and usually the cropped and the whole buffer have the same metadata.", "anchors": ["slinky/builder/pipeline.cc: sanitize_user_exprs, define_replacements, define_sanitized_replacements"]}
{"id": "C71", "title": "Functions read from the whole buffer, not from a crop of it", "statement": "The pipeline builder clones each buffer where it is allocated, and replaces the buffer by the clone where it is an input of a function in the body. Whatever crops of the buffer are around the function, it is then called with the buffer as it was allocated; outputs, scalars, and everything else in the pipeline are as before. If functions do the same when they get a larger input that has the same elements, the pipeline does the same as before.", "quantifier": "all bodies made of calls, copies of other buffers, lets, blocks, loops (parallel ones, too), allocations, clones, crops, slices and transposes, in which the symbol is only cropped in place and the clone is not defined again; all functions, buffers and states", "why_tests_cant": "A function that gets a crop of its input usually finds the elements it needs there; the difference shows only for the combinations of schedules and stencils in which the crop is smaller than what is read.", "anchors": ["slinky/builder/pipeline.cc: substitute_inputs, produce_allocation, make_loop"]}
{"id": "C72", "title": "Tracing does not change what a pipeline does", "statement": "A pipeline that was built with the option to trace returns the same result, calls the same functions in the same order with the same buffers and scalars, and allocates and frees the same memory as the pipeline built without it. The trace_begin callback is told the names of the pipeline, of each call (\"call\" if it has none), of each loop, of the iterations of each loop, and of each asynchronous task, at the place where each begins.", "quantifier": "all pipeline bodies made of calls, lets, blocks, loops (serial and parallel), allocations, constant buffers, clones, crops, slices, transposes, asynchronous tasks and checks, without copies and closures; all names of loops and functions, all values that trace_begin returns, all hosts, functions, environments and states", "why_tests_cant": "Tests trace a few pipelines; that tokens never capture a symbol and that a failure inside is never lost depends on the structure of all pipelines.", "anchors": ["slinky/builder/pipeline.cc: inject_traces", "slinky/runtime/evaluate.cc: eval_trace_begin, eval_trace_end"]}
