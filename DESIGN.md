# Formal model of dsharlet/slinky in Rocq (Coq 8.16.1)

Layout: `rocq/theories/X_Model.v` (executable Gallina, cited line by line, no
proofs), `X_Proofs.v` (lemmas), `X_Props.v` (property theorems: statement,
`exact lemma`, `Print Assumptions`, non-vacuity `Example`s).

## Trusted base

* Coq 8.16.1's kernel (incl. `vm_compute`) and the standard library.
* Axioms: none of our own.  `Print Assumptions` is run under each property
  theorem (list kept at the end of this file).
* The reading of the C++: the model is tied to the code only by the citations
  on each definition.

## Conventions

* `index_t` is `Z`.  Where the property is about representability the model has
  an explicit 64-bit range predicate and a distinct outcome for undefined
  behaviour (signed overflow, INT64_MIN / -1, out-of-bounds read, null deref).
* A pointer is an integer address; null is a distinct value (`None`).
* Mutation becomes state passing; loops become structural recursion or fuel
  with a distinct out-of-fuel result that theorems exclude.

## Plan per property

| id | model | proof |
|---|---|---|
| C01-C05 | arithmetic.h on Z with 64-bit guard and UB outcome | algebra, lia/nia, induction for gcd |
| C06 | staircase_sum_bounds as a scan over one period | periodicity + induction over the scan |
| C07 | modulus_remainder record and operators | divisibility algebra |
| C08, C09 | expression AST, constructors, evaluator with contexts | structural induction |
| C10-C12 | deep-embedded patterns, matcher, substitution, all tables of simplify_rules.h, helper functions of simplify_exprs.cc | one soundness lemma per rule, one generic engine theorem, composition |
| C13, C14 | bounds_of on interval pairs, interval/box operators | case analysis, monotonicity |
| C15-C17 | match/compare, substitute, depends_on over the AST | induction |
| C18-C20, C38 | dim/raw_buffer records, crop/slice/translate/address | algebra of flat offsets |
| C21, C22 | init_strides, flat bounds, alloc size | induction over dims, mixed-radix argument |
| C23-C25 | for_each loop nests, copy, fill on a byte memory | induction over dims |
| C26 | can_fuse, fuse, sort_dims, optimize_dims | induction, permutation |
| C27-C30, C37 | statement evaluator with a trace of effects | induction over statements |
| C31, C32 | small-step interleaving of workers over atomic steps | invariant over reachable states |
| C33 | semaphore state machine | invariant |
| C34 | handles/objects state machine | invariant |
| C35, C36, C39 | symbol tables and sorted sets | invariants, induction |
| C40 | fold arithmetic and sliding window model | modular arithmetic |
| C41 | `knowledge` of simplify.cc: the maps and facts learned from a condition | structural induction over the condition |
| C42 | transpose of dims | permutation of the address function |
| C43, C44 | constant_bounds, evaluate_constant, add_constant | structural induction |
| C45 | optimize closures: what a task body refers to | induction over statements, with C17 |
| C46, C47 | buffer_substitutor, expr_substitutor | induction with an environment relation |
| C48 | the expression simplifier: visitor, API functions | induction on fuel over a record of primitives; runs with checks |
| C49 | transition systems of atomic_wait/notify on futexes and on condition variables | invariant over reachable states; measure for termination |
| C50 | matcher on statements; the canonicalizer with its two maps | comparison is the order of a prefix code; invariant of the maps |
| C51 | insert_early_free; runs as traces of makes, uses and frees of allocations | what depends_on does not find is not touched; the free commutes to the end of the uses; projection of traces on one allocation |
| C52 | is_linear, is_copy, is_copy_dst_dim, implement_copy; the result is run by the model of evaluate | the list of assignments of the calls is a permutation of that of the copy; induction on the dimensions of dst; slices and crops as in C22/C27 |
| C53 | the statement evaluator (as in C27-C30), against a semantics with values instead of addresses | simulation: the context and the objects represent the values, in-place changes are of objects with one name; induction on statements, loops and schedules |
| C54 | substitute(stmt, var, expr): the substitutor on all statements, with enter_decl, substitute_crop_bounds | refinement between programs in the value semantics of C53 (VRef_Proofs.v: one rule per kind of statement), then C53 for the evaluator |
| C55 | reuse_shadows, optimize_symbols, with depends_on, find_dependencies (C17) and substitute (C54) | refinement in the value semantics of C53: a buffer known to be seen by one symbol only may be changed in place; the bodies of parallel loops run from their closures |
| C56 | deshadower with the class substitutor that it overrides, node_context (names of symbols) | refinement in the value semantics of C53 along the renaming in [symbols], which is injective on the symbols of the statement; an invariant on [symbols] for the absence of shadowing; a pigeonhole argument for insert_unique |
| C57 | sibling_fuser and the class stmt_mutator | refinement in the value semantics of C53: a frame lemma (a statement only looks at its free symbols) for the body that changes its scope; termination by a weight that counts declarations twice |
| C58 | pure_dims_remover | refinement in the value semantics of C53 with the invariant that a dimension the pass knows to be of extent one has at most one index in the buffer at run time; calls are compared by a hypothesis on the functions (slicing makes no difference) |
| C59 | topological_sort(_impl), find_path_from_root, compare_paths_up_to, lca, compute_innermost_locations | depth-first search invariants; the tree of loops as a trie of loop nests, of which lca is the longest common prefix |
| C60 | the calls and loops of build and make_loop | induction on the loops; everything about positions follows from the specification of C59 (`nested`) and the order |
| C61 | lay_out_allocations, place_constrained_buffers, place_constant_buffers, produce_allocation, statement_with_range::merge | each step of the layout preserves: consecutive ranges, the calls and their order, nodes that exist; induction on the lifetimes left and on the iterations |
| C62 | pipeline_builder: produce, compute_deps_count, build, make_loop, make_buffers (constants), on top of C59-C61 | the builder is a fold over the calls and loops of C60; an invariant of its state (candidates, lifetimes, consumers made, constants) is preserved by each call, loop and layout |
| C63 | get_output_bounds, compute_input_bounds, compute_allocation_bounds, the checks of produce_allocation and add_input_checks | needed elements as an inductive definition; the bounds of dimension variables contain their values, bounds_of encloses (C48), boxes only grow under union (C14), the checks compare with the dimensions of the buffers; induction on what is needed |
| C64 | slide_and_fold_buffer, where_true_upper_bound, constant_fold_factor, the bounds and the alignment recorded for a loop variable | a trace semantics: iterations write boxes, the fold factor identifies places, a read finds an element written since; prove_true, bounds_of and simplify are right (C48); arithmetic of consecutive windows, induction over the iterations |
| C65 | crop_for_loop, get_loop_bounds, the loops of make_loop, as statements (Stmt_Model) | the value semantics of statements (VSem_Spec) records the calls; crops keep addresses (C18), the union of the bounds contains each (C14); induction over the loops and the iterations: the number of calls that compute an element |
| C66 | task_parallelizer (optimizations.cc:1889-2183): should_async, the stages and their edges, stage::fuse, the groups, the sets of consumed and produced symbols, aliases | runs of statements as interleavings of actions with the objects they read and write; invariant of the fused chains (each dependence is inside of a chain in order, or an edge), of the groups (a dependence crosses groups), a run sorted by stages; induction over the statement; memory: adjacent independent actions commute |
| C67 | add_synchronization, the stages of mutate, the number of workers and the fold factors, init_semaphores (slide_and_fold_storage.cc:217-280, 463-507, 656-747), semaphore_wait/signal (evaluate.cc:235-273), iterations in order with at most max_workers at a time | transition system: workers take iterations, iterations do steps; invariant: each stage has one iteration that may enter next, with one token at its place of the folded semaphores, or one that is inside; fewer than max_workers iterations between two in flight, so no two wait for the same place; memory from the log of events |
| C68 | make_copy_func, make_call for copies, make_concat, make_stack (pipeline.cc:134-250), in the value semantics of C53 | each input is a piece: fixed coordinates, limits of destination and source; slices and crops in place are lists of fixed coordinates and limits (induction over dimensions); pieces one after the other combine, the last that covers an element wins |
| C69 | the crops of a loop body (pipeline.cc:571-608, 1167-1210, 1245-1260, 1322-1387), in the value semantics of C50 | depth-first search by rank of an acyclic graph: sound, complete below the rank of the node being visited, closed; the dimensions found are those that vary (induction over dependences); both bodies run through all crops with the same bounds of all buffers that needed bounds use |
| C70 | the sanitizer of the user's expressions (pipeline.cc:256-316), in the value semantics of C50 | the mutated expressions are the pure rewriting by the final map of replacements, and the map grows by the metadata in order (induction on expressions); values of the rewriting by induction under environments that agree up to the external buffers |
| C71 | substitute_inputs and the clones of produce_allocation (pipeline.cc:530-568, 842-847, 1286-1290), in the value semantics of C50 | both programs run in the same environments; an invariant (the clone is the whole buffer, the symbol a part of it) by induction on statements, for two interpretations of calls |
| C72 | inject_traces (pipeline.cc:1472-1530), in the value semantics of C50, with eval_trace_begin and eval_trace_end (evaluate.cc:275-290) as intrinsics | both programs run in environments that agree on the free symbols, the first with any values of tokens; induction on statements; offsets of names by an invariant on the names buffer |

## What is modelled, and the simplifications

The comment above each definition names the file and lines it models.

* **arithmetic.h, modulus_remainder.h** (C01-C07): complete except for printing.  Integers are `Z`
  with explicit 64-bit checks; signed overflow and MIN/-1 are `UB`.
* **expr.h/.cc, evaluate.cc** (C08, C09, C27-C30, C37): all node types.  Pointer identity of nodes is not
  modelled except for call targets.  The context is a total function.  User functions are pure;
  effectful intrinsics have opaque results.  Statements: see the header of `Stmt_Model.v`; the parallel part of C29 takes
  `complete_schedule` from the pool properties (C31, C32).
* **rewrite.h, simplify_rules.h, simplify_exprs.cc** (C10-C12): every rule table.  The static "matched"
  bits are presence of a binding; predicates and right sides are computed in unbounded arithmetic and compared with
  the 64-bit arithmetic of the code.  The `op` parameter (reuse of a node) is not modelled; asserts are `UB`.
* **interval.h/.cc, simplify.cc bounds functions** (C13, C14): is_point is a flag; node reuse is an
  arbitrary boolean function; full simplify() is a parameter which is assumed to preserve values (C48 discharges it).
  0 * infinity literal and constant / infinity literal are 0 by simplification.
* **constant_bounds, evaluate_constant, add_constant** (C43, C44): nodes are rebuilt instead of reused.
* **substitute.cc on expressions** (C15, C16, C46, C47): nodes are rebuilt; asserts are `UB`; enter_decl is
  a boolean (no renaming).  Substitution in statements is not modelled.
* **depends_on.cc** (C17, C45): the visitor is a list of flag settings; statement theorems assume
  `calls_read_named` and `plain_closures`; `depends_on_stmt` excludes symbols that are cloned directly.
  C45: the mutation of the body (reuse_shadows) is not modelled.
* **simplify.cc knowledge** (C41): symbol_map is a function to option; only the fields of buffer_info
  that learning reads or writes; ranks fit in an int.
* **simplify.cc expression visitor** (C48): fuel for the non-structural recursion; lets are `UB`; same_as is an oracle that is believed
  only of equal expressions; that the maps are restored is C41_forgotten.  The theorems are about runs with
  checks: a run that no check stops is a run of the code, with the same result.  The statement visitor is not
  modelled.
* **buffer.h/.cc** (C18-C26, C38, C42): index_t is unbounded in `Buf_Model`.  Alloc: extents exact, 0 <
  elem_size <> 2^63-1, the range of unknown dims is not tracked.  ForEach: the plan array is a list of loops; the
  callbacks do not change the buffers; extra dims of other buffers past the rank of the first get index 0.  Copy: see the header of `Copy_Model.v`.
* **thread_pool.h/.cc** (C31-C33): sequentially consistent atomics; shard::i and max_workers_ unbounded; dequeue is
  one atomic step; a body is arbitrary use of the API; notify_one may wake any thread; the assert of work_on_task is a
  precondition; n*8 < 2^64.
* **atomic_wait.h** (C49): one step is one atomic operation, lock operation or system call; sequentially consistent; the futex version does not
  wrap around; the spin loop and the implementations without table are left out; a ghost flag `raced` marks the waiters that a notify overtook.
* **insert_early_free** (C51): both mutators in full, with the flags found and visited_something, and depends_on as in C17. Programs are given
  meaning by a nondeterministic trace semantics of their own (`EarlyFree_Spec.runs`) that over-approximates evaluation: it does not follow values, so that
  loops run any number of iterations, interleaved in any way; any call, copy or check may use what it points to and may fail.
* **implement_copy** (C52): is_linear, is_copy (both overloads), is_copy_dst_dim and implement_copy in full; `simplify` is a parameter with the properties
  `simplifies` (values that are numbers are kept, no new symbols, constant lower bounds are right); the name of the sliced clone is a parameter that must be
  fresh; the call to the copy function records its buffers, and C24 says what such a call does.
* **value semantics** (C53): `VSem_Spec.vexec` is a specification; programs whose effect depends on the identity of objects are undefined there. Copies are
  calls to functions once implement_copies has run, so that copy_stmt is left out of the theorem.
* **The schedule** (C59, C60): a func is a number with the producers of its inputs, its loops and its compute_at. Of build and make_loop the calls and loops are modelled, not the crops, make_buffers,
  allocations (C61) and input substitutions around them. Finding (`_refuted`): a func with two loops over the same variable is called in both, and so is what is computed there.
* **The layout of allocations** (C61): statements are trees of calls (numbers), nests, allocations and constants; the clone_buffer and the checks at an allocation, and the substitution of inputs, are not
  modelled. Finding (`_refuted`): if one buffer is stored in a loop although it is used outside of it, another buffer, whose lifetime is inside the loop, is allocated around only a part of its lifetime.
* **The builder** (C62): the statements are those of C61, so that crops, make_buffers, checks, the substitution of uncropped inputs and slide-and-fold are not part of it. Finding (`_refuted`): a store_at that is a loop made
  earlier, but not around the function, passes the assert, and the buffer is never allocated.
* **Bounds inference** (C63): the user's expressions are taken after sanitize_user_exprs; the buffers are whole (no crops: the bounds inside of loops are those of slide_and_fold_storage, not modelled); that the inferred bounds do
  not mention dimension variables and that the runs of bounds_of are accepted by C48's checks are hypotheses. Findings (`_refuted`, `C63_unchecked`): the checks of an allocation without explicit strides have an undefined operand, and the
  simplifier removes them; a pipeline output that is also read inside of the pipeline has no checks.
* **Sliding windows** (C64): one buffer in one loop; the pass around it (clearing of fold factors for inputs folded in inner loops, the synchronization of pipelined loops) is not modelled. Conditions of the theorem: one dimension depends on the loop
  variable; consecutive windows touch; the simplified bounds are right before the original minimum. Each is needed (`_refuted`): a second dimension that depends on the loop variable loses elements, even if it is only [x, x]; windows that do
  not touch are folded with too small a factor; for a loop whose minimum is not a constant, lines 720-722 record remainder 0 (wrong for unaligned minimums: the fold factor is too small); `x < 0 ? .. : ..` in a bound is simplified away with the
  original bounds, then the loop runs for negative x; the new minimum may be off the grid of the steps. Also noted, not modelled: visit(const loop*) returns early without popping `loops`; `*maybe_min % *maybe_step` may be negative.
* **Loops of functions** (C65): only the function's own loops, crops and call (the crops of what it reads and the functions computed inside are C60, C62, C64); run serially (in the value semantics an in-place crop in a parallel loop is undefined: the
  builder's crops shadow, and are renamed by deshadow, C56, before anything is run); that the simplified tile ends and loop bounds have the values of the originals is a hypothesis (C48). Findings: an output with a repeated dimension variable is not
  computed off the diagonal (`C65_repeated_dim_refuted`).
* **Tasks** (C66): statements keep only what the pass looks at (symbols, blocks, declarations, loops); a call is any number of atomic steps that read its inputs and write its outputs; the bounds of loops and the number of steps do not depend on the contents
  of buffers; a failing check or call is not modelled; buffers from outside are different objects; allocations are never at the same address. Findings: the padding of a copy is not taken to be read (`C66_pad_refuted`), shadowing of the buffer behind a view
  (`C66_shadow_refuted`), a block forgets what was collected before it (`C66_async_refuted`).
* **Pipelined loops** (C67): `pipelined` is the pass seen from one loop that is not data parallel (nested loops are one part; their own synchronization is the same function); max_workers is constant; a step is atomic (the pool's mutex); a worker that waits may do other tasks, which is
  not modelled, so `C67_no_deadlock` is about this loop alone; failing calls are not modelled. Rows are one folded dimension, the windows are given by monotone bounds (C64 is about how the pass finds them). Findings: `C67_declined_refuted`, `C67_early_refuted` (a schedule with
  max_workers = 3 and three or four stages), `C67_gaps_refuted` (fold factor for windows with gaps).
* **Copies, concatenations and stacks** (C68): the function that copies is any function with `does_copies` (what C24 proves of slinky::copy for shifts, C52 for the coordinates of copies; `each_element_copies` is one); the statement is run as it is made, before aliasing and
  implement_copy (C52, C56). The bounds of a concatenation must not use the metadata of the buffers that are cropped (`C68_metadata_refuted`; pipelines replace metadata of external buffers by symbols, C70). A stack needs a destination that has the indices of all sources
  (`C68_stack_cropped_refuted`); the comment on padded copies is wrong (`C68_pad_output_crop_refuted`).
* **Crops of a loop body** (C69): not modelled are buffers allocated in the body (for which the code makes buffers without memory), how the inferred bounds are computed, and how the body is built (its outputs, sources and allocations are given).
  The bounds of intermediate buffers outside of the loop must be within the inferred ones. The graph must be acyclic (`C69_cycle_refuted`: the search forgets nodes of cycles; pipelines have none). The sources of copies are cropped without searching what their bounds depend on: if another
  function, outside of the body, uses the source too, the source is larger than with all crops (`C69_other_consumer_refuted`).
* **Sanitizer of the user's expressions** (C70): expressions only, in the order in which the builder mutates them; that the builder sanitizes every expression of the user, and that the traversal of the statements of a function replaces only the expressions in them, is not modelled.
  Indices in buffer_at must have the same values inside and outside of everything: `C70_local_refuted` shows that an index which is the dimension of a function, or a let of the same expression, is evaluated outside of its scope, so that the pipeline is undefined.
* **Uncropped inputs** (C71): one environment for all replaced symbols, which must not be defined again inside (`C71_shadow_refuted`; pipelines have unique symbols, C62); async and closures, which are made later, are excluded, and so are copies from replaced buffers (copies have no identity in the value
  semantics by which it could be said what they get). Calls are identified by their targets, whose inputs are given.
* **Tracing** (C72): trace_begin and trace_end are intrinsics of the value semantics: their values depend on their arguments only, and what the callbacks do outside is not modelled; that trace_end never returns 0 (evaluate.cc:281-290) is a hypothesis (`C72_end_refuted` shows why). The two symbols are fresh
  (they come from the context, C62). Blocks and lets are not flattened. Which names are told is a property of the text: the offsets in the statement, in order.
* **remove_pure_dims** (C58): the min_rank of a call is taken from its target; not negative. Not in the theorem: asyncs, copies and closures. Findings (`_refuted`): a crop to one index that
  is out of bounds gives an empty buffer, and the slice one with elements and no memory; all outputs are sliced at the minimum of the first one; a crop_dim of more than one index does not
  hide what is known of an outer buffer of its name; scalars that use the bounds of the buffers see those of the slices; std::bitset throws for dimension 64, and outputs.front() is used of no outputs.
* **fuse_siblings** (C57): on fuel, of which there is enough. Not in the theorem: asyncs, copies and closures (there are none when the pass runs, unless a loop is async).
  Findings (`_refuted`): an outer symbol with the name of the first declaration is captured in the body of the second; so is a buffer that the first crops in place; a transpose that just truncates makes
  a different buffer in place; two allocations with the same parameters become one (by design).
* **deshadow** (C56): with the vector of declarations, whose elements are destroyed from the first to the last. Not in the theorem: asyncs and closures (there are none when the
  pass runs). Findings (`_refuted`): allocations are not renamed, so they still shadow; a let that declares a symbol twice leaves the inner name in force; an in-place transpose that truncates
  is not in place any more and drops broadcasts; an async without a symbol is an access outside of the map of symbols.
* **optimize_symbols** (C55): can_mutate is a function to bool, the recursion is on fuel (the number of statements, proved enough); prove_true of the number of workers is
  a parameter that must be sound. Not in the theorem: asyncs. Findings (`_refuted`): an in-place transpose that truncates to a list longer than the rank, the bounds of later
  dimensions of an in-place crop_buffer, another name of the buffer made by a let, a let of a symbol that was a mutable buffer in an earlier scope, the number of workers.
* **substitute on statements** (C54): a closure loses its flag here in any case, in the code only if something in it changes (the theorems are about statements
  without closures). Findings (`_refuted`): an async without a symbol is never substituted into; the number of workers of a loop is not; a declaration that would
  capture leaves its whole body as it is; a copy_stmt is left as it is if its indices would capture; replacing a buffer that has an alias by one that is changed in place.
* **matcher on statements, canonicalize_nodes** (C50): targets of calls, contents of constant buffers are opaque identities.
* **ref_count.h** (C34): see the header of `RefCount_Model.v`.
* **symbol tables, sets** (C35, C36, C39).

Not modelled: printing, visualisation, chrome tracing, the bodies of callbacks (oracles), the
C++ memory model beyond sequentially consistent atomics, the statement visitor of the simplifier (simplify.cc
1256-2476), optimizations.cc except canonicalize_nodes, insert_early_free and implement_copy, pipeline.cc, slide_and_fold_storage.cc except for what C40 and C45 say, infer_bounds.

## Assumptions of the theorems

`Print Assumptions` on every theorem of MANIFEST.json (`tools/assumptions.sh`) says "Closed under the
global context", i.e. no axioms, neither ours nor those of the standard library.

## Findings

Theorems whose name ends in `_refuted` are proofs that the code does not do what one would expect; the hypotheses that
exclude these cases are in the theorems beside them.

* arithmetic: gcd/lcm(0,0), euclidean_div(MIN,-1) and the staircase scan are UB; % on unreduced residue classes.
* thread pool: a wakeup is lost with two waiters; the shard size wraps; a duplicate semaphore in a wait.
* atomic_wait: a notify that overtakes a waiter of another type than int32_t uses up the mark (the wakeup comes after 2 s); an int32_t that shares
  an entry of the table with an atomic of another type loses wakeups for good.
* buffers: slice(d) on a folded dim, slice(span) past the rank, translate of a folded dim, init_strides at rank 6,
  allocate with negative strides; optimize_dims on folded, broadcast and single-point dims; for_each with two contiguous dims; padded copies
  with broadcast, stride 0 or folded dims; box intersection and union.
* expressions: constant folding of MIN/-1; a duplicate let corrupts the caller's context; infinity in min; overflowed conditions;
  bounds of !, &&, select and products with infinity.
* learning: a < max(x, y) teaches a < x; a condition that is true but not 1 teaches that it is 1; x % 0 == 0 teaches x == 0.  With
  C48_max_refuted and C48_condition_refuted simplify() changes values.
* statements: negative extents and steps of loops, overflow of the last index, async sets its symbol to 0, a duplicate let statement; the bounds
  of an in-place crop_buffer see what is already cropped; an alias made by let sees in-place changes.
* implement_copy: an index that uses two symbols of the destination one of which is linear (x + y/2), a select whose condition uses a symbol, a folded source
  with a shifted index, a padded copy whose index refers to the destination, and padding that varies are implemented wrongly.
* matching of statements ignores max_workers, storage and is_closure, so canonicalize_nodes may turn a stack allocation into a heap one and a serial
  loop into a parallel one.
* insert_early_free: a buffer that the task and the body of an async share is freed in the task; shadowed allocations are freed twice.
* substitution: capture, shadowed lets, fields of values; depends_on: cloned symbols and closures.

Read but not proved (outside the model): vectors of scoped_value are destroyed in forward order (slide_and_fold_storage.cc:283,
optimizations.cc:1674, simplify.cc:1188/1567); let_stmt::make drops is_closure (slide_and_fold_storage.cc:290); substitutor::visit(loop) does not
mutate max_workers; eval_free calls config->free with a null allocation; bounds_of(logical_not)
compares with op instead of op->a; can_evaluate is true for effectful intrinsics with constant arguments; bounds_of(interval) of a point drops the alignments.

## Wrong programs

`seeded/LOG.jsonl`: edits of the model as a bug would make them, with the theorems that then fail (`tools/seed.py`).
