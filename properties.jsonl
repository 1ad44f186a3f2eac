{"id": "C01", "title": "PReg packing is lossless", "statement": "A physical register built from a hardware number 0..63 and a class gives back exactly that number and class, two registers are equal only if number and class are equal, index() is below NUM_INDEX, and from_index(r.index()) is r for every register.", "quantifier": "all hardware numbers up to MAX and all register classes", "why_tests_cant": "equality, hashing and array indexing everywhere assume injectivity over the whole domain; a test samples a few registers", "anchors": ["src/lib.rs: PReg::new, hw_enc, class, index, from_index, invalid, as_valid"]}
{"id": "C02", "title": "VReg packing is lossless", "statement": "A virtual register built from a number up to MAX and a class gives back exactly that number and class, and distinct (number, class) pairs give distinct registers; the invalid register differs from every other one.", "quantifier": "all 2^30 vreg numbers and all classes", "why_tests_cant": "domain of over three thousand million values; a wrong shift or mask can show only for large numbers", "anchors": ["src/lib.rs: VReg::new, vreg, class, bits, invalid"]}
{"id": "C03", "title": "SpillSlot packing is lossless", "statement": "A spill slot built from an index up to MAX gives back that index, plus(n) names the slot n further, is_valid holds for every such slot and fails for the invalid slot.", "quantifier": "all 2^24 slot indices", "why_tests_cant": "boundary near MAX and the invalid marker are outside what tests sample", "anchors": ["src/lib.rs: SpillSlot::new, index, plus, invalid, is_valid"]}
{"id": "C04", "title": "Operand packing is lossless", "statement": "An operand built from a vreg, a constraint, a kind and a position gives back the same vreg, class, constraint, kind and position; every convenience constructor gives the constraint, kind and position its name promises; from_bits(bits()) is the identity.", "quantifier": "all vregs, all constraints (any, reg, stack, every fixed register, every reuse index, every limit), both kinds, both positions", "why_tests_cant": "the five packed fields interact bit by bit; a field overlap shows only for particular combinations out of about 2^43", "anchors": ["src/lib.rs: Operand::new, vreg, class, kind, pos, constraint, bits, from_bits, as_fixed_nonallocatable and named constructors"]}
{"id": "C05", "title": "Allocation packing is lossless", "statement": "An allocation built for a register, for a stack slot or as none is recognised as exactly that kind, gives back that register or slot and no other, and in builds without debug assertions converting to bits and back gives the same allocation (with debug assertions from_bits panics on the bits of every allocation: the conversion claim is refuted there).", "quantifier": "all registers, all spill slots", "why_tests_cant": "kind/index overlap shows only at extreme indices; the assertion inside from_bits is never exercised by the unit tests", "anchors": ["src/lib.rs: Allocation::none, reg, stack, kind, index, as_reg, as_stack, bits, from_bits"]}
{"id": "C06", "title": "ProgPoint is a lossless, ordered encoding", "statement": "A program point gives back its position, and its instruction for every index below 2^30 (for indices in [2^30, 3*2^30) the instruction is lost: refuted there); points are ordered first by instruction and then before<after, next/prev are inverse and adjacent in that order, and to_index/from_index are inverse.", "quantifier": "all instruction indices in the supported range and both positions", "why_tests_cant": "all sorting of edits and live ranges rests on the order for every pair of points", "anchors": ["src/lib.rs: ProgPoint::new, before, after, inst, pos, next, prev, to_index, from_index, invalid"]}
{"id": "C07", "title": "PRegSet behaves as a set of registers", "statement": "After any sequence of add, remove, union, intersect and invert, membership of any register is what the same sequence on a mathematical set gives; len counts the members, is_empty(class) says whether a class has no member, iteration yields every member exactly once in increasing index order.", "quantifier": "all operation histories and all registers", "why_tests_cant": "four-word bit arithmetic; histories unbounded", "anchors": ["src/lib.rs: PRegSet, PRegSetIter, From<&MachineEnv>, FromIterator<PReg>"]}
{"id": "C08", "title": "PRegSet range helpers", "statement": "add_up_to(r) makes the members of r's class exactly the registers of that class below r and leaves the other classes alone (the stronger claim that it keeps what the set already contained is refuted); max_preg returns None only for the empty set and otherwise the member with the greatest index (the claim that this is the greatest hardware number is refuted).", "quantifier": "all sets and all registers", "why_tests_cant": "the word-boundary cases and non-empty receivers are not sampled by tests", "anchors": ["src/lib.rs: PRegSet::add_up_to, PRegSet::max_preg"]}
{"id": "C09", "title": "MachineEnv to PRegSet", "statement": "The set built from a machine environment contains exactly the registers listed as preferred or non-preferred in some class.", "quantifier": "all machine environments", "why_tests_cant": "universal over environments", "anchors": ["src/lib.rs: impl From<&MachineEnv> for PRegSet, FromIterator<PReg>"]}
{"id": "C10", "title": "IndexSet behaves as a set of naturals", "statement": "After any sequence of set(i,true), set(i,false), union_with and assign on indices below 2^38, get(i) is what the same sequence on a mathematical set gives; union_with returns true exactly when the receiver grew; iter yields each member exactly once; is_empty holds exactly for the empty set. (Without the bound it is false: the word number is truncated to 32 bits.)", "quantifier": "all operation histories, including those that grow a set from the small to the large representation", "why_tests_cant": "the representation switch and slot reuse depend on the history and on key collisions", "anchors": ["src/indexset.rs: AdaptiveMap, IndexSet, SetBitsIter"]}
{"id": "C11", "title": "Parallel-move resolution implements the parallel move", "statement": "Running the returned list of moves one after another, from any initial contents, leaves in every destination the value its source held initially and leaves every other location (apart from the scratch location) unchanged.", "quantifier": "all lists of moves with distinct destinations (up to exact duplicates) and all initial register/stack contents", "why_tests_cant": "interaction of chains, trees and several cycles is combinatorial; contents are arbitrary", "anchors": ["src/moves.rs: ParallelMoves::add, ParallelMoves::resolve, MoveVecWithScratch::with_scratch"]}
{"id": "C12", "title": "Scratch is requested only for cycles", "statement": "The resolver asks for a scratch location only if the moves contain a cycle between at least two locations; otherwise no returned move mentions a placeholder.", "quantifier": "all lists of moves", "why_tests_cant": "requires reasoning over all graphs", "anchors": ["src/moves.rs: ParallelMoves::resolve, MoveVecWithScratch::needs_scratch, without_scratch"]}
{"id": "C13", "title": "Scratch resolver removes stack-to-stack moves and keeps all other state", "statement": "Given a resolved move list and an arbitrary supply of free registers and fresh stack slots, the final list has no stack-to-stack move and no scratch placeholder, and running it gives every destination the right value and restores every location other than destinations, the supplied free registers and the fresh slots, including a borrowed register.", "quantifier": "all resolved move lists, all answers of the free-register and stack-slot callbacks, all initial contents", "why_tests_cant": "behaviour depends on which callbacks fail when and in which order moves come", "anchors": ["src/moves.rs: MoveAndScratchResolver::compute"]}
{"id": "C14", "title": "Redundant-move elimination never drops a needed move", "statement": "Whenever the eliminator says a move can be dropped, source and destination already hold the same value in the state reached by the moves kept so far, for every history of moves, invalidations and clears.", "quantifier": "all histories of process_move, clear_alloc and clear, all value assignments to written locations", "why_tests_cant": "soundness is an invariant over unbounded histories", "anchors": ["src/ion/redundant_moves.rs: RedundantMoveEliminator::process_move, clear_alloc, clear"]}
{"id": "C15", "title": "Merging requirements is intersection", "statement": "Merging two register requirements succeeds only with a requirement that admits exactly the locations both admit; merging is commutative, associative up to failure and idempotent, and a failed merge means no common location that the allocator can name exists, except where documented.", "quantifier": "all pairs and triples of requirements, all locations", "why_tests_cant": "all register numbers and limits", "anchors": ["src/ion/requirement.rs: Requirement::merge, is_stack, is_reg, compute_requirement"]}
{"id": "C16", "title": "Register traversal enumerates the usable registers", "statement": "Without a fixed register, the traversal of a class terminates and yields the hint first (if it is within the limit), then exactly the preferred registers of that class within the limit other than the hint, then exactly the non-preferred ones, each group in the order of hardware numbers going round from offset mod 63; so nothing outside the environment or the limit appears except the hint, nothing usable is missed, and nothing is yielded twice when the two sets are disjoint. With a fixed register exactly that register is yielded. (Refuted wider claims: the hint need not be in the environment or of the class; a fixed register ignores the limit.)", "quantifier": "all machine environments, classes, hints, fixed registers, offsets and limits", "why_tests_cant": "offset rotation and the limit interact with word boundaries of the set", "anchors": ["src/ion/reg_traversal.rs: Cursor, RegTraversalIter"]}
{"id": "C17", "title": "LRU list is a faithful move-to-front list", "statement": "After any history of pokes of registers in the list the least recently used register query returns the register whose last poke is furthest in the past among those accepted by the filter (never-poked registers being older, later ones in register order first), every register of the class stays in the list exactly once, a query terminates, and the internal validation never fires.", "quantifier": "all register sets and all poke histories", "why_tests_cant": "circular doubly-linked structure over unbounded histories", "anchors": ["src/fastalloc/lru.rs: Lru::new, poke, pop, last, last_satisfying, remove, insert_before"]}
{"id": "C18", "title": "Live-vreg set is a faithful ordered set", "statement": "After any legal history of inserts and removes, iteration yields exactly the vregs inserted and not removed, most recently inserted first, and is_empty is exact.", "quantifier": "all histories", "why_tests_cant": "linked structure over unbounded histories", "anchors": ["src/fastalloc/vregset.rs: VRegSet, VRegSetIter"]}
{"id": "C19", "title": "Postorder is a depth-first postorder of the reachable blocks", "statement": "The computed order contains every block reachable from the entry exactly once and nothing else, ends with the entry, and for every edge from a to b where b comes after a in the order there is a path from b back to a; out-of-range successors give the BB error and termination is guaranteed.", "quantifier": "all control-flow graphs", "why_tests_cant": "universal over graphs", "anchors": ["src/postorder.rs: calculate"]}
{"id": "C20", "title": "Dominator tree is the true dominance relation", "statement": "dominates(a,b) answers true exactly when every path from the entry to b goes through a, for reachable blocks; the computation terminates.", "quantifier": "all control-flow graphs, including irreducible ones", "why_tests_cant": "the iterative algorithm must be right on every graph, paths are unbounded", "anchors": ["src/domtree.rs: merge_sets, calculate, dominates"]}
{"id": "C21", "title": "CFG validation is exact", "statement": "Building CFG information (for graphs in range) succeeds exactly if no edge leads from a block with several successors to a block with several ways in (the entry counts as one way), and no block whose last instruction has operands has a successor with several ways in; the critical-edge and branch errors name an offender; on success each instruction is mapped to the block that contains it and each block to its entry and exit points.", "quantifier": "all functions", "why_tests_cant": "universal over functions", "anchors": ["src/cfg.rs: CFGInfo::init"]}
{"id": "C22", "title": "SSA validation is sound", "statement": "Validation accepts a function exactly if every vreg number is in range and defined at most once, every real use is preceded by its definition in the same block or its block is reachable and every walk to it passes another block with the definition, blocks are properly terminated with matching argument counts, and the entry has no parameters; no panic if uses are numbered in range. (Refuted: that branch arguments are covered; that an out-of-range use is reported.)", "quantifier": "all functions with consistent CFG information", "why_tests_cant": "universal over programs and paths", "anchors": ["src/ssa.rs: validate_ssa"]}
{"id": "C23", "title": "Output iteration is complete and ordered", "statement": "Iterating over the instructions and edits of a block yields each instruction of the block exactly once in order, and each edit whose program point is in the block exactly once: edits before an instruction precede it, edits after it follow it, and edits at one point keep their order.", "quantifier": "all sorted edit lists and all instruction ranges", "why_tests_cant": "merging two sequences with binary search boundaries over arbitrary lengths", "anchors": ["src/lib.rs: OutputIter::next, Output::block_insts_and_edits"]}
{"id": "C24", "title": "Per-instruction allocation slices partition the allocations", "statement": "inst_allocs gives, for every instruction, a slice with one entry per operand; slices of different instructions do not overlap and together cover the allocation vector.", "quantifier": "all functions", "why_tests_cant": "universal over operand counts", "anchors": ["src/lib.rs: Output::inst_allocs; src/fastalloc/mod.rs: Allocs::new; src/ion/liveranges.rs: create_pregs_and_vregs"]}
{"id": "C25", "title": "Checker merge is a lattice meet", "statement": "Merging two checker values or states at a control-flow join is commutative, associative, idempotent and keeps only facts present on both sides, so the result does not depend on predecessor order.", "quantifier": "all checker values and states", "why_tests_cant": "infinite domain", "anchors": ["src/checker.rs: CheckerValue::meet_with, CheckerState::meet_with, merge_map"]}
{"id": "C26", "title": "Checker analysis reaches a fixpoint", "statement": "The checker's worklist analysis terminates and its block-entry states are consistent: for every edge the state assumed at the successor is implied by the state at the end of the predecessor.", "quantifier": "all functions and allocator outputs", "why_tests_cant": "termination and fixpoint over all graphs", "anchors": ["src/checker.rs: Checker::analyze"]}
{"id": "C27", "title": "Checker acceptance implies correct data flow", "statement": "If the checker accepts an allocation then in every execution of the allocated program every operand use reads, from its assigned location, the value the virtual register has at that point of the original program, provided that successors of a block are distinct, that no inserted move copies a location the checker knows nothing about over one it knows, and that no instruction with a reuse constraint has a late use. Without any one of these three provisos, or if early definitions are written before early uses are read, the claim is refuted.", "quantifier": "all functions, all allocator outputs, all executions and all data values", "why_tests_cant": "the checker exists to replace testing; its own soundness is a statement over all executions", "anchors": ["src/checker.rs: Checker::new, prepare, analyze, find_errors, CheckerState::check, CheckerState::update"]}
{"id": "C28", "title": "Checker acceptance implies operand constraints", "statement": "If the checker accepts an allocation then every operand that is early, or belongs to an instruction without a reuse constraint, has an allocation that satisfies its constraint (register, fixed register, stack, reuse of the named input, limit if it is a register), and no inserted move goes from stack to stack. The wider claim fails in three ways, each refuted: the reuse constraint of a late definition, the limit of a stack slot and the register class are never checked.", "quantifier": "all functions and allocator outputs", "why_tests_cant": "universal over functions; the position at which each constraint is checked matters", "anchors": ["src/checker.rs: CheckerState::check, check_constraint, check_val"]}
{"id": "C29", "title": "Spill slots are aligned and disjoint", "statement": "Every allocated spill slot occupies size consecutive slot indices starting at a multiple of its size, slots handed out at different times do not overlap, and all of them lie below the reported number of spill slots, whenever the requests do not panic with debug assertions; power-of-two requests adding up to at most half the slot number space never panic and are laid out alike without debug assertions. (Without debug assertions, slot numbers beyond 2^24 wrap around into occupied slots and sizes that are not powers of two are misaligned.)", "quantifier": "all sequences of allocation requests with power-of-two sizes and both naming conventions", "why_tests_cant": "arbitrary sequences of mixed sizes", "anchors": ["src/ion/spill.rs: allocate_spillslot; src/fastalloc/mod.rs: Stack::allocstack"]}
{"id": "C30", "title": "Values sharing a spill slot are never live together", "statement": "Any two spilled values (spill sets with a non-empty aggregate range) assigned to the same spill slot have disjoint ranges and the same register class, exactly the values marked as spilled get a slot, the assignment never panics, and two spilled values live together occupy no common stack index.", "quantifier": "all lists of spilled values with their ranges and all probe positions", "why_tests_cant": "probing order depends on history; overlap is a property of every pair", "anchors": ["src/ion/spill.rs: allocate_spillslots, spillslot_can_fit_spillset, allocate_spillset_to_spillslot; src/ion/data_structures.rs: SpillSlotList::next_index"]}
{"id": "C31", "title": "Values sharing a register are never live together", "statement": "After any history of register assignments, evictions and reservations (of ranges that overlap nothing, which debug assertions enforce) and of any other changes to unassigned bundles, no two live ranges recorded for one physical register overlap, the recorded ones are exactly the ranges of the bundles assigned to it, an assignment succeeds exactly if no range of the bundle overlaps an existing one, and otherwise it reports exactly the bundles in the way and the first common point, or a reservation in the way, or a bundle in the way that is too heavy.", "quantifier": "all histories", "why_tests_cant": "the concurrent scan over the tree with skip heuristics must be exact for every pair of range sequences", "anchors": ["src/ion/process.rs: try_to_allocate_bundle_to_reg, evict_bundle; src/ion/liveranges.rs: add_liverange_to_preg; src/ion/data_structures.rs: LiveRangeKey"]}
{"id": "C32", "title": "Liveness is exact", "statement": "At every reachable block a vreg is computed live-in exactly if some path from the start of the block reaches a use (or outgoing block argument) of it without passing a definition first, and live-out exactly if it is so live-in at a successor; at an unreachable block what is computed is sound but may be incomplete. The entry-livein error is raised exactly if some vreg is live-in at the entry block, the worklist ends and nothing panics. If an instruction uses and defines one vreg at one position, the operand order decides which comes first; otherwise the order does not matter. (The claim without the restriction to reachable blocks, and with uses always before definitions, is refuted.)", "quantifier": "all functions and all paths", "why_tests_cant": "unbounded paths, all graphs", "anchors": ["src/ion/liveranges.rs: compute_liveness, is_live_in"]}
{"id": "C33", "title": "Live ranges cover exactly the occupied points", "statement": "Let all blocks be reachable and laid out in order, a vreg defined by an instruction not be mentioned by its other operands, reused operands exist, branches pass as many arguments as there are parameters, and no instruction have two early uses fixed to one register. Then build_liveranges succeeds (debug assertions hold; TooManyOperands only if an instruction has more than 65536 operands) and: the live ranges of a vreg are in order, disjoint, nonempty and cover exactly the points that the vreg occupies (it is used or defined there, or needed later along some path, or defined by the early half of that instruction, or is a parameter of the block beginning there); every operand becomes exactly one use, at its point, in a live range of its vreg; the constraint is dropped exactly for early fixed uses of values that live on although the instruction clobbers or redefines the register, and exactly for those a fixup is recorded; registers are reserved exactly where clobbered or needed by such a fixup; block parameters and fixed non-allocatable operands are recorded exactly. A definition comes first in its range if the vreg does not occupy the point before it (false without, C33_def_first_refuted).", "quantifier": "all functions", "why_tests_cant": "universal over functions and points", "anchors": ["src/ion/liveranges.rs: build_liveranges, add_liverange_to_vreg"]}
{"id": "C34", "title": "Bundle merging is conservative", "statement": "Bundle merging is conservative and loses nothing. Two bundles are merged only if they are free, of one class, without common points, and some location suits all uses of both; the merged bundle has exactly the ranges of both, in order and each pointing back to it, the flags still account for every use, and all else is unchanged. Bundles are left apart, unchanged, only for such a reason or when they have more than 200 ranges. Creating and merging the bundles of all vregs never panics and gives a state that the main loop can start from, in which every vreg has the live ranges and uses it had and the range of every spill set covers its bundles' ranges. (Merging into a bundle without ranges would not widen the range of its spill set; this does not happen.)", "quantifier": "all states whose tables fit together, all pairs of bundles, all functions and lists of block parameters", "why_tests_cant": "universal over range lists", "anchors": ["src/ion/merge.rs: merge_bundles, merge_bundle_properties"]}
{"id": "C35", "title": "Splitting preserves coverage and uses", "statement": "Splitting a bundle, at a point or into minimal bundles, neither panics nor loses, duplicates or reassigns a use, and every point covered for a vreg before the split is covered after it; a point newly covered belongs to the instruction of a use; a split at a point covers exactly the same points; what is left to be spilled only has uses that may be anywhere.", "quantifier": "all bundles and split points", "why_tests_cant": "universal over range and use lists", "anchors": ["src/ion/process.rs: split_and_requeue_bundle, split_into_minimal_bundles, minimal_range_for_use"]}
{"id": "C36", "title": "Edge moves execute exactly on their edge", "statement": "For every edge of an accepted control-flow graph whose source does not end in a return, the chosen move position is either before the operand-less last instruction of a block whose only successor is the target or at the start of a block whose only way in is the source; the no-position panic is unreachable. (Refuted without the assumption on returns.)", "quantifier": "all accepted functions and all edges", "why_tests_cant": "universal over graphs", "anchors": ["src/ion/moves.rs: choose_move_location; src/cfg.rs: CFGInfo::init"]}
{"id": "C37", "title": "Final edit list is sorted and faithful", "statement": "The final edits are sorted by program point and priority, whatever order the unstable sort of the requests leaves. They name only locations of a request at that key, registers that may be used there and new slots, and none has memory at both ends. Run with the blocks, from any contents at block entries and with any behaviour of the instructions within their defs, clobbers and dedicated scratch registers, the edits at each key do all moves requested at that key at once and change nothing else but spare locations (new slots, dedicated scratch registers, registers neither reserved at the point nor mentioned), although redundant moves are elided; at most 12 times the largest slot size is added to the number of spill slots. This needs an allocatable register of each class that is moved: otherwise the edits use PReg::invalid() (refuted).", "quantifier": "all sets of inserted moves", "why_tests_cant": "universal over move sets; relies on stability", "anchors": ["src/ion/moves.rs: resolve_inserted_moves; src/ion/data_structures.rs: Edits::sort, PosWithPrio::key, u64_key"]}
{"id": "C38", "title": "Serializable copy of a function is faithful", "statement": "A serializable copy of a function without empty blocks answers every query of the function interface about the blocks, instructions, successors and classes there are like the original, copying the copy gives the same data, and no copy panics. Two exceptions are exact: an instruction that is both a return and a branch is a return only in the copy, and the arguments of a branch are those of the last instruction of the block (refuted: every query; copying a function with an empty block with debug assertions).", "quantifier": "all functions and all queries in range", "why_tests_cant": "universal over functions", "anchors": ["src/serialize.rs: SerializableFunction::new and its Function implementation"]}
{"id": "C39", "title": "Fast allocator edits are well formed", "statement": "If the fast allocator succeeds on a well-formed input (fast_input, menv_ok), its edits come out sorted by program point; each moves between two locations that are a register of the machine environment (allocatable, fixed stack slot or dedicated scratch) or a spill slot below the reported number of slots; none moves from the stack to the stack, where a register that stands for a stack slot counts as stack.", "quantifier": "all functions on which the fast allocator succeeds", "why_tests_cant": "universal over functions", "anchors": ["src/fastalloc/mod.rs: State::add_move, Env::run, process_branch, alloc_inst, reload_at_begin"]}
{"id": "C40", "title": "Fast allocator respects operand constraints", "statement": "If the fast allocator succeeds on a well-formed input (fast_input, menv_ok), every operand of every instruction has an allocation that satisfies its constraint (also reuse); it is a location of the machine environment or a reported spill slot, and a register of the vreg's class; two operands of an instruction share a register only if they read the same vreg or do not need the register at the same point.", "quantifier": "all functions on which the fast allocator succeeds", "why_tests_cant": "universal over functions", "anchors": ["src/fastalloc/mod.rs: alloc_operand, process_operand_allocation, allocd_within_constraint, alloc_def_op, alloc_use"]}
{"id": "C41", "title": "Fast allocator preserves data flow", "statement": "If the fast allocator succeeds on a well-formed input, every instruction of the allocated program reads the values it reads in the original program, on every path and for every meaning of the instructions. The well-formedness (fast_input) is the documented SSA form without critical edges plus: a vreg's definition is in a block with a lower number than the other blocks that use it; a reused input is not fixed; a vreg defined with a stack or any constraint is used in another block or nowhere; branches define nothing. Without the second and third of these the claim is false (refuted).", "quantifier": "all functions on which the fast allocator succeeds, all executions", "why_tests_cant": "universal over functions and executions", "anchors": ["src/fastalloc/mod.rs: Env::run"]}
{"id": "C42", "title": "Malformed control flow is reported, not crashed on", "statement": "CFG construction never panics on well-shaped blocks and gives the BB error exactly if the entry or a successor of a reachable block is out of range of the block count.", "quantifier": "all functions", "why_tests_cant": "universal", "anchors": ["src/postorder.rs: calculate; src/cfg.rs: CFGInfo::init"]}
{"id": "C43", "title": "Context reuse does not leak state", "statement": "Buffers of a context that are cleared, repopulated or preallocated have the same contents whatever they contained before. After any sequence of earlier allocations with a context, successful or not, a new run starts in the same state as with a new context (or panics as with a new one): all fields but the scratch fields are equal after Env::new and create_pregs_and_vregs, the range sets that the pool hands to new spill slots are empty, and the reset of the shared bump allocator does not panic. That state is the empty one: no ranges, bundles, spill sets, slots, fixups, edits or debug locations; 256 registers without ranges, marked as stack exactly if they are fixed stack slots of the environment; the vregs of the function without ranges; and one empty allocation for each operand, those of an instruction starting at the number of operands of the instructions before it.", "quantifier": "all previous contents and all requested sizes", "why_tests_cant": "unbounded histories of earlier runs", "anchors": ["src/lib.rs: VecExt::repopulate, preallocate; src/ion/mod.rs: Env::new"]}
{"id": "C44", "title": "Packed bundle properties and sort keys are lossless and ordered", "statement": "Packed 64/128-bit sort keys compare exactly like the tuples they pack. The spill weight (below the maximum) and the flags stored in a bundle read back as stored, the setters disturb no other field, and a weight that is too large is caught by the debug assertion (without it the stack flag can be set by an overflowing weight). In a live range, setting, clearing and merging flags affect exactly those flags and leave the weight alone, and a stored weight reads back with at most its two lowest mantissa bits cleared. (The unused function assign_flag can neither clear a flag nor keep the weight.)", "quantifier": "all field values", "why_tests_cant": "bit-level over the whole domain", "anchors": ["src/ion/data_structures.rs: LiveBundle::set_cached_spill_weight_and_props and accessors, LiveRange flag functions, u64_key, u128_key, BlockparamOut::key, BlockparamIn::key"]}
{"id": "C45", "title": "InstRange iteration", "statement": "A range of instructions has the length, first, last and rest its bounds promise, and iterating yields each instruction once in order.", "quantifier": "all ranges", "why_tests_cant": "universal", "anchors": ["src/index.rs: InstRange"]}
{"id": "C46", "title": "Debug locations are clipped and sorted", "statement": "With labels sorted by vreg, the live-range allocator reports for each request and each live range of its vreg that overlap exactly one location, their common part, and nothing else; so a point is in a location of a label and an allocation exactly if it is in a request for the label and in a range with the allocation of the vreg. The output is sorted by label and points, and locations of a label are disjoint if the requests for it and the ranges of each vreg are. The fast allocator reports the whole live interval of the vreg for each request inside its instructions and nothing for others, stably sorted by label. Refuted: clipping, completeness and order by point for the fast allocator; non-empty locations for empty requests.", "quantifier": "all label lists sorted by vreg and all live-range lists", "why_tests_cant": "universal over lists; binary search boundary", "anchors": ["src/ion/moves.rs: apply_allocations_and_insert_moves (debug label part); src/fastalloc/mod.rs: build_debug_info"]}
{"id": "C47", "title": "Loop-depth approximation is total", "statement": "Computing the approximate loop depth never underflows its counters, gives every block a depth, and the depth is zero exactly for blocks outside all backedge spans and at most the number of spans around the block otherwise. (Refuted: that it equals the number of spans.)", "quantifier": "all functions", "why_tests_cant": "universal over graphs", "anchors": ["src/cfg.rs: CFGInfo::init (approx_loop_depth)"]}
{"id": "C48", "title": "Range comparison decides overlap", "statement": "Two non-empty code ranges compare as equal exactly if they overlap, as less exactly if the first ends before the second starts; on a list of disjoint ranges the comparison is a strict total order, so tree lookup finds an overlapping range if and only if there is one. (On empty ranges an empty range inside another one compares as equal though they share no point, and equality of keys is not transitive in general.)", "quantifier": "all ranges; all sets of disjoint non-empty ranges", "why_tests_cant": "order laws over triples", "anchors": ["src/ion/data_structures.rs: CodeRange, LiveRangeKey"]}
{"id": "C49", "title": "Eviction and splitting cannot cycle forever", "statement": "A round of the loop takes a range out of a register only if its bundle is strictly lighter than the bundle in hand, overlaps it, is queued again and gives it the register; minimal fixed bundles weigh more than limited minimal ones, those more than other minimal ones and those more than every splittable bundle, and tighter limits weigh more.", "quantifier": "all bundle properties", "why_tests_cant": "universal over weights", "anchors": ["src/ion/process.rs: recompute_bundle_properties, process_bundle; src/ion/data_structures.rs: spill-weight constants"]}
{"id": "C50", "title": "Operand views partition the operands", "statement": "The late and early views (and the use and def views) of an instruction's operands together contain each operand exactly once with its original index, in order.", "quantifier": "all operand lists", "why_tests_cant": "universal over lists", "anchors": ["src/fastalloc/iter.rs: Operands"]}
{"id": "C51", "title": "The allocation loop ends without other panics", "statement": "From tables that fit together, queueing all bundles and then running the main loop ends after finitely many rounds in one of three ways: the queue is empty, Err(TooManyLiveRegs), or the panic 'Could not allocate minimal bundle'; no index is out of bounds, no unwrap and no debug assertion fails, and at most three attempts per bundle are made.", "quantifier": "all functions, machines and spill weights", "why_tests_cant": "termination over all programs; a cycle of evictions needs a rare constellation of weights", "anchors": ["src/ion/process.rs: process_bundles, process_bundle; src/ion/merge.rs: queue_bundles"]}
{"id": "C52", "title": "A successful allocation loop satisfies all constraints", "statement": "When the loop succeeds, every use of the input is in exactly the live ranges of its vreg, in a bundle whose register its constraint admits, or it is left for a stack slot and its constraint admits that; every point where a vreg was live is still covered by a placed live range; live ranges in the same register do not overlap each other or a range reserved beforehand.", "quantifier": "all functions, machines and spill weights", "why_tests_cant": "universal over programs and allocation orders", "anchors": ["src/ion/process.rs: process_bundles"]}
{"id": "C53", "title": "The allocation loop gives up only on a crowded instruction", "statement": "When the loop gives up there is a use that must be in a register such that every register it could have is, at the instruction of the use, reserved or held by another use that cannot be anywhere, different registers by different uses. These demand at least as much: a use in a fixed register is kept out by such uses only, one with a limit by uses in fixed registers and by those with limits that are not larger. (That giving up is always reported as TooManyLiveRegs is refuted: at the first point of the function it panics.)", "quantifier": "all functions, machines and spill weights", "why_tests_cant": "universal over programs", "anchors": ["src/ion/process.rs: process_bundle 1217-1279"]}
{"id": "C54", "title": "Several fixed registers for one vreg at one point", "statement": "For a live range with several uses at one point, the fixup pass leaves the point alone if one location suits all the uses, and otherwise frees enough uses from their fixed registers that one location suits the rest, records for each freed use a fixup that copies the value from another use there, and reserves the registers; it panics exactly if a use on the stack is not alone at its point. Uses, coverage and everything that bundle merging and the main loop rely on are kept, so that, for a function whose fixed registers are wanted once per instruction, no later step up to the end of the main loop panics other than by giving up. Executing the two levels of moves before an instruction leaves the value of each operand in its final allocation, provided no fixup is after the instruction, no fixed register is beyond a limit on the same vreg, and no fixup's register holds another operand's value. (Refuted without these conditions: the source of the copies may itself be overwritten; fixups at late points run after the instruction that needs them; a register wanted twice is reserved twice and a debug assertion fails.)", "quantifier": "all functions, live ranges, allocations and register contents", "why_tests_cant": "needs particular mixes of fixed, limited, late and reused operands, which the fuzzer does not generate", "anchors": ["src/ion/liveranges.rs: fixup_multi_fixed_vregs 774-914; src/ion/moves.rs 665-686"]}
{"id": "C55", "title": "Applying the allocations preserves values", "statement": "Take live ranges that cover exactly what their vregs occupy, with a register or a slot each, so that overlapping live ranges of different vregs are in different locations, no live range is in a register that an instruction clobbers at that point, and operands, block parameters, fixups and live-in sets are as the earlier steps record them. Then apply_allocations_and_insert_moves does not panic; whatever order its unstable sorts leave, resolve_inserted_moves does not panic on the result; and a program with these allocations and edits hands, in every execution from any machine state, the same values to every instruction as the program over vregs. (Refuted without its conditions on functions: if a branch to a block with several predecessors clobbers a register, an edge move into that register is lost; if an instruction has two results that reuse inputs, the move for the second may overwrite a further use of the first input.)", "quantifier": "all functions, live range tables, orders of equal keys, instruction meanings, branch decisions, contents of the machine, lengths of executions", "why_tests_cant": "a lost or misplaced move shows only for particular splits around edges, and only in executions that take those edges; the space of tables and executions is unbounded", "anchors": ["src/ion/moves.rs: apply_allocations_and_insert_moves 36-776, resolve_inserted_moves 778-1008"]}
{"id": "C56", "title": "Where splitting lets live ranges begin and overlap", "statement": "If before the allocation of bundles every live range that contains a definition of its vreg begins with it, only such a range begins after an instruction, two live ranges of a vreg never overlap unless one of them serves one use only, and all live ranges of a vreg share a spill set, then all this holds after process_bundles has finished too: a second copy of a vreg exists only for a live range alone in its bundle, for one use that is not of any place, and no longer than this use needs. The live ranges of a vreg cover exactly the points they covered before; classes of vregs, and classes and extents of spill sets, are unchanged.", "quantifier": "all states at the start, including any interference, hints, weights and reservations; any number of splits and evictions", "why_tests_cant": "the overlaps come from minimal splits after several evictions, whose pieces depend on the whole history; tests see a few histories", "anchors": ["src/ion/process.rs: split_and_requeue_bundle 412-821, split_into_minimal_bundles 823-973, process_bundle 975-1352", "src/ion/moves.rs 139-190 relies on it"]}
{"id": "C57", "title": "Which registers bundles and hints are given", "statement": "After process_bundles has finished, the register of every assigned bundle, and every register hint a spill set carries, can be allocated in the class of the spill set, or is the fixed register of a use of a vreg that lives in that spill set. The list of spilled bundles names every bundle at most once and only bundles that exist.", "quantifier": "all states at the start without hints and spilled bundles, any weights, reservations and interference; any number of splits and evictions", "why_tests_cant": "hints travel through evictions, splits and spill sets before they are used; a register of the wrong class shows only after a particular history", "anchors": ["src/ion/process.rs: process_bundle 975-1352, evict_bundle 214-237, get_or_create_spill_bundle 392-410", "src/ion/reg_traversal.rs"]}
{"id": "C58", "title": "The last try to find registers for spilled bundles", "statement": "After process_bundles has finished, try_allocating_regs_for_spilled_bundles does not panic. Afterwards the ranges recorded in each register are disjoint and are exactly those of its bundles and the reservations of the input; live ranges and vregs are unchanged; bundles keep spill sets and ranges, and bundles that had a register keep it. Every bundle with ranges has a register that suits its spill set and that all its uses admit, or its spill set is required to have a slot and all its uses admit a slot. A spilled bundle stays without a register only if in every register it may have something overlaps its ranges, and a spill set is newly required only on account of such a bundle. The ranges of a bundle have distinct starts, so the unstable sort has one result.", "quantifier": "all states at the start of the allocation of bundles that are consistent, any history of splits and evictions, any number of spilled bundles", "why_tests_cant": "spilled bundles collect ranges from several splits in an order that depends on the whole history; a missing slot or an overlap shows only for particular leftovers", "anchors": ["src/ion/spill.rs 22-68", "src/ion/process.rs: try_to_allocate_bundle_to_reg 40-212"]}
{"id": "C59", "title": "The allocated function reads what the function with vregs reads, through all passes", "statement": "For a function that meets the documented input rules (reachable blocks, edges that can be placed, one definition per vreg, matching block arguments, fixed registers of the right class, distinct fixed registers at a point) and a machine with registers for its classes: CFGInfo and compute_liveness do not panic, and liveness fails only if some vreg is live into the entry. All of build_liveranges, fixup_multi_fixed_vregs, merge_vreg_bundles, queue_bundles, process_bundles, try_allocating_regs_for_spilled_bundles, allocate_spillslots, apply_allocations_and_insert_moves and resolve_inserted_moves run in a row, however the unstable sorts order equal keys; the row stops only where a vreg has a stack constraint and another constraint at one point, or where process_bundles reports too many live registers or a bundle that cannot be split. When it does not stop, every read in the allocated function finds the value that the read in the function with vregs finds, for every meaning of the instructions and every path, and at most 12 times the largest slot size is added to the slots for moves.", "quantifier": "all functions and machine environments, all paths through the control flow, all meanings of instructions, all orders of equal sort keys, with and without debug assertions", "why_tests_cant": "the fuzzers run the checker on sampled functions only; a value that is lost needs a particular combination of splits, evictions, spills, edge moves and fixups over many passes", "anchors": ["src/ion/mod.rs: init 84-95, run 97-108", "src/ion/liveranges.rs", "src/ion/merge.rs", "src/ion/process.rs", "src/ion/spill.rs", "src/ion/moves.rs", "src/cfg.rs: init 50-140"]}
{"id": "C60", "title": "Final allocations meet the operands' constraints, through all passes", "statement": "After all passes of the main allocator (as in C59), every operand of every instruction has an allocation of its vreg's class: an allocatable or fixed register, or a spill slot below the number of slots, that meets its constraint (Any anywhere, Reg in a register, Stack in a spill slot or fixed stack location, FixedReg in exactly that register, Limit below the limit, Reuse in a register and equal to the allocation of the reused input). Operands that name a register outside of the allocator's reach have that register. Fixups of several fixed uses of a vreg and the rewriting of reused inputs are counted. An input that is reused by a result ends where the result is, so for it the claim holds with the constraints Any and Reg; that it would hold with FixedReg, Limit or Stack is refuted: the code accepts such inputs without an error and gives them the result's register.", "quantifier": "all functions, machine environments, operands and runs, all orders of equal sort keys, with and without debug assertions", "why_tests_cant": "the fuzz generator gives reused inputs the constraint Reg only, and tests sample few combinations of constraints, splits and fixups", "anchors": ["src/ion/moves.rs: 555-580, 687-770", "src/ion/liveranges.rs: 740-919", "src/ion/requirement.rs", "src/ion/mod.rs: run 97-108", "src/fuzzing/func.rs: 288-312"]}
{"id": "C61", "title": "The checker accepts every correct output", "statement": "If in every execution the allocated program reads what the function reads, the function reads no undefined register, the operands meet their constraints (late operands of instructions with a reused input exempt) and no inserted move goes from stack to stack, then the checker (prepare, analysis, check) ends, does not panic and reports no error. Required: every block other than the entry has a predecessor with a smaller index. Without this the claim is refuted: blocks are first visited in index order, a block visited before all its predecessors counts as reached with nothing known, and this is never corrected; a correct output for blocks 0 -> 2 -> 1 -> 3 is rejected.", "quantifier": "all functions, outputs and machine environments meeting the conditions; correctness is over all executions, values and paths", "why_tests_cant": "tests show that some correct outputs are accepted, and the fuzz generator numbers the blocks in the order that the checker wants", "anchors": ["src/checker.rs: update 542-623, check 471-539, prepare 771-840, analyze 843-907, find_errors 913-935"]}
{"id": "C62", "title": "The checker accepts what the allocators produce", "statement": "On functions in which every block other than the entry has a predecessor with a smaller index: (1) every output of the single-pass allocator for an input meeting its conditions is accepted by the checker; (2) every output that has the edits and allocations at the end of a run of all passes of the main allocator is accepted by the checker, if only the last instruction of a block is a branch, the entry block has no parameters and inputs that are reused have the constraint Any or Reg. Accepted means: the checker ends without a panic and reports no error. In particular both kinds of functions read no undefined register, by dominance in (1) and because nothing is live into the entry in (2). Without the condition on the order of blocks (1) is refuted: the allocator's output for blocks 0 -> 2 -> 1 -> 3 is correct and is rejected.", "quantifier": "all functions, machine environments and runs meeting the conditions", "why_tests_cant": "fuzzing runs the checker on sampled functions, whose blocks it numbers in the order that the checker wants", "anchors": ["src/checker.rs: run 938-963", "src/fastalloc/mod.rs: run 1612-1660", "src/ion/mod.rs: run 97-142", "fuzz/fuzz_targets/ion.rs", "fuzz/fuzz_targets/fastalloc.rs"]}
{"id": "C63", "title": "The main allocator fails only for lack of registers at one instruction", "statement": "If the allocation of bundles fails then some instruction has an operand that must be in a register such that every register of its class (or the one that it is fixed to) that its constraint admits is clobbered or fixed for another operand where it needs it, or can be given to another operand of the same instruction that must be there at the same time, is of the class of the register, cannot be anywhere and demands as much; different operands for different registers. Hence: if for every operand that must be in a register more registers are left than other such operands can take, and no vreg has two clashing stack constraints at one point, then all passes go through for every spill weight and every order of equal keys, and the allocated function reads what the function reads. How many vregs are live does not matter.", "quantifier": "all functions and machines meeting the caller's conditions, all spill weights", "why_tests_cant": "a test sees a failure or none; the reason is about all states that eviction and splitting can reach", "anchors": ["src/ion/process.rs: process_bundle 975-1300", "src/ion/mod.rs: init, run 83-105"]}
{"id": "C64", "title": "What run returns, and why it fails", "statement": "For the main allocator, from the caller's obligations on the function and the machine (and without validation: every vreg is defined once, arguments match parameters, no instruction uses what it defines): run ends, and (1) if it returns an output then every execution of the allocated function reads what the function reads, every operand has a location that meets its constraint, of its class or a slot below the number of slots (reused inputs: if Any or Reg), and the checker accepts it under the conditions of C62; (2) a CFG error names a block out of range, a critical edge or a branch with operands before a block with several ways in; (3) an SSA error is returned only with validation and only if the function is not in SSA form; (4) EntryLivein means that a vreg is live into the entry block, which after validation means that a branch argument is not dominated by a definition; (5) TooManyLiveRegs means that one instruction has no register left for an operand (C63); (6) TooManyOperands is never returned; (7) a panic means (5) or two stack constraints of one vreg at one point that cannot both hold. Debug assertions, weights and the order of equal sort keys do not matter. Hence run succeeds on functions in SSA form without CFG errors, with dominated branch arguments, registers enough for each instruction alone and without clashing stack constraints. For the single-pass allocator (debug build): an output reads the same, meets all constraints and is accepted by the checker if the blocks are in order, where validation replaces the conditions on definitions and edges; errors of CFG and SSA form have their reasons. Under the further conditions of C65 it does not panic, and TooManyLiveRegs means that one instruction has clashing fixed registers or no register to spare. Both builds then have the same result.", "quantifier": "all functions, machines, options, weights and unstable sorts", "why_tests_cant": "the claim joins all passes and is about every error that can come out of them", "anchors": ["src/lib.rs: run 1684-1700, RegAllocError 1645-1676", "src/ion/mod.rs: Env::new 38-81, init, run 83-134", "src/fastalloc/mod.rs: run 1611-1640"]}
{"id": "C65", "title": "The single-pass allocator does not panic, and fails only for a reason", "statement": "From the obligations of C40 and: every operand has a class, no limit constraints, the reused input of a reuse definition is a Reg operand, operands fixed to non-allocatable registers are early uses, at most 32767 operands per instruction, a register for every class in use, slot sizes are powers of two and the slots of all vregs and six per block fit the slot index: in the debug build the single-pass allocator does not panic (no failed assertion, unreachable code, overflow or index out of bounds); and if it returns TooManyLiveRegs, then some instruction has an operand fixed to a register that the machine does not give out, or two operands fixed to one register at the same point, or is such that, in some class of its operands or branch arguments (any class if it names a register that stands for a stack slot), the registers that are neither clobbered nor fixed, with the dedicated scratch register if there is one, are not more than the operands that want a register. Hence it succeeds if each instruction has one register to spare, and the output then reads the same values. Conversely, operands that are fixed to the same register at the same point, unless they read the same vreg, always make it fail. Without the conditions it panics: a reused input with constraint Any, a limit constraint. It also fails on two uses of one vreg fixed to the same register, where an allocation exists.", "quantifier": "all functions and machines that meet the obligations", "why_tests_cant": "the assertions depend on counters and registers left over from all the later instructions and blocks", "anchors": ["src/fastalloc/mod.rs: Env::new 447-545, alloc_inst, process_branch, reload_at_begin, alloc_block, run 550-1640"]}
{"id": "C66", "title": "Debug and release builds of the single-pass allocator agree", "statement": "For every function and machine: if the single-pass allocator does not panic in a debug build (assertions and overflow checks on), then the release build returns the same output or the same error. Hence, under the obligations of C40 and C65, in both builds the allocator does not panic, an output reads the same values and meets every constraint, and TooManyLiveRegs has the reason of C65. Where the debug build panics the builds differ: a slot size that is not a power of two is accepted by the release build.", "quantifier": "all functions and machines", "why_tests_cant": "tests run in one build at a time and assertions are scattered over all functions", "anchors": ["src/fastalloc/mod.rs: all debug_assert and i16 counters", "src/fastalloc/lru.rs", "src/fastalloc/vregset.rs", "src/moves.rs"]}
{"id": "C67", "title": "Slots of more than one index: classes, layout of the frame, values stored as words", "statement": "For every function and machine that satisfy the obligations of C59 and C64: and for every function and machine that satisfy the obligations of C41 and whose scratch registers are of the class that they are listed for: every output of the main allocator, and of the single-pass allocator, has a layout, a list of slots with a class each, such that slots that share an index are the same slot with the same class, every slot is aligned to its size, holds the index that names it and lies below num_spillslots; every operand is in a register of the class of its vreg or in a slot of that class; the two ends of every edit are of one class, and one of them is a register. For every output with such a layout: if the allocated function reads what the original reads when each location holds one value (C59, C41), then it also reads this on a frame of words, where a value of class c is stored as spillslot_size(c) words, moves between registers and slots copy as many words as the class of their register has, and a definition may first destroy all words of its slot. The checker does not ensure this: it accepts outputs with overlapping slots, which read other values on words, and operands in registers of another class.", "quantifier": "all functions, machines, sorting orders, values, encodings of values as words, contents of registers and frame, paths, slot sizes that are powers of two, both namings of slots", "why_tests_cant": "fuzzing compares locations, not words, and the fuzzing functions have few classes of few sizes", "anchors": ["src/ion/spill.rs:98-203 allocate_spillslots, allocate_spillslot", "src/ion/moves.rs:936-1000 extra slots", "src/lib.rs:1321-1336 spillslot_size, multi_spillslot_named_by_last_slot", "src/checker.rs:433-500 check_val", "src/fastalloc/mod.rs:86-104 allocstack, 143-248 get_spillslot, evict_vreg_in_preg, alloc_scratch_reg, add_move, 933-1056 process_branch"]}
{"id": "C68", "title": "The debug locations of a run of the main allocator tell the truth", "statement": "For every function and machine that satisfy the obligations of C59, and every list of requests for debug locations that is sorted by vreg: the run reports locations without a panic; a point is in a location of a label exactly if some request of that label covers the point and its vreg occupies the point, by the liveness of the function; and in every execution of the allocated function next to the original one, the location that is reported for a vreg holds the value of the vreg right after every instruction whose late point it contains, and right before every instruction whose early point it contains and that does not define the vreg. Before an instruction that reuses an input which is another vreg, this is said of locations that contain its late point as well. Nothing is said at the jump of a block whose only successor can be reached otherwise as well: the moves of the edge are in front of the jump, and there the wider claim is false, since the locations reported up to the end of the block hold the arguments already.", "quantifier": "all functions, machines, request lists, orders that the unstable sorts leave, values, instruction meanings, contents of registers and slots, paths, build modes", "why_tests_cant": "No test of the repository executes a function and compares the reported locations with values; the fuzz targets generate requests, but the checker does not read the locations. Whether a location is right at a point depends on every move that shares the point, on all executions.", "anchors": ["src/ion/moves.rs:280-300", "src/ion/moves.rs:576-624", "src/ion/moves.rs:773", "src/lib.rs:1300-1313", "src/lib.rs:1588-1598"]}
{"id": "C69", "title": "Debug and release builds of run agree", "statement": "For every function, machine, choice of algorithm and validation, whatever the floating-point weights and the order that the unstable sorts leave: if the build with debug assertions returns an output or an error, the build without them returns the same output or the same error. Hence, on functions that satisfy the obligations of C64 and have room for the operands of each instruction, both builds of the main allocator always have the same result. The claim without the condition is false: where the debug build panics, on a spill slot size that is not a power of two for instance, the release build may return an output.", "quantifier": "all functions (well formed or not), machines, options, weights, sorts, loop bounds", "why_tests_cant": "Tests run one build at a time, and most run with debug assertions; a side effect or a wrapped subtraction that makes the release build differ on one input would not be seen.", "anchors": ["src/lib.rs:1684-1700", "src/ion/mod.rs:83-134", "src/ion/process.rs:440-520", "src/ion/moves.rs:838-1008", "src/ion/data_structures.rs:847-927"]}
