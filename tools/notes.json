{
 "C01": {
  "status": "proved",
  "note": "All hardware numbers and classes. Hardware 63 of class Int is the invalid register."
 },
 "C02": {
  "status": "proved",
  "note": ""
 },
 "C03": {
  "status": "proved",
  "note": ""
 },
 "C04": {
  "status": "proved",
  "note": "Limits above 64 are rejected although the doc comment allows up to 2^16."
 },
 "C05": {
  "status": "proved",
  "note": "Finding: with debug assertions from_bits rejects the bits of every allocation (refuted theorem); proved for release builds."
 },
 "C06": {
  "status": "proved",
  "note": "Finding: the instruction is lost for indices in [2^30, 3*2^30); the exact domain is proved."
 },
 "C07": {
  "status": "proved",
  "note": "Finding: invert adds indices of the unused class 3, on which PReg::class panics."
 },
 "C08": {
  "status": "proved",
  "note": "Findings: add_up_to drops old members of the same class; max_preg is not the greatest hw_enc. The exact laws are proved, the claims as stated are refuted."
 },
 "C09": {
  "status": "proved",
  "note": ""
 },
 "C45": {
  "status": "proved",
  "note": ""
 },
 "C11": {
  "status": "proved",
  "note": "All move sets with one writer per destination (the documented precondition), any scratch outside the moves."
 },
 "C12": {
  "status": "proved",
  "note": "Proved as an equivalence."
 },
 "C13": {
  "status": "proved",
  "note": "Closures are oracles constrained by the contract callbacks_ok that ion/moves.rs provides."
 },
 "C14": {
  "status": "proved",
  "note": "All histories of moves, clear_alloc and clear."
 },
 "C23": {
  "status": "proved",
  "note": "For sorted edit lists. Finding: an edit placed after the last instruction of a block and before the next block is yielded by no block only if its point is not below the end of the block range; shown by the refuted theorem."
 },
 "C24": {
  "status": "proved",
  "note": "Both layouts (fastalloc Allocs::new and ion create_pregs_and_vregs)."
 },
 "C25": {
  "status": "proved",
  "note": "Up to equality of the sets and maps; includes independence of predecessor order."
 },
 "C26": {
  "status": "proved",
  "note": "Explicit step bound; every sufficiently large fuel gives the same result."
 },
 "C27": {
  "status": "proved",
  "note": "Single-slot locations (overlap of multi-slot spill slots is not modelled). Side conditions are each shown necessary by a refuted theorem; C27_accepted_reads_defined adds definedness."
 },
 "C28": {
  "status": "proved",
  "note": "Three refuted theorems show what the checker does not enforce."
 },
 "C19": {
  "status": "proved",
  "note": "all graphs, fuel bound explicit"
 },
 "C20": {
  "status": "proved",
  "note": "all graphs incl. irreducible; also answers for unreachable blocks"
 },
 "C21": {
  "status": "proved",
  "note": "under documented shape of blocks (non-empty, disjoint, in range) and preds inverse of succs"
 },
 "C22": {
  "status": "proved",
  "note": "exact (iff); refuted: branch arguments are not checked, out-of-range use panics"
 },
 "C36": {
  "status": "proved",
  "note": "refuted without the assumption that blocks with successors do not end in a return"
 },
 "C42": {
  "status": "proved",
  "note": ""
 },
 "C47": {
  "status": "proved",
  "note": "refuted: depth equals number of spans"
 },
 "C10": {
  "status": "proved",
  "note": "Indices below 2^38. Finding: the word number is a u32, so index 2^38 aliases index 0 (refuted theorem)."
 },
 "C17": {
  "status": "proved",
  "note": "Includes construction from a register set, pop, last, last_satisfying and validate_lru never firing. Findings (refuted theorems): a poke of a register outside the list indexes out of bounds; a query on an empty list panics. C17_remove gives the list after removing a register, in particular the head."
 },
 "C18": {
  "status": "proved",
  "note": "Finding: removing a vreg that is not in the set can empty it, unnoticed by the debug assertion (refuted theorem)."
 },
 "C50": {
  "status": "proved",
  "note": ""
 },
 "C15": {
  "status": "proved",
  "note": "All requirements, locations, and bundles of uses. C15_merge_is_intersection, C15_conflict_is_empty and C15_success_is_inhabited relate merging to intersection of location sets; C15_bundle and C15_bundle_merge lift it to compute_requirement and merge_bundle_requirements."
 },
 "C16": {
  "status": "proved",
  "note": "All environments, classes, hints, fixed registers, offsets and limits. C16_hint_unchecked_refuted and C16_fixed_ignores_limit_refuted record the two wider claims that are false of the code."
 },
 "C44": {
  "status": "proved",
  "note": "All keys and packed fields of data_structures.rs over the whole word domain. Refuted and kept as theorems: a too-large weight corrupts a flag when debug assertions are off; LiveRange::assign_flag does not do what its name says (it is unused in the crate)."
 },
 "C48": {
  "status": "proved",
  "note": "BTreeMap is modelled as an ordered list searched by the key comparison; a binary-search version (bst_find) is proved to agree. Refuted for empty ranges and as an equivalence on arbitrary keys."
 },
 "C29": {
  "status": "proved",
  "note": "Both copies of the routine (ion and fastalloc); u32 arithmetic with overflow panics under debug assertions and wrapping without. Two refutations show what happens when debug assertions are off and their conditions fail."
 },
 "C30": {
  "status": "proved",
  "note": "The whole of allocate_spillslots: probing, slot lists per class, map insertion, final numbering. Hypothesis: aggregate ranges are non-empty. C30_stack combines it with C29 down to stack indices (with debug assertions on, so the numbering cannot silently overflow)."
 },
 "C31": {
  "status": "proved",
  "note": "The whole of try_to_allocate_bundle_to_reg, with the concurrent scan, the skip counter and the re-seek after 16 skips; evict_bundle; add_liverange_to_preg. Hypotheses on the tried bundle: ordered, disjoint non-empty ranges that point back to it. C31_unchecked_reserve_refuted shows what an overlapping reservation does without debug assertions."
 },
 "C35": {
  "status": "proved",
  "note": "For all tables that fit together (ion_ok) and all split points inside the bundle. Weights are arbitrary (the f32 operations are parameters)."
 },
 "C49": {
  "status": "proved",
  "note": "Weights from recompute_bundle_properties for arbitrary f32 operations; eviction stated on the entries of registers before and after process_bundle."
 },
 "C51": {
  "status": "proved",
  "note": "The f32 operations are parameters of the model, so termination does not depend on spill weights. Hypotheses penv_ok, input_ok, ion_ok of the state before queue_bundles (ProcessSpec.v)."
 },
 "C52": {
  "status": "proved",
  "note": "Same hypotheses as C51. The register class of the chosen register is not part of the statement, its admission by the constraint is."
 },
 "C53": {
  "status": "proved",
  "note": "C53_reported_refuted: two early definitions in registers at the first instruction with one register panic instead of TooManyLiveRegs, debug and release."
 },
 "C34": {
  "status": "proved",
  "note": "Covers merge_bundles, merge_bundle_properties and merge_vreg_bundles. C34_then_loop composes with C51. C34_empty_refuted: merging into a bundle without ranges does not widen the spill set's range. The state assumed at the start (vregs_ok) is what building the live ranges gives."
 },
 "C32": {
  "status": "proved",
  "note": "compute_liveness: total, bounded rounds, error exactly if something is live into the entry block, live-in and live-out exact at reachable blocks and sound elsewhere, classes recorded (C32_exact). The events of one position may be taken in any order if no instruction uses and defines a vreg at one position (C32_order). Refuted: exactness where an instruction does so (C32_same_position_refuted) and at unreachable blocks (C32_unreachable_refuted)."
 },
 "C33": {
  "status": "proved",
  "note": "Model of liveranges.rs:99-262 and 370-785. C33_exact starts from the control flow and compute_liveness (C21, C32); C33_tables is for arbitrary live-out sets. f32 weights are parameters. Refuted: a definition need not start its range (C33_def_first_refuted); a vreg used twice in one clobbered fixed register while living on fails a debug assertion (C33_same_fixed_refuted)."
 },
 "C54": {
  "status": "proved",
  "note": "Refuted: C54_source_refuted (limit and fixed registers on one vreg: wrong source of copies), C54_late_refuted (fixups after the instruction), C54_twice_refuted (same fixed register twice: debug panic)."
 },
 "C37": {
  "status": "proved",
  "note": "C37_edits covers resolve_inserted_moves as a whole (grouping, parallel move resolution, scratch handling, redundant move elimination over instructions, extra slots, final sort) under hypotheses machine_ok and moves_given; C37_push covers InsertedMoves::push. Refuted without a register of the class: C37_no_register_refuted."
 },
 "C38": {
  "status": "proved",
  "note": "C38_faithful and C38_idempotent. Refuted as first stated: C38_every_query_refuted (branch arguments asked for at another instruction, a return that is also a branch, empty blocks). Serde's encoding itself is not modelled."
 },
 "C46": {
  "status": "proved",
  "note": "C46_ion, C46_disjoint (live-range allocator, given the list of final ranges and allocations), C46_fast (build_debug_info, given the live intervals). Refuted for the fast allocator: clipping, partial overlaps, order by point (C46_wider_refuted)."
 },
 "C43": {
  "status": "proved",
  "note": "C43_buffers (VecExt) and C43_history (Env::new, create_pregs_and_vregs, the pool), C43_start (the tables a run starts with). A run may leave anything in the fields but cannot change the number of registers or put sets into the pool except via Env::new; that the other scratch fields are cleared where they are used (process.rs:64-65, 824-825, 1064; liveranges.rs:285-290, 384, 485) is by reading only."
 },
 "C41": {
  "status": "proved",
  "note": "C41_values. Refuted without the extra input conditions: C41_stack_def_refuted (a stack definition whose vreg is kept in a register for a later use loses its value), C41_fixed_reuse_refuted (a reused input that is fixed and live through the instruction is overwritten)."
 },
 "C39": {
  "status": "proved",
  "note": "C39_edits: the model of src/fastalloc/mod.rs with debug assertions on, all inputs meeting fast_input and menv_ok."
 },
 "C40": {
  "status": "proved",
  "note": "C40_constraints: as C39, for all instructions in blocks, reachable or not. Limit constraints make the allocator stop with a panic, so they never occur on success."
 },
 "C55": {
  "status": "proved",
  "note": "C55_values: no panic of apply_allocations_and_insert_moves and of resolve_inserted_moves in any order of equal keys, and same_reads of every output with these edits and allocations, from apply_given. Refuted beyond the conditions: C55_branch_clobber_refuted, C55_two_reuses_refuted. That the earlier steps establish apply_given is not part of the claim."
 },
 "C56": {
  "status": "proved",
  "note": "C56_cuts: the description cuts (CutsSpec.v) is handed down from the initial state to the final one; C56_points: exact coverage, and classes and extents kept. Only runs that succeed are described."
 },
 "C57": {
  "status": "proved",
  "note": "C57_suits: the registers of bundles and the hints of spill sets; C57_spilled_once: the spilled list has no repetition. Hypothesis untouched: no hint and no spilled bundle at the start, as after merging; cuts gives every vreg its spill set. Only runs that succeed are described."
 },
 "C58": {
  "status": "proved",
  "note": "The hypothesis loop_given describes the state before the loop: consistent, cut as C56 asks, no hints, each range listed under a vreg, and vregs that share a spill set never live at one point."
 },
 "C59": {
  "status": "proved",
  "note": "C59_function starts from the function: fn_given describes the function and the machine. C59_values and C59_runs start after liveness. Excluded by fn_given: several operands of one vreg late in an instruction one of them in a fixed register (C54_late_refuted), a vreg defined early by the first instruction of a block that occupies the end of the block before (C33), clobbering branches on edges and several reusing results (C55), unreachable blocks. The example runs all passes on a function and gets its edits."
 },
 "C60": {
  "status": "proved",
  "note": "From func_given (C60_operands) and from the function alone (C60_function), for every run of all passes. Reused inputs: only with Any and Reg; C60_reused_refuted gives functions meeting all conditions of the model where a reused input with a fixed register, a limit or a stack constraint ends in the register of the result."
 },
 "C61": {
  "status": "proved",
  "note": "For outputs that are correct in all executions; constraints and late uses are asked for instructions in blocks only. C61_block_order_refuted: without the condition on the block order a correct output is rejected."
 },
 "C62": {
  "status": "proved",
  "note": "C62_fastalloc for the single-pass allocator (debug build), C62_main for the main one. C62_block_order_refuted: without the condition on the block order the checker rejects a correct output of the single-pass allocator."
 },
 "C63": {
  "status": "proved",
  "note": "From the function and the machine (fn_given, as in C59). no_room and enough_regs are in RoomSpec.v. Nonvacuous: one function on two machines, one with enough registers, one where the allocator gives up."
 },
 "C64": {
  "status": "proved",
  "note": "C64_main and C64_success for the main allocator in both builds, C64_fast for the single-pass allocator in the debug build; with a reason for TooManyLiveRegs and no panics C64_fast_total, and C64_fast_builds for both builds. Conditions of the caller: ion_caller, fast_caller in TopSpec.v, fast_able in FastProgSpec.v; ion_caller and fast_caller are weaker than the conditions of C59 and C40 because CFGInfo and validation check the rest. The environment is a fresh one; a used one is C43."
 },
 "C65": {
  "status": "proved",
  "note": "C65_progress, C65_success, C65_clash; wider claims refuted: C65_panic_refuted (reused Any input), C65_limit_refuted, C65_twice_refuted. The condition stuck is necessary for failure, not sufficient: three registers happen to be enough in the case of C65_nonvacuous although it wants three beside a clobbered one. Debug build; C66 carries it over to the release build."
 },
 "C66": {
  "status": "proved",
  "note": "C66_same, C66_builds; C66_all_refuted: the builds differ where the debug build panics."
 },
 "C67": {
  "status": "proved",
  "note": "C67_words lifts same_reads to a frame of words for any output with a layout; C67_frame gives the layout for the main allocator, C67_function and C67_run put both together. C67_fast, C67_fast_builds and C67_fast_run are the same for the single-pass allocator, for machines whose scratch registers are of the class that they are listed for. Refuted wider claims: C67_overlap_refuted (the checker accepts slots that overlap in part), C67_class_refuted (the checker accepts an operand in a register of another class)."
 },
 "C68": {
  "status": "proved",
  "note": "C68_given from the tables, C68_run for every run of all passes, C68_function from the function alone. C68_traces: the executions looked at are all executions. Refuted: C68_edge_refuted (at a jump with moves of an edge in front of it, a location reported up to the end of the block holds another vreg), C68_disjoint_refuted (locations of one label may overlap, against the documentation). Not said: locations that end before the late point of an instruction which reuses another vreg."
 },
 "C69": {
  "status": "proved",
  "note": "C69_same compares the two values of the flag dbg in the model of run; it holds for every input because each debug assertion of the model is a None or PsPanic. Overflow checks are modelled where the model has machine words. C69_main uses C64_main to exclude panics. C69_all_refuted shows that the condition is needed."
 }
}