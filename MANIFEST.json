{
 "claims": [
  {
   "property": "C01",
   "status": "proved",
   "theorems": [
    "C01_preg_roundtrip",
    "C01_preg_injective",
    "C01_preg_index_roundtrip",
    "C01_preg_as_valid",
    "C01_preg_out_of_range_rejected"
   ],
   "note": "All hardware numbers and classes. Hardware 63 of class Int is the invalid register."
  },
  {
   "property": "C02",
   "status": "proved",
   "theorems": [
    "C02_vreg_roundtrip",
    "C02_vreg_injective",
    "C02_vreg_max_is_30_bits",
    "C02_vreg_invalid_only"
   ],
   "note": ""
  },
  {
   "property": "C03",
   "status": "proved",
   "theorems": [
    "C03_slot_roundtrip",
    "C03_slot_plus",
    "C03_slot_out_of_range_rejected",
    "C03_slot_invalid"
   ],
   "note": ""
  },
  {
   "property": "C04",
   "status": "proved",
   "theorems": [
    "C04_operand_roundtrip",
    "C04_operand_injective",
    "C04_operand_bad_limit_rejected",
    "C04_operand_wrong_class_rejected",
    "C04_named_constructors",
    "C04_fixed_nonallocatable",
    "C04_as_fixed_nonallocatable_exact"
   ],
   "note": "Limits above 64 are rejected although the doc comment allows up to 2^16."
  },
  {
   "property": "C05",
   "status": "proved",
   "theorems": [
    "C05_alloc_none",
    "C05_alloc_reg",
    "C05_alloc_stack",
    "C05_alloc_bits_release",
    "C05_alloc_bits_debug_refuted",
    "C05_alloc_from_bits_debug_accepts_only_garbage"
   ],
   "note": "Finding: with debug assertions from_bits rejects the bits of every allocation (refuted theorem); proved for release builds."
  },
  {
   "property": "C06",
   "status": "proved",
   "theorems": [
    "C06_inst_roundtrip_iff",
    "C06_pos_roundtrip",
    "C06_order",
    "C06_next_prev",
    "C06_index_roundtrip",
    "C06_invalid",
    "C06_inst_roundtrip_refuted"
   ],
   "note": "Finding: the instruction is lost for indices in [2^30, 3*2^30); the exact domain is proved."
  },
  {
   "property": "C07",
   "status": "proved",
   "theorems": [
    "C07_history_is_set",
    "C07_history_wf",
    "C07_iteration",
    "C07_len",
    "C07_is_empty",
    "C07_invert_iterates_classless_refuted"
   ],
   "note": "Finding: invert adds indices of the unused class 3, on which PReg::class panics."
  },
  {
   "property": "C08",
   "status": "proved",
   "theorems": [
    "C08_max_preg",
    "C08_max_preg_hw_enc_refuted",
    "C08_add_up_to_exact",
    "C08_add_up_to_keeps_members_refuted"
   ],
   "note": "Findings: add_up_to drops old members of the same class; max_preg is not the greatest hw_enc. The exact laws are proved, the claims as stated are refuted."
  },
  {
   "property": "C09",
   "status": "proved",
   "theorems": [
    "C09_from_machine_env"
   ],
   "note": ""
  },
  {
   "property": "C10",
   "status": "proved",
   "theorems": [
    "C10_history",
    "C10_union_changed",
    "C10_large_index_refuted"
   ],
   "note": "Indices below 2^38. Finding: the word number is a u32, so index 2^38 aliases index 0 (refuted theorem)."
  },
  {
   "property": "C11",
   "status": "proved",
   "theorems": [
    "C11_resolve_is_parallel_move",
    "C11_resolve_without_scratch"
   ],
   "note": "All move sets with one writer per destination (the documented precondition), any scratch outside the moves."
  },
  {
   "property": "C12",
   "status": "proved",
   "theorems": [
    "C12_scratch_iff_cycle",
    "C12_no_placeholder"
   ],
   "note": "Proved as an equivalence."
  },
  {
   "property": "C13",
   "status": "proved",
   "theorems": [
    "C13_scratch_resolver"
   ],
   "note": "Closures are oracles constrained by the contract callbacks_ok that ion/moves.rs provides."
  },
  {
   "property": "C14",
   "status": "proved",
   "theorems": [
    "C14_elision_is_invisible"
   ],
   "note": "All histories of moves, clear_alloc and clear."
  },
  {
   "property": "C15",
   "status": "proved",
   "theorems": [
    "C15_merge_is_intersection",
    "C15_conflict_is_empty",
    "C15_success_is_inhabited",
    "C15_commutative",
    "C15_associative",
    "C15_idempotent",
    "C15_constraint",
    "C15_is_stack_is_reg",
    "C15_bundle",
    "C15_bundle_conflict",
    "C15_bundle_merge"
   ],
   "note": "All requirements, locations, and bundles of uses. C15_merge_is_intersection, C15_conflict_is_empty and C15_success_is_inhabited relate merging to intersection of location sets; C15_bundle and C15_bundle_merge lift it to compute_requirement and merge_bundle_requirements."
  },
  {
   "property": "C16",
   "status": "proved",
   "theorems": [
    "C16_traversal",
    "C16_usable_registers",
    "C16_fixed",
    "C16_hint_unchecked_refuted",
    "C16_fixed_ignores_limit_refuted"
   ],
   "note": "All environments, classes, hints, fixed registers, offsets and limits. C16_hint_unchecked_refuted and C16_fixed_ignores_limit_refuted record the two wider claims that are false of the code."
  },
  {
   "property": "C17",
   "status": "proved",
   "theorems": [
    "C17_history",
    "C17_last",
    "C17_each_once",
    "C17_remove",
    "C17_poke_of_nonmember_refuted",
    "C17_empty_query_refuted"
   ],
   "note": "Includes construction from a register set, pop, last, last_satisfying and validate_lru never firing. Findings (refuted theorems): a poke of a register outside the list indexes out of bounds; a query on an empty list panics. C17_remove gives the list after removing a register, in particular the head."
  },
  {
   "property": "C18",
   "status": "proved",
   "theorems": [
    "C18_history",
    "C18_members",
    "C18_absent_remove_refuted"
   ],
   "note": "Finding: removing a vreg that is not in the set can empty it, unnoticed by the debug assertion (refuted theorem)."
  },
  {
   "property": "C19",
   "status": "proved",
   "theorems": [
    "C19_postorder",
    "C19_acyclic_topological"
   ],
   "note": "all graphs, fuel bound explicit"
  },
  {
   "property": "C20",
   "status": "proved",
   "theorems": [
    "C20_dominates"
   ],
   "note": "all graphs incl. irreducible; also answers for unreachable blocks"
  },
  {
   "property": "C21",
   "status": "proved",
   "theorems": [
    "C21_accepts_exactly",
    "C21_maps"
   ],
   "note": "under documented shape of blocks (non-empty, disjoint, in range) and preds inverse of succs"
  },
  {
   "property": "C22",
   "status": "proved",
   "theorems": [
    "C22_accepts_exactly",
    "C22_walk_passes_definition",
    "C22_branch_arguments_refuted",
    "C22_unnumbered_use_refuted"
   ],
   "note": "exact (iff); refuted: branch arguments are not checked, out-of-range use panics"
  },
  {
   "property": "C23",
   "status": "proved",
   "theorems": [
    "C23_block_iteration",
    "C23_complete",
    "C23_all_blocks",
    "C23_edit_after_terminator_refuted"
   ],
   "note": "For sorted edit lists. Finding: an edit placed after the last instruction of a block and before the next block is yielded by no block only if its point is not below the end of the block range; shown by the refuted theorem."
  },
  {
   "property": "C24",
   "status": "proved",
   "theorems": [
    "C24_slices_partition",
    "C24_slices_disjoint"
   ],
   "note": "Both layouts (fastalloc Allocs::new and ion create_pregs_and_vregs)."
  },
  {
   "property": "C25",
   "status": "proved",
   "theorems": [
    "C25_meet_is_lattice_meet",
    "C25_order_independent"
   ],
   "note": "Up to equality of the sets and maps; includes independence of predecessor order."
  },
  {
   "property": "C26",
   "status": "proved",
   "theorems": [
    "C26_analysis_fixpoint"
   ],
   "note": "Explicit step bound; every sufficiently large fuel gives the same result."
  },
  {
   "property": "C27",
   "status": "proved",
   "theorems": [
    "C27_checker_sound",
    "C27_accepted_reads_defined",
    "C27_stale_move_refuted",
    "C27_late_use_with_reuse_refuted",
    "C27_duplicate_successor_refuted",
    "C27_early_def_overlap_refuted"
   ],
   "note": "Single-slot locations (overlap of multi-slot spill slots is not modelled). Side conditions are each shown necessary by a refuted theorem; C27_accepted_reads_defined adds definedness."
  },
  {
   "property": "C28",
   "status": "proved",
   "theorems": [
    "C28_accepted_constraints",
    "C28_reuse_unchecked_refuted",
    "C28_limit_on_stack_refuted",
    "C28_class_unchecked_refuted"
   ],
   "note": "Three refuted theorems show what the checker does not enforce."
  },
  {
   "property": "C29",
   "status": "proved",
   "theorems": [
    "C29_layout",
    "C29_no_panic",
    "C29_fast",
    "C29_unchecked_overflow_refuted",
    "C29_unchecked_size_refuted"
   ],
   "note": "Both copies of the routine (ion and fastalloc); u32 arithmetic with overflow panics under debug assertions and wrapping without. Two refutations show what happens when debug assertions are off and their conditions fail."
  },
  {
   "property": "C30",
   "status": "proved",
   "theorems": [
    "C30_assigns",
    "C30_sharing",
    "C30_stack"
   ],
   "note": "The whole of allocate_spillslots: probing, slot lists per class, map insertion, final numbering. Hypothesis: aggregate ranges are non-empty. C30_stack combines it with C29 down to stack indices (with debug assertions on, so the numbering cannot silently overflow)."
  },
  {
   "property": "C31",
   "status": "proved",
   "theorems": [
    "C31_try_exact",
    "C31_try_iff",
    "C31_evict",
    "C31_reserve",
    "C31_history",
    "C31_disjoint",
    "C31_unchecked_reserve_refuted"
   ],
   "note": "The whole of try_to_allocate_bundle_to_reg, with the concurrent scan, the skip counter and the re-seek after 16 skips; evict_bundle; add_liverange_to_preg. Hypotheses on the tried bundle: ordered, disjoint non-empty ranges that point back to it. C31_unchecked_reserve_refuted shows what an overlapping reservation does without debug assertions."
  },
  {
   "property": "C32",
   "status": "proved",
   "theorems": [
    "C32_exact",
    "C32_order",
    "C32_same_position_refuted",
    "C32_unreachable_refuted"
   ],
   "note": "compute_liveness: total, bounded rounds, error exactly if something is live into the entry block, live-in and live-out exact at reachable blocks and sound elsewhere, classes recorded (C32_exact). The events of one position may be taken in any order if no instruction uses and defines a vreg at one position (C32_order). Refuted: exactness where an instruction does so (C32_same_position_refuted) and at unreachable blocks (C32_unreachable_refuted)."
  },
  {
   "property": "C33",
   "status": "proved",
   "theorems": [
    "C33_tables",
    "C33_too_many",
    "C33_exact",
    "C33_def_first_refuted",
    "C33_same_fixed_refuted"
   ],
   "note": "Model of liveranges.rs:99-262 and 370-785. C33_exact starts from the control flow and compute_liveness (C21, C32); C33_tables is for arbitrary live-out sets. f32 weights are parameters. Refuted: a definition need not start its range (C33_def_first_refuted); a vreg used twice in one clobbered fixed register while living on fails a debug assertion (C33_same_fixed_refuted)."
  },
  {
   "property": "C34",
   "status": "proved",
   "theorems": [
    "C34_merge",
    "C34_refused",
    "C34_bundles",
    "C34_then_loop",
    "C34_empty_refuted"
   ],
   "note": "Covers merge_bundles, merge_bundle_properties and merge_vreg_bundles. C34_then_loop composes with C51. C34_empty_refuted: merging into a bundle without ranges does not widen the spill set's range. The state assumed at the start (vregs_ok) is what building the live ranges gives."
  },
  {
   "property": "C35",
   "status": "proved",
   "theorems": [
    "C35_split",
    "C35_at_point",
    "C35_minimal",
    "C35_minimal_range"
   ],
   "note": "For all tables that fit together (ion_ok) and all split points inside the bundle. Weights are arbitrary (the f32 operations are parameters)."
  },
  {
   "property": "C36",
   "status": "proved",
   "theorems": [
    "C36_edge_moves",
    "C36_return_with_successor_refuted"
   ],
   "note": "refuted without the assumption that blocks with successors do not end in a return"
  },
  {
   "property": "C37",
   "status": "proved",
   "theorems": [
    "C37_edits",
    "C37_push",
    "C37_no_register_refuted"
   ],
   "note": "C37_edits covers resolve_inserted_moves as a whole (grouping, parallel move resolution, scratch handling, redundant move elimination over instructions, extra slots, final sort) under hypotheses machine_ok and moves_given; C37_push covers InsertedMoves::push. Refuted without a register of the class: C37_no_register_refuted."
  },
  {
   "property": "C38",
   "status": "proved",
   "theorems": [
    "C38_faithful",
    "C38_idempotent",
    "C38_every_query_refuted"
   ],
   "note": "C38_faithful and C38_idempotent. Refuted as first stated: C38_every_query_refuted (branch arguments asked for at another instruction, a return that is also a branch, empty blocks). Serde's encoding itself is not modelled."
  },
  {
   "property": "C39",
   "status": "proved",
   "theorems": [
    "C39_edits"
   ],
   "note": "C39_edits: the model of src/fastalloc/mod.rs with debug assertions on, all inputs meeting fast_input and menv_ok."
  },
  {
   "property": "C40",
   "status": "proved",
   "theorems": [
    "C40_constraints"
   ],
   "note": "C40_constraints: as C39, for all instructions in blocks, reachable or not. Limit constraints make the allocator stop with a panic, so they never occur on success."
  },
  {
   "property": "C41",
   "status": "proved",
   "theorems": [
    "C41_values",
    "C41_stack_def_refuted",
    "C41_fixed_reuse_refuted"
   ],
   "note": "C41_values. Refuted without the extra input conditions: C41_stack_def_refuted (a stack definition whose vreg is kept in a register for a later use loses its value), C41_fixed_reuse_refuted (a reused input that is fixed and live through the instruction is overwritten)."
  },
  {
   "property": "C42",
   "status": "proved",
   "theorems": [
    "C42_bad_successor_reported"
   ],
   "note": ""
  },
  {
   "property": "C43",
   "status": "proved",
   "theorems": [
    "C43_buffers",
    "C43_history",
    "C43_start"
   ],
   "note": "C43_buffers (VecExt) and C43_history (Env::new, create_pregs_and_vregs, the pool), C43_start (the tables a run starts with). A run may leave anything in the fields but cannot change the number of registers or put sets into the pool except via Env::new; that the other scratch fields are cleared where they are used (process.rs:64-65, 824-825, 1064; liveranges.rs:285-290, 384, 485) is by reading only."
  },
  {
   "property": "C44",
   "status": "proved",
   "theorems": [
    "C44_u64_key_order",
    "C44_u128_key_order",
    "C44_blockparam_out_key",
    "C44_blockparam_in_key",
    "C44_pos_prio_key",
    "C44_prio_order",
    "C44_bundle_roundtrip",
    "C44_bundle_weight_checked",
    "C44_bundle_weight_unchecked_refuted",
    "C44_bundle_setters",
    "C44_range_flag",
    "C44_range_weight",
    "C44_merge_flags",
    "C44_assign_flag_refuted"
   ],
   "note": "All keys and packed fields of data_structures.rs over the whole word domain. Refuted and kept as theorems: a too-large weight corrupts a flag when debug assertions are off; LiveRange::assign_flag does not do what its name says (it is unused in the crate)."
  },
  {
   "property": "C45",
   "status": "proved",
   "theorems": [
    "C45_inst_range",
    "C45_empty_range_rejected"
   ],
   "note": ""
  },
  {
   "property": "C46",
   "status": "proved",
   "theorems": [
    "C46_ion",
    "C46_disjoint",
    "C46_fast",
    "C46_wider_refuted"
   ],
   "note": "C46_ion, C46_disjoint (live-range allocator, given the list of final ranges and allocations), C46_fast (build_debug_info, given the live intervals). Refuted for the fast allocator: clipping, partial overlaps, order by point (C46_wider_refuted)."
  },
  {
   "property": "C47",
   "status": "proved",
   "theorems": [
    "C47_loop_depth",
    "C47_no_underflow",
    "C47_number_of_spans_refuted"
   ],
   "note": "refuted: depth equals number of spans"
  },
  {
   "property": "C48",
   "status": "proved",
   "theorems": [
    "C48_predicates",
    "C48_empty_overlaps_refuted",
    "C48_join",
    "C48_len",
    "C48_cmp",
    "C48_key",
    "C48_total_order",
    "C48_eq_not_transitive_refuted",
    "C48_search",
    "C48_insert",
    "C48_remove",
    "C48_range"
   ],
   "note": "BTreeMap is modelled as an ordered list searched by the key comparison; a binary-search version (bst_find) is proved to agree. Refuted for empty ranges and as an equivalence on arbitrary keys."
  },
  {
   "property": "C49",
   "status": "proved",
   "theorems": [
    "C49_minimal",
    "C49_order",
    "C49_evict"
   ],
   "note": "Weights from recompute_bundle_properties for arbitrary f32 operations; eviction stated on the entries of registers before and after process_bundle."
  },
  {
   "property": "C50",
   "status": "proved",
   "theorems": [
    "C50_late_early",
    "C50_def_use",
    "C50_constraints"
   ],
   "note": ""
  },
  {
   "property": "C51",
   "status": "proved",
   "theorems": [
    "C51_terminates",
    "C51_order"
   ],
   "note": "The f32 operations are parameters of the model, so termination does not depend on spill weights. Hypotheses penv_ok, input_ok, ion_ok of the state before queue_bundles (ProcessSpec.v)."
  },
  {
   "property": "C52",
   "status": "proved",
   "theorems": [
    "C52_uses",
    "C52_coverage",
    "C52_disjoint"
   ],
   "note": "Same hypotheses as C51. The register class of the chosen register is not part of the statement, its admission by the constraint is."
  },
  {
   "property": "C53",
   "status": "proved",
   "theorems": [
    "C53_crowded",
    "C53_reported_refuted"
   ],
   "note": "C53_reported_refuted: two early definitions in registers at the first instruction with one register panic instead of TooManyLiveRegs, debug and release."
  },
  {
   "property": "C54",
   "status": "proved",
   "theorems": [
    "C54_uses",
    "C54_pass",
    "C54_ready",
    "C54_then_loop",
    "C54_values",
    "C54_source_refuted",
    "C54_late_refuted",
    "C54_twice_refuted"
   ],
   "note": "Refuted: C54_source_refuted (limit and fixed registers on one vreg: wrong source of copies), C54_late_refuted (fixups after the instruction), C54_twice_refuted (same fixed register twice: debug panic)."
  },
  {
   "property": "C55",
   "status": "proved",
   "theorems": [
    "C55_values",
    "C55_branch_clobber_refuted",
    "C55_two_reuses_refuted"
   ],
   "note": "C55_values: no panic of apply_allocations_and_insert_moves and of resolve_inserted_moves in any order of equal keys, and same_reads of every output with these edits and allocations, from apply_given. Refuted beyond the conditions: C55_branch_clobber_refuted, C55_two_reuses_refuted. That the earlier steps establish apply_given is not part of the claim."
  },
  {
   "property": "C56",
   "status": "proved",
   "theorems": [
    "C56_cuts",
    "C56_points"
   ],
   "note": "C56_cuts: the description cuts (CutsSpec.v) is handed down from the initial state to the final one; C56_points: exact coverage, and classes and extents kept. Only runs that succeed are described."
  },
  {
   "property": "C57",
   "status": "proved",
   "theorems": [
    "C57_suits",
    "C57_spilled_once"
   ],
   "note": "C57_suits: the registers of bundles and the hints of spill sets; C57_spilled_once: the spilled list has no repetition. Hypothesis untouched: no hint and no spilled bundle at the start, as after merging; cuts gives every vreg its spill set. Only runs that succeed are described."
  },
  {
   "property": "C58",
   "status": "proved",
   "theorems": [
    "C58_step",
    "C58_home",
    "C58_only_if_full",
    "C58_keys"
   ],
   "note": "The hypothesis loop_given describes the state before the loop: consistent, cut as C56 asks, no hints, each range listed under a vreg, and vregs that share a spill set never live at one point."
  },
  {
   "property": "C59",
   "status": "proved",
   "theorems": [
    "C59_function",
    "C59_values",
    "C59_runs"
   ],
   "note": "C59_function starts from the function: fn_given describes the function and the machine. C59_values and C59_runs start after liveness. Excluded by fn_given: several operands of one vreg late in an instruction one of them in a fixed register (C54_late_refuted), a vreg defined early by the first instruction of a block that occupies the end of the block before (C33), clobbering branches on edges and several reusing results (C55), unreachable blocks. The example runs all passes on a function and gets its edits."
  },
  {
   "property": "C60",
   "status": "proved",
   "theorems": [
    "C60_operands",
    "C60_function",
    "C60_reused_refuted"
   ],
   "note": "From func_given (C60_operands) and from the function alone (C60_function), for every run of all passes. Reused inputs: only with Any and Reg; C60_reused_refuted gives functions meeting all conditions of the model where a reused input with a fixed register, a limit or a stack constraint ends in the register of the result."
  },
  {
   "property": "C61",
   "status": "proved",
   "theorems": [
    "C61_checker_complete",
    "C61_block_order_refuted"
   ],
   "note": "For outputs that are correct in all executions; constraints and late uses are asked for instructions in blocks only. C61_block_order_refuted: without the condition on the block order a correct output is rejected."
  },
  {
   "property": "C62",
   "status": "proved",
   "theorems": [
    "C62_fastalloc",
    "C62_main",
    "C62_block_order_refuted"
   ],
   "note": "C62_fastalloc for the single-pass allocator (debug build), C62_main for the main one. C62_block_order_refuted: without the condition on the block order the checker rejects a correct output of the single-pass allocator."
  },
  {
   "property": "C63",
   "status": "proved",
   "theorems": [
    "C63_failure",
    "C63_enough"
   ],
   "note": "From the function and the machine (fn_given, as in C59). no_room and enough_regs are in RoomSpec.v. Nonvacuous: one function on two machines, one with enough registers, one where the allocator gives up."
  },
  {
   "property": "C64",
   "status": "proved",
   "theorems": [
    "C64_main",
    "C64_success",
    "C64_fast",
    "C64_fast_total",
    "C64_fast_builds"
   ],
   "note": "C64_main and C64_success for the main allocator in both builds, C64_fast for the single-pass allocator in the debug build; with a reason for TooManyLiveRegs and no panics C64_fast_total, and C64_fast_builds for both builds. Conditions of the caller: ion_caller, fast_caller in TopSpec.v, fast_able in FastProgSpec.v; ion_caller and fast_caller are weaker than the conditions of C59 and C40 because CFGInfo and validation check the rest. The environment is a fresh one; a used one is C43."
  },
  {
   "property": "C65",
   "status": "proved",
   "theorems": [
    "C65_progress",
    "C65_success",
    "C65_clash",
    "C65_panic_refuted",
    "C65_limit_refuted",
    "C65_twice_refuted"
   ],
   "note": "C65_progress, C65_success, C65_clash; wider claims refuted: C65_panic_refuted (reused Any input), C65_limit_refuted, C65_twice_refuted. The condition stuck is necessary for failure, not sufficient: three registers happen to be enough in the case of C65_nonvacuous although it wants three beside a clobbered one. Debug build; C66 carries it over to the release build."
  },
  {
   "property": "C66",
   "status": "proved",
   "theorems": [
    "C66_same",
    "C66_builds",
    "C66_all_refuted"
   ],
   "note": "C66_same, C66_builds; C66_all_refuted: the builds differ where the debug build panics."
  },
  {
   "property": "C67",
   "status": "proved",
   "theorems": [
    "C67_fast",
    "C67_fast_builds",
    "C67_fast_run",
    "C67_words",
    "C67_frame",
    "C67_function",
    "C67_run",
    "C67_overlap_refuted",
    "C67_class_refuted"
   ],
   "note": "C67_words lifts same_reads to a frame of words for any output with a layout; C67_frame gives the layout for the main allocator, C67_function and C67_run put both together. C67_fast, C67_fast_builds and C67_fast_run are the same for the single-pass allocator, for machines whose scratch registers are of the class that they are listed for. Refuted wider claims: C67_overlap_refuted (the checker accepts slots that overlap in part), C67_class_refuted (the checker accepts an operand in a register of another class)."
  },
  {
   "property": "C68",
   "status": "proved",
   "theorems": [
    "C68_given",
    "C68_run",
    "C68_function",
    "C68_edge_refuted",
    "C68_traces",
    "C68_disjoint_refuted"
   ],
   "note": "C68_given from the tables, C68_run for every run of all passes, C68_function from the function alone. C68_traces: the executions looked at are all executions. Refuted: C68_edge_refuted (at a jump with moves of an edge in front of it, a location reported up to the end of the block holds another vreg), C68_disjoint_refuted (locations of one label may overlap, against the documentation). Not said: locations that end before the late point of an instruction which reuses another vreg."
  },
  {
   "property": "C69",
   "status": "proved",
   "theorems": [
    "C69_same",
    "C69_main",
    "C69_all_refuted"
   ],
   "note": "C69_same compares the two values of the flag dbg in the model of run; it holds for every input because each debug assertion of the model is a None or PsPanic. Overflow checks are modelled where the model has machine words. C69_main uses C64_main to exclude panics. C69_all_refuted shows that the condition is needed."
  }
 ]
}