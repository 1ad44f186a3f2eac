# Design

Formal model of regalloc2 (source in /repo at the pinned commit) in Rocq/Coq 8.16.1.

## Layout

Per topic there are up to four kinds of files in `rocq/theories/`:

- `X.v`: the model. Total Gallina functions that follow the Rust functions; every definition cites file and lines, and says what it leaves out.
- `XSpec.v`: the specification, written without the functions of the model (it may use its record types).
- `XProofs.v` and others: lemmas.
- `PropX.v`: the theorems `Cnn_name`, each followed by `Print Assumptions` (except the refutations of C65, C66 and C69), and `Cnn_nonvacuous` examples that meet the hypotheses. A claim that is false of the code is a theorem `Cnn_..._refuted` with a concrete counterexample.

`properties.jsonl` has the properties, `MANIFEST.json` the theorems of each (made by `tools/manifest.py` from the Coq files and `tools/notes.json`), `seeded/LOG.jsonl` the mutation tests (run by `tools/mutate.py`).

## Conventions

- Machine words are `N` with explicit `mod 2^k` where the code can wrap. `usize` has 64 bits.
- Block, instruction, vreg, bundle and range indices in the higher-level parts are `nat`; `PropEnc` shows what their packed forms keep. The program point before instruction i is `2*i`, the one after it `2*i+1`.
- A panic (failed `assert!`, `unwrap` of `None`, index out of range, overflow in a debug build) is `None`, or a constructor `Panic`. A flag `dbg` says whether `debug_assert!` is compiled in; theorems hold for both values unless they fix one.
- Loops without an evident bound take fuel, and a theorem gives a bound that suffices.
- `sort_unstable` is either a stable sort or, where the result could differ, any sorted permutation. Hash maps are functions or association lists; nothing depends on iteration order.
- f32 spill weights are bit patterns; additions, conversions and constants are parameters of the environment, and the theorems hold whatever they compute.
- The register class accessor of a `VReg`/`PReg` with class bits 3 panics (`None`).

## Trusted base

- The Coq kernel (8.16.1). `coqchk` accepts the compiled files.
- No axioms: `Print Assumptions` answers "Closed under the global context" for every theorem listed in `MANIFEST.json`, and no kernel check is switched off. No plugins. A list of everything loaded also names the seven parameters of `Coq.ssr.ssrunder.Under_rel`, which come with the standard library; no theorem depends on them.
- That the model files say what the Rust code does. They were written by reading; the code was never run. The correspondence of each definition is stated in its comment.
- The specification files: `EncSpec`, `PRegSetSpec`, `MovesSpec`, `RedundantMovesSpec`, `OutputSpec`, `CheckerSpec` (execution of the original and of the allocated program), `CheckerCompleteSpec`, `GraphSpec`, `CfgSpec`, `SsaSpec`, `IndexSetSpec`, `VRegSetSpec`, `LruSpec`, `RequirementSpec`, `RegTraversalSpec`, `KeysSpec`, `RangesSpec`, `SpillSpec`, `PRegsSpec`, `ProcessSpec`, `MergeSpec`, `LivenessSpec`, `LiveRangesSpec`, `MultiFixedSpec`, `ResolveMovesSpec`, `FastallocSpec`.
- `Slice.v` follows the documented contract of the sort and binary search of the Rust standard library.

## What is modelled

| Rust source | model | properties |
| --- | --- | --- |
| `lib.rs` PReg, VReg, SpillSlot, Operand, Allocation, ProgPoint; `index.rs` | `Enc.v` | C01–C06, C45 |
| `lib.rs` PRegSet, From<&MachineEnv> | `PRegSet.v` | C07–C09 |
| `indexset.rs` | `IndexSet.v` | C10 |
| `moves.rs` (all) | `Moves.v` | C11–C13 |
| `ion/redundant_moves.rs` (all) | `RedundantMoves.v` | C14 |
| `ion/requirement.rs` (all) | `Requirement.v` | C15 |
| `ion/reg_traversal.rs` (all) | `RegTraversal.v` | C16 |
| `fastalloc/lru.rs`, `fastalloc/vregset.rs`, `fastalloc/iter.rs` (all) | `Lru.v`, `VRegSet.v`, `FastIter.v` | C17, C18, C50 |
| `postorder.rs`, `domtree.rs`, `cfg.rs`, `ssa.rs` (all) | `Postorder.v`, `Domtree.v`, `Cfg.v`, `Ssa.v` | C19–C22, C36, C42, C47 |
| `lib.rs` Output, OutputIter | `Output.v` | C23, C24 |
| `checker.rs` | `Checker.v` | C25–C28, C61, C62 |
| `ion/data_structures.rs` ranges, keys, packed words, spill slot lists, tables | `Ranges.v`, `Keys.v`, `Spill.v`, `Ion.v` | C44, C48 |
| `ion/spill.rs` try_allocating_regs_for_spilled_bundles | `SpillRegs.v` | C58 |
| `ion/spill.rs` allocate_spillslots, allocate_spillslot | `Spill.v` | C29, C30 |
| `ion/liveranges.rs` (all but the annotations) | `Liveness.v`, `LiveRanges.v`, `MultiFixed.v`, `Context.v` | C32, C33, C54 |
| `ion/merge.rs` (all) | `Merge.v` | C34 |
| `ion/process.rs` (all) | `PRegs.v`, `Process.v` | C31, C35, C49, C51–C53 |
| `ion/moves.rs` (all but annotations and the assertion that an allocation is not none) | `Cfg.v`, `DebugLoc.v`, `DebugRun.v`, `MultiFixed.v`, `Apply.v`, `ResolveMoves.v` | C36, C37, C46, C54, C55, C68 |
| `fastalloc/mod.rs` (all but traces and logging) | `Fastalloc.v` (progress: `FastProg*.v`) | C39–C41, C46, C65–C67 |
| `serialize.rs` 58-199 | `Serialize.v` | C38 |
| `lib.rs` VecExt, `ion/mod.rs` Env::new, `liveranges.rs` create_pregs_and_vregs | `Context.v` | C43 |
| `lib.rs` run, RegAllocError; `ion/mod.rs` run, init; `fastalloc/mod.rs` run | `Top.v` (specification `TopSpec.v`) | C64, C69 |
| `ion/mod.rs` Env::init, Env::run | `IonRun.v` | C59, C60, C63, C67, C68 |

Not modelled: `ion/dump.rs`, annotations, traces, statistics, serde encodings and `fuzzing/`.

## How the main results are stated

- **Encodings, sets, lists** (C01–C10, C17, C18, C44, C48): round trips for all words, and equivalence with a set or list for all histories of operations.
- **Parallel moves** (C11–C13, C37): the sequence of moves, executed on any contents of registers and slots, has the effect of doing all moves at once. C37 is about the final edit list of a whole function, with redundant moves left out along every execution.
- **Checker** (C25–C28): acceptance implies that the allocated program reads, along every execution, the values that the original program reads, for a semantics with arbitrary instruction meanings and arbitrary branch decisions (`vrun`, `arun` in `CheckerSpec.v`). `C61_checker_complete` is the converse: correct outputs are accepted, shown with symbolic executions in which every definition makes a new symbol (`CheckerComplete.v`). C62 puts it together with C39–C41 and with C59, C60: the checker accepts the outputs of both allocators (`Accept.v`, `PropAccept.v`).
- **Single-pass allocator** (C39–C41): the same `same_reads` relation holds of its output, for functions that satisfy `fast_input`, in debug builds. C65 adds that the allocator does not panic and when it may fail: `good` (`FastProg.v`) is a predicate on results that excludes panics and bounds errors by a reason; it is carried through all functions with the invariants of C39–C41, a count of the registers still free against the operands still to come (`slack`), and a budget of slot indices. C66 compares the builds: every function of the model is monotone in its debug flag (`FastMono.v`), so that results of the debug build carry over to the release build. C69 does the same for the main allocator (`IonMono.v`) and for `run`.
- **Main allocator**: liveness (C32), live ranges (C33), several uses at one point (C54), merging (C34), the loop (C31, C35, C49, C51–C53, C56, C57), spilled bundles (C58), slots (C29, C30), applying the allocations (C55), final moves (C37), each from the result of the step before. `C55_values` ends with `same_reads`; its hypothesis `apply_given` describes the tables after the loop. `C59_function` chains all passes: its hypothesis `fn_given` is about the function and the machine only, its conclusion is `same_reads` for every run (`ion_run`, `IonRun.v`) and that runs exist unless the allocator reports an error. `C60_function` adds that operands meet their constraints (`OperSpec.v`). `C63_failure` says when the loop fails, in terms of the operands of one instruction (`RoomSpec.v`).
- **Entry points** (C64): `run` with its options (`Top.v`). The hypotheses `ion_caller` and `fast_caller` (`TopSpec.v`) are what a caller has to see to beside what `CFGInfo::init` and validation check; every result has a meaning in terms of the function and the machine.
- **Slots of several indices** (C67): `same_reads` treats each slot as a place for one value, known by its name. `WideSpec.v` has a second execution on a frame of words, and `layout_ok` and `output_fits`, which say which slots share words and that each operand and edit keeps to its class. `C67_words` carries `same_reads` over to words for every output that fits; `C67_frame` proves that the main allocator's outputs fit, by the history of calls of `allocate_spillslot` (`IonWide.v`). `C67_fast` proves the same of the single-pass allocator (`FastWide.v`); it also asks that dedicated scratch registers are of the class that they are listed for.
- **Debug locations** (C68): `DebugRunSpec.v` has executions that keep the contents of vregs and of locations around every instruction (`vtrace`, `atrace`) and says when a reported location is right in them (`told`). `ApplyTrace.v` repeats the simulation of C55 with these contents. C46 is about the list alone; the debug locations of the single-pass allocator have only C46.

## Deviations found in the code

Each is a theorem unless marked (text). Inputs are mostly unusual but accepted by validation.

- Encodings: `Allocation::from_bits` rejects every bit pattern in debug builds (C05); `ProgPoint::inst` is wrong from 2^30 on (C06); `PReg::new(63, Int)` is the invalid register; an invalid spill slot in `Allocation::stack` overflows (text).
- `PRegSet`: inverted sets iterate over registers without class (C07); `add_up_to` drops members, `max_preg` compares by index (C08).
- `IndexSet` loses indices of 2^38 and more (C10).
- `RegTraversalIter`: fixed registers ignore the limit, hints are not checked (C16).
- LRU and vreg set: queries of empty lists and operations on non-members break the links (C17, C18).
- SSA validation: branch arguments unchecked, unnumbered uses panic (C22). A returning block with successors passes, and then edge moves have no place (C36).
- Output iteration: edits after the terminator are dropped (C23).
- Checker accepts wrong programs: duplicate successors, early definition over a late use, late use with reuse, stale moves (C27), wrong class, limits on the stack, unchecked reuse (C28).
- Checker rejects correct programs in which a block has a smaller index than all its predecessors (C61); also outputs of the single-pass allocator (C62).
- Spill slots: size 0 and overflow unchecked in release builds (C29).
- Liveness: operands at one position, unreachable blocks (C32). Live ranges: a definition at a block start that joins the preceding block in the layout; the same fixed register twice (C33). Merging: unreachable blocks leave a vreg without class, which panics (text); an empty bundle (C34).
- Several fixed registers: the source slot of a fixup may itself be moved; fixups after the instruction come too late; one register twice (C54).
- Main loop: whether an error is reported as TooManyLiveRegs or a panic depends on the position in the function (C53). Minimal bundles count entries, not registers; limits of 256 and more panic; a class whose registers are all beyond a limit fails a debug assertion; an empty spill range has no vreg (text).
- Applying allocations: an edge move into a register that the branch clobbers is lost; with two reusing results in one instruction the second move may overwrite a further use of the first input (C55).
- Reused inputs with a fixed register, a limit or a stack constraint are accepted and put where the result is, against the constraint (C60). The fuzz generator avoids them.
- Final moves: a class without registers borrows the invalid register (C37).
- Redundant assignments of flags, unchecked weights (C44); more debug ranges than promised (C46), and overlapping ones for one label, against the documentation (C68); debug locations at a jump with moves of an edge in front of it name registers that are overwritten already (C68); loop spans (C47); empty ranges (C48).
- Serialization: clobbers and allocations of other queries (C38).
- Single-pass allocator: a stack definition of a vreg that is in a register (C41_stack_def_refuted); a reused input fixed to a register in which the value lives on (C41_fixed_reuse_refuted); block order, branch-defined vregs passed on twice, branch operands that are parameters of a successor, reuse of inputs forced to the stack, duplicate fixed early uses (text; excluded by `fast_input`); a reused input that may be anywhere panics, one vreg used twice in one fixed register fails (C65).
