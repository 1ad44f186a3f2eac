(* The passes of the allocator in order (src/ion/mod.rs:83-105 init and run).  Model
   file: definitions only.

   A run is described by the states between the passes.  The unstable sorts of
   src/ion/moves.rs:83-91 and 782-784 may leave equal keys in any order.  What
   CFGInfo::init and compute_liveness computed is given: the environment, the live-out
   sets, the test for live-in vregs and the observed classes.  Annotations, traces,
   debug locations and statistics are left out. *)
From Coq Require Import NArith List Bool Arith Sorted Permutation.
From Verif Require Import Enc PRegSet Func Vecs IndexSet Ranges Ion PRegs Spill Process Merge LiveRanges MultiFixed SpillRegs ResolveMoves Apply.
From Verif Require Keys.
Import ListNotations.
Open Scope nat_scope.

(* src/ion/liveranges.rs:609-617: operands in registers that are not allocated get them
   while live ranges are built.  allocs is cleared before (src/ion/mod.rs:72 and
   src/ion/liveranges.rs:137-143). *)
Definition first_allocs (dbg : bool) (l : list (nat * nat * preg)) : option atab :=
  fold_left (fun acc e => let! al := acc in let! x := alloc_reg dbg (snd e) in Some (set_at al (fst (fst e)) (snd (fst e)) x)) l (Some (fun _ _ => 0%N)).
(* src/ion/data_structures.rs:298-311: the fields of the spill sets that
   allocate_spillslots reads; [slot] is still invalid *)
Definition sets_of (st : ion) : list sset := map (fun s => mkSet (sset_range s) (sset_class s) (sset_required s) None) (io_spillsets st).
(* src/ion/moves.rs:67-71 and src/ion/spill.rs:171: the location of a spill set *)
Definition set_slot (dbg : bool) (sp : spill_state) (l : list spillslot) (i : nat) : option N :=
  let! s := nth_error (sp_sets sp) i in
  let! k := ss_slot s in
  let! x := nth_error l k in
  alloc_stack dbg x.

(* the states between the passes *)
Record ion_states := mkIs {
  is_built : brst;                (* after build_liveranges *)
  is_fixed : brst;                (* after fixup_multi_fixed_vregs *)
  is_merged : ion;                (* after merge_vreg_bundles *)
  is_queued : ion;                (* after queue_bundles *)
  is_done : ion;                  (* after process_bundles *)
  is_last : ion;                  (* after try_allocating_regs_for_spilled_bundles *)
  is_spill : spill_state;         (* after allocate_spillslots *)
  is_slots : list spillslot;
  is_nslots : N;
  is_lists : list (list lrentry); (* the ranges of the vregs, updated and sorted *)
  is_first : atab;                (* allocations before and after *)
  is_moves : list imove;          (* apply_allocations_and_insert_moves *)
  is_allocs : atab;
  is_sorted : list imove;         (* the moves, sorted *)
  is_edits : list edit;           (* the result of resolve_inserted_moves *)
  is_total : N                    (* num_spillslots at the end *)
}.
(* what the application of allocations reads *)
Definition is_aenv (be : benv) (f : func) (livein : nat -> nat -> bool) (x : ion_states) : aenv :=
  let env := be_env be in
  mkAe (pe_dbg env) f (is_last x) (set_slot (pe_dbg env) (is_spill x) (is_slots x)) (is_lists x)
    (pe_insn_block env) (pe_entry env) (be_exit be) livein (br_outs (is_fixed x)) (br_ins (is_fixed x)) (br_fix (is_fixed x)).

(* src/ion/mod.rs:83-105; 86 is build_liveranges *)
Record ion_run (be : benv) (f : func) (louts : list amap) (livein : nat -> nat -> bool) (cls : list (option regclass)) (x : ion_states) : Prop := {
  ir_build : build_liveranges be f louts (br_init cls) = Some (Datatypes.inr (is_built x));
  ir_fixup : fix_multi (pe_dbg (be_env be)) (pe_stack (be_env be)) (is_built x) = Some (is_fixed x);
  ir_merge : merge_vreg_bundles (pe_dbg (be_env be)) (pe_stack (be_env be)) f (out_pairs (br_outs (is_fixed x))) (br_ion (is_fixed x)) = Some (is_merged x);
  ir_queue : queue_bundles (be_env be) (length (io_bundles (is_merged x))) 0 (is_merged x) = Some (is_queued x);
  ir_process : exists fuel, process_bundles fuel (be_env be) (is_queued x) = PsDone (is_done x);
  ir_spilled : spilled_regs (be_env be) (is_done x) = Some (is_last x);
  ir_slots : allocate_spillslots (pe_dbg (be_env be)) f (sets_of (is_last x)) 0 = Some (is_spill x, is_slots x, is_nslots x);
  (* src/ion/moves.rs:83-91 *)
  ir_lists : Forall2 (fun vd l => exists l0, refreshed (is_last x) (vd_ranges vd) = Some l0 /\ Permutation l0 l /\ StronglySorted (fun a b => cr_from (fst a) <= cr_from (fst b)) l)
    (io_vregs (is_last x)) (is_lists x);
  ir_first : first_allocs (pe_dbg (be_env be)) (br_allocs (is_built x)) = Some (is_first x);
  ir_apply : apply_allocations (is_aenv be f livein x) (is_first x) = Some (is_moves x, is_allocs x);
  (* src/ion/moves.rs:782-784 *)
  ir_sorted : Permutation (is_moves x) (is_sorted x) /\ StronglySorted (fun a b => (mkey_u64 (im_key a) <= mkey_u64 (im_key b))%N) (is_sorted x);
  ir_resolve : resolve_inserted_moves (be_env be) f (io_pregs (is_last x)) (is_allocs x) (is_sorted x) (is_nslots x) = Some (is_edits x, is_total x)
}.
