(* The reusable context (src/ion/mod.rs:38-82 Env::new, src/lib.rs:1739-1770
   VecExt, src/ion/liveranges.rs:100-144 create_pregs_and_vregs).  Model file:
   definitions only.  [None] is a panic.  Capacities are left out.  The elements
   of most buffers are never looked at here; one type [D] stands for all. *)
From Coq Require Import NArith List Bool Arith.
From Verif Require Import Enc PRegSet RegTraversal Func Process ResolveMoves.
Import ListNotations.
Open Scope nat_scope.

(* Vec::resize *)
Definition resize {A} (l : list A) (n : nat) (x : A) : list A := firstn n l ++ repeat x (n - length l).
(* src/lib.rs:1751-1758 repopulate, 1760-1763 cleared, 1765-1769 preallocate *)
Definition cleared {A} (l : list A) : list A := [].
Definition repopulate {A} (l : list A) (n : nat) (x : A) : list A := resize (cleared l) n x.
Definition preallocate {A} (l : list A) (cap : nat) : list A := cleared l.

Section Context.
  Context {D : Type}.

  (* src/ion/data_structures.rs PRegData: allocations.btree, is_stack *)
  Record preg_data := mkPd { pd_btree : list D; pd_is_stack : bool }.
  (* src/ion/data_structures.rs SpillSlotData: ranges.btree and the rest *)
  Record slot_data := mkSd { sd_btree : list D; sd_rest : D }.
  (* VRegData with no ranges, no block and no class: the vreg *)
  Record vreg_data := mkVr { vr_vreg : vreg; vr_ranges : list D }.
  (* src/lib.rs Output, without the statistics but for one field *)
  Record outp := mkOut { ou_num_spillslots : N; ou_edits : list D; ou_allocs : list N; ou_offsets : list N; ou_debug_locations : list D; ou_stats : N }.
  (* src/cfg.rs:13-41 CFGInfo and CFGInfoCtx *)
  Record cfg_bufs := mkCfg { cf_postorder : list D; cf_domtree : list D; cf_insn_block : list D; cf_block_entry : list D; cf_block_exit : list D; cf_depth : list D;
    cf_visited : list D; cf_rpo : list D; cf_backedge : list D }.
  (* src/ion/data_structures.rs:512-571 Ctx *)
  Record ctx := mkCtx {
    cx_cfg : cfg_bufs;
    cx_liveins : list D; cx_liveouts : list D; cx_blockparam_outs : list D; cx_blockparam_ins : list D;
    cx_ranges : list D; cx_bundles : list D; cx_spillsets : list D; cx_vregs : list vreg_data;
    cx_pregs : list preg_data; cx_queue : list D; cx_spilled : list D; cx_spillslots : list slot_data;
    cx_slots_by_class : list (list D * nat); cx_extra : list (list N); cx_victims : list preg;
    cx_fixups : list D; cx_allocated : N; cx_annotations : list D; cx_annotations_enabled : bool;
    cx_output : outp;
    (* not looked at by Env::new, except for the pool, to which it adds *)
    cx_conflict_set : list D; cx_scratch_conflicts : list D; cx_scratch_bundle : list D; cx_scratch_vreg_ranges : list D;
    cx_pool : list (list D); cx_workqueue : list D; cx_rewrites : list D; cx_removed_lrs : list D; cx_removed_vregs : list D; cx_workqueue_set : list D
  }.
  (* src/ion/data_structures.rs:578-633 Ctx::default *)
  Definition ctx_default : ctx :=
    mkCtx (mkCfg [] [] [] [] [] [] [] [] []) [] [] [] [] [] [] [] [] [] [] [] [] (repeat ([], 0) 3) (repeat [] 3) (repeat 0%N 3) [] 0 [] false
      (mkOut 0 [] [] [] [] 0) [] [] [] [] [] [] [] [] [] [].

  (* The references to the Bump (src/lib.rs:1772-1779): the context's own and one
     in every list that is allocated in it: the uses of a range, the ranges of a
     bundle and of a vreg. *)
  Definition bump_refs (c : ctx) : nat := 1 + length (cx_ranges c) + length (cx_bundles c) + length (cx_vregs c).

  (* src/ion/mod.rs:38-82 Env::new.  Line 68-71 panics if references are left. *)
  Definition env_new (ninsts nblocks : nat) (c : ctx) : option ctx :=
    let c1 := mkCtx (cx_cfg c)
      (preallocate (cx_liveins c) nblocks) (preallocate (cx_liveouts c) nblocks) (cleared (cx_blockparam_outs c)) (cleared (cx_blockparam_ins c))
      (preallocate (cx_ranges c) (4 * ninsts)) (preallocate (cx_bundles c) ninsts) (preallocate (cx_spillsets c) ninsts) (preallocate (cx_vregs c) ninsts)
      (map (fun p => mkPd (cleared (pd_btree p)) false) (cx_pregs c)) (cleared (cx_queue c)) (cleared (cx_spilled c)) []
      (repeat ([], 0) 3) (repeat [] 3) (repeat preg_invalid 3)
      (cleared (cx_fixups c)) 0 (cleared (cx_annotations c)) (cx_annotations_enabled c)
      (mkOut 0 (cleared (ou_edits (cx_output c))) (preallocate (ou_allocs (cx_output c)) (4 * ninsts)) (cleared (ou_offsets (cx_output c))) (cleared (ou_debug_locations (cx_output c))) 0)
      (cx_conflict_set c) (cx_scratch_conflicts c) (cx_scratch_bundle c) (cx_scratch_vreg_ranges c)
      (cx_pool c ++ map (fun s => cleared (sd_btree s)) (cx_spillslots c)) (cx_workqueue c) (cx_rewrites c) (cx_removed_lrs c) (cx_removed_vregs c) (cx_workqueue_set c) in
    if bump_refs c1 =? 1 then Some c1 else None.

  (* src/ion/liveranges.rs:109-111 *)
  Fixpoint mark_stack (l : list preg_data) (rs : list preg) : option (list preg_data) :=
    match rs with
    | [] => Some l
    | r :: t => let! p := nth_error l (N.to_nat (preg_index r)) in
                mark_stack (firstn (N.to_nat (preg_index r)) l ++ mkPd (pd_btree p) true :: skipn (S (N.to_nat (preg_index r))) l) t
    end.
  (* src/ion/liveranges.rs:136-142 *)
  Fixpoint alloc_table (f : func) (is : list nat) (offs al : list N) : list N * list N :=
    match is with
    | [] => (offs, al)
    | i :: t => alloc_table f t (offs ++ [N.of_nat (length al)]) (al ++ repeat 0%N (length (f_operands f i)))
    end.
  (* src/ion/liveranges.rs:100-144 create_pregs_and_vregs *)
  Definition create_pregs_and_vregs (env : machine_env) (f : func) (c : ctx) : option ctx :=
    let! ps := mark_stack (resize (cx_pregs c) 256 (mkPd [] false)) (fixed_stack_slots env) in
    let! v0 := victim env Int in let! v1 := victim env Float in let! v2 := victim env Vector in
    let t := alloc_table f (seq 0 (f_ninsts f)) (ou_offsets (cx_output c)) (ou_allocs (cx_output c)) in
    Some (mkCtx (cx_cfg c) (cx_liveins c) (cx_liveouts c) (cx_blockparam_outs c) (cx_blockparam_ins c)
      (cx_ranges c) (cx_bundles c) (cx_spillsets c) (cx_vregs c ++ map (fun i => mkVr (4 * N.of_nat i)%N []) (seq 0 (f_nvregs f)))
      ps (cx_queue c) (cx_spilled c) (cx_spillslots c) (cx_slots_by_class c) (cx_extra c) [v0; v1; v2]
      (cx_fixups c) (cx_allocated c) (cx_annotations c) (cx_annotations_enabled c)
      (mkOut (ou_num_spillslots (cx_output c)) (ou_edits (cx_output c)) (snd t) (fst t) (ou_debug_locations (cx_output c)) (ou_stats (cx_output c)))
      (cx_conflict_set c) (cx_scratch_conflicts c) (cx_scratch_bundle c) (cx_scratch_vreg_ranges c)
      (cx_pool c) (cx_workqueue c) (cx_rewrites c) (cx_removed_lrs c) (cx_removed_vregs c) (cx_workqueue_set c)).

  (* src/ion/mod.rs:109-137 run, up to the analyses: the buffers of the CFG are
     given by what cfginfo.init computes (the argument), then line 120 on *)
  Definition start_run (env : machine_env) (f : func) (annotate : bool) (cfg : cfg_bufs) (c : ctx) : option ctx :=
    let c0 := mkCtx cfg (cx_liveins c) (cx_liveouts c) (cx_blockparam_outs c) (cx_blockparam_ins c) (cx_ranges c) (cx_bundles c) (cx_spillsets c) (cx_vregs c)
      (cx_pregs c) (cx_queue c) (cx_spilled c) (cx_spillslots c) (cx_slots_by_class c) (cx_extra c) (cx_victims c) (cx_fixups c) (cx_allocated c) (cx_annotations c) annotate
      (cx_output c) (cx_conflict_set c) (cx_scratch_conflicts c) (cx_scratch_bundle c) (cx_scratch_vreg_ranges c)
      (cx_pool c) (cx_workqueue c) (cx_rewrites c) (cx_removed_lrs c) (cx_removed_vregs c) (cx_workqueue_set c) in
    let! c1 := env_new (f_ninsts f) (f_nblocks f) c0 in
    create_pregs_and_vregs env f c1.

  (* src/ion/spill.rs:137-141: the ranges of a new slot come from the pool *)
  Definition new_slot (c : ctx) (rest : D) : slot_data * list (list D) :=
    match rev (cx_pool c) with
    | [] => (mkSd [] rest, [])
    | l :: t => (mkSd l rest, rev t)
    end.
End Context.
Arguments ctx : clear implicits.
Arguments cfg_bufs : clear implicits.
