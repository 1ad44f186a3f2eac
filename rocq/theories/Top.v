(* The entry points of the two allocators: regalloc2::run, ion::run and
   fastalloc::run.  Model file: definitions only.

   Traces, annotations, statistics and debug locations are left out.  Floating-point
   operations are parameters, and so are the two unstable sorts.  [fuel0] bounds the
   loops before the allocation of bundles, [fuel] those of process_bundles.  A context
   that was used before is not modelled: the passes start with empty tables, as
   Env::new and create_pregs_and_vregs leave them. *)
From Coq Require Import NArith List Bool Arith.
From Verif Require Import Enc PRegSet Func Vecs IndexSet Slice Ranges Cfg Ssa Liveness Ion PRegs Spill Process Merge LiveRanges MultiFixed SpillRegs ResolveMoves Apply ApplySpec Output Fastalloc IonRun.
From Verif Require Keys IonFunc.
Import ListNotations.
Open Scope nat_scope.

(* src/lib.rs:1645-1676 enum RegAllocError *)
Inductive reg_error := ECfg (e : cfg_error) | ESsaForm (e : ssa_error) | EEntryLivein | ETooManyLiveRegs | ETooManyOperands.
(* Result<Output, RegAllocError>, a panic, or not enough fuel *)
Inductive top_result := TOk (o : output) | TErr (e : reg_error) | TPanic | TFuel.

(* the floating-point operations (src/ion/liveranges.rs:31-97) *)
Record weights := mkW {
  w_zero : N; w_add : N -> N -> N; w_int : N -> N; w_from_bits : N -> N; w_move_cost : nat -> N; w_of : constraint -> nat -> bool -> N }.
(* the unstable sorts of src/ion/moves.rs:87-91 and src/ion/moves.rs:782-784 *)
Record sorts := mkSorts { so_ranges : list lrentry -> list lrentry; so_moves : list imove -> list imove }.

(* src/ion/mod.rs:38-81 Env::new and src/ion/liveranges.rs:104-116: what the passes
   read of the machine and of the control flow.  pregs[r].is_stack is set for the fixed
   stack slots. *)
Definition top_env (dbg : bool) (w : weights) (me : machine_env) (f : func) (c : cfginfo) : benv :=
  mkBenv (mkPenv dbg me (fun r => existsb (N.eqb r) (fixed_stack_slots me)) (f_ninsts f) (ci_insn_block c) (nth_error (ci_depth c)) (ci_entry c)
      (w_zero w) (w_add w) (w_int w) (w_from_bits w) (w_move_cost w)) (ci_exit c) (w_of w).

(* src/ion/moves.rs:83-91 *)
Definition all_lists (so : sorts) (st : ion) : option (list (list lrentry)) :=
  fold_right (fun vd acc => let! l := refreshed st (vd_ranges vd) in let! t := acc in Some (so_ranges so l :: t)) (Some []) (io_vregs st).

(* src/ion/liveranges.rs:136-142 and src/ion/data_structures.rs: the vector
   output.allocs in terms of the table that the passes write *)
Definition flat_allocs (f : func) (al : atab) : list aloc :=
  flat_map (fun i => map (fun k => loc_at (al i k)) (seq 0 (length (f_operands f i)))) (seq 0 (f_ninsts f)).
(* src/ion/mod.rs:131 and src/ion/data_structures.rs:910-912 drain_edits; the slots are
   num_spillslots (src/ion/spill.rs:158-172) *)
Definition ion_output (f : func) (es : list ResolveMoves.edit) (al : atab) (n : N) : output :=
  mkOutput (N.to_nat n) (map (fun e => (fst (ed_key e), mkEdit (loc_at (ed_from e)) (loc_at (ed_to e)))) es) (flat_allocs f al) (fst (ion_layout f)).

(* src/ion/mod.rs:98-104: after the allocation of bundles *)
Definition ion_finish (so : sorts) (be : benv) (f : func) (livein : nat -> nat -> bool) (s s' : brst) (st st0 st1 : ion) : option ion_states :=
  let env := be_env be in
  let! st2 := spilled_regs env st1 in
  let! q := allocate_spillslots (pe_dbg env) f (sets_of st2) 0 in let '(sp, sl, n) := q in
  let! ls := all_lists so st2 in
  let! al0 := first_allocs (pe_dbg env) (br_allocs s) in
  let! y := apply_allocations (is_aenv be f livein (mkIs s s' st st0 st1 st2 sp sl n ls al0 [] al0 [] [] 0%N)) al0 in let '(ms, al) := y in
  let! z := resolve_inserted_moves env f (io_pregs st2) al (so_moves so ms) n in let '(es, n1) := z in
  Some (mkIs s s' st st0 st1 st2 sp sl n ls al0 ms al (so_moves so ms) es n1).

(* src/ion/mod.rs:83-105 Env::init and Env::run *)
Definition ion_passes (so : sorts) (fuel : nat) (be : benv) (f : func) (lv : lvst) : top_result :=
  let env := be_env be in
  match build_liveranges be f (lv_out lv) (br_init (lv_cls lv)) with
  | None => TPanic
  | Some (inl _) => TErr ETooManyOperands
  | Some (Datatypes.inr s) =>
      match fix_multi (pe_dbg env) (pe_stack env) s with
      | None => TPanic
      | Some s' =>
          match merge_vreg_bundles (pe_dbg env) (pe_stack env) f (out_pairs (br_outs s')) (br_ion s') with
          | None => TPanic
          | Some st =>
              match queue_bundles env (length (io_bundles st)) 0 st with
              | None => TPanic
              | Some st0 =>
                  match process_bundles fuel env st0 with
                  | PsTooMany => TErr ETooManyLiveRegs
                  | PsStuck | PsPanic => TPanic
                  | PsFuel => TFuel
                  | PsDone st1 =>
                      match ion_finish so be f (IonFunc.live_fn lv) s s' st st0 st1 with
                      | None => TPanic
                      | Some x => TOk (ion_output f (is_edits x) (is_allocs x) (is_total x))
                      end
                  end
              end
          end
      end
  end.

(* src/ion/mod.rs:117-119 and src/fastalloc/mod.rs:1618-1620 *)
Definition checked (fuel0 : nat) (validate : bool) (f : func) (c : cfginfo) (k : top_result) : top_result :=
  match (if validate then validate_ssa fuel0 f c else Some (Datatypes.inr tt)) with
  | None => TPanic
  | Some (inl e) => TErr (ESsaForm e)
  | Some (Datatypes.inr _) => k
  end.

(* src/ion/mod.rs:108-134 run; line 85 is compute_liveness *)
Definition ion_top (dbg : bool) (w : weights) (so : sorts) (validate : bool) (fuel0 fuel : nat) (f : func) (me : machine_env) : top_result :=
  match cfg_init fuel0 fuel0 fuel0 f with
  | None => TPanic
  | Some (inl e) => TErr (ECfg e)
  | Some (Datatypes.inr c) =>
      checked fuel0 validate f c
        match compute_liveness fuel0 dbg f (ci_post c) (repeat None (f_nvregs f)) with
        | None => TPanic
        | Some (inl _) => TErr EEntryLivein
        | Some (Datatypes.inr lv) => ion_passes so fuel (top_env dbg w me f c) f lv
        end
  end.

(* src/fastalloc/mod.rs:1611-1640 run; the only error of Env::run is TooManyLiveRegs *)
Definition fast_result (r : outcome) : top_result :=
  match r with OutOk o => TOk o | OutErr => TErr ETooManyLiveRegs | OutPanic => TPanic end.
Definition fast_top (dbg validate : bool) (fuel0 : nat) (f : func) (me : machine_env) : top_result :=
  if validate then
    match cfg_init fuel0 fuel0 fuel0 f with
    | None => TPanic
    | Some (inl e) => TErr (ECfg e)
    | Some (Datatypes.inr c) => checked fuel0 true f c (fast_result (fast_run dbg f me))
    end
  else fast_result (fast_run dbg f me).

(* src/lib.rs:1720-1751 RegallocOptions; src/lib.rs:1684-1700 run *)
Inductive algorithm := Ion | Fast.
Record options := mkOpts { op_algorithm : algorithm; op_validate : bool }.
Definition run (dbg : bool) (w : weights) (so : sorts) (fuel0 fuel : nat) (f : func) (me : machine_env) (o : options) : top_result :=
  match op_algorithm o with
  | Ion => ion_top dbg w so (op_validate o) fuel0 fuel f me
  | Fast => fast_top dbg (op_validate o) fuel0 f me
  end.
