(* What a function must be like for a run of all passes. *)
From Coq Require Import NArith List Bool Arith Sorted Permutation.
From Verif Require Import Enc PRegSet PRegSetSpec RegTraversalSpec GraphSpec SsaSpec Func Vecs IndexSet Ranges RangesSpec Ion PRegs PRegsSpec Spill SpillSpec Process ProcessSpec LivenessSpec LiveRanges LiveRangesSpec MultiFixed MultiFixedSpec MultiFixedFunc PropMultiFixed ResolveMovesSpec Apply ApplySpec.
Import ListNotations.
Open Scope nat_scope.

(* Two operands of a vreg that count after an instruction are not in fixed registers.
   (The allocator would fill the registers of such uses after the instruction,
   C54_late_refuted.) *)
Definition late_apart (f : func) : Prop :=
  forall i j k a b r, In i (all_insts f) -> op_at f i j a -> op_at f i k b -> j <> k -> vnum (o_vreg a) = vnum (o_vreg b) ->
  point_of f i a = p_after i -> point_of f i b = p_after i -> o_con a <> CFixed r.

(* [be] is what is read of the machine and the control flow, [L] the vregs that are
   live out of blocks, [livein] the test for live-in vregs, [cls] the classes of vregs,
   [name] the vreg of a number, [B] a bound of the sizes of slots. *)
Record func_given (be : benv) (f : func) (L : nat -> nat -> Prop) (livein : nat -> nat -> bool) (cls : list (option regclass)) (name : nat -> vreg) (B : N) : Prop := {
  (* the function *)
  fv_flow : flow_ok f;
  fv_names : names_ok f name;
  fv_regs : regs_ok f;
  fv_operands : forall i, In i (all_insts f) -> (N.of_nat (length (f_operands f i)) <= 65536)%N;
  fv_none : forall i, ~ In i (all_insts f) -> f_operands f i = [];
  fv_fixed : fixed_distinct f;
  fv_limits : MultiFixedFunc.limits_fit f;
  fv_late : late_apart f;
  (* fixed registers have the classes of their vregs and are no scratch registers; those
     outside of the allocator's reach are not used otherwise *)
  fv_fixed_class : forall i k o r, In i (all_insts f) -> op_at f i k o -> o_con o = CFixed r ->
    exists c, vreg_class (o_vreg o) = Some c /\ preg_class r = Some c /\ ~ dedicated (be_env be) c r;
  fv_nonalloc : forall i o r, In i (all_insts f) -> In o (f_operands f i) -> o_fixed_nonalloc o = Some r -> (r < 256)%N /\
    (forall c, ~ allocatable (be_env be) c r) /\ forall j k o', In j (all_insts f) -> op_at f j k o' -> o_con o' <> CFixed r;
  (* liveness *)
  fv_fresh : defs_fresh f L;
  fv_livein : livein_ok f L livein;
  fv_cls : length cls = f_nvregs f /\ forall v, v < f_nvregs f -> (exists p, occupies f L v p) -> exists c, nth_error cls v = Some (Some c) /\ vreg_class (name v) = Some c;
  (* the machine *)
  fv_benv : benv_ok be f;
  fv_penv : penv_ok (be_env be);
  fv_fits : func_fits (be_env be) f cls;
  fv_apart : forall c r, ~ (env_regs (preferred_regs_by_class (pe_menv (be_env be))) c r /\ env_regs (non_preferred_regs_by_class (pe_menv (be_env be))) c r);
  fv_three : length (scratch_by_class (pe_menv (be_env be))) = 3;
  fv_scratch : forall c r, dedicated (be_env be) c r -> (r < 256)%N /\ preg_class r = Some c /\ pe_stack (be_env be) r = false /\ ~ allocatable (be_env be) c r;
  fv_blocks : forall i b, pe_insn_block (be_env be) i = Some b <-> inst_in f b i;
  (* sizes of slots *)
  fv_sizes : forall v c, v < f_nvregs f -> vreg_class (name v) = Some c ->
    (exists r, allocatable (be_env be) c r) /\ power_of_two (f_spillslot_size f c) /\ (f_spillslot_size f c <= B)%N;
  fv_room : (2 * N.of_nat (f_nvregs f) * B + 12 * B < SPILLSLOT_MAX)%N
}.

(* The same in terms of the function and the machine only: what the caller has to
   see to.  Liveness is a matter of paths. *)
Record fn_given (env : penv) (f : func) (name : nat -> vreg) (B : N) : Prop := {
  (* the function: every block can be reached, every vreg is defined once and has a class *)
  fn_flow : flow_ok f;
  fn_reach : forall b, b < f_nblocks f -> reachable (f_succs f) (f_entry f) b;
  fn_names : names_ok f name;
  fn_single : single_defs f;
  fn_class : forall v, v < f_nvregs f -> vreg_class (name v) <> None;
  (* a vreg that is defined early by the first instruction of a block does not occupy
     the end of the block laid out before (else its live ranges there become one,
     vf in PropLiveRanges) *)
  fn_first : forall b v q, b < f_nblocks f -> defs_at f b v (entry_of f b) -> S q = entry_of f b -> ~ occupies f (fun b v => live_out f b (N.of_nat v)) v q;
  (* instructions are in blocks *)
  fn_insts : pe_ninsts env = f_ninsts f /\ forall i, i < f_ninsts f <-> In i (all_insts f);
  fn_none : forall i, ~ In i (all_insts f) -> f_operands f i = [];
  fn_operands : forall i, In i (all_insts f) -> (N.of_nat (length (f_operands f i)) <= 65536)%N;
  (* constraints *)
  fn_regs : regs_ok f;
  fn_fixed : fixed_distinct f;
  fn_limits : MultiFixedFunc.limits_fit f;
  fn_late : late_apart f;
  fn_limit : forall i o n, In i (all_insts f) -> In o (f_operands f i) -> o_con o = CLimit n -> (0 < n < 256)%N;
  fn_fixed_class : forall i k o r, In i (all_insts f) -> op_at f i k o -> o_con o = CFixed r -> r <> preg_invalid /\
    exists c, vreg_class (o_vreg o) = Some c /\ preg_class r = Some c /\ ~ dedicated env c r;
  fn_nonalloc : forall i o r, In i (all_insts f) -> In o (f_operands f i) -> o_fixed_nonalloc o = Some r -> (r < 256)%N /\
    (forall c, ~ allocatable env c r) /\ forall j k o', In j (all_insts f) -> op_at f j k o' -> o_con o' <> CFixed r;
  (* the machine *)
  fn_menv : forall c, env_ok (pe_menv env) c;
  fn_stack : forall c r, allocatable env c r -> pe_stack env r = false;
  fn_apart : forall c r, ~ (env_regs (preferred_regs_by_class (pe_menv env)) c r /\ env_regs (non_preferred_regs_by_class (pe_menv env)) c r);
  fn_three : length (scratch_by_class (pe_menv env)) = 3;
  fn_scratch : forall c r, dedicated env c r -> (r < 256)%N /\ preg_class r = Some c /\ pe_stack env r = false /\ ~ allocatable env c r;
  (* a class in use has a register below all limits *)
  fn_avail : forall v c, v < f_nvregs f -> vreg_class (name v) = Some c ->
    exists r, allocatable env c r /\ forall i o n, In i (all_insts f) -> In o (f_operands f i) -> o_con o = CLimit n -> (preg_hw_enc r < n)%N;
  (* sizes of slots *)
  fn_sizes : forall v c, v < f_nvregs f -> vreg_class (name v) = Some c -> power_of_two (f_spillslot_size f c) /\ (f_spillslot_size f c <= B)%N;
  fn_room : (2 * N.of_nat (f_nvregs f) * B + 12 * B < SPILLSLOT_MAX)%N
}.
