(* What a caller of the allocators has to see to, beside what they check. *)
From Coq Require Import NArith List Bool Arith Sorted Permutation.
From Verif Require Import Enc PRegSet PRegSetSpec RegTraversalSpec GraphSpec SsaSpec CfgSpec Func Vecs Ranges Ion Spill SpillSpec LivenessSpec LiveRanges LiveRangesSpec MultiFixedSpec MultiFixedFunc PropMultiFixed ResolveMoves Apply ApplySpec IonSpec CheckerSpec Cfg PostorderProofs Process Output FastallocSpec Top.
Import ListNotations.
Open Scope nat_scope.

(* what slice::sort_unstable_by_key promises *)
Definition sorts_ok (so : sorts) : Prop :=
  (forall l, Permutation l (so_ranges so l) /\ StronglySorted (fun a b => cr_from (fst a) <= cr_from (fst b)) (so_ranges so l)) /\
  (forall l, Permutation l (so_moves so l) /\ StronglySorted (fun a b => (mkey_u64 (im_key a) <= mkey_u64 (im_key b))%N) (so_moves so l)).

(* allocatable registers of a class, and the dedicated scratch register *)
Definition reg_of (me : machine_env) (c : regclass) (r : preg) : Prop :=
  env_regs (preferred_regs_by_class me) c r \/ env_regs (non_preferred_regs_by_class me) c r.
Definition scratch_of (me : machine_env) (c : regclass) (r : preg) : Prop :=
  nth_error (scratch_by_class me) (N.to_nat (class_u8 c)) = Some (Some r).

(* ---------------- the main allocator ---------------- *)
(* The blocks lie one after the other and all can be reached. *)
Record blocks_given (f : func) : Prop := {
  bg_nonempty : forall b, b < f_nblocks f -> fst (f_insns f b) < snd (f_insns f b);
  bg_layout : in_layout f;
  bg_ninsts : forall b, b < f_nblocks f -> snd (f_insns f b) <= f_ninsts f;
  bg_insts : forall i, i < f_ninsts f <-> In i (all_insts f);
  bg_preds : forall b s, s < f_nblocks f -> (In b (f_preds f s) <-> b < f_nblocks f /\ In s (f_succs f b));
  bg_once : forall b, b < f_nblocks f -> NoDup (f_succs f b);
  bg_reach : forall b, b < f_nblocks f -> reachable (f_succs f) (f_entry f) b;
  (* a block with successors ends in a branch; it clobbers nothing if moves may be
     inserted before it *)
  bg_branch : forall b s, b < f_nblocks f -> In s (f_succs f b) -> f_is_ret f (last_of f b) = false /\ f_is_branch f (last_of f b) = true;
  bg_clobbers : forall b s, b < f_nblocks f -> f_succs f b = [s] -> 1 < ways_in f s -> forall r, (r < 256)%N -> ps_contains (f_clobbers f (last_of f b)) r = false;
  bg_args_class : forall b k s, b < f_nblocks f -> nth_error (f_succs f b) k = Some s -> map vreg_class (f_bargs f b (last_of f b) k) = map vreg_class (f_params f s);
  bg_small : (N.of_nat (f_nvregs f) <= VREG_MAX)%N /\ (N.of_nat (f_nblocks f) < 2 ^ 32)%N
}.
Record ion_caller (me : machine_env) (f : func) (name : nat -> vreg) (B : N) : Prop := {
  cl_blocks : blocks_given f;
  (* vregs have one name and a class wherever they are mentioned *)
  cl_names : names_ok f name;
  cl_class : forall v, v < f_nvregs f -> vreg_class (name v) <> None;
  (* a vreg that is defined early by the first instruction of a block does not occupy
     the end of the block laid out before *)
  cl_first : forall b v q, b < f_nblocks f -> defs_at f b v (entry_of f b) -> S q = entry_of f b -> ~ occupies f (fun b v => live_out f b (N.of_nat v)) v q;
  (* operands *)
  cl_none : forall i, ~ In i (all_insts f) -> f_operands f i = [];
  cl_operands : forall i, In i (all_insts f) -> (N.of_nat (length (f_operands f i)) <= 65536)%N;
  cl_reuse : forall i k o n, nth_error (f_operands f i) k = Some o -> o_con o = CReuse n ->
    is_def o = true /\ is_late o = true /\ exists u, nth_error (f_operands f i) (N.to_nat n) = Some u /\ is_use u = true /\ is_early u = true /\ o_fixed_nonalloc u = None /\
      vreg_class (o_vreg u) = vreg_class (o_vreg o);
  cl_reuse_one : forall i j k o p, nth_error (f_operands f i) j = Some o -> nth_error (f_operands f i) k = Some p -> is_reuse o = true -> is_reuse p = true -> j = k;
  cl_regs : regs_ok f;
  cl_fixed : fixed_distinct f;
  cl_limits : MultiFixedFunc.limits_fit f;
  cl_late : late_apart f;
  cl_limit : forall i o n, In i (all_insts f) -> In o (f_operands f i) -> o_con o = CLimit n -> (0 < n < 256)%N;
  cl_fixed_class : forall i k o r, In i (all_insts f) -> op_at f i k o -> o_con o = CFixed r -> r <> preg_invalid /\
    exists c, vreg_class (o_vreg o) = Some c /\ preg_class r = Some c /\ ~ scratch_of me c r;
  cl_nonalloc : forall i o r, In i (all_insts f) -> In o (f_operands f i) -> o_fixed_nonalloc o = Some r -> (r < 256)%N /\
    (forall c, ~ reg_of me c r) /\ forall j k o', In j (all_insts f) -> op_at f j k o' -> o_con o' <> CFixed r;
  (* the machine *)
  cl_menv : forall c, env_ok me c;
  cl_stack : forall r, In r (fixed_stack_slots me) -> (r < 256)%N /\ forall c, ~ reg_of me c r;
  cl_apart : forall c r, ~ (env_regs (preferred_regs_by_class me) c r /\ env_regs (non_preferred_regs_by_class me) c r);
  cl_three : length (scratch_by_class me) = 3;
  cl_scratch : forall c r, scratch_of me c r -> (r < 256)%N /\ preg_class r = Some c /\ ~ In r (fixed_stack_slots me) /\ ~ reg_of me c r;
  (* a class in use has a register below all limits *)
  cl_avail : forall v c, v < f_nvregs f -> vreg_class (name v) = Some c ->
    exists r, reg_of me c r /\ forall i o n, In i (all_insts f) -> In o (f_operands f i) -> o_con o = CLimit n -> (preg_hw_enc r < n)%N;
  (* sizes of slots *)
  cl_sizes : forall v c, v < f_nvregs f -> vreg_class (name v) = Some c -> power_of_two (f_spillslot_size f c) /\ (f_spillslot_size f c <= B)%N;
  cl_room : (2 * N.of_nat (f_nvregs f) * B + 12 * B < SPILLSLOT_MAX)%N
}.
(* What validation would check and the allocator relies on. *)
Definition once_ok (f : func) : Prop :=
  single_defs f /\ args_match f /\
  forall i u d, In u (real_ops (f_operands f i)) -> In d (real_ops (f_operands f i)) -> is_use u = true -> is_def d = true -> vreg_num (o_vreg u) <> vreg_num (o_vreg d).

(* An argument of a branch is defined in its block or in a block that every path to it
   goes through.  Validation does not look at this. *)
Definition args_dominated (f : func) : Prop :=
  forall b k s v, b < f_nblocks f -> nth_error (f_succs f b) k = Some s -> In v (f_bargs f b (last_of f b) k) ->
    (exists v', In v' (block_defs f b) /\ vreg_num v' = vreg_num v) \/ defined_above f b v.

(* ---------------- the single-pass allocator ---------------- *)
Record fast_caller (f : func) : Prop := {
  fc_entry : f_entry f = 0;
  fc_nonempty : forall b, b < f_nblocks f -> fst (f_insns f b) < snd (f_insns f b);
  fc_range : forall b, b < f_nblocks f -> snd (f_insns f b) <= f_ninsts f;
  fc_order : forall b c, b < c -> c < f_nblocks f -> snd (f_insns f b) <= fst (f_insns f c);
  fc_succs : forall b s, b < f_nblocks f -> In s (f_succs f b) -> s < f_nblocks f;
  fc_once : forall b, b < f_nblocks f -> NoDup (f_succs f b);
  fc_preds : forall b s, s < f_nblocks f -> (In b (f_preds f s) <-> b < f_nblocks f /\ In s (f_succs f b));
  fc_branch_last : forall b, b < f_nblocks f -> f_succs f b <> [] -> f_is_branch f (last_inst f b) = true;
  fc_branch_defs : forall b, b < f_nblocks f -> f_is_branch f (last_inst f b) = true -> inst_defs f (last_inst f b) = [];
  fc_args : forall b k s, b < f_nblocks f -> nth_error (f_succs f b) k = Some s -> map vreg_class (f_bargs f b (last_inst f b) k) = map vreg_class (f_params f s);
  (* vregs *)
  fc_nvregs : (N.of_nat (f_nvregs f) <= VREG_MAX)%N;
  fc_class : forall v, In v (all_defs f) -> vreg_class v <> None;
  fc_known : forall b i v, b < f_nblocks f -> In i (span (f_insns f b)) -> real_use f i v -> N.to_nat (vreg_num v) < f_nvregs f /\
    forall v', In v' (all_defs f) -> vreg_num v' = vreg_num v -> v' = v;
  (* a block comes after those that every path to it goes through *)
  fc_dom : forall a b, a < f_nblocks f -> b < f_nblocks f -> a <> b -> reachable (f_succs f) (f_entry f) b -> dom (f_succs f) (f_entry f) a b -> a < b;
  fc_bargs : forall b v, b < f_nblocks f -> In v (out_args f b) -> has_value f b (last_inst f b) v;
  (* operands *)
  fc_clob : forall i, ps_wf (f_clobbers f i);
  fc_ops : forall b i, b < f_nblocks f -> In i (span (f_insns f b)) -> ops_ok (f_clobbers f i) (f_operands f i);
  fc_stack_defs : forall a i o, a < f_nblocks f -> In i (span (f_insns f a)) -> In o (f_operands f i) -> is_def o = true ->
    o_con o = CStack \/ o_con o = CAny -> (exists c, c < f_nblocks f /\ c <> a /\ used_in f c (o_vreg o)) \/ ~ used_in f a (o_vreg o)
}.

(* ---------------- what the caller gets ---------------- *)
(* The operand [k] of instruction [i] has a location that meets its constraint; it is of
   the class of the vreg, or a slot that the output accounts for. *)
Definition alloc_ok (me : machine_env) (f : func) (out : output) (i k : nat) (op : oper) : Prop :=
  exists al a, inst_allocs out i = Some al /\ length al = length (f_operands f i) /\ nth_error al k = Some a /\ con_ok (fixed_stack_slots me) al (o_con op) a /\
    (o_fixed_nonalloc op = None -> (exists r, a = AReg r /\ preg_class r = vreg_class (o_vreg op)) \/ exists s, a = AStack s /\ N.to_nat s < out_num_spillslots out).
(* the meaning of the errors of CFGInfo::init *)
Definition cfg_reason (f : func) (e : cfg_error) : Prop :=
  match e with
  | EBB b => f_nblocks f <= b /\ (b = f_entry f \/ exists a, a < f_nblocks f /\ In b (f_succs f a))
  | ECritEdge p b => b < f_nblocks f /\ critical f p b
  | EBranchArg i => exists b, b < f_nblocks f /\ i = last_inst f b /\ bad_branch f b
  end.
(* the registers and fixed stack slots of a machine *)
Definition machine (me : machine_env) : penv :=
  mkPenv false me (fun r => existsb (N.eqb r) (fixed_stack_slots me)) 0 (fun _ => None) (fun _ => None) (fun _ => None) 0%N N.add (fun w => w) (fun w => w) (fun _ => 0%N).
(* bounds for the loops before the allocation of bundles *)
Definition fuel_for (f : func) : nat := po_fuel (f_nblocks f) (f_succs f) + 3 * f_nblocks f + 2 + f_nblocks f * f_nvregs f.
