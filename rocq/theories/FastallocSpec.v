(* Input conditions for the single-pass allocator. *)
From Coq Require Import NArith List Bool Arith.
From Verif Require Import Enc PRegSet PRegSetSpec Func GraphSpec SsaSpec LivenessSpec Output CheckerSpec.
Import ListNotations.
Open Scope nat_scope.

(* ---------------- the machine ---------------- *)
(* the allocatable registers of one class *)
Definition class_reg (me : machine_env) (c : regclass) (r : preg) : Prop :=
  exists s, (nth_error (preferred_regs_by_class me) (N.to_nat (class_u8 c)) = Some s \/
             nth_error (non_preferred_regs_by_class me) (N.to_nat (class_u8 c)) = Some s) /\ ps_contains s r = true.
Record menv_ok (me : machine_env) : Prop := {
  mo_pref : length (preferred_regs_by_class me) = 3;
  mo_nonpref : length (non_preferred_regs_by_class me) = 3;
  mo_scratch : length (scratch_by_class me) = 3;
  mo_wf : forall s, In s (preferred_regs_by_class me) \/ In s (non_preferred_regs_by_class me) -> ps_wf s;
  (* the registers listed for a class are of this class *)
  mo_class : forall c r, class_reg me c r -> preg_class r = Some c;
  (* registers that stand for stack slots are not allocatable *)
  mo_fixed : forall r, In r (fixed_stack_slots me) -> (r < 256)%N /\ r <> preg_invalid /\ forall c, ~ class_reg me c r;
  (* a dedicated scratch register is a register that is not allocatable *)
  mo_ded : forall r, In (Some r) (scratch_by_class me) -> (r < 256)%N /\ ~ In r (fixed_stack_slots me) /\ forall c, ~ class_reg me c r
}.

(* ---------------- where a vreg is defined and used ---------------- *)
Definition home (f : func) (v : vreg) (a : nat) : Prop := a < f_nblocks f /\ In v (block_defs f a).
Definition last_inst (f : func) (b : nat) : nat := snd (f_insns f b) - 1.
(* [v] is read in block [b] *)
Definition used_in (f : func) (b : nat) (v : vreg) : Prop :=
  (exists i, In i (span (f_insns f b)) /\ real_use f i v) \/ In v (out_args f b).
(* at instruction [i] of block [b] [v] has a value on every path: it is defined
   earlier in [b], or in a block that dominates [b].  The second block also has
   the smaller number: the allocator goes through the blocks from the last to the
   first and takes a vreg's first use in this order to be its last one. *)
Definition has_value (f : func) (b i : nat) (v : vreg) : Prop :=
  defined_before f b i v \/ exists a, a < b /\ In v (block_defs f a) /\ dom (f_succs f) (f_entry f) a b.
(* [b] is the only predecessor of [s] *)
Definition only_pred (f : func) (b s : nat) : Prop := forall b', b' < f_nblocks f -> In s (f_succs f b') -> b' = b.

(* ---------------- the operands of one instruction ---------------- *)
Record ops_ok (clob : pregset) (ops : list oper) : Prop := {
  (* a fixed register has the class of the vreg *)
  oo_fixed : forall o r, In o ops -> o_con o = CFixed r -> (r < 256)%N /\ preg_class r = vreg_class (o_vreg o);
  (* only an early use may be fixed to a register that the instruction clobbers *)
  oo_clob : forall o r, In o ops -> o_con o = CFixed r -> is_use o && is_early o = false -> o_fixed_nonalloc o = None -> ps_contains clob r = false;
  (* reuse: a late definition reuses an early use that is not fixed; each use is
     reused once; the classes agree *)
  oo_reuse : forall k o i, nth_error ops k = Some o -> o_con o = CReuse i ->
    is_def o = true /\ is_late o = true /\
    exists u, nth_error ops (N.to_nat i) = Some u /\ is_use u = true /\ is_early u = true /\
      (forall r, o_con u <> CFixed r) /\ vreg_class (o_vreg u) = vreg_class (o_vreg o);
  oo_reuse_once : forall k k' o o' i, nth_error ops k = Some o -> nth_error ops k' = Some o' ->
    o_con o = CReuse i -> o_con o' = CReuse i -> k = k'
}.

(* ---------------- the function ---------------- *)
Record fast_input (f : func) : Prop := {
  fi_entry : f_entry f = 0;
  fi_some : 0 < f_nblocks f;
  fi_noparams : f_params f 0 = [];
  (* blocks are not empty and lie in the order of their numbers *)
  fi_nonempty : forall b, b < f_nblocks f -> fst (f_insns f b) < snd (f_insns f b);
  fi_range : forall b, b < f_nblocks f -> snd (f_insns f b) <= f_ninsts f;
  fi_order : forall b c, b < c -> c < f_nblocks f -> snd (f_insns f b) <= fst (f_insns f c);
  (* edges *)
  fi_succs : forall b s, b < f_nblocks f -> In s (f_succs f b) -> s < f_nblocks f;
  fi_succs_nodup : forall b, b < f_nblocks f -> NoDup (f_succs f b);
  fi_preds : forall b p, b < f_nblocks f -> In p (f_preds f b) -> p < f_nblocks f /\ In b (f_succs f p);
  (* no critical edges; a branch with register operands does not go to a block
     with other predecessors *)
  fi_critical : forall b s, b < f_nblocks f -> In s (f_succs f b) -> 1 < length (f_succs f b) -> only_pred f b s;
  fi_brops : forall b s v, b < f_nblocks f -> In s (f_succs f b) -> real_use f (last_inst f b) v -> only_pred f b s;
  (* only the last instruction of a block is a branch; it is one if there are
     successors; branches define nothing *)
  fi_branch : forall b i, b < f_nblocks f -> In i (span (f_insns f b)) -> i <> last_inst f b -> f_is_branch f i = false;
  fi_branch_last : forall b, b < f_nblocks f -> f_succs f b <> [] -> f_is_branch f (last_inst f b) = true;
  fi_branch_defs : forall b, b < f_nblocks f -> f_is_branch f (last_inst f b) = true -> inst_defs f (last_inst f b) = [];
  (* arguments match parameters in number and class *)
  fi_args : forall b k s, b < f_nblocks f -> nth_error (f_succs f b) k = Some s ->
    map vreg_class (f_bargs f b (last_inst f b) k) = map vreg_class (f_params f s);
  (* vregs *)
  fi_single : single_defs f;
  fi_nvregs : (N.of_nat (f_nvregs f) <= VREG_MAX)%N;
  fi_class : forall v, In v (all_defs f) -> vreg_class v <> None;
  fi_uses : forall b i v, b < f_nblocks f -> In i (span (f_insns f b)) -> real_use f i v -> has_value f b i v;
  fi_bargs : forall b v, b < f_nblocks f -> In v (out_args f b) -> has_value f b (last_inst f b) v;
  (* operands *)
  fi_clob : forall i, ps_wf (f_clobbers f i);
  fi_ops : forall b i, b < f_nblocks f -> In i (span (f_insns f b)) -> ops_ok (f_clobbers f i) (f_operands f i);
  (* a vreg defined into memory, or anywhere, is read in another block or not at all *)
  fi_stack_defs : forall a i o, a < f_nblocks f -> In i (span (f_insns f a)) -> In o (f_operands f i) -> is_def o = true ->
    o_con o = CStack \/ o_con o = CAny -> (exists c, c < f_nblocks f /\ c <> a /\ used_in f c (o_vreg o)) \/ ~ used_in f a (o_vreg o)
}.

(* ---------------- the output ---------------- *)
(* a location that the allocator may use: a register of the machine (allocatable,
   standing for a stack slot, or a dedicated scratch register), or a spill slot
   that the output accounts for *)
Definition place (me : machine_env) (o : output) (a : aloc) : Prop :=
  match a with
  | ANone => False
  | AReg r => (exists c, class_reg me c r) \/ In r (fixed_stack_slots me) \/ In (Some r) (scratch_by_class me)
  | AStack sl => N.to_nat sl < out_num_spillslots o
  end.
(* the points of an instruction at which an operand needs its register: an early
   definition and a late use need it throughout *)
Definition needs_at (o : oper) (p : opos) : Prop := p = o_pos o \/ (is_use o = true /\ is_late o = true) \/ (is_def o = true /\ is_early o = true).
(* two operands may be given the same register *)
Definition may_share (o o' : oper) : Prop :=
  (is_use o = true /\ is_use o' = true /\ o_vreg o = o_vreg o') \/ forall p, ~ (needs_at o p /\ needs_at o' p).
(* the allocated program reads what the original program reads, whatever the
   instructions compute, whichever way the branches go, and whatever the machine
   holds at the start *)
Definition same_reads (f : func) (o : output) : Prop :=
  forall (V W : Type) sem pick junk n (t : @store V) (w : W) evs,
    vrun sem pick f n (f_entry f) (fun _ => None) w = Some evs -> arun sem pick junk f o n (f_entry f) t w = Some evs.
