(* When the single-pass allocator can finish, and what may stop it. *)
From Coq Require Import NArith ZArith List Bool Arith.
From Verif Require Import Enc PRegSet PRegSetSpec Func GraphSpec SsaSpec LivenessSpec Output CheckerSpec FastallocSpec.
Import ListNotations.
Open Scope nat_scope.

(* ---------------- what the caller must not ask for ---------------- *)
Record fast_able (f : func) (me : machine_env) : Prop := {
  fa_class : forall b i o, b < f_nblocks f -> In i (span (f_insns f b)) -> In o (f_operands f i) -> vreg_class (o_vreg o) <> None;
  (* no operand with a limit on the register numbers *)
  fa_limit : forall b i o k, b < f_nblocks f -> In i (span (f_insns f b)) -> In o (f_operands f i) -> o_con o <> CLimit k;
  (* only an operand that must be in a register has its register reused *)
  fa_reuse : forall b i o k u, b < f_nblocks f -> In i (span (f_insns f b)) -> In o (f_operands f i) -> o_con o = CReuse k ->
    nth_error (f_operands f i) (N.to_nat k) = Some u -> o_con u = CReg;
  (* registers without an allocation are read early *)
  fa_nonalloc : forall b i o, b < f_nblocks f -> In i (span (f_insns f b)) -> In o (f_operands f i) -> o_fixed_nonalloc o <> None ->
    is_use o && is_early o = true;
  (* the counters of operands are 16 bits wide *)
  fa_count : forall b i, b < f_nblocks f -> In i (span (f_insns f b)) -> (N.of_nat (length (f_operands f i)) <= 32767)%N;
  (* there is a register for every class that is in use *)
  fa_regs : forall v c, In v (all_defs f) -> vreg_class v = Some c -> exists r, class_reg me c r;
  (* slot sizes are powers of two, and the slots of all vregs and six more for
     every block fit into the index of a slot *)
  fa_slots : exists K, (K * N.of_nat (f_nvregs f + 6 * f_nblocks f) <= SPILLSLOT_MAX)%N /\
    forall v c, In v (all_defs f) -> vreg_class v = Some c -> exists k, f_spillslot_size f c = (2 ^ k)%N /\ (2 * 2 ^ k <= K)%N
}.

(* ---------------- why it may fail ---------------- *)
(* an operand is fixed to a register that the machine does not give out, or to one
   that another operand is fixed to at the same time *)
Definition fixed_clash (me : machine_env) (ops : list oper) : Prop :=
  exists k o r, nth_error ops k = Some o /\ o_con o = CFixed r /\ o_fixed_nonalloc o = None /\
    (~ ((exists c, class_reg me c r) \/ In r (fixed_stack_slots me)) \/
     exists j o' p, nth_error ops j = Some o' /\ j <> k /\ o_con o' = CFixed r /\ needs_at o p /\ needs_at o' p).
(* operand [k] takes a register of class [c] that is not fixed; an input whose
   register is reused has that of the definition *)
Definition wants (ops : list oper) (c : regclass) (k : nat) : bool :=
  match nth_error ops k with
  | Some o =>
      match vreg_class (o_vreg o) with Some d => N.eqb (class_u8 d) (class_u8 c) | None => false end &&
      match o_con o with
      | CAny | CReg => negb (existsb (fun o' => match o_con o' with CReuse i => N.to_nat i =? k | _ => false end) ops)
      | CReuse _ => true
      | _ => false
      end
  | None => false
  end.
Definition wanted (ops : list oper) (c : regclass) : nat := length (filter (wants ops c) (seq 0 (length ops))).
(* registers of class [c] that are neither clobbered nor fixed *)
Definition spare (me : machine_env) (clob : pregset) (ops : list oper) (c : regclass) (r : preg) : Prop :=
  class_reg me c r /\ ps_contains clob r = false /\ forall o, In o ops -> o_con o <> CFixed r.
Definition has_scratch (me : machine_env) (c : regclass) : Prop :=
  exists r, nth_error (scratch_by_class me) (N.to_nat (class_u8 c)) = Some (Some r).
(* the classes that instruction [i] of block [b] moves values of: those of its
   operands and of the arguments that it passes on as the branch of [b], and any
   class if it names a register that stands for a stack slot *)
Definition concerns (f : func) (me : machine_env) (b i : nat) (c : regclass) : Prop :=
  (exists o, In o (f_operands f i) /\ (vreg_class (o_vreg o) = Some c \/ exists r, o_con o = CFixed r /\ In r (fixed_stack_slots me))) \/
  (exists r, ps_contains (f_clobbers f i) r = true /\ In r (fixed_stack_slots me)) \/
  (i = last_inst f b /\ exists v, In v (out_args f b) /\ vreg_class v = Some c).
(* the operands of such a class leave no register for moving a value from one
   stack slot to another: the spare registers, with the dedicated scratch register,
   are not more than the operands want *)
Definition few_regs (f : func) (me : machine_env) (b i : nat) : Prop :=
  exists c, concerns f me b i c /\ (exists r, class_reg me c r) /\
    forall l, NoDup l -> Forall (spare me (f_clobbers f i) (f_operands f i) c) l ->
      length l <= wanted (f_operands f i) c /\ (has_scratch me c -> length l < wanted (f_operands f i) c).
Definition stuck (f : func) (me : machine_env) : Prop :=
  exists b i, b < f_nblocks f /\ In i (span (f_insns f b)) /\ (fixed_clash me (f_operands f i) \/ few_regs f me b i).
