(* Specification: an instruction has no register left for an operand. *)
From Coq Require Import NArith List Bool Arith.
From Verif Require Import Enc PRegSet Func Vecs Ranges Ion PRegs RequirementSpec Process ProcessSpec LiveRanges LiveRangesSpec MultiFixedFunc ProcessEnd.
Import ListNotations.
Open Scope nat_scope.

(* An operand needs its place before the instruction [i] or after it, or at both
   points: uses come from before, definitions last to after, and early definitions
   and late uses are there at both. *)
Definition held_before (f : func) (i : nat) (o : oper) : Prop := o_kind o = Use \/ point_of f i o = p_before i.
Definition held_after (f : func) (i : nat) (o : oper) : Prop := o_kind o = Def \/ point_of f i o = p_after i.
Definition held_together (f : func) (i : nat) (o o' : oper) : Prop := (held_before f i o /\ held_before f i o') \/ (held_after f i o /\ held_after f i o').

(* the register suits the operand *)
Definition can_be_in (env : penv) (o : oper) (r : preg) : Prop := vreg_class (o_vreg o) = preg_class r /\ con_admits (pe_stack env) (o_con o) (reg_loc env (reg_index r)).

(* The register [r] is reserved where the operand [k] of the instruction needs its
   place: it is clobbered, or some other operand is fixed to it. *)
Definition reserved_for (f : func) (i k : nat) (o : oper) (r : preg) : Prop :=
  (held_after f i o /\ ps_contains (f_clobbers f i) r = true) \/
  (held_before f i o /\ exists j o', j <> k /\ op_at f i j o' /\ o_con o' = CFixed r /\ o_kind o' = Use /\ o_pos o' = Early).

(* An operand that must be in a register, and all registers it can be in are
   reserved or can each be needed by another operand of the instruction, different
   ones for different registers.  These demand at least as much. *)
Definition no_room (env : penv) (f : func) : Prop :=
  exists i k o c occ, In i (all_insts f) /\ op_at f i k o /\ o_con o <> CAny /\ o_con o <> CStack /\ vreg_class (o_vreg o) = Some c /\
  NoDup (map fst occ) /\ NoDup (k :: map snd occ) /\
  (forall r j, In (r, j) occ -> exists o', op_at f i j o' /\ o_con o' <> CAny /\ as_demanding (o_con o) (o_con o') /\ can_be_in env o' r /\ held_together f i o o') /\
  (forall r, allocatable env c r \/ o_con o = CFixed r -> can_be_in env o r -> In r (map fst occ) \/ reserved_for f i k o r).

(* A condition that excludes this: for every operand that must be in a register there
   are more registers left than other operands that could be in one of them. *)
Definition rival (env : penv) (f : func) (i k : nat) (o : oper) (rs : list preg) (j : nat) : Prop :=
  j <> k /\ exists o', op_at f i j o' /\ o_con o' <> CAny /\ as_demanding (o_con o) (o_con o') /\ held_together f i o o' /\ exists r, In r rs /\ can_be_in env o' r.
Definition enough_regs (env : penv) (f : func) : Prop :=
  forall i k o c, In i (all_insts f) -> op_at f i k o -> o_con o <> CAny -> o_con o <> CStack -> vreg_class (o_vreg o) = Some c ->
  exists rs, NoDup rs /\ (forall r, In r rs -> (allocatable env c r \/ o_con o = CFixed r) /\ can_be_in env o r /\ ~ reserved_for f i k o r) /\
    forall js, NoDup js -> (forall j, In j js -> rival env f i k o rs j) -> length js < length rs.
