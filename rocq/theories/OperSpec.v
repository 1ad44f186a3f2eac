(* What the allocations of operands must be like. *)
From Coq Require Import NArith List Bool Arith.
From Verif Require Import Enc Func Requirement RequirementSpec Process ResolveMovesSpec.
Import ListNotations.
Open Scope nat_scope.

(* the place that the bits of an allocation name *)
Definition place (is_stack : preg -> bool) (a : N) (l : loc) : Prop :=
  (exists r, (r < 256)%N /\ a = regN r /\ l = if is_stack r then LFixedStack r else LReg r) \/ exists s, a = slotN s /\ l = LSpill s.

(* another operand reuses this one *)
Definition is_reused (f : func) (i k : nat) : Prop := exists j o n, nth_error (f_operands f i) j = Some o /\ o_con o = CReuse n /\ N.to_nat n = k.

(* The allocation of operand [k] of instruction [i]: it is of the vreg's class, slots
   are below [n], and its constraint holds.  An operand outside of the allocator's
   reach has the register that it names. *)
Definition operand_met (env : penv) (f : func) (n : N) (al : nat -> nat -> N) (i k : nat) (o : oper) : Prop :=
  match o_fixed_nonalloc o with
  | Some r => al i k = regN r
  | None => (exists c, vreg_class (o_vreg o) = Some c /\ loc_of env c n (al i k)) /\
      (exists l, place (pe_stack env) (al i k) l /\ con_admits (pe_stack env) (o_con o) l) /\
      forall m, o_con o = CReuse m -> al i k = al i (N.to_nat m)
  end.
