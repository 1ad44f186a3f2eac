(* Specification vocabulary for the completeness of the checker. *)
From Coq Require Import NArith List Bool Arith.
From Verif Require Import Enc PRegSet Func Output Checker CheckerSpec.
Import ListNotations.

(* every block but the entry has a predecessor with a smaller index *)
Definition in_order (f : func) : Prop :=
  forall b, b < f_nblocks f -> b <> f_entry f -> exists a, a < b /\ In b (f_succs f a).

(* on no path does the function read a register that has no value yet *)
Definition reads_defined (f : func) : Prop :=
  forall (V W : Type) (some_value : V) (sem : W -> nat -> list V -> (nat -> V) * W) pick n w,
  vrun sem pick f n (f_entry f) (fun _ => None) w <> None.

(* instruction [i] lies in a block *)
Definition in_block (f : func) (i : nat) : Prop := exists b, b < f_nblocks f /\ In i (span (f_insns f b)).
(* every operand in a block has a location that meets its constraint; late operands of an
   instruction with a reused input are exempt, the checker skips them too *)
Definition operands_met (fixed_stack : list preg) (f : func) (o : output) : Prop :=
  forall i al op a, in_block f i -> inst_allocs o i = Some al -> In (op, a) (combine (f_operands f i) al) ->
  (o_pos op = Early \/ existsb is_reuse (f_operands f i) = false) ->
  a <> ANone /\ con_ok_checked fixed_stack al (o_con op) a.

(* no inserted move goes from stack to stack *)
Definition no_stack_moves (fixed_stack : list preg) (o : output) : Prop :=
  forall p ed, In (p, ed) (out_edits o) -> ~ (on_stack fixed_stack (e_from ed) /\ on_stack fixed_stack (e_to ed)).
