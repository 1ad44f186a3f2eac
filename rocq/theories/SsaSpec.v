(* Specification vocabulary for SSA form. *)
From Coq Require Import NArith List Bool Arith.
From Verif Require Import Enc Func GraphSpec.
Import ListNotations.

(* the definitions of instruction [i], and of block [b] with its parameters *)
Definition inst_defs (f : func) (i : nat) : list vreg := map o_vreg (filter is_def (f_operands f i)).
Definition block_defs (f : func) (b : nat) : list vreg :=
  f_params f b ++ flat_map (inst_defs f) (span (f_insns f b)).
Definition all_defs (f : func) : list vreg := flat_map (block_defs f) (seq 0 (f_nblocks f)).

(* every vreg number has one definition, and is in range *)
Definition single_defs (f : func) : Prop :=
  NoDup (map vreg_num (all_defs f)) /\
  forall v, In v (all_defs f) -> N.to_nat (vreg_num v) < f_nvregs f.

(* [v] is defined in block [b] before instruction [i] *)
Definition defined_before (f : func) (b i : nat) (v : vreg) : Prop :=
  In v (f_params f b) \/ exists j, In j (span (f_insns f b)) /\ j < i /\ In v (inst_defs f j).

(* [v]'s number is defined in another block that every walk from the entry to
   [b] passes through; [b] is reachable *)
Definition defined_above (f : func) (b : nat) (v : vreg) : Prop :=
  exists a v', a < f_nblocks f /\ a <> b /\ In v' (block_defs f a) /\ vreg_num v' = vreg_num v /\
    reachable (f_succs f) (f_entry f) b /\ dom (f_succs f) (f_entry f) a b.

(* operands that are real uses: not fixed uses of a non-allocatable register *)
Definition real_use (f : func) (i : nat) (v : vreg) : Prop :=
  exists o, In o (f_operands f i) /\ is_use o = true /\ o_fixed_nonalloc o = None /\ o_vreg o = v.

Definition uses_dominated (f : func) : Prop :=
  forall b i v, b < f_nblocks f -> In i (span (f_insns f b)) -> real_use f i v ->
    defined_before f b i v \/ defined_above f b v.

(* the last instruction of a block is a branch or a return and passes as many
   arguments as the successors have parameters; no other instruction is one *)
Definition terminated (f : func) : Prop :=
  forall b i, b < f_nblocks f -> In i (span (f_insns f b)) ->
    if i =? snd (f_insns f b) - 1 then
      (f_is_branch f i = true \/ f_is_ret f i = true) /\
      (f_is_branch f i = true -> forall k s, nth_error (f_succs f b) k = Some s ->
         length (f_params f s) = length (f_bargs f b i k))
    else f_is_branch f i = false /\ f_is_ret f i = false.

Definition ssa_ok (f : func) : Prop :=
  single_defs f /\ uses_dominated f /\ terminated f /\ f_params f (f_entry f) = [].
