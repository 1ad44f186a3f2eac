(* The client interface (trait Function), decoded allocations and operands, and
   program points, as used by the higher-level parts of the model.
   Model file: definitions only.

   Simplifications.  Block and instruction indices are natural numbers (the
   code uses u32 newtypes; PropEnc shows that they are faithful below 2^31 resp.
   2^30).  Operands and allocations are kept in decoded form: C04 and C05 show
   that the packed form carries the same information and that equality of packed
   words is equality of the decoded values.  A client function is any record of
   total functions; the methods are pure. *)
From Coq Require Import NArith List Bool Arith.
From Verif Require Import Enc PRegSet.
Import ListNotations.

(* src/lib.rs:1066-1208 struct Allocation, decoded *)
Inductive aloc := ANone | AReg (r : preg) | AStack (s : spillslot).
Definition aloc_eqb (a b : aloc) : bool :=
  match a, b with
  | ANone, ANone => true
  | AReg r, AReg s => N.eqb r s
  | AStack r, AStack s => N.eqb r s
  | _, _ => false
  end.
(* src/lib.rs:1163-1170 Allocation::as_reg *)
Definition aloc_as_reg (a : aloc) : option preg := match a with AReg r => Some r | _ => None end.
(* src/lib.rs:1132-1152 *)
Definition aloc_is_none (a : aloc) : bool := match a with ANone => true | _ => false end.
Definition aloc_is_reg (a : aloc) : bool := match a with AReg _ => true | _ => false end.
Definition aloc_is_stack (a : aloc) : bool := match a with AStack _ => true | _ => false end.

(* src/lib.rs:658-1027 struct Operand, decoded *)
Record oper := mkOper { o_vreg : vreg; o_con : constraint; o_kind : okind; o_pos : opos }.
Definition is_use (o : oper) : bool := match o_kind o with Use => true | Def => false end.
Definition is_def (o : oper) : bool := match o_kind o with Use => false | Def => true end.
Definition is_early (o : oper) : bool := match o_pos o with Early => true | Late => false end.
Definition is_late (o : oper) : bool := match o_pos o with Early => false | Late => true end.
Definition is_reuse (o : oper) : bool := match o_con o with CReuse _ => true | _ => false end.
(* src/lib.rs:1008-1013 Operand::as_fixed_nonallocatable *)
Definition o_fixed_nonalloc (o : oper) : option preg :=
  match o_con o with
  | CFixed r => if N.eqb (vreg_num (o_vreg o)) VREG_MAX then Some r else None
  | _ => None
  end.

(* src/lib.rs:1216-1355 trait Function *)
Record func := mkFunc {
  f_ninsts : nat;                               (* 1222 num_insts *)
  f_nblocks : nat;                              (* 1225 num_blocks *)
  f_entry : nat;                                (* 1228 entry_block *)
  f_insns : nat -> nat * nat;                   (* 1231 block_insns: from, to *)
  f_succs : nat -> list nat;                    (* 1234 block_succs *)
  f_preds : nat -> list nat;                    (* 1237 block_preds *)
  f_params : nat -> list vreg;                  (* 1240 block_params *)
  f_is_ret : nat -> bool;                       (* 1243 is_ret *)
  f_is_branch : nat -> bool;                    (* 1247 is_branch *)
  f_bargs : nat -> nat -> nat -> list vreg;     (* 1253 branch_blockparams block insn succ_idx *)
  f_operands : nat -> list oper;                (* 1260 inst_operands *)
  f_clobbers : nat -> pregset;                  (* 1292 inst_clobbers *)
  f_nvregs : nat;                               (* 1295 num_vregs *)
  f_spillslot_size : regclass -> N;             (* 1328 spillslot_size *)
  f_named_by_last : bool;                       (* 1334-1336 multi_spillslot_named_by_last_slot *)
  f_multi_defs : bool                           (* 1352-1354 allow_multiple_vreg_defs *)
}.

(* src/lib.rs:1377-1413 ProgPoint, as its bits; C06 shows that the encoding is
   this one for instruction indices below 2^31 *)
Notation ppt := nat (only parsing).
Definition p_before (i : nat) : ppt := 2 * i.
Definition p_after (i : nat) : ppt := 2 * i + 1.

(* [start..end] over naturals *)
Definition span (r : nat * nat) : list nat := seq (fst r) (snd r - fst r).
