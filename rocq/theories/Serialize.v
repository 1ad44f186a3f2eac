(* The serializable copy of a function (src/serialize.rs:58-199).  Model file:
   definitions only.  [None] is a panic.  Serde's own encoding and the Debug
   output are left out. *)
From Coq Require Import NArith List Bool Arith.
From Verif Require Import Enc PRegSet RegTraversal Func Process.
Import ListNotations.
Open Scope nat_scope.

(* debug_value_labels (src/lib.rs:1313-1315): vreg, from, to, label; the other
   queries of the interface are the fields of Func.func *)
Definition label : Type := (vreg * nat * nat * N)%type.

(* src/serialize.rs:8-13 InstOpcode *)
Inductive opcode := Op | Ret | Branch.
Definition opcode_eqb (a b : opcode) : bool := match a, b with Op, Op | Ret, Ret | Branch, Branch => true | _, _ => false end.
(* src/serialize.rs:25-30 InstData *)
Record inst_data := mkInst { id_op : opcode; id_operands : list oper; id_clobbers : pregset }.
(* src/serialize.rs:38-53 SerializableFunction *)
Record copy := mkCopy {
  sc_env : machine_env; sc_entry : nat; sc_insts : list inst_data; sc_blocks : list (nat * nat); sc_preds : list (list nat); sc_succs : list (list nat);
  sc_params_in : list (list vreg); sc_params_out : list (list (list vreg)); sc_nvregs : nat; sc_labels : list label; sc_spillslot_size : list N;
  sc_named_by_last : bool; sc_multi_defs : bool
}.

(* src/index.rs:159-163 InstRange::last, 113-117 Inst::prev (wrapping without debug assertions) *)
Definition range_last (dbg : bool) (r : nat * nat) : option nat :=
  if fst r <? snd r then Some (snd r - 1)
  else if dbg then None
  else Some (match snd r with O => N.to_nat (2 ^ 32 - 1) | S n => n end).

(* src/serialize.rs:66-72 *)
Definition opcode_of (f : func) (i : nat) : opcode := if f_is_ret f i then Ret else if f_is_branch f i then Branch else Op.
(* src/serialize.rs:103-109 *)
Definition params_out (dbg : bool) (f : func) (b : nat) : option (list (list vreg)) :=
  let! i := range_last dbg (f_insns f b) in
  Some (map (fun k => f_bargs f b i k) (seq 0 (length (f_succs f b)))).
Fixpoint collect {A B} (g : A -> option B) (l : list A) : option (list B) :=
  match l with [] => Some [] | x :: t => let! y := g x in let! u := collect g t in Some (y :: u) end.
(* src/serialize.rs:58-124 SerializableFunction::new *)
Definition copy_of (dbg : bool) (f : func) (labels : list label) (env : machine_env) : option copy :=
  let bs := seq 0 (f_nblocks f) in
  let! po := collect (params_out dbg f) bs in
  Some (mkCopy env (f_entry f) (map (fun i => mkInst (opcode_of f i) (f_operands f i) (f_clobbers f i)) (seq 0 (f_ninsts f)))
    (map (f_insns f) bs) (map (f_preds f) bs) (map (f_succs f) bs) (map (f_params f) bs) po (f_nvregs f) labels
    [f_spillslot_size f Int; f_spillslot_size f Float; f_spillslot_size f Vector] (f_named_by_last f) (f_multi_defs f)).

(* src/serialize.rs:132-198 impl Function for SerializableFunction; the line of each query *)
Definition c_num_insts (c : copy) : nat := length (sc_insts c). (* 133 *)
Definition c_num_blocks (c : copy) : nat := length (sc_blocks c). (* 137 *)
Definition c_block_insns (c : copy) (b : nat) : option (nat * nat) := nth_error (sc_blocks c) b. (* 145 *)
Definition c_block_succs (c : copy) (b : nat) : option (list nat) := nth_error (sc_succs c) b. (* 149 *)
Definition c_block_preds (c : copy) (b : nat) : option (list nat) := nth_error (sc_preds c) b. (* 153 *)
Definition c_block_params (c : copy) (b : nat) : option (list vreg) := nth_error (sc_params_in c) b. (* 157 *)
Definition c_is_ret (c : copy) (i : nat) : option bool := let! d := nth_error (sc_insts c) i in Some (opcode_eqb (id_op d) Ret). (* 161 *)
Definition c_is_branch (c : copy) (i : nat) : option bool := let! d := nth_error (sc_insts c) i in Some (opcode_eqb (id_op d) Branch). (* 165 *)
(* 169: the instruction is not looked at *)
Definition c_branch_blockparams (c : copy) (b : nat) (_ : nat) (k : nat) : option (list vreg) := let! l := nth_error (sc_params_out c) b in nth_error l k.
Definition c_inst_operands (c : copy) (i : nat) : option (list oper) := let! d := nth_error (sc_insts c) i in Some (id_operands d). (* 173 *)
Definition c_inst_clobbers (c : copy) (i : nat) : option pregset := let! d := nth_error (sc_insts c) i in Some (id_clobbers d). (* 177 *)
Definition c_spillslot_size (c : copy) (k : regclass) : option N := nth_error (sc_spillslot_size c) (N.to_nat (class_u8 k)). (* 189 *)
(* the copy seen as a function again; out of range it panics, and any value stands for that *)
Definition func_of (c : copy) : func :=
  let d {A} (x : A) (o : option A) := match o with Some y => y | None => x end in
  mkFunc (c_num_insts c) (c_num_blocks c) (sc_entry c) (fun b => d (0, 0) (c_block_insns c b)) (fun b => d [] (c_block_succs c b)) (fun b => d [] (c_block_preds c b))
    (fun b => d [] (c_block_params c b)) (fun i => d false (c_is_ret c i)) (fun i => d false (c_is_branch c i)) (fun b i k => d [] (c_branch_blockparams c b i k))
    (fun i => d [] (c_inst_operands c i)) (fun i => d ps_empty (c_inst_clobbers c i)) (sc_nvregs c) (fun k => d 0%N (c_spillslot_size c k)) (sc_named_by_last c) (sc_multi_defs c).
