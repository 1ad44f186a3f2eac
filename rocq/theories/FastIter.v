(* Operand views of the single-pass allocator (src/fastalloc/iter.rs).
   Model file: definitions only.  [None] is a panic of an operand accessor. *)
From Coq Require Import NArith List Bool Arith.
From Verif Require Import Enc.
Import ListNotations.

(* src/fastalloc/iter.rs:10-19 matches: iter().cloned().enumerate().filter(..), drained *)
Fixpoint op_matches_from (i : nat) (p : operand -> option bool) (ops : list operand) : option (list (nat * operand)) :=
  match ops with
  | [] => Some []
  | o :: t =>
      match p o with
      | None => None
      | Some b => option_map (fun l => if b then (i, o) :: l else l) (op_matches_from (S i) p t)
      end
  end.
Definition op_matches := op_matches_from 0.

(* == on the derived enums *)
Definition is_def (k : okind) : bool := match k with Def => true | Use => false end.
Definition is_late (p : opos) : bool := match p with Late => true | Early => false end.

(* src/fastalloc/iter.rs:21-23 *)
Definition def_ops := op_matches (fun o => option_map is_def (operand_kind o)).
(* src/fastalloc/iter.rs:25-27 *)
Definition use_ops := op_matches (fun o => option_map (fun k => negb (is_def k)) (operand_kind o)).
(* src/fastalloc/iter.rs:29-31 *)
Definition reuse_ops (dbg : bool) := op_matches (fun o => option_map (fun c => match c with CReuse _ => true | _ => false end) (operand_constraint dbg o)).
(* src/fastalloc/iter.rs:33-35 *)
Definition fixed_ops (dbg : bool) := op_matches (fun o => option_map (fun c => match c with CFixed _ => true | _ => false end) (operand_constraint dbg o)).
(* src/fastalloc/iter.rs:37-39 *)
Definition any_reg_ops (dbg : bool) := op_matches (fun o => option_map (fun c => match c with CReg => true | _ => false end) (operand_constraint dbg o)).
(* src/fastalloc/iter.rs:41-43 *)
Definition late_ops := op_matches (fun o => option_map is_late (operand_pos o)).
(* src/fastalloc/iter.rs:45-47 *)
Definition early_ops := op_matches (fun o => option_map (fun p => negb (is_late p)) (operand_pos o)).
