(* Specification of requirements: sets of locations. *)
From Coq Require Import NArith List Bool.
From Verif Require Import Enc Requirement.
Import ListNotations.

(* Where a value can be: a register, a spill slot, or a stack slot that the
   machine environment names with a PReg. *)
Inductive loc := LReg (r : preg) | LSpill (n : N) | LFixedStack (r : preg).

(* what a requirement admits *)
Definition admits (q : requirement) (l : loc) : Prop :=
  match q, l with
  | RAny, _ => True
  | RRegister, LReg _ => True
  | RFixedReg r, LReg s => s = r
  | RLimit n, LReg s => (preg_hw_enc s < n)%N
  | RStack, (LSpill _ | LFixedStack _) => True
  | RFixedStack r, LFixedStack s => s = r
  | _, _ => False
  end.

(* what an operand constraint admits *)
Definition con_admits (is_stack : preg -> bool) (k : constraint) (l : loc) : Prop :=
  match k, l with
  | CAny, _ => True
  | CReg, LReg _ | CReuse _, LReg _ => True
  | CStack, (LSpill _ | LFixedStack _) => True
  | CFixed r, LReg s => s = r /\ is_stack r = false
  | CFixed r, LFixedStack s => s = r /\ is_stack r = true
  | CLimit n, LReg s => (preg_hw_enc s < n)%N
  | _, _ => False
  end.

(* a limit that leaves some register *)
Definition req_ok (q : requirement) : Prop := match q with RLimit n => (0 < n)%N | _ => True end.
