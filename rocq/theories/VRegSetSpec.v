(* Specification vocabulary for the live-vreg set: histories. *)
From Coq Require Import NArith List Bool Arith.
From Verif Require Import Enc VRegSet.
Import ListNotations.

Inductive vs_op := VInsert (v : vreg) | VRemove (k : nat).
Definition vnum (v : vreg) : nat := N.to_nat (vreg_num v).

(* the list that a history denotes, most recent first *)
Fixpoint vs_denotes (ops : list vs_op) (l : list vreg) : list vreg :=
  match ops with
  | [] => l
  | VInsert v :: t => vs_denotes t (v :: l)
  | VRemove k :: t => vs_denotes t (filter (fun v => negb (vnum v =? k)) l)
  end.

(* insertions of absent vregs numbered below n, removals of present ones *)
Fixpoint vs_legal (n : nat) (ops : list vs_op) (l : list vreg) : Prop :=
  match ops with
  | [] => True
  | VInsert v :: t => vnum v < n /\ ~ In (vnum v) (map vnum l) /\ vs_legal n t (v :: l)
  | VRemove k :: t => In k (map vnum l) /\ vs_legal n t (filter (fun v => negb (vnum v =? k)) l)
  end.

Fixpoint vs_run (dbg : bool) (ops : list vs_op) (s : vrset) : option vrset :=
  match ops with
  | [] => Some s
  | VInsert v :: t => match vs_insert dbg s v with Some s' => vs_run dbg t s' | None => None end
  | VRemove k :: t => match vs_remove s k with Some s' => vs_run dbg t s' | None => None end
  end.
