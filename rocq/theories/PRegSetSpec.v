(* Specification of PRegSet: what an expression over sets denotes. *)
From Coq Require Import NArith List Bool.
From Verif Require Import Enc PRegSet.
Local Open Scope N_scope.

(* An operation history. *)
Inductive sexpr :=
| EEmpty
| EFromIter (l : list preg)
| EAdd (e : sexpr) (r : preg)
| EWith (e : sexpr) (r : preg)
| ERemove (e : sexpr) (r : preg)
| EUnion (e1 e2 : sexpr)
| EInter (e1 e2 : sexpr)
| EInvert (e : sexpr).

(* The history run on the bitset. *)
Fixpoint run (e : sexpr) : pregset :=
  match e with
  | EEmpty => ps_empty
  | EFromIter l => ps_from_iter l
  | EAdd e r => ps_add (run e) r
  | EWith e r => ps_with (run e) r
  | ERemove e r => ps_remove (run e) r
  | EUnion a b => ps_union (run a) (run b)
  | EInter a b => ps_inter (run a) (run b)
  | EInvert a => ps_invert (run a)
  end.

(* The history read as set theory over the 256 register indices. *)
Fixpoint denotes (e : sexpr) (x : preg) : Prop :=
  match e with
  | EEmpty => False
  | EFromIter l => In x l
  | EAdd e r => x = r \/ denotes e x
  | EWith e r => x = r \/ denotes e x
  | ERemove e r => x <> r /\ denotes e x
  | EUnion a b => denotes a x \/ denotes b x
  | EInter a b => denotes a x /\ denotes b x
  | EInvert a => ~ denotes a x
  end.

(* All registers mentioned in the history are 8-bit values. *)
Fixpoint regs_ok (e : sexpr) : Prop :=
  match e with
  | EEmpty => True
  | EFromIter l => Forall (fun r => r < 256) l
  | EAdd e r | EWith e r | ERemove e r => r < 256 /\ regs_ok e
  | EUnion a b | EInter a b => regs_ok a /\ regs_ok b
  | EInvert a => regs_ok a
  end.

(* A value of the Rust type [u64; 4]. *)
Definition ps_wf (s : pregset) : Prop := length s = 4%nat /\ Forall (fun w => w < 2 ^ 64) s.

(* strictly increasing *)
Fixpoint increasing (l : list N) : Prop :=
  match l with
  | [] => True
  | x :: t => match t with [] => True | y :: _ => x < y /\ increasing t end
  end.

Definition env_wf (e : machine_env) : Prop :=
  Forall ps_wf (preferred_regs_by_class e) /\ Forall ps_wf (non_preferred_regs_by_class e).
