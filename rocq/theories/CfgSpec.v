(* Specification vocabulary for control-flow information. *)
From Coq Require Import List Arith.
From Verif Require Import Func GraphSpec.
Import ListNotations.

(* the ways into a block: its predecessors, and the function entry *)
Definition ways_in (f : func) (b : nat) : nat :=
  length (f_preds f b) + (if b =? f_entry f then 1 else 0).

(* an edge from a block with several successors to a block with several ways in *)
Definition critical (f : func) (p b : nat) : Prop :=
  In p (f_preds f b) /\ 1 < length (f_succs f p) /\ 1 < ways_in f b.

(* the last instruction of [b] has operands although a successor has several
   ways in, so that edge moves must be placed before it *)
Definition bad_branch (f : func) (b : nat) : Prop :=
  f_operands f (snd (f_insns f b) - 1) <> [] /\ exists s, In s (f_succs f b) /\ 1 < ways_in f s.

(* documented shape of the blocks: not empty, in range, disjoint *)
Definition blocks_ok (f : func) : Prop :=
  (forall b, b < f_nblocks f -> fst (f_insns f b) < snd (f_insns f b) /\ snd (f_insns f b) <= f_ninsts f) /\
  (forall a b i, a < f_nblocks f -> b < f_nblocks f -> In i (span (f_insns f a)) -> In i (span (f_insns f b)) -> a = b).

(* predecessors are the inverse of successors *)
Definition preds_ok (f : func) : Prop :=
  (forall a b, b < f_nblocks f -> In a (f_preds f b) -> a < f_nblocks f) /\
  (forall a b, a < f_nblocks f -> b < f_nblocks f -> (In a (f_preds f b) <-> In b (f_succs f a))).

(* the back edges of the block order: (target, source) with target <= source *)
Definition backedges (n : nat) (succs : nat -> list nat) : list (nat * nat) :=
  flat_map (fun b => map (fun s => (s, b)) (filter (fun s => s <=? b) (succs b))) (seq 0 n).
(* the back edges whose span contains block x *)
Definition spanning (n : nat) (succs : nat -> list nat) (x : nat) : list (nat * nat) :=
  filter (fun e => andb (fst e <=? x) (x <=? snd e)) (backedges n succs).
