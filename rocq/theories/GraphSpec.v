(* Specification vocabulary for control-flow graphs. *)
From Coq Require Import List Arith.
Import ListNotations.

Section Graph.
  Variable succs : nat -> list nat.

  (* [path a b]: some sequence of edges leads from a to b *)
  Inductive path : nat -> nat -> Prop :=
  | path_refl a : path a a
  | path_step a b c : path a b -> In c (succs b) -> path a c.

  Variable entry : nat.

  (* [route b l]: [l] lists the blocks of a walk from the entry to [b], the last
     one first *)
  Inductive route : nat -> list nat -> Prop :=
  | route_entry : route entry [entry]
  | route_step b l c : route b l -> In c (succs b) -> route c (c :: l).

  (* every walk from the entry to b passes through a *)
  Definition dom (a b : nat) : Prop := forall l, route b l -> In a l.

  Definition reachable (b : nat) : Prop := path entry b.
End Graph.

(* b occurs before a in the list *)
Definition before (l : list nat) (b a : nat) : Prop :=
  exists l1 l2 l3, l = l1 ++ b :: l2 ++ a :: l3.
