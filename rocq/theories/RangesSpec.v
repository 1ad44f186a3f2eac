(* Specification of ranges: sets of program points. *)
From Coq Require Import List Arith Sorted.
From Verif Require Import Func Ranges.
Import ListNotations.

Definition inr (r : crange) (p : nat) : Prop := cr_from r <= p < cr_to r.
Definition overlap (r s : crange) : Prop := exists p, inr r p /\ inr s p.
Definition nonempty (r : crange) : Prop := cr_from r < cr_to r.
(* every point of r is before every point of s *)
Definition wholly_before (r s : crange) : Prop := forall p q, inr r p -> inr s q -> p < q.

Definition kr (k : lrkey) : crange := mkCr (lk_from k) (lk_to k).
(* a map whose keys are non-empty ranges in increasing order, pairwise disjoint *)
Definition bm_ok {V} (m : bmap V) : Prop :=
  Forall (fun e => nonempty (kr (fst e))) m /\ StronglySorted (fun a b => lk_to (fst a) <= lk_from (fst b)) m.
