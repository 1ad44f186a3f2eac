(* Specification vocabulary for the least-recently-used list. *)
From Coq Require Import NArith List Bool Arith.
From Verif Require Import Enc PRegSet PRegSetSpec Lru.
Import ListNotations.

Fixpoint pokes (dbg : bool) (h : list preg) (l : lru) : option lru :=
  match h with
  | [] => Some l
  | r :: t => match lru_poke dbg l r with Some l' => pokes dbg t l' | None => None end
  end.

(* In history h (oldest first) s was used more recently than r: s is poked after
   every poke of r, or neither was ever poked and s comes first in register order. *)
Definition newer (h : list preg) (s r : preg) : Prop :=
  (exists h1 h2, h = h1 ++ s :: h2 /\ ~ In r h2) \/ (~ In s h /\ ~ In r h /\ (s < r)%N).

(* s is a set of registers of class c only *)
Definition one_class (c : regclass) (s : pregset) : Prop :=
  forall r, (r < 256)%N -> ps_contains s r = true -> preg_class r = Some c.
Definition mem_reg (s : pregset) (r : preg) : Prop := (r < 256)%N /\ ps_contains s r = true.

(* r is the least recently used member of s accepted by f *)
Definition oldest (s : pregset) (h : list preg) (f : preg -> bool) (r : preg) : Prop :=
  mem_reg s r /\ f r = true /\ forall x, mem_reg s x -> f x = true -> x <> r -> newer h x r.

(* the node reached from the head after k steps along [next] *)
Definition follow (l : lru) (k : nat) : nat := Nat.iter k (lr_next l) (lr_head l).
