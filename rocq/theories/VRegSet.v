(* VRegSet (src/fastalloc/vregset.rs): the set of live vregs as a circular
   doubly-linked list inside a vector.  Model file: definitions only.

   The vector has length num_vregs + 1; its fields are functions on nat, and an
   index above num_vregs is a panic ([None]).  VRegIndex is a natural number. *)
From Coq Require Import NArith List Bool Arith.
From Verif Require Import Enc Postorder.
Import ListNotations.

(* VReg::invalid(), src/lib.rs:451-453, as its bits *)
Definition VREG_INVALID : vreg := (VREG_MAX * 4)%N.

(* src/fastalloc/vregset.rs:8-20 struct VRegNode, struct VRegSet; the head is
   always at index num_vregs *)
Record vrset := mkVs { vs_n : nat; vs_next : nat -> nat; vs_prev : nat -> nat; vs_vreg : nat -> vreg }.

(* src/fastalloc/vregset.rs:23-35 with_capacity *)
Definition vs_new (n : nat) : vrset := mkVs n (fun _ => n) (fun _ => n) (fun _ => VREG_INVALID).

(* src/fastalloc/vregset.rs:37-47 insert *)
Definition vs_insert (dbg : bool) (s : vrset) (v : vreg) : option vrset :=
  let k := N.to_nat (vreg_num v) in
  let h := vs_n s in
  if k <=? vs_n s then
    if dbg && negb (N.eqb (vs_vreg s k) VREG_INVALID) then None
    else
      let old := vs_next s h in
      let next1 := fset (vs_next s) k old in
      let prev1 := fset (vs_prev s) k h in
      let vreg1 := fset (vs_vreg s) k v in
      Some (mkVs h (fset next1 h k) (fset prev1 old k) vreg1)
  else None.

(* src/fastalloc/vregset.rs:49-55 remove *)
Definition vs_remove (s : vrset) (k : nat) : option vrset :=
  if k <=? vs_n s then
    let prev := vs_prev s k in
    let next := vs_next s k in
    Some (mkVs (vs_n s) (fset (vs_next s) prev next) (fset (vs_prev s) next prev) (fset (vs_vreg s) k VREG_INVALID))
  else None.

(* src/fastalloc/vregset.rs:57-59 is_empty *)
Definition vs_is_empty (s : vrset) : bool := vs_next s (vs_n s) =? vs_n s.

(* src/fastalloc/vregset.rs:61-88 iter, drained; [None] is fuel exhaustion *)
Fixpoint vs_walk (fuel : nat) (s : vrset) (cur : nat) : option (list vreg) :=
  match fuel with
  | O => None
  | S fuel' =>
      if cur =? vs_n s then Some []
      else option_map (cons (vs_vreg s cur)) (vs_walk fuel' s (vs_next s cur))
  end.
Definition vs_iter (fuel : nat) (s : vrset) : option (list vreg) := vs_walk fuel s (vs_next s (vs_n s)).
