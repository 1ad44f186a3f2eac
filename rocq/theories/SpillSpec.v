(* Specification of stack slots: which indices a slot occupies. *)
From Coq Require Import NArith List.
From Verif Require Import Enc Func Ranges RangesSpec Spill.
Import ListNotations.
Open Scope N_scope.

(* the first index occupied by a slot of the given size: slots are named by
   their first or by their last index *)
Definition first_index (named_by_last : bool) (size : N) (s : spillslot) : N :=
  if named_by_last then slot_index s + 1 - size else slot_index s.
Definition occupies (named_by_last : bool) (size : N) (s : spillslot) (i : N) : Prop :=
  first_index named_by_last size s <= i < first_index named_by_last size s + size.
Definition power_of_two (n : N) : Prop := exists k, n = 2 ^ k.
Definition total (sizes : list N) : N := fold_right N.add 0 sizes.

(* what a history of requests must produce, starting at counter [num]: each slot
   is well formed, aligned, starts at or after everything before it, wastes less
   than its size in padding, and lies below the final counter *)
Fixpoint laid_out (named_by_last : bool) (num : N) (sizes : list N) (l : list spillslot) (fin : N) : Prop :=
  match sizes, l with
  | [], [] => fin = num
  | size :: sizes', s :: l' =>
      let a := first_index named_by_last size s in
      s <= SPILLSLOT_MAX /\ slot_index s = (if named_by_last then a + size - 1 else a) /\
      a mod size = 0 /\ num <= a < num + size /\ laid_out named_by_last (a + size) sizes' l' fin
  | _, _ => False
  end.
