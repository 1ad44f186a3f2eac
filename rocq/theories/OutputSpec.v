(* Specification vocabulary for the output iterator and allocation slices. *)
From Coq Require Import NArith List Bool Arith Sorting.Sorted.
From Verif Require Import Enc Func Output.
Import ListNotations.

(* edits are listed in program-point order *)
Definition edits_sorted (es : list (ppt * edit)) : Prop :=
  StronglySorted (fun a b => fst a <= fst b) es.

(* the edits attached to one program point, in list order *)
Definition edits_at (p : ppt) (es : list (ppt * edit)) : list item :=
  map (fun pe => IEdit (snd pe)) (filter (fun pe => fst pe =? p) es).

(* What a reader of the output expects for the block [from, to): for every
   instruction the edits before it, the instruction, the edits after it; nothing
   is expected after the terminator. *)
Fixpoint block_listing (es : list (ppt * edit)) (from n : nat) : list item :=
  match n with
  | 0 => []
  | 1 => edits_at (p_before from) es ++ [IInst from]
  | S n' => edits_at (p_before from) es ++ IInst from :: edits_at (p_after from) es
            ++ block_listing es (S from) n'
  end.

Definition insts_of (l : list item) : list nat :=
  flat_map (fun x => match x with IInst i => [i] | IEdit _ => [] end) l.
Definition edits_of (l : list item) : list edit :=
  flat_map (fun x => match x with IInst _ => [] | IEdit e => [e] end) l.
