(* The allocator's output: per-instruction allocations and the iterator over
   instructions and edits of a block.  Model file: definitions only. *)
From Coq Require Import NArith List Bool Arith.
From Verif Require Import Enc PRegSet Func Slice.
Import ListNotations.

(* src/lib.rs:1473-1483 enum Edit *)
Record edit := mkEdit { e_from : aloc; e_to : aloc }.

(* src/lib.rs:1572-1602 struct Output; [debug_locations] and [stats] left out *)
Record output := mkOutput {
  out_num_spillslots : nat;
  out_edits : list (ppt * edit);
  out_allocs : list aloc;
  out_offsets : list nat
}.

(* src/lib.rs:1606-1614 Output::inst_allocs; [None]: an index out of bounds or a
   slice range that is not inside the vector *)
Definition inst_allocs (o : output) (inst : nat) : option (list aloc) :=
  match nth_error (out_offsets o) inst with
  | None => None
  | Some start =>
      match (if inst + 1 =? length (out_offsets o) then Some (length (out_allocs o))
             else nth_error (out_offsets o) (inst + 1)) with
      | None => None
      | Some e =>
          if (start <=? e) && (e <=? length (out_allocs o))
          then Some (firstn (e - start) (skipn start (out_allocs o))) else None
      end
  end.

(* src/ion/liveranges.rs:136-142 the live-range allocator lays out [allocs] *)
Definition ion_layout_step (f : func) (st : list nat * list aloc) (inst : nat) : list nat * list aloc :=
  let (offs, allocs) := st in
  (offs ++ [length allocs], allocs ++ repeat ANone (length (f_operands f inst))).
Definition ion_layout (f : func) : list nat * list aloc :=
  fold_left (ion_layout_step f) (seq 0 (f_ninsts f)) ([], []).

(* src/fastalloc/mod.rs:34-53 Allocs::new; the third component is the returned
   maximal operand count *)
Definition fast_layout_step (f : func) (st : list nat * nat * nat) (inst : nat) : list nat * nat * nat :=
  let '(offs, n, mx) := st in
  let len := length (f_operands f inst) in
  (offs ++ [n], n + len, max mx len).
Definition fast_layout (f : func) : list nat * list aloc * nat :=
  let '(offs, n, mx) := fold_left (fast_layout_step f) (seq 0 (f_ninsts f)) ([], 0, 0) in
  (offs, repeat ANone n, mx).

(* src/fastalloc/mod.rs:60-69 Index/IndexMut<(usize, usize)>: writing one entry *)
Definition set_alloc (offs : list nat) (allocs : list aloc) (inst op : nat) (a : aloc)
  : option (list aloc) :=
  match nth_error offs inst with
  | None => None
  | Some s => if s + op <? length allocs then Some (list_set allocs (s + op) a) else None
  end.

(* src/lib.rs:1486-1490 enum InstOrEdit *)
Inductive item := IInst (i : nat) | IEdit (e : edit).

(* src/lib.rs:1493-1499 struct OutputIter *)
Record oiter := mkOIter { oi_edits : list (ppt * edit); oi_from : nat; oi_to : nat }.

(* src/lib.rs:1504-1522 OutputIter::next; [inst_range.len() = to - from] with
   [from <= to] checked when the range is built *)
Definition oi_next (it : oiter) : option (item * oiter) :=
  if oi_to it - oi_from it =? 0 then None
  else
    let advance := Some (IInst (oi_from it), mkOIter (oi_edits it) (oi_from it + 1) (oi_to it)) in
    match oi_edits it with
    | (p, e) :: rest =>
        if p <=? p_before (oi_from it) then Some (IEdit e, mkOIter rest (oi_from it) (oi_to it))
        else advance
    | [] => advance
    end.

(* collecting an iterator; [None] is fuel exhaustion *)
Fixpoint oi_collect (fuel : nat) (it : oiter) : option (list item) :=
  match fuel with
  | O => None
  | S fuel' =>
      match oi_next it with
      | None => Some []
      | Some (x, it') => option_map (cons x) (oi_collect fuel' it')
      end
  end.

(* src/lib.rs:1618-1638 Output::block_insts_and_edits; [None]: the unwrap_err
   panics.  [inst_range.first()] has a debug assertion that the range is not
   empty; [p_before from] is what a release build computes. *)
Definition block_iter (o : output) (range : nat * nat) : option oiter :=
  match binary_search_by
          (fun pe : ppt * edit => if fst pe <? p_before (fst range) then Lt else Gt)
          (out_edits o) with
  | Some (inr idx) => Some (mkOIter (skipn idx (out_edits o)) (fst range) (snd range))
  | _ => None
  end.
Definition oi_fuel (it : oiter) : nat := S (length (oi_edits it) + (oi_to it - oi_from it)).
Definition block_insts_and_edits (o : output) (range : nat * nat) : option (list item) :=
  match block_iter o range with
  | None => None
  | Some it => oi_collect (oi_fuel it) it
  end.
