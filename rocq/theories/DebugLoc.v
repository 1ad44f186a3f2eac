(* Debug locations (src/ion/moves.rs:576-624 and 773, src/fastalloc/mod.rs:
   1544-1554).  Model file: definitions only. *)
From Coq Require Import NArith List Bool Arith.
From Verif Require Import Enc Func Ranges Process LiveRanges Serialize.
Import ListNotations.
Open Scope nat_scope.

(* an element of debug_locations: label, from, to, allocation *)
Definition dloc : Type := (N * ppt * ppt * N)%type.

(* core::slice::binary_search_by with a comparison that is Less where [lt] and
   Greater elsewhere: the index in the Err that it returns *)
Fixpoint search_loop {A} (fuel : nat) (lt : A -> bool) (l : list A) (base size : nat) : option nat :=
  if size <=? 1 then Some base
  else match fuel with
       | O => None
       | S fuel' =>
           let half := size / 2 in
           let mid := base + half in
           let! x := nth_error l mid in
           search_loop fuel' lt l (if lt x then mid else base) (size - half)
       end.
Definition search {A} (lt : A -> bool) (l : list A) : option nat :=
  match l with
  | [] => Some 0
  | _ => let! b := search_loop (length l) lt l 0 (length l) in
         let! x := nth_error l b in
         Some (if lt x then S b else b)
  end.

Definition lab_vreg (x : label) : N := vreg_num (fst (fst (fst x))).
Definition lab_range (x : label) : crange := mkCr (p_before (snd (fst (fst x)))) (p_before (snd (fst x))).
(* src/ion/moves.rs:600-623: the loop over debug_labels[start..] *)
Fixpoint label_loop (v : nat) (r : crange) (a : N) (ls : list label) : list dloc :=
  match ls with
  | [] => []
  | x :: t =>
      if negb (lab_vreg x =? N.of_nat v)%N then []
      else if negb (cr_overlaps r (lab_range x)) then label_loop v r a t
      else (snd x, Nat.max (cr_from (lab_range x)) (cr_from r), Nat.min (cr_to (lab_range x)) (cr_to r), a) :: label_loop v r a t
  end.
(* src/ion/moves.rs:578-624: one range of a vreg with its allocation *)
Definition range_labels (ls : list label) (v : nat) (r : crange) (a : N) : option (list dloc) :=
  match ls with
  | [] => Some []
  | _ => let! start := search (fun x => (lab_vreg x <? N.of_nat v)%N) ls in Some (label_loop v r a (skipn start ls))
  end.

(* derived Ord of the tuples *)
Definition dloc_leb (x y : dloc) : bool :=
  let '(l, f, t, a) := x in let '(l', f', t', a') := y in
  (l <? l')%N || (l =? l')%N && ((f <? f') || (f =? f') && ((t <? t') || (t =? t') && (a <=? a')%N)).
Fixpoint insert_loc (x : dloc) (l : list dloc) : list dloc :=
  match l with [] => [x] | y :: t => if dloc_leb x y then x :: l else y :: insert_loc x t end.
(* sort_unstable: which of several equal elements comes first cannot be seen *)
Fixpoint sort_locs (l : list dloc) : list dloc := match l with [] => [] | x :: t => insert_loc x (sort_locs t) end.

(* src/ion/moves.rs: the ranges in the order of the loops over vregs and their
   ranges, then the sort of line 773 *)
Fixpoint all_ranges (ls : list label) (rs : list (nat * crange * N)) : option (list dloc) :=
  match rs with
  | [] => Some []
  | (v, r, a) :: t => let! x := range_labels ls v r a in let! y := all_ranges ls t in Some (x ++ y)
  end.
Definition ion_debug_locations (ls : list label) (rs : list (nat * crange * N)) : option (list dloc) :=
  let! l := all_ranges ls rs in Some (sort_locs l).

(* src/fastalloc/mod.rs:1544-1554 build_debug_info; [live] is
   vreg_to_live_inst_range.  The sort is stable. *)
Fixpoint fast_labels (live : list (ppt * ppt * N)) (ls : list label) : option (list dloc) :=
  match ls with
  | [] => Some []
  | x :: t =>
      let! q := nth_error live (N.to_nat (lab_vreg x)) in
      let! y := fast_labels live t in
      Some (if (pt_inst (fst (fst q)) <=? snd (fst (fst x))) && (snd (fst x) <=? S (pt_inst (snd (fst q)))) then (snd x, fst (fst q), snd (fst q), snd q) :: y else y)
  end.
Definition fast_debug_locations (live : list (ppt * ppt * N)) (ls : list label) : option (list dloc) :=
  let! l := fast_labels live ls in Some (sort_key dloc (fun x => fst (fst (fst x))) l).
