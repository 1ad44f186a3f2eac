(* Code ranges, their comparison, and ordered maps keyed by ranges
   (src/ion/data_structures.rs).  Model file: definitions only.

   Program points are naturals (see Func.v). *)
From Coq Require Import NArith List Bool Arith.
From Verif Require Import Enc Func.
Import ListNotations.

(* src/ion/data_structures.rs:34-38 struct CodeRange *)
Record crange := mkCr { cr_from : ppt; cr_to : ppt }.

(* src/ion/data_structures.rs:41-44 is_empty *)
Definition cr_is_empty (r : crange) : bool := cr_to r <=? cr_from r.
(* src/ion/data_structures.rs:45-48 contains *)
Definition cr_contains (r s : crange) : bool := (cr_from r <=? cr_from s) && (cr_to s <=? cr_to r).
(* src/ion/data_structures.rs:49-52 contains_point *)
Definition cr_contains_point (r : crange) (p : ppt) : bool := (cr_from r <=? p) && (p <? cr_to r).
(* src/ion/data_structures.rs:53-56 overlaps *)
Definition cr_overlaps (r s : crange) : bool := (cr_from r <? cr_to s) && (cr_from s <? cr_to r).
(* src/ion/data_structures.rs:57-60 len: number of instructions; the
   subtraction panics with debug assertions and wraps without, which is not
   distinguished here *)
Definition cr_len (r : crange) : option nat :=
  if cr_from r / 2 <=? cr_to r / 2 then Some (cr_to r / 2 - cr_from r / 2) else None.
(* src/ion/data_structures.rs:61-68 singleton; pos.next() is C06 *)
Definition cr_singleton (p : ppt) : crange := mkCr p (p + 1).
(* src/ion/data_structures.rs:70-77 join *)
Definition cr_join (r s : crange) : crange := mkCr (Nat.min (cr_from r) (cr_from s)) (Nat.max (cr_to r) (cr_to s)).
(* src/ion/data_structures.rs:86-97 Ord for CodeRange *)
Definition cr_cmp (r s : crange) : comparison :=
  if cr_to r <=? cr_from s then Lt else if cr_to s <=? cr_from r then Gt else Eq.

(* src/ion/data_structures.rs:735-739 struct LiveRangeKey *)
Record lrkey := mkLk { lk_from : nat; lk_to : nat }.
(* src/ion/data_structures.rs:741-757 from_range, to_range; to_index and
   from_index are the identity on the bits *)
Definition lk_from_range (r : crange) : lrkey := mkLk (cr_from r) (cr_to r).
Definition lk_to_range (k : lrkey) : crange := mkCr (lk_from k) (lk_to k).
(* src/ion/data_structures.rs:760-765 PartialEq *)
Definition lk_eqb (a b : lrkey) : bool := (lk_from b <? lk_to a) && (lk_from a <? lk_to b).
(* src/ion/data_structures.rs:773-784 Ord *)
Definition lk_cmp (a b : lrkey) : comparison :=
  if lk_to a <=? lk_from b then Lt else if lk_to b <=? lk_from a then Gt else Eq.

(* std::collections::BTreeMap<LiveRangeKey, V>: the entries in order.  Every
   operation compares the given key with stored keys, by [lk_cmp key stored].
   A search of a tree of any shape is [bst_find] below; C48_search shows that it
   agrees with these scans. *)
Section Bmap.
Context {V : Type}.
Definition bmap := list (lrkey * V).
(* BTreeMap::get / contains_key *)
Fixpoint bm_get (q : lrkey) (m : bmap) : option V :=
  match m with
  | [] => None
  | (k, v) :: t => match lk_cmp q k with Lt => None | Eq => Some v | Gt => bm_get q t end
  end.
Definition bm_contains (q : lrkey) (m : bmap) : bool := match bm_get q m with Some _ => true | None => false end.
(* BTreeMap::insert: an equal key keeps its old key and gets the new value,
   the old value is returned *)
Fixpoint bm_insert (q : lrkey) (x : V) (m : bmap) : bmap * option V :=
  match m with
  | [] => ([(q, x)], None)
  | (k, v) :: t =>
      match lk_cmp q k with
      | Lt => ((q, x) :: (k, v) :: t, None)
      | Eq => ((k, x) :: t, Some v)
      | Gt => let (t', r) := bm_insert q x t in ((k, v) :: t', r)
      end
  end.
(* BTreeMap::remove *)
Fixpoint bm_remove (q : lrkey) (m : bmap) : bmap :=
  match m with
  | [] => []
  | (k, v) :: t => match lk_cmp q k with Lt => (k, v) :: t | Eq => t | Gt => (k, v) :: bm_remove q t end
  end.
(* BTreeMap::range(q..) *)
Fixpoint bm_range (q : lrkey) (m : bmap) : bmap :=
  match m with
  | [] => []
  | (k, v) :: t => match lk_cmp q k with Gt => bm_range q t | _ => (k, v) :: t end
  end.

(* A search tree of any shape and the search in it *)
Inductive bst := BLeaf | BNode (l : bst) (k : lrkey) (v : V) (r : bst).
Fixpoint bst_find (q : lrkey) (t : bst) : option (lrkey * V) :=
  match t with
  | BLeaf => None
  | BNode l k v r => match lk_cmp q k with Lt => bst_find q l | Eq => Some (k, v) | Gt => bst_find q r end
  end.
Fixpoint bst_list (t : bst) : bmap :=
  match t with BLeaf => [] | BNode l k v r => bst_list l ++ (k, v) :: bst_list r end.
End Bmap.
Arguments bmap : clear implicits. Arguments bst : clear implicits.
