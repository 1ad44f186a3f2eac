(* IndexSet (src/indexset.rs): sparse sets of indices.
   Model file: definitions only.

   u64 words are N below 2^64.  The hash map of the large mode is an association
   list; its iteration order is the order of the list (unspecified in the
   code, no theorem depends on it). *)
From Coq Require Import NArith List Bool Arith.
From Verif Require Import Enc PRegSet.
Import ListNotations.
Local Open Scope N_scope.

(* src/indexset.rs:12, 26 *)
Definition SMALL_ELEMS : nat := 12.
Definition KEY_INVALID : N := 0xffffffff.

(* src/indexset.rs:17-24 enum AdaptiveMap *)
Inductive amap :=
| Small (len : nat) (keys values : list N)
| Large (m : list (N * N)).

(* src/indexset.rs:29-35 AdaptiveMap::new *)
Definition am_new : amap := Small 0 (repeat KEY_INVALID SMALL_ELEMS) (repeat 0 SMALL_ELEMS).

(* Iterator::position *)
Fixpoint position (p : N -> bool) (l : list N) : option nat :=
  match l with
  | [] => None
  | x :: t => if p x then Some O else option_map S (position p t)
  end.

(* HashMap::insert and FromIterator: a later pair replaces an earlier one *)
Fixpoint al_insert (m : list (N * N)) (k v : N) : list (N * N) :=
  match m with
  | [] => [(k, v)]
  | (k', v') :: t => if k' =? k then (k, v) :: t else (k', v') :: al_insert t k v
  end.
Fixpoint al_get (m : list (N * N)) (k : N) : option N :=
  match m with
  | [] => None
  | (k', v') :: t => if k' =? k then Some v' else al_get t k
  end.
Definition al_collect (l : list (N * N)) : list (N * N) :=
  fold_left (fun m p => al_insert m (fst p) (snd p)) l [].

(* src/indexset.rs:38-89 get_or_insert.  The reference that it returns is used
   to write [g w] where w is the word referred to; the result is the new map
   and w.  [None] is a panic. *)
Definition am_find (m : amap) (key : N) : amap * option nat :=
  match m with
  | Small len keys values =>
      match position (fun k => k =? key) (firstn len keys) with
      | Some i => (m, Some i)
      | None =>
          if negb (Nat.eqb len SMALL_ELEMS) then (m, None)
          else match position (fun v => v =? 0) values with
               | Some i => (Small len (upd_word keys i (fun _ => key)) values, Some i)
               | None => (Large (al_collect (combine keys values)), None)
               end
      end
  | Large _ => (m, None)
  end.
Definition am_modify (m : amap) (key : N) (g : N -> N) : option (amap * N) :=
  match am_find m key with
  | (Small len keys values, Some i) =>
      match nth_error values i with
      | None => None
      | Some w => Some (Small len keys (upd_word values i g), w)
      end
  | (Small len keys values, None) =>
      if (len <? SMALL_ELEMS)%nat
      then Some (Small (S len) (upd_word keys len (fun _ => key)) (upd_word values len (fun _ => g 0)), 0)
      else None
  | (Large l, _) =>
      let w := match al_get l key with Some w => w | None => 0 end in
      Some (Large (al_insert l key (g w)), w)
  end.

(* src/indexset.rs:91-107 get_mut, writing [g w] *)
Definition am_get_mut (m : amap) (key : N) (g : N -> N) : amap :=
  match m with
  | Small len keys values =>
      match position (fun k => k =? key) (firstn len keys) with
      | Some i => Small len keys (upd_word values i g)
      | None => m
      end
  | Large l =>
      match al_get l key with
      | Some w => Large (al_insert l key (g w))
      | None => m
      end
  end.

(* src/indexset.rs:109-129 get *)
Definition am_get (m : amap) (key : N) : option N :=
  match m with
  | Small len keys values =>
      match position (fun k => k =? key) (firstn len keys) with
      | Some i => nth_error values i
      | None => None
      end
  | Large l => al_get l key
  end.

(* src/indexset.rs:130-139, 149-171 iter *)
Definition am_iter (m : amap) : list (N * N) :=
  match m with
  | Small len keys values => combine (firstn len keys) (firstn len values)
  | Large l => l
  end.

(* src/indexset.rs:141-146 is_empty *)
Definition am_is_empty (m : amap) : bool :=
  match m with
  | Small _ _ values => forallb (fun v => v =? 0) values
  | Large l => forallb (fun p => snd p =? 0) l
  end.

(* src/indexset.rs:176-178 struct IndexSet *)
Notation iset := amap (only parsing).

(* src/indexset.rs:191-206: the word of a bit; [as u32] truncates *)
Definition word_index (i : N) : N := (i / 64) mod 2 ^ 32.

(* src/indexset.rs:209-216 set *)
Definition is_set (s : iset) (i : N) (v : bool) : option iset :=
  let bit := i mod 64 in
  if v then option_map fst (am_modify s (word_index i) (fun w => N.lor w (N.shiftl 1 bit)))
  else Some (am_get_mut s (word_index i) (fun w => N.land w (not64 (N.shiftl 1 bit)))).

(* src/indexset.rs:218-220 assign *)
Definition is_assign (s other : iset) : iset := other.

(* src/indexset.rs:223-230 get *)
Definition is_get (s : iset) (i : N) : bool :=
  match am_get s (word_index i) with
  | Some w => negb (N.land w (N.shiftl 1 (i mod 64)) =? 0)
  | None => false
  end.

(* src/indexset.rs:232-244 union_with: the new set, and the word [changed] *)
Fixpoint union_loop (s : iset) (changed : N) (l : list (N * N)) : option (iset * N) :=
  match l with
  | [] => Some (s, changed)
  | (k, bits) :: t =>
      if bits =? 0 then union_loop s changed t
      else
        match am_modify s (word_index (k * 64)) (fun w => N.lor w bits) with
        | None => None
        | Some (s', w) => union_loop s' (N.lor changed (N.land bits (not64 w))) t
        end
  end.
Definition is_union (s other : iset) : option (iset * bool) :=
  match union_loop s 0 (am_iter other) with
  | None => None
  | Some (s', changed) => Some (s', negb (changed =? 0))
  end.

(* src/indexset.rs:270-286 SetBitsIter drained; [None] is fuel exhaustion *)
Fixpoint set_bits (fuel : nat) (w : N) : option (list N) :=
  match fuel with
  | O => None
  | S fuel' =>
      if w =? 0 then Some []
      else option_map (cons (ctz w)) (set_bits fuel' (N.land w (w - 1)))
  end.

(* src/indexset.rs:246-251 iter *)
Fixpoint iter_words (l : list (N * N)) : option (list N) :=
  match l with
  | [] => Some []
  | (k, bits) :: t =>
      match set_bits 65 bits, iter_words t with
      | Some a, Some b => Some (map (fun i => 64 * k + i) a ++ b)
      | _, _ => None
      end
  end.
Definition is_iter (s : iset) : option (list N) := iter_words (am_iter s).

(* src/indexset.rs:264-266 is_empty *)
Definition is_is_empty (s : iset) : bool := am_is_empty s.
