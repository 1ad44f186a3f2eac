(* Spill slots (src/ion/spill.rs, src/fastalloc/mod.rs).  Model file:
   definitions only.  [None] is a panic. *)
From Coq Require Import NArith List Bool Arith.
From Verif Require Import Enc Keys Func Vecs Ranges.
Import ListNotations.

(* u32::is_power_of_two: exactly one bit set *)
Definition is_pow2 (n : N) : bool := negb (N.eqb n 0) && N.eqb (N.land n (n - 1)) 0.
(* a + b and a - b on u32: overflow panics with debug assertions and wraps without *)
Definition add32 (dbg : bool) (a b : N) : option N := dassert dbg (a + b <? 2 ^ 32)%N (Some (u32 (a + b))).
Definition sub32 (dbg : bool) (a b : N) : option N := dassert dbg (b <=? a)%N (Some (u32 (a + 2 ^ 32 - b))).
Definition obind {A B} (o : option A) (f : A -> option B) : option B := match o with Some x => f x | None => None end.

(* src/ion/spill.rs:159-172 allocate_spillslot, and with the same text
   src/fastalloc/mod.rs:86-104 Stack::allocstack (whose [size] comes from
   spillslot_size through try_into, see [fast_allocstack]): the counter and the
   size to the slot and the new counter.  The cast of the counter to u32 is
   the identity: it is a u32 that was stored before. *)
Definition allocate_spillslot (dbg named_by_last : bool) (num size : N) : option (spillslot * N) :=
  dassert dbg (is_pow2 size)
    (obind (add32 dbg num size) (fun a =>
     obind (sub32 dbg a 1) (fun b =>
     obind (sub32 dbg size 1) (fun m =>
     let offset := N.land b (not32 m) in
     obind (if named_by_last then obind (add32 dbg offset size) (fun c => sub32 dbg c 1) else Some offset) (fun slot =>
     obind (add32 dbg offset size) (fun num' =>
     obind (slot_new dbg slot) (fun s => Some (s, num')))))))).
(* src/fastalloc/mod.rs:86-90: usize to u32 by try_into().unwrap() *)
Definition fast_allocstack (dbg : bool) (f : func) (num : N) (c : regclass) : option (spillslot * N) :=
  if (f_spillslot_size f c <? 2 ^ 32)%N then allocate_spillslot dbg (f_named_by_last f) num (f_spillslot_size f c) else None.

(* a history of requests *)
Fixpoint alloc_history (dbg named_by_last : bool) (num : N) (sizes : list N) : option (list spillslot * N) :=
  match sizes with
  | [] => Some ([], num)
  | size :: t =>
      match allocate_spillslot dbg named_by_last num size with
      | None => None
      | Some (s, num') =>
          match alloc_history dbg named_by_last num' t with
          | None => None
          | Some (l, n) => Some (s :: l, n)
          end
      end
  end.

(* src/ion/data_structures.rs:298-311 the fields of SpillSet used here *)
Record sset := mkSet { ss_range : crange; ss_class : regclass; ss_required : bool; ss_slot : option nat }.
(* src/ion/data_structures.rs:693-697 struct SpillSlotData; [alloc] is the list
   produced by alloc_history at the end *)
Record sslot := mkSlot { sl_ranges : bmap nat; sl_size : N }.
(* src/ion/data_structures.rs:700-703 struct SpillSlotList *)
Record slist := mkSlist { sl_slots : list nat; sl_probe : nat }.
Record spill_state := mkSpill { sp_sets : list sset; sp_slots : list sslot; sp_lists : regclass -> slist }.
Definition class_eqb (a b : regclass) : bool := N.eqb (class_u8 a) (class_u8 b).
Definition put_list (f : regclass -> slist) (c : regclass) (x : slist) : regclass -> slist :=
  fun d => if class_eqb c d then x else f d.

(* src/ion/data_structures.rs:708-715 next_index *)
Definition next_index (dbg : bool) (l : slist) (i : nat) : option nat :=
  dassert dbg (i <? length (sl_slots l)) (Some (if i =? length (sl_slots l) - 1 then 0 else i + 1)).

(* src/ion/spill.rs:70-81 spillslot_can_fit_spillset *)
Definition can_fit (slots : list sslot) (slot : nat) (r : crange) : option bool :=
  option_map (fun d => negb (bm_contains (lk_from_range r) (sl_ranges d))) (nth_error slots slot).

(* src/ion/spill.rs:83-96 allocate_spillset_to_spillslot *)
Definition put_in_slot (dbg : bool) (st : spill_state) (set slot : nat) : option spill_state :=
  match nth_error (sp_sets st) set, nth_error (sp_slots st) slot with
  | Some s, Some d =>
      let (m, old) := bm_insert (lk_from_range (ss_range s)) set (sl_ranges d) in
      dassert dbg (match old with None => true | Some _ => false end)
        (Some (mkSpill (lset (sp_sets st) set (mkSet (ss_range s) (ss_class s) (ss_required s) (Some slot)))
                       (lset (sp_slots st) slot (mkSlot m (sl_size d))) (sp_lists st)))
  | _, _ => None
  end.

(* src/ion/spill.rs:99 *)
Definition MAX_ATTEMPTS : nat := 10.
(* src/ion/spill.rs:113-133 the probe loop: the list position of a fitting slot *)
Fixpoint probe (dbg : bool) (attempts : nat) (slots : list sslot) (l : slist) (r : crange) (i : nat) : option (option nat) :=
  match attempts with
  | O => Some None
  | S attempts' =>
      match nth_error (sl_slots l) i with
      | None => None
      | Some slot =>
          match can_fit slots slot r with
          | None => None
          | Some true => Some (Some i)
          | Some false => match next_index dbg l i with None => None | Some i' => probe dbg attempts' slots l r i' end
          end
      end
  end.

(* src/ion/spill.rs:101-149 the body of the loop over spill sets.  A fresh slot
   has no ranges: entries of scratch_spillset_pool are cleared (C43). *)
Definition spill_step (dbg : bool) (f : func) (st : spill_state) (set : nat) : option spill_state :=
  match nth_error (sp_sets st) set with
  | None => None
  | Some s =>
      if negb (ss_required s) then Some st
      else
        let c := ss_class s in
        let l := sp_lists st c in
        match probe dbg (Nat.min (length (sl_slots l)) MAX_ATTEMPTS) (sp_slots st) l (ss_range s) (sl_probe l) with
        | None => None
        | Some (Some i) =>
            match nth_error (sl_slots l) i with
            | None => None
            | Some slot =>
                option_map (fun st' => mkSpill (sp_sets st') (sp_slots st') (put_list (sp_lists st') c (mkSlist (sl_slots l) i)))
                           (put_in_slot dbg st set slot)
            end
        | Some None =>
            let slot := length (sp_slots st) in
            put_in_slot dbg
              (mkSpill (sp_sets st) (sp_slots st ++ [mkSlot [] (u32 (f_spillslot_size f c))])
                       (put_list (sp_lists st) c (mkSlist (sl_slots l ++ [slot]) (length (sl_slots l ++ [slot]) - 1))))
              set slot
        end
  end.
Fixpoint spill_loop (dbg : bool) (f : func) (sets : list nat) (st : spill_state) : option spill_state :=
  match sets with
  | [] => Some st
  | s :: t => match spill_step dbg f st s with None => None | Some st' => spill_loop dbg f t st' end
  end.
(* src/ion/spill.rs:98-157 allocate_spillslots: the state and the stack slots of
   the spill slots, in order, with the final counter.  It starts from no spill
   slots (Env::new). *)
Definition allocate_spillslots (dbg : bool) (f : func) (sets : list sset) (num : N) : option (spill_state * list spillslot * N) :=
  match spill_loop dbg f (seq 0 (length sets)) (mkSpill sets [] (fun _ => mkSlist [] 0)) with
  | None => None
  | Some st =>
      match alloc_history dbg (f_named_by_last f) num (map sl_size (sp_slots st)) with
      | None => None
      | Some (l, n) => Some (st, l, n)
      end
  end.
