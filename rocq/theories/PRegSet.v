(* PRegSet: a set of physical registers as four 64-bit words.
   Model file: definitions only. *)
From Coq Require Import NArith List Bool.
From Verif Require Import Enc.
Local Open Scope N_scope.

(* src/lib.rs:221-223 struct PRegSet: [bits : [u64; LEN]], LEN = 4 (226-230) *)
Definition pregset := list N.
Definition BITS : N := 64.
Definition LEN : nat := N.to_nat ((PREG_NUM_INDEX + BITS - 1) / BITS).

(* src/lib.rs:233-237 PRegSet::empty (also Default, 219) *)
Definition ps_empty : pregset := repeat 0 LEN.

(* src/lib.rs:240-243 PRegSet::split_index *)
Definition split_index (r : preg) : nat * N :=
  (N.to_nat (N.shiftr (preg_index r) (N.log2 BITS)), N.land (preg_index r) (BITS - 1)).

(* [self.bits[i]] and [self.bits[i] = f(self.bits[i])]; an index is at most 3
   because a PReg has 8 bits, so the out-of-range panic cannot occur. *)
Definition word (s : pregset) (i : nat) : N := nth i s 0.
Fixpoint upd_word (s : pregset) (i : nat) (f : N -> N) : pregset :=
  match s, i with
  | [], _ => []
  | w :: t, O => f w :: t
  | w :: t, S j => w :: upd_word t j f
  end.

(* [!x] on u64 *)
Definition not64 (x : N) : N := N.lxor x (2 ^ 64 - 1).

(* src/lib.rs:246-249 PRegSet::contains *)
Definition ps_contains (s : pregset) (r : preg) : bool :=
  let (i, b) := split_index r in negb (N.land (word s i) (N.shiftl 1 b) =? 0).

(* src/lib.rs:252-263 PRegSet::with, PRegSet::add *)
Definition ps_add (s : pregset) (r : preg) : pregset :=
  let (i, b) := split_index r in upd_word s i (fun w => N.lor w (N.shiftl 1 b)).
Definition ps_with (s : pregset) (r : preg) : pregset :=
  let (i, b) := split_index r in upd_word s i (fun w => N.lor w (N.shiftl 1 b)).

(* src/lib.rs:266-269 PRegSet::remove *)
Definition ps_remove (s : pregset) (r : preg) : pregset :=
  let (i, b) := split_index r in upd_word s i (fun w => N.land w (not64 (N.shiftl 1 b))).

(* [for i in 0..len { self[i] = f(self[i], other[i]) }] *)
Fixpoint zip_words (f : N -> N -> N) (s t : pregset) : pregset :=
  match s, t with
  | a :: s', b :: t' => f a b :: zip_words f s' t'
  | _, _ => []
  end.

(* src/lib.rs:273-277 union_from (and BitOr, 327-335) *)
Definition ps_union (s t : pregset) : pregset := zip_words N.lor s t.
(* src/lib.rs:279-283 intersect_from (and BitAnd, 317-325) *)
Definition ps_inter (s t : pregset) : pregset := zip_words N.land s t.
(* src/lib.rs:285-291 invert *)
Definition ps_invert (s : pregset) : pregset := map not64 s.
(* src/lib.rs:293-295 is_empty *)
Definition ps_is_empty (s : pregset) (c : regclass) : bool := word s (N.to_nat (class_u8 c)) =? 0.

(* u64::count_ones *)
Fixpoint popcount_pos (p : positive) : N :=
  match p with xH => 1 | xO q => popcount_pos q | xI q => 1 + popcount_pos q end.
Definition popcount (n : N) : N := match n with 0 => 0 | Npos p => popcount_pos p end.

(* src/lib.rs:298-300 len *)
Definition ps_len (s : pregset) : N := fold_right N.add 0 (map popcount s).

(* u64::trailing_zeros on a non-zero word *)
Fixpoint ctz_pos (p : positive) : N :=
  match p with xO q => 1 + ctz_pos q | _ => 0 end.
Definition ctz (n : N) : N := match n with 0 => 64 | Npos p => ctz_pos p end.

(* src/lib.rs:356-359 struct PRegSetIter; into_iter (345-354) starts at cur = 0 *)
Record psiter := mkIter { it_bits : pregset; it_cur : nat }.
Definition ps_into_iter (s : pregset) : psiter := mkIter s 0.

(* src/lib.rs:363-374 PRegSetIter::next.  [fuel] bounds the [loop]; the
   outer [None] is fuel exhaustion, the inner the Rust [None]. *)
Fixpoint it_next (fuel : nat) (it : psiter) : option (option (preg * psiter)) :=
  match fuel with
  | O => None
  | S fuel' =>
      match nth_error (it_bits it) (it_cur it) with
      | None => Some None
      | Some w =>
          if negb (w =? 0) then
            let b := ctz w in
            let bits' := upd_word (it_bits it) (it_cur it) (fun w => N.land w (not64 (N.shiftl 1 b))) in
            let index := b + N.of_nat (it_cur it) * BITS in
            Some (Some (preg_from_index index, mkIter bits' (it_cur it)))
          else it_next fuel' (mkIter (it_bits it) (S (it_cur it)))
      end
  end.

(* Draining the iterator (collect / for loops / last).  One outer unit of
   fuel per item; [None] is fuel exhaustion. *)
Fixpoint it_collect (fuel : nat) (it : psiter) : option (list preg) :=
  match fuel with
  | O => None
  | S fuel' =>
      match it_next (S LEN) it with
      | None => None
      | Some None => Some []
      | Some (Some (r, it')) =>
          match it_collect fuel' it' with
          | None => None
          | Some l => Some (r :: l)
          end
      end
  end.
(* at most 256 items; [ps_iter s = None] would mean the fuel was too small *)
Definition ps_iter (s : pregset) : option (list preg) :=
  it_collect (S (N.to_nat PREG_NUM_INDEX)) (ps_into_iter s).

(* src/lib.rs:303-305 max_preg: Iterator::last *)
Fixpoint last_opt (l : list preg) : option preg :=
  match l with [] => None | [x] => Some x | _ :: t => last_opt t end.
Definition ps_max_preg (s : pregset) : option (option preg) :=
  option_map last_opt (ps_iter s).

(* src/lib.rs:308-314 add_up_to: note that the last word is assigned, not or-ed *)
Fixpoint fill_below (s : pregset) (i : nat) : pregset :=
  match i, s with
  | O, _ => s
  | S j, w :: t => not64 0 :: fill_below t j
  | S _, [] => []
  end.
Definition ps_add_up_to (s : pregset) (r : preg) : pregset :=
  let (i, b) := split_index r in
  upd_word (fill_below s i) i (fun _ => N.shiftl 1 b - 1).

(* src/lib.rs:1531-1572 struct MachineEnv *)
Record machine_env := mkEnv {
  preferred_regs_by_class : list pregset;
  non_preferred_regs_by_class : list pregset;
  scratch_by_class : list (option preg);
  fixed_stack_slots : list preg
}.

(* src/lib.rs:377-391 From<&MachineEnv> *)
Definition ps_from_env (e : machine_env) : pregset :=
  let res := fold_left ps_union (preferred_regs_by_class e) ps_empty in
  fold_left ps_union (non_preferred_regs_by_class e) res.

(* src/lib.rs:393-401 FromIterator<PReg> *)
Definition ps_from_iter (l : list preg) : pregset := fold_left ps_add l ps_empty.
