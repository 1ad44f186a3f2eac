(* Lru (src/fastalloc/lru.rs): registers of one class in order of use, as a
   circular doubly-linked list in a vector of 64 nodes.  Model file: definitions
   only.

   Node indices are naturals; [None] is a panic (an index of 64 or more, an
   explicit panic, or a failed check of validate_lru with debug assertions). *)
From Coq Require Import NArith List Bool Arith.
From Verif Require Import Enc PRegSet Postorder.
Import ListNotations.

(* src/fastalloc/lru.rs:10-28 struct Lru, struct LruNode *)
Record lru := mkLru { lr_prev : nat -> nat; lr_next : nat -> nat; lr_head : nat; lr_class : regclass }.
(* u8::MAX: no node *)
Definition LNONE : nat := 255.
(* the length of [data]: PReg::MAX + 1 *)
Definition LLEN : nat := N.to_nat PREG_MAX + 1.
Definition inb (i : nat) : bool := i <? LLEN.
Definition hwn (r : preg) : nat := N.to_nat (preg_hw_enc r).

(* src/fastalloc/lru.rs:31-58 Lru::new, after collecting the set.  The indexing
   panics cannot occur: hw_enc is six bits and i is below the length. *)
Definition lru_new_list (c : regclass) (regs : list preg) : lru :=
  let n := length regs in
  let '(pv, nx) :=
    fold_left (fun d i =>
      let reg := nth i regs 0%N in
      let prev_reg := nth (match i with O => n - 1 | S j => j end) regs 0%N in
      let next_reg := nth (if n - 1 <=? i then 0 else i + 1) regs 0%N in
      (fset (fst d) (hwn reg) (hwn prev_reg), fset (snd d) (hwn reg) (hwn next_reg)))
      (seq 0 n) ((fun _ => LNONE), (fun _ => LNONE)) in
  mkLru pv nx (match regs with [] => LNONE | r :: _ => hwn r end) c.
Definition lru_new (c : regclass) (s : pregset) : option lru := option_map (lru_new_list c) (ps_iter s).

(* src/fastalloc/lru.rs:186-188 is_empty *)
Definition lru_is_empty (l : lru) : bool := lr_head l =? LNONE.

(* src/fastalloc/lru.rs:198-212 the cycle search of validate_lru; [false] is a
   panic (or fuel exhaustion) *)
Fixpoint val_walk (fuel : nat) (l : lru) (node : nat) (seen : list nat) : bool :=
  match fuel with
  | O => false
  | S fuel' =>
      if node =? lr_head l then true
      else if existsb (Nat.eqb node) seen then false
      else if inb node then val_walk fuel' l (lr_next l node) (node :: seen) else false
  end.
(* src/fastalloc/lru.rs:213-241 the check of node i *)
Definition val_node (l : lru) (i : nat) : bool :=
  if (lr_prev l i =? LNONE) && (lr_next l i =? LNONE) then true
  else if (lr_prev l i =? LNONE) || (lr_next l i =? LNONE) then false
  else inb (lr_prev l i) && (lr_next l (lr_prev l i) =? i) && inb (lr_next l i) && (lr_prev l (lr_next l i) =? i).
(* src/fastalloc/lru.rs:191-243 validate_lru *)
Definition validate_lru (l : lru) : bool :=
  if lr_head l =? LNONE then true
  else inb (lr_head l) && val_walk (S LLEN) l (lr_next l (lr_head l)) [] && forallb (val_node l) (seq 0 LLEN).
(* if cfg!(debug_assertions) { self.validate_lru(); } *)
Definition validated (dbg : bool) (l : lru) : option lru := if dbg && negb (validate_lru l) then None else Some l.

(* src/fastalloc/lru.rs:135-167 remove *)
Definition lru_remove (dbg : bool) (l : lru) (k : nat) : option lru :=
  if inb k then
    let iprev := lr_prev l k in
    let inext := lr_next l k in
    if inb iprev && inb inext then
      let next1 := fset (lr_next l) iprev inext in
      let prev1 := fset (lr_prev l) inext iprev in
      let head := if k =? lr_head l then (if k =? inext then LNONE else inext) else lr_head l in
      validated dbg (mkLru (fset prev1 k LNONE) (fset next1 k LNONE) head (lr_class l))
    else None
  else None.

(* src/fastalloc/lru.rs:169-184 insert_before *)
Definition lru_insert_before (dbg : bool) (l : lru) (i j : nat) : option lru :=
  if inb j then
    let prev := lr_prev l j in
    if inb prev && inb i then
      let next1 := fset (lr_next l) prev i in
      let prev1 := fset (lr_prev l) j i in
      validated dbg (mkLru (fset prev1 i prev) (fset next1 i j) (lr_head l) (lr_class l))
    else None
  else None.

(* src/fastalloc/lru.rs:61-84 poke *)
Definition lru_poke (dbg : bool) (l : lru) (r : preg) : option lru :=
  let prev_newest := lr_head l in
  let k := hwn r in
  if k =? prev_newest then Some l
  else if inb prev_newest then
    let l1 :=
      if lr_prev l prev_newest =? k then Some l
      else match lru_remove dbg l k with
           | Some l' => lru_insert_before dbg l' k (lr_head l')
           | None => None
           end in
    match l1 with
    | Some l' => validated dbg (mkLru (lr_prev l') (lr_next l') k (lr_class l'))
    | None => None
    end
  else None.

(* src/fastalloc/lru.rs:87-104 pop *)
Definition lru_pop (dbg : bool) (l : lru) : option preg :=
  if lru_is_empty l then None
  else if inb (lr_head l) then
    match validated dbg l with
    | Some _ => preg_new dbg (N.of_nat (lr_prev l (lr_head l))) (lr_class l)
    | None => None
    end
  else None.

(* src/fastalloc/lru.rs:113-133 last_satisfying.  The outer [None] is a panic or
   fuel exhaustion, the inner one the Rust None. *)
Fixpoint ls_loop (fuel : nat) (dbg : bool) (l : lru) (f : preg -> bool) (init last : nat) : option (option preg) :=
  match fuel with
  | O => None
  | S fuel' =>
      match preg_new dbg (N.of_nat last) (lr_class l) with
      | None => None
      | Some r =>
          if f r then Some (Some r)
          else if inb last then
            let last' := lr_prev l last in
            if last' =? init then Some None else ls_loop fuel' dbg l f init last'
          else None
      end
  end.
Definition lru_last_satisfying (dbg : bool) (l : lru) (f : preg -> bool) : option (option preg) :=
  if lru_is_empty l then None
  else if inb (lr_head l) then
    let last := lr_prev l (lr_head l) in ls_loop (S LLEN) dbg l f last last
  else None.

(* src/fastalloc/lru.rs:107-110 last *)
Definition lru_last (dbg : bool) (l : lru) (from : pregset) : option (option preg) :=
  lru_last_satisfying dbg l (ps_contains from).
