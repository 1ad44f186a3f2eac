(* Register traversal (src/ion/reg_traversal.rs).  Model file: definitions only.
   The outer [None] of an iterator step is a panic or fuel exhaustion, the inner
   one the end of the iteration. *)
From Coq Require Import NArith List Bool.
From Verif Require Import Enc PRegSet.
Import ListNotations.
Local Open Scope N_scope.

(* src/ion/reg_traversal.rs:6-9 struct Cursor *)
Record cursor := mkCursor { c_first : psiter; c_second : psiter }.

(* src/ion/reg_traversal.rs:13-23 Cursor::new *)
Definition cursor_new (dbg : bool) (registers : pregset) (c : regclass) (offset_hint : N) : option cursor :=
  match preg_new dbg (offset_hint mod PREG_MAX) c with
  | None => None
  | Some r =>
      let mask := ps_add_up_to ps_empty r in
      Some (mkCursor (ps_into_iter (ps_inter registers (ps_invert mask))) (ps_into_iter (ps_inter registers mask)))
  end.

(* src/ion/reg_traversal.rs:25-27 Cursor::next.  An exhausted [first] is left as
   it is here; in Rust its word counter has run to the end, with the same answer
   to every further call. *)
Definition cursor_next (cu : cursor) : option (option preg * cursor) :=
  match it_next (S LEN) (c_first cu) with
  | None => None
  | Some (Some (r, it)) => Some (Some r, mkCursor it (c_second cu))
  | Some None =>
      match it_next (S LEN) (c_second cu) with
      | None => None
      | Some (Some (r, it)) => Some (Some r, mkCursor (c_first cu) it)
      | Some None => Some (None, cu)
      end
  end.

(* src/ion/reg_traversal.rs:45-53 struct RegTraversalIter *)
Record rtiter := mkRt {
  rt_is_fixed : bool; rt_fixed : option preg; rt_use_hint : bool; rt_hint : option preg;
  rt_preferred : cursor; rt_non_preferred : cursor; rt_limit : option N
}.

Definition preg_eqb_opt (a b : option preg) : bool :=
  match a, b with Some x, Some y => x =? y | None, None => true | _, _ => false end.
Definition is_some {A} (o : option A) : bool := match o with Some _ => true | None => false end.

(* src/ion/reg_traversal.rs:56-82 RegTraversalIter::new; [nth] on the three
   classes of the environment *)
Definition rt_new (dbg : bool) (e : machine_env) (c : regclass) (fixed hint : option preg) (offset : N) (limit : option N) : option rtiter :=
  if dbg && (preg_eqb_opt fixed (Some preg_invalid) || preg_eqb_opt hint (Some preg_invalid)) then None
  else
    let ci := N.to_nat (class_u8 c) in
    match nth_error (preferred_regs_by_class e) ci, nth_error (non_preferred_regs_by_class e) ci with
    | Some p, Some np =>
        match cursor_new dbg p c offset, cursor_new dbg np c offset with
        | Some cp, Some cn => Some (mkRt (is_some fixed) fixed (is_some hint) hint cp cn limit)
        | _, _ => None
        end
    | _, _ => None
    end.

(* [self.limit.unwrap_or(usize::MAX)]: usize has 64 bits *)
Definition rt_lim (limit : option N) : N := match limit with Some n => n | None => 2 ^ 64 - 1 end.

(* src/ion/reg_traversal.rs:100-105 (and 107-112) the loop over one cursor *)
Fixpoint rt_scan (fuel : nat) (hint : option preg) (lim : N) (cu : cursor) : option (option preg * cursor) :=
  match fuel with
  | O => None
  | S fuel' =>
      match cursor_next cu with
      | None => None
      | Some (None, cu') => Some (None, cu')
      | Some (Some r, cu') =>
          if preg_eqb_opt (Some r) hint || (lim <=? preg_hw_enc r) then rt_scan fuel' hint lim cu'
          else Some (Some r, cu')
      end
  end.
Definition SCAN_FUEL : nat := 257.

(* src/ion/reg_traversal.rs:88-115 RegTraversalIter::next *)
Definition rt_next (it : rtiter) : option (option preg * rtiter) :=
  if rt_is_fixed it then
    Some (rt_fixed it, mkRt true None (rt_use_hint it) (rt_hint it) (rt_preferred it) (rt_non_preferred it) (rt_limit it))
  else
    let lim := rt_lim (rt_limit it) in
    let scan :=
      match rt_scan SCAN_FUEL (rt_hint it) lim (rt_preferred it) with
      | None => None
      | Some (Some r, cp) => Some (Some r, mkRt false (rt_fixed it) false (rt_hint it) cp (rt_non_preferred it) (rt_limit it))
      | Some (None, cp) =>
          match rt_scan SCAN_FUEL (rt_hint it) lim (rt_non_preferred it) with
          | None => None
          | Some (q, cn) => Some (q, mkRt false (rt_fixed it) false (rt_hint it) cp cn (rt_limit it))
          end
      end in
    if rt_use_hint it then
      match rt_hint it with
      | None => None (* unwrap *)
      | Some h =>
          if preg_hw_enc h <? lim then
            Some (Some h, mkRt false (rt_fixed it) false (rt_hint it) (rt_preferred it) (rt_non_preferred it) (rt_limit it))
          else scan
      end
    else scan.

(* draining the iterator: a for loop that never breaks *)
Fixpoint rt_collect (fuel : nat) (it : rtiter) : option (list preg) :=
  match fuel with
  | O => None
  | S fuel' =>
      match rt_next it with
      | None => None
      | Some (None, _) => Some []
      | Some (Some r, it') => option_map (cons r) (rt_collect fuel' it')
      end
  end.
