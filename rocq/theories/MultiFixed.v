(* Several uses of a vreg at one point (src/ion/liveranges.rs:774-914) and the
   moves that fixups become (src/ion/moves.rs:665-686).  Model file: definitions
   only.  [None] is a panic. *)
From Coq Require Import NArith List Bool Arith.
From Verif Require Import Enc Func Vecs Ranges Ion PRegs Spill Process Merge LiveRanges.
Import ListNotations.
Open Scope nat_scope.

(* slice::chunk_by_mut(|a, b| a.pos == b.pos) *)
Fixpoint chunk (us : list use) : list (list use) :=
  match us with
  | [] => []
  | u :: t =>
      match chunk t with
      | (w :: g) :: gs => if iu_pos u =? iu_pos w then (u :: w :: g) :: gs else [u] :: (w :: g) :: gs
      | gs => [u] :: gs
      end
  end.

(* src/ion/liveranges.rs:802-808: requires_reg, num_fixed_reg, num_fixed_stack,
   first_reg_slot, first_stack_slot, min_limit ([None] is usize::MAX), max_fixed_reg *)
Record mscan := mkScan { ms_reg : bool; ms_nreg : nat; ms_nstack : nat; ms_freg : option nat; ms_fstack : option nat; ms_min : option N; ms_max : N }.
Definition scan_init : mscan := mkScan false 0 0 None None None 0%N.
(* Option::get_or_insert *)
Definition or_insert {A} (a : option A) (x : A) : option A := match a with None => Some x | Some y => Some y end.
(* src/ion/liveranges.rs:809-840 *)
Definition scan_use (is_stack : preg -> bool) (s : mscan) (u : use) : option mscan :=
  let k := iu_slot u in
  match o_con (iu_op u) with
  | CAny => Some (mkScan (ms_reg s) (ms_nreg s) (ms_nstack s) (or_insert (ms_freg s) k) (or_insert (ms_fstack s) k) (ms_min s) (ms_max s))
  | CReg | CReuse _ => Some (mkScan true (ms_nreg s) (ms_nstack s) (or_insert (ms_freg s) k) (ms_fstack s) (ms_min s) (ms_max s))
  | CLimit m => Some (mkScan true (ms_nreg s) (ms_nstack s) (or_insert (ms_freg s) k) (ms_fstack s) (Some (match ms_min s with None => m | Some n => N.min n m end)) (ms_max s))
  | CFixed r =>
      let mx := N.max (ms_max s) (preg_hw_enc r) in
      if is_stack r then Some (mkScan (ms_reg s) (ms_nreg s) (S (ms_nstack s)) (ms_freg s) (or_insert (ms_fstack s) k) (ms_min s) mx)
      else Some (mkScan true (S (ms_nreg s)) (ms_nstack s) (or_insert (ms_freg s) k) (ms_fstack s) (ms_min s) mx)
  | CStack => None
  end.
Fixpoint scan_uses (is_stack : preg -> bool) (us : list use) (s : mscan) : option mscan :=
  match us with [] => Some s | u :: t => let! s1 := scan_use is_stack s u in scan_uses is_stack t s1 end.
Definition below_limit (n : N) (m : option N) : bool := match m with None => true | Some l => (n <? l)%N end.
(* src/ion/liveranges.rs:842-846 *)
Definition no_conflict (s : mscan) : bool := (ms_nreg s + ms_nstack s <=? 1) && negb (ms_reg s && negb (ms_nstack s =? 0)) && below_limit (ms_max s) (ms_min s).

Definition any_use (u : use) : use := mkIu (any_oper (iu_op u)) (iu_pos u) (iu_slot u) (iu_weight u).
(* src/ion/liveranges.rs:859-902: the uses after the editing, the fixups and the
   registers to reserve.  get_or_insert runs unless the first condition fails. *)
Fixpoint edit_uses (is_stack : preg -> bool) (req : bool) (min : option N) (src : nat) (first : option preg) (us : list use) : list use * list fixup * list (preg * ppt) :=
  match us with
  | [] => ([], [], [])
  | u :: t =>
      match o_con (iu_op u) with
      | CFixed r =>
          let stk := req && is_stack r in
          let p := match first with Some p => p | None => r end in
          let q := edit_uses is_stack req min src (if stk then first else Some p) t in
          if negb stk && (p =? r)%N && below_limit (preg_hw_enc r) min then (u :: fst (fst q), snd (fst q), snd q)
          else (any_use u :: fst (fst q), mkFix (iu_pos u) src (iu_slot u) false r (vidx (o_vreg (iu_op u))) :: snd (fst q), (r, iu_pos u) :: snd q)
      | _ => let q := edit_uses is_stack req min src first t in (u :: fst (fst q), snd (fst q), snd q)
      end
  end.
(* src/ion/liveranges.rs:797-903 one group *)
Definition fix_group (is_stack : preg -> bool) (us : list use) : option (list use * list fixup * list (preg * ppt)) :=
  if length us <? 2 then Some (us, [], [])
  else
    let! s := scan_uses is_stack us scan_init in
    if no_conflict s then Some (us, [], [])
    else let! src := (if ms_reg s then ms_freg s else ms_fstack s) in Some (edit_uses is_stack (ms_reg s) (ms_min s) src None us).
Fixpoint fix_groups (is_stack : preg -> bool) (gs : list (list use)) : option (list use * list fixup * list (preg * ppt)) :=
  match gs with
  | [] => Some ([], [], [])
  | g :: t => let! a := fix_group is_stack g in let! b := fix_groups is_stack t in
      Some (fst (fst a) ++ fst (fst b), snd (fst a) ++ snd (fst b), snd a ++ snd b)
  end.
(* src/ion/liveranges.rs:905-911 *)
Fixpoint reserve_each (dbg : bool) (cl : list (preg * ppt)) (st : ion) : option ion :=
  match cl with
  | [] => Some st
  | (r, p) :: t => let! st1 := reserve dbg st (cr_singleton p) (N.to_nat r) in reserve_each dbg t st1
  end.
(* src/ion/liveranges.rs:774-914 fixup_multi_fixed_vregs *)
Definition fix_range (dbg : bool) (is_stack : preg -> bool) (s : brst) (i : nat) : option brst :=
  let! d := nth_error (io_ranges (br_ion s)) i in
  let! q := fix_groups is_stack (chunk (lr_uses d)) in
  let! st1 := upd_range (br_ion s) i (fun d => lr_with_uses d (fst (fst q))) in
  let! st2 := reserve_each dbg (snd q) st1 in
  Some (mkBr st2 (br_param s) (br_fix s ++ snd (fst q)) (br_outs s) (br_ins s) (br_allocs s)).
Fixpoint fix_ranges (dbg : bool) (is_stack : preg -> bool) (l : list nat) (s : brst) : option brst :=
  match l with [] => Some s | i :: t => let! s1 := fix_range dbg is_stack s i in fix_ranges dbg is_stack t s1 end.
Definition fix_multi (dbg : bool) (is_stack : preg -> bool) (s : brst) : option brst :=
  fix_ranges dbg is_stack (flat_map (fun vd => map snd (vd_ranges vd)) (io_vregs (br_ion s))) s.

(* src/ion/moves.rs:665-686: fixups become moves.  [al] is the table of
   allocations by instruction and slot; its bounds checks are left out.  A move is
   the point, whether its priority is MultiFixedRegInitial (or else Secondary),
   the locations and the vreg.  InsertedMoves::push leaves out moves from a
   location to itself (src/ion/data_structures.rs:846-881). *)
Definition atab := nat -> nat -> N.
Definition set_at (al : atab) (i k : nat) (a : N) : atab := fun i' k' => if (i' =? i) && (k' =? k) then a else al i' k'.
Record fmove := mkFm { fm_pos : ppt; fm_initial : bool; fm_from : N; fm_to : N; fm_vreg : nat }.
Fixpoint run_fixups (dbg : bool) (fs : list fixup) (al : atab) : option (list fmove * atab) :=
  match fs with
  | [] => Some ([], al)
  | x :: t =>
      let i := pt_inst (fx_pos x) in
      let from := al i (fx_from x) in
      let! to := alloc_reg dbg (fx_preg x) in
      let! q := run_fixups dbg t (set_at al i (fx_to x) to) in
      Some ((if (from =? to)%N then [] else [mkFm (fx_pos x) (fx_initial x) from to (fx_vreg x)]) ++ fst q, snd q)
  end.
