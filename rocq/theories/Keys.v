(* Packed words of live ranges and bundles, and packed sort keys
   (src/ion/data_structures.rs).  Model file: definitions only.

   u32, u64 and u128 are N; a spill weight is the bit pattern of its f32
   (f32::to_bits and f32::from_bits are the identity on patterns).  [None] is a
   failed debug assertion. *)
From Coq Require Import NArith List Bool.
From Verif Require Import Enc.
Import ListNotations.
Local Open Scope N_scope.

(* a & !b on u32 *)
Definition not32 (b : N) : N := N.lxor b (2 ^ 32 - 1).

(* src/ion/data_structures.rs:130-133 enum LiveRangeFlag, repr(u32) *)
Definition STARTS_AT_DEF : N := 1.
(* (flag as u32) << 29 *)
Definition flag_bit (flag : N) : N := N.shiftl flag 29 mod 2 ^ 32.
Definition FLAG_MASK : N := 0xe0000000.
Definition WEIGHT_MASK : N := 0x1fffffff.

(* src/ion/data_structures.rs:137-139 set_flag *)
Definition lr_set_flag (w flag : N) : N := N.lor w (flag_bit flag).
(* src/ion/data_structures.rs:141-143 clear_flag *)
Definition lr_clear_flag (w flag : N) : N := N.land w (not32 (flag_bit flag)).
(* src/ion/data_structures.rs:145-149 assign_flag *)
Definition lr_assign_flag (w flag : N) (val : bool) : N :=
  N.lor (N.land w FLAG_MASK) (if val then flag_bit flag else 0).
(* src/ion/data_structures.rs:151-153 has_flag *)
Definition lr_has_flag (w flag : N) : bool := negb (N.land w (flag_bit flag) =? 0).
(* src/ion/data_structures.rs:155-157 flag_word *)
Definition lr_flag_word (w : N) : N := N.land w FLAG_MASK.
(* src/ion/data_structures.rs:159-161 merge_flags *)
Definition lr_merge_flags (w fw : N) : N := N.lor w fw.
(* src/ion/data_structures.rs:163-169 uses_spill_weight *)
Definition lr_weight (w : N) : N := N.shiftl (N.land w WEIGHT_MASK) 2 mod 2 ^ 32.
(* src/ion/data_structures.rs:171-175 set_uses_spill_weight *)
Definition lr_set_weight (w bits : N) : N :=
  N.lor (N.land w FLAG_MASK) (N.land (N.shiftr bits 2) WEIGHT_MASK).

(* src/ion/data_structures.rs:209-213 *)
Definition BUNDLE_MAX_SPILL_WEIGHT : N := N.shiftl 1 28 - 1.
Definition MINIMAL_FIXED_BUNDLE_SPILL_WEIGHT : N := BUNDLE_MAX_SPILL_WEIGHT.
Definition MINIMAL_LIMITED_BUNDLE_SPILL_WEIGHT : N := BUNDLE_MAX_SPILL_WEIGHT - 1.
Definition MINIMAL_BUNDLE_SPILL_WEIGHT : N := MINIMAL_LIMITED_BUNDLE_SPILL_WEIGHT - 256.
Definition BUNDLE_MAX_NORMAL_SPILL_WEIGHT : N := MINIMAL_BUNDLE_SPILL_WEIGHT - 1.

(* src/ion/data_structures.rs:217-231 set_cached_spill_weight_and_props *)
Definition lb_set (dbg : bool) (weight : N) (minimal fixed fixed_def stack : bool) : option N :=
  if dbg && negb (weight <=? BUNDLE_MAX_SPILL_WEIGHT) then None
  else Some (N.lor (N.lor (N.lor (N.lor weight
         (if minimal then N.shiftl 1 31 else 0)) (if fixed then N.shiftl 1 30 else 0))
         (if fixed_def then N.shiftl 1 29 else 0)) (if stack then N.shiftl 1 28 else 0)).
(* src/ion/data_structures.rs:233-251 cached_minimal, cached_fixed, cached_fixed_def, cached_stack *)
Definition lb_minimal (w : N) : bool := negb (N.land w (N.shiftl 1 31) =? 0).
Definition lb_fixed (w : N) : bool := negb (N.land w (N.shiftl 1 30) =? 0).
Definition lb_fixed_def (w : N) : bool := negb (N.land w (N.shiftl 1 29) =? 0).
Definition lb_stack (w : N) : bool := negb (N.land w (N.shiftl 1 28) =? 0).
(* src/ion/data_structures.rs:253-266 set_cached_fixed, set_cached_fixed_def, set_cached_stack *)
Definition lb_set_fixed (w : N) : N := N.lor w (N.shiftl 1 30).
Definition lb_set_fixed_def (w : N) : N := N.lor w (N.shiftl 1 29).
Definition lb_set_stack (w : N) : N := N.lor w (N.shiftl 1 28).
(* src/ion/data_structures.rs:268-271 cached_spill_weight *)
Definition lb_weight (w : N) : N := N.land w BUNDLE_MAX_SPILL_WEIGHT.

(* src/ion/data_structures.rs:988-990 u64_key *)
Definition u64_key (b a : N) : N := N.lor a (N.shiftl b 32).
(* src/ion/data_structures.rs:992-994 u128_key *)
Definition u128_key (d c b a : N) : N := N.lor (N.lor (N.lor a (N.shiftl b 32)) (N.shiftl c 64)) (N.shiftl d 96).

(* src/ion/data_structures.rs:355-375 BlockparamOut (the raw u32 of each index) and its key *)
Record bp_out := mkBpOut { bo_to_vreg : N; bo_to_block : N; bo_from_block : N; bo_from_vreg : N }.
Definition bo_key (o : bp_out) : N := u128_key (bo_from_vreg o) (bo_from_block o) (bo_to_block o) (bo_to_vreg o).
(* src/ion/data_structures.rs:381-399 BlockparamIn and its key *)
Record bp_in := mkBpIn { bi_from_block : N; bi_to_block : N; bi_to_vreg : N }.
Definition bi_key (i : bp_in) : N := u128_key (bi_to_vreg i) (bi_to_block i) (bi_from_block i) 0.

(* src/ion/data_structures.rs:831-840 enum InsertMovePrio; [as u32] gives the position *)
Inductive move_prio := PInEdgeMoves | PRegular | PMultiFixedRegInitial | PMultiFixedRegSecondary | PReusedInput | POutEdgeMoves.
Definition prio_u32 (p : move_prio) : N :=
  match p with
  | PInEdgeMoves => 0 | PRegular => 1 | PMultiFixedRegInitial => 2 | PMultiFixedRegSecondary => 3
  | PReusedInput => 4 | POutEdgeMoves => 5
  end.
(* src/ion/data_structures.rs:933-945 PosWithPrio and its key *)
Record pos_prio := mkPosPrio { pp_prio : N; pp_point : progpoint }.
Definition pos_prio_key (p : pos_prio) : N := u64_key (pp_to_index (pp_point p)) (pp_prio p).
