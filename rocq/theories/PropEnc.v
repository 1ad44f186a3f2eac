(* Properties C01-C06 and C45: the bit encodings. *)
From Coq Require Import NArith List.
From Verif Require Import Enc EncSpec EncProofs EncProps.
Local Open Scope N_scope.

(* C01 *)
Theorem C01_preg_roundtrip : forall dbg hw c, hw <= 63 ->
  exists r, preg_new dbg hw c = Some r /\ preg_hw_enc r = hw /\ preg_class r = Some c
            /\ preg_index r < PREG_NUM_INDEX /\ preg_index r = 64 * class_u8 c + hw.
Proof. exact preg_roundtrip. Qed.
Print Assumptions C01_preg_roundtrip.

Theorem C01_preg_injective : forall d1 d2 h1 c1 h2 c2 r, h1 <= 63 -> h2 <= 63 ->
  preg_new d1 h1 c1 = Some r -> preg_new d2 h2 c2 = Some r -> h1 = h2 /\ c1 = c2.
Proof. exact preg_new_inj. Qed.
Print Assumptions C01_preg_injective.

Theorem C01_preg_index_roundtrip : forall r, r < PREG_NUM_INDEX -> preg_from_index (preg_index r) = r.
Proof. exact preg_index_roundtrip. Qed.
Print Assumptions C01_preg_index_roundtrip.

(* The invalid register is hardware number 63 of class Int and no other one. *)
Theorem C01_preg_as_valid : forall dbg hw c r, hw <= 63 -> preg_new dbg hw c = Some r ->
  (preg_as_valid r = None <-> hw = 63 /\ c = Int) /\
  (preg_as_valid r = Some r <-> ~ (hw = 63 /\ c = Int)).
Proof. exact preg_as_valid_spec. Qed.
Print Assumptions C01_preg_as_valid.

Theorem C01_preg_out_of_range_rejected : forall hw c, 63 < hw -> preg_new true hw c = None.
Proof. exact preg_new_debug_rejects. Qed.
Print Assumptions C01_preg_out_of_range_rejected.

Example C01_nonvacuous : exists r, preg_new true 31 Vector = Some r /\ preg_class r = Some Vector /\ preg_hw_enc r = 31.
Proof. eexists. repeat split. Qed.

(* C02 *)
Theorem C02_vreg_roundtrip : forall dbg n c, n <= VREG_MAX ->
  exists v, vreg_new dbg n c = Some v /\ vreg_num v = n /\ vreg_class v = Some c
            /\ v < 2 ^ 32 /\ vreg_from_bits (vreg_bits v) = v.
Proof. exact vreg_roundtrip. Qed.
Print Assumptions C02_vreg_roundtrip.

Theorem C02_vreg_injective : forall d1 d2 n1 c1 n2 c2 v, n1 <= VREG_MAX -> n2 <= VREG_MAX ->
  vreg_new d1 n1 c1 = Some v -> vreg_new d2 n2 c2 = Some v -> n1 = n2 /\ c1 = c2.
Proof. exact vreg_new_inj. Qed.
Print Assumptions C02_vreg_injective.

Theorem C02_vreg_max_is_30_bits : VREG_MAX = 2 ^ 30 - 1.
Proof. exact vreg_max_val. Qed.
Print Assumptions C02_vreg_max_is_30_bits.

Theorem C02_vreg_invalid_only : forall dbg n c v, n <= VREG_MAX -> vreg_new dbg n c = Some v ->
  (Some v = vreg_invalid dbg <-> n = VREG_MAX /\ c = Int).
Proof. exact vreg_invalid_only. Qed.
Print Assumptions C02_vreg_invalid_only.

Example C02_nonvacuous : exists v, vreg_new true 1000000 Float = Some v /\ vreg_num v = 1000000.
Proof. eexists. split; reflexivity. Qed.

(* C03 *)
Theorem C03_slot_roundtrip : forall dbg n, n < 2 ^ 24 ->
  exists s, slot_new dbg n = Some s /\ slot_index s = n /\
            slot_is_valid s = true /\ slot_is_invalid s = false.
Proof. exact slot_roundtrip'. Qed.
Print Assumptions C03_slot_roundtrip.

Theorem C03_slot_plus : forall dbg n off s, n + off < 2 ^ 24 -> slot_new dbg n = Some s ->
  exists s', slot_plus dbg s off = Some s' /\ slot_index s' = n + off /\ slot_is_valid s' = true.
Proof. exact slot_plus_spec'. Qed.
Print Assumptions C03_slot_plus.

Theorem C03_slot_out_of_range_rejected : forall n, 2 ^ 24 <= n -> slot_new true n = None.
Proof. exact slot_new_debug_rejects. Qed.
Print Assumptions C03_slot_out_of_range_rejected.

Theorem C03_slot_invalid : slot_is_valid slot_invalid = false /\ slot_is_invalid slot_invalid = true.
Proof. exact slot_invalid_spec. Qed.
Print Assumptions C03_slot_invalid.

Example C03_nonvacuous : exists s, slot_new true 70000 = Some s /\ slot_plus true s 3 = Some 70003.
Proof. eexists. split; reflexivity. Qed.

(* C04 *)
Theorem C04_operand_roundtrip : forall dbg n cl v k kd p,
  n <= VREG_MAX -> vreg_new dbg n cl = Some v -> constraint_fits cl k ->
  exists o, operand_new dbg v k kd p = Some o /\ operand_is dbg o v cl k kd p /\
    o < 2 ^ 43 /\ operand_from_bits dbg (operand_bits o) = Some o.
Proof. exact operand_roundtrip'. Qed.
Print Assumptions C04_operand_roundtrip.

Theorem C04_operand_injective : forall dbg n1 cl1 v1 k1 kd1 p1 n2 cl2 v2 k2 kd2 p2 o,
  n1 <= VREG_MAX -> vreg_new dbg n1 cl1 = Some v1 -> constraint_fits cl1 k1 ->
  n2 <= VREG_MAX -> vreg_new dbg n2 cl2 = Some v2 -> constraint_fits cl2 k2 ->
  operand_new dbg v1 k1 kd1 p1 = Some o -> operand_new dbg v2 k2 kd2 p2 = Some o ->
  v1 = v2 /\ k1 = k2 /\ kd1 = kd2 /\ p1 = p2.
Proof. exact operand_new_inj. Qed.
Print Assumptions C04_operand_injective.

(* Limits that are not a power of two up to 64 are refused in every build. *)
Theorem C04_operand_bad_limit_rejected : forall dbg v n kd p,
  (~ exists j, j <= 6 /\ n = 2 ^ j) -> operand_new dbg v (CLimit n) kd p = None.
Proof. exact operand_limit_rejected. Qed.
Print Assumptions C04_operand_bad_limit_rejected.

Theorem C04_operand_wrong_class_rejected : forall n cl hw cr v r kd p,
  n <= VREG_MAX -> vreg_new true n cl = Some v -> hw <= 63 -> preg_new true hw cr = Some r ->
  cr <> cl -> operand_new true v (CFixed r) kd p = None.
Proof. exact operand_fixed_wrong_class_rejected. Qed.
Print Assumptions C04_operand_wrong_class_rejected.

(* Every named constructor. *)
Theorem C04_named_constructors : forall dbg n cl v r hw i,
  n <= VREG_MAX -> vreg_new dbg n cl = Some v ->
  hw <= 63 -> preg_new dbg hw cl = Some r -> i <= 31 ->
  let builds (x : option operand) k kd p := exists o, x = Some o /\ operand_is dbg o v cl k kd p in
  builds (reg_use dbg v) CReg Use Early /\
  builds (reg_use_at_end dbg v) CReg Use Late /\
  builds (reg_def dbg v) CReg Def Late /\
  builds (reg_def_at_start dbg v) CReg Def Early /\
  builds (reg_temp dbg v) CReg Def Early /\
  builds (reg_reuse_def dbg v i) (CReuse i) Def Late /\
  builds (reg_fixed_use dbg v r) (CFixed r) Use Early /\
  builds (reg_fixed_def dbg v r) (CFixed r) Def Late /\
  builds (reg_fixed_use_at_end dbg v r) (CFixed r) Use Late /\
  builds (reg_fixed_def_at_start dbg v r) (CFixed r) Def Early /\
  builds (any_use dbg v) CAny Use Early /\
  builds (any_def dbg v) CAny Def Late.
Proof. exact named_constructors. Qed.
Print Assumptions C04_named_constructors.

Theorem C04_fixed_nonallocatable : forall dbg hw c r,
  hw <= 63 -> preg_new dbg hw c = Some r ->
  exists o, fixed_nonallocatable dbg r = Some o /\
    as_fixed_nonallocatable dbg o = Some (Some r) /\
    operand_constraint dbg o = Some (CFixed r) /\
    operand_kind o = Some Use /\ operand_pos o = Some Early /\ operand_class o = Some c.
Proof. exact fixed_nonalloc_roundtrip. Qed.
Print Assumptions C04_fixed_nonallocatable.

Theorem C04_as_fixed_nonallocatable_exact : forall dbg n cl v k kd p o,
  n <= VREG_MAX -> vreg_new dbg n cl = Some v -> constraint_fits cl k ->
  operand_new dbg v k kd p = Some o ->
  forall r, as_fixed_nonallocatable dbg o = Some (Some r) <-> k = CFixed r /\ n = VREG_MAX.
Proof. exact as_fixed_nonalloc_exact. Qed.
Print Assumptions C04_as_fixed_nonallocatable_exact.

Example C04_nonvacuous : exists v r, vreg_new true 12345 Float = Some v /\ preg_new true 7 Float = Some r
  /\ constraint_fits Float (CFixed r) /\ constraint_fits Float (CLimit 16) /\ constraint_fits Float (CReuse 31).
Proof.
  eexists. eexists. repeat split; try reflexivity.
  - exists 7. split; [discriminate|reflexivity].
  - exists 4. split; [discriminate|reflexivity].
  - discriminate.
Qed.

(* C05 *)
Theorem C05_alloc_none : forall dbg, exists a, alloc_none dbg = Some a /\ allocation_is a KNone None None.
Proof. exact alloc_none_spec'. Qed.
Print Assumptions C05_alloc_none.

Theorem C05_alloc_reg : forall dbg r, r < PREG_NUM_INDEX ->
  exists a, alloc_reg dbg r = Some a /\ allocation_is a KReg (Some r) None /\ alloc_index a = preg_index r.
Proof. exact alloc_reg_spec'. Qed.
Print Assumptions C05_alloc_reg.

Theorem C05_alloc_stack : forall dbg n s, n < 2 ^ 24 -> slot_new dbg n = Some s ->
  exists a, alloc_stack dbg s = Some a /\ allocation_is a KStack None (Some s) /\ alloc_index a = n.
Proof. exact alloc_stack_spec'. Qed.
Print Assumptions C05_alloc_stack.

Theorem C05_alloc_bits_release : forall a, alloc_from_bits false (alloc_bits a) = Some a.
Proof. exact alloc_release_bits. Qed.
Print Assumptions C05_alloc_bits_release.

(* Finding: with debug assertions on, from_bits rejects the bits of *every*
   allocation (the assertion reads [bits >> 29 >= 5] but kinds are 0, 1, 2). *)
Theorem C05_alloc_bits_debug_refuted : forall k i a, i < 2 ^ 28 ->
  alloc_new true k i = Some a -> alloc_from_bits true (alloc_bits a) = None.
Proof. exact alloc_debug_bits_refuted. Qed.
Print Assumptions C05_alloc_bits_debug_refuted.

(* The converse of the debug assertion: whatever it accepts has no kind at all. *)
Theorem C05_alloc_from_bits_debug_accepts_only_garbage : forall b a, b < 2 ^ 32 ->
  alloc_from_bits true b = Some a -> alloc_kind a = None.
Proof. exact alloc_from_bits_debug_garbage. Qed.
Print Assumptions C05_alloc_from_bits_debug_accepts_only_garbage.

Example C05_nonvacuous : exists a, alloc_reg true 70 = Some a /\ alloc_as_reg a = Some (Some 70).
Proof. eexists. split; reflexivity. Qed.

(* C06 *)
(* The instruction comes back exactly for indices below 2^30 and for the top
   quarter (which contains Inst::invalid()); in between it does not. *)
Theorem C06_inst_roundtrip_iff : forall i p, i < 2 ^ 32 ->
  (pp_inst (pp_new i p) = i <-> (i < 2 ^ 30 \/ 2 ^ 31 + 2 ^ 30 <= i)).
Proof. exact pp_inst_roundtrip_iff. Qed.
Print Assumptions C06_inst_roundtrip_iff.

Theorem C06_pos_roundtrip : forall i p, pp_pos (pp_new i p) = Some p.
Proof. exact pp_pos_val. Qed.
Print Assumptions C06_pos_roundtrip.

Theorem C06_order : forall i p j q, i < 2 ^ 31 -> j < 2 ^ 31 ->
  (pp_new i p < pp_new j q <-> i < j \/ (i = j /\ p = Before /\ q = After)).
Proof. exact pp_order. Qed.
Print Assumptions C06_order.

Theorem C06_next_prev : forall dbg i, i < 2 ^ 31 ->
  pp_next dbg (pp_before i) = Some (pp_after i) /\
  pp_prev dbg (pp_after i) = Some (pp_before i) /\
  (i + 1 < 2 ^ 31 -> pp_next dbg (pp_after i) = Some (pp_before (i + 1)) /\
                     pp_prev dbg (pp_before (i + 1)) = Some (pp_after i)).
Proof. exact pp_next_prev. Qed.
Print Assumptions C06_next_prev.

Theorem C06_index_roundtrip : forall i p q, i < 2 ^ 30 ->
  pp_from_index (pp_to_index (pp_new i p)) = pp_new i p /\
  pp_new (pp_inst (pp_new i p)) p = pp_new i p /\
  (pp_to_index (pp_new i p) = pp_to_index (pp_new i q) -> p = q).
Proof. exact pp_index_roundtrip. Qed.
Print Assumptions C06_index_roundtrip.

Theorem C06_invalid : pp_inst pp_invalid = idx_invalid /\ pp_pos pp_invalid = Some Before.
Proof. exact pp_invalid_spec. Qed.
Print Assumptions C06_invalid.

(* Finding: the claimed round trip fails above 2^30 instructions. *)
Theorem C06_inst_roundtrip_refuted : exists i, i < 2 ^ 31 /\ pp_inst (pp_before i) <> i.
Proof. exact pp_inst_refuted. Qed.
Print Assumptions C06_inst_roundtrip_refuted.

Example C06_nonvacuous : pp_inst (pp_after 123456) = 123456 /\ pp_before 123456 < pp_after 123456.
Proof. split; reflexivity. Qed.

(* C45 *)
Theorem C45_inst_range : forall dbg a b, a <= b -> b < idx_invalid ->
  exists r, ir_new dbg a b = Some r /\ ir_len dbg r = Some (b - a) /\
    (exists l, ir_iter dbg r = Some l /\ N.of_nat (length l) = b - a /\
       forall k, (k < length l)%nat -> nth_error l k = Some (a + N.of_nat k)) /\
    (a < b -> ir_first dbg r = Some a /\ ir_last dbg r = Some (b - 1) /\
              ir_rest dbg r = ir_new dbg (a + 1) b).
Proof. exact ir_spec'. Qed.
Print Assumptions C45_inst_range.

(* first, last and rest refuse the empty range in a debug build *)
Theorem C45_empty_range_rejected : forall a, a < idx_invalid ->
  exists r, ir_new true a a = Some r /\ ir_first true r = None /\ ir_last true r = None /\ ir_rest true r = None.
Proof. exact ir_empty. Qed.
Print Assumptions C45_empty_range_rejected.

Example C45_nonvacuous : exists r, ir_new true 3 6 = Some r /\ ir_iter true r = Some [3; 4; 5].
Proof. eexists. split; reflexivity. Qed.
