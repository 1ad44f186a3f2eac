(* Bit encodings of regalloc2: PReg, VReg, SpillSlot, Operand, Allocation,
   Inst/Block indices, InstRange and ProgPoint.
   Model file: definitions only.

   Conventions.  A machine word is an [N]; casts and shifts that can drop bits
   carry an explicit [mod 2^k].  [usize] is taken as 64 bits.  A panic
   ([assert!], [unreachable!], arithmetic overflow in a debug build) is [None].
   [dbg = true] is a build with debug assertions and overflow checks,
   [dbg = false] a release build. *)
From Coq Require Export NArith List Bool.
Export ListNotations.
Local Open Scope N_scope.

#[global] Arguments N.add : simpl never.
#[global] Arguments N.mul : simpl never.
#[global] Arguments N.sub : simpl never.
#[global] Arguments N.pow : simpl never.
#[global] Arguments N.div : simpl never.
#[global] Arguments N.modulo : simpl never.
#[global] Arguments N.shiftl : simpl never.
#[global] Arguments N.shiftr : simpl never.
#[global] Arguments N.land : simpl never.
#[global] Arguments N.lor : simpl never.
#[global] Arguments N.log2 : simpl never.

Definition u8 (x : N) : N := x mod 2 ^ 8.
Definition u32 (x : N) : N := x mod 2 ^ 32.
Definition u64 (x : N) : N := x mod 2 ^ 64.

(* debug_assert!(c); r *)
Definition dassert {A} (dbg c : bool) (r : option A) : option A :=
  if dbg && negb c then None else r.

(* src/lib.rs:88-92 enum RegClass *)
Inductive regclass := Int | Float | Vector.

(* src/lib.rs:88-92 the discriminants; [class as u8] *)
Definition class_u8 (c : regclass) : N :=
  match c with Int => 0 | Float => 1 | Vector => 2 end.

(* src/lib.rs:138-143, 448-453, 948-953: the three identical matches from a
   two-bit field to a class; [None] is unreachable!() *)
Definition class_of_bits (b : N) : option regclass :=
  match b with 0 => Some Int | 1 => Some Float | 2 => Some Vector | _ => None end.

Definition regclass_eqb (a b : regclass) : bool :=
  match a, b with
  | Int, Int | Float, Float | Vector, Vector => true
  | _, _ => false
  end.

(* ------------------------------------------------------------------ *)
(* PReg: the [bits : u8] field *)
Definition preg := N.

(* src/lib.rs:115-118 *)
Definition PREG_MAX_BITS : N := 6.
Definition PREG_MAX : N := N.shiftl 1 PREG_MAX_BITS - 1.
Definition PREG_NUM_INDEX : N := N.shiftl 1 (PREG_MAX_BITS + 2).
Definition PREG_INVALID : N :=
  N.lor (u8 (N.shiftl (class_u8 Int) PREG_MAX_BITS)) (u8 PREG_MAX).

(* src/lib.rs:122-127 PReg::new *)
Definition preg_new (dbg : bool) (hw_enc : N) (c : regclass) : option preg :=
  dassert dbg (hw_enc <=? PREG_MAX)
    (Some (N.lor (u8 (N.shiftl (class_u8 c) PREG_MAX_BITS)) (u8 hw_enc))).

(* src/lib.rs:131-133 PReg::hw_enc *)
Definition preg_hw_enc (r : preg) : N := N.land r PREG_MAX.

(* src/lib.rs:137-144 PReg::class *)
Definition preg_class (r : preg) : option regclass :=
  class_of_bits (N.land (N.shiftr r PREG_MAX_BITS) 3).

(* src/lib.rs:150-152 PReg::index *)
Definition preg_index (r : preg) : N := r.

(* src/lib.rs:156-160 PReg::from_index *)
Definition preg_from_index (i : N) : preg := u8 (N.land i (PREG_NUM_INDEX - 1)).

(* src/lib.rs:164-168 PReg::invalid *)
Definition preg_invalid : preg := PREG_INVALID.

(* src/lib.rs:173-179 PReg::as_valid *)
Definition preg_as_valid (r : preg) : option preg :=
  if r =? PREG_INVALID then None else Some r.

(* ------------------------------------------------------------------ *)
(* VReg: the [bits : u32] field *)
Definition vreg := N.

(* src/lib.rs:429-430 *)
Definition VREG_MAX_BITS : N := 30.
Definition VREG_MAX : N := N.shiftl 1 VREG_MAX_BITS - 1.

(* src/lib.rs:433-438 VReg::new *)
Definition vreg_new (dbg : bool) (virt_reg : N) (c : regclass) : option vreg :=
  dassert dbg (virt_reg <=? VREG_MAX)
    (Some (N.lor (u32 (N.shiftl (u32 virt_reg) 2)) (class_u8 c))).

(* src/lib.rs:441-444 VReg::vreg *)
Definition vreg_num (v : vreg) : N := N.shiftr v 2.

(* src/lib.rs:447-454 VReg::class *)
Definition vreg_class (v : vreg) : option regclass := class_of_bits (N.land v 3).

(* src/lib.rs:457-459 VReg::invalid *)
Definition vreg_invalid (dbg : bool) : option vreg := vreg_new dbg VREG_MAX Int.

(* src/lib.rs:462-464 VReg::bits *)
Definition vreg_bits (v : vreg) : N := v.

(* src/lib.rs:467-476 VReg::from_bits, From<u32> *)
Definition vreg_from_bits (b : N) : vreg := b.

(* ------------------------------------------------------------------ *)
(* SpillSlot: the [bits : u32] field *)
Definition spillslot := N.

(* src/lib.rs:509 *)
Definition SPILLSLOT_MAX : N := N.shiftl 1 24 - 1.

(* src/lib.rs:513-516 SpillSlot::new *)
Definition slot_new (dbg : bool) (slot : N) : option spillslot :=
  dassert dbg (slot <=? SPILLSLOT_MAX) (Some (u32 slot)).

(* src/lib.rs:520-522 SpillSlot::index *)
Definition slot_index (s : spillslot) : N := N.land s 0x00ffffff.

(* src/lib.rs:526-528 SpillSlot::plus *)
Definition slot_plus (dbg : bool) (s : spillslot) (offset : N) : option spillslot :=
  slot_new dbg (slot_index s + offset).

(* src/lib.rs:532-546 SpillSlot::invalid, is_invalid, is_valid *)
Definition slot_invalid : spillslot := 0xffffffff.
Definition slot_is_invalid (s : spillslot) : bool := s =? slot_invalid.
Definition slot_is_valid (s : spillslot) : bool := negb (s =? slot_invalid).

(* ------------------------------------------------------------------ *)
(* src/lib.rs:567-585 enum OperandConstraint *)
Inductive constraint :=
| CAny | CReg | CStack
| CFixed (r : preg)
| CReuse (idx : N)
| CLimit (n : N).

(* src/lib.rs:604-607 enum OperandKind *)
Inductive okind := Def | Use.
Definition okind_u8 (k : okind) : N := match k with Def => 0 | Use => 1 end.

(* src/lib.rs:629-632 enum OperandPos *)
Inductive opos := Early | Late.
Definition opos_u8 (p : opos) : N := match p with Early => 0 | Late => 1 end.

(* src/lib.rs:658-676 struct Operand: the [bits : u64] field *)
Definition operand := N.

(* src/lib.rs:679-699 *)
Definition VREG_BITS : N := 32.
Definition VREG_SHIFT : N := 0.
Definition VREG_MASK : N := N.shiftl 1 VREG_BITS - 1.
Definition CLASS_BITS : N := 2.
Definition CLASS_SHIFT : N := VREG_SHIFT + VREG_BITS.
Definition CLASS_MASK : N := N.shiftl 1 CLASS_BITS - 1.
Definition POS_BITS : N := 1.
Definition POS_SHIFT : N := CLASS_SHIFT + CLASS_BITS.
Definition POS_MASK : N := N.shiftl 1 POS_BITS - 1.
Definition KIND_BITS : N := 1.
Definition KIND_SHIFT : N := POS_SHIFT + POS_BITS.
Definition KIND_MASK : N := N.shiftl 1 KIND_BITS - 1.
Definition CONSTRAINT_BITS : N := 7.
Definition CONSTRAINT_SHIFT : N := KIND_SHIFT + KIND_BITS.
Definition CONSTRAINT_MASK : N := N.shiftl 1 CONSTRAINT_BITS - 1.
Definition TOTAL_BITS : N := CONSTRAINT_SHIFT + CONSTRAINT_BITS.

(* usize::is_power_of_two, used at src/lib.rs:722 *)
Definition is_power_of_two (n : N) : bool := negb (n =? 0) && (2 ^ N.log2 n =? n).

(* src/lib.rs:709-731 the constraint field of Operand::new *)
Definition constraint_field (dbg : bool) (v : vreg) (c : constraint) : option N :=
  match c with
  | CAny => Some 0
  | CReg => Some 1
  | CStack => Some 2
  | CFixed r =>
      match dbg, preg_class r, vreg_class v with
      | true, Some cr, Some cv =>
          if regclass_eqb cr cv then Some (N.lor 0x40 (preg_hw_enc r)) else None
      | true, _, _ => None
      | false, _, _ => Some (N.lor 0x40 (preg_hw_enc r))
      end
  | CReuse which => dassert dbg (which <=? 31) (Some (N.lor 0x20 which))
  | CLimit max =>
      if is_power_of_two max then
        if max <=? PREG_MAX + 1 then
          dassert dbg (N.log2 max <=? 15) (Some (N.lor 0x10 (N.log2 max)))
        else None
      else None
  end.

(* src/lib.rs:703-742 Operand::new *)
Definition operand_new (dbg : bool) (v : vreg) (c : constraint) (k : okind) (p : opos)
  : option operand :=
  match constraint_field dbg v c with
  | None => None
  | Some cf =>
      match vreg_class v with
      | None => None
      | Some cl =>
          Some (N.lor (N.lor (N.lor (N.lor
                  (u64 (N.shiftl (vreg_num v) VREG_SHIFT))
                  (u64 (N.shiftl (class_u8 cl) CLASS_SHIFT)))
                  (u64 (N.shiftl (opos_u8 p) POS_SHIFT)))
                  (u64 (N.shiftl (okind_u8 k) KIND_SHIFT)))
                  (u64 (N.shiftl cf CONSTRAINT_SHIFT)))
      end
  end.

(* src/lib.rs:748-893 the named constructors *)
Definition reg_use dbg v := operand_new dbg v CReg Use Early.               (* 748-755 *)
Definition reg_use_at_end dbg v := operand_new dbg v CReg Use Late.         (* 761-768 *)
Definition reg_def dbg v := operand_new dbg v CReg Def Late.                (* 775-782 *)
Definition reg_def_at_start dbg v := operand_new dbg v CReg Def Early.      (* 796-803 *)
Definition reg_temp dbg v := operand_new dbg v CReg Def Early.              (* 818-828 *)
Definition reg_reuse_def dbg v i := operand_new dbg v (CReuse i) Def Late.  (* 836-843 *)
Definition reg_fixed_use dbg v r := operand_new dbg v (CFixed r) Use Early. (* 850-857 *)
Definition reg_fixed_def dbg v r := operand_new dbg v (CFixed r) Def Late.  (* 864-871 *)
Definition reg_fixed_use_at_end dbg v r := operand_new dbg v (CFixed r) Use Late. (* 875-882 *)
Definition reg_fixed_def_at_start dbg v r := operand_new dbg v (CFixed r) Def Early. (* 886-893 *)
Definition any_use dbg v := operand_new dbg v CAny Use Early.               (* 899-906 *)
Definition any_def dbg v := operand_new dbg v CAny Def Late.                (* 912-919 *)

(* src/lib.rs:925-932 Operand::fixed_nonallocatable *)
Definition fixed_nonallocatable (dbg : bool) (r : preg) : option operand :=
  match preg_class r with
  | None => None
  | Some c =>
      match vreg_new dbg VREG_MAX c with
      | None => None
      | Some v => operand_new dbg v (CFixed r) Use Early
      end
  end.

(* src/lib.rs:946-954 Operand::class *)
Definition operand_class (o : operand) : option regclass :=
  class_of_bits (N.land (N.shiftr o CLASS_SHIFT) CLASS_MASK).

(* src/lib.rs:939-942 Operand::vreg *)
Definition operand_vreg (dbg : bool) (o : operand) : option vreg :=
  match operand_class o with
  | None => None
  | Some c => vreg_new dbg (N.land (N.shiftr o VREG_SHIFT) VREG_MASK) c
  end.

(* src/lib.rs:959-966 Operand::kind *)
Definition operand_kind (o : operand) : option okind :=
  match N.land (N.shiftr o KIND_SHIFT) KIND_MASK with
  | 0 => Some Def | 1 => Some Use | _ => None
  end.

(* src/lib.rs:973-980 Operand::pos *)
Definition operand_pos (o : operand) : option opos :=
  match N.land (N.shiftr o POS_SHIFT) POS_MASK with
  | 0 => Some Early | 1 => Some Late | _ => None
  end.

(* src/lib.rs:985-1002 Operand::constraint *)
Definition operand_constraint (dbg : bool) (o : operand) : option constraint :=
  let f := N.land (N.shiftr o CONSTRAINT_SHIFT) CONSTRAINT_MASK in
  if negb (N.land f 0x40 =? 0) then
    match operand_class o with
    | None => None
    | Some c =>
        match preg_new dbg (N.land f 0x3f) c with
        | None => None
        | Some r => Some (CFixed r)
        end
    end
  else if negb (N.land f 0x20 =? 0) then Some (CReuse (N.land f 0x1f))
  else if negb (N.land f 0x10 =? 0) then Some (CLimit (N.shiftl 1 (N.land f 0x0f)))
  else match f with 0 => Some CAny | 1 => Some CReg | 2 => Some CStack | _ => None end.

(* src/lib.rs:1008-1013 Operand::as_fixed_nonallocatable.  The outer [option]
   is the panic, the inner one the Rust result. *)
Definition as_fixed_nonallocatable (dbg : bool) (o : operand) : option (option preg) :=
  match operand_constraint dbg o with
  | None => None
  | Some (CFixed r) =>
      match operand_vreg dbg o with
      | None => None
      | Some v => Some (if vreg_num v =? VREG_MAX then Some r else None)
      end
  | Some _ => Some None
  end.

(* src/lib.rs:1017-1027 Operand::bits, from_bits *)
Definition operand_bits (o : operand) : N := o.
Definition operand_from_bits (dbg : bool) (b : N) : option operand :=
  dassert dbg (N.shiftr b TOTAL_BITS =? 0) (Some b).

(* ------------------------------------------------------------------ *)
(* src/lib.rs:1200-1208 enum AllocationKind *)
Inductive akind := KNone | KReg | KStack.
Definition akind_u8 (k : akind) : N := match k with KNone => 0 | KReg => 1 | KStack => 2 end.
Definition akind_eqb (a b : akind) : bool :=
  match a, b with KNone, KNone | KReg, KReg | KStack, KStack => true | _, _ => false end.

(* src/lib.rs:1067-1072 struct Allocation: the [bits : u32] field *)
Definition allocation := N.

(* src/lib.rs:1093-1098 Allocation::new *)
Definition alloc_new (dbg : bool) (k : akind) (index : N) : option allocation :=
  dassert dbg (index <? N.shiftl 1 28)
    (Some (N.lor (u32 (N.shiftl (akind_u8 k) 29)) (u32 index))).

(* src/lib.rs:1103-1117 none, reg, stack *)
Definition alloc_none (dbg : bool) := alloc_new dbg KNone 0.
Definition alloc_reg (dbg : bool) (r : preg) := alloc_new dbg KReg (preg_index r).
Definition alloc_stack (dbg : bool) (s : spillslot) := alloc_new dbg KStack s.

(* src/lib.rs:1121-1128 Allocation::kind *)
Definition alloc_kind (a : allocation) : option akind :=
  match N.land (N.shiftr a 29) 7 with
  | 0 => Some KNone | 1 => Some KReg | 2 => Some KStack | _ => None
  end.

(* src/lib.rs:1132-1152 is_none, is_some, is_reg, is_stack *)
Definition alloc_is (k : akind) (a : allocation) : option bool :=
  match alloc_kind a with None => None | Some k' => Some (akind_eqb k' k) end.
Definition alloc_is_none := alloc_is KNone.
Definition alloc_is_some (a : allocation) : option bool :=
  match alloc_kind a with None => None | Some k => Some (negb (akind_eqb k KNone)) end.
Definition alloc_is_reg := alloc_is KReg.
Definition alloc_is_stack := alloc_is KStack.

(* src/lib.rs:1157-1159 Allocation::index *)
Definition alloc_index (a : allocation) : N := N.land a (N.shiftl 1 28 - 1).

(* src/lib.rs:1163-1181 as_reg, as_stack.  Outer [option]: panic. *)
Definition alloc_as_reg (a : allocation) : option (option preg) :=
  match alloc_kind a with
  | None => None
  | Some KReg => Some (Some (preg_from_index (alloc_index a)))
  | Some _ => Some None
  end.
Definition alloc_as_stack (a : allocation) : option (option spillslot) :=
  match alloc_kind a with
  | None => None
  | Some KStack => Some (Some (u32 (alloc_index a)))
  | Some _ => Some None
  end.

(* src/lib.rs:1185-1194 bits, from_bits; the assertion is copied literally *)
Definition alloc_bits (a : allocation) : N := a.
Definition alloc_from_bits (dbg : bool) (b : N) : option allocation :=
  dassert dbg (5 <=? N.shiftr b 29) (Some b).

(* ------------------------------------------------------------------ *)
(* src/index.rs:79-123 an index type (Inst, Block, ...): its [u32] field *)
Definition idx := N.
Definition idx_new (i : N) : idx := u32 i.                    (* 88-90 *)
Definition idx_invalid : idx := 0xffffffff.                   (* 97-99 *)
Definition idx_is_valid (i : idx) : bool := negb (i =? idx_invalid). (* 105-107 *)
Definition idx_is_invalid (i : idx) : bool := i =? idx_invalid.      (* 101-103 *)
(* 92-95 *)
Definition idx_index (dbg : bool) (i : idx) : option N :=
  dassert dbg (idx_is_valid i) (Some i).
(* 109-112; [+] on u32 overflows only for u32::MAX *)
Definition idx_next (dbg : bool) (i : idx) : option idx :=
  dassert dbg (idx_is_valid i) (dassert dbg (i + 1 <? 2 ^ 32) (Some (u32 (i + 1)))).
(* 114-117; [-] on u32 underflows for 0 *)
Definition idx_prev (dbg : bool) (i : idx) : option idx :=
  dassert dbg (idx_is_valid i) (dassert dbg (1 <=? i) (Some (u32 (i + 2 ^ 32 - 1)))).

(* ------------------------------------------------------------------ *)
(* src/lib.rs:1369-1372 enum InstPosition *)
Inductive ipos := Before | After.
Definition ipos_u8 (p : ipos) : N := match p with Before => 0 | After => 1 end.

(* src/lib.rs:1377-1379 struct ProgPoint: the [bits : u32] field; the derived
   order is the order of [bits]. *)
Definition progpoint := N.

(* src/lib.rs:1398-1413 new, before, after *)
Definition pp_new (inst : idx) (p : ipos) : progpoint :=
  N.lor (u32 (N.shiftl inst 1)) (ipos_u8 p).
Definition pp_before (i : idx) : progpoint := pp_new i Before.
Definition pp_after (i : idx) : progpoint := pp_new i After.

(* [x as i32 as usize] for a 32-bit word after an arithmetic shift right by one:
   the sign bit is copied; then [usize] sign-extends and Inst::new truncates to 32 bits *)
Definition sar1_32 (b : N) : N :=
  if N.testbit b 31 then N.lor (N.shiftr b 1) (N.shiftl 1 31) else N.shiftr b 1.

(* src/lib.rs:1417-1421 ProgPoint::inst *)
Definition pp_inst (p : progpoint) : idx := idx_new (sar1_32 p).

(* src/lib.rs:1426-1432 ProgPoint::pos *)
Definition pp_pos (p : progpoint) : option ipos :=
  match N.land p 1 with 0 => Some Before | 1 => Some After | _ => None end.

(* src/lib.rs:1438-1451 next, prev *)
Definition pp_next (dbg : bool) (p : progpoint) : option progpoint :=
  dassert dbg (p + 1 <? 2 ^ 32) (Some (u32 (p + 1))).
Definition pp_prev (dbg : bool) (p : progpoint) : option progpoint :=
  dassert dbg (1 <=? p) (Some (u32 (p + 2 ^ 32 - 1))).

(* src/lib.rs:1455-1463 to_index, from_index *)
Definition pp_to_index (p : progpoint) : N := p.
Definition pp_from_index (i : N) : progpoint := i.

(* src/lib.rs:1466-1468 invalid: [Inst::new(usize::MAX)] *)
Definition pp_invalid : progpoint := pp_before (idx_new (2 ^ 64 - 1)).

(* ------------------------------------------------------------------ *)
(* src/index.rs:144 struct InstRange(Inst, Inst) *)
Record instrange := mkRange { ir_from : idx; ir_to : idx }.

(* src/index.rs:148-151 InstRange::new *)
Definition ir_new (dbg : bool) (from to : idx) : option instrange :=
  match idx_index dbg from, idx_index dbg to with
  | Some a, Some b => dassert dbg (a <=? b) (Some (mkRange from to))
  | _, _ => None
  end.

(* src/index.rs:172-174 InstRange::len; the subtraction is on usize *)
Definition ir_len (dbg : bool) (r : instrange) : option N :=
  match idx_index dbg (ir_to r), idx_index dbg (ir_from r) with
  | Some b, Some a => dassert dbg (a <=? b) (Some (u64 (b + 2 ^ 64 - a)))
  | _, _ => None
  end.

(* debug_assert!(self.len() > 0) *)
Definition ir_nonempty_dbg (dbg : bool) (r : instrange) : bool :=
  match ir_len dbg r with Some n => 0 <? n | None => false end.

(* src/index.rs:154-157 first *)
Definition ir_first (dbg : bool) (r : instrange) : option idx :=
  dassert dbg (ir_nonempty_dbg dbg r) (Some (ir_from r)).

(* src/index.rs:160-163 last *)
Definition ir_last (dbg : bool) (r : instrange) : option idx :=
  dassert dbg (ir_nonempty_dbg dbg r) (idx_prev dbg (ir_to r)).

(* src/index.rs:166-169 rest *)
Definition ir_rest (dbg : bool) (r : instrange) : option instrange :=
  dassert dbg (ir_nonempty_dbg dbg r)
    (match idx_next dbg (ir_from r) with
     | Some n => ir_new dbg n (ir_to r)
     | None => None
     end).

(* [a..b] as a list, for a core::ops::Range *)
Fixpoint range_up (a : N) (n : nat) : list N :=
  match n with O => [] | S n' => a :: range_up (a + 1) n' end.

(* src/index.rs:177-179 iter, as the list of what it yields *)
Definition ir_iter (dbg : bool) (r : instrange) : option (list idx) :=
  match idx_index dbg (ir_from r), idx_index dbg (ir_to r) with
  | Some a, Some b => Some (map idx_new (range_up a (N.to_nat (b - a))))
  | _, _ => None
  end.
