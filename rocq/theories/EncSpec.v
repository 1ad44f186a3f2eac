(* Specification vocabulary for the encodings. *)
From Verif Require Import Enc.
Local Open Scope N_scope.

(* A constraint that an operand of class [c] can carry: a fixed register must be
   a register of the class, a reuse index must fit five bits, a limit must be a
   power of two between 1 and 64. *)
Definition constraint_fits (c : regclass) (k : constraint) : Prop :=
  match k with
  | CAny | CReg | CStack => True
  | CFixed r => exists hw, hw <= 63 /\ preg_new true hw c = Some r
  | CReuse i => i <= 31
  | CLimit n => exists j, j <= 6 /\ n = 2 ^ j
  end.

(* "The operand [o] mentions [v] (of class [c]) with this constraint, kind and position." *)
Definition operand_is (dbg : bool) (o : operand) (v : vreg) (c : regclass)
           (k : constraint) (kd : okind) (p : opos) : Prop :=
  operand_vreg dbg o = Some v /\ operand_class o = Some c /\
  operand_constraint dbg o = Some k /\ operand_kind o = Some kd /\ operand_pos o = Some p.

(* "[a] is an allocation of kind [k] that names register [r] resp. slot [s]." *)
Definition allocation_is (a : allocation) (k : akind) (r : option preg) (s : option spillslot) : Prop :=
  alloc_kind a = Some k /\
  alloc_is_none a = Some (akind_eqb k KNone) /\ alloc_is_some a = Some (negb (akind_eqb k KNone)) /\
  alloc_is_reg a = Some (akind_eqb k KReg) /\ alloc_is_stack a = Some (akind_eqb k KStack) /\
  alloc_as_reg a = Some r /\ alloc_as_stack a = Some s.
