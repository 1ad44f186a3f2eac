(* Requirements (src/ion/requirement.rs).  Model file: definitions only. *)
From Coq Require Import NArith List Bool.
From Verif Require Import Enc.
Import ListNotations.
Local Open Scope N_scope.

(* src/ion/requirement.rs:59-66 enum Requirement *)
Inductive requirement :=
| RAny | RRegister | RFixedReg (r : preg) | RLimit (n : N) | RStack | RFixedStack (r : preg).

(* src/ion/requirement.rs:69-93 Requirement::merge; [None] is Err(RequirementConflict) *)
Definition req_merge (a b : requirement) : option requirement :=
  match a, b with
  | other, RAny => Some other
  | RAny, other => Some other
  | RRegister, RRegister => Some a
  | RStack, RStack => Some a
  | RLimit m, RLimit n => Some (RLimit (N.min m n))
  | RFixedReg r, RFixedReg s => if r =? s then Some a else None
  | RFixedStack r, RFixedStack s => if r =? s then Some a else None
  | RLimit n, RRegister | RRegister, RLimit n => Some (RLimit n)
  | RLimit n, RFixedReg r | RFixedReg r, RLimit n => if preg_hw_enc r <? n then Some (RFixedReg r) else None
  | RRegister, RFixedReg r | RFixedReg r, RRegister => Some (RFixedReg r)
  | RStack, RFixedStack r | RFixedStack r, RStack => Some (RFixedStack r)
  | _, _ => None
  end.

(* src/ion/requirement.rs:96-102 is_stack *)
Definition req_is_stack (r : requirement) : bool :=
  match r with RStack | RFixedStack _ => true | _ => false end.
(* src/ion/requirement.rs:105-111 is_reg *)
Definition req_is_reg (r : requirement) : bool :=
  match r with RRegister | RFixedReg _ | RLimit _ => true | _ => false end.

(* src/ion/requirement.rs:116-130 requirement_from_operand; [is_stack] is
   self.pregs[preg.index()].is_stack, and [None] a panic of constraint() *)
Definition req_of_constraint (is_stack : preg -> bool) (k : constraint) : requirement :=
  match k with
  | CFixed r => if is_stack r then RFixedStack r else RFixedReg r
  | CReg | CReuse _ => RRegister
  | CLimit n => RLimit n
  | CStack => RStack
  | CAny => RAny
  end.
Definition req_of_operand (dbg : bool) (is_stack : preg -> bool) (o : operand) : option requirement :=
  option_map (req_of_constraint is_stack) (operand_constraint dbg o).

(* src/ion/requirement.rs:21-38 enum RequirementConflictAt *)
Inductive conflict_at := StackToReg (p : progpoint) | RegToStack (p : progpoint) | OtherAt (p : progpoint).
(* src/ion/requirement.rs:42-47 should_trim_edges_around_split *)
Definition should_trim (c : conflict_at) : bool := match c with OtherAt _ => true | _ => false end.
(* src/ion/requirement.rs:50-56 suggested_split_point *)
Definition split_point (c : conflict_at) : progpoint := match c with RegToStack p | StackToReg p | OtherAt p => p end.

(* Result<A, E> *)
Inductive result (A E : Type) := ROk (a : A) | RErr (e : E).
Arguments ROk {A E}. Arguments RErr {A E}.

(* The fields of Use (src/ion/data_structures.rs:189-195) that are read here:
   the position and the operand, the latter by its constraint; decoding the
   constraint is requirement_from_operand above.  [weight] is not modelled here. *)
Record ruse := mkUse { u_pos : progpoint; u_con : constraint }.

(* src/ion/requirement.rs:142-163 the body of the inner loop *)
Definition req_step (is_stack : preg -> bool) (st : requirement * progpoint) (u : ruse) : result (requirement * progpoint) conflict_at :=
  let (req, last_pos) := st in
  let r := req_of_constraint is_stack (u_con u) in
  match req_merge req r with
  | Some req' => ROk (req', u_pos u)
  | None =>
      if req_is_stack req && req_is_reg r then RErr (StackToReg (u_pos u))
      else if req_is_reg req && req_is_stack r then RErr (RegToStack last_pos)
      else RErr (OtherAt (u_pos u))
  end.
Fixpoint req_uses (is_stack : preg -> bool) (st : requirement * progpoint) (us : list ruse) : result (requirement * progpoint) conflict_at :=
  match us with
  | [] => ROk st
  | u :: t => match req_step is_stack st u with ROk st' => req_uses is_stack st' t | RErr e => RErr e end
  end.
Fixpoint req_ranges (is_stack : preg -> bool) (st : requirement * progpoint) (rs : list (list ruse)) : result (requirement * progpoint) conflict_at :=
  match rs with
  | [] => ROk st
  | us :: t => match req_uses is_stack st us with ROk st' => req_ranges is_stack st' t | RErr e => RErr e end
  end.

(* src/ion/requirement.rs:132-167 compute_requirement of a bundle, given as the
   use lists of its live ranges in order *)
Definition compute_requirement (is_stack : preg -> bool) (bundle : list (list ruse)) : result requirement conflict_at :=
  match req_ranges is_stack (RAny, pp_before (idx_new 0)) bundle with
  | ROk (req, _) => ROk req
  | RErr e => RErr e
  end.

(* src/ion/requirement.rs:169-182 merge_bundle_requirements; [None] is Err *)
Definition merge_bundle_requirements (is_stack : preg -> bool) (a b : list (list ruse)) : option requirement :=
  match compute_requirement is_stack a, compute_requirement is_stack b with
  | ROk ra, ROk rb => req_merge ra rb
  | _, _ => None
  end.
