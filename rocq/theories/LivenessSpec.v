(* Specification of liveness: paths and the definitions and uses on them. *)
From Coq Require Import NArith List Bool Arith.
From Verif Require Import Enc Func GraphSpec.
Import ListNotations.
Open Scope nat_scope.

(* a definition or a use of a vreg, by number *)
Inductive event := EvDef (n : N) | EvUse (n : N).
Definition op_event (o : oper) : event := match o_kind o with Def => EvDef (vreg_num (o_vreg o)) | Use => EvUse (vreg_num (o_vreg o)) end.
(* operands in a register outside the allocator's reach do not count *)
Definition real_ops (l : list oper) : list oper := filter (fun o => match o_fixed_nonalloc o with None => true | Some _ => false end) l.
(* An instruction: what is at the early position, then what is at the late
   position.  At one position the last operand counts first; this matters only if
   an instruction uses and defines one vreg there (C32_uses_first). *)
Definition inst_events (f : func) (i : nat) : list event :=
  let ops := real_ops (f_operands f i) in map op_event (rev (filter is_early ops) ++ rev (filter is_late ops)).
(* the arguments that the last instruction of [b] passes *)
Definition out_args (f : func) (b : nat) : list vreg :=
  let last := snd (f_insns f b) - 1 in
  if f_is_branch f last then flat_map (fun k => f_bargs f b last k) (seq 0 (length (f_succs f b))) else [].
(* a block: the parameters are defined, the instructions, the arguments are used *)
Definition block_events (f : func) (b : nat) : list event :=
  map (fun v => EvDef (vreg_num v)) (f_params f b) ++ flat_map (inst_events f) (span (f_insns f b)) ++ map (fun v => EvUse (vreg_num v)) (out_args f b).

(* a path of blocks from [b] *)
Inductive walk (f : func) : nat -> list nat -> Prop :=
| walk_here b : walk f b [b]
| walk_on b c l : In c (f_succs f b) -> walk f c l -> walk f b (b :: l).
(* some path from the start of [b] comes to a use before any definition *)
Definition live_in (f : func) (b : nat) (n : N) : Prop :=
  exists l t1 t2, walk f b l /\ flat_map (block_events f) l = t1 ++ EvUse n :: t2 /\ ~ In (EvDef n) t1.
Definition live_out (f : func) (b : nat) (n : N) : Prop := exists c, In c (f_succs f b) /\ live_in f c n.

(* the vregs mentioned in [b] *)
Definition mentions (f : func) (b : nat) : list vreg :=
  f_params f b ++ flat_map (fun i => map o_vreg (real_ops (f_operands f i))) (span (f_insns f b)) ++ out_args f b.
(* vregs are numbered below the number of vregs and have a class, the same
   wherever they are mentioned *)
Definition vregs_known (f : func) (cls : list (option regclass)) : Prop :=
  forall b v, b < f_nblocks f -> In v (mentions f b) -> (v < 2 ^ 32)%N /\ N.to_nat (vreg_num v) < length cls /\ exists c, vreg_class v = Some c /\
    (nth_error cls (N.to_nat (vreg_num v)) = Some None \/ nth_error cls (N.to_nat (vreg_num v)) = Some (Some c)) /\
    forall b' v', b' < f_nblocks f -> In v' (mentions f b') -> vreg_num v' = vreg_num v -> vreg_class v' = Some c.
