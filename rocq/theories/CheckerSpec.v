(* Specification vocabulary for the checker: what a state asserts, operand
   constraints, and the execution of the original and the allocated program. *)
From Coq Require Import NArith List Bool Arith Sorting.Sorted.
From Verif Require Import Enc PRegSet Func Output Checker.
Import ListNotations.

(* "the location [a] holds the value of virtual register [v]".  Top is the state
   of code not reached yet and asserts everything. *)
Definition asserts (s : cstate) (a : aloc) (v : vreg) : Prop :=
  match s with
  | Top => True
  | Allocs m =>
      match m_get m a with
      | None => False
      | Some Universe => True
      | Some (VRegs vs) => In v vs
      end
  end.

(* Two values / states are the same abstract set / map. *)
Definition value_eqv (x y : cvalue) : Prop :=
  match x, y with
  | Universe, Universe => True
  | VRegs a, VRegs b => forall v, In v a <-> In v b
  | _, _ => False
  end.
Definition opt_eqv (x y : option cvalue) : Prop :=
  match x, y with None, None => True | Some a, Some b => value_eqv a b | _, _ => False end.
Definition state_eqv (s t : cstate) : Prop :=
  match s, t with
  | Top, Top => True
  | Allocs m, Allocs n => forall a, opt_eqv (m_get m a) (m_get n a)
  | _, _ => False
  end.

(* The state at the end of block [b] on the way to [s]. *)
Definition edge_state (c : checker) (bb : nat -> cstate) (b s : nat) : option cstate :=
  match updates (bb b) (ck_insts c b) with
  | None => None
  | Some st => updates st (ck_edges c b s)
  end.

(* ---------------- operand constraints ---------------- *)
(* [a] satisfies [c]; [fixed_stack] are the registers that name stack slots,
   [allocs] the allocations of all operands of the instruction. *)
Definition con_ok (fixed_stack : list preg) (allocs : list aloc) (c : constraint) (a : aloc) : Prop :=
  match c with
  | CAny => True
  | CReg => exists r, a = AReg r /\ ~ In r fixed_stack
  | CStack => (exists s, a = AStack s) \/ (exists r, a = AReg r /\ In r fixed_stack)
  | CFixed r => a = AReg r
  | CReuse i => (exists r, a = AReg r) /\ nth_error allocs (N.to_nat i) = Some a
  | CLimit n => exists r, a = AReg r /\ (preg_hw_enc r < n)%N
  end.
(* what the checker really enforces: a limit only on registers *)
Definition con_ok_checked (fixed_stack : list preg) (allocs : list aloc) (c : constraint) (a : aloc) : Prop :=
  match c with
  | CLimit n => forall r, a = AReg r -> (preg_hw_enc r < n)%N
  | _ => con_ok fixed_stack allocs c a
  end.
Definition on_stack (fixed_stack : list preg) (a : aloc) : Prop :=
  (exists s, a = AStack s) \/ (exists r, a = AReg r /\ In r fixed_stack).

(* ---------------- execution ---------------- *)
(* [V]: run-time values; [W]: the rest of the machine (memory, I/O).
   [sem w i uses] is what instruction [i] computes: a value for each definition
   operand (by operand index) and the new world.  [pick] chooses the successor
   taken at the end of a block.  [junk] is what an instruction leaves in
   locations it may overwrite. *)
Section Exec.
  Context {V W : Type}.
  Variable sem : W -> nat -> list V -> (nat -> V) * W.
  Variable pick : W -> nat -> nat.
  Variable junk : W -> nat -> aloc -> V.
  Variable f : func.

  (* operands that read a virtual register *)
  Definition reads (o : oper) : bool :=
    is_use o && (match o_fixed_nonalloc o with None => true | Some _ => false end).

  Definition event := (nat * list V)%type.  (* instruction, values read *)

  (* --- the original program: virtual registers, [None] = not defined yet --- *)
  Definition venv := vreg -> option V.
  Definition vset (e : venv) (v : vreg) (x : option V) : venv := fun w => if N.eqb w v then x else e w.

  (* the values read; [None] if some register is undefined *)
  Fixpoint vread (e : venv) (ops : list oper) : option (list V) :=
    match ops with
    | [] => Some []
    | o :: t =>
        if reads o then
          match e (o_vreg o), vread e t with Some x, Some r => Some (x :: r) | _, _ => None end
        else vread e t
    end.
  Fixpoint vdefs (k : nat) (ops : list oper) (d : nat -> V) (e : venv) : venv :=
    match ops with
    | [] => e
    | o :: t => vdefs (S k) t d (if is_def o then vset e (o_vreg o) (Some (d k)) else e)
    end.
  Definition vstep (i : nat) (e : venv) (w : W) : option (event * venv * W) :=
    match vread e (f_operands f i) with
    | None => None
    | Some xs => let (d, w') := sem w i xs in Some ((i, xs), vdefs 0 (f_operands f i) d e, w')
    end.
  Fixpoint vblock (is : list nat) (e : venv) (w : W) : option (list event * venv * W) :=
    match is with
    | [] => Some ([], e, w)
    | i :: t =>
        match vstep i e w with
        | None => None
        | Some (ev, e', w') =>
            match vblock t e' w' with
            | None => None
            | Some (evs, e2, w2) => Some (ev :: evs, e2, w2)
            end
        end
    end.
  (* parallel assignment of block arguments to block parameters *)
  Fixpoint vpar (moves : list (vreg * vreg)) (old e : venv) : venv :=
    match moves with
    | [] => e
    | (p, a) :: t => vset (vpar t old e) p (old a)
    end.
  Definition vedge (b idx s : nat) (e : venv) : venv :=
    let last := snd (f_insns f b) - 1 in
    if f_is_branch f last then vpar (combine (f_params f s) (f_bargs f b last idx)) e e else e.
  (* run [n] blocks from block [b]; [None] when an undefined register is read *)
  Fixpoint vrun (n b : nat) (e : venv) (w : W) : option (list event) :=
    match n with
    | O => Some []
    | S n' =>
        match vblock (span (f_insns f b)) e w with
        | None => None
        | Some (evs, e', w') =>
            match nth_error (f_succs f b) (pick w' b) with
            | None => Some evs
            | Some s => option_map (app evs) (vrun n' s (vedge b (pick w' b) s e') w')
            end
        end
    end.

  (* --- the allocated program: locations always hold something --- *)
  Definition store := aloc -> V.
  Definition aset (t : store) (a : aloc) (x : V) : store := fun b => if aloc_eqb b a then x else t b.

  Definition clobbered (i : nat) (a : aloc) : bool :=
    match a with AReg r => ps_contains (f_clobbers f i) r | _ => false end.
  Definition defines (ops : list (oper * aloc)) (a : aloc) : bool :=
    existsb (fun oa => is_def (fst oa) && aloc_eqb (snd oa) a) ops.

  (* early operands read [t], late ones [t'] *)
  Fixpoint aread (t t' : store) (ops : list (oper * aloc)) : list V :=
    match ops with
    | [] => []
    | (o, a) :: r =>
        if reads o then (if is_early o then t a else t' a) :: aread t t' r else aread t t' r
    end.
  Fixpoint adefs (k : nat) (ops : list (oper * aloc)) (d : nat -> V) (t : store) : store :=
    match ops with
    | [] => t
    | (o, a) :: r => adefs (S k) r d (if is_def o then aset t a (d k) else t)
    end.
  (* early uses are read first; before the late uses are read every defined or
     clobbered location may already be overwritten; then the definitions are
     written and the clobbered registers hold junk *)
  Definition astep (i : nat) (ops : list (oper * aloc)) (t : store) (w : W) : event * store * W :=
    let mid : store := fun a => if defines ops a || clobbered i a then junk w i a else t a in
    let xs := aread t mid ops in
    let (d, w') := sem w i xs in
    let t1 := adefs 0 ops d mid in
    ((i, xs), (fun a => if clobbered i a then junk w' i a else t1 a), w').
  Fixpoint ablock (o : output) (items : list item) (t : store) (w : W) : option (list event * store * W) :=
    match items with
    | [] => Some ([], t, w)
    | IEdit e :: r => ablock o r (aset t (e_to e) (t (e_from e))) w
    | IInst i :: r =>
        match inst_allocs o i with
        | None => None
        | Some al =>
            let '(ev, t', w') := astep i (combine (f_operands f i) al) t w in
            match ablock o r t' w' with
            | None => None
            | Some (evs, t2, w2) => Some (ev :: evs, t2, w2)
            end
        end
    end.
  Fixpoint arun (o : output) (n b : nat) (t : store) (w : W) : option (list event) :=
    match n with
    | O => Some []
    | S n' =>
        match block_insts_and_edits o (f_insns f b) with
        | None => None
        | Some items =>
            match ablock o items t w with
            | None => None
            | Some (evs, t', w') =>
                match nth_error (f_succs f b) (pick w' b) with
                | None => Some evs
                | Some s => option_map (app evs) (arun o n' s t' w')
                end
            end
        end
    end.
End Exec.

(* ---------------- input conditions ---------------- *)
(* The documented input conditions that the checker relies on. *)
Record func_ok (f : func) : Prop := {
  fo_entry : f_entry f < f_nblocks f;
  (* successors exist and are distinct (implied by the no-critical-edge rule) *)
  fo_succs : forall b s, b < f_nblocks f -> In s (f_succs f b) -> s < f_nblocks f;
  fo_succs_nodup : forall b, b < f_nblocks f -> NoDup (f_succs f b);
  (* blocks are not empty and only the last instruction is a branch *)
  fo_nonempty : forall b, b < f_nblocks f -> fst (f_insns f b) < snd (f_insns f b);
  fo_range : forall b, b < f_nblocks f -> snd (f_insns f b) <= f_ninsts f;
  fo_branch : forall b i, b < f_nblocks f -> fst (f_insns f b) <= i -> i + 1 < snd (f_insns f b) ->
    f_is_branch f i = false;
  (* branch arguments match the parameters, parameters are distinct *)
  fo_args : forall b k s, b < f_nblocks f -> nth_error (f_succs f b) k = Some s ->
    f_is_branch f (snd (f_insns f b) - 1) = true ->
    length (f_bargs f b (snd (f_insns f b) - 1) k) = length (f_params f s);
  fo_params : forall b, b < f_nblocks f -> NoDup (f_params f b);
  fo_clobbers : forall i, length (f_clobbers f i) = 4 /\ Forall (fun w => (w < 2 ^ 64)%N) (f_clobbers f i)
}.

(* An instruction that reads a register late and does not define it (SSA). *)
Definition late_use_ok (ops : list oper) : Prop :=
  forall o d, In o ops -> In d ops -> reads o = true -> is_late o = true -> is_def d = true ->
    o_vreg d <> o_vreg o.
(* Late reads only in instructions without a reuse constraint. *)
Definition reuse_no_late_use (ops : list oper) : Prop :=
  existsb is_reuse ops = true -> forall o, In o ops -> reads o = true -> is_late o = false.

(* One allocation per operand. *)
Definition output_ok (f : func) (o : output) : Prop :=
  StronglySorted (fun a b => fst a <= fst b) (out_edits o) /\
  forall i, i < f_ninsts f -> exists al, inst_allocs o i = Some al /\ length al = length (f_operands f i).

(* No move from a location the checker knows nothing about to a location it
   knows something about, at any point of the analysis result. *)
Fixpoint moves_known (s : cstate) (l : list cinst) : Prop :=
  match l with
  | [] => True
  | i :: t =>
      (match i with
       | CMove into from => get_value s from = None -> get_value s into = None
       | _ => True
       end) /\
      (match update s i with Some s' => moves_known s' t | None => True end)
  end.
