(* What a debugger sees: the contents of vregs and of locations around every
   instruction that is executed. *)
From Coq Require Import NArith List Bool Arith.
From Verif Require Import Enc PRegSet Func Output Checker CheckerSpec ApplySpec Serialize DebugLoc.
Import ListNotations.
Open Scope nat_scope.

Section Trace.
  Context {V W : Type}.
  Variable sem : W -> nat -> list V -> (nat -> V) * W.
  Variable pick : W -> nat -> nat.
  Variable junk : W -> nat -> aloc -> V.
  Variable f : func.

  (* --- the original program: an instruction, the vregs before it and after it --- *)
  Definition vview : Type := (nat * @venv V * @venv V)%type.
  Fixpoint vblock_trace (is : list nat) (e : @venv V) (w : W) : option (list vview * @venv V * W) :=
    match is with
    | [] => Some ([], e, w)
    | i :: t =>
        match vstep sem f i e w with
        | None => None
        | Some (_, e', w') =>
            match vblock_trace t e' w' with
            | None => None
            | Some (l, e2, w2) => Some ((i, e, e') :: l, e2, w2)
            end
        end
    end.
  Fixpoint vtrace (n b : nat) (e : @venv V) (w : W) : option (list vview) :=
    match n with
    | O => Some []
    | S n' =>
        match vblock_trace (span (f_insns f b)) e w with
        | None => None
        | Some (l, e', w') =>
            match nth_error (f_succs f b) (pick w' b) with
            | None => Some l
            | Some s => option_map (app l) (vtrace n' s (vedge f b (pick w' b) s e') w')
            end
        end
    end.

  (* --- the allocated program: an instruction, the locations right before it (after
     the edits before it) and right after it --- *)
  Definition aview : Type := (nat * @store V * @store V)%type.
  Fixpoint ablock_trace (o : output) (items : list item) (t : @store V) (w : W) : option (list aview * @store V * W) :=
    match items with
    | [] => Some ([], t, w)
    | IEdit e :: r => ablock_trace o r (aset t (e_to e) (t (e_from e))) w
    | IInst i :: r =>
        match inst_allocs o i with
        | None => None
        | Some al =>
            let '(_, t', w') := astep sem junk f i (combine (f_operands f i) al) t w in
            match ablock_trace o r t' w' with
            | None => None
            | Some (l, t2, w2) => Some ((i, t, t') :: l, t2, w2)
            end
        end
    end.
  Fixpoint atrace (o : output) (n b : nat) (t : @store V) (w : W) : option (list aview) :=
    match n with
    | O => Some []
    | S n' =>
        match block_insts_and_edits o (f_insns f b) with
        | None => None
        | Some items =>
            match ablock_trace o items t w with
            | None => None
            | Some (l, t', w') =>
                match nth_error (f_succs f b) (pick w' b) with
                | None => Some l
                | Some s => option_map (app l) (atrace o n' s t' w')
                end
            end
        end
    end.
End Trace.

(* the last instruction of a block with one successor that can be reached otherwise as
   well: the moves over the edge are in front of it *)
Definition edge_moves_at (f : func) (i : nat) : Prop :=
  exists b s, b < f_nblocks f /\ i = last_of f b /\ f_succs f b = [s] /\ (s = f_entry f \/ 1 < length (f_preds f s)).
(* no input of the instruction is reused but those that are [v] *)
Definition reuses_only (f : func) (i : nat) (v : vreg) : Prop :=
  forall o n u, In o (f_operands f i) -> o_con o = CReuse n -> nth_error (f_operands f i) (N.to_nat n) = Some u -> o_vreg u = v.
Definition leaves (f : func) (i : nat) (v : vreg) : Prop := forall o, In o (f_operands f i) -> is_def o = true -> o_vreg o <> v.

(* The locations [dl] reported for the requests [ls] are right in the view [y] of what is
   [x] in terms of vregs.  A location that contains the point after an instruction holds
   the vreg right after it.  One that contains the point before an instruction, which does
   not define the vreg, holds it right before it; where an input that is another vreg is
   reused this is said of locations that go on after the instruction. *)
Definition told {V} (f : func) (ls : list label) (dl : list dloc) (x : @vview V) (y : @aview V) : Prop :=
  let '(i, e, e') := x in
  let '(j, t, t') := y in
  i = j /\
  forall l from to a, In (l, from, to, a) dl ->
  exists v p q, In (v, p, q, l) ls /\ p_before p <= from /\ to <= p_before q /\
    (~ edge_moves_at f i ->
      (from <= p_after i < to -> forall z, e' v = Some z -> t' (loc_at a) = z) /\
      (from <= p_before i < to -> leaves f i v -> (p_after i < to \/ reuses_only f i v) -> forall z, e v = Some z -> t (loc_at a) = z)).
(* in every execution *)
Definition locations_right (f : func) (ls : list label) (dl : list dloc) (o : output) : Prop :=
  forall (V W : Type) sem pick junk n (t : @store V) (w : W) l,
    vtrace sem pick f n (f_entry f) (fun _ => None) w = Some l ->
    exists l', atrace sem pick junk f o n (f_entry f) t w = Some l' /\ Forall2 (told f ls dl) l l'.
