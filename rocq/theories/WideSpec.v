(* Stack slots of more than one index.  What is asked of the slots, the operands and the
   edits of an output, and the execution of an output on a frame made of words. *)
From Coq Require Import NArith List Bool Arith.
From Verif Require Import Enc PRegSet Func Spill SpillSpec Output Checker CheckerSpec.
Import ListNotations.
Open Scope nat_scope.

(* ---------------- the layout of the frame ---------------- *)
(* the slots, each with the class of the values that it holds *)
Definition layout := list (spillslot * regclass).
Section Layout.
  Variable f : func.
  Definition takes (c : regclass) (s : spillslot) (i : N) : Prop := SpillSpec.occupies (f_named_by_last f) (f_spillslot_size f c) s i.

  (* Slots that share an index are the same slot with the same class; every slot is
     aligned, lies below [fin], and holds the index that names it. *)
  Record layout_ok (lay : layout) (fin : N) : Prop := {
    ly_apart : forall s t c d i, In (s, c) lay -> In (t, d) lay -> takes c s i -> takes d t i -> s = t /\ c = d;
    ly_aligned : forall s c, In (s, c) lay -> power_of_two (f_spillslot_size f c) /\ (first_index (f_named_by_last f) (f_spillslot_size f c) s mod f_spillslot_size f c = 0)%N /\ takes c s s;
    ly_below : forall s c i, In (s, c) lay -> takes c s i -> (i < fin)%N
  }.

  (* a location for values of the class *)
  Definition fits (lay : layout) (c : regclass) (a : aloc) : Prop :=
    match a with
    | AReg r => preg_class r = Some c
    | AStack s => In (s, c) lay
    | ANone => False
    end.

  (* Operands are in locations of the class of their vregs (operands outside the
     allocator's reach are in registers); the two ends of an edit are of one class, and
     one of them is a register. *)
  Definition operand_fits (lay : layout) (o : oper) (a : aloc) : Prop :=
    match o_fixed_nonalloc o with
    | Some _ => exists r, a = AReg r
    | None => exists c, vreg_class (o_vreg o) = Some c /\ fits lay c a
    end.
  Definition edit_fits (lay : layout) (e : edit) : Prop :=
    exists c, fits lay c (e_from e) /\ fits lay c (e_to e) /\ ((exists r, e_from e = AReg r) \/ exists r, e_to e = AReg r).
  Record output_fits (lay : layout) (o : output) : Prop := {
    of_opers : forall b i al k op a, b < f_nblocks f -> In i (span (f_insns f b)) -> inst_allocs o i = Some al -> nth_error (f_operands f i) k = Some op -> nth_error al k = Some a -> operand_fits lay op a;
    of_edits : forall p e, In (p, e) (out_edits o) -> edit_fits lay e
  }.
End Layout.

(* ---------------- execution on words ---------------- *)
(* [V]: values in registers; [X]: words of the frame; a value of class [c] is stored as
   the words [split c v] and read back with [join c].  Instructions leave anything in the
   registers that they may overwrite ([junk]) and in each word of the slots that they
   define ([junkw]).  Otherwise as in CheckerSpec. *)
Section Words.
  Context {V X W : Type}.
  Variable split : regclass -> V -> list X.
  Variable join : regclass -> list X -> V.
  Variable sem : W -> nat -> list V -> (nat -> V) * W.
  Variable pick : W -> nat -> nat.
  Variable junk : W -> nat -> preg -> V.
  Variable junkw : W -> nat -> N -> X.
  Variable f : func.

  Record wstore := mkW { w_reg : preg -> V; w_mem : N -> X }.
  (* the indices of a slot *)
  Definition first_of (c : regclass) (s : spillslot) : N := first_index (f_named_by_last f) (f_spillslot_size f c) s.
  Definition indices (c : regclass) (s : spillslot) : list N := map (fun k => (first_of c s + N.of_nat k)%N) (seq 0 (N.to_nat (f_spillslot_size f c))).
  Definition within (c : regclass) (s : spillslot) (i : N) : bool := (first_of c s <=? i)%N && (i <? first_of c s + f_spillslot_size f c)%N.

  Definition wread (t : wstore) (c : option regclass) (a : aloc) : option V :=
    match a, c with
    | AReg r, _ => Some (w_reg t r)
    | AStack s, Some c => Some (join c (map (w_mem t) (indices c s)))
    | _, _ => None
    end.
  Definition wwrite (t : wstore) (c : option regclass) (a : aloc) (v : V) : option wstore :=
    match a, c with
    | AReg r, _ => Some (mkW (fun q => if N.eqb q r then v else w_reg t q) (w_mem t))
    | AStack s, Some c => Some (mkW (w_reg t) (fun i => if within c s i then nth (N.to_nat (i - first_of c s)) (split c v) (w_mem t i) else w_mem t i))
    | _, _ => None
    end.
  (* an edit moves as many words as the class of its register has *)
  Definition edit_class (e : edit) : option regclass :=
    match e_from e, e_to e with
    | AReg r, _ => preg_class r
    | _, AReg r => preg_class r
    | _, _ => None
    end.
  Definition wmove (t : wstore) (e : edit) : option wstore :=
    match wread t (edit_class e) (e_from e) with
    | None => None
    | Some v => wwrite t (edit_class e) (e_to e) v
    end.

  Definition op_class (o : oper) : option regclass := vreg_class (o_vreg o).
  Fixpoint wreads (t t' : wstore) (ops : list (oper * aloc)) : option (list V) :=
    match ops with
    | [] => Some []
    | (o, a) :: r =>
        if reads o then
          match wread (if is_early o then t else t') (op_class o) a, wreads t t' r with Some x, Some l => Some (x :: l) | _, _ => None end
        else wreads t t' r
    end.
  Fixpoint wdefs (k : nat) (ops : list (oper * aloc)) (d : nat -> V) (t : wstore) : option wstore :=
    match ops with
    | [] => Some t
    | (o, a) :: r => if is_def o then match wwrite t (op_class o) a (d k) with None => None | Some t' => wdefs (S k) r d t' end else wdefs (S k) r d t
    end.
  (* the words of the slots that are defined *)
  Definition defines_word (ops : list (oper * aloc)) (i : N) : bool :=
    existsb (fun oa => is_def (fst oa) && match snd oa, op_class (fst oa) with AStack s, Some c => within c s i | _, _ => false end) ops.
  Definition wstep (i : nat) (ops : list (oper * aloc)) (t : wstore) (w : W) : option (event * wstore * W) :=
    let mid := mkW (fun r => if defines ops (AReg r) || clobbered f i (AReg r) then junk w i r else w_reg t r)
                   (fun x => if defines_word ops x then junkw w i x else w_mem t x) in
    match wreads t mid ops with
    | None => None
    | Some xs =>
        let (d, w') := sem w i xs in
        match wdefs 0 ops d mid with
        | None => None
        | Some t1 => Some ((i, xs), mkW (fun r => if clobbered f i (AReg r) then junk w' i r else w_reg t1 r) (w_mem t1), w')
        end
    end.
  Fixpoint wblock (o : output) (items : list item) (t : wstore) (w : W) : option (list event * wstore * W) :=
    match items with
    | [] => Some ([], t, w)
    | IEdit e :: r => match wmove t e with None => None | Some t' => wblock o r t' w end
    | IInst i :: r =>
        match inst_allocs o i with
        | None => None
        | Some al =>
            match wstep i (combine (f_operands f i) al) t w with
            | None => None
            | Some (ev, t', w') =>
                match wblock o r t' w' with
                | None => None
                | Some (evs, t2, w2) => Some (ev :: evs, t2, w2)
                end
            end
        end
    end.
  Fixpoint wrun (o : output) (n b : nat) (t : wstore) (w : W) : option (list event) :=
    match n with
    | O => Some []
    | S n' =>
        match block_insts_and_edits o (f_insns f b) with
        | None => None
        | Some items =>
            match wblock o items t w with
            | None => None
            | Some (evs, t', w') =>
                match nth_error (f_succs f b) (pick w' b) with
                | None => Some evs
                | Some s => option_map (app evs) (wrun o n' s t' w')
                end
            end
        end
    end.
End Words.
Arguments wstore : clear implicits.

(* the allocated program reads what the original program reads, with the values that are
   spilled stored as words *)
Definition wide_reads (f : func) (o : output) : Prop :=
  forall (V X W : Type) (split : regclass -> V -> list X) join sem pick junk junkw,
    (forall c v, length (split c v) = N.to_nat (f_spillslot_size f c) /\ join c (split c v) = v) ->
    forall n (t : wstore V X) (w : W) evs,
      vrun sem pick f n (f_entry f) (fun _ => None) w = Some evs -> wrun split join sem pick junk junkw f o n (f_entry f) t w = Some evs.
