(* What the final edits have to do, on the contents of registers and slots while
   a block runs.  No reference to the algorithms of ResolveMoves.v, only to its
   records. *)
From Coq Require Import NArith List Bool Arith Sorted.
From Verif Require Import Enc PRegSet PRegSetSpec RegTraversalSpec Func Ranges RangesSpec Spill SpillSpec Process ProcessSpec Moves MovesSpec ResolveMoves.
From Verif Require Keys.
Import ListNotations.
Open Scope nat_scope.

(* the bits of Allocation::reg and Allocation::stack (C05) *)
Definition regN (r : preg) : N := (2 ^ 29 + r)%N.
Definition slotN (s : N) : N := (2 ^ 30 + s)%N.

Section Spec.
  Context {V : Type} (env : penv) (f : func) (pregs : list (bmap V)) (al : nat -> nat -> N).

  Definition dedicated (c : regclass) (r : preg) : Prop := nth_error (scratch_by_class (pe_menv env)) (N.to_nat (class_u8 c)) = Some (Some r).

  (* ---- the block runs ---- *)
  (* what an instruction may overwrite: results, clobbers, dedicated scratch registers *)
  Definition writes (i : nat) (x : N) : Prop :=
    (exists k o, nth_error (f_operands f i) k = Some o /\ is_def o = true /\ x = al i k) \/
    (exists r, (r < 256)%N /\ ps_contains (f_clobbers f i) r = true /\ x = regN r) \/
    (exists c r, dedicated c r /\ x = regN r).
  (* the edits at a point with the priority number [q], in order *)
  Definition edits_at (es : list edit) (p : ppt) (q : N) : list (mv unit) :=
    map (fun e => (ed_from e, ed_to e, tt)) (filter (fun e => (fst (ed_key e) =? p) && (Keys.prio_u32 (snd (ed_key e)) =? q)%N) es).
  (* [reaches es p q st]: with the edits [es], the contents can be [st] when the
     edits at [p] with priority number below [q] have been done.  A block is
     entered with any contents. *)
  Inductive reaches {W : Type} (es : list edit) : ppt -> N -> @store W -> Prop :=
  | rs_entry b st : b < f_nblocks f -> fst (f_insns f b) < snd (f_insns f b) -> reaches es (p_before (fst (f_insns f b))) 0%N st
  | rs_edits p q st : reaches es p q st -> (q < 6)%N -> reaches es p (q + 1)%N (exec (edits_at es p q) st)
  | rs_inst i st st' : reaches es (p_before i) 6%N st -> (forall x, ~ writes i x -> st' x = st x) -> reaches es (p_after i) 0%N st'
  | rs_next b i st : b < f_nblocks f -> fst (f_insns f b) <= i -> S i < snd (f_insns f b) -> reaches es (p_after i) 6%N st -> reaches es (p_before (S i)) 0%N st.

  (* ---- what was asked for ---- *)
  Definition requested (ms : list imove) (p : ppt) (q : N) (m : imove) : Prop := In m ms /\ im_pos m = p /\ Keys.prio_u32 (im_prio m) = q.
  (* nothing is reserved in the register at the point *)
  Definition unreserved (r : preg) (p : ppt) : Prop :=
    exists m, nth_error pregs (N.to_nat r) = Some m /\ forall k v, In (k, v) m -> ~ inr (kr k) p.
  (* the locations that may be overwritten at a key: new slots, and, of a class
     that is moved, the dedicated scratch register and registers that are not
     reserved and not mentioned *)
  Definition spare (ms : list imove) (n0 n1 : N) (p : ppt) (q : N) (x : N) : Prop :=
    (exists s, (n0 <= s < n1)%N /\ x = slotN s) \/
    (exists c r m, requested ms p q m /\ vreg_class (im_vreg m) = Some c /\ x = regN r /\
       (dedicated c r \/ allocatable env c r /\ unreserved r p /\ forall m', requested ms p q m' -> im_from m' <> x /\ im_to m' <> x)).
  (* all moves at once; only spare locations change otherwise *)
  Definition moved {W} (req : imove -> Prop) (E : N -> Prop) (st st' : @store W) : Prop :=
    (forall m, req m -> st' (im_to m) = st (im_from m)) /\
    (forall x, (forall m, req m -> im_to m <> x) -> ~ E x -> st' x = st x).

  (* ---- what is assumed ---- *)
  (* a register (or a fixed stack slot) of the class other than a dedicated
     scratch, or one of the first [n] slots *)
  Definition loc_of (c : regclass) (n : N) (x : N) : Prop :=
    (exists r, (r < 256)%N /\ preg_class r = Some c /\ ~ dedicated c r /\ x = regN r) \/ (exists s, (s < n)%N /\ x = slotN s).
  Record machine_ok : Prop := {
    mo_env : penv_ok env;
    mo_apart : forall c r, ~ (env_regs (preferred_regs_by_class (pe_menv env)) c r /\ env_regs (non_preferred_regs_by_class (pe_menv env)) c r);
    mo_three : length (scratch_by_class (pe_menv env)) = 3;
    mo_scratch : forall c r, dedicated c r -> (r < 256)%N /\ preg_class r = Some c /\ pe_stack env r = false /\ ~ allocatable env c r;
    mo_pregs : length pregs = 256 /\ forall m, In m pregs -> bm_ok m;
    mo_clobbers : forall i, ps_wf (f_clobbers f i);
    mo_blocks : forall i b, pe_insn_block env i = Some b <-> b < f_nblocks f /\ fst (f_insns f b) <= i < snd (f_insns f b)
  }.
  (* Moves between locations of their class, one writer of a location per key;
     classes do not share slots; the extra slots (at most two of each class,
     with their alignment) can be named. *)
  Record moves_given (ms : list imove) (n0 B : N) : Prop := {
    mg_pos : forall m, In m ms -> im_pos m < 2 * pe_ninsts env;
    mg_locs : forall m, In m ms -> exists c, vreg_class (im_vreg m) = Some c /\ loc_of c n0 (im_from m) /\ loc_of c n0 (im_to m) /\
      (exists r, allocatable env c r) /\ power_of_two (f_spillslot_size f c) /\ (f_spillslot_size f c <= B)%N;
    mg_once : forall m m', In m ms -> In m' ms -> im_key m = im_key m' -> im_to m = im_to m' -> im_from m = im_from m' /\ im_vreg m = im_vreg m';
    mg_apart : forall m m' x, In m ms -> In m' ms -> im_key m = im_key m' -> x = im_from m \/ x = im_to m -> x = im_from m' \/ x = im_to m' ->
      vreg_class (im_vreg m) = vreg_class (im_vreg m');
    mg_room : (n0 + 12 * B < SPILLSLOT_MAX)%N
  }.
  (* the location of an edit: one of a move at the same key, a register that may
     be used there, the register that is borrowed, or a new slot *)
  Definition edit_loc (ms : list imove) (n0 n1 : N) (e : edit) (x : N) : Prop :=
    exists m c, In m ms /\ im_key m = ed_key e /\ vreg_class (im_vreg m) = Some c /\
      ((exists m', In m' ms /\ im_key m' = ed_key e /\ vreg_class (im_vreg m') = Some c /\ (x = im_from m' \/ x = im_to m')) \/
       (exists r, (allocatable env c r \/ dedicated c r) /\ x = regN r) \/
       (exists s, (n0 <= s < n1)%N /\ x = slotN s)).
  (* memory in the sense of the resolver: a slot, or a register that is a fixed stack slot *)
  Definition in_memory (x : N) : Prop := (exists s, (s < 2 ^ 28)%N /\ x = slotN s) \/ (exists r, (r < 256)%N /\ x = regN r /\ pe_stack env r = true).
End Spec.
