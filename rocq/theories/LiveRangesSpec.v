(* Specification of live ranges: which points a vreg occupies. *)
From Coq Require Import NArith List Bool Arith Sorted Permutation.
From Verif Require Import Enc PRegSet PRegSetSpec Func Vecs IndexSet IndexSetProofs Ranges RangesSpec Ion PRegs PRegsSpec Spill Process ProcessSpec LivenessSpec LiveRanges.
From Verif Require Keys.
Import ListNotations.
Open Scope nat_scope.

Definition vnum (v : vreg) : nat := N.to_nat (vreg_num v).
(* the input that the first reusing operand of an instruction reuses *)
Definition reused (f : func) (i : nat) : option vreg :=
  match find is_reuse (f_operands f i) with
  | Some o => match o_con o with CReuse k => option_map o_vreg (nth_error (f_operands f i) (N.to_nat k)) | _ => None end
  | None => None
  end.
(* The point at which an operand counts.  Early uses count as late if the
   instruction overwrites some other input with its result. *)
Definition point_of (f : func) (i : nat) (o : oper) : ppt :=
  match o_pos o with
  | Late => p_after i
  | Early => match o_kind o, reused f i with
             | Use, Some v => if N.eqb v (o_vreg o) then p_before i else p_after i
             | _, _ => p_before i
             end
  end.
(* uses and definitions of the vreg [v] in the block [b] *)
Definition ref_at (k : okind) (f : func) (b v : nat) (q : ppt) : Prop :=
  exists i o, In i (span (f_insns f b)) /\ In o (real_ops (f_operands f i)) /\ o_kind o = k /\ vnum (o_vreg o) = v /\ point_of f i o = q.
Notation uses_at := (ref_at Use) (only parsing).
Notation defs_at := (ref_at Def) (only parsing).

(* The value that [v] has before the point [c] is needed: there is a use at [c] or
   later without a definition in between, or the block hands [v] on ([O]). *)
Definition needed (f : func) (b : nat) (O : nat -> Prop) (v : nat) (c : ppt) : Prop :=
  (exists q, c <= q /\ uses_at f b v q /\ forall d, c <= d <= q -> ~ defs_at f b v d) \/
  (O v /\ forall d, c <= d -> ~ defs_at f b v d).
(* What a block hands on: what is live out ([L]) and what it passes as arguments. *)
Definition handed (f : func) (L : nat -> nat -> Prop) (b v : nat) : Prop := L b v \/ exists a, In a (out_args f b) /\ vnum a = v.
Definition entry_of (f : func) (b : nat) : ppt := p_before (fst (f_insns f b)).
Definition end_of (f : func) (b : nat) : ppt := p_before (snd (f_insns f b)).
(* [v] occupies the point [q]: it is used or defined there, or needed afterwards,
   or it is defined before the instruction of [q] and [q] is after it, or it is a
   parameter and the block begins at [q] *)
Definition occupies (f : func) (L : nat -> nat -> Prop) (v : nat) (q : ppt) : Prop :=
  exists b, b < f_nblocks f /\ entry_of f b <= q < end_of f b /\
  (uses_at f b v q \/ defs_at f b v q \/ needed f b (handed f L b) v (S q) \/ (Nat.odd q = true /\ defs_at f b v (q - 1)) \/
   (q = entry_of f b /\ exists p, In p (f_params f b) /\ vnum p = v)).

(* An early use in a fixed register of a vreg that is needed after the instruction,
   which clobbers the register or defines something in it: the register is
   reserved and the use may be anywhere. *)
Definition preempted (f : func) (L : nat -> nat -> Prop) (b i : nat) (o : oper) (r : preg) : Prop :=
  In o (real_ops (f_operands f i)) /\ o_con o = CFixed r /\ o_pos o = Early /\ o_kind o = Use /\ needed f b (handed f L b) (vnum (o_vreg o)) (p_before (S i)) /\
  ((exists d, In d (f_operands f i) /\ o_con d = CFixed r /\ o_pos d = Late /\ o_kind d = Def) \/ ps_contains (f_clobbers f i) r = true).
(* the points at which a register is reserved *)
Definition reserved_at (f : func) (L : nat -> nat -> Prop) (g : nat) (q : ppt) : Prop :=
  exists b i, b < f_nblocks f /\ In i (span (f_insns f b)) /\
  ((q = p_after i /\ g < 256 /\ ps_contains (f_clobbers f i) (N.of_nat g) = true) \/ (q = p_before i /\ exists o, preempted f L b i o (N.of_nat g))).

(* ---------------- what is assumed ---------------- *)
(* blocks are laid out in order *)
Definition in_layout (f : func) : Prop := forall a b, a < b -> b < f_nblocks f -> snd (f_insns f a) <= fst (f_insns f b).
(* a vreg that an instruction defines is not mentioned by another operand of it,
   and a parameter is a parameter once and not defined where the block begins *)
Definition defs_alone (f : func) : Prop :=
  (forall i a o t, real_ops (f_operands f i) = a ++ o :: t -> is_def o = true -> forall p, In p (a ++ t) -> vnum (o_vreg p) <> vnum (o_vreg o)) /\
  (forall b, b < f_nblocks f -> NoDup (map vnum (f_params f b)) /\ forall p, In p (f_params f b) -> ~ defs_at f b (vnum p) (entry_of f b)).
(* reused operands exist *)
Definition reuses_ok (f : func) : Prop :=
  forall i o k, In o (f_operands f i) -> o_con o = CReuse k -> exists d, nth_error (f_operands f i) (N.to_nat k) = Some d /\ o_fixed_nonalloc d = None.
(* branches pass as many arguments as there are parameters *)
Definition args_match (f : func) : Prop :=
  forall b k c, b < f_nblocks f -> f_is_branch f (snd (f_insns f b) - 1) = true -> nth_error (f_succs f b) k = Some c ->
  length (f_params f c) = length (f_bargs f b (snd (f_insns f b) - 1) k).
(* registers are registers, and no two early uses of an instruction are in the
   same one *)
Definition early_fixed (ops : list oper) : list preg :=
  flat_map (fun o => match o_con o, o_pos o, o_kind o with CFixed r, Early, Use => [r] | _, _, _ => [] end) (real_ops ops).
Definition regs_ok (f : func) : Prop :=
  forall i, ps_wf (f_clobbers f i) /\ NoDup (early_fixed (f_operands f i)) /\ forall r, In r (early_fixed (f_operands f i)) -> (r < 256)%N.
(* what build_liveranges reads of the control flow *)
Definition benv_ok (be : benv) (f : func) : Prop :=
  (forall b, b < f_nblocks f -> pe_entry (be_env be) b = Some (entry_of f b) /\ be_exit be b = Some (end_of f b - 1)) /\
  (forall b i, b < f_nblocks f -> In i (span (f_insns f b)) -> exists b' d, pe_insn_block (be_env be) i = Some b' /\ pe_depth (be_env be) b' = Some d).
(* the sets of live-out vregs *)
Definition louts_ok (f : func) (louts : list amap) : Prop :=
  length louts = f_nblocks f /\ forall b s, nth_error louts b = Some s -> am_wf s /\ forall n, mem s n = true -> N.to_nat n < f_nvregs f.
Definition in_louts (louts : list amap) (b v : nat) : Prop := exists s, nth_error louts b = Some s /\ mem s (N.of_nat v) = true.

(* no vreg occupies the point before a definition of it *)
Definition defs_fresh (f : func) (L : nat -> nat -> Prop) : Prop :=
  forall b v d, b < f_nblocks f -> defs_at f b v (S d) -> ~ occupies f L v d.

(* ---------------- what is recorded ---------------- *)
(* what a block passes to its successors, and what it gets from its predecessors *)
Definition indexed {A} (l : list A) : list (nat * A) := combine (seq 0 (length l)) l.
Definition block_outs (f : func) (b : nat) : list Keys.bp_out :=
  let last := snd (f_insns f b) - 1 in
  if f_is_branch f last then
    flat_map (fun e => map (fun pa => Keys.mkBpOut (vreg_num (fst pa)) (N.of_nat (snd e)) (N.of_nat b) (vreg_num (snd pa))) (combine (f_params f (snd e)) (f_bargs f b last (fst e)))) (indexed (f_succs f b))
  else [].
Definition block_ins (f : func) (b : nat) : list Keys.bp_in :=
  flat_map (fun v => map (fun p => Keys.mkBpIn (N.of_nat p) (N.of_nat b) (vreg_num v)) (f_preds f b)) (f_params f b).
(* a use: the vreg of its live range, the operand without its constraint, its
   number and where it counts *)
Definition use_tag (v : option nat) (u : use) : option nat * (vreg * okind * opos) * nat * ppt :=
  (v, (o_vreg (iu_op u), o_kind (iu_op u), o_pos (iu_op u)), iu_slot u, iu_pos u).
Definition is_real (o : oper) : bool := match o_fixed_nonalloc o with None => true | Some _ => false end.
Definition inst_tags (f : func) (i : nat) : list (option nat * (vreg * okind * opos) * nat * ppt) :=
  map (fun e => (Some (vnum (o_vreg (snd e))), (o_vreg (snd e), o_kind (snd e), o_pos (snd e)), fst e, point_of f i (snd e)))
    (filter (fun e => is_real (snd e)) (indexed (f_operands f i))).
Definition all_insts (f : func) : list nat := flat_map (fun b => span (f_insns f b)) (seq 0 (f_nblocks f)).
(* a use is of an operand of its instruction, without the constraint if a fixup
   moves the value *)
Definition use_src (f : func) (L : nat -> nat -> Prop) (u : use) : Prop :=
  exists b o, b < f_nblocks f /\ In (pt_inst (iu_pos u)) (span (f_insns f b)) /\ nth_error (f_operands f (pt_inst (iu_pos u))) (iu_slot u) = Some o /\ o_fixed_nonalloc o = None /\
  ((exists r, preempted f L b (pt_inst (iu_pos u)) o r) /\ iu_op u = any_oper o \/ (~ exists r, preempted f L b (pt_inst (iu_pos u)) o r) /\ iu_op u = o).
(* operands in registers that are not allocated get them at once *)
Definition inst_allocs (f : func) (i : nat) : list (nat * nat * preg) :=
  flat_map (fun e => match o_fixed_nonalloc (snd e) with Some r => [(i, fst e, r)] | None => [] end) (indexed (f_operands f i)).
(* the first block of which [v] is a parameter *)
Definition param_block (f : func) (v : nat) : option nat := find (fun b => existsb (fun x => vnum x =? v) (f_params f b)) (seq 0 (f_nblocks f)).

(* the members of a list, each of which is in it once *)
Definition once {A} (l : list A) (P : A -> Prop) : Prop := NoDup l /\ forall x, In x l <-> P x.

(* The tables that build_liveranges makes. *)
Record built (f : func) (L : nat -> nat -> Prop) (cls : list (option regclass)) (s : brst) : Prop := {
  bd_empty : io_bundles (br_ion s) = [] /\ io_spillsets (br_ion s) = [] /\ io_queue (br_ion s) = [] /\ io_spilled (br_ion s) = [];
  (* a vreg has its class and its live ranges in order; they are disjoint *)
  bd_class : length (io_vregs (br_ion s)) = f_nvregs f /\ map vd_class (io_vregs (br_ion s)) = cls;
  bd_sorted : forall v vd, nth_error (io_vregs (br_ion s)) v = Some vd -> entries_sorted (vd_ranges vd);
  bd_own : forall v vd r i, nth_error (io_vregs (br_ion s)) v = Some vd -> In (r, i) (vd_ranges vd) ->
    nonempty r /\ exists d, nth_error (io_ranges (br_ion s)) i = Some d /\ lr_range d = r /\ lr_vreg d = Some v;
  bd_listed : forall i d, nth_error (io_ranges (br_ion s)) i = Some d -> exists v vd, lr_vreg d = Some v /\ nth_error (io_vregs (br_ion s)) v = Some vd /\ In (lr_range d, i) (vd_ranges vd);
  (* they cover the points that the vreg occupies *)
  bd_cov : forall v, v < f_nvregs f -> forall p, covered (br_ion s) v p <-> occupies f L v p;
  (* the uses are those of the operands, each in a live range of its vreg *)
  bd_uses : forall i d u, nth_error (io_ranges (br_ion s)) i = Some d -> In u (lr_uses d) -> inr (lr_range d) (iu_pos u) /\ lr_vreg d = Some (vnum (o_vreg (iu_op u))) /\ use_src f L u;
  bd_order : forall i d, nth_error (io_ranges (br_ion s)) i = Some d -> StronglySorted (fun a b => iu_pos a <= iu_pos b) (lr_uses d);
  bd_def : defs_fresh f L -> forall i d, nth_error (io_ranges (br_ion s)) i = Some d -> def_first (lr_range d) (lr_uses d);
  bd_tags : Permutation (map (fun e => use_tag (fst e) (snd e)) (tagged_uses (br_ion s))) (flat_map (inst_tags f) (all_insts f));
  (* registers are reserved where they are clobbered and where a fixup needs them *)
  bd_res : length (io_pregs (br_ion s)) = 256 /\ forall g m, nth_error (io_pregs (br_ion s)) g = Some m ->
    bm_ok m /\ forall e, In e m <-> exists p, e = (lk_from_range (cr_singleton p), None) /\ reserved_at f L g p;
  bd_param : length (br_param s) = f_nvregs f /\ forall v, v < f_nvregs f -> nth_error (br_param s) v = Some (param_block f v);
  bd_fix : once (br_fix s) (fun x => exists b i k o r, b < f_nblocks f /\ In i (span (f_insns f b)) /\ nth_error (f_operands f i) k = Some o /\ preempted f L b i o r /\
    x = mkFix (p_before i) k k true r (vnum (o_vreg o)));
  bd_outs : Permutation (br_outs s) (flat_map (block_outs f) (seq 0 (f_nblocks f))) /\ StronglySorted (fun a b => (Keys.bo_key a <= Keys.bo_key b)%N) (br_outs s);
  bd_ins : Permutation (br_ins s) (flat_map (block_ins f) (seq 0 (f_nblocks f))) /\ StronglySorted (fun a b => (Keys.bi_key a <= Keys.bi_key b)%N) (br_ins s);
  bd_allocs : Permutation (br_allocs s) (flat_map (inst_allocs f) (all_insts f))
}.
