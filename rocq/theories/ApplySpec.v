(* What the tables must look like when allocations are applied, and what an output
   consists of. *)
From Coq Require Import NArith List Bool Arith Sorted Permutation.
From Verif Require Import Enc PRegSet PRegSetSpec Func Vecs Ranges RangesSpec Ion PRegs PRegsSpec Spill SpillSpec Process ProcessSpec LivenessSpec LiveRanges LiveRangesSpec MultiFixed ResolveMoves ResolveMovesSpec Output Apply.
From Verif Require Keys.
Import ListNotations.
Open Scope nat_scope.

(* ---------------- live ranges with their locations ---------------- *)
Record rng := mkRng { rg_from : ppt; rg_to : ppt; rg_loc : N; rg_def : bool; rg_uses : list use }.
Definition rin (R : rng) (p : ppt) : Prop := rg_from R <= p < rg_to R.
(* the live range [i] is in the location [x]: the register of its bundle, or the
   slot of the spill set of its bundle *)
Definition located (st : ion) (slot : nat -> option N) (i : nat) (x : N) : Prop :=
  exists d b bd, nth_error (io_ranges st) i = Some d /\ lr_bundle d = Some b /\ nth_error (io_bundles st) b = Some bd /\
  ((exists g, g < 256 /\ lb_alloc bd = Some g /\ x = regN (N.of_nat g)) \/ (lb_alloc bd = None /\ exists s, lb_spillset bd = Some s /\ slot s = Some x)).
(* the vreg [v] has the live range [R] *)
Definition owns (st : ion) (slot : nat -> option N) (lists : list (list lrentry)) (v : nat) (R : rng) : Prop :=
  exists l r i d, nth_error lists v = Some l /\ In (r, i) l /\ nth_error (io_ranges st) i = Some d /\ located st slot i (rg_loc R) /\
    cr_from r = rg_from R /\ cr_to r = rg_to R /\ lr_def d = rg_def R /\ lr_uses d = rg_uses R.

Definition inst_in (f : func) (b i : nat) : Prop := b < f_nblocks f /\ fst (f_insns f b) <= i < snd (f_insns f b).
Definition exit_of (f : func) (b : nat) : ppt := end_of f b - 1.
Definition last_of (f : func) (b : nat) : nat := snd (f_insns f b) - 1.
Definition is_param (f : func) (b v : nat) : Prop := exists p, In p (f_params f b) /\ vnum p = v.

(* ---------------- control flow ---------------- *)
Record flow_ok (f : func) : Prop := {
  fl_entry : f_entry f < f_nblocks f;
  fl_nonempty : forall b, b < f_nblocks f -> fst (f_insns f b) < snd (f_insns f b);
  fl_layout : in_layout f;
  fl_ninsts : forall b, b < f_nblocks f -> snd (f_insns f b) <= f_ninsts f;
  fl_preds : forall b s, s < f_nblocks f -> (In b (f_preds f s) <-> b < f_nblocks f /\ In s (f_succs f b));
  fl_succs : forall b s, b < f_nblocks f -> In s (f_succs f b) -> s < f_nblocks f;
  fl_once : forall b, b < f_nblocks f -> NoDup (f_succs f b);
  (* a block with successors ends in a branch; an edge is the only one into its
     target, or the only one from its source, whose branch then has no operands
     and clobbers nothing *)
  fl_branch : forall b s, b < f_nblocks f -> In s (f_succs f b) -> f_is_ret f (last_of f b) = false /\ f_is_branch f (last_of f b) = true;
  fl_edge : forall b s, b < f_nblocks f -> In s (f_succs f b) ->
    (f_preds f s = [b] /\ s <> f_entry f) \/
    (f_succs f b = [s] /\ f_operands f (last_of f b) = [] /\ forall r, (r < 256)%N -> ps_contains (f_clobbers f (last_of f b)) r = false);
  (* arguments match parameters; a vreg is a parameter once *)
  fl_args : args_match f;
  fl_args_class : forall b k s, b < f_nblocks f -> nth_error (f_succs f b) k = Some s -> map vreg_class (f_bargs f b (last_of f b) k) = map vreg_class (f_params f s);
  fl_params : forall b, b < f_nblocks f -> NoDup (map vnum (f_params f b));
  fl_param_once : forall b c v, b < f_nblocks f -> c < f_nblocks f -> is_param f b v -> is_param f c v -> b = c;
  (* operands *)
  fl_alone : defs_alone f;
  fl_reuse : forall i k o n, nth_error (f_operands f i) k = Some o -> o_con o = CReuse n ->
    is_def o = true /\ is_late o = true /\ exists u, nth_error (f_operands f i) (N.to_nat n) = Some u /\ is_use u = true /\ is_early u = true /\ o_fixed_nonalloc u = None /\
      vreg_class (o_vreg u) = vreg_class (o_vreg o);
  fl_reuse_one : forall i j k o p, nth_error (f_operands f i) j = Some o -> nth_error (f_operands f i) k = Some p -> is_reuse o = true -> is_reuse p = true -> j = k;
  fl_small : (N.of_nat (f_nvregs f) <= VREG_MAX)%N /\ (N.of_nat (f_nblocks f) < 2 ^ 32)%N
}.
(* vregs: [name] gives the vreg of a number *)
Record names_ok (f : func) (name : nat -> vreg) : Prop := {
  na_mention : forall b x, b < f_nblocks f -> In x (mentions f b) -> vnum x < f_nvregs f /\ x = name (vnum x);
  na_num : forall v, v < f_nvregs f -> (name v < 2 ^ 32)%N /\ vnum (name v) = v
}.
(* the live-out vregs [L] and the sets of live-in vregs fit together *)
Record livein_ok (f : func) (L : nat -> nat -> Prop) (livein : nat -> nat -> bool) : Prop := {
  li_out : forall b s v, b < f_nblocks f -> In s (f_succs f b) -> livein s v = true -> L b v;
  li_need : forall s v, s < f_nblocks f -> needed f s (handed f L s) v (entry_of f s) -> ~ is_param f s v -> livein s v = true;
  li_param : forall s v, s < f_nblocks f -> livein s v = true -> ~ is_param f s v
}.
(* what is read of the control flow *)
Record aenv_ok (ae : aenv) : Prop := {
  ao_block : forall i b, ae_insn_block ae i = Some b <-> inst_in (ae_f ae) b i;
  ao_entry : forall b, b < f_nblocks (ae_f ae) -> ae_entry ae b = Some (entry_of (ae_f ae) b);
  ao_exit : forall b, b < f_nblocks (ae_f ae) -> ae_exit ae b = Some (exit_of (ae_f ae) b);
  ao_outs : Permutation (ae_outs ae) (flat_map (block_outs (ae_f ae)) (seq 0 (f_nblocks (ae_f ae)))) /\ StronglySorted (fun a b => (Keys.bo_key a <= Keys.bo_key b)%N) (ae_outs ae);
  ao_ins : Permutation (ae_ins ae) (flat_map (block_ins (ae_f ae)) (seq 0 (f_nblocks (ae_f ae)))) /\ StronglySorted (fun a b => (Keys.bi_key a <= Keys.bi_key b)%N) (ae_ins ae)
}.

(* ---------------- the table of live ranges ---------------- *)
Section Table.
  Context {V : Type}.
  Variables (env : penv) (f : func) (L : nat -> nat -> Prop) (name : nat -> vreg) (pregs : list (bmap V)) (n0 : N).
  Variable own : nat -> rng -> Prop.

  (* live ranges cover what is occupied; those of different vregs that overlap are
     in different locations; registers are reserved for them *)
  Record table_ok : Prop := {
    tk_vreg : forall v R, own v R -> v < f_nvregs f;
    tk_ne : forall v R, own v R -> rg_from R < rg_to R;
    tk_cov : forall v p, v < f_nvregs f -> ((exists R, own v R /\ rin R p) <-> occupies f L v p);
    tk_apart : forall v w R S p, own v R -> own w S -> v <> w -> rin R p -> rin S p -> rg_loc R <> rg_loc S;
    tk_class : forall v R, own v R -> exists c, vreg_class (name v) = Some c /\ loc_of env c n0 (rg_loc R);
    tk_shared : forall v w R S, own v R -> own w S -> rg_loc R = rg_loc S -> vreg_class (name v) = vreg_class (name w);
    tk_res : forall v R p r, own v R -> rin R p -> rg_loc R = regN r -> ~ unreserved pregs r p;
    tk_clob : forall v R i r, own v R -> rin R (p_after i) -> (r < 256)%N -> ps_contains (f_clobbers f i) r = true -> rg_loc R <> regN r;
    tk_fixed : forall v R i o r, own v R -> In o (f_operands f i) -> o_fixed_nonalloc o = Some r -> rg_loc R <> regN r;
    (* live ranges begin before instructions, or where the vreg is defined; only one
       place holds the vreg where it is defined *)
    tk_start : forall v R, own v R -> Nat.odd (rg_from R) = true -> rg_def R = true;
    tk_def : forall v R, own v R -> rg_def R = true -> exists b, b < f_nblocks f /\ defs_at f b v (rg_from R);
    tk_home : forall v R S b p, own v R -> own v S -> b < f_nblocks f -> defs_at f b v p -> rin R p -> rin S p -> rg_loc R = rg_loc S;
    tk_early : forall v R b i, own v R -> b < f_nblocks f -> defs_at f b v (p_before i) -> rin R (p_before i) -> rin R (p_after i);
    (* a live range that begins inside another one of the vreg contains no other
       start of a block *)
    tk_nest : forall v R S b, own v R -> own v S -> rg_from R < rg_from S < rg_to R -> b < f_nblocks f -> rin S (entry_of f b) -> entry_of f b = rg_from S;
    (* operands are in a live range of their vreg at the point where they count *)
    tk_uses : forall v R u, own v R -> In u (rg_uses R) -> rin R (iu_pos u) /\
      exists b o, inst_in f b (pt_inst (iu_pos u)) /\ nth_error (f_operands f (pt_inst (iu_pos u))) (iu_slot u) = Some o /\ o_fixed_nonalloc o = None /\ vnum (o_vreg o) = v /\
        iu_pos u = point_of f (pt_inst (iu_pos u)) o /\ (forall n, o_con o = CReuse n <-> o_con (iu_op u) = CReuse n);
    tk_all : forall b i k o, inst_in f b i -> nth_error (f_operands f i) k = Some o -> o_fixed_nonalloc o = None ->
      exists R u, own (vnum (o_vreg o)) R /\ In u (rg_uses R) /\ pt_inst (iu_pos u) = i /\ iu_slot u = k;
    tk_once : forall v w R S u u', own v R -> own w S -> In u (rg_uses R) -> In u' (rg_uses S) -> pt_inst (iu_pos u) = pt_inst (iu_pos u') -> iu_slot u = iu_slot u' -> rg_loc R = rg_loc S
  }.
  (* fixups: those of the first level come first and stay in their operand; they
     are before instructions, between early uses of one vreg; their registers are
     reserved, hold nothing else, are different, and are not the register of a
     result that reuses another input *)
  Record fixups_given (fs : list fixup) : Prop := {
    fg_levels : exists a b, fs = a ++ b /\ (forall x, In x a -> fx_initial x = true /\ fx_from x = fx_to x) /\ (forall x, In x b -> fx_initial x = false);
    fg_oper : forall x k, In x fs -> k = fx_from x \/ k = fx_to x -> exists b i o, inst_in f b i /\ fx_pos x = p_before i /\
      nth_error (f_operands f i) k = Some o /\ o_fixed_nonalloc o = None /\ is_use o = true /\ is_early o = true /\ vnum (o_vreg o) = fx_vreg x;
    fg_reg : forall x, In x fs -> exists c, vreg_class (name (fx_vreg x)) = Some c /\ loc_of env c n0 (regN (fx_preg x)) /\ (fx_preg x < 256)%N;
    fg_res : forall x, In x fs -> ~ unreserved pregs (fx_preg x) (fx_pos x);
    fg_free : forall x v R, In x fs -> own v R -> rin R (fx_pos x) -> rg_loc R <> regN (fx_preg x);
    fg_late : forall x i o, In x fs -> fx_pos x = p_before i -> nth_error (f_operands f i) (fx_to x) = Some o ->
      point_of f i o = p_before i \/ forall d R, In d (f_operands f i) -> is_reuse d = true -> own (vnum (o_vreg d)) R -> rin R (p_after i) -> rg_loc R <> regN (fx_preg x);
    fg_apart : forall x y, In x fs -> In y fs -> fx_pos x = fx_pos y -> fx_preg x = fx_preg y -> x = y;
    fg_once : NoDup (map (fun x => (fx_pos x, fx_to x)) fs);
    fg_src : forall x y, In x fs -> In y fs -> fx_initial x = false -> fx_initial y = false -> fx_pos x = fx_pos y -> fx_from x <> fx_to y
  }.
End Table.

(* ---------------- what is given ---------------- *)
Record apply_given {V} (env : penv) (ae : aenv) (L : nat -> nat -> Prop) (name : nat -> vreg) (pregs : list (bmap V)) (n0 B : N) (al0 : nat -> nat -> N) : Prop := {
  ag_flow : flow_ok (ae_f ae);
  ag_names : names_ok (ae_f ae) name;
  ag_livein : livein_ok (ae_f ae) L (ae_livein ae);
  ag_env : aenv_ok ae;
  ag_machine : machine_ok env (ae_f ae) pregs;
  ag_ninsts : pe_ninsts env = f_ninsts (ae_f ae);
  (* classes in use have registers and slots *)
  ag_class : forall v c, v < f_nvregs (ae_f ae) -> vreg_class (name v) = Some c ->
    (exists r, allocatable env c r) /\ power_of_two (f_spillslot_size (ae_f ae) c) /\ (f_spillslot_size (ae_f ae) c <= B)%N;
  ag_room : (n0 + 12 * B < SPILLSLOT_MAX)%N;
  (* the lists of live ranges are up to date and sorted, with the classes *)
  ag_lists : length (ae_lists ae) = f_nvregs (ae_f ae) /\ length (io_vregs (ae_ion ae)) = f_nvregs (ae_f ae);
  ag_sorted : forall v l, nth_error (ae_lists ae) v = Some l -> StronglySorted (fun a b => cr_from (fst a) <= cr_from (fst b)) l;
  ag_entry : forall v l r i, nth_error (ae_lists ae) v = Some l -> In (r, i) l ->
    (exists d x, nth_error (io_ranges (ae_ion ae)) i = Some d /\ lr_range d = r /\ located (ae_ion ae) (ae_slot ae) i x) /\
    exists vd, nth_error (io_vregs (ae_ion ae)) v = Some vd /\ vd_class vd = vreg_class (name v);
  ag_table : table_ok env (ae_f ae) L name pregs n0 (owns (ae_ion ae) (ae_slot ae) (ae_lists ae));
  ag_fixups : fixups_given env (ae_f ae) name pregs n0 (owns (ae_ion ae) (ae_slot ae) (ae_lists ae)) (ae_fixups ae);
  (* operands outside the allocator's reach have their registers *)
  ag_fixed : forall i k o r, nth_error (f_operands (ae_f ae) i) k = Some o -> o_fixed_nonalloc o = Some r -> al0 i k = regN r
}.

(* ---------------- the output ---------------- *)
(* the location that the bits of an allocation name *)
Definition loc_at (x : N) : aloc := if (x <? 2 ^ 29)%N then ANone else if (x <? 2 ^ 30)%N then AReg (x - 2 ^ 29)%N else AStack (x - 2 ^ 30)%N.
(* the output has these edits and allocations *)
Definition emitted (f : func) (es : list ResolveMoves.edit) (al : nat -> nat -> N) (o : output) : Prop :=
  out_edits o = map (fun e => (fst (ed_key e), mkEdit (loc_at (ed_from e)) (loc_at (ed_to e)))) es /\
  forall i, i < f_ninsts f -> Output.inst_allocs o i = Some (map (fun k => loc_at (al i k)) (seq 0 (length (f_operands f i)))).
