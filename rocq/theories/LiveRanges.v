(* Building the live ranges (src/ion/liveranges.rs:99-262, 370-873).  Model file:
   definitions only.

   [None] is a panic, [Some (inl tt)] the error TooManyOperands.  The operations on
   f32 weights are parameters, as in Process.v.  Statistics and tracing are left
   out.  The scratch vectors are empty or overwritten before use (C43). *)
From Coq Require Import NArith List Bool Arith.
From Verif Require Import Enc PRegSet Func Vecs IndexSet Ranges Ion PRegs Spill Process Merge.
From Verif Require Keys.
Import ListNotations.
Open Scope nat_scope.

Notation "'let?' x ':=' e 'in' k" := (match e with Some (Datatypes.inr x) => k | Some (inl t) => Some (inl t) | None => None end) (at level 200, x name, e at level 100, k at level 200, right associativity, only parsing).

(* src/ion/data_structures.rs:330-349 MultiFixedRegFixup; [fx_initial] is the level *)
Record fixup := mkFix { fx_pos : ppt; fx_from : nat; fx_to : nat; fx_initial : bool; fx_preg : preg; fx_vreg : nat }.
(* What is built: the tables, the block of which a vreg is a parameter, fixups,
   block parameters, allocations set at once. *)
Record brst := mkBr { br_ion : ion; br_param : list (option nat); br_fix : list fixup; br_outs : list Keys.bp_out; br_ins : list Keys.bp_in; br_allocs : list (nat * nat * preg) }.
Definition br_with_ion (s : brst) x := mkBr x (br_param s) (br_fix s) (br_outs s) (br_ins s) (br_allocs s).
(* what is read: as in the main loop, and block_exit and the f32 bits of
   spill_weight_from_constraint *)
Record benv := mkBenv { be_env : penv; be_exit : nat -> option ppt; be_weight : constraint -> nat -> bool -> N }.

(* src/ion/liveranges.rs:104-144 create_pregs_and_vregs; the classes are those
   that compute_liveness has observed since *)
Definition br_init (cls : list (option regclass)) : brst :=
  mkBr (mkIon [] [] [] (map (mkVd []) cls) (repeat [] 256) [] []) (repeat None (length cls)) [] [] [] [].

(* src/ion/liveranges.rs:99-101 slot_idx *)
Definition slot_idx (i : nat) : option (unit + nat) := if (N.of_nat i <? 65536)%N then Some (Datatypes.inr i) else Some (inl tt).
(* src/ion/liveranges.rs:59-61 SpillWeight::to_bits *)
Definition weight_bits (w : N) : N := (N.shiftr w 15 mod 2 ^ 16)%N.

(* src/ion/liveranges.rs:187-204 a new live range of [v] *)
Definition push_range (st : ion) (v : nat) (r : crange) : option (ion * nat) :=
  let i := length (io_ranges st) in
  let! st1 := upd_vreg (set_ranges st (io_ranges st ++ [lr_with_vreg (new_lrange r) (Some v)])) v (fun vd => vd_with_ranges vd (vd_ranges vd ++ [(r, i)])) in
  Some (st1, i).
(* src/ion/liveranges.rs:147-214 add_liverange_to_vreg *)
Definition add_range (dbg multi : bool) (st : ion) (v : nat) (r : crange) : option (ion * nat) :=
  let! vd := nth_error (io_vregs st) v in
  match rev (vd_ranges vd) with
  | [] => push_range st v r
  | (_, li) :: _ =>
      let! ld := nth_error (io_ranges st) li in
      let last := lr_range ld in
      if multi && cr_contains last r then Some (st, li)
      else
        let r1 := if multi && (cr_from last <=? cr_to r) && (cr_to r <=? cr_to last) then mkCr (cr_from r) (cr_from last) else r in
        dassert dbg (cr_to r1 <=? cr_from last)
          (if cr_to r1 <? cr_from last then push_range st v r1
           else dassert dbg (cr_to r1 =? cr_from last)
             (let! st1 := upd_range st li (fun d => lr_with_range d (mkCr (cr_from r1) (cr_to (lr_range d)))) in Some (st1, li)))
  end.

(* src/ion/liveranges.rs:216-247 insert_use_into_liverange *)
Definition insert_use (be : benv) (st : ion) (into : nat) (o : oper) (pos : ppt) (slot : nat) : option ion :=
  let! block := pe_insn_block (be_env be) (pt_inst pos) in
  let! depth := pe_depth (be_env be) block in
  let w := be_weight be (o_con o) depth (negb (is_use o)) in
  upd_range st into (fun d => mkLr (lr_range d) (lr_vreg d) (lr_bundle d) (store_weight (pe_fadd (be_env be) (lr_weight d) w)) (lr_def d) (lr_uses d ++ [mkIu o pos slot (weight_bits w)])).

(* src/ion/liveranges.rs:249-260 find_vreg_liverange_for_pos *)
Definition find_range (st : ion) (v : nat) (p : ppt) : option (option nat) :=
  let! vd := nth_error (io_vregs st) v in
  Some (option_map snd (find (fun e => cr_contains_point (fst e) p) (vd_ranges vd))).

(* ---------------- one instruction ---------------- *)
(* src/ion/liveranges.rs:445-456 the clobbers *)
Fixpoint reserve_all (dbg : bool) (r : crange) (rs : list preg) (st : ion) : option ion :=
  match rs with
  | [] => Some st
  | p :: t => let! st1 := reserve dbg st r (N.to_nat p) in reserve_all dbg r t st1
  end.
(* src/ion/liveranges.rs:462-471 the input that is reused; [ops] is what is left
   of the operands [all] *)
Fixpoint reused_input (dbg : bool) (all ops : list oper) : option (option vreg) :=
  match ops with
  | [] => Some None
  | o :: t =>
      match o_con o with
      | CReuse k => let! d := nth_error all (N.to_nat k) in
          dassert dbg (match o_fixed_nonalloc d with None => true | Some _ => false end) (Some (Some (o_vreg d)))
      | _ => reused_input dbg all t
      end
  end.
(* src/ion/liveranges.rs:486-496 registers of late definitions *)
Fixpoint late_def_fixed (ops : list oper) : list preg :=
  match ops with
  | [] => []
  | o :: t =>
      match o_con o, o_pos o, o_kind o with
      | CFixed r, Late, Def => r :: late_def_fixed t
      | _, _, _ => late_def_fixed t
      end
  end.
(* src/ion/liveranges.rs:497-570 early fixed uses of vregs that live on, in a
   register that is defined or clobbered; the map operand_rewrites is returned as
   the list of the operands after the rewriting *)
Definition any_oper (o : oper) : oper := mkOper (o_vreg o) CAny (o_kind o) (o_pos o).
Definition needs_fixup (live : amap) (late : list preg) (clob : pregset) (o : oper) : option preg :=
  match o_fixed_nonalloc o with
  | Some _ => None
  | None =>
      match o_con o, o_pos o, o_kind o with
      | CFixed r, Early, Use => if is_get live (vreg_num (o_vreg o)) && (existsb (N.eqb r) late || ps_contains clob r) then Some r else None
      | _, _, _ => None
      end
  end.
Fixpoint rewrite_ops (dbg : bool) (live : amap) (late : list preg) (clob : pregset) (inst k : nat) (ops : list oper) (s : brst) : option (unit + (brst * list oper)) :=
  match ops with
  | [] => Some (Datatypes.inr (s, []))
  | o :: t =>
      match needs_fixup live late clob o with
      | Some r =>
          let? k1 := slot_idx k in
          let! st1 := reserve dbg (br_ion s) (cr_singleton (p_before inst)) (N.to_nat r) in
          let? q := rewrite_ops dbg live late clob inst (S k) t
            (mkBr st1 (br_param s) (br_fix s ++ [mkFix (p_before inst) k1 k1 true r (vidx (o_vreg o))]) (br_outs s) (br_ins s) (br_allocs s)) in
          Some (Datatypes.inr (fst q, any_oper o :: snd q))
      | None => let? q := rewrite_ops dbg live late clob inst (S k) t s in Some (Datatypes.inr (fst q, o :: snd q))
      end
  end.

(* the local variables live and vreg_ranges *)
Record blk := mkBlk { bk_st : brst; bk_live : amap; bk_cur : list (option nat) }.
(* src/ion/liveranges.rs:580-600 where an operand counts *)
Definition op_point (reused : option vreg) (inst : nat) (o : oper) : ppt :=
  match o_kind o, o_pos o with
  | Def, Early => p_before inst
  | Def, Late => p_after inst
  | Use, Late => p_after inst
  | Use, Early => match reused with Some v => if N.eqb v (o_vreg o) then p_before inst else p_after inst | None => p_before inst end
  end.
(* a live range for [o] in [vreg_ranges], new if the vreg is not live *)
Definition range_for (dbg multi : bool) (s : blk) (v : nat) (n : N) (r : crange) : option (blk * nat) :=
  let! cur := nth_error (bk_cur s) v in
  if is_get (bk_live s) n then let! lr := cur in Some (s, lr)
  else
    let! q := add_range dbg multi (br_ion (bk_st s)) v r in
    Some (mkBlk (br_with_ion (bk_st s) (fst q)) (bk_live s) (lset (bk_cur s) v (Some (snd q))), snd q).
(* src/ion/liveranges.rs:625-676 a definition *)
Definition build_def (be : benv) (multi : bool) (entry : ppt) (o : oper) (pos : ppt) (k : nat) (s : blk) : option (unit + blk) :=
  let v := vidx (o_vreg o) in let n := vreg_num (o_vreg o) in
  let! q := range_for (pe_dbg (be_env be)) multi s v n (mkCr pos (pt_next_early pos)) in
  let s1 := fst q in let lr := snd q in
  let? slot := slot_idx k in
  let! st1 := insert_use be (br_ion (bk_st s1)) lr o pos slot in
  let! st2 := upd_range st1 lr (fun d => lr_with_def (if cr_from (lr_range d) =? entry then lr_with_range d (mkCr pos (cr_to (lr_range d))) else d) true) in
  let! live := is_set (bk_live s1) n false in
  Some (Datatypes.inr (mkBlk (br_with_ion (bk_st s1) st2) live (lset (bk_cur s1) v None))).
(* src/ion/liveranges.rs:677-706 a use *)
Definition build_use (be : benv) (multi : bool) (entry : ppt) (o : oper) (pos : ppt) (k : nat) (s : blk) : option (unit + blk) :=
  let v := vidx (o_vreg o) in let n := vreg_num (o_vreg o) in
  let! q := range_for (pe_dbg (be_env be)) multi s v n (mkCr entry (pos + 1)) in
  let s1 := fst q in
  let? slot := slot_idx k in
  let! st1 := insert_use be (br_ion (bk_st s1)) (snd q) o pos slot in
  let! live := is_set (bk_live s1) n true in
  Some (Datatypes.inr (mkBlk (br_with_ion (bk_st s1) st1) live (bk_cur s1))).
(* src/ion/liveranges.rs:574-709 the operands that count at [cur] *)
Fixpoint build_ops (be : benv) (multi : bool) (entry : ppt) (reused : option vreg) (inst : nat) (cur : ppt) (k : nat) (ops : list oper) (s : blk) : option (unit + blk) :=
  match ops with
  | [] => Some (Datatypes.inr s)
  | o :: t =>
      let pos := op_point reused inst o in
      let? s1 :=
        if negb (pos =? cur) then Some (Datatypes.inr s)
        else
          match o_fixed_nonalloc o with
          | Some r => let b := bk_st s in Some (Datatypes.inr (mkBlk (mkBr (br_ion b) (br_param b) (br_fix b) (br_outs b) (br_ins b) (br_allocs b ++ [(inst, k, r)])) (bk_live s) (bk_cur s)))
          | None => match o_kind o with Def => build_def be multi entry o pos k s | Use => build_use be multi entry o pos k s end
          end in
      build_ops be multi entry reused inst cur (S k) t s1
  end.
(* src/ion/liveranges.rs:442-711 *)
Definition build_inst (be : benv) (f : func) (entry : ppt) (inst : nat) (s : blk) : option (unit + blk) :=
  let dbg := pe_dbg (be_env be) in let multi := f_multi_defs f in let ops := f_operands f inst in
  let! clob := ps_iter (f_clobbers f inst) in
  let! st1 := reserve_all dbg (mkCr (p_after inst) (p_before (S inst))) clob (br_ion (bk_st s)) in
  let! reused := reused_input dbg ops ops in
  let? q := rewrite_ops dbg (bk_live s) (late_def_fixed ops) (f_clobbers f inst) inst 0 ops (br_with_ion (bk_st s) st1) in
  let? s1 := build_ops be multi entry reused inst (p_after inst) 0 (snd q) (mkBlk (fst q) (bk_live s) (bk_cur s)) in
  build_ops be multi entry reused inst (p_before inst) 0 (snd q) s1.
Fixpoint build_insts (be : benv) (f : func) (entry : ppt) (is : list nat) (s : blk) : option (unit + blk) :=
  match is with
  | [] => Some (Datatypes.inr s)
  | i :: t => let? s1 := build_inst be f entry i s in build_insts be f entry t s1
  end.

(* ---------------- one block ---------------- *)
(* src/ion/liveranges.rs:397-419 the outgoing block parameters; the iterator over
   the successors is enumerated by [k] *)
Fixpoint out_params (b succ : nat) (pairs : list (vreg * vreg)) (s : brst) (live : amap) : option (brst * amap) :=
  match pairs with
  | [] => Some (s, live)
  | (pin, pout) :: t =>
      let! live1 := is_set live (vreg_num pout) true in
      out_params b succ t (mkBr (br_ion s) (br_param s) (br_fix s) (br_outs s ++ [Keys.mkBpOut (vreg_num pin) (N.of_nat succ) (N.of_nat b) (vreg_num pout)]) (br_ins s) (br_allocs s)) live1
  end.
Fixpoint out_succs (f : func) (b last k : nat) (succs : list nat) (s : brst) (live : amap) : option (brst * amap) :=
  match succs with
  | [] => Some (s, live)
  | c :: t => let! q := out_params b c (combine (f_params f c) (f_bargs f b last k)) s live in out_succs f b last (S k) t (fst q) (snd q)
  end.
(* src/ion/liveranges.rs:421-433 whole-block ranges *)
Fixpoint live_through (dbg multi : bool) (r : crange) (ns : list N) (st : ion) (cur : list (option nat)) : option (ion * list (option nat)) :=
  match ns with
  | [] => Some (st, cur)
  | n :: t =>
      let! q := add_range dbg multi st (N.to_nat n) r in
      if N.to_nat n <? length cur then live_through dbg multi r t (fst q) (lset cur (N.to_nat n) (Some (snd q))) else None
  end.
(* src/ion/liveranges.rs:435-438 *)
Fixpoint mark_params (b : nat) (vs : list vreg) (l : list (option nat)) : option (list (option nat)) :=
  match vs with
  | [] => Some l
  | v :: t => if vidx v <? length l then mark_params b t (lset l (vidx v) (Some b)) else None
  end.
(* src/ion/liveranges.rs:716-742 the parameters of the block *)
Fixpoint in_params (dbg multi : bool) (f : func) (b : nat) (entry : ppt) (vs : list vreg) (s : brst) (live : amap) : option (brst * amap) :=
  match vs with
  | [] => Some (s, live)
  | v :: t =>
      let! q :=
        (if is_get live (vreg_num v) then let! live1 := is_set live (vreg_num v) false in Some (br_ion s, live1)
         else let! q := add_range dbg multi (br_ion s) (vidx v) (mkCr entry (entry + 1)) in Some (fst q, live)) in
      in_params dbg multi f b entry t (mkBr (fst q) (br_param s) (br_fix s) (br_outs s) (br_ins s ++ map (fun p => Keys.mkBpIn (N.of_nat p) (N.of_nat b) (vreg_num v)) (f_preds f b)) (br_allocs s)) (snd q)
  end.
(* src/ion/liveranges.rs:386-743 *)
Definition build_block (be : benv) (f : func) (louts : list amap) (b : nat) (s : brst) (cur : list (option nat)) : option (unit + (brst * list (option nat))) :=
  let dbg := pe_dbg (be_env be) in let multi := f_multi_defs f in
  let (from, to) := f_insns f b in
  if from <? to then
    let last := to - 1 in
    let! live0 := nth_error louts b in
    let! q := (if f_is_branch f last then out_succs f b last 0 (f_succs f b) s live0 else Some (s, live0)) in
    let! ns := is_iter (snd q) in
    let! entry := pe_entry (be_env be) b in
    let! exit := be_exit be b in
    let! w := live_through dbg multi (mkCr entry (exit + 1)) ns (br_ion (fst q)) cur in
    let! params := mark_params b (f_params f b) (br_param (fst q)) in
    let s1 := mkBr (fst w) params (br_fix (fst q)) (br_outs (fst q)) (br_ins (fst q)) (br_allocs (fst q)) in
    let? s2 := build_insts be f entry (rev (span (from, to))) (mkBlk s1 (snd q) (snd w)) in
    let! p := in_params dbg multi f b entry (f_params f b) (bk_st s2) (bk_live s2) in
    Some (Datatypes.inr (fst p, bk_cur s2))
  else None.
Fixpoint build_blocks (be : benv) (f : func) (louts : list amap) (n : nat) (s : brst) (cur : list (option nat)) : option (unit + (brst * list (option nat))) :=
  match n with
  | O => Some (Datatypes.inr (s, cur))
  | S b => let? q := build_block be f louts b s cur in build_blocks be f louts b (fst q) (snd q)
  end.

(* ---------------- the end ---------------- *)
(* src/ion/liveranges.rs:756-767 the ranges of a vreg in order, up to date *)
Fixpoint final_entries (dbg : bool) (st : ion) (last : option ppt) (l : list lrentry) : option (list lrentry) :=
  match l with
  | [] => Some []
  | (_, i) :: t =>
      let! d := nth_error (io_ranges st) i in
      let r := lr_range d in
      dassert dbg (match last with None => true | Some p => p <=? cr_from r end)
        (let! t1 := final_entries dbg st (Some (cr_to r)) t in Some ((r, i) :: t1))
  end.
Fixpoint final_vregs (dbg : bool) (st : ion) (l : list vregdata) : option (list vregdata) :=
  match l with
  | [] => Some []
  | vd :: t => let! e := final_entries dbg st None (rev (vd_ranges vd)) in let! t1 := final_vregs dbg st t in Some (vd_with_ranges vd e :: t1)
  end.
(* src/ion/liveranges.rs:769-772 the uses in order *)
Fixpoint in_order (us : list use) : bool :=
  match us with
  | a :: ((b :: _) as t) => (iu_pos a <=? iu_pos b) && in_order t
  | _ => true
  end.
Fixpoint final_ranges (dbg : bool) (l : list lrange) : option (list lrange) :=
  match l with
  | [] => Some []
  | d :: t => let us := rev (lr_uses d) in dassert dbg (in_order us) (let! t1 := final_ranges dbg t in Some (lr_with_uses d us :: t1))
  end.
(* sort_unstable_by_key: insertion sort; equal keys belong to equal entries (C44) *)
Section Sort.
  Variables (A : Type) (key : A -> N).
  Fixpoint insert_key (x : A) (l : list A) : list A :=
    match l with [] => [x] | y :: t => if (key x <=? key y)%N then x :: l else y :: insert_key x t end.
  Fixpoint sort_key (l : list A) : list A := match l with [] => [] | x :: t => insert_key x (sort_key t) end.
End Sort.
(* src/ion/liveranges.rs:370-785 build_liveranges *)
Definition build_liveranges (be : benv) (f : func) (louts : list amap) (s : brst) : option (unit + brst) :=
  let dbg := pe_dbg (be_env be) in
  let? q := build_blocks be f louts (f_nblocks f) s (repeat None (f_nvregs f)) in
  let st := br_ion (fst q) in
  let! vs := final_vregs dbg st (io_vregs st) in
  let! rs := final_ranges dbg (io_ranges st) in
  Some (Datatypes.inr (mkBr (set_vregs (set_ranges st rs) vs) (br_param (fst q)) (br_fix (fst q)) (sort_key _ Keys.bo_key (br_outs (fst q))) (sort_key _ Keys.bi_key (br_ins (fst q))) (br_allocs (fst q)))).
