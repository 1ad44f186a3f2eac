(* Allocations of the operands, and the moves between live ranges, over edges and
   at instructions (src/ion/moves.rs:36-776).  Model file: definitions only.

   [None] is a panic.  Traces, annotations, statistics and the debug locations
   (DebugLoc.v) are left out.  An index into blockparam_outs or blockparam_ins is
   modelled as the rest of the vector from there.  The sorted lists of ranges are
   given ([ae_lists]), because sort_unstable_by_key may order equal keys in any
   way.  The bounds of the vector of allocations are not checked. *)
From Coq Require Import NArith List Bool Arith.
From Verif Require Import Enc PRegSet Func Vecs Slice Ranges Ion PRegs Spill Process LiveRanges Cfg MultiFixed ResolveMoves.
From Verif Require Keys.
Import ListNotations.
Open Scope nat_scope.

(* what is read *)
Record aenv := mkAe {
  ae_dbg : bool;                               (* debug assertions *)
  ae_f : func;
  ae_ion : ion;                                (* the tables after the main loop *)
  ae_slot : nat -> option N;                   (* spillslots[spillsets[i].slot].alloc *)
  ae_lists : list (list lrentry);              (* vregs[i].ranges, updated and sorted *)
  ae_insn_block : nat -> option nat;           (* cfginfo.insn_block *)
  ae_entry : nat -> option ppt;                (* cfginfo.block_entry *)
  ae_exit : nat -> option ppt;                 (* cfginfo.block_exit *)
  ae_livein : nat -> nat -> bool;              (* is_live_in(block, vreg) *)
  ae_outs : list Keys.bp_out;                  (* blockparam_outs *)
  ae_ins : list Keys.bp_in;                    (* blockparam_ins *)
  ae_fixups : list fixup                       (* multi_fixed_reg_fixups *)
}.

(* src/ion/moves.rs:83-91: the lists are updated with the final ranges, and sorted
   by where ranges begin *)
Definition refreshed (st : ion) (l : list lrentry) : option (list lrentry) :=
  fold_right (fun e acc => let! d := nth_error (io_ranges st) (snd e) in let! t := acc in Some ((lr_range d, snd e) :: t)) (Some []) l.

Section Apply.
Variable ae : aenv.

(* src/ion/moves.rs:57-74 get_alloc_for_range *)
Definition range_alloc (i : nat) : option N :=
  let! d := nth_error (io_ranges (ae_ion ae)) i in
  let! b := lr_bundle d in
  let! bd := nth_error (io_bundles (ae_ion ae)) b in
  match lb_alloc bd with
  | Some g => alloc_reg (ae_dbg ae) (N.of_nat g)
  | None => let! ss := lb_spillset bd in ae_slot ae ss
  end.
(* src/ion/moves.rs:37-40 is_start_of_block *)
Definition start_of_block (p : ppt) : option bool :=
  let! b := ae_insn_block ae (pt_inst p) in
  let! e := ae_entry ae b in
  Some (p =? e).
(* src/ion/data_structures.rs:665-670 Env::vreg *)
Definition vreg_of (v : nat) : option vreg :=
  let! vd := nth_error (io_vregs (ae_ion ae)) v in
  let! c := vd_class vd in
  vreg_new (ae_dbg ae) (N.of_nat v) c.

(* ---------------- the previous live range ---------------- *)
(* src/ion/moves.rs:93-99 PrevBuffer *)
Record prevbuf := mkPb { pb_prev : option lrentry; pb_prev_ins : list Keys.bp_in; pb_buf : option lrentry; pb_buf_ins : list Keys.bp_in }.
(* src/ion/moves.rs:101-109 new *)
Definition pb_new (ins : list Keys.bp_in) : prevbuf := mkPb None ins None ins.
(* src/ion/moves.rs:140-163 advance *)
Definition pb_advance (p : prevbuf) (cur : lrentry) : prevbuf :=
  let p1 := match pb_buf p with
            | Some e => if cr_from (fst e) <? cr_from (fst cur) then mkPb (pb_buf p) (pb_buf_ins p) (pb_buf p) (pb_buf_ins p) else p
            | None => p
            end in
  match pb_buf p1 with
  | Some e => if cr_to (fst e) <? cr_to (fst cur) then mkPb (pb_prev p1) (pb_prev_ins p1) (Some cur) (pb_buf_ins p1) else p1
  | None => mkPb (pb_prev p1) (pb_prev_ins p1) (Some cur) (pb_buf_ins p1)
  end.

(* ---------------- half-moves ---------------- *)
(* a destination over an edge: inter_block_dests (src/ion/moves.rs:221-232) *)
Record idest := mkId { id_to : nat; id_from : nat; id_alloc : N }.
(* src/ion/moves.rs:250-267 BlockparamDest *)
Record pdest := mkPd { pd_from : nat; pd_to : nat; pd_vreg : nat; pd_alloc : N }.
(* src/ion/moves.rs:233-248 the maps of sources: by block, and by block and
   parameter (BlockparamSourceKey) *)
Definition smap := nat -> option N.
Definition pmap := nat -> nat -> option N.
(* the local variables of the loop over all vregs *)
Record ast := mkAs { as_moves : list imove; as_al : atab; as_outs : list Keys.bp_out; as_psrc : pmap; as_pdst : list pdest; as_reuse : list nat }.
Definition as_with_moves (s : ast) x := mkAs x (as_al s) (as_outs s) (as_psrc s) (as_pdst s) (as_reuse s).
(* and those of one vreg *)
Record avt := mkAv { av_st : ast; av_src : smap; av_dst : list idest; av_prev : prevbuf }.

(* src/ion/moves.rs:396-407, 436-447: keep an entry that is a register *)
Definition prefer (old : option N) (a : N) : option (option N) :=
  match old with
  | None => Some (Some a)
  | Some x => let! r := alloc_is_reg x in Some (if r then Some x else Some a)
  end.
(* (a, b) compared with (c, d), of vregs and blocks *)
Definition pair_gt (a b c d : N) : bool := (c <? a)%N || ((a =? c)%N && (d <? b)%N).
Definition pair_eq (a b c d : N) : bool := (a =? c)%N && (b =? d)%N.
Definition put_src (m : smap) (b : nat) (x : option N) : smap := fun k => if k =? b then x else m k.
Definition put_psrc (m : pmap) (b v : nat) (x : option N) : pmap := fun k w => if (k =? b) && (w =? v) then x else m k w.
(* src/ion/moves.rs:418-466 the scan of blockparam_outs *)
Fixpoint out_scan (v block : nat) (a : N) (outs : list Keys.bp_out) (m : pmap) : option (list Keys.bp_out * pmap) :=
  match outs with
  | [] => Some ([], m)
  | o :: t =>
      if pair_gt (Keys.bo_from_vreg o) (Keys.bo_from_block o) (N.of_nat v) (N.of_nat block) then Some (outs, m)
      else if pair_eq (Keys.bo_from_vreg o) (Keys.bo_from_block o) (N.of_nat v) (N.of_nat block) then
        let to := N.to_nat (Keys.bo_to_vreg o) in
        let! x := prefer (m block to) a in
        out_scan v block a t (put_psrc m block to x)
      else out_scan v block a t m
  end.
(* src/ion/moves.rs:384-470 blocks from [block] on whose ends are in the range *)
Fixpoint exit_scan (fuel v block : nat) (to : ppt) (a : N) (src : smap) (outs : list Keys.bp_out) (m : pmap) : option (smap * list Keys.bp_out * pmap) :=
  match fuel with
  | O => Some (src, outs, m)
  | S k =>
      let! e := ae_exit ae block in
      if to <? S e then Some (src, outs, m)
      else
        let! x := prefer (src block) a in
        let! q := out_scan v block a outs m in
        exit_scan k v (S block) to a (put_src src block x) (fst q) (snd q)
  end.

(* src/ion/moves.rs:491-529 the scan of blockparam_ins *)
Fixpoint in_scan (v block : nat) (a : N) (ins : list Keys.bp_in) (ds : list pdest) : list Keys.bp_in * list pdest :=
  match ins with
  | [] => ([], ds)
  | i :: t =>
      if pair_gt (Keys.bi_to_vreg i) (Keys.bi_to_block i) (N.of_nat v) (N.of_nat block) then (ins, ds)
      else if pair_eq (Keys.bi_to_vreg i) (Keys.bi_to_block i) (N.of_nat v) (N.of_nat block) then
        in_scan v block a t (ds ++ [mkPd (N.to_nat (Keys.bi_from_block i)) block v a])
      else in_scan v block a t ds
  end.
(* src/ion/moves.rs:545-561 the predecessors whose ends are not in the range *)
Fixpoint pred_dests (r : crange) (block : nat) (a : N) (preds : list nat) : option (list idest) :=
  match preds with
  | [] => Some []
  | p :: t =>
      let! e := ae_exit ae p in
      let! l := pred_dests r block a t in
      Some (if cr_contains_point r e then l else mkId block p a :: l)
  end.
(* src/ion/moves.rs:480-564 blocks from [block] on whose starts are in the range *)
Fixpoint entry_scan (fuel v block : nat) (r : crange) (a : N) (p : prevbuf) (ds : list pdest) (dst : list idest) : option (prevbuf * list pdest * list idest) :=
  match fuel with
  | O => Some (p, ds, dst)
  | S k =>
      let! e := ae_entry ae block in
      if cr_to r <=? e then Some (p, ds, dst)
      else
        let q := in_scan v block a (pb_prev_ins p) ds in
        let p1 := mkPb (pb_prev p) (pb_prev_ins p) (pb_buf p) (fst q) in
        if ae_livein ae block v then
          let! l := pred_dests r block a (f_preds (ae_f ae) block) in
          entry_scan k v (S block) r a p1 (snd q) (dst ++ l)
        else entry_scan k v (S block) r a p1 (snd q) dst
  end.

(* src/ion/moves.rs:566-580 the uses of a live range *)
Fixpoint apply_uses (r : crange) (a : N) (us : list use) (al : atab) (reuse : list nat) : option (atab * list nat) :=
  match us with
  | [] => Some (al, reuse)
  | u :: t =>
      dassert (ae_dbg ae) (cr_contains_point r (iu_pos u))
        (let i := pt_inst (iu_pos u) in
         apply_uses r a t (set_at al i (iu_slot u) a) (match o_con (iu_op u) with CReuse _ => reuse ++ [i] | _ => reuse end))
  end.

(* src/ion/moves.rs:351-375 the move from the previous range *)
Definition prev_move (v : nat) (e : lrentry) (a : N) (d : lrange) (p : option lrentry) (ms : list imove) : option (list imove) :=
  match p with
  | None => Some ms
  | Some pe =>
      let r := fst e in
      let! pa := range_alloc (snd pe) in
      if cr_from r <=? cr_to (fst pe) then
        let! sb := if cr_from r <? cr_to (fst pe) then Some true else let! s := start_of_block (cr_from r) in Some (negb s) in
        if sb && negb (lr_def d) then
          dassert (ae_dbg ae) (negb (pt_is_after (cr_from r)))
            (let! vr := vreg_of v in push_move (ae_dbg ae) ms (mkIm (cr_from r) Keys.PRegular pa a vr))
        else Some ms
      else Some ms
  end.

(* src/ion/moves.rs:293-624 one live range *)
Definition apply_range (v : nat) (s : avt) (e : lrentry) : option avt :=
  let r := fst e in
  let st := av_st s in
  let! a := range_alloc (snd e) in
  let! d := nth_error (io_ranges (ae_ion ae)) (snd e) in
  let p := pb_advance (av_prev s) e in
  let! ms := prev_move v e a d (pb_prev p) (as_moves st) in
  let! b := ae_insn_block ae (pt_inst (cr_from r)) in
  let nb := f_nblocks (ae_f ae) in
  let! x := exit_scan (nb - b) v b (cr_to r) a (av_src s) (as_outs st) (as_psrc st) in
  let! en := ae_entry ae b in
  let b1 := if en <? cr_from r then S b else b in
  let! y := entry_scan (nb - b1) v b1 r a p (as_pdst st) (av_dst s) in
  let! z := apply_uses r a (lr_uses d) (as_al st) (as_reuse st) in
  Some (mkAv (mkAs ms (fst z) (snd (fst x)) (snd x) (snd (fst y)) (snd z)) (fst (fst x)) (snd y) (fst (fst y))).
Fixpoint apply_ranges (v : nat) (s : avt) (l : list lrentry) : option avt :=
  match l with [] => Some s | e :: t => let! s1 := apply_range v s e in apply_ranges v s1 t end.

(* the priority of an edge move *)
Definition edge_prio_of (p : edge_prio) : Keys.move_prio := match p with OutEdgeMoves => Keys.POutEdgeMoves | InEdgeMoves => Keys.PInEdgeMoves end.
(* src/ion/moves.rs:626-650 the moves of a vreg over edges *)
Fixpoint push_dests (vr : vreg) (src : smap) (l : list idest) (ms : list imove) : option (list imove) :=
  match l with
  | [] => Some ms
  | d :: t =>
      let! a := src (id_from d) in
      let! q := choose_move_location (ae_f ae) (id_from d) (id_to d) in
      let! ms1 := push_move (ae_dbg ae) ms (mkIm (fst q) (edge_prio_of (snd q)) a (id_alloc d) vr) in
      push_dests vr src t ms1
  end.
Definition id_key (d : idest) : N := Keys.u64_key (N.of_nat (id_from d)) (N.of_nat (id_to d)).
(* src/ion/moves.rs:279-653 one vreg; the second component is blockparam_in_idx *)
Definition apply_vreg (v : nat) (l : list lrentry) (s : ast) (ins : list Keys.bp_in) : option (ast * list Keys.bp_in) :=
  let! vd := nth_error (io_vregs (ae_ion ae)) v in
  match vd_class vd with
  | None => Some (s, ins)
  | Some _ =>
      let! q := apply_ranges v (mkAv s (fun _ => None) [] (pb_new ins)) l in
      match av_dst q with
      | [] => Some (av_st q, pb_prev_ins (av_prev q))
      | _ =>
          let! vr := vreg_of v in
          let! ms := push_dests vr (av_src q) (sort_by_key id_key (av_dst q)) (as_moves (av_st q)) in
          Some (as_with_moves (av_st q) ms, pb_prev_ins (av_prev q))
      end
  end.
Fixpoint apply_vregs (v : nat) (ls : list (list lrentry)) (s : ast) (ins : list Keys.bp_in) : option ast :=
  match ls with
  | [] => Some s
  | l :: t => let! q := apply_vreg v l s ins in apply_vregs (S v) t (fst q) (snd q)
  end.

(* src/ion/moves.rs:655-668 the moves of block parameters *)
Fixpoint push_params (m : pmap) (l : list pdest) (ms : list imove) : option (list imove) :=
  match l with
  | [] => Some ms
  | d :: t =>
      let! a := m (pd_from d) (pd_vreg d) in
      let! q := choose_move_location (ae_f ae) (pd_from d) (pd_to d) in
      let! vr := vreg_of (pd_vreg d) in
      let! ms1 := push_move (ae_dbg ae) ms (mkIm (fst q) (edge_prio_of (snd q)) a (pd_alloc d) vr) in
      push_params m t ms1
  end.
(* src/ion/moves.rs:670-692 fixups *)
Fixpoint push_fixups (fs : list fixup) (ms : list imove) (al : atab) : option (list imove * atab) :=
  match fs with
  | [] => Some (ms, al)
  | x :: t =>
      let i := pt_inst (fx_pos x) in
      let from := al i (fx_from x) in
      let! to := alloc_reg (ae_dbg ae) (fx_preg x) in
      let! vr := vreg_of (fx_vreg x) in
      let! ms1 := push_move (ae_dbg ae) ms (mkIm (fx_pos x) (if fx_initial x then Keys.PMultiFixedRegInitial else Keys.PMultiFixedRegSecondary) from to vr) in
      push_fixups t ms1 (set_at al i (fx_to x) to)
  end.
(* src/ion/moves.rs:734-771 the operands of an instruction that reuse inputs;
   [seen] is input_reused *)
Fixpoint reuse_ops (i k : nat) (ops : list oper) (seen : list nat) (ms : list imove) (al : atab) : option (list imove * atab) :=
  match ops with
  | [] => Some (ms, al)
  | o :: t =>
      match o_con o with
      | CReuse n =>
          let k0 := N.to_nat n in
          dassert (ae_dbg ae) (negb (existsb (Nat.eqb k0) seen)) (dassert (ae_dbg ae) (is_late o)
            (let from := al i k0 in
             let to := al i k in
             if (from =? to)%N then reuse_ops i (S k) t (seen ++ [k0]) ms al
             else
               let! d := nth_error (f_operands (ae_f ae) i) k0 in
               let! ms1 := push_move (ae_dbg ae) ms (mkIm (p_before i) Keys.PReusedInput from to (o_vreg d)) in
               reuse_ops i (S k) t (seen ++ [k0]) ms1 (set_at al i k0 to)))
      | _ => reuse_ops i (S k) t seen ms al
      end
  end.
Fixpoint reuse_insts (l : list nat) (ms : list imove) (al : atab) : option (list imove * atab) :=
  match l with
  | [] => Some (ms, al)
  | i :: t => let! q := reuse_ops i 0 (f_operands (ae_f ae) i) [] ms al in reuse_insts t (fst q) (snd q)
  end.
(* src/ion/moves.rs:76-776 apply_allocations_and_insert_moves, from the
   allocations [al] that were set earlier: the moves and the allocations *)
Definition apply_allocations (al : atab) : option (list imove * atab) :=
  let! s := apply_vregs 0 (ae_lists ae) (mkAs [] al (ae_outs ae) (fun _ _ => None) [] []) (ae_ins ae) in
  let! ms := push_params (as_psrc s) (as_pdst s) (as_moves s) in
  let! q := push_fixups (ae_fixups ae) ms (as_al s) in
  reuse_insts (as_reuse s) (fst q) (snd q).
End Apply.
