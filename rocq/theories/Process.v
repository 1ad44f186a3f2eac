(* The main loop of the allocator: properties of bundles, splitting, choosing a
   register, evicting (src/ion/process.rs).  Model file: definitions only.

   [None] is a panic.  The operations on f32 weights are parameters: everything
   proved holds whatever they compute.  The statistics and the scratch vectors
   of Ctx are left out; the set scratch_removed_lrs_vregs is empty on entry and
   drained on exit, so the assertion at process.rs:824 holds. *)
From Coq Require Import NArith List Bool Arith.
From Verif Require Import Enc PRegSet Func Vecs Ranges Ion PRegs Requirement RegTraversal.
From Verif Require Keys.
Import ListNotations.
Open Scope nat_scope.

Notation "'let!' x ':=' e 'in' k" := (match e with Some x => k | None => None end) (at level 200, x name, e at level 100, k at level 200, right associativity, only parsing).

(* what the loop reads but does not change *)
Record penv := mkPenv {
  pe_dbg : bool;                        (* debug assertions *)
  pe_menv : machine_env;                (* self.env *)
  pe_stack : preg -> bool;              (* self.ctx.pregs[r.index()].is_stack *)
  pe_ninsts : nat;                      (* self.func.num_insts() *)
  pe_insn_block : nat -> option nat;    (* self.ctx.cfginfo.insn_block *)
  pe_depth : nat -> option nat;         (* self.ctx.cfginfo.approx_loop_depth *)
  pe_entry : nat -> option ppt;         (* self.ctx.cfginfo.block_entry *)
  pe_fzero : N;                         (* SpillWeight::zero(), as bits *)
  pe_fadd : N -> N -> N;                (* SpillWeight + SpillWeight *)
  pe_fint : N -> N;                     (* f32 as u32 *)
  pe_from_bits : N -> N;                (* SpillWeight::from_bits *)
  pe_move_cost : nat -> N               (* spill_weight_from_constraint(Reg, depth, true).to_int() *)
}.

(* src/lib.rs:1398-1451 the instruction of a point, the points before it and
   after it, and before its successor; C06 is about the 32-bit versions *)
Definition pt_inst (p : ppt) : nat := p / 2.
Definition pt_early (p : ppt) : ppt := p_before (pt_inst p).
Definition pt_late (p : ppt) : ppt := p_after (pt_inst p).
Definition pt_next_early (p : ppt) : ppt := p_before (S (pt_inst p)).
Definition pt_is_after (p : ppt) : bool := Nat.odd p.

(* src/ion/process.rs:1364-1386 minimal_range_for_use *)
Definition minimal_range (u : use) : crange :=
  let p := iu_pos u in
  match pt_is_after p, o_kind (iu_op u) with
  | false, Def => mkCr (pt_early p) (pt_next_early p)
  | false, Use => mkCr (pt_early p) (pt_late p)
  | true, Def => mkCr (pt_late p) (pt_next_early p)
  | true, Use => mkCr (pt_early p) (pt_next_early p)
  end.

(* src/ion/merge.rs:389-398 compute_bundle_prio; the u32 sum cannot wrap for
   disjoint ranges *)
Fixpoint bundle_prio (l : list lrentry) : option N :=
  match l with
  | [] => Some 0%N
  | (r, _) :: t => let! n := cr_len r in let! s := bundle_prio t in Some (N.of_nat n + s)%N
  end.

(* src/ion/merge.rs:403-421 the limits of the uses of one range: stops at a
   fixed register or the stack *)
Fixpoint uses_limit (us : list use) (limit : option N) : option (option N) :=
  match us with
  | [] => Some limit
  | u :: t =>
      match o_con (iu_op u) with
      | CLimit n => if (n <? 256)%N then uses_limit t (Some match limit with Some p => N.min p n | None => n end) else None
      | CFixed _ | CStack => Some limit
      | CAny | CReg | CReuse _ => uses_limit t limit
      end
  end.
(* src/ion/merge.rs:400-424 compute_bundle_limit *)
Fixpoint bundle_limit (st : ion) (l : list lrentry) (limit : option N) : option (option N) :=
  match l with
  | [] => Some limit
  | (_, i) :: t => let! d := nth_error (io_ranges st) i in let! lim := uses_limit (lr_uses d) limit in bundle_limit st t lim
  end.

Record bflags := mkBf { bf_fixed : bool; bf_fixed_def : bool; bf_stack : bool }.
Definition is_fixed_con (u : use) : bool := match o_con (iu_op u) with CFixed _ => true | _ => false end.
Definition is_stack_con (u : use) : bool := match o_con (iu_op u) with CStack => true | _ => false end.
Definition is_any_con (u : use) : bool := match o_con (iu_op u) with CAny => true | _ => false end.
Definition use_is_def (u : use) : bool := is_def (iu_op u).
(* src/ion/process.rs:285-302 *)
Fixpoint scan_flags (us : list use) (f : bflags) : bflags :=
  match us with
  | [] => f
  | u :: t =>
      let fixed := bf_fixed f || is_fixed_con u in
      let fixed_def := bf_fixed_def f || (is_fixed_con u && use_is_def u) in
      let stack := bf_stack f || is_stack_con u in
      let f' := mkBf fixed fixed_def stack in
      if stack && fixed then f' else scan_flags t f'
  end.

(* src/ion/process.rs:337-345 *)
Fixpoint total_weight (env : penv) (st : ion) (l : list lrentry) (w : N) : option N :=
  match l with
  | [] => Some w
  | (_, i) :: t => let! d := nth_error (io_ranges st) i in total_weight env st t (pe_fadd env w (lr_weight d))
  end.

(* src/ion/process.rs:280-323 minimal and the flags *)
Definition bundle_class (l : list lrentry) (d0 : lrange) : bool * bflags :=
  match lr_vreg d0 with
  | None => (true, mkBf true false false)
  | Some _ =>
      match l with
      | [_] =>
          (match lr_uses d0 with
           | [] => true
           | [u] => cr_contains (minimal_range u) (lr_range d0)
           | _ => false
           end, scan_flags (lr_uses d0) (mkBf false false false))
      | _ => (false, mkBf false false false)
      end
  end.

(* src/ion/process.rs:325-358 the spill weight; [limit] is a u8 *)
Definition bundle_weight (env : penv) (st : ion) (l : list lrentry) (minimal fixed : bool) (prio : N) (limit : option N) : option N :=
  if minimal then
    Some (if fixed then Keys.MINIMAL_FIXED_BUNDLE_SPILL_WEIGHT
          else match limit with
               | Some n => Keys.MINIMAL_LIMITED_BUNDLE_SPILL_WEIGHT - n
               | None => Keys.MINIMAL_BUNDLE_SPILL_WEIGHT
               end)%N
  else
    let! total := total_weight env st l (pe_fzero env) in
    Some (if 0 <? prio then N.min Keys.BUNDLE_MAX_NORMAL_SPILL_WEIGHT (pe_fint env total / prio) else 0)%N.

(* src/ion/process.rs:265-367 recompute_bundle_properties: the properties of a
   bundle with the ranges [l], and the function itself *)
Record props := mkProps { pp_prio : N; pp_weight : N; pp_minimal : bool; pp_flags : bflags; pp_limit : option N }.
Definition bundle_props (env : penv) (st : ion) (l : list lrentry) : option props :=
  match l with
  | [] => None
  | (_, i0) :: _ =>
      let! d0 := nth_error (io_ranges st) i0 in
      let! prio := bundle_prio l in
      let! limit := bundle_limit st l None in
      let (minimal, f) := bundle_class l d0 in
      let! w := bundle_weight env st l minimal (bf_fixed f) prio limit in
      Some (mkProps prio w minimal f limit)
  end.
Definition lb_with_props (b : lbundle) (p : props) : lbundle :=
  mkLb (lb_ranges b) (lb_spillset b) (lb_alloc b) (pp_prio p) (pp_weight p) (pp_minimal p) (bf_fixed (pp_flags p)) (bf_fixed_def (pp_flags p)) (bf_stack (pp_flags p)) (pp_limit p).
Definition recompute_bundle (env : penv) (st : ion) (bundle : nat) : option ion :=
  let! b := nth_error (io_bundles st) bundle in
  let! p := bundle_props env st (lb_ranges b) in
  Some (set_bundles st (lset (io_bundles st) bundle (lb_with_props b p))).

(* src/ion/process.rs:373-390 recompute_range_properties; the packed word drops
   the low two bits of the weight (src/ion/data_structures.rs:162-172) *)
Definition store_weight (w : N) : N := N.shiftl (N.shiftr w 2) 2.
Definition recompute_range (env : penv) (d : lrange) : lrange :=
  mkLr (lr_range d) (lr_vreg d) (lr_bundle d)
    (store_weight (fold_left (fun w u => pe_fadd env w (pe_from_bits env (iu_weight u))) (lr_uses d) (pe_fzero env)))
    (lr_def d || match lr_uses d with u :: _ => use_is_def u | [] => false end) (lr_uses d).

(* src/ion/process.rs:392-410 get_or_create_spill_bundle(bundle, true): the new
   state and the index of the spill bundle *)
Definition spill_bundle (st : ion) (bundle : nat) : option (ion * nat) :=
  let! b := nth_error (io_bundles st) bundle in
  let! ssi := lb_spillset b in
  let! s := nth_error (io_spillsets st) ssi in
  match sset_spill_bundle s with
  | Some i => Some (st, i)
  | None =>
      let i := length (io_bundles st) in
      let st1 := set_bundles st (io_bundles st ++ [lb_with_spillset new_lbundle (Some ssi)]) in
      let st2 := set_spillsets st1 (lset (io_spillsets st1) ssi (ss_with_bundle s (Some i))) in
      Some (set_spilled st2 (io_spilled st2 ++ [i]), i)
  end.

(* src/ion/process.rs:778-782 and 785-789, 966-970 recompute and enqueue *)
Definition requeue (env : penv) (st : ion) (bundle : nat) (hint : option preg) : option ion :=
  let! b0 := nth_error (io_bundles st) bundle in
  match lb_ranges b0 with
  | [] => Some st
  | _ =>
      let! st1 := recompute_bundle env st bundle in
      let! b := nth_error (io_bundles st1) bundle in
      Some (set_queue st1 (mkQe (lb_prio b) bundle hint :: io_queue st1))
  end.

(* ------------------------------------------------------------------ *)
(* src/ion/process.rs:823-973 split_into_minimal_bundles *)

(* the state threaded through the loops: new_lrs, new_bundles, spill_uses *)
Record smb := mkSmb { sm_st : ion; sm_lrs : list (option nat * nat); sm_bundles : list nat; sm_uses : list use }.

(* src/ion/process.rs:852-912 the uses of one range; the accumulators are
   spill_range.from and spill_starts_def *)
Fixpoint smb_uses (spillset : option nat) (v : option nat) (us : list use) (s : smb) (from : ppt) (sdef : bool) : smb * ppt * bool :=
  match us with
  | [] => (s, from, sdef)
  | u :: t =>
      if is_any_con u then smb_uses spillset v t (mkSmb (sm_st s) (sm_lrs s) (sm_bundles s) (sm_uses s ++ [u])) from (sdef || use_is_def u)
      else
        let from' := if use_is_def u then pt_next_early (iu_pos u) else from in
        let cr := minimal_range u in
        let st := sm_st s in
        let lr := length (io_ranges st) in
        let nb := length (io_bundles st) in
        let st1 := set_ranges st (io_ranges st ++ [mkLr cr v (Some nb) 0 (use_is_def u) [u]]) in
        let st2 := set_bundles st1 (io_bundles st1 ++ [lb_with_ranges (lb_with_spillset new_lbundle spillset) [(cr, lr)]]) in
        smb_uses spillset v t (mkSmb st2 (sm_lrs s ++ [(v, lr)]) (sm_bundles s ++ [nb]) (sm_uses s)) from' sdef
  end.

(* src/ion/process.rs:840-945 one range of the bundle *)
Definition smb_entry (spillset : option nat) (spill : nat) (e : lrentry) (s : smb) : option smb :=
  let (r, i) := e in
  let! d := nth_error (io_ranges (sm_st s)) i in
  let! st0 := upd_range (sm_st s) i (fun d => lr_with_uses d []) in
  let '(s1, from, sdef) := smb_uses spillset (lr_vreg d) (lr_uses d) (mkSmb st0 (sm_lrs s) (sm_bundles s) (sm_uses s)) (cr_from r) false in
  let sr := mkCr from (cr_to r) in
  if cr_is_empty sr then
    match sm_uses s1 with [] => Some s1 | _ => None end
  else
    let st := sm_st s1 in
    let lr := length (io_ranges st) in
    let st1 := set_ranges st (io_ranges st ++ [mkLr sr (lr_vreg d) (Some spill) 0 sdef (sm_uses s1)]) in
    let! st2 := upd_bundle st1 spill (fun b => lb_with_ranges b (lb_ranges b ++ [(sr, lr)])) in
    Some (mkSmb st2 (sm_lrs s1 ++ [(lr_vreg d, lr)]) (sm_bundles s1) []).
Fixpoint smb_entries (spillset : option nat) (spill : nat) (l : list lrentry) (s : smb) : option smb :=
  match l with
  | [] => Some s
  | e :: t => let! s1 := smb_entry spillset spill e s in smb_entries spillset spill t s1
  end.

(* src/ion/process.rs:948-953 forget the removed ranges.  The vregs come from a
   hash set in unspecified order; their lists are independent and retaining
   twice is retaining once, so the order in which the ranges were met is taken. *)
Fixpoint smb_forget (removed : list nat) (vs : list (option nat)) (st : ion) : option ion :=
  match vs with
  | [] => Some st
  | v :: t =>
      let! v := v in
      let! st1 := upd_vreg st v (fun d => vd_with_ranges d (filter (fun e => negb (nat_mem (snd e) removed)) (vd_ranges d))) in
      smb_forget removed t st1
  end.
(* src/ion/process.rs:956-960 enter the new ranges *)
Fixpoint smb_enter (l : list (option nat * nat)) (st : ion) : option ion :=
  match l with
  | [] => Some st
  | (v, lr) :: t =>
      let! d := nth_error (io_ranges st) lr in
      let! v := v in
      let! st1 := upd_vreg st v (fun x => vd_with_ranges x (vd_ranges x ++ [(lr_range d, lr)])) in
      smb_enter t st1
  end.
Fixpoint requeue_all (env : penv) (hint : option preg) (l : list nat) (st : ion) : option ion :=
  match l with
  | [] => Some st
  | b :: t => let! st1 := requeue env st b hint in requeue_all env hint t st1
  end.
Fixpoint lr_vregs (st : ion) (l : list lrentry) : option (list (option nat)) :=
  match l with
  | [] => Some []
  | (_, i) :: t => let! d := nth_error (io_ranges st) i in let! vs := lr_vregs st t in Some (lr_vreg d :: vs)
  end.

Definition split_minimal (env : penv) (st : ion) (bundle : nat) (hint : option preg) : option ion :=
  let! b := nth_error (io_bundles st) bundle in
  let! sp := spill_bundle st bundle in
  let (st1, spill) := sp in
  let! b1 := nth_error (io_bundles st1) bundle in
  let! vs := lr_vregs st1 (lb_ranges b1) in
  let! st2 := upd_bundle st1 bundle (fun b => lb_with_ranges b []) in
  let! s := smb_entries (lb_spillset b) spill (lb_ranges b1) (mkSmb st2 [] [] []) in
  let! st3 := smb_forget (map snd (lb_ranges b1)) vs (sm_st s) in
  let! st4 := smb_enter (sm_lrs s) st3 in
  requeue_all env hint (sm_bundles s) st4.

(* ------------------------------------------------------------------ *)
(* src/ion/process.rs:412-791 split_and_requeue_bundle *)

(* src/ion/data_structures.rs:313 *)
Definition MAX_SPLITS_PER_SPILLSET : N := 2.

(* src/ion/process.rs:472-478 the position of the first use *)
Fixpoint first_use_pos (st : ion) (l : list lrentry) : option (option ppt) :=
  match l with
  | [] => Some None
  | (_, i) :: t =>
      let! d := nth_error (io_ranges st) i in
      match lr_uses d with u :: _ => Some (Some (iu_pos u)) | [] => first_use_pos st t end
  end.

(* src/ion/process.rs:470-513 the split point actually used; [bend] is not 0,
   so the subtractions of prev() are exact *)
Definition adjust_split (st : ion) (l : list lrentry) (bstart bend split_at : ppt) : option ppt :=
  if split_at =? bstart then
    let! fu := first_use_pos st l in
    Some match fu with
         | Some p => if pt_inst p =? pt_inst bstart then pt_next_early p else pt_early p
         | None => pt_next_early bstart
         end
  else
    let s := if pt_is_after split_at then split_at + 1 else split_at in
    Some (if bend <=? s then s - 1 - 1 else s).

(* src/ion/process.rs:536-554 the first fixed use from the split point on *)
Fixpoint first_fixed (split_at : ppt) (us : list use) : option ppt :=
  match us with
  | [] => None
  | u :: t => if iu_pos u <? split_at then first_fixed split_at t else if is_fixed_con u then Some (iu_pos u) else first_fixed split_at t
  end.

(* src/ion/process.rs:523-559 where the list of ranges is cut.  The results are
   split_at, trim_ends_into_spill_bundle, last_lr_in_old_bundle_idx and
   first_lr_in_new_bundle_idx. *)
Fixpoint find_cut (st : ion) (fixed : bool) (i : nat) (l : list lrentry) (split_at : ppt) (trim : bool) (last first : nat) : option (ppt * bool * nat * nat) :=
  match l with
  | [] => Some (split_at, trim, last, first)
  | (r, ix) :: t =>
      let last1 := if cr_from r <? split_at then i else last in
      let first1 := if cr_from r <? split_at then i else first in
      if split_at <? cr_to r then
        if fixed then
          let! d := nth_error (io_ranges st) ix in
          match first_fixed split_at (lr_uses d) with
          | Some p => Some (pt_early p, false, if cr_from r <? pt_early p then i else last1, i)
          | None => Some (split_at, trim, last1, i)
          end
        else Some (split_at, trim, last1, i)
      else find_cut st fixed (S i) t split_at trim last1 first1
  end.

(* src/ion/process.rs:599-603 the number of uses before the split point *)
Fixpoint uses_before (p : ppt) (us : list use) : nat :=
  match us with [] => 0 | u :: t => if p <=? iu_pos u then 0 else S (uses_before p t) end.

(* src/ion/process.rs:587-635 cut the live range [orig] of the entry in two;
   [last] is its position in the old bundle.  Results: the state and the entry
   of the new half. *)
Definition cut_range (env : penv) (st : ion) (bundle : nat) (r : crange) (orig : nat) (last : nat) (p : ppt) : option (ion * lrentry) :=
  let! d := nth_error (io_ranges st) orig in
  let nr := mkCr p (cr_to r) in
  let lr := length (io_ranges st) in
  let k := uses_before p (lr_uses d) in
  let d1 := recompute_range env (lr_with_uses d (firstn k (lr_uses d))) in
  let new := recompute_range env (mkLr nr (lr_vreg d) None 0 false (skipn k (lr_uses d))) in
  let r1 := mkCr (cr_from (lr_range d)) p in
  let st1 := set_ranges st (lset (io_ranges st ++ [new]) orig (lr_with_range d1 r1)) in
  let! b := nth_error (io_bundles st1) bundle in
  let! e := nth_error (lb_ranges b) last in
  let st2 := set_bundles st1 (lset (io_bundles st1) bundle (lb_with_ranges b (lset (lb_ranges b) last (r1, snd e)))) in
  let! v := lr_vreg d in
  let! st3 := upd_vreg st2 v (fun x => vd_with_ranges x (vd_ranges x ++ [(nr, lr)])) in
  Some (st3, (nr, lr)).

(* src/ion/process.rs:640-642 *)
Fixpoint set_bundle_of (st : ion) (l : list lrentry) (b : nat) : option ion :=
  match l with
  | [] => Some st
  | (_, i) :: t => let! st1 := upd_range st i (fun d => lr_with_bundle d (Some b)) in set_bundle_of st1 t b
  end.

(* src/ion/process.rs:682-695 and 747-760 a new live range without uses in the
   spill bundle *)
Definition add_empty (st : ion) (spill : nat) (v : option nat) (r : crange) : option ion :=
  let lr := length (io_ranges st) in
  let st1 := set_ranges st (io_ranges st ++ [lr_with_bundle (new_lrange r) (Some spill)]) in
  let! st2 := upd_bundle st1 spill (fun b => lb_with_ranges b (lb_ranges b ++ [(r, lr)])) in
  let! v := v in
  upd_vreg st2 v (fun x => vd_with_ranges x (vd_ranges x ++ [(r, lr)])).

(* src/ion/process.rs:653-709 trim the end of the first half; one round per
   range *)
Fixpoint trim_tail (fuel : nat) (st : ion) (bundle : nat) : option ion :=
  match fuel with
  | O => None
  | S fuel' =>
      let! b := nth_error (io_bundles st) bundle in
      match rev (lb_ranges b) with
      | [] => Some st
      | (r, i) :: _ =>
          let! d := nth_error (io_ranges st) i in
          match rev (lr_uses d) with
          | [] =>
              let! sp := spill_bundle st bundle in
              let (st1, spill) := sp in
              let! st2 := upd_bundle st1 spill (fun b => lb_with_ranges b (lb_ranges b ++ [(r, i)])) in
              let! st3 := upd_bundle st2 bundle (fun b => lb_with_ranges b (removelast (lb_ranges b))) in
              let! st4 := upd_range st3 i (fun d => lr_with_bundle d (Some spill)) in
              trim_tail fuel' st4 bundle
          | u :: _ =>
              let split := pt_next_early (iu_pos u) in
              if split <? cr_to r then
                let! sp := spill_bundle st bundle in
                let (st1, spill) := sp in
                let! st2 := upd_bundle st1 bundle (fun b => lb_with_ranges b (removelast (lb_ranges b) ++ [(mkCr (cr_from r) split, i)])) in
                let! st3 := upd_range st2 i (fun d => lr_with_range d (mkCr (cr_from (lr_range d)) split)) in
                add_empty st3 spill (lr_vreg d) (mkCr split (cr_to r))
              else Some st
          end
      end
  end.

(* src/ion/process.rs:710-774 trim the start of the second half *)
Fixpoint trim_head (fuel : nat) (st : ion) (bundle : nat) : option ion :=
  match fuel with
  | O => None
  | S fuel' =>
      let! b := nth_error (io_bundles st) bundle in
      match lb_ranges b with
      | [] => Some st
      | (r, i) :: _ =>
          let! d := nth_error (io_ranges st) i in
          if lr_def d then Some st
          else
            match lr_uses d with
            | [] =>
                let! sp := spill_bundle st bundle in
                let (st1, spill) := sp in
                let! st2 := upd_bundle st1 spill (fun b => lb_with_ranges b (lb_ranges b ++ [(r, i)])) in
                let! st3 := upd_bundle st2 bundle (fun b => lb_with_ranges b (tl (lb_ranges b))) in
                let! st4 := upd_range st3 i (fun d => lr_with_bundle d (Some spill)) in
                trim_head fuel' st4 bundle
            | u :: _ =>
                let split := pt_early (iu_pos u) in
                if cr_from r <? split then
                  let! sp := spill_bundle st bundle in
                  let (st1, spill) := sp in
                  let! st2 := upd_bundle st1 bundle (fun b => lb_with_ranges b ((mkCr split (cr_to r), i) :: tl (lb_ranges b))) in
                  let! st3 := upd_range st2 i (fun d => lr_with_range d (mkCr split (cr_to (lr_range d)))) in
                  add_empty st3 spill (lr_vreg d) (mkCr (cr_from r) split)
                else Some st
            end
      end
  end.

(* src/ion/process.rs:517-791 the part after the split point is known *)
Definition split_at_point (env : penv) (st : ion) (bundle : nat) (b : lbundle) (p0 : ppt) (trim0 : bool) (hint : option preg) : option ion :=
  let! cut := find_cut st (lb_fixed b) 0 (lb_ranges b) p0 trim0 0 0 in
  let '(p, trim, last, first) := cut in
  let new_list := skipn first (lb_ranges b) in
  let! st1 := upd_bundle st bundle (fun b => lb_with_ranges b (firstn (S last) (lb_ranges b))) in
  match new_list with
  | [] => None
  | (r, i) :: rest =>
      let! cu :=
        (if cr_from r <? p then
           dassert (pe_dbg env) (last =? first)
             (let! c := cut_range env st1 bundle r i last p in let (st2, e) := c in Some (st2, e :: rest))
         else Some (st1, new_list)) in
      let (st2, nl) := cu in
      let nb := length (io_bundles st2) in
      let! st3 := set_bundle_of st2 nl nb in
      let st4 := set_bundles st3 (io_bundles st3 ++ [lb_with_ranges (lb_with_spillset new_lbundle (lb_spillset b)) nl]) in
      let! st5 :=
        (if trim then
           let! b5 := nth_error (io_bundles st4) bundle in
           let! s := trim_tail (S (length (lb_ranges b5))) st4 bundle in
           trim_head (S (length nl)) s nb
         else Some st4) in
      let! st6 := requeue env st5 bundle hint in
      requeue env st6 nb hint
  end.

Definition split_bundle (env : penv) (st : ion) (bundle : nat) (split_at : ppt) (hint : option preg) (trim : bool) : option ion :=
  let! b := nth_error (io_bundles st) bundle in
  let! ssi := lb_spillset b in
  let! s := nth_error (io_spillsets st) ssi in
  if (MAX_SPLITS_PER_SPILLSET <=? sset_splits s)%N then split_minimal env st bundle hint
  else
    let st1 := set_spillsets st (lset (io_spillsets st) ssi (ss_with_splits s (sset_splits s + 1))) in
    match lb_ranges b, rev (lb_ranges b) with
    | (r0, _) :: _, (r1, _) :: _ =>
        let bstart := cr_from r0 in
        let bend := cr_to r1 in
        dassert (pe_dbg env) ((bstart <=? split_at) && (split_at <? bend))
          (if pt_inst (bend - 1) =? pt_inst bstart then split_minimal env st1 bundle hint
           else
             let! p := adjust_split st1 (lb_ranges b) bstart bend split_at in
             dassert (pe_dbg env) ((bstart <? p) && (p <? bend))
               (split_at_point env st1 bundle b p trim hint))
    | _, _ => None
    end.

(* ------------------------------------------------------------------ *)
(* src/ion/process.rs:975-1351 process_bundle *)

(* PReg::invalid() is a register like any other (C03) *)
Definition valid_preg (r : preg) : option preg := if N.eqb r preg_invalid then None else Some r.
Definition reg_index (r : preg) : nat := N.to_nat (preg_index r).

(* the use lists of the ranges, for compute_requirement *)
Fixpoint bundle_uses (st : ion) (l : list lrentry) : option (list (list ruse)) :=
  match l with
  | [] => Some []
  | (_, i) :: t =>
      let! d := nth_error (io_ranges st) i in
      let! us := bundle_uses st t in
      Some (map (fun u => mkUse (N.of_nat (iu_pos u)) (o_con (iu_op u))) (lr_uses d) :: us)
  end.

(* the locals of one attempt: lowest_cost_evict_conflict_cost and _set,
   lowest_cost_split_conflict_cost, _point and _reg *)
Record probe_st := mkProbe { pr_ecost : option N; pr_eset : list nat; pr_scost : option N; pr_point : ppt; pr_reg : option preg }.
Definition below (x : N) (o : option N) : bool := match o with None => true | Some y => (x <? y)%N end.

(* the cost of a move at a point; [conflict_cost + move_cost] is not wrapped, it
   is below 2^28 + 2^30 + 2^13 (C49_weights, src/ion/liveranges.rs:36-52) *)
Definition cost_at (env : penv) (p : ppt) : option N :=
  let! b := pe_insn_block env (pt_inst p) in let! d := pe_depth env b in Some (pe_move_cost env d).

(* src/ion/process.rs:1084-1180 the loop over the registers; [inl] is success *)
Fixpoint probe (env : penv) (st : ion) (bundle : nat) (ssi : nat) (regs : list preg) (a : probe_st) : option (ion + probe_st) :=
  match regs with
  | [] => Some (Datatypes.inr a)
  | r :: t =>
      let limit := match pr_ecost a, pr_scost a with Some x, Some y => Some (N.max x y) | _, _ => None end in
      let! tr := try_alloc (pe_dbg env) st bundle (reg_index r) limit in
      let (st1, res) := tr in
      match res with
      | Allocated _ => let! st2 := upd_spillset st1 ssi (fun s => ss_with_hint s (valid_preg r)) in Some (inl st2)
      | Conflict bs p =>
          let! c := max_weight st1 bs in
          let a1 := if below c (pr_ecost a) then mkProbe (Some c) bs (pr_scost a) (pr_point a) (pr_reg a) else a in
          let! mc := cost_at env p in
          let a2 := if below (c + mc)%N (pr_scost a1) then mkProbe (pr_ecost a1) (pr_eset a1) (Some (c + mc)%N) p (valid_preg r) else a1 in
          probe env st1 bundle ssi t a2
      | ConflictWithFixed w p =>
          let! mc := cost_at env p in
          let a1 := if below (w + mc)%N (pr_scost a) then mkProbe (pr_ecost a) (pr_eset a) (Some (w + mc)%N) p (valid_preg r) else a in
          probe env st1 bundle ssi t a1
      | ConflictHighCost => probe env st1 bundle ssi t a
      end
  end.

(* src/ion/process.rs:1233-1256 the entries of one register that overlap the
   range: (min_bundles_assigned, fixed_assigned) added.  [range.from.prev()] of
   point 0 panics with debug assertions and is the greatest u32 without, when
   no entry is met. *)
Fixpoint count_entries (st : ion) (r : crange) (m : bmap (option nat)) (mins fixed : nat) : option (nat * nat) :=
  match m with
  | [] => Some (mins, fixed)
  | (k, v) :: t =>
      if lk_to k <=? cr_from r then count_entries st r t mins fixed
      else if cr_to r <=? lk_from k then Some (mins, fixed)
      else
        match v with
        | None => count_entries st r t mins (S fixed)
        | Some lr =>
            let! d := nth_error (io_ranges st) lr in
            let! bi := lr_bundle d in
            let! b := nth_error (io_bundles st) bi in
            count_entries st r t (if lb_minimal b then S mins else mins) fixed
        end
  end.
Fixpoint count_regs (dbg : bool) (st : ion) (r : crange) (limit : option N) (regs : list preg) (mins fixed total : nat) : option (nat * nat * nat) :=
  match regs with
  | [] => Some (mins, fixed, total)
  | g :: t =>
      let! m := nth_error (io_pregs st) (reg_index g) in
      let! n :=
        match cr_from r with
        | O => if dbg then None else Some (mins, fixed)
        | S p => count_entries st r (bm_range (key_at p) m) mins fixed
        end in
      let total1 := match limit with Some l => if (l <=? preg_hw_enc g)%N then total else S total | None => S total end in
      count_regs dbg st r limit t (fst n) (snd n) total1
  end.

(* src/ion/process.rs:1217-1279 the reaction when a minimal bundle cannot be
   placed; [Some tt] is Err(TooManyLiveRegs), [None] the panic "Could not
   allocate minimal bundle" or that of prev() *)
Definition too_many (env : penv) (st : ion) (b : lbundle) (c : regclass) (req : requirement) : option unit :=
  let limit := match req with RLimit n => Some n | _ => None end in
  match req with
  | RRegister | RLimit _ =>
      match lb_ranges b with
      | [] => None
      | (r, _) :: _ =>
          let ci := N.to_nat (class_u8 c) in
          let! p := nth_error (preferred_regs_by_class (pe_menv env)) ci in
          let! np := nth_error (non_preferred_regs_by_class (pe_menv env)) ci in
          let! ps := ps_iter p in
          let! nps := ps_iter np in
          let! n := count_regs (pe_dbg env) st r limit (ps ++ nps) 0 0 0 in
          let '(mins, fixed, total) := n in
          if total <=? mins + fixed then Some tt else None
      end
  | _ => None
  end.

Fixpoint evict_all (st : ion) (l : list nat) : option ion :=
  match l with [] => Some st | b :: t => let! st1 := evict st b in evict_all st1 t end.

(* src/ion/process.rs:1317-1325 the first block that is deeper in loops *)
Fixpoint hoist (env : penv) (n b base : nat) (p : ppt) : option ppt :=
  match n with
  | O => Some p
  | S n' => let! d := pe_depth env b in if base <? d then pe_entry env b else hoist env n' (S b) base p
  end.

(* src/ion/process.rs:1304-1326 where to split *)
Definition split_choice (env : penv) (bstart point : ppt) : option ppt :=
  let p := Nat.max point bstart in
  let! bs := pe_insn_block env (pt_inst bstart) in
  let! ds := pe_depth env bs in
  let! bp := pe_insn_block env (pt_inst p) in
  let! dp := pe_depth env bp in
  if ds <? dp then hoist env (bp - bs) (S bs) ds p else Some p.

(* how process_bundle ends: Ok, Err(TooManyLiveRegs), or the panic of [too_many];
   [None] is any other panic *)
Inductive pb_result := PbOk (st : ion) | PbTooMany | PbStuck.

(* src/ion/process.rs:1040-1346 the loop 'outer for a requirement of a register.
   [fuel] bounds the attempts.  The traversal reads only the machine environment,
   so its registers are listed first; 256 registers and a hint at most (C16). *)
Fixpoint attempts (fuel n : nat) (env : penv) (st : ion) (bundle : nat) (c : regclass) (req : requirement) (fixed hint : option preg) : option pb_result :=
  match fuel with
  | O => None
  | S fuel' =>
      dassert (pe_dbg env) (n <? 100 * pe_ninsts env)
      (let! b := nth_error (io_bundles st) bundle in
       let! ssi := lb_spillset b in
       match lb_ranges b with
       | [] => None
       | (r0, i0) :: _ =>
           let! d0 := nth_error (io_ranges st) i0 in
           let offset := (N.of_nat (pt_inst (cr_from (lr_range d0))) + N.of_nat bundle)%N in
           let! it := rt_new (pe_dbg env) (pe_menv env) c fixed hint offset (lb_limit b) in
           let! regs := rt_collect 600 it in
           let! pr := probe env st bundle ssi regs (mkProbe None [] None 0 None) in
           match pr with
           | inl st1 => Some (PbOk st1)
           | Datatypes.inr a =>
               dassert (pe_dbg env) (match pr_scost a, pr_ecost a with None, None => false | _, _ => true end)
               (if lb_minimal b then
                  if (2 <=? n) || negb (match pr_ecost a with Some c => (c <? lb_weight b)%N | None => false end)
                  then Some match too_many env st b c req with Some _ => PbTooMany | None => PbStuck end
                  else let! st1 := evict_all st (pr_eset a) in attempts fuel' (S n) env st1 bundle c req fixed hint
                else
                  if (2 <=? n) || negb (match pr_ecost a with Some c => (c <? lb_weight b)%N | None => false end)
                  then
                    let! p := split_choice env (cr_from r0) (pr_point a) in
                    let! st1 := split_bundle env st bundle p (pr_reg a) true in Some (PbOk st1)
                  else let! st1 := evict_all st (pr_eset a) in attempts fuel' (S n) env st1 bundle c req fixed hint)
           end
       end)
  end.

(* src/ion/process.rs:1023-1030 the ranges move to the spill bundle *)
Definition move_to_spill (st : ion) (bundle spill : nat) : option ion :=
  let! b := nth_error (io_bundles st) bundle in
  let! st1 := upd_bundle st bundle (fun b => lb_with_ranges b []) in
  let! st2 := set_bundle_of st1 (lb_ranges b) spill in
  upd_bundle st2 spill (fun x => lb_with_ranges x (lb_ranges x ++ lb_ranges b)).

Definition process_bundle (fuel : nat) (env : penv) (st : ion) (bundle : nat) (hint0 : option preg) : option pb_result :=
  let! b := nth_error (io_bundles st) bundle in
  let! ssi := lb_spillset b in
  let! s := nth_error (io_spillsets st) ssi in
  let hint1 := match hint0 with Some h => Some h | None => sset_hint s end in
  let hint := match hint1 with Some h => if pe_stack env h then None else Some h | None => None end in
  let! us := bundle_uses st (lb_ranges b) in
  match compute_requirement (pe_stack env) us with
  | RErr cf =>
      dassert (pe_dbg env) (negb (lb_minimal b))
        (let! st1 := split_bundle env st bundle (N.to_nat (split_point cf)) hint (should_trim cf) in Some (PbOk st1))
  | ROk req =>
      match req, sset_spill_bundle s with
      | RAny, Some spill => let! st1 := move_to_spill st bundle spill in Some (PbOk st1)
      | RAny, None => dassert (pe_dbg env) (1 <? 100 * pe_ninsts env) (Some (PbOk (set_spilled st (io_spilled st ++ [bundle]))))
      | RStack, _ => dassert (pe_dbg env) (1 <? 100 * pe_ninsts env) (let! st1 := upd_spillset st ssi (fun s => ss_with_required s true) in Some (PbOk st1))
      | RFixedReg r, _ | RFixedStack r, _ => attempts fuel 1 env st bundle (sset_class s) req (Some r) hint
      | RRegister, _ | RLimit _, _ => attempts fuel 1 env st bundle (sset_class s) req None hint
      end
  end.

(* ------------------------------------------------------------------ *)
(* src/ion/data_structures.rs:718-728, 795-814 the priority queue: entries are
   ordered by prio, bundle and hint; BinaryHeap::pop takes out the greatest *)
Definition hint_bits (h : option preg) : N := match h with Some r => r | None => preg_invalid end.
Definition q_lt (a b : qentry) : bool :=
  if (q_prio a =? q_prio b)%N then
    if q_bundle a =? q_bundle b then (hint_bits (q_hint a) <? hint_bits (q_hint b))%N else q_bundle a <? q_bundle b
  else (q_prio a <? q_prio b)%N.
Fixpoint q_pop (l : list qentry) : option (qentry * list qentry) :=
  match l with
  | [] => None
  | e :: t => match q_pop t with None => Some (e, []) | Some (m, t') => if q_lt m e then Some (e, t) else Some (m, e :: t') end
  end.

(* src/ion/process.rs:41-51 process_bundles; [fuel] bounds the rounds *)
Inductive pbs_result := PsDone (st : ion) | PsTooMany | PsStuck | PsPanic | PsFuel.
Fixpoint process_bundles (fuel : nat) (env : penv) (st : ion) : pbs_result :=
  match fuel with
  | O => PsFuel
  | S fuel' =>
      match q_pop (io_queue st) with
      | None => PsDone st
      | Some (e, q) =>
          match process_bundle 3 env (set_queue st q) (q_bundle e) (q_hint e) with
          | None => PsPanic
          | Some PbTooMany => PsTooMany
          | Some PbStuck => PsStuck
          | Some (PbOk st1) => process_bundles fuel' env st1
          end
      end
  end.

(* src/ion/merge.rs:426-439 queue_bundles *)
Fixpoint queue_bundles (env : penv) (n i : nat) (st : ion) : option ion :=
  match n with
  | O => Some st
  | S n' => let! st1 := requeue env st i None in queue_bundles env n' (S i) st1
  end.
