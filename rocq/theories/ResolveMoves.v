(* The final moves (src/ion/moves.rs:778-1008 resolve_inserted_moves, with
   InsertedMoves and Edits of src/ion/data_structures.rs:824-945).  Model file:
   definitions only.  [None] is a panic.  Traces, annotations and
   stats.edits_count are left out. *)
From Coq Require Import NArith List Bool Arith.
From Verif Require Import Enc PRegSet RegTraversal Func Vecs Ranges Spill Process LiveRanges Moves RedundantMoves.
From Verif Require Keys.
Import ListNotations.
Open Scope nat_scope.

(* src/ion/data_structures.rs:824-830 InsertedMove *)
Record imove := mkIm { im_pos : ppt; im_prio : Keys.move_prio; im_from : N; im_to : N; im_vreg : vreg }.
(* src/ion/data_structures.rs:935-945 PosWithPrio and its key *)
Definition mkey : Type := (nat * Keys.move_prio)%type.
Definition mkey_u64 (k : mkey) : N := Keys.u64_key (N.of_nat (fst k)) (Keys.prio_u32 (snd k)).
Definition im_key (m : imove) : mkey := (im_pos m, im_prio m).
(* derived PartialEq of PosWithPrio: the priority is stored as a u32 *)
Definition mkey_eqb (a b : mkey) : bool := (fst a =? fst b) && (Keys.prio_u32 (snd a) =? Keys.prio_u32 (snd b))%N.

Definition class_opt_eqb (a b : option regclass) : bool :=
  match a, b with Some x, Some y => class_eqb x y | None, None => true | _, _ => false end.
(* debug_assert_eq!(r.class(), to_vreg.class()) if the allocation is a register *)
Definition class_check (dbg : bool) (a : N) (v : vreg) : option bool :=
  match alloc_as_reg a with
  | None => None
  | Some None => Some true
  | Some (Some r) =>
      if dbg then match preg_class r, vreg_class v with Some x, Some y => Some (class_eqb x y) | _, _ => None end else Some true
  end.
(* src/ion/data_structures.rs:847-884 InsertedMoves::push *)
Definition push_move (dbg : bool) (ms : list imove) (m : imove) : option (list imove) :=
  if (im_from m =? im_to m)%N then Some ms
  else let! a := class_check dbg (im_from m) (im_vreg m) in
       if negb a then None else
       let! b := class_check dbg (im_to m) (im_vreg m) in
       if negb b then None else Some (ms ++ [m]).

(* Edit::Move with its PosWithPrio *)
Record edit := mkEd { ed_key : mkey; ed_from : N; ed_to : N }.
(* src/ion/data_structures.rs:920-927 Edits::add *)
Definition add_edit (dbg : bool) (es : list edit) (k : mkey) (from to : N) : option (list edit) :=
  if (from =? to)%N then Some es
  else match alloc_as_reg from, alloc_as_reg to with
       | Some (Some a), Some (Some b) =>
           if dbg then
             match preg_class a, preg_class b with
             | Some x, Some y => if class_eqb x y then Some (es ++ [mkEd k from to]) else None
             | _, _ => None
             end
           else Some (es ++ [mkEd k from to])
       | Some _, Some _ => Some (es ++ [mkEd k from to])
       | _, _ => None
       end.

(* src/ion/liveranges.rs:116-121 preferred_victim_by_class *)
Definition victim (e : machine_env) (c : regclass) : option preg :=
  let ci := N.to_nat (class_u8 c) in
  let! n := nth_error (non_preferred_regs_by_class e) ci in
  let! p := nth_error (preferred_regs_by_class e) ci in
  let! a := ps_max_preg n in
  let! b := ps_max_preg p in
  Some (match a with Some r => r | None => match b with Some r => r | None => preg_invalid end end).

Section Resolve.
  Context {V : Type} (env : penv) (f : func)
    (* self.pregs[..].allocations.btree and self.get_alloc(inst, slot) *)
    (pregs : list (bmap V)) (get_alloc : nat -> nat -> N).
  Let dbg := pe_dbg env.

  (* ---- src/ion/moves.rs:789-836 redundant_move_process_side_effects ---- *)
  (* 812-820 *)
  Fixpoint clear_defs (i k : nat) (ops : list oper) (r : rme) : rme :=
    match ops with
    | [] => r
    | o :: t => clear_defs i (S k) t (if is_def o then clear_alloc r (get_alloc i k) else r)
    end.
  (* 821-823 *)
  Fixpoint clear_regs (l : list preg) (r : rme) : option rme :=
    match l with
    | [] => Some r
    | x :: t => let! a := alloc_reg dbg x in clear_regs t (clear_alloc r a)
    end.
  (* 826-830: the dedicated scratch registers *)
  Fixpoint somes {A} (l : list (option A)) : list A := match l with [] => [] | Some x :: t => x :: somes t | None :: t => somes t end.
  Definition clear_inst (i : nat) (r : rme) : option rme :=
    let! cl := ps_iter (f_clobbers f i) in
    let! r1 := clear_regs cl (clear_defs i 0 (f_operands f i) r) in
    clear_regs (somes (scratch_by_class (pe_menv env))) r1.
  Fixpoint clear_insts (n i : nat) (r : rme) : option rme :=
    match n with O => Some r | S n' => let! r1 := clear_inst i r in clear_insts n' (S i) r1 end.
  (* 801-810: start_inst and end_inst; a point is before an instruction if even *)
  Definition next_inst (p : ppt) : nat := if Nat.even p then pt_inst p else S (pt_inst p).
  Definition side_effects (r : rme) (from to : ppt) : option rme :=
    let! a := pe_insn_block env (pt_inst from) in
    let! b := pe_insn_block env (pt_inst to) in
    if negb (a =? b) then Some (rme_clear r)
    else clear_insts (next_inst to - next_inst from) (next_inst from) r.

  (* ---- src/ion/moves.rs:878-1003: the moves of one class at one key ---- *)
  (* 907-935 find_free_reg, as the list of its answers.  The dedicated scratch
     comes first; the traversal has no fixed register, hint or limit. *)
  Fixpoint free_in (key : lrkey) (moves : list (mv (option vreg))) (l : list preg) : option (list N) :=
    match l with
    | [] => Some []
    | r :: t =>
        let! m := nth_error pregs (N.to_nat (preg_index r)) in
        let! a := alloc_reg dbg r in
        let! u := free_in key moves t in
        if bm_contains key m then Some u
        else if existsb (fun x => (msrc x =? a)%N || (mdst x =? a)%N) moves then Some u
        else Some (a :: u)
    end.
  Definition free_regs (c : regclass) (pos : ppt) (moves : list (mv (option vreg))) : option (list N) :=
    let! sc := nth_error (scratch_by_class (pe_menv env)) (N.to_nat (class_u8 c)) in
    let! it := rt_new dbg (pe_menv env) c None None 0%N None in
    let! rs := rt_collect 600 it in
    let! u := free_in (lk_from_range (mkCr pos (S pos))) moves rs in
    match sc with
    | None => Some u
    | Some r => let! a := alloc_reg dbg r in Some (a :: u)
    end.
  (* 936-946 get_stackslot: the n-th answer.  At most two slots are asked for, so
     that the subtraction does not wrap. *)
  Definition placeholder (n : nat) : N := match alloc_stack dbg (SPILLSLOT_MAX - N.of_nat n)%N with Some a => a | None => 0%N end.
  (* 947-953 is_stack_alloc; the kinds of allocations that would panic are not stack *)
  Definition is_stack_alloc (a : N) : bool :=
    match alloc_as_reg a with
    | Some (Some r) => pe_stack env r
    | _ => match alloc_is_stack a with Some b => b | None => false end
    end.
  Definition vreg_opt_eqb (a b : option vreg) : bool :=
    match a, b with Some x, Some y => (x =? y)%N | None, None => true | _, _ => false end.
  (* stackslot_idx after compute: how often get_stackslot was called *)
  Definition slots_used (frees : list N) (r : movevec (option vreg)) : nat :=
    match cycle_scratch (nth_error frees) placeholder dbg r with
    | None => 0
    | Some (moves, nf, ns) =>
        if negb (existsb (stack_to_stack is_stack_alloc) moves) then ns
        else match nth_error frees nf with Some _ => ns | None => S ns end
    end.

  (* extra_spillslots_by_class and num_spillslots *)
  Record slots := mkSlots { sx_extra : regclass -> list N; sx_num : N }.
  Definition put_extra (e : regclass -> list N) (c : regclass) (l : list N) : regclass -> list N :=
    fun d => if class_eqb d c then l else e d.
  (* 972-983: the slots for the placeholders [i, i+n); spillslot_size as u32 *)
  Fixpoint extra_slots (c : regclass) (n i : nat) (s : slots) : option slots :=
    match n with
    | O => Some s
    | S n' =>
        if i <? length (sx_extra s c) then extra_slots c n' (S i) s
        else
          let! q := allocate_spillslot dbg (f_named_by_last f) (sx_num s) (u32 (f_spillslot_size f c)) in
          let! a := alloc_stack dbg (fst q) in
          extra_slots c n' (S i) (mkSlots (put_extra (sx_extra s) c (sx_extra s c ++ [a])) (snd q))
    end.
  (* 985-987: the map is filled with increasing keys i; all keys differ *)
  Fixpoint rewrite_slot (extra : list N) (n i : nat) (a : N) : N :=
    match n with
    | O => a
    | S n' => if (a =? placeholder i)%N then match nth_error extra i with Some x => x | None => a end else rewrite_slot extra n' (S i) a
    end.

  (* 985-999 *)
  Fixpoint emit (k : mkey) (ren : N -> N) (l : list (mv (option vreg))) (q : rme * list edit) : option (rme * list edit) :=
    match l with
    | [] => Some q
    | m :: t =>
        let! p := process_move (fst q) (ren (msrc m)) (ren (mdst m)) (mdata m) in
        let! es := (if snd p then Some (snd q) else add_edit dbg (snd q) k (ren (msrc m)) (ren (mdst m))) in
        emit k ren t (fst p, es)
    end.

  Record rst := mkRst { rr_rme : rme; rr_last : ppt; rr_edits : list edit; rr_slots : slots }.
  (* 857-873: to_vreg.class() panics on the fourth pattern *)
  Definition of_class (c : regclass) (ms : list imove) : list imove := filter (fun m => class_opt_eqb (vreg_class (im_vreg m)) (Some c)) ms.
  Definition classed (ms : list imove) : bool := forallb (fun m => match vreg_class (im_vreg m) with Some _ => true | None => false end) ms.
  (* 880-999: one class *)
  Definition resolve_class (k : mkey) (ms : list imove) (c : regclass) (s : rst) : option rst :=
    let pm := map (fun m => (im_from m, im_to m, Some (im_vreg m))) (of_class c ms) in
    let! r := resolve vreg_opt_eqb None dbg pm in
    let! frees := free_regs c (fst k) pm in
    let! v := victim (pe_menv env) c in
    let! b := alloc_reg dbg v in
    let! out := compute None (nth_error frees) placeholder is_stack_alloc b dbg r in
    let n := slots_used frees r in
    let! sl := extra_slots c n 0 (rr_slots s) in
    let! q := emit k (rewrite_slot (sx_extra sl c) n 0) out (rr_rme s, rr_edits s) in
    Some (mkRst (fst q) (rr_last s) (snd q) sl).

  (* 840-856: the leading moves with the same key *)
  Fixpoint span_key (k : mkey) (ms : list imove) : list imove * list imove :=
    match ms with
    | [] => ([], [])
    | m :: t => if mkey_eqb (im_key m) k then let q := span_key k t in (m :: fst q, snd q) else ([], ms)
    end.
  (* 853-999: one key *)
  Definition resolve_group (k : mkey) (ms : list imove) (s : rst) : option rst :=
    let! r := side_effects (rr_rme s) (rr_last s) (fst k) in
    if classed ms then
      let! s1 := resolve_class k ms Int (mkRst r (fst k) (rr_edits s) (rr_slots s)) in
      let! s2 := resolve_class k ms Float s1 in
      resolve_class k ms Vector s2
    else None.
  (* 845-1000 *)
  Fixpoint resolve_loop (fuel : nat) (ms : list imove) (s : rst) : option rst :=
    match ms with
    | [] => Some s
    | m :: _ =>
        match fuel with
        | O => None
        | S fuel' =>
            let q := span_key (im_key m) ms in
            let! s1 := resolve_group (im_key m) (fst q) s in
            resolve_loop fuel' (snd q) s1
        end
    end.
  (* 838-1008, after the sort of 782-784: [ms] is the list that the unstable sort
     left, in ascending order of the keys; [num] is num_spillslots.  The final
     sort is stable.  The extra slots are new: extra_spillslots_by_class is
     empty before (src/ion/mod.rs:38-82). *)
  Definition resolve_inserted_moves (ms : list imove) (num : N) : option (list edit * N) :=
    let! s := resolve_loop (length ms) ms (mkRst rme_new (p_before 0) [] (mkSlots (fun _ => []) num)) in
    Some (sort_key edit (fun e => mkey_u64 (ed_key e)) (rr_edits s), sx_num (rr_slots s)).
End Resolve.
