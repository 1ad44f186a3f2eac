(* Liveness of vregs at block boundaries (src/ion/liveranges.rs:271-367).  Model
   file: definitions only.

   [None] is a panic, or that [fuel] does not bound the rounds of the worklist
   (C32_exact shows a bound).  The hash set of queued blocks is a list.  Statistics
   and tracing are left out. *)
From Coq Require Import NArith List Bool Arith.
From Verif Require Import Enc Func Vecs IndexSet Spill Process Merge.
Import ListNotations.
Open Scope nat_scope.

(* src/ion/data_structures.rs:674-680 observe_vreg_class, on the classes of the
   vregs *)
Definition observe (dbg : bool) (cls : list (option regclass)) (v : vreg) : option (list (option regclass)) :=
  let! old := nth_error cls (vidx v) in
  let! c := vreg_class v in
  dassert dbg (match old with None => true | Some d => class_eqb d c end) (Some (lset cls (vidx v) (Some c))).

(* the local variable [live] and the classes *)
Notation lcl := (amap * list (option regclass))%type (only parsing).
(* live.set(v, on) and observe_vreg_class(v) *)
Definition live_set (dbg on : bool) (s : lcl) (v : vreg) : option lcl :=
  let! live := is_set (fst s) (vreg_num v) on in
  let! cls := observe dbg (snd s) v in
  Some (live, cls).
Fixpoint live_sets (dbg on : bool) (vs : list vreg) (s : lcl) : option lcl :=
  match vs with
  | [] => Some s
  | v :: t => let! s1 := live_set dbg on s v in live_sets dbg on t s1
  end.
(* src/ion/liveranges.rs:305-313 the arguments of the branch, successor by
   successor *)
Fixpoint live_args (dbg : bool) (f : func) (b last n k : nat) (s : lcl) : option lcl :=
  match n with
  | O => Some s
  | S n' => let! s1 := live_sets dbg true (f_bargs f b last k) s in live_args dbg f b last n' (S k) s1
  end.
(* src/ion/liveranges.rs:317-335 the operands at one position *)
Definition at_pos (early : bool) (o : oper) : bool := Bool.eqb (is_early o) early.
Fixpoint live_operands (dbg early : bool) (ops : list oper) (s : lcl) : option lcl :=
  match ops with
  | [] => Some s
  | o :: t =>
      let! s1 :=
        match o_fixed_nonalloc o with
        | Some _ => Some s
        | None => if at_pos early o then live_set dbg (is_use o) s (o_vreg o) else Some s
        end in
      live_operands dbg early t s1
  end.
(* src/ion/liveranges.rs:315-337 the instructions [is], last first *)
Fixpoint live_insts (dbg : bool) (f : func) (is : list nat) (s : lcl) : option lcl :=
  match is with
  | [] => Some s
  | i :: t =>
      let! s1 := live_operands dbg false (f_operands f i) s in
      let! s2 := live_operands dbg true (f_operands f i) s1 in
      live_insts dbg f t s2
  end.
(* src/ion/liveranges.rs:301-341 from the live-out set of [b] to its live-in set *)
Definition live_block (dbg : bool) (f : func) (b : nat) (s : lcl) : option lcl :=
  let (from, to) := f_insns f b in
  if from <? to then
    let last := to - 1 in
    let! s1 := (if f_is_branch f last then live_args dbg f b last (length (f_succs f b)) 0 s else Some s) in
    let! s2 := live_insts dbg f (rev (span (from, to))) s1 in
    live_sets dbg false (f_params f b) s2
  else None.

(* the queue, the set of blocks in it, live-in and live-out sets, classes *)
Record lvst := mkLv { lv_queue : list nat; lv_queued : list nat; lv_in : list amap; lv_out : list amap; lv_cls : list (option regclass) }.
(* src/ion/liveranges.rs:343-350 the predecessors *)
Fixpoint live_preds (live : amap) (ps : list nat) (st : lvst) : option lvst :=
  match ps with
  | [] => Some st
  | p :: t =>
      let! o := nth_error (lv_out st) p in
      let! u := is_union o live in
      let outs := lset (lv_out st) p (fst u) in
      let st1 := if snd u && negb (existsb (Nat.eqb p) (lv_queued st))
                 then mkLv (lv_queue st ++ [p]) (p :: lv_queued st) (lv_in st) outs (lv_cls st)
                 else mkLv (lv_queue st) (lv_queued st) (lv_in st) outs (lv_cls st) in
      live_preds live t st1
  end.
(* src/ion/liveranges.rs:292-354 one round *)
Definition live_round (dbg : bool) (f : func) (b : nat) (st : lvst) : option lvst :=
  let! out := nth_error (lv_out st) b in
  let! s := live_block dbg f b (out, lv_cls st) in
  let! st1 := live_preds (fst s) (f_preds f b) (mkLv (lv_queue st) (filter (fun x => negb (x =? b)) (lv_queued st)) (lv_in st) (lv_out st) (snd s)) in
  if b <? length (lv_in st1) then Some (mkLv (lv_queue st1) (lv_queued st1) (lset (lv_in st1) b (fst s)) (lv_out st1) (lv_cls st1)) else None.
Fixpoint live_loop (fuel : nat) (dbg : bool) (f : func) (st : lvst) : option lvst :=
  match lv_queue st with
  | [] => Some st
  | b :: t =>
      match fuel with
      | O => None
      | S fuel' => let! st1 := live_round dbg f b (mkLv t (lv_queued st) (lv_in st) (lv_out st) (lv_cls st)) in live_loop fuel' dbg f st1
      end
  end.
(* src/ion/liveranges.rs:276-367 compute_liveness; [post] is the postorder,
   [inl tt] the error EntryLivein *)
Definition compute_liveness (fuel : nat) (dbg : bool) (f : func) (post : list nat) (cls : list (option regclass)) : option (unit + lvst) :=
  let! st := live_loop fuel dbg f (mkLv post post (repeat am_new (f_nblocks f)) (repeat am_new (f_nblocks f)) cls) in
  let! e := nth_error (lv_in st) (f_entry f) in
  if is_is_empty e then Some (inr st) else Some (inl tt).

(* src/ion/liveranges.rs:272-274 is_live_in *)
Definition is_live_in (st : lvst) (b : nat) (n : N) : option bool := let! s := nth_error (lv_in st) b in Some (is_get s n).
