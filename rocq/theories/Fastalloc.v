(* The single-pass allocator (src/fastalloc/mod.rs).  Model file: definitions
   only.

   A call ends in [Ok] with the new state, in [Err] (TooManyLiveRegs; the state
   is kept because alloc_operand goes on after it), or in [Panic].  Vectors over
   vregs are functions with an explicit bound check; vreg_in_preg has one entry
   for every value of the u8 in a PReg, so that indexing it cannot panic.
   Left out: traces, stats, and vreg_to_live_inst_range, which only feeds
   build_debug_info (C46) and is never read by the allocator. *)
From Coq Require Import NArith ZArith List Bool Arith.
From Verif Require Import Enc PRegSet Func Vecs Postorder Output Lru VRegSet Spill Process Moves ResolveMoves.
Import ListNotations.
Open Scope nat_scope.

(* src/fastalloc/mod.rs:353-358 enum ExclusiveOperandPos *)
Inductive epos := EarlyOnly | LateOnly | Both.
Definition epos_eqb (a b : epos) : bool :=
  match a, b with EarlyOnly, EarlyOnly => true | LateOnly, LateOnly => true | Both, Both => true | _, _ => false end.
(* src/fastalloc/mod.rs:384-397 From<Operand> for ExclusiveOperandPos *)
Definition op_epos (o : oper) : epos :=
  match o_kind o, o_pos o with
  | Use, Late | Def, Early => Both
  | _, p => if is_reuse o then Both else match p with Early => EarlyOnly | Late => LateOnly end
  end.

(* src/fastalloc/mod.rs:107-135 struct State with the mutable fields of Env
   (414-441).  [st_edits] has the newest edit first: the order after the final
   reversal. *)
Record fstate := mkFst {
  st_edits : list (ppt * Output.edit);
  st_scratch : regclass -> option preg;
  st_avail : opos -> pregset;
  st_navail : epos -> regclass -> Z;
  st_nany : epos -> regclass -> Z;
  st_alloc : nat -> aloc;
  st_slot : nat -> spillslot;
  st_inpreg : preg -> vreg;
  st_num : N;
  st_lru : regclass -> lru;
  st_live : vrset;
  st_reused : nat -> option nat;
  st_allocs : list aloc
}.
(* the fields that never change *)
Record fenv := mkFenv {
  fe_allocatable : pregset;
  fe_init : pregset;
  fe_initnum : regclass -> Z;
  fe_victim : regclass -> preg;
  fe_fixed : pregset;
  fe_dedicated : regclass -> option preg;
  fe_offs : list nat;
  fe_maxops : nat
}.

Inductive res (A : Type) := Ok (a : A) (s : fstate) | Err (s : fstate) | Panic.
Arguments Ok {A} _ _. Arguments Err {A} _. Arguments Panic {A}.
Definition rbind {A B} (m : res A) (k : A -> fstate -> res B) : res B :=
  match m with Ok a s => k a s | Err s => Err s | Panic => Panic end.
Notation "'do' x , s <- m ; k" := (rbind m (fun x s => k)) (at level 200, x name, s name, m at level 100, k at level 200, right associativity, only parsing).
(* a value, or a panic *)
Definition opt {A B} (o : option A) (k : A -> res B) : res B := match o with Some x => k x | None => Panic end.
Notation "'get' x <- m ; k" := (opt m (fun x => k)) (at level 200, x name, m at level 100, k at level 200, right associativity, only parsing).

(* src/lib.rs:703-746 Operand::new, then read back (C05): a fixed register is
   kept as its hardware encoding and read with the class of the vreg *)
Definition op_new (dbg : bool) (v : vreg) (c : constraint) (k : okind) (p : opos) : option oper :=
  match c with
  | CFixed r =>
      let! a := preg_class r in
      let! b := vreg_class v in
      if class_eqb a b then Some (mkOper v c k p)
      else if dbg then None
      else let! q := preg_new dbg (preg_hw_enc r) b in Some (mkOper v (CFixed q) k p)
  | _ => Some (mkOper v c k p)
  end.

(* ---- field updates ---- *)
Definition set_edits (s : fstate) x := mkFst x (st_scratch s) (st_avail s) (st_navail s) (st_nany s) (st_alloc s) (st_slot s) (st_inpreg s) (st_num s) (st_lru s) (st_live s) (st_reused s) (st_allocs s).
Definition set_scratch (s : fstate) x := mkFst (st_edits s) x (st_avail s) (st_navail s) (st_nany s) (st_alloc s) (st_slot s) (st_inpreg s) (st_num s) (st_lru s) (st_live s) (st_reused s) (st_allocs s).
Definition set_avail (s : fstate) x := mkFst (st_edits s) (st_scratch s) x (st_navail s) (st_nany s) (st_alloc s) (st_slot s) (st_inpreg s) (st_num s) (st_lru s) (st_live s) (st_reused s) (st_allocs s).
Definition set_navail (s : fstate) x := mkFst (st_edits s) (st_scratch s) (st_avail s) x (st_nany s) (st_alloc s) (st_slot s) (st_inpreg s) (st_num s) (st_lru s) (st_live s) (st_reused s) (st_allocs s).
Definition set_nany (s : fstate) x := mkFst (st_edits s) (st_scratch s) (st_avail s) (st_navail s) x (st_alloc s) (st_slot s) (st_inpreg s) (st_num s) (st_lru s) (st_live s) (st_reused s) (st_allocs s).
Definition set_valloc (s : fstate) x := mkFst (st_edits s) (st_scratch s) (st_avail s) (st_navail s) (st_nany s) x (st_slot s) (st_inpreg s) (st_num s) (st_lru s) (st_live s) (st_reused s) (st_allocs s).
Definition set_slot (s : fstate) x := mkFst (st_edits s) (st_scratch s) (st_avail s) (st_navail s) (st_nany s) (st_alloc s) x (st_inpreg s) (st_num s) (st_lru s) (st_live s) (st_reused s) (st_allocs s).
Definition set_inpreg (s : fstate) x := mkFst (st_edits s) (st_scratch s) (st_avail s) (st_navail s) (st_nany s) (st_alloc s) (st_slot s) x (st_num s) (st_lru s) (st_live s) (st_reused s) (st_allocs s).
Definition set_num (s : fstate) x := mkFst (st_edits s) (st_scratch s) (st_avail s) (st_navail s) (st_nany s) (st_alloc s) (st_slot s) (st_inpreg s) x (st_lru s) (st_live s) (st_reused s) (st_allocs s).
Definition set_lru (s : fstate) x := mkFst (st_edits s) (st_scratch s) (st_avail s) (st_navail s) (st_nany s) (st_alloc s) (st_slot s) (st_inpreg s) (st_num s) x (st_live s) (st_reused s) (st_allocs s).
Definition set_live (s : fstate) x := mkFst (st_edits s) (st_scratch s) (st_avail s) (st_navail s) (st_nany s) (st_alloc s) (st_slot s) (st_inpreg s) (st_num s) (st_lru s) x (st_reused s) (st_allocs s).
Definition set_reused (s : fstate) x := mkFst (st_edits s) (st_scratch s) (st_avail s) (st_navail s) (st_nany s) (st_alloc s) (st_slot s) (st_inpreg s) (st_num s) (st_lru s) (st_live s) x (st_allocs s).
Definition set_allocs (s : fstate) x := mkFst (st_edits s) (st_scratch s) (st_avail s) (st_navail s) (st_nany s) (st_alloc s) (st_slot s) (st_inpreg s) (st_num s) (st_lru s) (st_live s) (st_reused s) x.

Definition put_class {A} (f : regclass -> A) (c : regclass) (x : A) : regclass -> A := fun d => if class_eqb d c then x else f d.
Definition put_pos {A} (f : opos -> A) (p : opos) (x : A) : opos -> A :=
  fun q => match p, q with Early, Early => x | Late, Late => x | _, _ => f q end.
Definition put_cnt (f : epos -> regclass -> Z) (p : epos) (c : regclass) (x : Z) : epos -> regclass -> Z :=
  fun q d => if epos_eqb q p && class_eqb d c then x else f q d.
Definition put_preg (f : preg -> vreg) (r : preg) (v : vreg) : preg -> vreg := fun q => if N.eqb q r then v else f q.
(* i16 arithmetic: overflow panics with debug assertions and wraps without *)
Definition i16 (dbg : bool) (z : Z) : option Z :=
  if ((-32768 <=? z) && (z <=? 32767))%Z then Some z
  else if dbg then None else Some ((z + 32768) mod 65536 - 32768)%Z.
Definition vidx (v : vreg) : nat := N.to_nat (vreg_num v).
Definition avail_remove (s : fstate) (p : opos) (r : preg) : fstate := set_avail s (put_pos (st_avail s) p (ps_remove (st_avail s p) r)).
Definition avail_remove_both (s : fstate) (r : preg) : fstate := avail_remove (avail_remove s Early r) Late r.

Section Fast.
  Context (dbg : bool) (f : func) (E : fenv).

  Definition vok (v : vreg) : bool := vidx v <? f_nvregs f.
  (* self.vreg_allocs[v], self.vreg_spillslots[v] *)
  Definition valloc (s : fstate) (v : vreg) : option aloc := if vok v then Some (st_alloc s (vidx v)) else None.
  Definition vslot (s : fstate) (v : vreg) : option spillslot := if vok v then Some (st_slot s (vidx v)) else None.
  Definition put_valloc (s : fstate) (v : vreg) (a : aloc) : fstate := set_valloc s (fset (st_alloc s) (vidx v) a).
  (* src/fastalloc/mod.rs:54-69 Index<(usize, usize)> for Allocs *)
  Definition get_op_alloc (s : fstate) (inst k : nat) : option aloc :=
    let! b := nth_error (fe_offs E) inst in nth_error (st_allocs s) (b + k).
  Definition put_op_alloc (s : fstate) (inst k : nat) (a : aloc) : option fstate :=
    let! l := set_alloc (fe_offs E) (st_allocs s) inst k a in Some (set_allocs s l).

  (* src/fastalloc/mod.rs:138-141 is_stack *)
  Definition is_stack (a : aloc) : bool :=
    match a with AStack _ => true | AReg r => ps_contains (fe_fixed E) r | ANone => false end.

  (* src/fastalloc/mod.rs:86-104 allocstack *)
  Definition allocstack (s : fstate) (c : regclass) : option (spillslot * fstate) :=
    let! q := fast_allocstack dbg f (st_num s) c in Some (fst q, set_num s (snd q)).
  (* src/fastalloc/mod.rs:143-148 get_spillslot; the same text is inlined at
     160-163, 968-974 *)
  Definition get_spillslot (s : fstate) (v : vreg) : option (spillslot * fstate) :=
    let! sl := vslot s v in
    if slot_is_invalid sl then
      let! c := vreg_class v in
      let! q := allocstack s c in
      Some (fst q, set_slot (snd q) (fset (st_slot (snd q)) (vidx v) (fst q)))
    else Some (sl, s).

  Definition push_edit (s : fstate) (p : ppt) (from to : aloc) : fstate := set_edits s ((p, mkEdit from to) :: st_edits s).
  (* src/fastalloc/mod.rs:218-226 dec_clamp_zero on the three counters *)
  Definition dec_clamp (s : fstate) (c : regclass) : option fstate :=
    let! a := i16 dbg (st_navail s Both c - 1) in
    let! b := i16 dbg (st_navail s EarlyOnly c - 1) in
    let! d := i16 dbg (st_navail s LateOnly c - 1) in
    Some (set_navail s (put_cnt (put_cnt (put_cnt (st_navail s) Both c (Z.max 0 a)) EarlyOnly c (Z.max 0 b)) LateOnly c (Z.max 0 d))).

  (* src/fastalloc/mod.rs:150-177 evict_vreg_in_preg *)
  Definition evict_with (mv : fstate -> aloc -> aloc -> regclass -> res unit) (s : fstate) (r : preg) : res unit :=
    let v := st_inpreg s r in
    if dbg && N.eqb v VREG_INVALID then Panic else
    get q <- get_spillslot s v;
    get c <- vreg_class v;
    mv (put_valloc (snd q) v (AStack (fst q))) (AStack (fst q)) (AReg r) c.
  (* src/fastalloc/mod.rs:179-203 alloc_scratch_reg *)
  Definition alloc_scratch_with (mv : fstate -> aloc -> aloc -> regclass -> res unit) (s : fstate) (c : regclass) : res unit :=
    let avail := ps_inter (st_avail s Late) (st_avail s Early) in
    get l <- lru_last dbg (st_lru s c) avail;
    match l with
    | None => Err s
    | Some r =>
        do _u, s1 <- (if N.eqb (st_inpreg s r) VREG_INVALID then Ok tt s else evict_with mv s r);
        Ok tt (avail_remove_both (set_scratch s1 (put_class (st_scratch s1) c (Some r))) r)
    end.
  (* src/fastalloc/mod.rs:205-248 add_move.  It, evict_vreg_in_preg and
     alloc_scratch_reg call each other.  The inner call goes from a slot to the
     evicted register.  If that register is a fixed stack slot, the same calls
     are made again with the same arguments, which overflows the stack: with
     [fuel] at least 2 running out of it is exactly this. *)
  Fixpoint add_move_f (fuel : nat) (p : ppt) (s : fstate) (from to : aloc) (c : regclass) : res unit :=
    match fuel with
    | O => Panic
    | S fuel' =>
        if is_stack from && is_stack to then
          do _u, s1 <- (match st_scratch s c with
                        | Some _ => Ok tt s
                        | None => do _u, s1 <- alloc_scratch_with (add_move_f fuel' p) s c;
                                  get s2 <- dec_clamp s1 c; Ok tt s2
                        end);
          get r <- st_scratch s1 c;
          Ok tt (push_edit (push_edit s1 p (AReg r) to) p from (AReg r))
        else Ok tt (push_edit s p from to)
    end.
  Definition add_move (p : ppt) (s : fstate) (from to : aloc) (c : regclass) : res unit := add_move_f 2 p s from to c.
  Definition evict (p : ppt) (s : fstate) (r : preg) : res unit := evict_with (add_move p) s r.

  (* src/fastalloc/mod.rs:250-292 move_if_def_pred_branch *)
  Definition find_def (v : vreg) (ops : list oper) : option oper := find (fun o => is_def o && N.eqb (o_vreg o) v) ops.
  (* src/index.rs:154-163 InstRange::first, InstRange::last *)
  Definition range_first (b : nat) : option nat := dassert dbg (fst (f_insns f b) <? snd (f_insns f b)) (Some (fst (f_insns f b))).
  Definition range_last (b : nat) : option nat := dassert dbg (fst (f_insns f b) <? snd (f_insns f b)) (Some (snd (f_insns f b) - 1)).
  (* find_map goes on after an operand for which the closure answers None *)
  Fixpoint branch_def_reg (b : nat) (v : vreg) (ops : list oper) : option (option preg) :=
    match ops with
    | [] => Some None
    | o :: t =>
        if is_def o && N.eqb (o_vreg o) v then
          if 1 <? length (f_preds f b) then None
          else match o_con o with
               | CFixed r => Some (Some r)
               | CStack | CAny => branch_def_reg b v t
               | _ => None
               end
        else branch_def_reg b v t
    end.
  Definition move_if_def_pred_branch (s : fstate) (b pred : nat) (v : vreg) (sl : spillslot) : res unit :=
    get last <- range_last pred;
    get m <- branch_def_reg b v (f_operands f last);
    match m with
    | None => Ok tt s
    | Some r => get first <- range_first b; get c <- vreg_class v; add_move (p_before first) s (AReg r) (AStack sl) c
    end.

  (* src/fastalloc/mod.rs:447-545 Env::new: the state at the start.  The LRUs and
     the sets are built by [fast_env] below. *)

  (* src/fastalloc/mod.rs:547-563 reset_available_pregs_and_scratch_regs *)
  Definition all_zero (n : epos -> regclass -> Z) : bool :=
    forallb (fun p => forallb (fun c => Z.eqb (n p c) 0) [Int; Float; Vector]) [EarlyOnly; LateOnly; Both].
  Definition reset (s : fstate) : res unit :=
    let s1 := set_navail (set_scratch (set_avail s (fun _ => fe_init E)) (fe_dedicated E)) (fun _ => fe_initnum E) in
    if dbg && negb (all_zero (st_nany s1)) then Panic else Ok tt s1.

  Definition nonalloc (o : oper) : bool := match o_fixed_nonalloc o with Some _ => true | None => false end.
  (* src/fastalloc/mod.rs:565-609 reserve_reg_for_operand *)
  Definition reserve (s : fstate) (o : oper) (k : nat) (r : preg) : res unit :=
    let early := ps_contains (st_avail s Early) r in
    let late := ps_contains (st_avail s Late) r in
    match o_pos o, o_kind o with
    | Early, Use =>
        if negb (nonalloc o) && negb early then Err s else
        let s1 := avail_remove s Early r in
        if negb (k <? fe_maxops E) then Panic else
        match st_reused s1 k with
        | None => Ok tt s1
        | Some _ => if negb (nonalloc o) && negb late then Err s1 else Ok tt (avail_remove s1 Late r)
        end
    | Late, Def => if negb (nonalloc o) && negb late then Err s else Ok tt (avail_remove s Late r)
    | _, _ => if negb (nonalloc o) && (negb early || negb late) then Err s else Ok tt (avail_remove_both s r)
    end.

  (* src/fastalloc/mod.rs:611-687 allocd_within_constraint *)
  Definition in_reg_ok (s : fstate) (o : oper) (inst : nat) (r : preg) : bool :=
    if ps_contains (st_avail s (o_pos o)) r then true
    else N.eqb (st_inpreg s r) (o_vreg o) && (is_early o || negb (ps_contains (f_clobbers f inst) r)).
  Definition within (s : fstate) (o : oper) (inst : nat) : option bool :=
    let! a := valloc s (o_vreg o) in
    match o_con o with
    | CAny =>
        match a with
        | AReg r =>
            let! c := vreg_class (o_vreg o) in
            if negb (is_stack a) && (st_navail s (op_epos o) c <? st_nany s (op_epos o) c)%Z then Some false
            else Some (in_reg_ok s o inst r)
        | _ => Some (negb (aloc_is_none a))
        end
    | CReg =>
        if is_stack a then Some false
        else match a with AReg r => Some (in_reg_ok s o inst r) | _ => Some false end
    | CFixed r => Some (aloc_eqb a (AReg r))
    | CReuse _ => None
    | CStack => Some (is_stack a)
    | CLimit _ => None
    end.

  (* src/fastalloc/mod.rs:689-709 freealloc *)
  Definition freealloc (s : fstate) (v : vreg) : option fstate :=
    let! a := valloc s v in
    let! s1 := (match a with
                | AReg r => Some (set_inpreg s (put_preg (st_inpreg s) r VREG_INVALID))
                | AStack _ => Some s
                | ANone => None
                end) in
    let s2 := put_valloc s1 v ANone in
    let! l := vs_remove (st_live s2) (vidx v) in
    Some (set_live s2 l).

  (* src/fastalloc/mod.rs:711-735 select_suitable_reg_in_lru *)
  Definition select_reg (s : fstate) (o : oper) : res preg :=
    let draw := match o_pos o, o_kind o with
                | Late, Use | Early, Def => ps_inter (st_avail s Late) (st_avail s Early)
                | p, _ => st_avail s p
                end in
    get c <- vreg_class (o_vreg o);
    if ps_is_empty draw c then Err s else
    get l <- lru_last dbg (st_lru s c) draw;
    match l with None => Err s | Some r => Ok r s end.
  Definition poke (s : fstate) (c : regclass) (r : preg) : option fstate :=
    let! l := lru_poke dbg (st_lru s c) r in Some (set_lru s (put_class (st_lru s) c l)).

  (* the removals of src/fastalloc/mod.rs:758-770 and 898-909 *)
  Definition take_reg (s : fstate) (o : oper) (r : preg) : fstate :=
    let s1 := avail_remove s (o_pos o) r in
    match o_pos o, o_kind o with
    | Late, Use => avail_remove s1 Early r
    | Early, Def => avail_remove s1 Late r
    | _, _ => s1
    end.
  (* src/fastalloc/mod.rs:738-772 alloc_reg_for_operand *)
  Definition alloc_reg_for_operand (s : fstate) (inst : nat) (o : oper) : res aloc :=
    do r, s0 <- select_reg s o;
    do _u, s1 <- (if N.eqb (st_inpreg s0 r) VREG_INVALID then Ok tt s0 else evict (p_after inst) s0 r);
    get c <- vreg_class (o_vreg o);
    get s2 <- poke s1 c r;
    let s3 := take_reg s2 o r in
    Ok (AReg r) (match o_pos o, o_kind o with
                 | Late, Def => if is_reuse o then avail_remove s3 Early r else s3
                 | _, _ => s3
                 end).

  (* src/fastalloc/mod.rs:776-830 alloc_operand *)
  Definition dec_any (s : fstate) (o : oper) (c : regclass) : option fstate :=
    let! n := i16 dbg (st_nany s (op_epos o) c - 1) in
    Some (set_nany s (put_cnt (st_nany s) (op_epos o) c n)).
  Definition stack_of (s : fstate) (v : vreg) : res aloc := get q <- get_spillslot s v; Ok (AStack (fst q)) (snd q).
  Definition alloc_operand (s : fstate) (inst : nat) (o : oper) (k : nat) : res aloc :=
    do a, s1 <- (match o_con o with
      | CAny =>
          get a0 <- valloc s (o_vreg o);
          get c <- vreg_class (o_vreg o);
          if (is_def o && aloc_is_none a0) || (st_navail s (op_epos o) c <=? st_nany s (op_epos o) c)%Z then stack_of s (o_vreg o)
          else match alloc_reg_for_operand s inst o with
               | Err s' => stack_of s' (o_vreg o)
               | r => r
               end
      | CReg =>
          do a, s1 <- alloc_reg_for_operand s inst o;
          get c <- vreg_class (o_vreg o);
          get s2 <- dec_any s1 o c;
          Ok a s2
      | CFixed r => Ok (AReg r) s
      | CReuse _ => Panic
      | CStack => stack_of s (o_vreg o)
      | CLimit _ => Panic
      end);
    get s2 <- put_op_alloc s1 inst k a;
    Ok a s2.

  (* src/fastalloc/mod.rs:836-922 process_operand_allocation *)
  Definition process_operand (s : fstate) (inst : nat) (o : oper) (k : nat) : res unit :=
    match o_fixed_nonalloc o with
    | Some r => get s1 <- put_op_alloc s inst k (AReg r); Ok tt s1
    | None =>
        get w <- within s o inst;
        if negb w then
          get curr <- valloc s (o_vreg o);
          do new, s1 <- alloc_operand s inst o k;
          if aloc_is_none curr then
            get l <- vs_insert dbg (st_live s1) (o_vreg o);
            let s2 := put_valloc (set_live s1 l) (o_vreg o) new in
            Ok tt (match new with AReg r => set_inpreg s2 (put_preg (st_inpreg s2) r (o_vreg o)) | _ => s2 end)
          else
            do _u, s2 <- (if is_def o then get c <- vreg_class (o_vreg o); add_move (p_after inst) s1 new curr c else Ok tt s1);
            Ok tt (match new with AReg r => set_inpreg s2 (put_preg (st_inpreg s2) r VREG_INVALID) | _ => s2 end)
        else
          get a <- valloc s (o_vreg o);
          get s1 <- put_op_alloc s inst k a;
          get s2 <- (match o_con o with
                     | CReg => let! c := vreg_class (o_vreg o) in dec_any s1 o c
                     | _ => Some s1
                     end);
          match a with
          | AReg r =>
              get s3 <- (if ps_contains (fe_allocatable E) r then let! c := preg_class r in poke s2 c r else Some s2);
              Ok tt (take_reg s3 o r)
          | _ => Ok tt s2
          end
    end.

  (* src/fastalloc/mod.rs:933-1046 process_branch.  942-1003: the loop over the
     arguments of one successor; [ms] are the parallel moves with their class *)
  Definition bmove : Type := (regclass * mv (option vreg))%type.
  Fixpoint branch_args (s : fstate) (inst : nat) (params : list vreg) (args : list vreg) (pos : nat) (ms : list bmove) : res (list bmove) :=
    match args with
    | [] => Ok ms s
    | v :: t =>
        match find_def v (f_operands f inst) with
        | Some _ => branch_args s inst params t (S pos) ms
        | None =>
            get pv <- nth_error params pos;
            get q1 <- get_spillslot s pv;
            get q2 <- get_spillslot (snd q1) v;
            let spill := AStack (fst q2) in
            let s2 := snd q2 in
            get curr <- valloc s2 v;
            do _u, s3 <- (if aloc_is_none curr then get l <- vs_insert dbg (st_live s2) v; Ok tt (set_live s2 l)
                          else if negb (aloc_eqb curr spill) then get c <- vreg_class v; add_move (p_before inst) s2 spill curr c
                          else Ok tt s2);
            let s4 := put_valloc s3 v spill in
            get c <- vreg_class v;
            get sf <- vslot s4 v;
            get sp <- vslot s4 pv;
            get from <- alloc_stack dbg sf;
            get to <- alloc_stack dbg sp;
            branch_args s4 inst params t (S pos) (ms ++ [(c, (from, to, Some v))])
        end
    end.
  Fixpoint branch_succs (s : fstate) (b inst : nat) (succs : list nat) (idx : nat) (ms : list bmove) : res (list bmove) :=
    match succs with
    | [] => Ok ms s
    | x :: t =>
        do ms1, s1 <- branch_args s inst (f_params f x) (f_bargs f b inst idx) 0 ms;
        branch_succs s1 b inst t (S idx) ms1
    end.
  (* 1014-1043: the closures' state: the scratch registers, the registers left
     and the slot counter *)
  Record cstate := mkCs { cs_scratch : option preg; cs_avail : pregset; cs_num : N }.
  (* 1016-1031 find_free_reg *)
  Definition find_free_reg (l : lru) (s : cstate) : option (option N * cstate) :=
    match cs_scratch s with
    | Some r => let! a := alloc_reg dbg r in Some (Some a, mkCs None (cs_avail s) (cs_num s))
    | None =>
        let! q := lru_last dbg l (cs_avail s) in
        match q with
        | None => Some (None, s)
        | Some r => let! a := alloc_reg dbg r in Some (Some a, mkCs None (ps_remove (cs_avail s) r) (cs_num s))
        end
    end.
  (* 1032-1044 get_stackslot: the text of allocstack on the counter *)
  Definition get_stackslot (c : regclass) (s : cstate) : option (N * cstate) :=
    let! q := fast_allocstack dbg f (cs_num s) c in
    let! a := alloc_stack dbg (fst q) in
    Some (a, mkCs (cs_scratch s) (cs_avail s) (snd q)).
  (* is_stack on packed allocations *)
  Definition is_stackN (a : N) : bool :=
    match alloc_as_reg a with
    | Some (Some r) => ps_contains (fe_fixed E) r
    | _ => match alloc_is_stack a with Some b => b | None => false end
    end.
  (* src/moves.rs:336-345, 371-386: one request for a scratch location, as made
     by compute: a register, or else a slot *)
  Definition ask (l : lru) (c : regclass) (s : cstate) (ff : list (option N)) (gs : list N) : option (list (option N) * list N * cstate) :=
    let! q := find_free_reg l s in
    match fst q with
    | Some a => Some (ff ++ [Some a], gs, snd q)
    | None => let! g := get_stackslot c (snd q) in Some (ff ++ [None], gs ++ [fst g], snd g)
    end.
  (* the answers of the two closures in the order of the calls that compute
     makes: one request if there is a cycle, one if a move from stack to stack is
     left *)
  Definition answers (l : lru) (c : regclass) (s : cstate) (r : movevec (option vreg)) : option (list (option N) * list N * cstate) :=
    let! q1 := (if needs_scratch r then ask l c s [] [] else Some ([], [], s)) in
    let '(ff, gs, s1) := q1 in
    let! q2 := cycle_scratch (fun i => nth i ff None) (fun i => nth i gs 0%N) dbg r in
    if existsb (stack_to_stack is_stackN) (fst (fst q2)) then ask l c s1 ff gs else Some (ff, gs, s1).
  (* an Allocation as the model's decoded value *)
  Definition decode (a : N) : option aloc :=
    let! k := alloc_kind a in
    match k with
    | KNone => Some ANone
    | KReg => let! r := alloc_as_reg a in option_map AReg r
    | KStack => let! x := alloc_as_stack a in option_map AStack x
    end.
  (* 1050-1053: moves.into_iter().rev(), pushed one after the other *)
  Fixpoint push_moves (p : ppt) (l : list (mv (option vreg))) (s : fstate) : option fstate :=
    match l with
    | [] => Some s
    | m :: t => let! a := decode (msrc m) in let! b := decode (mdst m) in push_moves p t (push_edit s p a b)
    end.
  (* 1010-1056: one class *)
  Definition branch_class (inst : nat) (ms : list bmove) (c : regclass) (avail : pregset) (s : fstate) : res pregset :=
    get r <- resolve vreg_opt_eqb None dbg (map snd (filter (fun m => class_eqb (fst m) c) ms));
    get q <- answers (st_lru s c) c (mkCs (st_scratch s c) avail (st_num s)) r;
    get b <- alloc_reg dbg (fe_victim E c);
    let '(ff, gs, cs) := q in
    get out <- compute None (fun i => nth i ff None) (fun i => nth i gs 0%N) is_stackN b dbg r;
    get s1 <- push_moves (p_before inst) (rev out) s;
    Ok (cs_avail cs) (set_num s1 (cs_num cs)).
  Definition process_branch (s : fstate) (b inst : nat) : res unit :=
    do ms, s1 <- branch_succs s b inst (f_succs f b) 0 [];
    let avail := ps_inter (st_avail s1 Early) (st_avail s1 Late) in
    do a1, s2 <- branch_class inst ms Int avail s1;
    do a2, s3 <- branch_class inst ms Float a1 s2;
    do a3, s4 <- branch_class inst ms Vector a2 s3;
    Ok tt s4.

  (* src/fastalloc/mod.rs:1048-1124 alloc_def_op.  1071-1093: the slot of the
     first parameter that the vreg is passed to *)
  Fixpoint index_of (v : vreg) (l : list vreg) (i : nat) : option nat :=
    match l with [] => None | x :: t => if N.eqb v x then Some i else index_of v t (S i) end.
  Fixpoint param_slot (s : fstate) (v : vreg) (con : constraint) (b inst : nat) (succs : list nat) (idx : nat) : res (option spillslot) :=
    match succs with
    | [] => Ok None s
    | x :: t =>
        match index_of v (f_bargs f b inst idx) 0 with
        | Some k =>
            match con with
            | CAny | CStack =>
                get pv <- nth_error (f_params f x) k;
                get q <- get_spillslot s pv;
                Ok (Some (fst q)) (snd q)
            | _ => Ok None s
            end
        | None => param_slot s v con b inst t (S idx)
        end
    end.
  Definition put_slot (s : fstate) (v : vreg) (sl : spillslot) : fstate := set_slot s (fset (st_slot s) (vidx v) sl).
  Definition alloc_def_op (s : fstate) (b inst k : nat) (o : oper) (ops : list oper) : res unit :=
    do _u, s1 <- (match o_con o with
      | CReuse i =>
          get ro <- nth_error ops (N.to_nat i);
          get no <- op_new dbg (o_vreg o) (o_con ro) Def Early;
          process_operand s inst no k
      | _ =>
          if f_is_branch f inst then
            do ps, s1 <- param_slot s (o_vreg o) (o_con o) b inst (f_succs f b) 0;
            match ps with
            | Some x =>
                get old <- vslot s1 (o_vreg o);
                do _u, s2 <- process_operand (put_slot s1 (o_vreg o) x) inst (mkOper (o_vreg o) CStack (o_kind o) (o_pos o)) k;
                Ok tt (put_slot s2 (o_vreg o) old)
            | None => process_operand s1 inst o k
            end
          else process_operand s inst o k
      end);
    get sl <- vslot s1 (o_vreg o);
    do _v, s2 <- (if slot_is_valid sl then
                    get curr <- valloc s1 (o_vreg o);
                    if negb (aloc_eqb curr (AStack sl)) then get c <- vreg_class (o_vreg o); add_move (p_after inst) s1 curr (AStack sl) c
                    else Ok tt s1
                  else Ok tt s1);
    get s3 <- freealloc s2 (o_vreg o);
    Ok tt s3.

  (* src/fastalloc/mod.rs:1126-1146 alloc_use *)
  Definition alloc_use (s : fstate) (inst k : nat) (o : oper) : res unit :=
    if negb (k <? fe_maxops E) then Panic else
    match st_reused s k with
    | Some j =>
        get a <- get_op_alloc s inst j;
        match a with
        | AReg r => get no <- op_new dbg (o_vreg o) (CFixed r) (o_kind o) (o_pos o); process_operand s inst no k
        | _ => Panic
        end
    | None => process_operand s inst o k
    end.

  (* src/fastalloc/mod.rs:1148-1316 alloc_inst.  1158-1186: counting *)
  Definition add_any (s : fstate) (p : epos) (c : regclass) (d : Z) : option fstate :=
    let! n := i16 dbg (st_nany s p c + d) in Some (set_nany s (put_cnt (st_nany s) p c n)).
  Definition is_reg_con (c : constraint) : bool := match c with CReg => true | _ => false end.
  Fixpoint count_ops (s : fstate) (ops rest : list oper) (k : nat) : option fstate :=
    match rest with
    | [] => Some s
    | o :: t =>
        let! s1 := (match o_con o with
          | CReuse i =>
              if negb (N.to_nat i <? fe_maxops E) then None else
              let s0 := set_reused s (fset (st_reused s) (N.to_nat i) (Some k)) in
              let! ro := nth_error ops (N.to_nat i) in
              if is_reg_con (o_con ro) then
                let! c := vreg_class (o_vreg o) in
                let! s1 := add_any s0 Both c 1 in
                add_any s1 EarlyOnly c (-1)
              else Some s0
          | CReg => let! c := vreg_class (o_vreg o) in add_any s (op_epos o) c 1
          | _ => Some s
          end) in
        count_ops s1 ops t (S k)
    end.
  (* src/fastalloc/iter.rs:33-47 the views (C50), on decoded operands *)
  Fixpoint indexed (k : nat) (l : list oper) : list (nat * oper) := match l with [] => [] | o :: t => (k, o) :: indexed (S k) t end.
  Definition fixed_of (o : oper) : option preg := match o_con o with CFixed r => Some r | _ => None end.
  Definition fixed_view (l : list (nat * oper)) : list (nat * oper * preg) :=
    flat_map (fun x => match fixed_of (snd x) with Some r => [(x, r)] | None => [] end) l.
  (* 1187-1207: the number of seen clobbers is at most 256 and a u16 *)
  Fixpoint reserve_fixed (s : fstate) (clob : pregset) (l : list (nat * oper * preg)) (seen : pregset) (n : nat) : res nat :=
    match l with
    | [] => Ok n s
    | (k, o, r) :: t =>
        do _u, s1 <- reserve s o k r;
        if ps_contains seen r then reserve_fixed s1 clob t seen n
        else
          if ps_contains (fe_allocatable E) r then
            get rc <- preg_class r;
            get s2 <- poke s1 rc r;
            get c <- vreg_class (o_vreg o);
            get x <- i16 dbg (st_navail s2 (op_epos o) c - 1);
            let s3 := set_navail s2 (put_cnt (st_navail s2) (op_epos o) c x) in
            if dbg && (x <? 0)%Z then Panic
            else reserve_fixed s3 clob t (ps_add seen r) (if ps_contains clob r then S n else n)
          else reserve_fixed s1 clob t (ps_add seen r) n
    end.
  (* 924-931 remove_clobbers_from_available_pregs *)
  Definition remove_clobbers (s : fstate) (clob : pregset) : fstate :=
    set_avail s (put_pos (st_avail s) Late (ps_inter (st_avail s Late) (ps_invert clob))).
  Definition clear_preg (s : fstate) (r : preg) : fstate := set_inpreg s (put_preg (st_inpreg s) r VREG_INVALID).
  (* 1212-1228 *)
  Fixpoint evict_fixed (s : fstate) (inst : nat) (l : list (nat * oper * preg)) : res unit :=
    match l with
    | [] => Ok tt s
    | (k, o, r) :: t =>
        if negb (N.eqb (st_inpreg s r) VREG_INVALID) && negb (N.eqb (st_inpreg s r) (o_vreg o)) then
          do _u, s1 <- evict (p_after inst) s r; evict_fixed (clear_preg s1 r) inst t
        else evict_fixed s inst t
    end.
  (* 1229-1257 *)
  Fixpoint evict_clobbers (s : fstate) (inst : nat) (l : list preg) (n : nat) : res unit :=
    match l with
    | [] => Ok tt s
    | r :: t =>
        do _u, s1 <- (if negb (N.eqb (st_inpreg s r) VREG_INVALID) then
                        do _u, s1 <- evict (p_after inst) s r; Ok tt (clear_preg s1 r)
                      else Ok tt s);
        if ps_contains (fe_allocatable E) r then
          match n with
          | O =>
              get c <- preg_class r;
              get x <- i16 dbg (st_navail s1 LateOnly c - 1);
              get y <- i16 dbg (st_navail s1 Both c - 1);
              let s2 := set_navail s1 (put_cnt (put_cnt (st_navail s1) LateOnly c x) Both c y) in
              if dbg && ((x <? 0)%Z || (y <? 0)%Z) then Panic else evict_clobbers s2 inst t O
          | S n' => evict_clobbers s1 inst t n'
          end
        else evict_clobbers s1 inst t n
    end.
  (* 1285-1298: the late, then the early operands *)
  Fixpoint alloc_ops (s : fstate) (b inst : nat) (ops : list oper) (l : list (nat * oper)) : res unit :=
    match l with
    | [] => Ok tt s
    | (k, o) :: t =>
        do _u, s1 <- (if is_def o then alloc_def_op s b inst k o ops else alloc_use s inst k o);
        alloc_ops s1 b inst ops t
    end.
  (* 1300-1317: the moves in front of the instruction *)
  Fixpoint use_moves (s : fstate) (inst : nat) (l : list (nat * oper)) : res unit :=
    match l with
    | [] => Ok tt s
    | (k, o) :: t =>
        if nonalloc o then use_moves s inst t
        else
          get curr <- valloc s (o_vreg o);
          get new <- get_op_alloc s inst k;
          do _u, s1 <- (if negb (aloc_eqb curr new) then get c <- vreg_class (o_vreg o); add_move (p_before inst) s curr new c else Ok tt s);
          use_moves s1 inst t
    end.
  Definition alloc_inst (s : fstate) (b inst : nat) : res unit :=
    let ops := f_operands f inst in
    let view := indexed 0 ops in
    let clob := f_clobbers f inst in
    do _a, s0 <- reset s;
    get s1 <- count_ops s0 ops ops 0;
    do n, s2 <- reserve_fixed s1 clob (fixed_view view) ps_empty 0;
    let s3 := remove_clobbers s2 clob in
    do _b, s4 <- evict_fixed s3 inst (fixed_view view);
    get cl <- ps_iter clob;
    do _c, s5 <- evict_clobbers s4 inst cl n;
    do _d, s6 <- alloc_ops s5 b inst ops (filter (fun x => is_late (snd x)) view);
    do _e, s7 <- alloc_ops s6 b inst ops (filter (fun x => is_early (snd x)) view);
    do _f, s8 <- use_moves s7 inst (filter (fun x => is_use (snd x)) view);
    do _g, s9 <- (if f_is_branch f inst then process_branch s8 b inst else Ok tt s8);
    Ok tt (set_reused s9 (fun _ => None)).

  (* src/fastalloc/mod.rs:1324-1462 reload_at_begin.  1351-1396 *)
  Fixpoint reload_params (s : fstate) (p : ppt) (l : list vreg) : res unit :=
    match l with
    | [] => Ok tt s
    | v :: t =>
        get prev <- valloc s v;
        if aloc_is_none prev then reload_params s p t
        else
          get q <- get_spillslot s v;
          get s1 <- freealloc (snd q) v;
          do _u, s2 <- (if aloc_eqb (AStack (fst q)) prev then Ok tt s1
                        else get c <- vreg_class v; add_move p s1 (AStack (fst q)) prev c);
          reload_params s2 p t
    end.
  (* 1397-1430 *)
  Fixpoint reload_live (s : fstate) (p : ppt) (l : list vreg) : res unit :=
    match l with
    | [] => Ok tt s
    | v :: t =>
        get prev <- valloc s v;
        get q <- get_spillslot s v;
        let s1 := put_valloc (snd q) v (AStack (fst q)) in
        let s2 := match prev with AReg r => clear_preg s1 r | _ => s1 end in
        do _u, s3 <- (if aloc_eqb (AStack (fst q)) prev then Ok tt s2
                      else get c <- vreg_class v; add_move p s2 (AStack (fst q)) prev c);
        reload_live s3 p t
    end.
  Fixpoint succ_index (b : nat) (l : list nat) (i : nat) : option nat :=
    match l with [] => None | x :: t => if x =? b then Some i else succ_index b t (S i) end.
  (* 1438-1466 *)
  Fixpoint param_preds (s : fstate) (b k : nat) (v : vreg) (preds : list nat) : res unit :=
    match preds with
    | [] => Ok tt s
    | p :: t =>
        get last <- range_last p;
        get i <- succ_index b (f_succs f p) 0;
        get a <- nth_error (f_bargs f p last i) k;
        get sl <- vslot s v;
        do _u, s1 <- move_if_def_pred_branch s b p a sl;
        param_preds s1 b k v t
    end.
  Fixpoint params_defs (s : fstate) (b k : nat) (l : list vreg) : res unit :=
    match l with
    | [] => Ok tt s
    | v :: t =>
        get sl <- vslot s v;
        do _u, s1 <- (if slot_is_invalid sl then Ok tt s else param_preds s b k v (f_preds f b));
        params_defs s1 b (S k) t
    end.
  (* 1467-1476 *)
  Fixpoint live_preds (s : fstate) (b : nat) (v : vreg) (preds : list nat) : res unit :=
    match preds with
    | [] => Ok tt s
    | p :: t =>
        get sl <- vslot s v;
        do _u, s1 <- move_if_def_pred_branch s b p v sl;
        live_preds s1 b v t
    end.
  Fixpoint live_defs (s : fstate) (b : nat) (l : list vreg) : res unit :=
    match l with
    | [] => Ok tt s
    | v :: t => do _u, s1 <- live_preds s b v (f_preds f b); live_defs s1 b t
    end.
  Definition reload_at_begin (s : fstate) (b : nat) : res unit :=
    do _a, s0 <- reset s;
    get first <- range_first b;
    let p := p_before first in
    do _b, s1 <- reload_params s0 p (f_params f b);
    get lv <- vs_iter (S (vs_n (st_live s1))) (st_live s1);
    do _c, s2 <- reload_live s1 p lv;
    let s3 := set_scratch s2 (fe_dedicated E) in
    do _d, s4 <- params_defs s3 b 0 (f_params f b);
    get lv2 <- vs_iter (S (vs_n (st_live s4))) (st_live s4);
    live_defs s4 b lv2.

  (* src/fastalloc/mod.rs:1530-1538 alloc_block: the instructions in reverse *)
  Fixpoint alloc_insts (s : fstate) (b : nat) (l : list nat) : res unit :=
    match l with
    | [] => Ok tt s
    | i :: t => do _u, s1 <- alloc_inst s b i; alloc_insts s1 b t
    end.
  Definition alloc_block (s : fstate) (b : nat) : res unit :=
    do _u, s1 <- alloc_insts s b (rev (span (f_insns f b)));
    reload_at_begin s1 b.
  (* src/fastalloc/mod.rs:1554-1563 run *)
  Fixpoint alloc_blocks (s : fstate) (l : list nat) : res unit :=
    match l with
    | [] => Ok tt s
    | b :: t => do _u, s1 <- alloc_block s b; alloc_blocks s1 t
    end.
  Definition run (s : fstate) : res unit :=
    if dbg && negb (f_entry f =? 0) then Panic else alloc_blocks s (rev (seq 0 (f_nblocks f))).
End Fast.

(* src/fastalloc/mod.rs:447-545 Env::new *)
Definition by_class {A} (l : list A) (c : regclass) : option A := nth_error l (N.to_nat (class_u8 c)).
Definition all_classes {A} (g : regclass -> option A) : option (regclass -> A) :=
  let! a := g Int in let! b := g Float in let! c := g Vector in
  Some (fun k => match k with Int => a | Float => b | Vector => c end).
Definition class_regs (me : machine_env) (c : regclass) : option pregset :=
  let! a := by_class (preferred_regs_by_class me) c in
  let! b := by_class (non_preferred_regs_by_class me) c in
  Some (ps_union a b).
Definition fast_env (f : func) (me : machine_env) : option (fenv * fstate) :=
  let allocatable := ps_from_env me in
  let init := fold_left ps_add (fixed_stack_slots me) allocatable in
  let! num := all_classes (fun c =>
    let! a := by_class (preferred_regs_by_class me) c in
    let! b := by_class (non_preferred_regs_by_class me) c in
    Some (Z.of_N (ps_len a + ps_len b)%N)) in
  let! victims := all_classes (fun c =>
    let! r := class_regs me c in
    let! m := ps_max_preg r in
    Some (match m with Some x => x | None => preg_invalid end)) in
  let! lrus := all_classes (fun c => let! r := class_regs me c in lru_new c r) in
  let! ded := all_classes (by_class (scratch_by_class me)) in
  let '(offs, allocs, maxops) := fast_layout f in
  Some (mkFenv allocatable init num victims (ps_from_iter (fixed_stack_slots me)) ded offs maxops,
        mkFst [] ded (fun _ => init) (fun _ => num) (fun _ _ => 0%Z) (fun _ => ANone) (fun _ => slot_invalid)
              (fun _ => VREG_INVALID) 0%N lrus (vs_new (f_nvregs f)) (fun _ => None) allocs).

(* src/fastalloc/mod.rs:1612-1643 the public run, without the SSA check *)
Inductive outcome := OutOk (o : output) | OutErr | OutPanic.
Definition fast_run (dbg : bool) (f : func) (me : machine_env) : outcome :=
  match fast_env f me with
  | None => OutPanic
  | Some (e, s) =>
      match run dbg f e s with
      | Ok _ s' => OutOk (mkOutput (N.to_nat (st_num s')) (st_edits s') (st_allocs s') (fe_offs e))
      | Err _ => OutErr
      | Panic => OutPanic
      end
  end.
