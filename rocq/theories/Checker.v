(* The symbolic checker (src/checker.rs).  Model file: definitions only.

   Hash sets are lists used only through membership, hash maps are association
   lists used only through lookup; equality of states is extensional, as for the
   hash containers.  [None] is a panic.  Tracing is left out.  The debug
   assertion on instruction order in [prepare] is not modelled. *)
From Coq Require Import NArith List Bool Arith.
From Verif Require Import Enc PRegSet Func Output.
Import ListNotations.

Definition vmem (v : vreg) (l : list vreg) : bool := existsb (N.eqb v) l.

(* src/checker.rs:184-190 enum CheckerValue *)
Inductive cvalue := Universe | VRegs (vs : list vreg).

(* src/checker.rs:183 derived PartialEq (on hash sets: same elements) *)
Definition vset_eqb (a b : list vreg) : bool := forallb (fun v => vmem v b) a && forallb (fun v => vmem v a) b.
Definition cvalue_eqb (a b : cvalue) : bool :=
  match a, b with
  | Universe, Universe => true
  | VRegs x, VRegs y => vset_eqb x y
  | _, _ => false
  end.

(* src/checker.rs:218-230 CheckerValue::meet_with *)
Definition value_meet (self other : cvalue) : cvalue :=
  match self, other with
  | _, Universe => self
  | Universe, _ => other
  | VRegs mine, VRegs others => VRegs (filter (fun v => vmem v others) mine)
  end.

(* src/checker.rs:232-234 CheckerValue::from_reg *)
Definition value_from_reg (v : vreg) : cvalue := VRegs [v].

(* src/checker.rs:236-245 CheckerValue::remove_vreg *)
Definition value_remove (v : vreg) (x : cvalue) : option cvalue :=
  match x with
  | Universe => None
  | VRegs vs => Some (VRegs (filter (fun w => negb (N.eqb w v)) vs))
  end.

(* FxHashMap<Allocation, CheckerValue> *)
Definition cmap := list (aloc * cvalue).
Fixpoint m_get (m : cmap) (a : aloc) : option cvalue :=
  match m with
  | [] => None
  | (k, v) :: t => if aloc_eqb k a then Some v else m_get t a
  end.
Definition m_remove (m : cmap) (a : aloc) : cmap := filter (fun kv => negb (aloc_eqb (fst kv) a)) m.
Definition m_insert (m : cmap) (a : aloc) (v : cvalue) : cmap := (a, v) :: m_remove m a.
Definition opt_eqb (x y : option cvalue) : bool :=
  match x, y with
  | None, None => true
  | Some a, Some b => cvalue_eqb a b
  | _, _ => false
  end.
Definition m_eqb (m n : cmap) : bool :=
  forallb (fun k => opt_eqb (m_get m k) (m_get n k)) (map fst m ++ map fst n).

(* src/checker.rs:288-291 enum CheckerState *)
Inductive cstate := Top | Allocs (m : cmap).

Definition cstate_eqb (a b : cstate) : bool :=
  match a, b with
  | Top, Top => true
  | Allocs m, Allocs n => m_eqb m n
  | _, _ => false
  end.

(* src/checker.rs:294-299 get_value *)
Definition get_value (s : cstate) (a : aloc) : option cvalue :=
  match s with Top => None | Allocs m => m_get m a end.

(* src/checker.rs:323-328 become_defined *)
Definition become_defined (s : cstate) : cmap := match s with Top => [] | Allocs m => m end.

(* src/checker.rs:398-407 merge_map: retain the common keys, then meet *)
Definition merge_map (into from : cmap) : cmap :=
  flat_map (fun kv => match m_get from (fst kv) with
                      | None => []
                      | Some fv => [(fst kv, value_meet (snd kv) fv)]
                      end) into.

(* src/checker.rs:416-431 CheckerState::meet_with *)
Definition state_meet (self other : cstate) : cstate :=
  match self, other with
  | _, Top => self
  | Top, _ => other
  | Allocs m, Allocs n => Allocs (merge_map m n)
  end.

(* src/checker.rs:698-721 enum CheckerInst *)
Inductive cinst :=
| CMove (into from : aloc)
| CPar (moves : list (vreg * vreg))     (* (dest, src) *)
| COp (inst : nat) (operands : list oper) (allocs : list aloc) (clobbers : list preg).

(* src/checker.rs:586-599 the label set of one allocation under a parallel move *)
Definition par_value (moves : list (vreg * vreg)) (x : cvalue) : cvalue :=
  match x with
  | Universe => Universe
  | VRegs vs =>
      let insertions := flat_map (fun v => map fst (filter (fun m => N.eqb (snd m) v) moves)) vs in
      let kept := filter (fun v => negb (vmem v (map fst moves))) vs in
      VRegs (kept ++ insertions)
  end.

(* src/checker.rs:625-629 CheckerState::remove_vreg *)
Fixpoint m_remove_vreg (v : vreg) (m : cmap) : option cmap :=
  match m with
  | [] => Some []
  | (k, x) :: t =>
      match value_remove v x, m_remove_vreg v t with
      | Some x', Some t' => Some ((k, x') :: t')
      | _, _ => None
      end
  end.

(* src/checker.rs:611-617 the definitions of an instruction *)
Fixpoint upd_defs (l : list (oper * aloc)) (m : cmap) : option cmap :=
  match l with
  | [] => Some m
  | (o, a) :: t =>
      if is_def o then
        match m_remove_vreg (o_vreg o) m with
        | None => None
        | Some m' => upd_defs t (m_insert m' a (value_from_reg (o_vreg o)))
        end
      else upd_defs t m
  end.

(* src/checker.rs:542-623 CheckerState::update *)
Definition update (s : cstate) (i : cinst) : option cstate :=
  let m := become_defined s in
  match i with
  | CMove into from =>
      match m_get m from with
      | Some v => Some (Allocs (m_insert m into v))
      | None => Some (Allocs m)
      end
  | CPar moves => Some (Allocs (map (fun kv => (fst kv, par_value moves (snd kv))) m))
  | COp _ operands allocs clobbers =>
      match upd_defs (combine operands allocs) m with
      | None => None
      | Some m' => Some (Allocs (fold_left (fun m c => m_remove m (AReg c)) clobbers m'))
      end
  end.

(* src/checker.rs:631-693 check_constraint; inner bool: true = Ok *)
Definition check_constraint (env : machine_env) (o : oper) (a : aloc) (allocs : list aloc) : option bool :=
  let fixed r := existsb (N.eqb r) (fixed_stack_slots env) in
  match o_con o with
  | CAny => Some true
  | CReg => Some (match aloc_as_reg a with Some r => negb (fixed r) | None => false end)
  | CStack =>
      Some (if aloc_is_stack a then true
            else match aloc_as_reg a with Some r => fixed r | None => false end)
  | CFixed r => Some (aloc_eqb a (AReg r))
  | CReuse idx =>
      if aloc_is_reg a then
        match nth_error allocs (N.to_nat idx) with
        | None => None
        | Some b => Some (aloc_eqb a b)
        end
      else Some false
  | CLimit max =>
      Some (match aloc_as_reg a with Some r => negb (N.leb max (preg_hw_enc r)) | None => true end)
  end.

(* src/checker.rs:433-466 check_val *)
Definition check_val (env : machine_env) (o : oper) (a : aloc) (val : cvalue) (allocs : list aloc) : option bool :=
  if aloc_is_none a then Some false
  else if is_use o && (match o_fixed_nonalloc o with None => true | Some _ => false end) then
    match val with
    | Universe => Some false
    | VRegs vs => if vmem (o_vreg o) vs then check_constraint env o a allocs else Some false
    end
  else check_constraint env o a allocs.

(* src/checker.rs:499-506 is_here *)
Definition is_here (o : oper) (p : ipos) : bool :=
  match o_pos o, p with Early, Before => true | Late, After => true | _, _ => false end.

(* src/checker.rs:498-517 the loop over the operands; stops at the first error *)
Fixpoint check_ops (env : machine_env) (s : cstate) (p : ipos) (allocs : list aloc)
    (l : list (oper * aloc)) : option bool :=
  match l with
  | [] => Some true
  | (o, a) :: t =>
      if is_here o p then
        let val := match get_value s a with Some v => v | None => Universe end in
        match check_val env o a val allocs with
        | Some true => check_ops env s p allocs t
        | r => r
        end
      else check_ops env s p allocs t
  end.

(* src/checker.rs:754-757 stack_pregs *)
Definition stack_pregs (env : machine_env) : pregset := fold_left ps_add (fixed_stack_slots env) ps_empty.

(* src/checker.rs:521-527 is_stack *)
Definition check_is_stack (env : machine_env) (a : aloc) : bool :=
  match aloc_as_reg a with Some r => ps_contains (stack_pregs env) r | None => aloc_is_stack a end.

(* src/checker.rs:471-539 CheckerState::check *)
Definition check (env : machine_env) (s : cstate) (p : ipos) (i : cinst) : option bool :=
  match i with
  | COp _ operands allocs _ =>
      let has_reused_input := existsb is_reuse operands in
      if has_reused_input && (match p with After => true | Before => false end) then Some true
      else check_ops env s p allocs (combine operands allocs)
  | CMove into from => Some (negb (check_is_stack env into && check_is_stack env from))
  | CPar _ => Some true
  end.

(* src/checker.rs:790-803, 830-840 the checker instructions of a block; the
   clobber iteration is [ps_iter], which always succeeds (C07) *)
Fixpoint bb_insts_of (f : func) (o : output) (items : list item) : option (list cinst) :=
  match items with
  | [] => Some []
  | IEdit e :: t => option_map (cons (CMove (e_to e) (e_from e))) (bb_insts_of f o t)
  | IInst i :: t =>
      match inst_allocs o i, ps_iter (f_clobbers f i), bb_insts_of f o t with
      | Some al, Some cl, Some r => Some (COp i (f_operands f i) al cl :: r)
      | _, _, _ => None
      end
  end.

(* src/checker.rs:806-827 the parallel moves pushed for one branch instruction:
   (successor, instruction) pairs in push order *)
Fixpoint edge_pushes (f : func) (b inst i : nat) (succs : list nat) : option (list (nat * cinst)) :=
  match succs with
  | [] => Some []
  | s :: t =>
      let args := f_bargs f b inst i in
      let params := f_params f s in
      if length args =? length params then
        match edge_pushes f b inst (S i) t with
        | None => None
        | Some r => Some (if 0 <? length args then (s, CPar (combine params args)) :: r else r)
        end
      else None
  end.
Fixpoint block_edge_pushes (f : func) (b : nat) (items : list item) : option (list (nat * cinst)) :=
  match items with
  | [] => Some []
  | IEdit _ :: t => block_edge_pushes f b t
  | IInst i :: t =>
      match (if f_is_branch f i then edge_pushes f b i 0 (f_succs f b) else Some []), block_edge_pushes f b t with
      | Some x, Some y => Some (x ++ y)
      | _, _ => None
      end
  end.

(* src/checker.rs:723-731 struct Checker after prepare: per block the
   instructions and the edge instructions keyed by successor *)
Record checker := mkChecker { ck_insts : nat -> list cinst; ck_edges : nat -> nat -> list cinst }.

(* src/checker.rs:738-767, 771-787 Checker::new and prepare, for one block *)
Definition prepare_block (f : func) (o : output) (b : nat) : option (list cinst * list (nat * cinst)) :=
  match block_insts_and_edits o (f_insns f b) with
  | None => None
  | Some items =>
      match bb_insts_of f o items, block_edge_pushes f b items with
      | Some x, Some y => Some (x, y)
      | _, _ => None
      end
  end.
Fixpoint prepare_blocks (f : func) (o : output) (bs : list nat) : option (list (list cinst * list (nat * cinst))) :=
  match bs with
  | [] => Some []
  | b :: t =>
      match prepare_block f o b, prepare_blocks f o t with
      | Some x, Some y => Some (x :: y)
      | _, _ => None
      end
  end.
Definition prepare (f : func) (o : output) : option checker :=
  match prepare_blocks f o (seq 0 (f_nblocks f)) with
  | None => None
  | Some l =>
      Some (mkChecker
        (fun b => fst (nth b l ([], [])))
        (fun b s => map snd (filter (fun p => fst p =? s) (snd (nth b l ([], []))))))
  end.

(* for inst in .. { state.update(inst) } *)
Fixpoint updates (s : cstate) (l : list cinst) : option cstate :=
  match l with
  | [] => Some s
  | i :: t => match update s i with None => None | Some s' => updates s' t end
  end.

(* src/checker.rs:738-752 bb_in: all blocks start at Top *)
Definition bbmap := nat -> cstate.
Definition bb_set (m : bbmap) (b : nat) (s : cstate) : bbmap := fun x => if x =? b then s else m x.

(* src/checker.rs:844-845 the work list: [queue] with its last element first,
   and [queue_set] *)
Record work := mkWork { w_bb : bbmap; w_queue : list nat; w_set : list nat }.

(* src/checker.rs:870-906 the loop over the successors of a block *)
Fixpoint succ_loop (nblocks : nat) (c : checker) (block : nat) (state : cstate) (succs : list nat) (w : work)
  : option work :=
  match succs with
  | [] => Some w
  | s :: t =>
      match updates state (ck_edges c block s) with
      | None => None
      | Some st =>
          if s <? nblocks then
            let cur := w_bb w s in
            let new_state := state_meet st cur in
            let w' :=
              if negb (cstate_eqb new_state cur) then
                if existsb (Nat.eqb s) (w_set w)
                then mkWork (bb_set (w_bb w) s new_state) (w_queue w) (w_set w)
                else mkWork (bb_set (w_bb w) s new_state) (s :: w_queue w) (s :: w_set w)
              else w in
            succ_loop nblocks c block state t w'
          else None
      end
  end.

(* src/checker.rs:861-907 the work-list loop; [None] is a panic or fuel exhaustion *)
Fixpoint analyze_loop (fuel : nat) (f : func) (c : checker) (w : work) : option bbmap :=
  match fuel with
  | O => None
  | S fuel' =>
      match w_queue w with
      | [] => Some (w_bb w)
      | block :: q =>
          let w1 := mkWork (w_bb w) q (filter (fun x => negb (x =? block)) (w_set w)) in
          match updates (w_bb w1 block) (ck_insts c block) with
          | None => None
          | Some state =>
              match succ_loop (f_nblocks f) c block state (f_succs f block) w1 with
              | None => None
              | Some w2 => analyze_loop fuel' f c w2
              end
          end
      end
  end.

(* src/checker.rs:843-859 analyze *)
Definition analyze (fuel : nat) (f : func) (c : checker) : option bbmap :=
  analyze_loop fuel f c (mkWork (fun _ => Top) (seq 0 (f_nblocks f)) (seq 0 (f_nblocks f))).

(* src/checker.rs:916-927 stepping through one block; true = no error *)
Fixpoint check_block (env : machine_env) (s : cstate) (l : list cinst) : option bool :=
  match l with
  | [] => Some true
  | i :: t =>
      match check env s Before i with
      | None => None
      | Some c1 =>
          match update s i with
          | None => None
          | Some s' =>
              match check env s' After i with
              | None => None
              | Some c2 =>
                  match check_block env s' t with
                  | None => None
                  | Some c3 => Some (c1 && c2 && c3)
                  end
              end
          end
      end
  end.

(* src/checker.rs:913-935 find_errors; the iteration order over the map does
   not matter for the emptiness of the error list *)
Fixpoint find_errors (env : machine_env) (c : checker) (bb : bbmap) (bs : list nat) : option bool :=
  match bs with
  | [] => Some true
  | b :: t =>
      match check_block env (bb b) (ck_insts c b), find_errors env c bb t with
      | Some x, Some y => Some (x && y)
      | _, _ => None
      end
  end.

(* src/checker.rs:939-1020 run, preceded by new and prepare as in
   src/fuzzing and the documentation; Some true = Ok(()) *)
Definition run_checker (fuel : nat) (env : machine_env) (f : func) (o : output) : option bool :=
  match prepare f o with
  | None => None
  | Some c =>
      match analyze fuel f c with
      | None => None
      | Some bb => find_errors env c bb (seq 0 (f_nblocks f))
      end
  end.
