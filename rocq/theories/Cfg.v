(* Control-flow information (src/cfg.rs) and the placement of edge moves
   (src/ion/moves.rs).  Model file: definitions only.

   [None] is a panic: an index out of bounds, the debug assertion of
   InstRange::first/last that a range is not empty, arithmetic underflow.  The
   u32 counters of back edges are natural numbers. *)
From Coq Require Import List Bool Arith.
From Verif Require Import Enc Func Postorder Domtree.
Import ListNotations.

(* src/lib.rs:1650-1676 the errors used here *)
Inductive cfg_error := EBB (b : nat) | ECritEdge (from to : nat) | EBranchArg (inst : nat).

(* src/cfg.rs:21-40 struct CFGInfo; Block::invalid() and the invalid program
   point are [None] *)
Record cfginfo := mkCfg {
  ci_post : list nat;
  ci_domtree : nat -> option nat;
  ci_insn_block : nat -> option nat;
  ci_entry : nat -> option ppt;
  ci_exit : nat -> option ppt;
  ci_depth : list nat
}.

(* the vectors filled in by the loop of src/cfg.rs:80-127 *)
Record cfg_st := mkCst {
  cs_insn : nat -> option nat;
  cs_entry : nat -> option ppt;
  cs_exit : nat -> option ppt;
  cs_in : nat -> nat;
  cs_out : nat -> nat
}.

(* src/cfg.rs:90, 108: the number of predecessors, the entry has one more *)
Definition npreds (f : func) (b : nat) : nat := length (f_preds f b) + (if b =? f_entry f then 1 else 0).

(* src/cfg.rs:92-97 the first predecessor with several successors *)
Fixpoint crit_pred (f : func) (ps : list nat) : option nat :=
  match ps with
  | [] => None
  | p :: t => if 1 <? length (f_succs f p) then Some p else crit_pred f t
  end.

(* src/cfg.rs:121-126 counting back edges; indexing [backedge_in] and
   [backedge_out] is in bounds because succ <= block < nb *)
Fixpoint count_back (b : nat) (ss : list nat) (bin bout : nat -> nat) : (nat -> nat) * (nat -> nat) :=
  match ss with
  | [] => (bin, bout)
  | s :: t =>
      if s <=? b then count_back b t (fset bin s (bin s + 1)) (fset bout b (bout b + 1))
      else count_back b t bin bout
  end.

(* src/cfg.rs:80-127 the body of the loop over the blocks *)
Definition cfg_block (f : func) (st : cfg_st) (b : nat) : option (cfg_error + cfg_st) :=
  let (from, to) := f_insns f b in
  if (from <? to) && (to <=? f_ninsts f) then
    let insn := fold_left (fun m i => fset m i (Some b)) (span (from, to)) (cs_insn st) in
    let entry := fset (cs_entry st) b (Some (p_before from)) in
    let exit := fset (cs_exit st) b (Some (p_after (to - 1))) in
    match (if 1 <? npreds f b then crit_pred f (f_preds f b) else None) with
    | Some p => Some (inl (ECritEdge p b))
    | None =>
        let require_no_branch_args := existsb (fun s => 1 <? npreds f s) (f_succs f b) in
        if require_no_branch_args && negb (match f_operands f (to - 1) with [] => true | _ => false end)
        then Some (inl (EBranchArg (to - 1)))
        else
          let (bin, bout) := count_back b (f_succs f b) (cs_in st) (cs_out st) in
          Some (inr (mkCst insn entry exit bin bout))
    end
  else None.

Fixpoint cfg_blocks (f : func) (st : cfg_st) (bs : list nat) : option (cfg_error + cfg_st) :=
  match bs with
  | [] => Some (inr st)
  | b :: t =>
      match cfg_block f st b with
      | None => None
      | Some (inl e) => Some (inl e)
      | Some (inr st') => cfg_blocks f st' t
      end
  end.

(* src/cfg.rs:141-149 the inner loop: [out] is backedge_out[block] *)
Fixpoint drain (out depth : nat) (stack : list nat) : option (nat * list nat) :=
  match out, stack with
  | S out', c :: t =>
      if c =? 0 then None
      else if c - 1 =? 0 then (if depth =? 0 then None else drain out' (depth - 1) t)
      else drain out' depth ((c - 1) :: t)
  | _, _ => Some (depth, stack)
  end.

(* src/cfg.rs:133-150 approximate loop depth *)
Fixpoint loop_depths (bin bout : nat -> nat) (bs : list nat) (depth : nat) (stack : list nat) : option (list nat) :=
  match bs with
  | [] => Some []
  | b :: t =>
      let '(depth1, stack1) := if 0 <? bin b then (depth + 1, bin b :: stack) else (depth, stack) in
      match drain (bout b) depth1 stack1 with
      | None => None
      | Some (depth2, stack2) => option_map (cons depth1) (loop_depths bin bout t depth2 stack2)
      end
  end.

(* src/cfg.rs:50-154 CFGInfo::init; the three fuels bound the loops of
   postorder::calculate, domtree::calculate and merge_sets *)
Definition cfg_init (pf df mf : nat) (f : func) : option (cfg_error + cfginfo) :=
  let nb := f_nblocks f in
  match po_calculate pf nb (f_entry f) (f_succs f) with
  | None => None
  | Some (inl b) => Some (inl (EBB b))
  | Some (inr post) =>
      match dt_calculate df mf nb (f_preds f) post (f_entry f) with
      | None => None
      | Some domtree =>
          match cfg_blocks f (mkCst (fun _ => None) (fun _ => None) (fun _ => None) (fun _ => 0) (fun _ => 0)) (seq 0 nb) with
          | None => None
          | Some (inl e) => Some (inl e)
          | Some (inr st) =>
              match loop_depths (cs_in st) (cs_out st) (seq 0 nb) 0 [] with
              | None => None
              | Some d => Some (inr (mkCfg post domtree (cs_insn st) (cs_entry st) (cs_exit st) d))
              end
          end
      end
  end.

(* src/ion/data_structures.rs:832-840 the two priorities used for edges *)
Inductive edge_prio := OutEdgeMoves | InEdgeMoves.

(* src/ion/moves.rs:173-219 choose_move_location *)
Definition choose_move_location (f : func) (from to : nat) : option (ppt * edge_prio) :=
  let from_last := snd (f_insns f from) - 1 in
  let to_first := fst (f_insns f to) in
  let from_outs := length (f_succs f from) + (if f_is_ret f from_last then 1 else 0) in
  let to_ins := length (f_preds f to) + (if f_entry f =? to then 1 else 0) in
  if (1 <? to_ins) && (from_outs <=? 1) then Some (p_before from_last, OutEdgeMoves)
  else if to_ins <=? 1 then Some (p_before to_first, InEdgeMoves)
  else None.
