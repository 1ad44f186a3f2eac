(* SSA validation (src/ssa.rs).  Model file: definitions only.

   The outer [option] is a panic ([None]: index out of bounds), the sum is
   Result<_, RegAllocError>.  The hash set [local] is a list of the vreg words
   (VReg derives Hash and Eq on its bits). *)
From Coq Require Import NArith List Bool Arith.
From Verif Require Import Enc Func Postorder Domtree Cfg.
Import ListNotations.

(* src/lib.rs:1650-1676; Inst::invalid() is [None] *)
Inductive ssa_error := ESsa (v : vreg) (i : option nat) | EBlock (b : nat) | EBranch (i : nat).

(* a [for] loop whose body uses [?] *)
Fixpoint ofold {E S A : Type} (step : S -> A -> option (E + S)) (l : list A) (s : S) : option (E + S) :=
  match l with
  | [] => Some (inr s)
  | x :: t =>
      match step s x with
      | None => None
      | Some (inl e) => Some (inl e)
      | Some (inr s') => ofold step t s'
      end
  end.

(* src/ssa.rs:18-30 the closure [def] *)
Definition ssa_def (nv b : nat) (i : option nat) (d : nat -> option nat) (v : vreg)
  : option (ssa_error + (nat -> option nat)) :=
  let n := N.to_nat (vreg_num v) in
  if nv <=? n then Some (inl (ESsa v i))
  else match d n with
       | Some _ => Some (inl (ESsa v i))
       | None => Some (inr (fset d n (Some b)))
       end.

(* src/ssa.rs:16-41 the body of the first loop *)
Definition ssa_defs_block (f : func) (d : nat -> option nat) (b : nat) : option (ssa_error + (nat -> option nat)) :=
  match ofold (ssa_def (f_nvregs f) b None) (f_params f b) d with
  | None => None
  | Some (inl e) => Some (inl e)
  | Some (inr d1) =>
      ofold (fun d i =>
        ofold (fun d o => if is_def o then ssa_def (f_nvregs f) b (Some i) d (o_vreg o) else Some (inr d))
          (f_operands f i) d) (span (f_insns f b)) d1
  end.

(* src/ssa.rs:57-82 checking one operand; [dominates] is CFGInfo::dominates,
   src/cfg.rs:156-158 *)
Definition ssa_use (fuel : nat) (f : func) (c : cfginfo) (d : nat -> option nat) (b i : nat) (local : list vreg)
    (_ : unit) (o : oper) : option (ssa_error + unit) :=
  match o_fixed_nonalloc o with
  | Some _ => Some (inr tt)
  | None =>
      if is_use o then
        let n := N.to_nat (vreg_num (o_vreg o)) in
        if f_nvregs f <=? n then None
        else
          match (match d n with
                 | None => Some false
                 | Some db =>
                     if db =? b then Some (existsb (N.eqb (o_vreg o)) local)
                     else dominates fuel (f_nblocks f) (ci_domtree c) db (Some b)
                 end) with
          | None => None
          | Some true => Some (inr tt)
          | Some false => Some (inl (ESsa (o_vreg o) (Some i)))
          end
      else Some (inr tt)
  end.

(* src/ssa.rs:54-92 one instruction: first its uses are checked, then its defs
   are recorded *)
Definition ssa_inst (fuel : nat) (f : func) (c : cfginfo) (d : nat -> option nat) (b : nat)
    (local : list vreg) (i : nat) : option (ssa_error + list vreg) :=
  match ofold (ssa_use fuel f c d b i local) (f_operands f i) tt with
  | None => None
  | Some (inl e) => Some (inl e)
  | Some (inr _) => Some (inr (map o_vreg (filter is_def (f_operands f i)) ++ local))
  end.

(* src/ssa.rs:47-93 the body of the second loop *)
Definition ssa_uses_block (fuel : nat) (f : func) (c : cfginfo) (d : nat -> option nat) (_ : unit) (b : nat)
  : option (ssa_error + unit) :=
  match ofold (ssa_inst fuel f c d b) (span (f_insns f b)) (f_params f b) with
  | None => None
  | Some (inl e) => Some (inl e)
  | Some (inr _) => Some (inr tt)
  end.

(* src/ssa.rs:109-120 the lengths of the branch arguments; [k] counts the
   successors *)
Fixpoint ssa_args (f : func) (b i k : nat) (ss : list nat) : option (ssa_error + unit) :=
  match ss with
  | [] => Some (inr tt)
  | s :: t =>
      if length (f_params f s) =? length (f_bargs f b i k) then ssa_args f b i (S k) t
      else Some (inl (EBranch i))
  end.

(* src/ssa.rs:99-129 the body of the third loop *)
Definition ssa_term_inst (f : func) (b : nat) (_ : unit) (i : nat) : option (ssa_error + unit) :=
  if i =? snd (f_insns f b) - 1 then
    if f_is_branch f i || f_is_ret f i then
      if f_is_branch f i then ssa_args f b i 0 (f_succs f b) else Some (inr tt)
    else Some (inl (EBlock b))
  else if f_is_branch f i || f_is_ret f i then Some (inl (EBlock b))
  else Some (inr tt).
Definition ssa_term_block (f : func) (_ : unit) (b : nat) : option (ssa_error + unit) :=
  ofold (ssa_term_inst f b) (span (f_insns f b)) tt.

(* src/ssa.rs:13-138 validate_ssa *)
Definition validate_ssa (fuel : nat) (f : func) (c : cfginfo) : option (ssa_error + unit) :=
  match ofold (ssa_defs_block f) (seq 0 (f_nblocks f)) (fun _ => None) with
  | None => None
  | Some (inl e) => Some (inl e)
  | Some (inr d) =>
      match ofold (ssa_uses_block fuel f c d) (seq 0 (f_nblocks f)) tt with
      | None => None
      | Some (inl e) => Some (inl e)
      | Some (inr _) =>
          match ofold (ssa_term_block f) (seq 0 (f_nblocks f)) tt with
          | None => None
          | Some (inl e) => Some (inl e)
          | Some (inr _) =>
              match f_params f (f_entry f) with
              | [] => Some (inr tt)
              | _ => Some (inl (EBlock (f_entry f)))
              end
          end
      end
  end.
