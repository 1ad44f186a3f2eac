(* A last try to find registers for the spilled bundles (src/ion/spill.rs).  Model
   file: definitions only.  [None] is a panic; statistics and the scratch vectors are
   left out. *)
From Coq Require Import NArith List Bool Arith.
From Verif Require Import Enc PRegSet Func Vecs Ranges Slice Ion PRegs RegTraversal Process.
Import ListNotations.
Open Scope nat_scope.

(* src/ion/spill.rs:41-43 sort_unstable_by_key; C58_keys proves that the keys are
   distinct, so every sort computes this list *)
Definition sort_entries (l : list lrentry) : list lrentry := sort_by_key (fun e => N.of_nat (cr_from (fst e))) l.

(* src/ion/spill.rs:48-57 the loop over the registers; the flag is [success].  The
   traversal reads only the machine environment, so its registers are listed first. *)
Fixpoint spilled_probe (env : penv) (st : ion) (bundle : nat) (regs : list preg) : option (ion * bool) :=
  match regs with
  | [] => Some (st, false)
  | r :: t =>
      let! tr := try_alloc (pe_dbg env) st bundle (reg_index r) None in
      let (st1, res) := tr in
      match res with Allocated _ => Some (st1, true) | _ => spilled_probe env st1 bundle t end
  end.

(* src/ion/spill.rs:26-66 one spilled bundle; as_valid() of the hint is the option
   of the model *)
Definition spilled_bundle (env : penv) (st : ion) (bundle : nat) : option ion :=
  let! b := nth_error (io_bundles st) bundle in
  match lb_ranges b with
  | [] => Some st
  | _ =>
      let! ssi := lb_spillset b in
      let! s := nth_error (io_spillsets st) ssi in
      let! st1 := upd_bundle st bundle (fun b => lb_with_ranges b (sort_entries (lb_ranges b))) in
      let! it := rt_new (pe_dbg env) (pe_menv env) (sset_class s) None (sset_hint s) (N.of_nat bundle) (lb_limit b) in
      let! regs := rt_collect 600 it in
      let! pr := spilled_probe env st1 bundle regs in
      let (st2, success) := pr in
      if success then Some st2 else upd_spillset st2 ssi (fun s => ss_with_required s true)
  end.

(* src/ion/spill.rs:22-68 try_allocating_regs_for_spilled_bundles; the list is not
   changed by the loop *)
Fixpoint spilled_list (env : penv) (l : list nat) (st : ion) : option ion :=
  match l with
  | [] => Some st
  | b :: t => let! st1 := spilled_bundle env st b in spilled_list env t st1
  end.
Definition spilled_regs (env : penv) (st : ion) : option ion := spilled_list env (io_spilled st) st.
