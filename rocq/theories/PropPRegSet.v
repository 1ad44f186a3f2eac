(* Properties C07-C09: PRegSet. *)
From Coq Require Import NArith List Bool.
From Verif Require Import Enc PRegSet PRegSetSpec PRegSetProofs.
Local Open Scope N_scope.

(* C07: after any history of operations membership is set membership. *)
Theorem C07_history_is_set : forall e x, regs_ok e -> x < 256 ->
  (ps_contains (run e) x = true <-> denotes e x).
Proof. exact run_spec. Qed.
Print Assumptions C07_history_is_set.

(* Every history yields a well-formed value, so the theorems below apply to it. *)
Theorem C07_history_wf : forall e, ps_wf (run e).
Proof. exact run_wf. Qed.
Print Assumptions C07_history_wf.

(* Iteration terminates and yields each member once in increasing index order. *)
Theorem C07_iteration : forall s, ps_wf s ->
  exists l, ps_iter s = Some l /\ increasing l /\ NoDup l /\
    (forall x, In x l <-> x < 256 /\ ps_contains s x = true).
Proof. exact iter_full. Qed.
Print Assumptions C07_iteration.

Theorem C07_len : forall s l, ps_wf s -> ps_iter s = Some l -> ps_len s = N.of_nat (length l).
Proof. exact len_spec. Qed.
Print Assumptions C07_len.

Theorem C07_is_empty : forall s c, ps_wf s ->
  (ps_is_empty s c = true <-> forall hw r, hw <= 63 -> preg_new true hw c = Some r -> ps_contains s r = false).
Proof. exact is_empty_spec. Qed.
Print Assumptions C07_is_empty.

(* Finding: iterating over an inverted set yields indices 192..255, which belong
   to no register class (PReg::class() panics on them). *)
Theorem C07_invert_iterates_classless_refuted :
  exists e l r, ps_iter (run e) = Some l /\ In r l /\ preg_class r = None.
Proof. exact invert_iter_bad_class. Qed.
Print Assumptions C07_invert_iterates_classless_refuted.

Example C07_nonvacuous :
  let e := ERemove (EUnion (EFromIter [3; 70; 130]) (EAdd EEmpty 255)) 70 in
  regs_ok e /\ ps_iter (run e) = Some [3; 130; 255] /\ ps_len (run e) = 3.
Proof. cbn zeta. split; [|split; reflexivity]. cbn. repeat constructor; reflexivity. Qed.

(* C08: max_preg is the member with the greatest index, None only for the empty set. *)
Theorem C08_max_preg : forall s, ps_wf s ->
  exists m, ps_max_preg s = Some m /\
    match m with
    | None => forall x, x < 256 -> ps_contains s x = false
    | Some r => r < 256 /\ ps_contains s r = true /\ forall x, x < 256 -> ps_contains s x = true -> x <= r
    end.
Proof. exact max_preg_spec. Qed.
Print Assumptions C08_max_preg.

(* Finding: it is not the member with the greatest hardware number, as its comment says. *)
Theorem C08_max_preg_hw_enc_refuted :
  exists e r x, ps_max_preg (run e) = Some (Some r) /\ ps_contains (run e) x = true /\
                x < 256 /\ preg_hw_enc r < preg_hw_enc x.
Proof. exact max_preg_not_max_hw_enc. Qed.
Print Assumptions C08_max_preg_hw_enc_refuted.

(* What add_up_to(r) computes: everything below r (in index order, so also all
   registers of lower classes), and the old members of the *other* classes. *)
Theorem C08_add_up_to_exact : forall s r x, ps_wf s -> r < 256 -> x < 256 ->
  ps_contains (ps_add_up_to s r) x = (x <? r) || (ps_contains s x && negb (r / 64 =? x / 64)).
Proof. exact mem_add_up_to. Qed.
Print Assumptions C08_add_up_to_exact.

(* Finding: old members of r's own class that are >= r are dropped. *)
Theorem C08_add_up_to_keeps_members_refuted :
  exists e r x, x < 256 /\ r < 256 /\ ps_contains (run e) x = true /\ ps_contains (ps_add_up_to (run e) r) x = false.
Proof. exact add_up_to_drops. Qed.
Print Assumptions C08_add_up_to_keeps_members_refuted.

Example C08_nonvacuous : ps_iter (ps_add_up_to (run (EFromIter [200])) 3) = Some [0; 1; 2; 200].
Proof. vm_compute. reflexivity. Qed.

(* C09 *)
Theorem C09_from_machine_env : forall e x, env_wf e ->
  (ps_contains (ps_from_env e) x = true <->
   exists s, (In s (preferred_regs_by_class e) \/ In s (non_preferred_regs_by_class e)) /\ ps_contains s x = true).
Proof. exact from_env_spec. Qed.
Print Assumptions C09_from_machine_env.

Example C09_nonvacuous :
  let e := mkEnv [run (EFromIter [1; 2]); run (EFromIter [64]); run EEmpty]
                 [run (EFromIter [9]); run EEmpty; run EEmpty] [None; None; None] [] in
  env_wf e /\ ps_iter (ps_from_env e) = Some [1; 2; 9; 64].
Proof. cbn zeta. split; [|vm_compute; reflexivity]. split; repeat constructor; vm_compute; reflexivity. Qed.
