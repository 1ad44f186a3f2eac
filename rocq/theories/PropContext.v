(* C43: reuse of the context. *)
From Coq Require Import NArith List Bool Arith Lia.
From Verif Require Import Enc PRegSet PRegSetSpec RegTraversal Func Vecs Process ResolveMoves Context.
Import ListNotations.
Open Scope nat_scope.

(* The contents do not depend on what the buffer contained. *)
Theorem C43_buffers : forall A (l : list A) n x,
  length (repopulate l n x) = n /\ (forall i, i < n -> nth_error (repopulate l n x) i = Some x) /\ preallocate l n = [] /\ cleared l = [] /\
  (forall m, length (resize l m x) = m /\ forall i, i < m -> nth_error (resize l m x) i = if i <? length l then nth_error l i else Some x).
Proof.
  intros A l n x.
  assert (R : forall (k : list A) m, length (resize k m x) = m /\ forall i, i < m -> nth_error (resize k m x) i = if i <? length k then nth_error k i else Some x).
  { intros k m. unfold resize. split; [rewrite app_length, firstn_length, repeat_length; lia|]. intros i Hi. destruct (Nat.ltb_spec i (length k)) as [H|H].
    - rewrite nth_error_app1 by (rewrite firstn_length; lia). rewrite <- (firstn_skipn m k) at 2. rewrite nth_error_app1 by (rewrite firstn_length; lia). reflexivity.
    - rewrite nth_error_app2 by (rewrite firstn_length; lia). rewrite firstn_length. apply nth_error_repeat. lia. }
  destruct (R [] n) as [R1 R2]. split; [exact R1|]. split; [intros i Hi; exact (R2 i Hi)|]. split; [reflexivity|]. split; [reflexivity|]. intro m. apply R.
Qed.
Print Assumptions C43_buffers.

Section History.
  Context {D : Type}.
  (* What an allocation may leave: anything, but it never shortens or extends
     pregs and takes sets off the pool only. *)
  Definition leaves (c c' : ctx D) : Prop := length (cx_pregs c') = length (cx_pregs c) /\ exists k, cx_pool c' = firstn k (cx_pool c).
  (* the contexts after any sequence of allocations; one whose CFG is refused
     changes the buffers of the CFG only *)
  Inductive history : ctx D -> Prop :=
  | h_new : history ctx_default
  | h_run c env f ann cfg c1 c2 : history c -> start_run env f ann cfg c = Some c1 -> leaves c1 c2 -> history c2
  | h_refused c c2 : history c -> cx_pregs c2 = cx_pregs c -> cx_pool c2 = cx_pool c -> history c2.
  (* everything but the scratch fields *)
  Definition visible (c : ctx D) : ctx D :=
    mkCtx (cx_cfg c) (cx_liveins c) (cx_liveouts c) (cx_blockparam_outs c) (cx_blockparam_ins c) (cx_ranges c) (cx_bundles c) (cx_spillsets c) (cx_vregs c)
      (cx_pregs c) (cx_queue c) (cx_spilled c) (cx_spillslots c) (cx_slots_by_class c) (cx_extra c) (cx_victims c) (cx_fixups c) (cx_allocated c) (cx_annotations c) (cx_annotations_enabled c)
      (cx_output c) [] [] [] [] [] [] [] [] [] [].

  Definition kept (c : ctx D) : Prop := (cx_pregs c = [] \/ length (cx_pregs c) = 256) /\ forall l, In l (cx_pool c) -> l = [].
  Lemma mark_length : forall rs l l', mark_stack (D := D) l rs = Some l' -> length l' = length l.
  Proof.
    induction rs as [|r rs IH]; intros l l' E; cbn [mark_stack] in E; [injection E as <-; reflexivity|].
    destruct (nth_error l (N.to_nat (preg_index r))) as [p|] eqn:En; [|discriminate]. apply IH in E. rewrite E. apply nth_lt in En. rewrite app_length. cbn [length]. rewrite firstn_length, skipn_length. lia.
  Qed.
  Lemma start_facts : forall env f ann cfg c c1, kept c -> start_run env f ann cfg c = Some c1 -> kept c1 /\ length (cx_pregs c1) = 256.
  Proof.
    intros env f ann cfg c c1 [K1 K2] E. unfold start_run, env_new in E. cbn in E. unfold create_pregs_and_vregs in E. cbn [cx_pregs cx_pool] in E.
    destruct (mark_stack _ _) as [ps|] eqn:Em in E; [|discriminate]. destruct (victim env Int); [|discriminate]. destruct (victim env Float); [|discriminate]. destruct (victim env Vector); [|discriminate]. injection E as <-.
    assert (L : length ps = 256). { rewrite (mark_length _ _ _ Em). apply (C43_buffers _ _ 0 (mkPd [] false)). }
    split; [|exact L]. split; [right; exact L|]. cbn [cx_pool]. intros l Hl. apply in_app_iff in Hl. destruct Hl as [Hl|Hl]; [now apply K2|]. apply in_map_iff in Hl. destruct Hl as (s & <- & _). reflexivity.
  Qed.
  Lemma history_kept : forall c, history c -> kept c.
  Proof.
    intros c H. induction H as [|c env f ann cfg c1 c2 H IH E [L1 (k & L2)]|c c2 H IH E1 E2].
    - split; [left; reflexivity|]. intros l [].
    - destruct (start_facts env f ann cfg c c1 IH E) as [[_ K] L]. split; [right; congruence|]. intros l Hl. apply K. rewrite L2 in Hl. rewrite <- (firstn_skipn k (cx_pool c1)). apply in_app_iff. now left.
    - unfold kept in *. now rewrite E1, E2.
  Qed.
  Lemma resize_cleared : forall (l : list preg_data), l = [] \/ length l = 256 -> resize (map (fun p => mkPd (cleared (pd_btree p)) false) l) 256 (mkPd (D := D) [] false) = repeat (mkPd [] false) 256.
  Proof.
    intros l H. unfold resize. rewrite map_length. destruct H as [->|H]; [reflexivity|]. rewrite H, Nat.sub_diag. change (repeat (mkPd (D := D) [] false) 0) with (@nil (@preg_data D)). rewrite app_nil_r. rewrite firstn_all2 by (rewrite map_length; lia).
    rewrite <- H. clear. induction l as [|p l IH]; [reflexivity|]. cbn [map length repeat]. now rewrite IH.
  Qed.

  (* After any history a run starts in the same state as with a new context, or
     panics as with a new one; the scratch sets that are handed to new slots are
     empty; the Bump is not shared. *)
  Theorem C43_history : forall c, history c -> forall env f ann cfg,
    option_map visible (start_run env f ann cfg c) = option_map visible (start_run env f ann cfg ctx_default) /\
    (forall c1 c2 rest, start_run env f ann cfg c = Some c1 -> leaves c1 c2 -> fst (new_slot c2 rest) = mkSd [] rest) /\
    env_new (f_ninsts f) (f_nblocks f) c <> None.
  Proof.
    intros c H env f ann cfg. pose proof (history_kept c H) as K. split; [|split].
    - unfold start_run, env_new. cbn -[create_pregs_and_vregs repeat]. unfold create_pregs_and_vregs. cbn [cx_pregs cx_output ou_offsets ou_allocs].
      rewrite (resize_cleared (cx_pregs c) (proj1 K)). rewrite (resize_cleared [] (or_introl eq_refl) : resize [] 256 (mkPd [] false) = _).
      destruct (mark_stack _ _); [|reflexivity]. destruct (victim env Int); [|reflexivity]. destruct (victim env Float); [|reflexivity]. destruct (victim env Vector); reflexivity.
    - intros c1 c2 rest E [_ (k & L2)]. destruct (start_facts env f ann cfg c c1 K E) as [[_ Kp] _]. unfold new_slot. destruct (rev (cx_pool c2)) as [|l t] eqn:R; [reflexivity|]. cbn [fst]. f_equal. apply Kp.
      rewrite <- (firstn_skipn k (cx_pool c1)). apply in_app_iff. left. rewrite <- L2. apply in_rev. rewrite R. now left.
    - unfold env_new. cbn. discriminate.
  Qed.
End History.
Print Assumptions C43_history.

(* a context that was used: 256 registers with entries, an old slot, old output *)
Definition cx_env : machine_env := mkEnv [run (EFromIter [0%N; 1%N]); run (EFromIter [64%N]); run EEmpty] [run EEmpty; run (EFromIter [65%N]); run EEmpty] [None; None; None] [63%N].
Definition cx_func : func :=
  mkFunc 2 1 0 (fun _ => (0, 2)) (fun _ => []) (fun _ => []) (fun _ => []) (fun i => i =? 1) (fun _ => false) (fun _ _ _ => [])
    (fun i => match i with 0 => [mkOper 4%N CReg Def Late; mkOper 8%N CReg Def Late] | _ => [mkOper 4%N CReg Use Early] end) (fun _ => run EEmpty) 3 (fun _ => 1%N) false false.
Definition cx_cf : cfg_bufs nat := mkCfg [0] [0] [0; 0] [0] [3] [0] [1] [1] [0; 0].
Definition cx_used (c : ctx nat) : ctx nat :=
  mkCtx (cx_cfg c) [7] [8] [9] [10] [1; 2; 3] [4] [5] (cx_vregs c) (map (fun p => mkPd [1; 2] (negb (pd_is_stack p))) (cx_pregs c)) [6] [7] [mkSd [3; 4] 5; mkSd [6] 7]
    [([1], 1); ([2], 0); ([], 0)] [[11%N]; []; []] [1%N; 2%N; 3%N] [4] 12%N [1] true (mkOut 9 [1] [2%N] [3%N] [4] 5) [1] [2] [3] [4] (cx_pool c) [5] [6] [7] [] [8].
Example C43_nonvacuous :
  exists c1 c, start_run cx_env cx_func false cx_cf ctx_default = Some c1 /\ c = cx_used c1 /\ leaves c1 c /\ history c /\ visible c <> visible c1 /\
    exists c2, start_run cx_env cx_func false cx_cf c = Some c2 /\ visible c2 = visible c1 /\ cx_pool c2 = [[]; []] /\
      cx_victims c2 = [1%N; 65%N; preg_invalid] /\ ou_offsets (cx_output c2) = [0%N; 2%N] /\ length (filter (fun p => pd_is_stack p) (cx_pregs c2)) = 1.
Proof.
  destruct (start_run cx_env cx_func false cx_cf ctx_default) as [c1|] eqn:E; [|vm_compute in E; discriminate]. exists c1, (cx_used c1). split; [reflexivity|]. split; [reflexivity|].
  assert (L : leaves c1 (cx_used c1)). { split; [cbn [cx_used cx_pregs]; apply map_length|]. exists (length (cx_pool c1)). cbn [cx_used cx_pool]. now rewrite firstn_all. }
  assert (H : history (cx_used c1)) by (eapply h_run; [apply h_new|exact E|exact L]).
  split; [exact L|]. split; [exact H|]. split; [vm_compute in E; injection E as <-; intro Q; vm_compute in Q; discriminate|].
  destruct (C43_history _ H cx_env cx_func false cx_cf) as (V & _ & _). rewrite E in V. destruct (start_run cx_env cx_func false cx_cf (cx_used c1)) as [c2|] eqn:E2; [|discriminate].
  assert (V' : visible c2 = visible c1) by (apply (f_equal (fun o => match o with Some x => x | None => visible c1 end)) in V; exact V).
  exists c2. split; [reflexivity|]. split; [exact V'|]. clear V V' H L.
  vm_compute in E. injection E as <-. vm_compute in E2. injection E2 as <-. vm_compute. auto.
Qed.
