(* Properties C25-C28: the symbolic checker. *)
From Coq Require Import NArith List Bool Arith Lia Sorting.Sorted.
From Verif Require Import Enc PRegSet PRegSetSpec PRegSetProofs Func Output OutputSpec OutputProofs
  Checker CheckerSpec CheckerProofs CheckerFix CheckerSound CheckerSound2.
Import ListNotations.

(* C25: meet of label sets and of states is commutative, associative and
   idempotent up to equality of the abstract sets and maps, and asserts exactly
   the facts asserted by both sides. *)
Theorem C25_meet_is_lattice_meet :
  (forall x y, value_eqv (value_meet x y) (value_meet y x)) /\
  (forall x y z, value_eqv (value_meet x (value_meet y z)) (value_meet (value_meet x y) z)) /\
  (forall x, value_eqv (value_meet x x) x) /\
  (forall s t, state_eqv (state_meet s t) (state_meet t s)) /\
  (forall s t u, state_eqv (state_meet s (state_meet t u)) (state_meet (state_meet s t) u)) /\
  (forall s, state_eqv (state_meet s s) s) /\
  (forall s t a v, asserts (state_meet s t) a v <-> asserts s a v /\ asserts t a v).
Proof.
  repeat match goal with |- _ /\ _ => split end.
  - exact value_meet_comm.
  - exact value_meet_assoc.
  - exact value_meet_idem.
  - exact state_meet_comm.
  - exact state_meet_assoc.
  - exact state_meet_idem.
  - exact asserts_meet.
Qed.
Print Assumptions C25_meet_is_lattice_meet.

(* The order of predecessors does not matter: folding the meet over the same
   states in two orders gives equal states. *)
Theorem C25_order_independent :
  forall l l' s, Permutation.Permutation l l' ->
  state_eqv (fold_left state_meet l s) (fold_left state_meet l' s).
Proof.
  assert (T : forall s t u, state_eqv s t -> state_eqv t u -> state_eqv s u).
  { intros [|m] [|n] [|k]; cbn; try tauto. intros H1 H2 a. specialize (H1 a). specialize (H2 a).
    destruct (m_get m a) as [[|x]|], (m_get n a) as [[|y]|], (m_get k a) as [[|z]|]; cbn in *; try tauto.
    intro v. rewrite H1. apply H2. }
  assert (C : forall s t u, state_eqv s t -> state_eqv (state_meet s u) (state_meet t u)).
  { intros [|m] [|n] [|k]; cbn; try tauto.
    - intros _ a. apply opt_eqv_refl.
    - intros H a. specialize (H a). rewrite !m_get_merge.
      destruct (m_get m a) as [[|x]|], (m_get n a) as [[|y]|], (m_get k a) as [[|z]|]; cbn in *; try tauto.
      intro v. rewrite !filter_In, H. tauto. }
  assert (F : forall l s t, state_eqv s t -> state_eqv (fold_left state_meet l s) (fold_left state_meet l t)).
  { induction l as [|x l IH]; intros s t H; cbn; [assumption|]. apply IH. now apply C. }
  intros l l' s P. revert s. induction P as [|x l l' P IH|x y l|l l' l'' P1 IH1 P2 IH2]; intro s; cbn.
  - apply state_eqv_refl.
  - apply IH.
  - apply F. eapply T; [apply state_eqv_sym, state_meet_assoc|].
    eapply T; [|apply state_meet_assoc]. eapply T; [apply state_meet_comm|].
    eapply T; [|apply state_meet_comm]. apply C. apply state_meet_comm.
  - eapply T; [apply IH1|apply IH2].
Qed.
Print Assumptions C25_order_independent.

Example C25_nonvacuous :
  let s := Allocs [(AReg 1, VRegs [4; 8]); (AReg 2, VRegs [12])]%N in
  let t := Allocs [(AReg 1, VRegs [8; 16]); (AStack 3, VRegs [4])]%N in
  (asserts (state_meet s t) (AReg 1) 8 /\ ~ asserts (state_meet s t) (AReg 1) 4 /\
   ~ asserts (state_meet s t) (AReg 2) 12 /\ ~ asserts (state_meet s t) (AStack 3) 4)%N.
Proof. cbn. intuition discriminate. Qed.

(* C26: for every function whose successor indices are in range and every
   prepared checker the analysis ends (with an explicit bound on the number of
   work-list steps), never panics, and its result is consistent along every
   edge: what is assumed at the entry of the successor holds at the end of the
   predecessor. *)
Theorem C26_analysis_fixpoint :
  forall f c, (forall b s, b < f_nblocks f -> In s (f_succs f b) -> s < f_nblocks f) ->
  exists bb, (forall fuel, analyze_bound f c <= fuel -> analyze fuel f c = Some bb) /\
    forall b s, b < f_nblocks f -> In s (f_succs f b) ->
      exists st, edge_state c bb b s = Some st /\ forall a v, asserts (bb s) a v -> asserts st a v.
Proof.
  intros f c Hs. destruct (analyze_fixpoint f c Hs) as (bb & E & _ & He). exists bb. split; [exact E|exact He].
Qed.
Print Assumptions C26_analysis_fixpoint.

(* C27.  For every function and output meeting the input conditions: if the
   checker accepts, then in every execution (any values, any instruction
   semantics, any path, any junk in clobbered locations, any initial contents of
   registers and stack) in which the original program reads no undefined
   register, the allocated program performs the same instructions and every
   operand reads the same value.  Beyond the documented input conditions three
   side conditions are needed; each is shown necessary below. *)
Theorem C27_checker_sound :
  forall f o env fuel c bb,
  func_ok f -> output_ok f o ->
  (forall i, i < f_ninsts f -> late_use_ok (f_operands f i) /\ reuse_no_late_use (f_operands f i)) ->
  prepare f o = Some c -> analyze fuel f c = Some bb ->
  (forall b, b < f_nblocks f -> moves_known (bb b) (ck_insts c b)) ->
  run_checker fuel env f o = Some true ->
  forall (V W : Type) (sem : W -> nat -> list V -> (nat -> V) * W) pick junk (n : nat) t w tr,
  vrun sem pick f n (f_entry f) (fun _ => None) w = Some tr ->
  arun sem pick junk f o n (f_entry f) t w = Some tr.
Proof.
  intros f o env fuel c bb Hf [Ho1 Ho2] Hl Hp Ha Hm Hr V W sem pick junk n t w tr Hv.
  unfold run_checker in Hr. rewrite Hp, Ha in Hr.
  destruct (analyze_result fuel f c bb (fo_succs f Hf) Ha) as [Hn He].
  destruct (run_agree sem pick junk f env o false (fo_clobbers f Hf) Ho2 Hl c bb Hf Ho1 Hp Hn He Hm
    (fun b Hb => find_errors_spec env c bb _ Hr b (proj2 (in_seq _ _ _) (conj (Nat.le_0_l b) Hb)))
    n (f_entry f) (fun _ => None) t w (fo_entry f Hf)) as (tr' & E1 & E2).
  - intros a v _. right. auto.
  - right. congruence.
  - congruence.
Qed.
Print Assumptions C27_checker_sound.

(* If no edge leads back to the entry block, acceptance also implies that the
   original program never reads an undefined register. *)
Theorem C27_accepted_reads_defined :
  forall f o env fuel c bb,
  func_ok f -> output_ok f o ->
  (forall i, i < f_ninsts f -> late_use_ok (f_operands f i) /\ reuse_no_late_use (f_operands f i)) ->
  (forall b, b < f_nblocks f -> ~ In (f_entry f) (f_succs f b)) ->
  prepare f o = Some c -> analyze fuel f c = Some bb ->
  (forall b, b < f_nblocks f -> moves_known (bb b) (ck_insts c b)) ->
  run_checker fuel env f o = Some true ->
  forall (V W : Type) (sem : W -> nat -> list V -> (nat -> V) * W) pick junk (n : nat) t w,
  exists tr, vrun sem pick f n (f_entry f) (fun _ => None) w = Some tr /\
             arun sem pick junk f o n (f_entry f) t w = Some tr.
Proof.
  intros f o env fuel c bb Hf [Ho1 Ho2] Hl Hentry Hp Ha Hm Hr V W sem pick junk n t w.
  unfold run_checker in Hr. rewrite Hp, Ha in Hr.
  destruct (analyze_result fuel f c bb (fo_succs f Hf) Ha) as [Hn He].
  apply (run_agree sem pick junk f env o true (fo_clobbers f Hf) Ho2 Hl c bb Hf Ho1 Hp Hn He Hm
    (fun b Hb => find_errors_spec env c bb _ Hr b (proj2 (in_seq _ _ _) (conj (Nat.le_0_l b) Hb)))
    n (f_entry f) (fun _ => None) t w (fo_entry f Hf)).
  - intros a v H. unfold analyze in Ha.
    assert (Q : forall b, In b (seq 0 (f_nblocks f)) -> b < f_nblocks f) by (intros b Hb; apply in_seq in Hb; lia).
    rewrite (analyze_top f c (f_entry f) Hentry fuel (mkWork (fun _ => Top) (seq 0 (f_nblocks f)) (seq 0 (f_nblocks f))) bb Q (fo_succs f Hf) Ha) in H. destruct H.
  - now left.
Qed.
Print Assumptions C27_accepted_reads_defined.

(* ---- a loop with a block parameter, a spill, a late use and a reload ---- *)
Definition vr (k : nat) : vreg := N.of_nat (4 * k).
Definition use_ (k : nat) := mkOper (vr k) CAny Use Early.
Definition late_ (k : nat) := mkOper (vr k) CReg Use Late.
Definition def_ (k : nat) := mkOper (vr k) CReg Def Late.
Definition pr (k : nat) : aloc := AReg (N.of_nat k).
Definition st (k : nat) : aloc := AStack (N.of_nat k).
Definition ex_env : machine_env := mkEnv [] [] [] [].
Definition ex_loop : func :=
  mkFunc 5 3 0
    (fun b => match b with 0 => (0, 2) | 1 => (2, 4) | _ => (4, 5) end)
    (fun b => match b with 0 => [1] | 1 => [1; 2] | _ => [] end)
    (fun b => match b with 0 => [] | 1 => [0; 1] | _ => [1] end)
    (fun b => match b with 1 => [vr 2] | _ => [] end)
    (fun i => i =? 4) (fun i => (i =? 1) || (i =? 3))
    (fun b _ k => match b, k with 0, 0 => [vr 0] | 1, 0 => [vr 3] | _, _ => [] end)
    (fun i => match i with 0 => [def_ 0; def_ 1] | 2 => [use_ 2; late_ 1; def_ 3] | 4 => [use_ 3] | _ => [] end)
    (fun i => match i with 2 => ps_add ps_empty 9%N | _ => ps_empty end) 4 (fun _ => 1%N) false false.
Definition ex_loop_out : output :=
  mkOutput 1 [(p_before 1, mkEdit (pr 0) (st 3)); (p_before 3, mkEdit (pr 0) (st 3))]
    [pr 0; pr 1; st 3; pr 1; pr 0; pr 0] [0; 2; 2; 5; 5].
Definition ex_c : checker :=
  match prepare ex_loop ex_loop_out with Some c => c | None => mkChecker (fun _ => []) (fun _ _ => []) end.
Definition ex_bb : bbmap := match analyze 20 ex_loop ex_c with Some bb => bb | None => fun _ => Top end.

Ltac three b := destruct b as [|[|[|b]]]; [| | |cbn in *; lia].
Lemma ex_loop_ok : func_ok ex_loop.
Proof.
  constructor.
  - cbn. lia.
  - intros b s Hb. three b; cbn; intuition lia.
  - intros b Hb. three b; cbn; repeat constructor; cbn; intuition lia.
  - intros b Hb. three b; cbn; lia.
  - intros b Hb. three b; cbn; lia.
  - intros b i Hb H1 H2. three b; cbn in *; destruct i as [|[|[|[|i]]]]; try lia; reflexivity.
  - intros b k s Hb Hk _. three b; destruct k as [|[|[|k]]]; cbn in Hk; try discriminate; injection Hk as <-; reflexivity.
  - intros b Hb. three b; cbn; repeat constructor; cbn; tauto.
  - intro i. destruct i as [|[|[|i]]]; cbn; split; try reflexivity; repeat constructor.
Qed.
Example C27_nonvacuous :
  func_ok ex_loop /\ output_ok ex_loop ex_loop_out /\
  (forall i, i < f_ninsts ex_loop -> late_use_ok (f_operands ex_loop i) /\ reuse_no_late_use (f_operands ex_loop i)) /\
  (forall b, b < f_nblocks ex_loop -> ~ In (f_entry ex_loop) (f_succs ex_loop b)) /\
  prepare ex_loop ex_loop_out = Some ex_c /\ analyze 20 ex_loop ex_c = Some ex_bb /\
  (forall b, b < f_nblocks ex_loop -> moves_known (ex_bb b) (ck_insts ex_c b)) /\
  run_checker 20 ex_env ex_loop ex_loop_out = Some true /\
  (* two rounds of the loop, then out *)
  vrun (fun w i xs => (fun k => 10 * i + k + fold_right plus 0 xs, S w)) (fun w b => if (b =? 1) && (4 <? w) then 1 else 0)
    ex_loop 9 0 (fun _ => None) 0
  = Some [(0, []); (1, []); (2, [0; 1]); (3, []); (2, [23; 1]); (3, []); (4, [46])].
Proof.
  split; [exact ex_loop_ok|]. split.
  { split; [repeat constructor|]. intros i Hi. cbn in Hi.
    destruct i as [|[|[|[|[|i]]]]]; [..|lia]; eexists; split; reflexivity. }
  split.
  { intros i Hi. cbn in Hi. split.
    - intros x d Hx Hd Rx Lx Dd. destruct i as [|[|[|[|[|i]]]]]; cbn in Hx, Hd; try contradiction; try lia;
      repeat (destruct Hx as [<-|Hx]; try discriminate); try contradiction;
      repeat (destruct Hd as [<-|Hd]; try discriminate); try contradiction.
    - intro H. destruct i as [|[|[|[|[|i]]]]]; try discriminate; lia. }
  split; [intros b Hb; three b; cbn; intuition lia|].
  split; [vm_compute; reflexivity|]. split; [vm_compute; reflexivity|].
  split.
  { intros b Hb. three b; vm_compute; intuition discriminate. }
  split; vm_compute; reflexivity.
Qed.
Example C26_nonvacuous :
  (forall b s, b < f_nblocks ex_loop -> In s (f_succs ex_loop b) -> s < f_nblocks ex_loop) /\
  (* at the loop header: the parameter in the slot, v1 in its register *)
  asserts (ex_bb 1) (st 3) (vr 2) /\ asserts (ex_bb 1) (pr 1) (vr 1) /\ ~ asserts (ex_bb 1) (st 3) (vr 0).
Proof.
  split; [exact (fo_succs ex_loop ex_loop_ok)|]. vm_compute. intuition discriminate.
Qed.

(* ---- the claim without the side conditions is refuted ---- *)
(* a straight-line function with the given operand lists *)
Definition line (ops : list (list oper)) : func :=
  mkFunc (length ops) 1 0 (fun _ => (0, length ops)) (fun _ => []) (fun _ => []) (fun _ => [])
    (fun i => i + 1 =? length ops) (fun _ => false) (fun _ _ _ => []) (fun i => nth i ops [])
    (fun _ => ps_empty) 8 (fun _ => 1%N) false false.
Lemma line_ok : forall ops, ops <> [] -> func_ok (line ops).
Proof.
  intros ops H. assert (L : 0 < length ops) by (destruct ops; [congruence|cbn; lia]).
  constructor; cbn; intros; try tauto; try lia; try discriminate.
  - constructor.
  - constructor.
  - split; [reflexivity|repeat constructor].
Qed.
(* the two programs differ in what some instruction reads *)
Definition wrong (f : func) (o : output) : Prop :=
  exists (sem : nat -> nat -> list nat -> (nat -> nat) * nat) pick junk t w n tr tr',
    vrun sem pick f n (f_entry f) (fun _ => None) w = Some tr /\
    arun sem pick junk f o n (f_entry f) t w = Some tr' /\ tr <> tr'.

(* A move from a location with no known value keeps the old labels of its
   destination (checker.rs:553-562), so a move that destroys v0 is accepted. *)
Definition ex_stale : func := line [[def_ 0]; [use_ 0]].
Definition ex_stale_out : output := mkOutput 0 [(p_before 1, mkEdit (pr 5) (pr 0))] [pr 0; pr 0] [0; 1].
Theorem C27_stale_move_refuted :
  func_ok ex_stale /\ output_ok ex_stale ex_stale_out /\
  (forall i, i < f_ninsts ex_stale -> late_use_ok (f_operands ex_stale i) /\ reuse_no_late_use (f_operands ex_stale i)) /\
  run_checker 20 ex_env ex_stale ex_stale_out = Some true /\ wrong ex_stale ex_stale_out.
Proof.
  split; [apply line_ok; discriminate|]. split.
  { split; [repeat constructor|]. intros i Hi. cbn in Hi. destruct i as [|[|i]]; [..|lia]; eexists; split; reflexivity. }
  split.
  { intros i Hi. cbn in Hi. split.
    - intros x d Hx Hd Rx Lx Dd. destruct i as [|[|i]]; cbn in Hx, Hd; try lia;
      destruct Hx as [<-|[]]; discriminate.
    - intro H. destruct i as [|[|i]]; try discriminate; lia. }
  split; [vm_compute; reflexivity|].
  exists (fun w i xs => (fun k => 7, w)), (fun _ _ => 0), (fun _ _ _ => 0), (fun _ => 0), 0, 1. do 2 eexists.
  split; [vm_compute; reflexivity|]. split; [vm_compute; reflexivity|discriminate].
Qed.
Print Assumptions C27_stale_move_refuted.

(* If an instruction has a reuse constraint, nothing is checked after it
   (checker.rs:488-493): a late use from a wrong register is accepted. *)
Definition ex_reuse_late : func :=
  line [[def_ 0; def_ 1]; [use_ 0; mkOper (vr 2) (CReuse 0) Def Late; late_ 1]].
Definition ex_reuse_late_out : output := mkOutput 0 [] [pr 0; pr 1; pr 0; pr 0; pr 7] [0; 2].
Theorem C27_late_use_with_reuse_refuted :
  func_ok ex_reuse_late /\ output_ok ex_reuse_late ex_reuse_late_out /\
  (forall i, i < f_ninsts ex_reuse_late -> late_use_ok (f_operands ex_reuse_late i)) /\
  run_checker 20 ex_env ex_reuse_late ex_reuse_late_out = Some true /\ wrong ex_reuse_late ex_reuse_late_out.
Proof.
  split; [apply line_ok; discriminate|]. split.
  { split; [repeat constructor|]. intros i Hi. cbn in Hi. destruct i as [|[|i]]; [..|lia]; eexists; split; reflexivity. }
  split.
  { intros i Hi x d Hx Hd Rx Lx Dd. cbn in Hi. destruct i as [|[|i]]; cbn in Hx, Hd; try lia;
      repeat (destruct Hx as [<-|Hx]; try discriminate); try contradiction;
      repeat (destruct Hd as [<-|Hd]; try discriminate); try contradiction. }
  split; [vm_compute; reflexivity|].
  exists (fun w i xs => (fun k => 7, w)), (fun _ _ => 0), (fun _ _ _ => 0), (fun _ => 0), 0, 1. do 2 eexists.
  split; [vm_compute; reflexivity|]. split; [vm_compute; reflexivity|discriminate].
Qed.
Print Assumptions C27_late_use_with_reuse_refuted.

(* Two edges to one successor share one list of parallel moves
   (checker.rs:747-749, 821-824): the arguments of the last edge are believed
   for both.  (Such an edge pair is critical and rejected by CFG validation.) *)
Definition ex_dup : func :=
  mkFunc 3 2 0 (fun b => match b with 0 => (0, 2) | _ => (2, 3) end)
    (fun b => match b with 0 => [1; 1] | _ => [] end) (fun b => match b with 0 => [] | _ => [0; 0] end)
    (fun b => match b with 1 => [vr 2] | _ => [] end) (fun i => i =? 2) (fun i => i =? 1)
    (fun b _ k => match k with 0 => [vr 0] | _ => [vr 1] end)
    (fun i => match i with 0 => [def_ 0; def_ 1] | 2 => [use_ 2] | _ => [] end)
    (fun _ => ps_empty) 3 (fun _ => 1%N) false false.
Definition ex_dup_out : output := mkOutput 0 [] [pr 0; pr 1; pr 1] [0; 2; 2].
Theorem C27_duplicate_successor_refuted :
  run_checker 20 ex_env ex_dup ex_dup_out = Some true /\ wrong ex_dup ex_dup_out.
Proof.
  split; [vm_compute; reflexivity|].
  exists (fun w i xs => (fun k => k, w)), (fun _ _ => 0), (fun _ _ _ => 0), (fun _ => 0), 0, 3. do 2 eexists.
  split; [vm_compute; reflexivity|]. split; [vm_compute; reflexivity|discriminate].
Qed.
Print Assumptions C27_duplicate_successor_refuted.

(* An early definition placed in the register of an early use of another
   register is accepted, although the definition is written before the uses are
   read (lib.rs:784-795); C27_checker_sound reads all early uses first. *)
Theorem C27_early_def_overlap_refuted :
  exists f o i, func_ok f /\ output_ok f o /\ run_checker 20 ex_env f o = Some true /\
    exists u d a al, f_operands f i = [u; d] /\ inst_allocs o i = Some al /\ al = [a; a] /\
      is_use u = true /\ is_early u = true /\ is_def d = true /\ is_early d = true /\ o_vreg u <> o_vreg d.
Proof.
  exists (line [[def_ 0]; [use_ 0; mkOper (vr 1) CReg Def Early]]), (mkOutput 0 [] [pr 0; pr 0; pr 0] [0; 1]), 1.
  split; [apply line_ok; discriminate|]. split.
  { split; [repeat constructor|]. intros i Hi. cbn in Hi. destruct i as [|[|i]]; [..|lia]; eexists; split; reflexivity. }
  split; [vm_compute; reflexivity|].
  do 4 eexists. split; [reflexivity|]. split; [reflexivity|]. split; [reflexivity|]. repeat split. discriminate.
Qed.
Print Assumptions C27_early_def_overlap_refuted.

(* C28: acceptance implies, for every instruction of every block and every
   operand that is early or belongs to an instruction without a reuse
   constraint: the operand has an allocation and satisfies its constraint (a
   limit only if the allocation is a register); and no inserted move goes from
   stack to stack. *)
Lemma check_constraint_spec : forall env op a al, check_constraint env op a al = Some true ->
  con_ok_checked (fixed_stack_slots env) al (o_con op) a.
Proof.
  intros env op a al E. unfold check_constraint in E.
  assert (F : forall r, existsb (N.eqb r) (fixed_stack_slots env) = true <-> In r (fixed_stack_slots env)) by (intro; apply vmem_In).
  destruct (o_con op) as [| | |r|i|n]; cbn.
  - exact I.
  - destruct a as [|r|s]; cbn in E; try discriminate. exists r. split; [reflexivity|]. intro H. apply F in H. rewrite H in E. discriminate.
  - destruct a as [|r|s]; cbn in E; try discriminate; [|eauto]. right. exists r. split; [reflexivity|]. apply F. congruence.
  - destruct (aloc_eqb_spec a (AReg r)); congruence.
  - destruct a as [|r|s]; cbn [aloc_is_reg] in E; try discriminate. split; [eauto|].
    destruct (nth_error al (N.to_nat i)) as [b|]; [|discriminate]. destruct (aloc_eqb_spec (AReg r) b); congruence.
  - intros r ->. cbn in E. injection E as E. apply negb_true_iff, N.leb_gt in E. exact E.
Qed.

Lemma check_block_in : forall env l s, check_block env s l = Some true -> forall i, In i l ->
  exists s1 s2, check env s1 Before i = Some true /\ update s1 i = Some s2 /\ check env s2 After i = Some true.
Proof.
  intros env. induction l as [|j t IH]; intros s E i Hi; [destruct Hi|]. cbn in E.
  destruct (check env s Before j) as [c1|] eqn:C1; [|discriminate].
  destruct (update s j) as [s1|] eqn:U; [|discriminate].
  destruct (check env s1 After j) as [c2|] eqn:C2; [|discriminate].
  destruct (check_block env s1 t) as [c3|] eqn:C3; [|discriminate]. injection E as E.
  apply andb_true_iff in E. destruct E as [E ->]. apply andb_true_iff in E. destruct E as [-> ->].
  destruct Hi as [<-|Hi]; [eauto|]. eapply IH; eauto.
Qed.

Lemma in_bb_insts : forall f o items cl, bb_insts_of f o items = Some cl ->
  (forall i, In (IInst i) items -> exists al cb, inst_allocs o i = Some al /\ In (COp i (f_operands f i) al cb) cl) /\
  (forall e, In (IEdit e) items -> In (CMove (e_to e) (e_from e)) cl).
Proof.
  intros f o. induction items as [|x t IH]; intros cl E.
  - split; intros ? [].
  - destruct x as [j|e]; cbn [bb_insts_of] in E.
    + destruct (inst_allocs o j) as [al|] eqn:Ea; [|discriminate].
      destruct (ps_iter (f_clobbers f j)) as [cb|] eqn:Ec; [|discriminate].
      destruct (bb_insts_of f o t) as [r|]; [|discriminate]. assert (cl = COp j (f_operands f j) al cb :: r) by congruence. subst cl.
      destruct (IH r eq_refl) as [H1 H2]. split.
      * intros i [Hi|Hi]; [injection Hi as ->; exists al, cb; split; [assumption|now left]|].
        destruct (H1 i Hi) as (al' & cb' & A & B). exists al', cb'. split; [assumption|now right].
      * intros e [He|He]; [discriminate|]. right. auto.
    + destruct (bb_insts_of f o t) as [r|]; [|discriminate]. cbn in E. injection E as <-.
      destruct (IH r eq_refl) as [H1 H2]. split.
      * intros i [Hi|Hi]; [discriminate|]. destruct (H1 i Hi) as (al' & cb' & A & B). exists al', cb'. split; [assumption|now right].
      * intros e' [He|He]; [injection He as ->; now left|right; auto].
Qed.

Theorem C28_accepted_constraints :
  forall f o env fuel, run_checker fuel env f o = Some true ->
  forall b items, b < f_nblocks f -> block_insts_and_edits o (f_insns f b) = Some items ->
  (forall i al k op a, In (IInst i) items -> inst_allocs o i = Some al ->
     nth_error (f_operands f i) k = Some op -> nth_error al k = Some a ->
     o_pos op = Early \/ existsb is_reuse (f_operands f i) = false ->
     a <> ANone /\ con_ok_checked (fixed_stack_slots env) al (o_con op) a) /\
  (Forall (fun r => (r < 256)%N) (fixed_stack_slots env) ->
   forall e, In (IEdit e) items ->
     ~ (on_stack (fixed_stack_slots env) (e_from e) /\ on_stack (fixed_stack_slots env) (e_to e))).
Proof.
  intros f o env fuel Hr b items Hb Ei. unfold run_checker in Hr.
  destruct (prepare f o) as [c|] eqn:Hp; [|discriminate].
  destruct (analyze fuel f c) as [bb|]; [|discriminate].
  pose proof (find_errors_spec env c bb _ Hr b (proj2 (in_seq _ _ _) (conj (Nat.le_0_l b) Hb))) as Hc.
  destruct (prepare_spec f o c b Hp Hb) as (items' & pushes & Ei' & Ecl & _ & _).
  assert (items' = items) by congruence. subst items'.
  destruct (in_bb_insts f o items _ Ecl) as [H1 H2]. split.
  - intros i al k op a Hi Ea Ek Eak Hpos.
    destruct (H1 i Hi) as (al' & cb & Ea' & Hin). assert (al' = al) by congruence. subst al'.
    destruct (check_block_in env _ _ Hc _ Hin) as (s1 & s2 & C1 & U & C2).
    assert (Hcomb : In (op, a) (combine (f_operands f i) al)).
    { clear - Ek Eak. revert al k Ek Eak. induction (f_operands f i) as [|x t IH]; intros [|y al] [|k] Ek Eak; cbn in *; try discriminate.
      - left. congruence.
      - right. eapply IH; eauto. }
    assert (Hv : exists val, check_val env op a val al = Some true).
    { destruct (o_pos op) eqn:P.
      - unfold check in C1. rewrite andb_false_r in C1. eexists.
        apply (check_ops_spec env s1 Before al _ C1 op a Hcomb). unfold is_here. now rewrite P.
      - destruct Hpos as [Hpos|Hpos]; [discriminate|]. unfold check in C2. rewrite Hpos in C2. cbn [andb] in C2. eexists.
        apply (check_ops_spec env s2 After al _ C2 op a Hcomb). unfold is_here. now rewrite P. }
    destruct Hv as [val Hv]. unfold check_val in Hv. destruct (aloc_is_none a) eqn:N0; [discriminate|].
    split; [intros ->; discriminate|].
    apply check_constraint_spec. destruct (is_use op && _); [|exact Hv].
    destruct val as [|vs]; [discriminate|]. destruct (vmem (o_vreg op) vs); [exact Hv|discriminate].
  - intros Hlt e He [Hs1 Hs2].
    destruct (check_block_in env _ _ Hc _ (H2 e He)) as (s1 & s2 & C1 & _). cbn in C1.
    assert (S : forall x, on_stack (fixed_stack_slots env) x -> check_is_stack env x = true).
    { intros x [[s ->]|(r & -> & Hin)]; [reflexivity|]. unfold check_is_stack. cbn [aloc_as_reg].
      rewrite contains_mem. apply mem_from_iter; [apply wf_empty|exact Hlt|now left]. }
    rewrite (S _ Hs1), (S _ Hs2) in C1. discriminate.
Qed.
Print Assumptions C28_accepted_constraints.

Definition ex_con : func :=
  line [[def_ 0; mkOper (vr 1) (CFixed 6%N) Def Late; mkOper (vr 2) CStack Def Late];
        [mkOper (vr 0) (CLimit 4%N) Use Early; mkOper (vr 1) CReg Use Late; mkOper (vr 3) CAny Def Late]].
Definition ex_con_out : output :=
  mkOutput 3 [(p_before 1, mkEdit (AReg 6%N) (pr 1)); (p_before 1, mkEdit (pr 0) (st 2))]
    [pr 0; AReg 6%N; AReg 20%N; pr 0; pr 1; st 1] [0; 3].
Definition ex_con_env := mkEnv [] [] [] [20%N].
Example C28_nonvacuous :
  run_checker 20 ex_con_env ex_con ex_con_out = Some true /\
  Forall (fun r => (r < 256)%N) (fixed_stack_slots ex_con_env) /\
  block_insts_and_edits ex_con_out (f_insns ex_con 0)
  = Some [IInst 0; IEdit (mkEdit (AReg 6%N) (pr 1)); IEdit (mkEdit (pr 0) (st 2)); IInst 1].
Proof. split; [vm_compute; reflexivity|]. split; [repeat constructor|reflexivity]. Qed.

(* "every operand's allocation satisfies its constraint and has the right
   class" is refuted in three ways. *)
(* 1. A late reuse constraint is never checked. *)
Theorem C28_reuse_unchecked_refuted :
  exists f o i k op a al, func_ok f /\ output_ok f o /\ run_checker 20 ex_env f o = Some true /\
    i < f_ninsts f /\ nth_error (f_operands f i) k = Some op /\ inst_allocs o i = Some al /\ nth_error al k = Some a /\
    ~ con_ok [] al (o_con op) a.
Proof.
  exists (line [[def_ 0]; [use_ 0; mkOper (vr 1) (CReuse 0) Def Late]]), (mkOutput 0 [] [pr 0; pr 0; pr 3] [0; 1]), 1, 1.
  do 3 eexists. split; [apply line_ok; discriminate|]. split.
  { split; [repeat constructor|]. intros i Hi. cbn in Hi. destruct i as [|[|i]]; [..|lia]; eexists; split; reflexivity. }
  split; [vm_compute; reflexivity|]. split; [cbn; lia|]. split; [reflexivity|]. split; [reflexivity|]. split; [reflexivity|].
  cbn. intros [_ H]. discriminate.
Qed.
Print Assumptions C28_reuse_unchecked_refuted.

(* 2. A limit constraint accepts a stack slot. *)
Theorem C28_limit_on_stack_refuted :
  exists f o i k op a al, func_ok f /\ output_ok f o /\ run_checker 20 ex_env f o = Some true /\
    i < f_ninsts f /\ nth_error (f_operands f i) k = Some op /\ inst_allocs o i = Some al /\ nth_error al k = Some a /\
    ~ con_ok [] al (o_con op) a.
Proof.
  exists (line [[mkOper (vr 0) (CLimit 4%N) Def Late]]), (mkOutput 2 [] [st 1] [0]), 0, 0.
  do 3 eexists. split; [apply line_ok; discriminate|]. split.
  { split; [repeat constructor|]. intros i Hi. cbn in Hi. destruct i as [|i]; [..|lia]; eexists; split; reflexivity. }
  split; [vm_compute; reflexivity|]. split; [cbn; lia|]. split; [reflexivity|]. split; [reflexivity|]. split; [reflexivity|].
  cbn. intros (r & H & _). discriminate.
Qed.
Print Assumptions C28_limit_on_stack_refuted.

(* 3. The class of the register is not compared with the class of the vreg. *)
Theorem C28_class_unchecked_refuted :
  exists f o i k op r al, func_ok f /\ output_ok f o /\ run_checker 20 ex_env f o = Some true /\
    i < f_ninsts f /\ nth_error (f_operands f i) k = Some op /\ inst_allocs o i = Some al /\ nth_error al k = Some (AReg r) /\
    vreg_class (o_vreg op) = Some Float /\ preg_class r = Some Int.
Proof.
  exists (line [[mkOper 5%N CReg Def Late]]), (mkOutput 0 [] [pr 1] [0]), 0, 0.
  do 3 eexists. split; [apply line_ok; discriminate|]. split.
  { split; [repeat constructor|]. intros i Hi. cbn in Hi. destruct i as [|i]; [..|lia]; eexists; split; reflexivity. }
  split; [vm_compute; reflexivity|]. split; [cbn; lia|]. split; [reflexivity|]. split; [reflexivity|]. split; [reflexivity|].
  split; reflexivity.
Qed.
Print Assumptions C28_class_unchecked_refuted.
