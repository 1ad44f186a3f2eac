(* The single-pass allocator: theorems about the model in Fastalloc.v. *)
From Coq Require Import NArith ZArith List Bool Arith Lia Sorting.Sorted.
From Verif Require Import Enc PRegSet PRegSetSpec PRegSetProofs Func GraphSpec SsaSpec LivenessSpec Output OutputSpec OutputProofs Checker CheckerSpec FastallocSpec.
From Verif Require Import Fastalloc FastBase FastInst FastOps FastBlock FastSim FastRun.
Import ListNotations.
Open Scope nat_scope.

(* ---------------- what a successful run gives ---------------- *)
Lemma run_facts : forall f me o, menv_ok me -> fast_input f -> fast_run true f me = OutOk o ->
  exists E s0 s, fast_env f me = Some (E, s0) /\ env_ok E /\ fe_offs E = map (opsum f) (seq 0 (f_ninsts f)) /\ BINV f E 0 s /\ o = outp E s /\
    (forall r, inset (fe_fixed E) r <-> In r (fixed_stack_slots me)) /\
    (forall r, inset (fe_init E) r <-> (exists c, class_reg me c r) \/ In r (fixed_stack_slots me)) /\ (forall c r, fe_dedicated E c = Some r -> In (Some r) (scratch_by_class me)).
Proof.
  intros f me o HM HF H. unfold fast_run in H. destruct (fast_env f me) as [[E s0]|] eqn:Ee; [|discriminate]. destruct (run true f E s0) as [u s|s|] eqn:Er; try discriminate. injection H as <-.
  destruct (env_facts f me HM E s0 Ee) as (HE & B & F1 & F2 & F3 & F4 & F5 & F6 & F7 & F8).
  assert (HO : forall i, i < f_ninsts f -> nth_error (fe_offs E) i = Some (opsum f i)) by (intros i Hi; rewrite F4; now apply nth_offsets).
  exists E, s0, s. split; [reflexivity|]. split; [assumption|]. split; [assumption|]. split; [|split; [reflexivity|auto]].
  unfold run in Er. rewrite (fi_entry f HF) in Er. cbn [Nat.eqb negb andb] in Er. destruct u.
  apply (blocks_ok f E HE HF HO (f_nblocks f) s0 s (le_n _)); [|exact Er]. constructor; auto.
  - eapply (base_iff f E); [|exact B]. intro v. split; [intro K; now apply (known_home f) in K|]. intros (a & A1 & A2). now apply (home_known f a).
  - intros v c _ C1 C2. lia.
  - intros v _ K. congruence.
  - rewrite F6. constructor.
  - rewrite F6. constructor.
  - rewrite F6. constructor.
  - intros c i C1 C2. lia.
  - intros c C1 C2. lia.
Qed.
Lemma loc_place : forall E me s a, (forall r, inset (fe_init E) r <-> (exists c, class_reg me c r) \/ In r (fixed_stack_slots me)) -> (forall c r, fe_dedicated E c = Some r -> In (Some r) (scratch_by_class me)) ->
  loc_ok E s a -> place me (outp E s) a.
Proof.
  intros E me s [|r|sl] Fi Fd H; cbn in *; [assumption| |].
  - destruct H as [H|(c & H)]; [apply Fi in H; tauto|right; right; eauto].
  - lia.
Qed.
Lemma stack_on : forall E me a, (forall r, inset (fe_fixed E) r <-> In r (fixed_stack_slots me)) -> on_stack (fixed_stack_slots me) a <-> is_stack E a = true.
Proof.
  intros E me [|r|sl] Fx; unfold on_stack; cbn; split; intro H.
  - destruct H as [(? & K)|(? & K & _)]; discriminate.
  - discriminate.
  - destruct H as [(? & K)|(q & K & H)]; [discriminate|]. injection K as <-. now apply Fx.
  - right. exists r. split; [reflexivity|]. now apply Fx.
  - reflexivity.
  - left. eauto.
Qed.

(* ---------------- C39: edits ---------------- *)
(* On success the edits come out sorted by program point; each moves between two
   places of the machine; none moves from the stack to the stack. *)
Theorem C39_edits : forall f me o, menv_ok me -> fast_input f -> fast_run true f me = OutOk o ->
  StronglySorted (fun a b => fst a <= fst b) (out_edits o) /\
  forall p e, In (p, e) (out_edits o) -> place me o (e_from e) /\ place me o (e_to e) /\ ~ (on_stack (fixed_stack_slots me) (e_from e) /\ on_stack (fixed_stack_slots me) (e_to e)).
Proof.
  intros f me o HM HF H. destruct (run_facts f me o HM HF H) as (E & s0 & s & _ & HE & HO & B & -> & Fx & Fi & Fd). split; [exact (bi_sorted _ _ _ _ B)|].
  intros p e He. pose proof (bi_eok _ _ _ _ B) as K. rewrite Forall_forall in K. destruct (K _ He) as (K1 & K2 & K3). cbn [snd] in *. split; [now apply loc_place|]. split; [now apply loc_place|].
  intros [S1 S2]. apply (stack_on E) in S1; [|assumption]. apply (stack_on E) in S2; [|assumption]. rewrite S1, S2 in K3. discriminate.
Qed.
Print Assumptions C39_edits.

(* ---------------- C40: constraints ---------------- *)
(* On success every operand of every instruction in a block has an allocation that
   satisfies its constraint; it is a place of the machine, and a register of the
   vreg's class; two operands share a register only if they read the same vreg or
   do not need the register at the same point. *)
Theorem C40_constraints : forall f me o, menv_ok me -> fast_input f -> fast_run true f me = OutOk o ->
  forall b i, b < f_nblocks f -> In i (span (f_insns f b)) ->
  exists al, inst_allocs o i = Some al /\ length al = length (f_operands f i) /\
    (forall k op a, nth_error (f_operands f i) k = Some op -> nth_error al k = Some a ->
       con_ok (fixed_stack_slots me) al (o_con op) a /\
       (o_fixed_nonalloc op = None -> place me o a /\ forall r, a = AReg r -> preg_class r = vreg_class (o_vreg op))) /\
    (forall k k' op op' r, nth_error (f_operands f i) k = Some op -> nth_error (f_operands f i) k' = Some op' ->
       o_fixed_nonalloc op = None -> o_fixed_nonalloc op' = None -> k <> k' ->
       nth_error al k = Some (AReg r) -> nth_error al k' = Some (AReg r) -> may_share op op').
Proof.
  intros f me o HM HF H b i Hb Hi. destruct (run_facts f me o HM HF H) as (E & s0 & s & _ & HE & HO & B & -> & Fx & Fi & Fd).
  pose proof (fi_range f HF b Hb) as Rg. assert (Li : i < f_ninsts f) by (apply span_in in Hi; lia).
  pose proof (agree_s f E HO s B 0 i (Nat.le_0_l _) Li) as Ia. exists (slice f i (st_allocs s)). split; [exact Ia|].
  destruct (bi_if _ _ _ _ B b i (Nat.le_0_l _) Hb Hi) as (A & K1 & K2 & K3 & K4 & K5 & K6).
  assert (Nth : forall k op, nth_error (f_operands f i) k = Some op -> nth_error (slice f i (st_allocs s)) k = Some (match o_fixed_nonalloc op with Some r => AReg r | None => A k end)).
  { intros k op Ho. unfold slice. apply nth_slice. split; [|exact (K1 k op Ho)]. unfold opcount. apply nth_error_Some. congruence. }
  split; [|split].
  - unfold slice. rewrite firstn_length_le; [reflexivity|]. rewrite skipn_length, (bi_len _ _ _ _ B). pose proof (opsum_mono f (S i) (f_ninsts f) Li) as M. cbn [opsum] in M. unfold opcount in *. lia.
  - intros k op a Ho Ha. rewrite (Nth k op Ho) in Ha. injection Ha as <-. destruct (o_fixed_nonalloc op) as [r|] eqn:Fn.
    + split; [|discriminate]. unfold o_fixed_nonalloc in Fn. destruct (o_con op); try discriminate. destruct (N.eqb _ _); [|discriminate]. injection Fn as ->. reflexivity.
    + split; [|intros _; split; [apply loc_place; auto; now apply (K2 k op)|intros r Hr; now apply (K3 k op r)]].
      pose proof (K4 k op Ho Fn) as C. unfold csat in C. destruct (o_con op) as [| | |r|m|l] eqn:Ec; cbn [con_ok]; unfold wcon in C; try rewrite Ec in C; auto.
      * destruct C as (r & C1 & C2). exists r. split; [assumption|]. now rewrite <- Fx.
      * exact (proj2 (stack_on E me (A k) Fx) C).
      * destruct (K5 k op m Ho Ec) as (K7 & K8). split; [exact K8|]. destruct C as (ro & C1 & _). rewrite (Nth _ _ C1), <- K7.
        destruct (oo_reuse _ _ (fi_ops f HF b i Hb Hi) k op m Ho Ec) as (_ & _ & u & U1 & _ & _ & U2 & _). rewrite C1 in U1. injection U1 as <-.
        destruct (o_fixed_nonalloc ro) as [r|] eqn:Fr; [|reflexivity]. exfalso. unfold o_fixed_nonalloc in Fr. destruct (o_con ro) eqn:Ecr; try discriminate. exact (U2 _ eq_refl).
      * destruct C.
  - intros k k' op op' r Ho Ho' F1 F2 Ne Ha Ha'. rewrite (Nth k op Ho), F1 in Ha. rewrite (Nth k' op' Ho'), F2 in Ha'. injection Ha as Ha. injection Ha' as Ha'.
    destruct (K6 k k' r op op' Ho Ho' F1 F2 Ne Ha Ha') as [C|C]; [now left|right]. intros p [P1 P2]. apply (C p).
    assert (Z : forall q, needs_at q p -> rsp q p) by (clear; intros q [Q|[[Q1 Q2]|[Q1 Q2]]]; [now left|right; unfold both, is_use, is_late in *; destruct q as [? ? [] []]; cbn in *; congruence|right; unfold both, is_def, is_early in *; destruct q as [? ? [] []]; cbn in *; congruence]).
    auto.
Qed.
Print Assumptions C40_constraints.

(* ---------------- C41: values ---------------- *)
(* On success every instruction of the allocated program reads the values that it
   reads in the original program. *)
Theorem C41_values : forall f me o, menv_ok me -> fast_input f -> fast_run true f me = OutOk o -> same_reads f o.
Proof.
  intros f me o HM HF H. destruct (run_facts f me o HM HF H) as (E & s0 & s & _ & HE & HO & B & -> & _).
  intros V W sem pick junk n t w evs Hv. eapply (runs_ok f E HF HO s B); [| | |exact Hv].
  - rewrite (fi_entry f HF). apply (fi_some f HF).
  - constructor.
  - exists (fun _ => None). split; [|reflexivity]. intros v a x _ K. discriminate.
Qed.
Print Assumptions C41_values.

(* ---------------- examples ---------------- *)
Definition vr (k : nat) : vreg := (N.of_nat k * 4)%N.
Definition use_ k := mkOper (vr k) CReg Use Early.
Definition late_ k := mkOper (vr k) CReg Use Late.
Definition def_ k := mkOper (vr k) CReg Def Late.
Definition fixu k r := mkOper (vr k) (CFixed r) Use Early.
Definition reud k i := mkOper (vr k) (CReuse i) Def Late.
Definition stkd k := mkOper (vr k) CStack Def Late.
(* [n] integer registers *)
Definition regs (l : list N) := fold_left ps_add l ps_empty.
Definition me (n : nat) : machine_env :=
  mkEnv [regs (map N.of_nat (seq 0 n)); ps_empty; ps_empty] [ps_empty; ps_empty; ps_empty] [None; None; None] [].
(* one block *)
Definition line (ops : list (list oper)) : func :=
  mkFunc (length ops) 1 0 (fun _ => (0, length ops)) (fun _ => []) (fun _ => []) (fun _ => [])
    (fun i => i + 1 =? length ops) (fun _ => false) (fun _ _ _ => []) (fun i => nth i ops [])
    (fun _ => ps_empty) 20 (fun _ => 1%N) false false.

Definition sem0 (_ : unit) (i : nat) (_ : list nat) : (nat -> nat) * unit := (fun k => 10 * i + k + 1, tt).
(* executions that tell the programs apart *)
Definition differs (f : func) (m : machine_env) : bool :=
  match fast_run true f m with
  | OutOk o =>
      match vrun sem0 (fun _ _ => 0) f 1 0 (fun _ => None) tt, arun sem0 (fun _ _ => 0) (fun _ _ _ => 999) f o 1 0 (fun _ => 0) tt with
      | Some a, Some b => if list_eq_dec Nat.eq_dec (concat (map snd a)) (concat (map snd b)) then false else true
      | _, _ => false
      end
  | _ => false
  end.
Lemma differs_spec : forall f m, f_entry f = 0 -> differs f m = true -> exists o, fast_run true f m = OutOk o /\ ~ same_reads f o.
Proof.
  intros f m He H. unfold differs in H. destruct (fast_run true f m) as [o| |]; try discriminate. exists o. split; [reflexivity|]. intro S.
  destruct (vrun _ _ f 1 0 _ tt) as [a|] eqn:Ea; [|discriminate]. destruct (arun _ _ _ f o 1 0 _ tt) as [b|] eqn:Eb; [|discriminate].
  specialize (S nat unit sem0 (fun _ _ => 0) (fun _ _ _ => 999) 1 (fun _ => 0) tt a). rewrite He in S. specialize (S Ea).
  rewrite Eb in S. injection S as ->. destruct (list_eq_dec Nat.eq_dec _ _); [discriminate|congruence].
Qed.

(* v0 is defined on the stack and kept in a register for its use: no move brings
   it there *)
Theorem C41_stack_def_refuted :
  exists f o, (forall i op, In op (f_operands f i) -> ops_ok (f_clobbers f i) (f_operands f i)) /\ fast_run true f (me 3) = OutOk o /\ ~ same_reads f o.
Proof.
  destruct (differs_spec (line [[stkd 0]; [use_ 0]; [use_ 0]]) (me 3) eq_refl) as (o & H1 & H2); [vm_compute; reflexivity|].
  exists (line [[stkd 0]; [use_ 0]; [use_ 0]]), o. split; [|split; assumption]. intros i op _.
  destruct i as [|[|[|[|i]]]]; cbn; constructor; cbn; intros;
    repeat match goal with
           | H : _ \/ _ |- _ => destruct H
           | H : False |- _ => destruct H
           | H : nth_error _ ?k = Some _ |- _ => destruct k; cbn in H; [injection H as <-|]
           | H : nth_error [] ?k = Some _ |- _ => destruct k; discriminate H
           end; subst; try discriminate.
Qed.
Print Assumptions C41_stack_def_refuted.

(* v1 reuses the input v0, which is fixed to register 1 and is still needed there
   afterwards: its value is overwritten *)
Theorem C41_fixed_reuse_refuted :
  exists f o, fast_run true f (me 3) = OutOk o /\ ~ same_reads f o /\
    f_operands f 1 = [fixu 0 1%N; reud 1 0] /\ f_operands f 2 = [fixu 0 1%N; use_ 1].
Proof.
  destruct (differs_spec (line [[def_ 0]; [fixu 0 1%N; reud 1 0]; [fixu 0 1%N; use_ 1]]) (me 3) eq_refl) as (o & H1 & H2); [vm_compute; reflexivity|].
  eexists _, o. split; [exact H1|]. split; [exact H2|]. split; reflexivity.
Qed.
Print Assumptions C41_fixed_reuse_refuted.

(* a loop: block 1 has a parameter, is entered from block 0 and from block 2, and
   clobbers a register; v1 is live around the loop *)
Definition ex_loop : func :=
  mkFunc 7 4 0
    (fun b => match b with 0 => (0, 2) | 1 => (2, 4) | 2 => (4, 6) | _ => (6, 7) end)
    (fun b => match b with 0 => [1] | 1 => [2; 3] | 2 => [1] | _ => [] end)
    (fun b => match b with 1 => [0; 2] | 2 => [1] | 3 => [1] | _ => [] end)
    (fun b => match b with 1 => [vr 2] | _ => [] end)
    (fun i => i =? 6) (fun i => (i =? 1) || (i =? 3) || (i =? 5))
    (fun b _ k => match b, k with 0, 0 => [vr 0] | 2, 0 => [vr 4] | _, _ => [] end)
    (fun i => match i with 0 => [def_ 0; def_ 1] | 2 => [use_ 2; late_ 1; def_ 3] | 4 => [use_ 3; reud 4 0] | 6 => [use_ 3; use_ 1] | _ => [] end)
    (fun i => match i with 2 => ps_add ps_empty 0%N | _ => ps_empty end) 5 (fun _ => 1%N) false false.
(* case distinctions on small numbers and short lists *)
Ltac small b := destruct b as [|[|[|[|b]]]]; cbn in *; try lia.
Ltac cases :=
  repeat match goal with
         | H : _ \/ _ |- _ => destruct H
         | H : False |- _ => destruct H
         | H : nth_error _ ?k = Some _ |- _ => destruct k; cbn in H; [injection H as <-|]
         | H : nth_error [] ?k = Some _ |- _ => destruct k; discriminate H
         end; subst; try discriminate.
Lemma me_ok : forall n, n <= 64 -> menv_ok (me n).
Proof.
  intros n Hn. assert (Wr : forall l, ps_wf (regs l)) by (intro l; unfold regs; apply wf_from_iter, wf_empty).
  assert (We : ps_wf ps_empty) by apply wf_empty.
  assert (Em : forall r, ps_contains ps_empty r = true -> False) by (intros r K; rewrite contains_mem, mem_empty in K; discriminate).
  constructor; try reflexivity.
  - intros s H. cbn in H. repeat (destruct H as [H|H]; try contradiction; try (subst s; auto)).
  - intros c r (s & H & K). assert (D : c = Int /\ s = regs (map N.of_nat (seq 0 n))).
    { destruct c; cbn in H; destruct H as [H|H]; injection H as <-; auto; exfalso; eapply Em; exact K. }
    destruct D as [-> ->]. unfold regs in K. rewrite contains_mem, mem_from_iter in K; [|assumption|].
    + destruct K as [K|K]; [|rewrite mem_empty in K; discriminate]. apply in_map_iff in K. destruct K as (j & <- & K). apply in_seq in K.
      assert (L : j < 64) by lia. clear - L. do 64 (destruct j as [|j]; [reflexivity|]). lia.
    + apply Forall_forall. intros x Hx. apply in_map_iff in Hx. destruct Hx as (j & <- & Hj). apply in_seq in Hj. lia.
  - intros r [].
  - intros r H. cbn in H. repeat (destruct H as [H|H]; try discriminate). destruct H.
Qed.
Lemma dom_entry_all : forall succs entry b, dom succs entry entry b.
Proof. intros succs entry b l R. induction R; [now left|now right]. Qed.
Lemma ex_dom : forall b, b = 2 \/ b = 3 -> dom (f_succs ex_loop) 0 1 b.
Proof.
  intros b Hb l R. inversion R as [E1 E2|p l' c R' K E1 E2]; subst; [lia|]. right.
  assert (p = 1) by (clear - K Hb; destruct p as [|[|[|p]]]; cbn in K; lia). subst p. apply DomtreeProofs.route_head in R'. destruct R' as (t & ->). now left.
Qed.
Lemma ex_value : forall b i v, b < 4 -> In i (span (f_insns ex_loop b)) -> (real_use ex_loop i v \/ (i = last_inst ex_loop b /\ In v (out_args ex_loop b))) -> has_value ex_loop b i v.
Proof.
  intros b i v Hb Hi H.
  assert (D : b = 0 /\ i = 1 /\ v = vr 0 \/ b = 1 /\ i = 2 /\ (v = vr 2 \/ v = vr 1) \/ b = 2 /\ i = 4 /\ v = vr 3 \/ b = 2 /\ i = 5 /\ v = vr 4 \/ b = 3 /\ i = 6 /\ (v = vr 3 \/ v = vr 1)).
  { small b; (destruct H as [(o & H1 & H2 & H3 & <-)|[H1 H2]]; [|cbn in H1, H2]); cases; cbn in *; cases; tauto. }
  destruct D as [(-> & -> & ->)|[(-> & -> & [->| ->])|[(-> & -> & ->)|[(-> & -> & ->)|(-> & -> & [->| ->])]]]].
  - left. right. exists 0. cbn. auto.
  - left. left. now left.
  - right. exists 0. split; [lia|]. split; [cbn; auto|apply dom_entry_all].
  - right. exists 1. split; [lia|]. split; [cbn; auto|apply ex_dom; auto].
  - left. right. exists 4. cbn. auto.
  - right. exists 1. split; [lia|]. split; [cbn; auto|apply ex_dom; auto].
  - right. exists 0. split; [lia|]. split; [cbn; auto|apply dom_entry_all].
Qed.
Lemma ex_loop_ok : fast_input ex_loop.
Proof.
  constructor.
  - reflexivity.
  - cbn; lia.
  - reflexivity.
  - intros b Hb. small b.
  - intros b Hb. small b.
  - intros b c Hb Hc. small b; small c.
  - intros b s Hb Hs. small b.
  - intros b Hb. small b; repeat constructor; cbn; lia.
  - intros b p Hb Hp. small b; cases; cbn; lia.
  - intros b s Hb Hs Hl b' Hb' Hs'. small b. small b'.
  - intros b s v Hb Hs (o & H & _). small b.
  - intros b i Hb Hi Hn. unfold last_inst in Hn. small b; cases; cbn; try reflexivity; lia.
  - intros b Hb Hs. small b; congruence.
  - intros b Hb Hs. small b; congruence.
  - intros b k s Hb Hs. small b; cases; reflexivity.
  - split.
    + assert (K : map vreg_num (all_defs ex_loop) = map N.of_nat [0; 1; 2; 3; 4]) by (vm_compute; reflexivity). rewrite K. apply FinFun.Injective_map_NoDup; [intros x y; lia|]. repeat constructor; cbn; lia.
    + assert (K : Forall (fun v => N.to_nat (vreg_num v) < f_nvregs ex_loop) (all_defs ex_loop)) by (vm_compute; repeat constructor; lia). now rewrite Forall_forall in K.
  - vm_compute. discriminate.
  - assert (K : Forall (fun v => vreg_class v <> None) (all_defs ex_loop)) by (vm_compute; repeat constructor; discriminate). now rewrite Forall_forall in K.
  - intros b i v Hb Hi U. apply ex_value; auto.
  - intros b v Hb H. apply ex_value; auto. apply in_seq. small b.
  - intro i. cbn. destruct i as [|[|[|i]]]; [apply wf_empty..| |apply wf_empty]. apply wf_add, wf_empty.
  - intros b i Hb Hi. assert (L : i < 7) by (small b). clear - L. destruct i as [|[|[|[|[|[|[|i]]]]]]]; try lia; constructor; cbn; intros; cases; try reflexivity.
    match goal with H : _ = CReuse _ |- _ => injection H as <- end.
    split; [reflexivity|]. split; [reflexivity|]. exists (use_ 3). split; [reflexivity|]. split; [reflexivity|]. split; [reflexivity|]. split; [discriminate|reflexivity].
  - intros a i o Ha Hi Ho Hd Hc. exfalso. assert (L : i < 7) by (small a). clear - L Ho Hd Hc. destruct i as [|[|[|[|[|[|[|i]]]]]]]; try lia; cbn in Ho; cases.
Qed.
(* the allocator succeeds on the loop and inserts moves *)
Definition ex_out : output := Eval vm_compute in match fast_run true ex_loop (me 3) with OutOk o => o | _ => mkOutput 0 [] [] [] end.
Lemma ex_run : fast_run true ex_loop (me 3) = OutOk ex_out.
Proof. vm_compute. reflexivity. Qed.
Example C39_nonvacuous : menv_ok (me 3) /\ fast_input ex_loop /\ fast_run true ex_loop (me 3) = OutOk ex_out /\
  length (out_edits ex_out) = 13 /\ out_num_spillslots ex_out = 5.
Proof. split; [apply me_ok; lia|]. split; [apply ex_loop_ok|]. split; [apply ex_run|]. vm_compute. auto. Qed.
(* a reused input and a late use beside a definition and a clobbered register *)
Example C40_nonvacuous : menv_ok (me 3) /\ fast_input ex_loop /\ fast_run true ex_loop (me 3) = OutOk ex_out /\
  inst_allocs ex_out 2 = Some [AReg 0%N; AReg 2%N; AReg 1%N] /\ inst_allocs ex_out 4 = Some [AReg 0%N; AReg 0%N].
Proof. split; [apply me_ok; lia|]. split; [apply ex_loop_ok|]. split; [apply ex_run|]. vm_compute. auto. Qed.
(* three times through the loop: values go round it by parameter and by slot *)
Definition semE (w : nat) (i : nat) (l : list nat) : (nat -> nat) * nat := (fun k => 100 * i + 10 * k + fold_left plus l 0, S w).
Definition pickE (w b : nat) : nat := if (b =? 1) && (8 <? w) then 1 else 0.
Example C41_nonvacuous : menv_ok (me 3) /\ fast_input ex_loop /\ fast_run true ex_loop (me 3) = OutOk ex_out /\
  vrun semE pickE ex_loop 7 0 (fun _ => None) 0 =
    Some [(0, []); (1, []); (2, [0; 10]); (3, []); (4, [230]); (5, []); (2, [640; 10]); (3, []); (4, [870]); (5, []); (2, [1280; 10]); (3, []); (6, [1510; 10])].
Proof. split; [apply me_ok; lia|]. split; [apply ex_loop_ok|]. split; [apply ex_run|]. vm_compute. reflexivity. Qed.
