(* The single-pass allocator terminates without a panic: theorems about the model in
   Fastalloc.v. *)
From Coq Require Import NArith ZArith List Bool Arith Lia.
From Verif Require Import Enc PRegSet PRegSetSpec PRegSetProofs Func GraphSpec SsaSpec LivenessSpec Output CheckerSpec FastallocSpec FastProgSpec.
From Verif Require Import Fastalloc FastProgRun PropFastalloc.
Import ListNotations.
Open Scope nat_scope.

(* ---------------- C65: progress ---------------- *)
(* With its debug assertions on, the allocator does not panic, and it fails only if
   some instruction has operands whose fixed registers clash, or has no register left
   beside its operands. *)
Theorem C65_progress : forall f me, menv_ok me -> fast_input f -> fast_able f me ->
  match fast_run true f me with OutOk _ => True | OutErr => stuck f me | OutPanic => False end.
Proof. exact run_good. Qed.
Print Assumptions C65_progress.

(* It succeeds if no fixed registers clash, and each instruction has one register more
   than its operands want, in each class that it moves values of. *)
Theorem C65_success : forall f me, menv_ok me -> fast_input f -> fast_able f me ->
  (forall b i, b < f_nblocks f -> In i (span (f_insns f b)) -> ~ fixed_clash me (f_operands f i)) ->
  (forall b i c, b < f_nblocks f -> In i (span (f_insns f b)) -> concerns f me b i c -> (exists r, class_reg me c r) ->
     exists l, NoDup l /\ Forall (spare me (f_clobbers f i) (f_operands f i) c) l /\
       (wanted (f_operands f i) c < length l \/ (has_scratch me c /\ wanted (f_operands f i) c <= length l))) ->
  exists o, fast_run true f me = OutOk o /\ same_reads f o.
Proof.
  intros f me HM HF HA Hc Hr. pose proof (C65_progress f me HM HF HA) as P. destruct (fast_run true f me) as [o| |] eqn:E; [|exfalso|destruct P].
  - exists o. split; [reflexivity|]. now apply (C41_values f me o).
  - destruct P as (b & i & Hb & Hi & [K|(c & K1 & K2 & K3)]); [exact (Hc b i Hb Hi K)|]. destruct (Hr b i c Hb Hi K1 K2) as (l & L1 & L2 & L3). destruct (K3 l L1 L2) as [K4 K5]. destruct L3 as [L3|[L3 L4]]; [lia|specialize (K5 L3); lia].
Qed.
Print Assumptions C65_success.

(* Fixed registers that clash do stop it: an operand fixed to a register that is not
   one of the machine's, or two operands, not both reading the same vreg, fixed to one
   register that they need at the same point. *)
Theorem C65_clash : forall f me b i k o r, menv_ok me -> fast_input f -> fast_able f me ->
  b < f_nblocks f -> In i (span (f_insns f b)) -> nth_error (f_operands f i) k = Some o -> o_con o = CFixed r -> o_fixed_nonalloc o = None ->
  (~ ((exists c, class_reg me c r) \/ In r (fixed_stack_slots me) \/ In (Some r) (scratch_by_class me)) \/
   exists j o', nth_error (f_operands f i) j = Some o' /\ j <> k /\ o_con o' = CFixed r /\ o_fixed_nonalloc o' = None /\ ~ may_share o o') ->
  fast_run true f me = OutErr.
Proof.
  intros f me b i k o r HM HF HA Hb Hi Ho Hc Hn H. pose proof (C65_progress f me HM HF HA) as P. destruct (fast_run true f me) as [out| |] eqn:E; [exfalso|reflexivity|destruct P].
  destruct (C40_constraints f me out HM HF E b i Hb Hi) as (al & A1 & A2 & A3 & A4).
  assert (Fx : forall j o', nth_error (f_operands f i) j = Some o' -> o_con o' = CFixed r -> nth_error al j = Some (AReg r)).
  { intros j o' J1 J2. assert (L : j < length al) by (rewrite A2; apply nth_error_Some; congruence). destruct (nth_error al j) as [a|] eqn:Ea; [|apply nth_error_None in Ea; lia].
    destruct (A3 j o' a J1 Ea) as [K _]. rewrite J2 in K. cbn [con_ok] in K. now rewrite K. }
  pose proof (Fx k o Ho Hc) as Ek. destruct H as [H|(j & o' & J1 & J2 & J3 & J4 & J5)].
  - apply H. destruct (A3 k o _ Ho Ek) as [_ K]. exact (proj1 (K Hn)).
  - apply J5. apply (A4 k j o o' r Ho J1 Hn J4); auto. exact (Fx j o' J1 J3).
Qed.
Print Assumptions C65_clash.

(* ---- cases ---- *)
Lemma class_me : forall n c r, n <= 64 -> class_reg (me n) c r <-> c = Int /\ (r < N.of_nat n)%N.
Proof.
  intros n c r Hn. assert (Em : ps_contains ps_empty r = false) by (rewrite contains_mem; apply mem_empty).
  assert (Rg : ps_contains (regs (map N.of_nat (seq 0 n))) r = true <-> (r < N.of_nat n)%N).
  { unfold regs. rewrite contains_mem, mem_from_iter; [|apply wf_empty|].
    - rewrite mem_empty. split; [intros [K|K]; [|discriminate]|intro K; left].
      + apply in_map_iff in K. destruct K as (j & <- & K). apply in_seq in K. lia.
      + apply in_map_iff. exists (N.to_nat r). split; [lia|apply in_seq; lia].
    - apply Forall_forall. intros x Hx. apply in_map_iff in Hx. destruct Hx as (j & <- & Hj). apply in_seq in Hj. lia. }
  split.
  - intros (s & H & K). destruct c; cbn in H; destruct H as [H|H]; injection H as <-; try congruence. split; [reflexivity|]. now apply Rg.
  - intros [-> K]. exists (regs (map N.of_nat (seq 0 n))). split; [left; reflexivity|]. now apply Rg.
Qed.
Lemma able_me : forall f n, 0 < n <= 64 ->
  (forall i o, i < f_ninsts f -> In o (f_operands f i) -> vreg_class (o_vreg o) = Some Int /\ (forall k, o_con o <> CLimit k) /\ o_fixed_nonalloc o = None) ->
  (forall b, b < f_nblocks f -> snd (f_insns f b) <= f_ninsts f) ->
  (forall i, i < f_ninsts f -> forall o k u, In o (f_operands f i) -> o_con o = CReuse k -> nth_error (f_operands f i) (N.to_nat k) = Some u -> o_con u = CReg) ->
  (forall i, i < f_ninsts f -> length (f_operands f i) <= 100) -> (forall v, In v (all_defs f) -> vreg_class v = Some Int) ->
  f_nvregs f <= 100 -> f_nblocks f <= 100 -> (forall c, f_spillslot_size f c = 1%N) -> fast_able f (me n).
Proof.
  intros f n Hn Ho Hr Hu Hl Hd Hv Hb Hs.
  assert (Li : forall b i, b < f_nblocks f -> In i (span (f_insns f b)) -> i < f_ninsts f) by (intros b i B1 B2; apply FastBlock.span_in in B2; pose proof (Hr b B1); lia).
  constructor.
  - intros b i o B1 B2 B3. destruct (Ho i o (Li b i B1 B2) B3) as [K _]. congruence.
  - intros b i o k B1 B2 B3. exact (proj1 (proj2 (Ho i o (Li b i B1 B2) B3)) k).
  - intros b i o k u B1 B2 B3. apply (Hu i (Li b i B1 B2) o k u B3).
  - intros b i o B1 B2 B3 B4. destruct (Ho i o (Li b i B1 B2) B3) as (_ & _ & K). congruence.
  - intros b i B1 B2. pose proof (Hl i (Li b i B1 B2)). lia.
  - intros v c V1 V2. rewrite (Hd v V1) in V2. injection V2 as <-. exists 0%N. apply class_me; [lia|]. split; [reflexivity|lia].
  - exists 2%N. split; [transitivity 5000%N; [lia|vm_compute; discriminate]|]. intros v c _ _. exists 0%N. rewrite Hs. split; [reflexivity|cbn; lia].
Qed.
Ltac insts i L := destruct i as [|[|[|[|[|[|[|i]]]]]]]; try (exfalso; cbn in L; lia).
Lemma loop_able : forall n, 0 < n <= 64 -> fast_able ex_loop (me n).
Proof.
  intros n Hn. apply able_me; auto; try (cbn; lia).
  - intros i o L Ho. insts i L; cbn in Ho; cases; repeat split; discriminate.
  - intros b Hb. small b.
  - intros i L o k u Ho Hc Hu. insts i L; cbn in Ho; repeat (destruct Ho as [<-|Ho]; [try discriminate Hc|]); try destruct Ho. injection Hc as <-. injection Hu as <-. reflexivity.
  - intros i L. insts i L; cbn; lia.
  - assert (K : Forall (fun v => vreg_class v = Some Int) (all_defs ex_loop)) by (vm_compute; repeat constructor). now rewrite Forall_forall in K.
Qed.
(* the loop of PropFastalloc: five registers are enough; three happen to be enough,
   though they do not meet the condition of C65_success; two are not *)
Example C65_nonvacuous : menv_ok (me 5) /\ fast_input ex_loop /\ fast_able ex_loop (me 5) /\ ~ stuck ex_loop (me 5) /\ wanted (f_operands ex_loop 2) Int = 3.
Proof.
  split; [apply me_ok; lia|]. split; [apply ex_loop_ok|]. split; [apply loop_able; lia|]. split; [|reflexivity].
  intros (b & i & Hb & Hi & [(k & o & r & K1 & K2 & _)|(c & K1 & (r0 & K2) & K3)]).
  - assert (L : i < 7) by (small b). clear Hb Hi. apply nth_error_In in K1. insts i L; cbn in K1; cases.
  - apply class_me in K2; [|lia]. destruct K2 as [-> _]. assert (L : i < 7) by (small b). clear Hb Hi.
    specialize (K3 (if i =? 2 then [1; 2; 3; 4]%N else [0; 1; 2; 3; 4]%N)).
    destruct K3 as [K3 _].
    + destruct (i =? 2); repeat constructor; cbn; intuition discriminate.
    + apply Forall_forall. intros r Hr. split; [|split].
      * apply class_me; [lia|]. split; [reflexivity|]. destruct (i =? 2); cbn in Hr; cases; reflexivity.
      * insts i L; cbn in Hr; cases; vm_compute; reflexivity.
      * intros o Ho. insts i L; cbn in Ho; cases.
    + insts i L; vm_compute in K3; lia.
Qed.
Example C65_nonvacuous_two : menv_ok (me 2) /\ fast_input ex_loop /\ fast_able ex_loop (me 2) /\ fast_run true ex_loop (me 2) = OutErr.
Proof. split; [apply me_ok; lia|]. split; [apply ex_loop_ok|]. split; [apply loop_able; lia|]. vm_compute. reflexivity. Qed.

(* ---- what the allocator does not accept ---- *)
Definition anyu k := mkOper (vr k) CAny Use Early.
Lemma line_ok : forall ops (d : list vreg),
  0 < length ops -> (forall i v, i < length ops -> real_use (line ops) i v -> defined_before (line ops) 0 i v) ->
  all_defs (line ops) = d -> NoDup (map vreg_num d) -> Forall (fun v => N.to_nat (vreg_num v) < 20 /\ vreg_class v <> None) d ->
  (forall i, i < length ops -> ops_ok ps_empty (nth i ops [])) -> (forall i o, i < length ops -> In o (nth i ops []) -> is_def o = true -> o_con o <> CStack /\ o_con o <> CAny) ->
  fast_input (line ops).
Proof.
  intros ops d L U Ed Nd Fd Oo Sd. assert (Z : forall b, b < 1 -> b = 0) by (intros; lia). rewrite Forall_forall in Fd. constructor; cbn [line f_entry f_nblocks f_params f_insns f_ninsts f_succs f_preds fst snd f_is_branch f_clobbers]; auto.
  - intros b c H1 H2. lia.
  - intros b s _ [].
  - intros. constructor.
  - intros b p _ [].
  - intros b s _ [].
  - intros b s v _ [].
  - intros b _ H. congruence.
  - split; [fold (all_defs (line ops)); rewrite Ed; exact Nd|]. intros v Hv. cbn [line f_nvregs]. rewrite Ed in Hv. exact (proj1 (Fd v Hv)).
  - vm_compute. discriminate.
  - intros v Hv. rewrite Ed in Hv. exact (proj2 (Fd v Hv)).
  - intros b i v Hb Hi Hu. rewrite (Z b Hb). left. apply U; [|exact Hu]. unfold span in Hi. cbn in Hi. apply in_seq in Hi. lia.
  - intros b v Hb Hv. exfalso. unfold out_args in Hv. cbn in Hv. exact Hv.
  - intros i. apply wf_empty.
  - intros b i Hb Hi. apply Oo. unfold span in Hi. cbn in Hi. apply in_seq in Hi. lia.
  - intros a i o Ha Hi Ho Hd [Hc|Hc]; exfalso; unfold span in Hi; cbn in Hi; apply in_seq in Hi; destruct (Sd i o ltac:(lia) Ho Hd); auto.
Qed.
Ltac three i := match goal with L : i < _ |- _ => destruct i as [|[|[|i]]]; [..|exfalso; cbn in L; lia] end.
Ltac vdef := match goal with U : real_use _ _ _ |- _ => destruct U as (?o & Uo & Uk & _ & <-); cbn in Uo end.
Definition p_reuse := line [[def_ 0]; [anyu 0; reud 1 0%N]; []].
Definition p_limit := line [[def_ 0]; [mkOper (vr 0) (CLimit 2) Use Early]; []].
Definition p_twice := line [[def_ 0]; [fixu 0 1%N; fixu 0 1%N]; []].
Definition p_clash := line [[def_ 0; def_ 1]; [fixu 0 1%N; fixu 1 1%N]; []].
Lemma ops_easy : forall l, (forall o, In o l -> match o_con o with CFixed r => (r < 256)%N /\ preg_class r = vreg_class (o_vreg o) | CReuse _ => False | _ => True end) -> ops_ok ps_empty l.
Proof.
  intros l H. constructor.
  - intros o r Ho Hc. specialize (H o Ho). now rewrite Hc in H.
  - intros o r _ _ _ _. rewrite contains_mem. apply mem_empty.
  - intros k o i Ho Hc. apply nth_error_In in Ho. specialize (H o Ho). rewrite Hc in H. destruct H.
  - intros k k' o o' i Ho _ Hc. apply nth_error_In in Ho. specialize (H o Ho). rewrite Hc in H. destruct H.
Qed.
Ltac lineok d := apply (line_ok _ d); [cbn; lia| |vm_compute; reflexivity|repeat constructor; cbn; intuition discriminate|repeat constructor; vm_compute; try lia; discriminate| |];
  [intros i v L U; three i; vdef; cases; right; exists 0; cbn; auto 6|intros i L; three i; try solve [apply ops_easy; intros o Ho; cbn in Ho; cases; cbn; first [exact I|split; [lia|reflexivity]]]|intros i o L Ho Hd; three i; cbn in Ho; cases; split; discriminate].
Lemma p_reuse_ok : fast_input p_reuse.
Proof.
  unfold p_reuse. lineok [vr 0; vr 1]. cbn. constructor; cbn; intros; cases; try reflexivity.
  match goal with H : _ = CReuse _ |- _ => injection H as <- end. split; [reflexivity|]. split; [reflexivity|]. exists (anyu 0). split; [reflexivity|]. split; [reflexivity|]. split; [reflexivity|]. split; [discriminate|reflexivity].
Qed.
Lemma p_limit_ok : fast_input p_limit.
Proof. unfold p_limit. lineok [vr 0]. Qed.
Lemma p_twice_ok : fast_input p_twice.
Proof. unfold p_twice. lineok [vr 0]. Qed.
Lemma p_clash_ok : fast_input p_clash.
Proof. unfold p_clash. lineok [vr 0; vr 1]. Qed.
(* A reused input that may be anywhere, and a limit on the register number, make it
   panic. *)
Theorem C65_panic_refuted : ~ (forall f me, menv_ok me -> fast_input f -> fast_run true f me <> OutPanic).
Proof. intro H. apply (H p_reuse (me 3)); [apply me_ok; lia|apply p_reuse_ok|vm_compute; reflexivity]. Qed.
Theorem C65_limit_refuted : fast_input p_limit /\ fast_run true p_limit (me 3) = OutPanic.
Proof. split; [apply p_limit_ok|vm_compute; reflexivity]. Qed.
(* It fails on two operands that read the same vreg in the same register, although an
   allocation exists. *)
Theorem C65_twice_refuted : fast_input p_twice /\ fast_run true p_twice (me 3) = OutErr /\ may_share (fixu 0 1%N) (fixu 0 1%N).
Proof. split; [apply p_twice_ok|]. split; [vm_compute; reflexivity|]. left. auto. Qed.
Lemma clash_able : fast_able p_clash (me 3).
Proof.
  apply able_me; auto; try (cbn; lia).
  - intros i o L Ho. three i; cbn in Ho; cases; repeat split; discriminate.
  - intros i L o k u Ho Hc Hu. three i; cbn in Ho; repeat (destruct Ho as [<-|Ho]; [try discriminate Hc|]); destruct Ho.
  - intros i L. three i; cbn; lia.
  - assert (K : Forall (fun v => vreg_class v = Some Int) (all_defs p_clash)) by (vm_compute; repeat constructor). now rewrite Forall_forall in K.
Qed.
Example C65_nonvacuous_clash : menv_ok (me 3) /\ fast_input p_clash /\ fast_able p_clash (me 3) /\ fixed_clash (me 3) (f_operands p_clash 1) /\ ~ may_share (fixu 0 1%N) (fixu 1 1%N).
Proof.
  split; [apply me_ok; lia|]. split; [apply p_clash_ok|]. split; [apply clash_able|]. split.
  - exists 0, (fixu 0 1%N), 1%N. repeat (split; [reflexivity|]). right. exists 1, (fixu 1 1%N), Early. repeat split; auto; try discriminate; now left.
  - intros [(_ & _ & K)|K]; [discriminate|]. apply (K Early). split; now left.
Qed.
