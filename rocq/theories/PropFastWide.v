(* C67 for the single-pass allocator. *)
From Coq Require Import NArith ZArith List Bool Arith Lia.
From Verif Require Import Enc PRegSet PRegSetSpec PRegSetProofs Func GraphSpec SsaSpec LivenessSpec CfgSpec CfgProofs Cfg Postorder PostorderProofs Ssa Output OutputSpec OutputProofs Checker CheckerSpec
  LruProofs LruSpec VRegSet Spill SpillSpec FastallocSpec FastProgSpec WideSpec WideWords Fastalloc FastBase FastBlock FastRun FastWide PropFastProg PropFastMono Vecs Process Lru Top TopSpec PropTop PropCfg TopProofs TopRun.
From Verif Require PropFastalloc FastMono.
Import ListNotations.
Open Scope nat_scope.

(* a dedicated scratch register is of the class that it is listed for *)
Definition scratch_fits (me : machine_env) : Prop := forall c r, nth_error (scratch_by_class me) (N.to_nat (class_u8 c)) = Some (Some r) -> preg_class r = Some c.

Lemma fast_start : forall f me E s0, menv_ok me -> fast_input f -> scratch_fits me -> fast_env f me = Some (E, s0) ->
  (forall c r, fe_dedicated E c = Some r -> (r < 256)%N /\ preg_class r = Some c) /\
  (forall c, (fe_victim E c < 256)%N /\ ((exists r, creg E c r) -> preg_class (fe_victim E c) = Some c)) /\ FW f E [] s0.
Proof.
  intros f me E s0 HM HF HS HEnv. destruct (env_facts f me HM E s0 HEnv) as (HE & B & _ & _ & F3 & F4 & F5 & F6 & F7 & F8).
  assert (Hcr : forall r c, creg E c r -> class_reg me c r).
  { intros r c [K1 K2]. assert (Al : fe_allocatable E = ps_from_env me).
    { unfold fast_env in HEnv. destruct (all_classes (fun c => let! a := by_class (preferred_regs_by_class me) c in _)); [|discriminate]. destruct (all_classes (fun c => let! r := class_regs me c in let! m0 := ps_max_preg r in _)); [|discriminate].
      destruct (all_classes (fun c => let! r := class_regs me c in lru_new c r)); [|discriminate]. destruct (all_classes (by_class (scratch_by_class me))); [|discriminate]. destruct (fast_layout f) as [[? ?] ?]. injection HEnv as <- _. reflexivity. }
    rewrite Al in K1. apply (class_reg_in me HM) in K1. destruct K1 as (d & K1). pose proof (mo_class me HM d r K1). assert (d = c) by congruence. now subst. }
  unfold fast_env in HEnv. destruct (all_classes (fun c => let! a := by_class (preferred_regs_by_class me) c in _)) as [num|]; [|discriminate].
  destruct (all_classes (fun c => let! r := class_regs me c in let! m0 := ps_max_preg r in _)) as [vic|] eqn:Ev; [|discriminate].
  destruct (all_classes (fun c => let! r := class_regs me c in lru_new c r)) as [lrus|] eqn:El; [|discriminate].
  destruct (all_classes (by_class (scratch_by_class me))) as [ded|] eqn:Ed; [|discriminate].
  unfold fast_layout in HEnv. rewrite fast_layout_spec in HEnv. injection HEnv as <- <-.
  pose proof (all_classes_some _ _ _ Ev) as Cv. pose proof (all_classes_some _ _ _ Ed) as Cd. cbv beta in *. cbn [fe_dedicated fe_victim] in *.
  assert (De : forall c r, ded c = Some r -> (r < 256)%N /\ preg_class r = Some c).
  { intros c r K. split; [exact (proj1 (mo_ded me HM r (F3 c r K)))|]. apply HS. specialize (Cd c). unfold by_class in Cd. now rewrite <- K. }
  split; [exact De|]. split.
  - intro c. specialize (Cv c). destruct (class_regs me c) as [s|] eqn:Es; [|discriminate]. destruct (class_regs_in me HM c s Es) as [Ws Is]. destruct (max_preg_spec s Ws) as (mx & Em & Hm). rewrite Em in Cv. injection Cv as <-.
    destruct mx as [x|].
    + destruct Hm as (H1 & H2 & _). apply Is in H2. split; [assumption|]. intros _. now apply (mo_class me HM).
    + split; [reflexivity|]. intros (r & Hr). apply Hcr in Hr. apply Is in Hr. pose proof (set_lt s r Ws Hr) as Lr. unfold inset in Hr. rewrite (Hm r Lr) in Hr. discriminate.
  - split; [reflexivity|]. constructor; cbn [st_slot st_alloc st_inpreg st_scratch st_lru st_live st_edits st_allocs].
    + intros v c _ _ K. now elim K.
    + intros v c _ _. now left.
    + intros r K. now elim K.
    + exact De.
    + exact (b_lru _ _ _ _ B).
    + intro k. left. reflexivity.
    + intros p e [].
    + intros i k op a _ _ Ha. left. apply nth_error_In in Ha. exact (repeat_spec _ _ _ Ha).
Qed.

(* Whenever the single-pass allocator succeeds: its slots are laid out apart, below the
   number of slots that it returns; operands and edits are in locations of their class;
   the allocated function reads what the function with vregs reads, with values stored
   as words. *)
Theorem C67_fast : forall f me o, menv_ok me -> fast_input f -> scratch_fits me -> fast_run true f me = OutOk o ->
  exists lay, layout_ok f lay (N.of_nat (out_num_spillslots o)) /\ output_fits f lay o /\ wide_reads f o.
Proof.
  intros f me o HM HF HS H. pose proof (PropFastalloc.C39_edits f me o HM HF H) as (_ & Ed). pose proof (PropFastalloc.C40_constraints f me o HM HF H) as Co. pose proof (PropFastalloc.C41_values f me o HM HF H) as Va.
  unfold fast_run in H. destruct (fast_env f me) as [[E s0]|] eqn:Ee; [|discriminate]. destruct (Fastalloc.run true f E s0) as [u s|s|] eqn:Er; try discriminate.
  destruct (fast_start f me E s0 HM HF HS Ee) as (D1 & D2 & D3). destruct (env_facts f me HM E s0 Ee) as (_ & _ & _ & _ & _ & F4 & _).
  assert (HO : forall i, i < f_ninsts f -> nth_error (fe_offs E) i = Some (opsum f i)) by (intros i Hi; rewrite F4; now apply nth_offsets).
  pose proof (w_run f E HF HO D1 D2 [] s0 D3) as W. rewrite Er in W. destruct W as (lay & _ & [Hh W] & _). injection H as <-. exists lay. cbn [out_num_spillslots]. rewrite N2Nat.id.
  assert (L : layout_ok f lay (st_num s)) by now apply hist_layout_ok. split; [exact L|].
  assert (O : output_fits f lay (mkOutput (N.to_nat (st_num s)) (st_edits s) (st_allocs s) (fe_offs E))).
  { constructor.
    - intros b i al k op a Hb Hi Hal Hop Ha. assert (Li : i < f_ninsts f) by (apply span_in in Hi; pose proof (fi_range f HF b Hb); lia). destruct (Co b i Hb Hi) as (al' & E1 & _ & E3 & _). assert (al' = al) by congruence. subst al'.
      destruct (E3 k op a Hop Ha) as [K1 K2]. unfold operand_fits. destruct (o_fixed_nonalloc op) as [r|] eqn:En.
      + unfold o_fixed_nonalloc in En. destruct (o_con op); try discriminate. cbn in K1. eauto.
      + destruct (K2 eq_refl) as [Pl _].
        assert (Hn : nth_error (st_allocs s) (opsum f i + k) = Some a).
        { unfold inst_allocs in Hal. cbn [out_offsets out_allocs] in Hal. rewrite (HO i Li) in Hal.
          match type of Hal with match ?c with _ => _ end = _ => destruct c as [e|]; [|discriminate] end. destruct (_ && _); [|discriminate]. injection Hal as <-. apply nth_slice in Ha. exact (proj2 Ha). }
        destruct (w_allocs _ _ _ _ W i k op a Li Hop Hn) as [->|K]; [destruct Pl|]. unfold operand_fits in K. now rewrite En in K.
    - intros p e He. destruct (w_edits _ _ _ _ W p e He) as (c & C1 & C2). destruct (Ed p e He) as (P1 & P2 & P3). exists c.
      assert (N1 : e_from e <> ANone) by (intro Z; rewrite Z in P1; exact P1). assert (N2 : e_to e <> ANone) by (intro Z; rewrite Z in P2; exact P2).
      split; [destruct C1 as [C1|C1]; [contradiction|exact C1]|]. split; [destruct C2 as [C2|C2]; [contradiction|exact C2]|].
      destruct (e_from e) as [|r|x]; [now elim N1|left; eauto|]. destruct (e_to e) as [|r|y]; [now elim N2|right; eauto|]. elim P3. split; left; eauto. }
  split; [exact O|]. apply (words_ok f lay _ _ L O); [rewrite (fi_entry f HF); exact (fi_some f HF)|exact (fi_succs f HF)|exact Va].
Qed.
Print Assumptions C67_fast.

(* The same of both builds, under the conditions of C65. *)
Theorem C67_fast_builds : forall dbg f me o, menv_ok me -> fast_input f -> scratch_fits me -> fast_able f me -> fast_run dbg f me = OutOk o ->
  exists lay, layout_ok f lay (N.of_nat (out_num_spillslots o)) /\ output_fits f lay o /\ wide_reads f o.
Proof.
  intros dbg f me o HM HF HS HA H. apply (C67_fast f me o HM HF HS). destruct dbg; [exact H|]. rewrite <- C66_same; [exact H|]. intro K. pose proof (C65_progress f me HM HF HA) as P. now rewrite K in P.
Qed.
Print Assumptions C67_fast_builds.

(* The same of [run] with the single-pass allocator. *)
Theorem C67_fast_run : forall w so (validate : bool) fuel0 fuel f me out, menv_ok me -> scratch_fits me -> (if validate then fast_caller f else fast_input f) -> fuel_for f <= fuel0 ->
  run true w so fuel0 fuel f me (mkOpts Fast validate) = TOk out -> exists lay, layout_ok f lay (N.of_nat (out_num_spillslots out)) /\ output_fits f lay out /\ wide_reads f out.
Proof.
  intros w so validate fuel0 fuel f me out HM HS C Hf H. unfold fuel_for in Hf. unfold run, fast_top in H. cbn [op_algorithm op_validate] in H.
  assert (Fr : fast_result (fast_run true f me) = TOk out -> fast_run true f me = OutOk out) by (destruct (fast_run true f me); cbn; congruence).
  destruct validate; [|now apply (C67_fast f me out HM C HS), Fr].
  assert (H1 : po_fuel (f_nblocks f) (f_succs f) <= fuel0) by lia. assert (H2 : 2 * f_nblocks f + 2 <= fuel0) by lia.
  assert (Hb : blocks_ok f).
  { split; [intros b Hb'; split; [exact (fc_nonempty f C b Hb')|exact (fc_range f C b Hb')]|]. intros a b i Ha Hb' Hi Hi'. apply FastBlock.span_in in Hi. apply FastBlock.span_in in Hi'. destruct (lt_eq_lt_dec a b) as [[K|K]|K]; [|exact K|]; [pose proof (fc_order f C a b K Hb')|pose proof (fc_order f C b a K Ha)]; lia. }
  assert (Hp : preds_ok f) by exact (flow_preds f (fc_preds f C)). pose proof (cfg_init_spec f Hb Hp fuel0 fuel0 fuel0 H1) as Hc.
  destruct (cfg_init fuel0 fuel0 fuel0 f) as [[e|c]|] eqn:E; [discriminate|destruct Hc as (Ce & _ & _ & _ & Cb & _); [lia|lia|]|discriminate].
  destruct (C22_accepts_exactly f fuel0 fuel0 fuel0 c fuel0 Hb Hp H1) as [V1 V2]; [lia|lia|exact E|lia|]. fold (ssa_ok f) in V1.
  unfold checked in H. destruct (validate_ssa fuel0 f c) as [[e|[]]|] eqn:Ev; try discriminate.
  assert (S : ssa_ok f) by now apply V1. apply (C67_fast f me out HM (fast_given f C Cb Ce S) HS). now apply Fr.
Qed.
Print Assumptions C67_fast_run.

(* ---------------- a case ---------------- *)
(* v0 of class Int takes one index, v1 and v2 of class Float two; one Float register, so
   that v1 is spilled for v2 *)
Definition fw_ops (i : nat) : list oper :=
  match i with
  | 0 => [mkOper 0%N CReg Def Late]
  | 1 => [mkOper 5%N CReg Def Late]
  | 2 => [mkOper 9%N CReg Def Late]
  | 3 => [mkOper 9%N CReg Use Early; mkOper 0%N CStack Use Early; mkOper 5%N CStack Use Early]
  | _ => []
  end.
Definition fw_func : func :=
  mkFunc 4 1 0 (fun b => match b with 0 => (0, 4) | _ => (4, 4) end) (fun _ => []) (fun _ => []) (fun _ => []) (fun i => i =? 3) (fun _ => false) (fun b i k => []) fw_ops (fun _ => ps_empty) 3 (fun c => match c with Int => 1%N | Float => 2%N | Vector => 4%N end) false false.
Definition fw_regs (l : list N) : pregset := ps_from_iter l.
Definition fw_me : machine_env := mkEnv [fw_regs [0; 1]%N; fw_regs [64]%N; ps_empty] [ps_empty; ps_empty; ps_empty] [Some 5%N; None; None] [].
Definition fw_out : output := Eval vm_compute in match fast_run true fw_func fw_me with OutOk o => o | _ => mkOutput 0 [] [] [] end.
Lemma fw_me_ok : menv_ok fw_me.
Proof.
  assert (Lt : forall l, Forall (fun r => (r < 256)%N) l -> forall r, ps_contains (fw_regs l) r = true -> In r l).
  { intros l Hl r K. unfold fw_regs, ps_from_iter in K. rewrite contains_mem, mem_from_iter in K; [|apply wf_empty|exact Hl]. destruct K as [K|K]; [exact K|]. rewrite mem_empty in K. discriminate. }
  assert (Em : forall r, ps_contains ps_empty r = true -> False) by (intros r K; rewrite contains_mem, mem_empty in K; discriminate).
  assert (Cl : forall c r, class_reg fw_me c r -> c = Int /\ (r = 0 \/ r = 1)%N \/ c = Float /\ r = 64%N).
  { intros c r (s & H & K). destruct c; cbn [fw_me preferred_regs_by_class non_preferred_regs_by_class class_u8 N.to_nat Pos.to_nat Pos.iter_op Init.Nat.add nth_error] in H; destruct H as [H|H]; injection H as <-; try (exfalso; exact (Em r K)).
    - left. split; [reflexivity|]. apply Lt in K; [|repeat constructor]. cbn in K. intuition congruence.
    - right. split; [reflexivity|]. apply Lt in K; [|repeat constructor]. cbn in K. intuition congruence. }
  constructor; try reflexivity.
  - intros s H. cbn [fw_me preferred_regs_by_class non_preferred_regs_by_class In] in H. repeat (destruct H as [H|H]; try contradiction; try (subst s; unfold fw_regs; first [apply wf_from_iter, wf_empty|apply wf_empty])).
  - intros c r H. destruct (Cl c r H) as [[-> [->| ->]]|[-> ->]]; reflexivity.
  - intros r [].
  - intros r [H|[H|[H|[]]]]; try discriminate. injection H as <-. split; [reflexivity|]. split; [intros []|]. intros c K. destruct (Cl c _ K) as [[_ [Z|Z]]|[_ Z]]; discriminate Z.
Qed.
Lemma fw_scratch : scratch_fits fw_me.
Proof. intros [] r H; cbn in H; try discriminate. injection H as <-. reflexivity. Qed.
Ltac cases :=
  repeat match goal with
         | H : _ \/ _ |- _ => destruct H
         | H : False |- _ => destruct H
         | H : nth_error _ ?k = Some _ |- _ => destruct k; cbn in H; [injection H as <-|]
         | H : nth_error [] ?k = Some _ |- _ => destruct k; discriminate H
         end; subst; try discriminate.
Ltac one b := destruct b as [|b]; cbn in *; try lia.
Lemma fw_func_ok : fast_input fw_func.
Proof.
  constructor.
  - reflexivity.
  - cbn; lia.
  - reflexivity.
  - intros b Hb. one b.
  - intros b Hb. one b.
  - intros b c Hb Hc. one b.
  - intros b s Hb [].
  - intros b Hb. constructor.
  - intros b p Hb [].
  - intros b s Hb [].
  - intros b s v Hb [].
  - reflexivity.
  - intros b Hb Hs. now elim Hs.
  - discriminate.
  - intros b [|k] s Hb Hs; discriminate Hs.
  - split.
    + assert (K : map vreg_num (all_defs fw_func) = [0; 1; 2]%N) by (vm_compute; reflexivity). rewrite K. repeat constructor; cbn; intuition discriminate.
    + assert (K : Forall (fun v => N.to_nat (vreg_num v) < f_nvregs fw_func) (all_defs fw_func)) by (vm_compute; repeat constructor; lia). now rewrite Forall_forall in K.
  - vm_compute. discriminate.
  - assert (K : Forall (fun v => vreg_class v <> None) (all_defs fw_func)) by (vm_compute; repeat constructor; discriminate). now rewrite Forall_forall in K.
  - intros b i v Hb Hi (o & U1 & U2 & U3 & <-). one b. left. right. cases; cbn in U1; cases; [exists 2|exists 0|exists 1]; repeat split; cbn; (tauto || lia).
  - intros b v Hb []. 
  - intro i. apply wf_empty.
  - intros b i Hb Hi. one b. cases; constructor; cbn; intros; cases.
  - intros a i o Ha Hi Ho Hd Hc. exfalso. one a. cases; cbn in Ho; cases.
Qed.
(* the Int slot 0 and the Float slot 2, which takes the indices 2 and 3 *)
Example C67_fast_nonvacuous : menv_ok fw_me /\ fast_input fw_func /\ scratch_fits fw_me /\ fast_run true fw_func fw_me = OutOk fw_out /\
  out_num_spillslots fw_out = 4 /\ In (1, mkEdit (AReg 1%N) (AStack 0%N)) (out_edits fw_out) /\ In (3, mkEdit (AReg 64%N) (AStack 2%N)) (out_edits fw_out) /\ takes fw_func Float 2%N 3%N.
Proof. split; [exact fw_me_ok|]. split; [exact fw_func_ok|]. split; [exact fw_scratch|]. split; [vm_compute; reflexivity|]. split; [reflexivity|]. split; [cbn; auto|]. split; [cbn; auto|]. split; [discriminate|reflexivity]. Qed.
