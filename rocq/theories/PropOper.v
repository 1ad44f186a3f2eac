(* C60: the allocations of operands meet their constraints, after all passes of the
   main allocator.  The specification is in OperSpec.v. *)
From Coq Require Import NArith List Bool Arith Lia.
From Verif Require Import Enc PRegSet PropPRegSet PRegSetSpec PRegSetProofs RegTraversalSpec GraphSpec SsaSpec PropApply Func Vecs IndexSet Ranges Ion PRegs Spill Process ProcessSpec RequirementSpec Cfg Postorder PostorderProofs Liveness PropLiveRanges LivenessSpec LiveRanges LiveRangesSpec MultiFixed MultiFixedFunc Cfg ResolveMoves ResolveMovesSpec Apply ApplySpec ApplyDesc ApplyMoves ApplyAll IonRun IonSpec IonTable IonGiven IonFunc PropIonRun PropIonFunc OperSpec.
Import ListNotations.
Open Scope nat_scope.

Section Oper.
  Variables (be : benv) (f : func) (louts : list amap) (livein : nat -> nat -> bool) (cls : list (option regclass)) (name : nat -> vreg) (B : N) (x : ion_states).
  Hypothesis G : func_given be f (in_louts louts) livein cls name B.
  Hypothesis Hlo : louts_ok f louts.
  Hypothesis R : ion_run be f louts livein cls x.
  Let env := be_env be.
  Let ae := is_aenv be f livein x.

  Lemma o_con_at : forall i k o, In i (all_insts f) -> op_at f i k o ->
    (exists R u, owns (ae_ion ae) (ae_slot ae) (ae_lists ae) (vnum (o_vreg o)) R /\ In u (rg_uses R) /\ pt_inst (iu_pos u) = i /\ iu_slot u = k /\ exists l, place (pe_stack env) (rg_loc R) l /\ con_admits (pe_stack env) (o_con o) l) \/
    exists y, In y (ae_fixups ae) /\ fx_pos y = p_before i /\ fx_to y = k.
  Proof.
    destruct R as [R1 R2 R3 R4 R5 R6 R7 R8 R9 _ _ _].
    exact (g_con be f louts livein cls name B G Hlo (is_built x) (is_fixed x) (is_merged x) (is_queued x) (is_done x) (is_last x) R1 R2 R3 R4 R5 R6 (is_spill x) (is_slots x) (is_nslots x) (is_lists x) R7 R8).
  Qed.
  Lemma o_fix_at : forall y, In y (ae_fixups ae) -> exists i o, In i (all_insts f) /\ fx_pos y = p_before i /\ op_at f i (fx_to y) o /\ o_con o = CFixed (fx_preg y) /\ (fx_preg y < 256)%N.
  Proof.
    destruct R as [R1 R2 R3 R4 R5 R6 R7 R8 R9 _ _ _].
    exact (g_fix be f louts livein cls name B G Hlo (is_built x) (is_fixed x) (is_merged x) (is_queued x) (is_done x) (is_last x) R1 R2 R3 R4 R5 R6 (is_spill x) (is_slots x) (is_nslots x) R7).
  Qed.

  Lemma o_met : forall i k o, nth_error (f_operands f i) k = Some o -> (is_reused f i k -> o_con o = CAny \/ o_con o = CReg) -> operand_met env f (is_nslots x) (is_allocs x) i k o.
  Proof.
    pose proof (run_given _ _ _ _ _ _ _ _ G Hlo R) as A. destruct (apply_ok _ _ _ _ _ _ _ _ A) as (ms & al & pv & src & psrc & alu & E & SO & _ & Al).
    rewrite (ir_apply _ _ _ _ _ _ R) in E. injection E as <- <-. fold env in A. fold ae in SO, Al, A. change (ae_f ae) with f in Al.
    assert (F : flow_ok f) by exact (fv_flow _ _ _ _ _ _ _ G).
    assert (Bl : forall i, In i (all_insts f) -> exists b, inst_in f b i).
    { intros i Hi. unfold all_insts in Hi. apply in_flat_map in Hi. destruct Hi as (b & Hb & Hi). apply in_seq in Hb. assert (Hb' : b < f_nblocks f) by lia. exists b. split; [assumption|]. now apply (in_span f F b i Hb'). }
    assert (T := ag_table _ _ _ _ _ _ _ _ A). assert (X := ag_fixups _ _ _ _ _ _ _ _ A).
    (* before reused inputs are rewritten *)
    assert (M2 : forall i k o, In i (all_insts f) -> op_at f i k o -> exists c l, vreg_class (o_vreg o) = Some c /\ loc_of env c (is_nslots x) (al2 ae alu i k) /\ place (pe_stack env) (al2 ae alu i k) l /\ con_admits (pe_stack env) (o_con o) l).
    { intros i k o Hi Ho. destruct (t_name be f _ livein cls name B G i k o Hi Ho) as [_ En]. unfold al2. destruct (fix_find ae true i k) as [y|] eqn:Ef.
      - apply fix_find_in in Ef. destruct Ef as (F1 & F2 & F3 & _). destruct (o_fix_at y F1) as (i' & o' & J1 & J2 & J3 & J4 & J5).
        assert (i' = i) by (rewrite F2 in J2; unfold p_before in J2; lia). subst i'. rewrite F3 in J3. assert (o' = o) by (destruct J3, Ho; congruence). subst o'.
        destruct (fg_reg _ _ _ _ _ _ _ X y F1) as (c & C1 & C2 & C3). destruct (fg_oper _ _ _ _ _ _ _ X y k F1 (or_intror (eq_sym F3))) as (b & i' & o' & _ & P1 & P2 & _ & _ & _ & P3).
        change (ae_f ae) with f in P2. assert (i' = i) by (rewrite F2 in P1; unfold p_before in P1; lia). subst i'. assert (o' = o) by (destruct Ho; congruence). subst o'. rewrite <- P3, <- En in C1.
        exists c, (if pe_stack env (fx_preg y) then LFixedStack (fx_preg y) else LReg (fx_preg y)). split; [exact C1|]. split; [exact C2|]. split; [left; exists (fx_preg y); auto|]. rewrite J4. cbn. destruct (pe_stack env (fx_preg y)) eqn:Es; cbn; auto.
      - destruct (o_con_at i k o Hi Ho) as [(R0 & u & K1 & K2 & K3 & K4 & l & K5 & K6)|(y & Y1 & Y2 & Y3)].
        + pose proof (so_use _ _ _ _ _ SO _ _ _ K1 K2) as K. rewrite K3, K4 in K. rewrite K. destruct (tk_class _ _ _ _ _ _ _ T _ _ K1) as (c & C1 & C2). rewrite <- En in C1. exists c, l. auto.
        + exfalso. destruct (fix_find_all ae true i k y Y1 Y2 Y3 (or_intror eq_refl)) as [z Z]. congruence. }
    intros i k o Hk Hr. pose proof (t_operands be f _ livein cls name B G i o (nth_error_In _ _ Hk)) as Hi. destruct (Bl i Hi) as (b & Hb). unfold operand_met. rewrite (Al b i k o Hb Hk). unfold al3.
    destruct (reuser ae i k) as [j|] eqn:Er.
    - destruct (reuser_some _ _ _ _ Er) as (d & n & D1 & D2 & D3). change (ae_f ae) with f in D1. destruct (fl_reuse _ F i j d n D1 D2) as (_ & _ & u & U1 & U2 & _ & U3 & U4). rewrite D3 in U1. assert (u = o) by congruence. subst u. rewrite U3.
      assert (Nd : o_fixed_nonalloc d = None) by (unfold o_fixed_nonalloc; now rewrite D2). destruct (M2 i j d Hi (conj D1 Nd)) as (c & l & C1 & C2 & C3 & C4). rewrite D2 in C4. destruct l as [p|p|p]; [|contradiction|contradiction].
      assert (Q : o_con o = CAny \/ o_con o = CReg) by (apply Hr; exists j, d, n; auto). split; [exists c; split; [congruence|assumption]|]. split; [exists (LReg p); split; [assumption|destruct Q as [Q|Q]; rewrite Q; exact I]|]. intros m Hm. destruct Q; congruence.
    - destruct (o_fixed_nonalloc o) as [r|] eqn:En.
      + unfold al2. rewrite (fix_def env ae _ name _ _ _ _ A true b i k o Hb Hk (or_intror (ex_intro _ r En))). exact (so_fixed _ _ _ _ _ SO i k o r Hk En).
      + destruct (M2 i k o Hi (conj Hk En)) as (c & l & C1 & C2 & C3 & C4). split; [exists c; auto|]. split; [exists l; auto|]. intros m Hm. destruct (fl_reuse _ F i k o m Hk Hm) as (_ & _ & u & U1 & _).
        rewrite (Al b i _ u Hb U1). unfold al3. now rewrite (reuser_it env ae _ name _ _ _ _ A i k o m Hk Hm).
  Qed.
End Oper.

(* Every operand gets a place of its vreg's class that meets its constraint, with all
   fixups and reuses counted.  Inputs that are reused by a result are where the result
   is, which meets the constraints Any and Reg. *)
Theorem C60_operands : forall be f louts livein cls name B x, func_given be f (in_louts louts) livein cls name B -> louts_ok f louts -> ion_run be f louts livein cls x ->
  forall i k o, nth_error (f_operands f i) k = Some o -> (is_reused f i k -> o_con o = CAny \/ o_con o = CReg) -> operand_met (be_env be) f (is_nslots x) (is_allocs x) i k o.
Proof. intros. eapply o_met; eassumption. Qed.
Print Assumptions C60_operands.

(* The same from the function alone. *)
Theorem C60_function : forall be f name B dbg pf df mf fuel c lv x, fn_given (be_env be) f name B ->
  po_fuel (f_nblocks f) (f_succs f) <= pf -> f_nblocks f + 2 <= df -> 2 * f_nblocks f <= mf ->
  cfg_init pf df mf f = Some (Datatypes.inr c) -> env_of be c -> length (ci_post c) + f_nblocks f * f_nvregs f <= fuel ->
  compute_liveness fuel dbg f (ci_post c) (repeat None (f_nvregs f)) = Some (Datatypes.inr lv) -> ion_run be f (lv_out lv) (live_fn lv) (lv_cls lv) x ->
  forall i k o, nth_error (f_operands f i) k = Some o -> (is_reused f i k -> o_con o = CAny \/ o_con o = CReg) -> operand_met (be_env be) f (is_nslots x) (is_allocs x) i k o.
Proof.
  intros be f name B dbg pf df mf fuel c lv x F H1 H2 H3 E He Hf El R. apply (C60_operands _ _ _ _ _ name B x (n_given be f name B F pf df mf c H1 H2 H3 E dbg fuel lv He Hf El)); [|exact R]. apply (n_sets be f name B F pf df mf c H1 H2 H3 E dbg fuel lv Hf El).
Qed.
Print Assumptions C60_function.

(* ---- inputs that are reused ---- *)
(* One block: v0 is defined; v1 reuses v0, which has the constraint [con]; v1 is used in
   the register 2. *)
Definition rf_ops (con : constraint) (i : nat) : list oper :=
  match i with
  | 0 => [mkOper 0%N CAny Def Late]
  | 1 => [mkOper 0%N con Use Early; mkOper 4%N (CReuse 0%N) Def Late]
  | 2 => [mkOper 4%N (CFixed 2%N) Use Early]
  | _ => []
  end.
Definition rf_func (con : constraint) : func :=
  mkFunc 3 1 0 (fun b => match b with 0 => (0, 3) | _ => (3, 3) end) (fun _ => []) (fun _ => []) (fun _ => []) (fun i => i =? 2) (fun _ => false) (fun b i k => []) (rf_ops con) (fun _ => run EEmpty) 2 (fun _ => 1%N) false false.
Definition rf_be (dbg : bool) (c : cfginfo) : benv :=
  mkBenv (mkPenv dbg ap_menv (fun _ => false) 3 (ci_insn_block c) (nth_error (ci_depth c)) (ci_entry c) 0 N.add (fun w => w) (fun w => w) (fun _ => 0%N)) (ci_exit c) (fun _ _ _ => 0%N).
Lemma rf_insts : forall con i, In i (all_insts (rf_func con)) <-> i < 3.
Proof. intros con i. change (all_insts (rf_func con)) with [0; 1; 2]. cbn [In]. lia. Qed.
Lemma rf_case : forall con i k o, nth_error (f_operands (rf_func con) i) k = Some o -> (i, k, o) = (0, 0, mkOper 0%N CAny Def Late) \/ (i, k, o) = (1, 0, mkOper 0%N con Use Early) \/
  (i, k, o) = (1, 1, mkOper 4%N (CReuse 0%N) Def Late) \/ (i, k, o) = (2, 0, mkOper 4%N (CFixed 2%N) Use Early).
Proof. intros con i k o H. destruct i as [|[|[|i]]]; cbn in H; (destruct k as [|[|k]]; cbn in H; try discriminate H; try (injection H as <-; auto 10)); destruct k; discriminate H. Qed.
Ltac rf_op H := apply rf_case in H; destruct H as [H|[H|[H|H]]]; injection H as -> -> ->.
Lemma rf_flow : forall con, (forall n, con <> CReuse n) -> flow_ok (rf_func con).
Proof.
  intros con Hr.
  assert (Hn : o_fixed_nonalloc (mkOper 0%N con Use Early) = None) by (destruct con; reflexivity).
  assert (Ra : forall i, real_ops (rf_ops con i) = rf_ops con i) by (intros [|[|[|i]]]; [reflexivity|destruct con; reflexivity|reflexivity|reflexivity]).
  assert (B1 : forall b, b < f_nblocks (rf_func con) -> b = 0) by (cbn; intros; lia).
  assert (Op : forall i k o, nth_error (f_operands (rf_func con) i) k = Some o -> In o (rf_ops con i)) by (intros i k o; apply nth_error_In).
  constructor.
  - cbn. lia.
  - intros b Hb. rewrite (B1 b Hb). cbn. lia.
  - intros a b H1 H2. pose proof (B1 b H2). lia.
  - intros b Hb. rewrite (B1 b Hb). cbn. lia.
  - intros b s Hs. cbn. tauto.
  - intros b s Hb [].
  - intros b Hb. constructor.
  - intros b s Hb [].
  - intros b s Hb [].
  - intros b k c Hb Br K. destruct k; discriminate.
  - intros b k s Hb K. destruct k; discriminate.
  - intros b Hb. constructor.
  - intros b c v Hb Hc (p & [] & _).
  - split.
    + intros i a o t Eo Ho. cbn [f_operands rf_func] in Eo. rewrite Ra in Eo. destruct i as [|[|[|i]]]; cbn in Eo.
      * destruct a as [|x a]; injection Eo as E1 E2; [subst|destruct a; discriminate]. intros p [].
      * destruct a as [|x a]; [injection Eo as E1 E2; subst o; discriminate|]. injection Eo as E1 E2. destruct a as [|y a]; [|destruct a; discriminate]. injection E2 as E2 E3. subst. intros p [<-|[]]. discriminate.
      * destruct a as [|x a]; [injection Eo as E1 E2; subst o; discriminate|destruct a; discriminate].
      * destruct a; discriminate.
    + intros b Hb. split; [constructor|]. intros p [].
  - intros i k o n Hk Hc. rf_op Hk; cbn [o_con] in Hc; try discriminate Hc; [destruct (Hr n Hc)|]. injection Hc as <-. split; [reflexivity|]. split; [reflexivity|]. eexists. split; [reflexivity|]. do 2 (split; [reflexivity|]). split; [exact Hn|reflexivity].
  - assert (K : forall i k o, nth_error (f_operands (rf_func con) i) k = Some o -> is_reuse o = true -> k = 1).
    { intros i k o Hk Ho. rf_op Hk; try discriminate; [|reflexivity]. unfold is_reuse in Ho. cbn in Ho. destruct con as [| | | |m|]; try discriminate. destruct (Hr m eq_refl). }
    intros i j k o p Hj Hk Ho Hp. rewrite (K i j o Hj Ho), (K i k p Hk Hp). reflexivity.
  - split; vm_compute; [discriminate|reflexivity].
Qed.
Definition rf_cons : list constraint := [CFixed 1%N; CLimit 2%N; CStack].
Lemma rf_given : forall dbg c con, In con rf_cons -> fn_given (be_env (rf_be dbg c)) (rf_func con) ap_name 1%N.
Proof.
  intros dbg c con Hcon. assert (Hr : forall n, con <> CReuse n) by (intros n ->; destruct Hcon as [K|[K|[K|[]]]]; discriminate). constructor.
  - exact (rf_flow con Hr).
  - intros b Hb. destruct b as [|b]; [apply path_refl|cbn in Hb; lia].
  - constructor.
    + intros b v Hb Hv. destruct b as [|b]; [|cbn in Hb; lia]. destruct Hcon as [<-|[<-|[<-|[]]]]; vm_compute in Hv; repeat (destruct Hv as [<-|Hv]; [split; [vm_compute; lia|reflexivity]|]); destruct Hv.
    + intros v Hv. destruct v as [|[|v]]; [| |cbn in Hv; lia]; split; reflexivity.
  - split; [vm_compute; repeat constructor; cbn; intuition discriminate|]. intros v Hv. vm_compute in Hv. repeat (destruct Hv as [<-|Hv]; [vm_compute; lia|]). destruct Hv.
  - intros v Hv. destruct v as [|[|v]]; [| |cbn in Hv; lia]; discriminate.
  - intros b v q Hb Hd Hq _. destruct b as [|b]; [discriminate Hq|cbn in Hb; lia].
  - split; [reflexivity|]. intro i. rewrite rf_insts. reflexivity.
  - intros i Hi. rewrite rf_insts in Hi. destruct i as [|[|[|i]]]; try lia. reflexivity.
  - intros i Hi. apply rf_insts in Hi. destruct i as [|[|[|i]]]; [| | |lia]; vm_compute; discriminate.
  - intro i. split; [apply run_wf|]. destruct Hcon as [<-|[<-|[<-|[]]]]; (destruct i as [|[|[|i]]]; [split; [solve [constructor]|solve [intros r []]]| | |split; [solve [constructor]|solve [intros r []]]]); cbn [early_fixed];
      (split; [cbn; repeat constructor; cbn; intuition discriminate|]); intros r Hf; cbn in Hf; repeat (destruct Hf as [<-|Hf]; [reflexivity|]); destruct Hf.
  - constructor.
    + intros i j k a b r Hi [Ha _] [Hb _] Hne Ea Eb. exfalso. rf_op Ha; try discriminate Ea; apply rf_case in Hb; destruct Hb as [Hb|[Hb|[Hb|Hb]]]; try discriminate Hb; injection Hb as -> ->; try discriminate Eb; lia.
    + intros i k o r Hi [Ho _] Hc Hp. destruct Hcon as [<-|[<-|[<-|[]]]]; rf_op Ho; try discriminate Hc; discriminate Hp.
    + intros i k o r Hi [Ho _] Hc. destruct Hcon as [<-|[<-|[<-|[]]]]; rf_op Ho; try discriminate Hc; injection Hc as <-; reflexivity.
  - intros i j k a b r n Hi [Ha _] [Hb _] Ev _ Ea Eb. exfalso. rf_op Ha; try discriminate Ea; apply rf_case in Hb; destruct Hb as [Hb|[Hb|[Hb|Hb]]]; try discriminate Hb; injection Hb as -> ->; try discriminate Eb; try discriminate Ev. cbn in Ea, Eb. congruence.
  - intros i j k a b r Hi [Ha _] _ _ _ Hp _ Ea. destruct Hcon as [<-|[<-|[<-|[]]]]; rf_op Ha; try discriminate Ea; discriminate Hp.
  - intros i o n Hi Ho Hn. apply In_nth_error in Ho. destruct Ho as [k Ho]. destruct Hcon as [<-|[<-|[<-|[]]]]; rf_op Ho; try discriminate Hn; injection Hn as <-; lia.
  - intros i k o r Hi [Ho _] Hc. destruct Hcon as [<-|[<-|[<-|[]]]]; rf_op Ho; try discriminate Hc; injection Hc as <-; (split; [discriminate|]); exists Int; (split; [reflexivity|]); (split; [reflexivity|]); discriminate.
  - intros i o r Hi Ho Hf. exfalso. apply In_nth_error in Ho. destruct Ho as [k Ho]. destruct Hcon as [<-|[<-|[<-|[]]]]; rf_op Ho; discriminate Hf.
  - exact (pv_menv _ (mo_env _ _ _ (ap_machine dbg))).
  - reflexivity.
  - intros c' r [_ (s & Es & Hx & Hm)]. destruct c'; cbn in Es; injection Es as <-; change (ps_contains (run EEmpty) r = true) in Hm; (rewrite run_spec in Hm; [|exact I|assumption]); destruct Hm.
  - reflexivity.
  - intros c' r Hd. destruct c'; discriminate.
  - intros v c' Hv Hc. rewrite (ai_int v c' ltac:(cbn in Hv; lia) Hc). exists 0%N. split; [left; eexists; split; [reflexivity|]; split; [reflexivity|]; vm_compute; reflexivity|]. intros i o n Hi Ho Hn. apply In_nth_error in Ho. destruct Ho as [k Ho]. destruct Hcon as [<-|[<-|[<-|[]]]]; rf_op Ho; try discriminate Hn; injection Hn as <-; reflexivity.
  - intros v c' Hv Hc. split; [exists 0%N; reflexivity|reflexivity].
  - reflexivity.
Qed.

(* A reused input with one of these constraints gets the register of the result, which
   violates the constraint, in a function that meets all other conditions. *)
Theorem C60_reused_refuted : forall dbg con, In con rf_cons -> exists c lv x, (forall c', fn_given (be_env (rf_be dbg c')) (rf_func con) ap_name 1%N) /\
  cfg_init 20 20 20 (rf_func con) = Some (Datatypes.inr c) /\ env_of (rf_be dbg c) c /\ compute_liveness 30 dbg (rf_func con) (ci_post c) (repeat None 2) = Some (Datatypes.inr lv) /\
  ion_run (rf_be dbg c) (rf_func con) (lv_out lv) (live_fn lv) (lv_cls lv) x /\
  nth_error (f_operands (rf_func con) 1) 0 = Some (mkOper 0%N con Use Early) /\ ~ operand_met (be_env (rf_be dbg c)) (rf_func con) (is_nslots x) (is_allocs x) 1 0 (mkOper 0%N con Use Early).
Proof.
  intros dbg con Hcon.
  destruct (cfg_init 20 20 20 (rf_func con)) as [[e|c]|] eqn:Ec; [destruct Hcon as [<-|[<-|[<-|[]]]]; vm_compute in Ec; discriminate| |destruct Hcon as [<-|[<-|[<-|[]]]]; vm_compute in Ec; discriminate]. exists c.
  assert (Q : match compute_liveness 30 dbg (rf_func con) (ci_post c) (repeat None 2) with Some (Datatypes.inr lv) => match run_all 100 (rf_be dbg c) (rf_func con) lv with
      Some x => is_allocs x 1 0 = regN 2%N | None => False end | _ => False end).
  { destruct Hcon as [<-|[<-|[<-|[]]]]; vm_compute in Ec; injection Ec as <-; destruct dbg; vm_compute; reflexivity. }
  destruct (compute_liveness 30 dbg (rf_func con) (ci_post c) (repeat None 2)) as [[e|lv]|]; [destruct Q| |destruct Q]. destruct (run_all 100 (rf_be dbg c) (rf_func con) lv) as [x|] eqn:Ex; [|destruct Q]. apply run_all_ok in Ex.
  exists lv, x. split; [intro c'; now apply rf_given|]. do 2 (split; [first [reflexivity|repeat split]|]). split; [reflexivity|]. split; [exact Ex|]. split; [reflexivity|].
  intro M. unfold operand_met in M. replace (o_fixed_nonalloc (mkOper 0%N con Use Early)) with (@None preg) in M by (destruct con; reflexivity). destruct M as (_ & (l & Pl & Cl) & _). rewrite Q in Pl. destruct Pl as [(r & Hr & Er & ->)|(s & Es & _)]; [|unfold regN, slotN in Es; clear - Es; lia].
  assert (r = 2%N) by (unfold regN in Er; clear - Er; lia). subst r. cbn in Cl. destruct Hcon as [<-|[<-|[<-|[]]]]; vm_compute in Cl; [destruct Cl; discriminate|discriminate|contradiction].
Qed.
Print Assumptions C60_reused_refuted.

(* The function of PropApply: the result of instruction 2 reuses its input, and the two
   fixed uses of instruction 3 are in their registers. *)
Example C60_nonvacuous : forall dbg, (forall c, fn_given (be_env (ai_be dbg c)) ap_func ap_name 1%N) /\
  exists c lv x, cfg_init 20 20 20 ap_func = Some (Datatypes.inr c) /\ env_of (ai_be dbg c) c /\ compute_liveness 30 dbg ap_func (ci_post c) (repeat None 3) = Some (Datatypes.inr lv) /\
    ion_run (ai_be dbg c) ap_func (lv_out lv) (live_fn lv) (lv_cls lv) x /\ map (fun i => map (is_allocs x i) (seq 0 (length (ap_ops i)))) [0; 1; 2; 3] = [[regN 0]; []; [regN 0; regN 0]; [regN 0; regN 1; regN 2]]%N /\
    forall i k o, nth_error (f_operands ap_func i) k = Some o -> operand_met (be_env (ai_be dbg c)) ap_func (is_nslots x) (is_allocs x) i k o.
Proof.
  intro dbg. destruct (C59_nonvacuous dbg) as (G & c & lv & x & E1 & E2 & E3 & R & _ & _ & Ea & _). split; [exact G|]. exists c, lv, x. do 5 (split; [assumption|]). intros i k o Hk.
  apply (C60_function (ai_be dbg c) ap_func ap_name 1%N dbg 20 20 20 30 c lv x (G c)); try assumption; try (vm_compute; lia).
  - vm_compute in E1. injection E1 as <-. vm_compute. lia.
  - intros (j & d & n & K1 & K2 & K3). ai_case K1; try discriminate K2. injection K2 as <-. cbn in K3. subst k. injection Hk as <-. now left.
Qed.
